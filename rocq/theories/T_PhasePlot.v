(** C83: the plots of phase retrieval results. *)
From Verif Require Import M_PhasePlot S_PSF S_Phase S_Fit L_Array L_Sum L_Fit L_Fit2 T_Phase T_Phase2 T_Fit T_Fit2.
Import M_Array.
Local Open Scope R_scope.

(** Two images, the phase on the first axes and the magnitude on the second, that show the complex pupil [P]: where the phase is
    masked the pupil is 0, elsewhere it is the shown magnitude with the shown phase. *)
Definition shows (axs : option (list nat)) (ny nx : Z) (P : array C) (l : list image) : Prop :=
  exists ph mg, l = [ph; mg] /\ im_title ph = "Pupil Phase"%string /\ im_title mg = "Pupil Magnitude"%string /\
    match axs with None => im_axes ph <> im_axes mg | Some given => given = [im_axes ph; im_axes mg] end /\
    im_limits ph = Some (- PI, PI) /\ shape (im_data ph) = [ny; nx] /\ shape (im_data mg) = [ny; nx] /\
    forall y x, (0 <= y < ny)%Z -> (0 <= x < nx)%Z ->
      exists m, get (im_data mg) [y; x] = Some m /\
        match get (im_data ph) [y; x] with
        | None => m = 0 /\ get P [y; x] = RtoC 0
        | Some p => m <> 0 /\ get P [y; x] = Cmult (RtoC m) (cis p)
        end.
(** None (new axes) or two axes. *)
Definition drawable (axs : option (list nat)) : Prop := match axs with None => True | Some l => List.length l = 2%nat end.

Lemma two_axes_ok axs : drawable axs -> exists a b, two_axes axs = Ok (a, b) /\ match axs with None => a <> b | Some l => l = [a; b] end.
Proof.
  destruct axs as [[|a [|b [|c l]]]|]; cbn; intros H; try discriminate.
  - exists a, b. auto.
  - exists 0%nat, 1%nat. auto.
Qed.
Lemma plot_shows mag phase P axs ny nx : shape mag = [ny; nx] -> shape phase = [ny; nx] -> complex_pupil mag phase = Ok P -> drawable axs ->
  exists l, plot_complex_pupil mag phase axs = Ok l /\ shows axs ny nx P l /\
    exists ph mg, l = [ph; mg] /\ forall y x, (0 <= y < ny)%Z -> (0 <= x < nx)%Z ->
      get (im_data mg) [y; x] = Some (get mag [y; x]) /\ (get mag [y; x] <> 0 -> get (im_data ph) [y; x] = Some (get phase [y; x])).
Proof.
  intros Sm Sp EP Hd. destruct (two_axes_ok axs Hd) as (a & b & Ea & Hab). unfold plot_complex_pupil. rewrite Ea. cbn [bind fst snd].
  unfold masked. rewrite Sm, Sp. cbn [zlist_eqb]. rewrite !Z.eqb_refl. cbn [andb bind]. eexists. split; [reflexivity|]. split.
  - unfold shows. eexists _, _. split; [reflexivity|]. cbn [im_title im_axes im_limits im_data shape amap]. split; [reflexivity|]. split; [reflexivity|].
    split; [destruct axs; exact Hab|]. split; [reflexivity|]. split; [reflexivity|]. split; [exact Sm|].
    intros y x Hy Hx. exists (get mag [y; x]). cbn [get]. split; [reflexivity|].
    assert (GP : get P [y; x] = Cmult (RtoC (get mag [y; x])) (cis (get phase [y; x]))).
    { unfold complex_pupil, bop, bshape in EP. rewrite Sm, Sp in EP. cbn [rev app bshape_rev] in EP. unfold bdim in EP. rewrite !Z.eqb_refl in EP. cbn [bind rev app] in EP. injection EP as <-. cbn [get].
      unfold bget. rewrite Sm, Sp. cbn [List.length Nat.sub skipn bixs]. unfold bix.
      destruct (Z.eqb_spec ny 1), (Z.eqb_spec nx 1); subst; repeat (replace y with 0%Z by lia); repeat (replace x with 0%Z by lia); reflexivity. }
    destruct (Req_EM_T (get mag [y; x]) 0) as [E|E].
    + split; [exact E|]. rewrite GP, E. apply Cmult_0_l.
    + split; [exact E|exact GP].
  - eexists _, _. split; [reflexivity|]. intros y x Hy Hx. cbn [im_data amap get]. split; [reflexivity|]. intros H. destruct (Req_EM_T _ _); [contradiction|reflexivity].
Qed.

Section R.
Context (u : array R -> array R) (data : array R) (params : pdict) (nz n : Z) (model : obj numeric) (pt mt : tol) (po : bool).
Hypothesis Hu : unwraps u.
Hypothesis Hus : usable data params nz n model.

(** plot() of a retrieval result shows its complex pupil, with the phase blank at every pixel outside the aperture; a phase-only
    retrieval is blank nowhere else. *)
Theorem C83_result_plot :
  forall k axs, (1 <= k)%Z -> drawable axs ->
  exists r P l, fst (retrieve_phase u data params k pt mt po) = Ok r /\ complex_pupil (r_mag r) (r_phase r) = Ok P /\
    plot_result r axs = Ok l /\ shows axs n n P l /\
    forall ph mg, l = [ph; mg] -> forall y x, (0 <= y < n)%Z -> (0 <= x < n)%Z ->
      (~ inside (hpar_model model) y x -> get (im_data ph) [y; x] = None) /\
      (get (im_data ph) [y; x] <> None -> get (im_data ph) [y; x] = Some (get (r_phase r) [y; x])) /\
      (po = true -> inside (hpar_model model) y x -> get (im_data ph) [y; x] = Some (get (r_phase r) [y; x]) /\ get (im_data mg) [y; x] = Some 1).
Proof.
  intros k axs Hk Ha. destruct (C47_support u data params nz n model pt mt po Hu Hus k Hk) as (r & Er & S1 & S2 & G).
  assert (exists P, complex_pupil (r_mag r) (r_phase r) = Ok P) as (P & EP).
  { unfold complex_pupil, bop, bshape. rewrite S1, S2. cbn [rev app bshape_rev]. unfold bdim. rewrite !Z.eqb_refl. cbn [bind]. eexists. reflexivity. }
  destruct (plot_shows _ _ P axs n n S1 S2 EP Ha) as (l & El & Sl & ph & mg & Epm & V). exists r, P, l. split; [exact Er|]. split; [exact EP|]. split; [exact El|]. split; [exact Sl|].
  intros ph' mg' E y x Hy Hx. rewrite Epm in E. injection E as <- <-. destruct (G y x Hy Hx) as (G0 & G1 & G2). destruct (V y x Hy Hx) as (V1 & V2).
  destruct Sl as (ph' & mg' & E & _ & _ & _ & _ & _ & _ & W). rewrite Epm in E. injection E as <- <-. destruct (W y x Hy Hx) as (m & Wm & W2). rewrite V1 in Wm. injection Wm as Wm. split; [|split].
  - intros Hi. destruct (G1 Hi) as [Z0 _]. destruct (get (im_data ph) [y; x]); [|reflexivity]. destruct W2 as [W2 _]. rewrite <- Wm in W2. contradiction.
  - intros Hs. apply V2. destruct (get (im_data ph) [y; x]); [|contradiction]. destruct W2 as [W2 _]. now rewrite Wm.
  - intros Hpo Hi. pose proof (G2 Hpo Hi) as M1. split; [apply V2; rewrite M1; lra|]. now rewrite V1, M1.
Qed.

(** plot_convergence() draws, from top to bottom, the mean squared error of the PSF after every iteration, its change relative to
    the previous error and the change of the pupil relative to the energy of the previous pupil; all three curves have one point
    per iteration, the lower two start with a gap. *)
Theorem C83_convergence_plot :
  forall k, (1 <= k)%Z ->
  exists r mse dmse dpupil, fst (retrieve_phase u data params k pt mt po) = Ok r /\
    plot_convergence r = [("Mean Squared Error", mse); ("Relative Change in MSE", dmse); ("Relative Change in Pupil", dpupil)]%string /\
    (1 <= List.length mse <= Z.to_nat k)%nat /\ List.length dmse = List.length mse /\ List.length dpupil = List.length mse /\
    nth 0 dmse None = None /\ nth 0 dpupil None = None /\
    forall i P psf, (i < List.length mse)%nat -> after u data params pt mt po model i P psf ->
      nth i mse None = Some (mean_sq data psf) /\
      forall P' psf', (S i < List.length mse)%nat -> after u data params pt mt po model (S i) P' psf' ->
        nth (S i) dmse None = ratio (Rabs (mean_sq data psf - mean_sq data psf')) (mean_sq data psf) /\
        nth (S i) dpupil None = ratio (energy_diff P P') (energy P).
Proof.
  intros k Hk. destruct (C45_records u data params nz n model pt mt po Hu Hus k Hk) as (r & Er & G).
  destruct (retrieve_phase u data params k pt mt po) as [q d'] eqn:E. cbn [fst] in Er. subst q.
  destruct (C45_bookkeeping _ _ _ _ _ _ _ _ _ E) as (L1 & L2 & L3 & L4 & N1 & N2 & _).
  exists r, (r_mse r), (r_mse_diff r), (r_pupil_diff r). split; [reflexivity|]. split; [reflexivity|]. split; [lia|]. split; [exact L1|]. split; [exact L2|]. split; [exact N1|]. split; [exact N2|].
  intros i P psf Hi A. split; [exact (proj1 (proj2 (G i Hi) P psf A))|]. intros P' psf' Hi' A'. exact (proj2 (proj2 (G (S i) Hi') P' psf' A') i P psf eq_refl A).
Qed.
End R.
Print Assumptions C83_result_plot.
Print Assumptions C83_convergence_plot.

(** Axes in any other number than two are refused, for both plots. *)
Theorem C83_axes_refused :
  forall mag phase l, List.length l <> 2%nat -> plot_complex_pupil mag phase (Some l) = Err ValueError.
Proof. intros mag phase [|a [|b [|c l]]] H; try reflexivity. now elim H. Qed.
Print Assumptions C83_axes_refused.

(** ZernikeDecomposition.plot(smag, sphase) shows the pupil complex_pupil(smag, sphase) returns. *)
Theorem C83_decomposition_plot :
  forall (d : decomposition) (m ny nx : Z) (smag sphase : pyslice) axs,
    shape (zd_zerns d) = [m; ny; nx] -> Z.of_nat (List.length (zd_pcoefs d)) = m -> Z.of_nat (List.length (zd_mcoefs d)) = m -> drawable axs ->
    exists P l, zd_complex_pupil d smag sphase = Ok P /\ plot_decomposition d smag sphase axs = Ok l /\ shows axs ny nx P l.
Proof.
  intros d m ny nx smag sphase axs Hs Hp Hm Ha.
  destruct (C52_reconstruction d m ny nx smag Hs Hp Hm) as (_ & a & _ & Ea & _ & Sa & _).
  destruct (C52_reconstruction d m ny nx sphase Hs Hp Hm) as (p & _ & Ep & _ & Sp & _ & _).
  assert (exists P, complex_pupil a p = Ok P) as (P & EP).
  { unfold complex_pupil, bop, bshape. rewrite Sa, Sp. cbn [rev app bshape_rev]. unfold bdim. rewrite !Z.eqb_refl. cbn [bind]. eexists. reflexivity. }
  destruct (plot_shows a p P axs ny nx Sa Sp EP Ha) as (l & El & Sl & _). exists P, l.
  unfold zd_complex_pupil, plot_decomposition. rewrite Ea. cbn [bind]. rewrite Ep. cbn [bind]. auto.
Qed.
Print Assumptions C83_decomposition_plot.

(** ** Bars *)
Lemma noll_upto_length k : List.length (noll_upto k) = k.
Proof. unfold noll_upto. now rewrite map_length, seq_length. Qed.
Lemma noll_upto_nth k i : (i < k)%nat -> nth i (noll_upto k) 0%Z = (Z.of_nat i + 1)%Z.
Proof.
  intros H. unfold noll_upto. rewrite (nth_indep _ _ ((fun i => Z.of_nat i + 1)%Z 0%nat)) by (rewrite map_length, seq_length; lia).
  rewrite (map_nth (fun i => (Z.of_nat i + 1)%Z)), seq_nth by lia. reflexivity.
Qed.
Lemma bars_equal x h : List.length x = List.length h ->
  exists l, bars x h = Ok l /\ List.length l = List.length h /\
    forall i, (i < List.length h)%nat -> exists b, nth_error l i = Some b /\ b_at b = nth i x 0%Z /\ b_height b = nth i h 0.
Proof.
  intros H. unfold bars. rewrite H, Nat.eqb_refl. eexists. split; [reflexivity|]. rewrite map_length, combine_length, H, Nat.min_id. split; [reflexivity|].
  intros i Hi. exists (mkBar (nth i x 0%Z) (nth i h 0)). split; [|split; reflexivity].
  rewrite nth_error_map, (nth_error_nth' _ (0%Z, 0)) by (rewrite combine_length; lia). rewrite combine_nth by exact H. reflexivity.
Qed.

Lemma map_at_bars : forall x (cs : list R), List.length x = List.length cs -> map b_at (map (fun p => mkBar (fst p) (snd p)) (combine x cs)) = x.
Proof. induction x as [|z x IH]; intros [|c cs] H; cbn in *; try congruence. f_equal. apply IH. congruence. Qed.

(** plot_coefs(): one bar per mode at its Noll number; the heights times the modes at the bars' positions make up the magnitude
    and the phase. *)
Section Coefs.
Context (u : array R -> array R) (data : array R) (params : pdict) (nz n : Z) (model : obj numeric) (pt mt : tol) (po : bool)
  (lstsq : list (list R) -> list R -> list R).
Let h := hpar_model model.
Theorem C83_coefficient_bars :
  unwraps u -> usable data params nz n model -> 0 < h_na h -> least_squares lstsq ->
  forall k r num, (1 <= k)%Z -> fst (retrieve_phase u data params k pt mt po) = Ok r -> (2 <= num <= 120)%nat ->
  exists d mb pb a p, fit_to_zernikes lstsq r (Z.of_nat num) = Ok d /\
    plot_coefs d = Ok [("Magnitude Coefficients"%string, mb); ("Phase Coefficients"%string, pb)] /\
    map b_at mb = noll_upto num /\ map b_at pb = noll_upto num /\
    zd_mag d full_slice = Ok a /\ zd_phase d full_slice = Ok p /\
    forall y x, (0 <= y < n)%Z -> (0 <= x < n)%Z ->
      get a [y; x] = Rsum mb (fun b => b_height b * zmode (b_at b) (rim_r h y x) (rim_t h y x)) /\
      get p [y; x] = Rsum pb (fun b => b_height b * zmode (b_at b) (rim_r h y x) (rim_t h y x)).
Proof.
  intros Hu Hus Hna Hl k r num Hk Er Hnum.
  destruct (C51_least_squares u data params nz n model pt mt po lstsq Hu Hus Hna Hl k r num Hk Er Hnum) as (d & Ed & Lm & Lp & Sz & Gz & _).
  fold h in Gz.
  destruct (C52_reconstruction d (Z.of_nat num) n n full_slice Sz ltac:(lia) ltac:(lia)) as (p & a & Ep & Ea & _ & _ & G).
  assert (B : forall cs, List.length cs = num -> bars (noll_upto (List.length cs)) cs = Ok (map (fun p => mkBar (fst p) (snd p)) (combine (noll_upto num) cs))).
  { intros cs Hc. unfold bars. rewrite noll_upto_length, Nat.eqb_refl, Hc. reflexivity. }
  assert (A : forall cs, List.length cs = num -> map b_at (map (fun p => mkBar (fst p) (snd p)) (combine (noll_upto num) cs)) = noll_upto num).
  { intros cs Hc. apply map_at_bars. now rewrite noll_upto_length. }
  assert (Sg : forall cs y x, List.length cs = num -> (0 <= y < n)%Z -> (0 <= x < n)%Z ->
    Rsum (zseq (Z.of_nat num)) (fun i => picked (Z.of_nat num) full_slice i * (nth (Z.to_nat i) cs 0 * get (zd_zerns d) [i; y; x])) =
    Rsum (map (fun p => mkBar (fst p) (snd p)) (combine (noll_upto num) cs)) (fun b => b_height b * zmode (b_at b) (rim_r h y x) (rim_t h y x))).
  { intros cs y x Hc Hy Hx. rewrite Rsum_map. cbn [b_at b_height]. unfold zseq. rewrite Rsum_map, Nat2Z.id.
    transitivity (Rsum (seq 0 num) (fun i => (fun q : Z * R => snd q * zmode (fst q) (rim_r h y x) (rim_t h y x)) (nth i (combine (noll_upto num) cs) (0%Z, 0)))).
    - apply Rsum_ext. intros i Hi. apply in_seq in Hi. rewrite combine_nth by (rewrite noll_upto_length; lia). cbn [fst snd]. rewrite noll_upto_nth by lia. rewrite Gz by (auto; lia). rewrite Nat2Z.id.
      unfold picked, full_slice, slice_bound. cbn [sl_start sl_stop]. repeat match goal with |- context [Z.leb ?a ?b] => destruct (Z.leb_spec a b) | |- context [Z.ltb ?a ?b] => destruct (Z.ltb_spec a b) end; try lia. ring.
    - assert (Hlen : List.length (combine (noll_upto num) cs) = num) by (rewrite combine_length, noll_upto_length; lia). rewrite <- Hlen at 1.
      generalize (combine (noll_upto num) cs). intros l. clear. rewrite <- (Rsum_map (fun i => nth i l (0%Z, 0)) (seq 0 (List.length l)) (fun q => snd q * zmode (fst q) (rim_r h y x) (rim_t h y x))).
      f_equal. apply (nth_ext _ _ (0%Z, 0) (0%Z, 0)); [now rewrite map_length, seq_length|]. intros i Hi. rewrite map_length, seq_length in Hi.
      rewrite (nth_indep _ _ ((fun i => nth i l (0%Z, 0)) 0%nat)) by (rewrite map_length, seq_length; lia). rewrite (map_nth (fun i => nth i l (0%Z, 0))), seq_nth by lia. reflexivity. }
  eexists d, _, _, a, p. split; [exact Ed|]. split; [unfold plot_coefs; rewrite (B _ Lm), (B _ Lp); cbn [bind combine]; reflexivity|].
  split; [now apply A|]. split; [now apply A|]. split; [exact Ea|]. split; [exact Ep|].
  intros y x Hy Hx. destruct (G y x Hy Hx) as [-> ->]. split; now apply Sg.
Qed.
End Coefs.
Print Assumptions C83_coefficient_bars.

(** ** Bars with names *)
(** The bars of [l]: one for each aberration from Noll number 5 to 15, the i-th at the Noll number [5 + i] of a name of the table,
    labelled with that name in title case. *)
Definition named_bars (heights : nat -> R) (l : list (string * bar)) : Prop :=
  List.length l = 11%nat /\
  forall i, (i < 11)%nat -> exists lab b name, nth_error l i = Some (lab, b) /\ lab = title name /\
    lookup name2noll name = Some (b_at b) /\ b_at b = (5 + Z.of_nat i)%Z /\ b_height b = heights i.
Lemma names_5_15 : forall i, (i < 11)%nat -> exists name,
  nth_error (skipn 4 (map (fun i => title (name_of noll2name (i + 1))) (zseq (Z.of_nat (List.length noll2name))))) i = Some (title name) /\
  lookup name2noll name = Some (5 + Z.of_nat i)%Z.
Proof.
  intros i Hi. exists (name_of noll2name (5 + Z.of_nat i)).
  do 11 (destruct i as [|i]; [split; vm_compute; reflexivity|]). lia.
Qed.
Lemma nth_error_combine {A B} : forall (l : list A) (m : list B) i a b, nth_error l i = Some a -> nth_error m i = Some b -> nth_error (combine l m) i = Some (a, b).
Proof. induction l as [|x l IH]; intros [|y m] [|i] a b H1 H2; cbn in *; try congruence. now apply IH. Qed.
Lemma named_of_bars (hs : nat -> R) b : List.length b = 11%nat ->
  (forall i, (i < 11)%nat -> exists c, nth_error b i = Some c /\ b_at c = (5 + Z.of_nat i)%Z /\ b_height c = hs i) ->
  named_bars hs (combine (skipn 4 (map (fun i => title (name_of noll2name (i + 1))) (zseq (Z.of_nat (List.length noll2name))))) b).
Proof.
  intros Hb Hc. split; [rewrite combine_length, Hb; reflexivity|].
  intros i Hi. destruct (Hc i Hi) as (c & Ec & Ac & Bc). destruct (names_5_15 i Hi) as (nm & En & Ln).
  exists (title nm), c, nm. split; [now apply nth_error_combine|]. split; [reflexivity|]. split; [now rewrite Ac|]. split; [exact Ac|exact Bc].
Qed.
Lemma skip4_noll i : (i < 11)%nat -> nth i (skipn 4 (noll_upto 15)) 0%Z = (5 + Z.of_nat i)%Z.
Proof. intros Hi. do 11 (destruct i as [|i]; [reflexivity|]). lia. Qed.
Lemma nth_skip4_first15 (l : list R) i : (i < 11)%nat -> (i + 4 < List.length l)%nat -> nth i (skipn 4 (firstn 15 l)) 0 = nth (i + 4) l 0.
Proof.
  intros Hi Hl. do 4 (destruct l as [|? l]; [cbn in Hl; lia|]). cbn [firstn skipn]. replace (i + 4)%nat with (S (S (S (S i)))) by lia. cbn [nth]. clear Hl.
  revert i Hi l. assert (G : forall k i (l : list R), (i < k)%nat -> nth i (firstn k l) 0 = nth i l 0).
  { induction k; intros i l Hi; [lia|]. destruct l; [reflexivity|]. destruct i; [reflexivity|]. cbn. apply IHk. lia. }
  intros i Hi l. exact (G 11%nat i l Hi).
Qed.

Lemma lookup_In (t : list (string * Z)) : forall a x, lookup t a = Some x -> In (a, x) t.
Proof. induction t as [|[k v] t IH]; cbn; intros a x H; [discriminate|]. destruct (String.eqb_spec a k); [injection H as <-; subst; auto|auto]. Qed.
Lemma title_inj a b x y : lookup name2noll a = Some x -> lookup name2noll b = Some y -> title a = title b -> a = b.
Proof.
  intros Ha Hb Ht. apply lookup_In in Ha, Hb. cbn in Ha, Hb.
  repeat (destruct Ha as [Ha|Ha]; [injection Ha as <- <-; repeat (destruct Hb as [Hb|Hb]; [injection Hb as <- <-; solve [reflexivity | vm_compute in Ht; discriminate]|]); destruct Hb|]); destruct Ha.
Qed.
(** plot_named_coefs() of a decomposition into at least 15 modes: the bar of each of the eleven aberrations has the height of
    that aberration's phase coefficient. *)
Theorem C83_named_coefs :
  forall d, (15 <= List.length (zd_pcoefs d))%nat ->
  exists l, plot_named_coefs d = Ok l /\ named_bars (fun i => nth (4 + i) (zd_pcoefs d) 0) l /\
    forall lab b name noll, In (lab, b) l -> lookup name2noll name = Some noll -> lab = title name ->
      b_at b = noll /\ b_height b = nth (Z.to_nat (noll - 1)) (zd_pcoefs d) 0.
Proof.
  intros d Hd.
  destruct (bars_equal (skipn 4 (noll_upto 15)) (skipn 4 (firstn 15 (zd_pcoefs d)))) as (l & El & Ll & Gl).
  { rewrite skipn_length, noll_upto_length, skipn_length, firstn_length. lia. }
  rewrite skipn_length, firstn_length in Ll, Gl. replace (Nat.min 15 (List.length (zd_pcoefs d)) - 4)%nat with 11%nat in * by lia.
  eexists. split. { unfold plot_named_coefs. change (List.length (map _ _)) with 15%nat. rewrite El. cbn [bind]. reflexivity. }
  match goal with |- ?A /\ _ => assert (N : A) end.
  { apply named_of_bars; [exact Ll|]. intros i Hi. destruct (Gl i Hi) as (b & Eb & Ab & Hb). exists b. split; [exact Eb|]. rewrite skip4_noll in Ab by exact Hi. split; [exact Ab|].
    rewrite Hb, nth_skip4_first15 by lia. f_equal. lia. }
  split; [exact N|]. destruct N as [N1 N2]. intros lab b name noll Hin Hn ->. apply In_nth_error in Hin. destruct Hin as (i & Hi).
  assert (Hi' : (i < 11)%nat) by (rewrite <- N1; apply nth_error_Some; congruence).
  destruct (N2 i Hi') as (lab' & b' & nm & E & Et & El' & Ea & Eh). rewrite Hi in E. injection E as <- <-.
  assert (nm = name) by (apply (title_inj _ _ _ _ El' Hn); congruence).
  subst nm. rewrite Hn in El'. injection El' as ->. split; [reflexivity|]. rewrite Eh, Ea. f_equal. lia.
Qed.
Print Assumptions C83_named_coefs.

(** FINDING: with exactly five phase coefficients all eleven bars have the height of the fifth (oblique astigmatism); with any other
    number below 15 the call fails. *)
Theorem C83_named_coefs_few :
  forall d, (List.length (zd_pcoefs d) < 15)%nat ->
  (List.length (zd_pcoefs d) = 5%nat -> exists l, plot_named_coefs d = Ok l /\ named_bars (fun _ => nth 4 (zd_pcoefs d) 0) l) /\
  (List.length (zd_pcoefs d) <> 5%nat -> plot_named_coefs d = Err ValueError).
Proof.
  intros d Hd. unfold plot_named_coefs. change (List.length (map _ _)) with 15%nat. unfold bars. rewrite skipn_length, noll_upto_length. cbn [Nat.sub].
  rewrite firstn_all2 by lia. rewrite skipn_length. split.
  - intros E. rewrite E. cbn [Nat.sub Nat.eqb]. cbn [bind]. eexists. split; [reflexivity|]. apply named_of_bars; [reflexivity|]. intros i Hi.
    exists (mkBar (5 + Z.of_nat i) (nth 4 (zd_pcoefs d) 0)). cbn [b_at b_height]. split; [|split; reflexivity].
    destruct (zd_pcoefs d) as [|c0 [|c1 [|c2 [|c3 [|c4 ?]]]]]; try discriminate. cbn [skipn nth].
    do 11 (destruct i as [|i]; [reflexivity|]). lia.
  - intros E. destruct (Nat.eqb_spec 11 (List.length (zd_pcoefs d) - 4)) as [H|H]; [lia|]. destruct (Nat.eqb_spec (List.length (zd_pcoefs d) - 4) 1) as [H1|H1]; [lia|]. reflexivity.
Qed.
Print Assumptions C83_named_coefs_few.

(** ** The hypotheses can be met *)
Example named_labels : exists d l, List.length (zd_pcoefs d) = 15%nat /\ plot_named_coefs d = Ok l /\ map (fun p => b_at (snd p)) l = [5; 6; 7; 8; 9; 10; 11; 12; 13; 14; 15]%Z /\
  map fst l = ["Oblique Astigmatism"; "Vertical Astigmatism"; "Vertical Coma"; "Horizontal Coma"; "Vertical Trefoil"; "Oblique Trefoil";
     "Primary Spherical"; "Vertical Secondary Astigmatism"; "Oblique Secondary Astigmatism"; "Vertical Quadrafoil"; "Oblique Quadrafoil"]%string.
Proof.
  exists (mkZD (repeat 0 15) (repeat 1 15) (mkArr [15; 1; 1]%Z (fun _ => 0))). eexists. split; [reflexivity|]. split; [vm_compute; reflexivity|]. split; vm_compute; reflexivity.
Qed.
Example plot_witness : exists r, usable wdata wdict 7 64 (wmade numeric) /\ drawable (Some [3%nat; 1%nat]) /\ drawable None /\
  fst (retrieve_phase (fun a => a) wdata wdict 5 (Tol 0) (Tol 0) false) = Ok r.
Proof.
  destruct (C83_result_plot _ _ _ _ _ _ (Tol 0) (Tol 0) false unwraps_witness usable_witness 5 None ltac:(lia) I) as (r & _ & _ & Er & _).
  exists r. split; [exact usable_witness|]. split; [reflexivity|]. split; [exact I|exact Er].
Qed.
