(** C51, C52: Zernike fits of retrieved pupils and reconstructions from them. *)
From Verif Require Import S_PSF S_Fit L_Array L_Sum L_FFT L_FFT2 L_Polar L_PSF L_Hanser L_Hanser2 L_Hanser3 L_Hanser4 L_Aberr L_Aberr3 L_Phase L_Phase2 L_Phase3 L_Phase4 L_Phase5 L_Phase6 L_Phase7 L_Phase8 L_Fit L_Fit2 T_Zernike T_Object T_Phase T_Phase2.
Import M_Array.
Local Open Scope R_scope.

(** ** C52 reconstructions *)
(** A reconstruction is the sum over the selected modes of coefficient times mode, for every Python slice without step. *)
Theorem C52_reconstruction :
  forall (d : decomposition) (m ny nx : Z) (s : pyslice),
    shape (zd_zerns d) = [m; ny; nx] -> Z.of_nat (List.length (zd_pcoefs d)) = m -> Z.of_nat (List.length (zd_mcoefs d)) = m ->
    exists p a, zd_phase d s = Ok p /\ zd_mag d s = Ok a /\ shape p = [ny; nx] /\ shape a = [ny; nx] /\
      forall y x, (0 <= y < ny)%Z -> (0 <= x < nx)%Z ->
        get p [y; x] = Rsum (zseq m) (fun i => picked m s i * (nth (Z.to_nat i) (zd_pcoefs d) 0 * get (zd_zerns d) [i; y; x])) /\
        get a [y; x] = Rsum (zseq m) (fun i => picked m s i * (nth (Z.to_nat i) (zd_mcoefs d) 0 * get (zd_zerns d) [i; y; x])).
Proof.
  intros d m ny nx s Sz Hp Hm. destruct (recon_val (zd_pcoefs d) (zd_zerns d) m ny nx s Sz Hp) as (p & E1 & S1 & G1). destruct (recon_val (zd_mcoefs d) (zd_zerns d) m ny nx s Sz Hm) as (a & E2 & S2 & G2).
  exists p, a. repeat (split; [assumption|]). auto.
Qed.
Print Assumptions C52_reconstruction.
(** [picked] is 1 exactly on the indices Python selects. *)
Lemma picked_spec n s i : (selects n s i -> picked n s i = 1) /\ (~ selects n s i -> picked n s i = 0).
Proof.
  unfold selects, picked. destruct (Z.leb_spec (slice_bound n (sl_start s) 0) i), (Z.ltb_spec i (slice_bound n (sl_stop s) n)); split; intros; auto; exfalso; lia.
Qed.
(** Every index is selected by exactly one of [:k] and [k:], so the two partial reconstructions add up to the full one. *)
Theorem C52_complementary_slices :
  forall (d : decomposition) (m ny nx k : Z),
    shape (zd_zerns d) = [m; ny; nx] -> Z.of_nat (List.length (zd_pcoefs d)) = m -> Z.of_nat (List.length (zd_mcoefs d)) = m ->
    exists p1 p2 p a1 a2 a,
      zd_phase d (Slice None (Some k)) = Ok p1 /\ zd_phase d (Slice (Some k) None) = Ok p2 /\ zd_phase d full_slice = Ok p /\
      zd_mag d (Slice None (Some k)) = Ok a1 /\ zd_mag d (Slice (Some k) None) = Ok a2 /\ zd_mag d full_slice = Ok a /\
      forall y x, (0 <= y < ny)%Z -> (0 <= x < nx)%Z ->
        get p1 [y; x] + get p2 [y; x] = get p [y; x] /\ get a1 [y; x] + get a2 [y; x] = get a [y; x].
Proof.
  intros d m ny nx k Sz Hp Hm.
  destruct (C52_reconstruction d m ny nx (Slice None (Some k)) Sz Hp Hm) as (p1 & a1 & E1 & F1 & _ & _ & G1).
  destruct (C52_reconstruction d m ny nx (Slice (Some k) None) Sz Hp Hm) as (p2 & a2 & E2 & F2 & _ & _ & G2).
  destruct (C52_reconstruction d m ny nx full_slice Sz Hp Hm) as (p & a & E & F & _ & _ & G).
  exists p1, p2, p, a1, a2, a. repeat (split; [assumption|]). intros y x Hy Hx. destruct (G1 y x Hy Hx) as [-> ->], (G2 y x Hy Hx) as [-> ->], (G y x Hy Hx) as [-> ->].
  assert (Q : forall i, In i (zseq m) -> picked m (Slice None (Some k)) i + picked m (Slice (Some k) None) i = picked m full_slice i).
  { intros i Hi. apply in_zseq_iff in Hi. unfold picked, full_slice, slice_bound. cbn [sl_start sl_stop]. destruct (Z.ltb_spec k 0);
      repeat match goal with |- context [Z.leb ?a ?b] => destruct (Z.leb_spec a b) | |- context [Z.ltb ?a ?b] => destruct (Z.ltb_spec a b) end; try lia; try lra. }
  split; rewrite <- Rsum_plus; apply Rsum_ext; intros i Hi; rewrite <- (Q i Hi); ring.
Qed.
Print Assumptions C52_complementary_slices.
(** Reconstruction is linear in the coefficients. *)
Theorem C52_linear :
  forall (zerns : array R) (c1 c2 : list R) (a b : R) (m ny nx : Z) (s : pyslice),
    shape zerns = [m; ny; nx] -> Z.of_nat (List.length c1) = m -> Z.of_nat (List.length c2) = m ->
    exists r1 r2 r, zd_phase (mkZD c1 c1 zerns) s = Ok r1 /\ zd_phase (mkZD c2 c2 zerns) s = Ok r2 /\
      zd_phase (mkZD c1 (map (fun p => a * fst p + b * snd p) (combine c1 c2)) zerns) s = Ok r /\
      forall y x, (0 <= y < ny)%Z -> (0 <= x < nx)%Z -> get r [y; x] = a * get r1 [y; x] + b * get r2 [y; x].
Proof.
  intros zerns c1 c2 a b m ny nx s Sz H1 H2. destruct (recon_val c1 zerns m ny nx s Sz H1) as (r1 & E1 & _ & G1). destruct (recon_val c2 zerns m ny nx s Sz H2) as (r2 & E2 & _ & G2).
  assert (H3 : Z.of_nat (List.length (map (fun p => a * fst p + b * snd p) (combine c1 c2))) = m) by (rewrite map_length, combine_length; lia).
  destruct (recon_val _ zerns m ny nx s Sz H3) as (r & E & _ & G).
  exists r1, r2, r. repeat (split; [assumption|]). intros y x Hy Hx. rewrite G, G1, G2 by auto. rewrite <- !Rsum_scal_l, <- Rsum_plus. apply Rsum_ext. intros i Hi. apply in_zseq_iff in Hi.
  assert (E3 : nth (Z.to_nat i) (map (fun p : R * R => a * fst p + b * snd p) (combine c1 c2)) 0 = a * nth (Z.to_nat i) c1 0 + b * nth (Z.to_nat i) c2 0).
  { transitivity ((fun p : R * R => a * fst p + b * snd p) (nth (Z.to_nat i) (combine c1 c2) (0, 0))); [|rewrite combine_nth by lia; reflexivity]. rewrite <- (map_nth (fun p : R * R => a * fst p + b * snd p)). cbn [fst snd]. f_equal. ring. }
  rewrite E3. ring.
Qed.
Print Assumptions C52_linear.
(** generate_zd_psf with its default slice does not see piston, tip, tilt and defocus: phase coefficients that agree from the fifth
    on give the same PSF whatever the first four are. *)
Theorem C52_default_ignores_four :
  forall (r : result) (mc rest p1 p2 : list R) (zerns : array R) size zsize zrange,
    List.length p1 = 4%nat -> List.length p2 = 4%nat ->
    generate_zd_psf r (mkZD mc (p1 ++ rest) zerns) default_sphase size zsize zrange =
    generate_zd_psf r (mkZD mc (p2 ++ rest) zerns) default_sphase size zsize zrange.
Proof.
  intros r mc rest p1 p2 zerns size zsize zrange H1 H2. unfold generate_zd_psf, zd_complex_pupil, zd_mag, zd_phase, recon. cbn [zd_mcoefs zd_pcoefs zd_zerns].
  replace (slice_list (p1 ++ rest) default_sphase) with (slice_list (p2 ++ rest) default_sphase); [reflexivity|].
  unfold slice_list. rewrite !app_length, H1, H2. apply map_ext_in. intros i Hi. apply in_zseq_iff in Hi. unfold default_sphase in *. unfold slice_len, norm_start, norm_stop in *. cbn [sl_start sl_stop norm_bound Z.ltb Z.compare] in *. unfold norm_bound in *. cbn [Z.ltb Z.compare] in *.
  rewrite !app_nth2 by lia. now rewrite H1, H2.
Qed.
Print Assumptions C52_default_ignores_four.
(** ... and it does use the fifth: with the fifth mode alone the reconstructed phase is that coefficient times the mode. *)
Theorem C52_default_uses_the_rest :
  forall (d : decomposition) (m ny nx : Z), shape (zd_zerns d) = [m; ny; nx] -> Z.of_nat (List.length (zd_pcoefs d)) = m -> Z.of_nat (List.length (zd_mcoefs d)) = m ->
    exists p, zd_phase d default_sphase = Ok p /\
      forall y x, (0 <= y < ny)%Z -> (0 <= x < nx)%Z ->
        get p [y; x] = Rsum (zseq m) (fun i => if Z.leb 4 i then nth (Z.to_nat i) (zd_pcoefs d) 0 * get (zd_zerns d) [i; y; x] else 0).
Proof.
  intros d m ny nx Sz Hp Hm. destruct (C52_reconstruction d m ny nx default_sphase Sz Hp Hm) as (p & a & E & _ & _ & _ & G). exists p. split; [exact E|]. intros y x Hy Hx. rewrite (proj1 (G y x Hy Hx)).
  apply Rsum_ext. intros i Hi. apply in_zseq_iff in Hi. unfold picked, default_sphase, slice_bound. cbn [sl_start sl_stop Z.ltb Z.compare].
  repeat match goal with |- context [Z.leb ?a ?b] => destruct (Z.leb_spec a b) | |- context [Z.ltb ?a ?b] => destruct (Z.ltb_spec a b) end; try lia; try ring.
Qed.
Print Assumptions C52_default_uses_the_rest.

(** ** C51 the fit *)
Section F.
Context (u : array R -> array R) (data : array R) (params : pdict) (nz n : Z) (model : obj numeric) (pt mt : tol) (po : bool)
  (lstsq : list (list R) -> list R -> list R).
Let h := hpar_model model.
Lemma result_coords k r : unwraps u -> usable data params nz n model -> 0 < h_na h -> (1 <= k)%Z ->
  fst (retrieve_phase u data params k pt mt po) = Ok r ->
  let ra := amap (fun q => q / (r_na r / r_wl r)) (r_r r) in
  h_size h = n /\ shape ra = [n; n] /\ shape (r_theta r) = [n; n] /\
  forall y x, (0 <= y < n)%Z -> (0 <= x < n)%Z -> get ra [y; x] = rim_r h y x /\ get (r_theta r) [y; x] = rim_t h y x.
Proof.
  intros Hu Hus Hna Hk Er. destruct (hyps _ _ _ _ _ Hus) as (Hr & Hph & Hv & Hc & Hn & Hn2 & Hnz & Hd).
  destruct (result_fields _ _ _ _ _ _ _ _ Er) as (F1 & F2 & F3 & F4).
  destruct (retrieve u Hu data params nz n model Hus pt mt po k Hk) as (m & r' & E & _ & _ & _ & _ & (_ & _ & Hp & _) & _). rewrite E in Er. cbn [fst] in Er. injection Er as ->.
  rewrite Hp in F1, F2, F3, F4. change (hpar_of (obj_params model)) with h in *. cbv zeta. rewrite F1, F2, F3, F4. split; [exact Hn|].
  split; [change ([h_size h; h_size h] = [n; n]); now rewrite Hn|]. split; [change ([h_size h; h_size h] = [n; n]); now rewrite Hn|]. intros y x Hy Hx. cbn [amap get].
  assert (Hy' : (0 <= y < h_size h)%Z) by (rewrite Hn; exact Hy). assert (Hx' : (0 <= x < h_size h)%Z) by (rewrite Hn; exact Hx).
  pose proof (row_in (obj_params model) Hn2 y) as Ry. pose proof (row_in (obj_params model) Hn2 x) as Rx. change (hpar_of (obj_params model)) with h in Ry, Rx.
  rewrite !(shift2 (obj_params model)) by reflexivity. cbn [get h_t]. pose proof Hph as (Hw & _). split.
  - rewrite (kr_sqrt h Hph) by auto. unfold rim_r, k2. change (h_size h) with (h_size (hpar_of (obj_params model))). rewrite !(sfreq_row (obj_params model)) by auto. change (hpar_of (obj_params model)) with h.
    replace (cfreq h y * cfreq h y + cfreq h x * cfreq h x) with (cfreq h y ^ 2 + cfreq h x ^ 2) by ring. field. split; apply Rgt_not_eq; assumption.
  - rewrite (t_spec h Hph) by auto. unfold pupil_t, rim_t. change (h_size h) with (h_size (hpar_of (obj_params model))). rewrite !(sfreq_row (obj_params model)) by auto. reflexivity.
Qed.
Lemma misfit_all ra th cs d : shape d = [h_size h; h_size h] -> h_size h = n -> (forall y x, (0 <= y < n)%Z -> (0 <= x < n)%Z -> get ra [y; x] = rim_r h y x /\ get th [y; x] = rim_t h y x) ->
  Rsum (all_ix [n; n]) (fun ix => if Rle_dec (get ra ix) 1 then (mix cs (get ra ix) (get th ix) - get d ix) ^ 2 else 0) = misfit h cs d.
Proof.
  intros _ Hn H. rewrite <- (plane_all n). unfold misfit, combo. rewrite Hn. apply plane_ext. intros y x Hy Hx. destruct (H y x Hy Hx) as [-> ->]. reflexivity.
Qed.
(** The fit succeeds for 2 to 120 modes; its modes are the Zernike modes at the pixel's polar coordinates, and among all
    coefficient vectors of that length none fits the magnitude (the phase) better on the pixels with radius at most 1. *)
Theorem C51_least_squares :
  unwraps u -> usable data params nz n model -> 0 < h_na h -> least_squares lstsq ->
  forall k r num, (1 <= k)%Z -> fst (retrieve_phase u data params k pt mt po) = Ok r -> (2 <= num <= 120)%nat ->
  exists d, fit_to_zernikes lstsq r (Z.of_nat num) = Ok d /\
    List.length (zd_mcoefs d) = num /\ List.length (zd_pcoefs d) = num /\ shape (zd_zerns d) = [Z.of_nat num; n; n] /\
    (forall i y x, (i < num)%nat -> (0 <= y < n)%Z -> (0 <= x < n)%Z ->
       get (zd_zerns d) [Z.of_nat i; y; x] = zmode (Z.of_nat i + 1) (rim_r h y x) (rim_t h y x)) /\
    (forall cs, List.length cs = num -> misfit h (zd_mcoefs d) (r_mag r) <= misfit h cs (r_mag r)) /\
    (forall cs, List.length cs = num -> misfit h (zd_pcoefs d) (r_phase r) <= misfit h cs (r_phase r)).
Proof.
  intros Hu Hus Hna Hls k r num Hk Er Hnum. destruct (hyps _ _ _ _ _ Hus) as (_ & Hph & _ & _ & _ & Hn2 & _). change (hpar_of (obj_params model)) with h in *.
  destruct (result_coords k r Hu Hus Hna Hk Er) as (Hn & Sr & St & G). rewrite Hn in Hn2.
  destruct (C47_support u data params nz n model pt mt po Hu Hus k Hk) as (r' & Er' & Sm & Sp & _). rewrite Er in Er'. injection Er' as <-.
  set (ra := amap (fun q => q / (r_na r / r_wl r)) (r_r r)) in *.
  assert (Nn : forall y x, 0 <= rim_r h y x). { intros y x. unfold rim_r. destruct Hph as (Hw & _). apply Rmult_le_pos; [apply Rmult_le_pos; [apply sqrt_pos|lra]|left; now apply Rinv_0_lt_compat]. }
  assert (Nr : forall y x, (0 <= y < n)%Z -> (0 <= x < n)%Z -> 0 <= get ra [y; x]) by (intros y x Hy Hx; rewrite (proj1 (G y x Hy Hx)); apply Nn).
  destruct (zern_two n ra (r_theta r) Sr St Nr num Hnum Hn2) as (out & Eo & So & Go).
  assert (C0 : exists y x, (0 <= y < n)%Z /\ (0 <= x < n)%Z /\ get ra [y; x] <= 1).
  { exists (n / 2)%Z, (n / 2)%Z. assert (0 <= n / 2 < n)%Z by (split; [apply Z.div_pos|apply Z.div_lt_upper_bound]; lia). split; [auto|]. split; [auto|]. rewrite (proj1 (G _ _ H H)).
    unfold rim_r, cfreq. rewrite Hn. replace (n / 2 - n / 2)%Z with 0%Z by lia. replace ((0 / (IZR n * h_res h)) ^ 2 + (0 / (IZR n * h_res h)) ^ 2) with 0 by (unfold Rdiv; ring). rewrite sqrt_0. unfold Rdiv. lra. }
  destruct (fit_ok n ra (r_theta r) Sr Nr lstsq num out (r_mag r) Hls ltac:(lia) So Go C0) as (mc & E1 & L1 & M1).
  destruct (fit_ok n ra (r_theta r) Sr Nr lstsq num out (r_phase r) Hls ltac:(lia) So Go C0) as (pc & E2 & L2 & M2).
  exists (mkZD mc pc out). unfold fit_to_zernikes, noll_range. rewrite Nat2Z.id. fold ra. rewrite Eo. cbn [bind]. rewrite E1. cbn [bind]. rewrite E2. cbn [bind].
  rewrite L1, L2, So, Nat.eqb_refl. cbn [hd]. rewrite Z.eqb_refl. cbn [andb negb zd_mcoefs zd_pcoefs zd_zerns]. repeat (split; [first [reflexivity|assumption]|]).
  split; [intros i y x Hi Hy Hx; rewrite Go by auto; destruct (G y x Hy Hx) as [-> ->]; reflexivity|].
  split; intros cs Hcs; [specialize (M1 cs Hcs)|specialize (M2 cs Hcs)]; rewrite !(misfit_all ra (r_theta r)) in *; auto; rewrite Hn; auto.
Qed.
(** If the modes are linearly independent on those pixels and the phase (the magnitude) is exactly a combination of them there, the
    fit finds that combination, and the full reconstruction is the phase (the magnitude) at every pixel. *)
Theorem C51_exact_recovery :
  unwraps u -> usable data params nz n model -> 0 < h_na h -> least_squares lstsq ->
  forall k r num d cs, (1 <= k)%Z -> fst (retrieve_phase u data params k pt mt po) = Ok r -> (2 <= num <= 120)%nat -> independent h num ->
    fit_to_zernikes lstsq r (Z.of_nat num) = Ok d -> List.length cs = num ->
    ((forall y x, (0 <= y < n)%Z -> (0 <= x < n)%Z -> rim_r h y x <= 1 -> get (r_phase r) [y; x] = combo h cs y x) ->
       zd_pcoefs d = cs /\ exists a, zd_phase d full_slice = Ok a /\ arr_eq a (r_phase r)) /\
    ((forall y x, (0 <= y < n)%Z -> (0 <= x < n)%Z -> rim_r h y x <= 1 -> get (r_mag r) [y; x] = combo h cs y x) ->
       zd_mcoefs d = cs /\ exists a, zd_mag d full_slice = Ok a /\ arr_eq a (r_mag r)).
Proof.
  intros Hu Hus Hna Hls k r num d cs Hk Er Hnum Hind Ed Hcs. destruct (C51_least_squares Hu Hus Hna Hls k r num Hk Er Hnum) as (d' & Ed' & L1 & L2 & So & Go & M1 & M2). rewrite Ed in Ed'. injection Ed' as <-.
  destruct (hyps _ _ _ _ _ Hus) as (_ & Hph & _ & _ & _ & Hn2 & _). change (hpar_of (obj_params model)) with h in *.
  destruct (result_coords k r Hu Hus Hna Hk Er) as (Hn & _).
  destruct (C47_support u data params nz n model pt mt po Hu Hus k Hk) as (r' & Er' & Sm & Sp & Sup). rewrite Er in Er'. injection Er' as <-. fold h in Sup.
  assert (Z0 : forall (dd : array R), (forall y x, (0 <= y < n)%Z -> (0 <= x < n)%Z -> rim_r h y x <= 1 -> get dd [y; x] = combo h cs y x) -> misfit h cs dd = 0).
  { intros dd H. unfold misfit. apply Rsum_zero. intros y Hy. apply in_zseq_iff in Hy. apply Rsum_zero. intros x Hx. apply in_zseq_iff in Hx. destruct (Rle_dec _ _); [|reflexivity]. rewrite H by (auto; lia). ring. }
  assert (Out : forall y x, 1 < rim_r h y x -> ~ inside h y x).
  { intros y x H Hi. unfold inside in Hi. unfold rim_r in H. destruct Hph as (Hw & _). apply Rlt_not_le in H. apply H.
    assert (Hs : sqrt (cfreq h y ^ 2 + cfreq h x ^ 2) < h_na h / h_wl h).
    { replace (h_na h / h_wl h) with (sqrt ((h_na h / h_wl h) ^ 2)); [apply sqrt_lt_1_alt; split; [nra|exact Hi]|]. replace ((h_na h / h_wl h) ^ 2) with (Rsqr (h_na h / h_wl h)) by (unfold Rsqr; ring). apply sqrt_Rsqr. left. now apply Rdiv_lt_0_compat. }
    apply (Rmult_le_reg_r (h_na h / h_wl h)); [now apply Rdiv_lt_0_compat|]. replace (sqrt (cfreq h y ^ 2 + cfreq h x ^ 2) * h_wl h / h_na h * (h_na h / h_wl h)) with (sqrt (cfreq h y ^ 2 + cfreq h x ^ 2)) by (field; lra). lra. }
  assert (K : forall (dd : array R) (cf : list R), shape dd = [n; n] -> List.length cf = num -> (forall c, List.length c = num -> misfit h cf dd <= misfit h c dd) ->
    (forall y x, (0 <= y < n)%Z -> (0 <= x < n)%Z -> ~ inside h y x -> get dd [y; x] = 0) ->
    (forall y x, (0 <= y < n)%Z -> (0 <= x < n)%Z -> rim_r h y x <= 1 -> get dd [y; x] = combo h cs y x) ->
    cf = cs /\ exists a, recon cf (zd_zerns d) full_slice = Ok a /\ arr_eq a dd).
  { intros dd cf Sd Lc Mc Oc H. pose proof (Mc cs Hcs) as Q. rewrite (Z0 dd H) in Q. pose proof (misfit_zero h cf dd Q) as Mz. rewrite Hn in Mz.
    assert (E : cf = cs). { apply (unique_fit h num); auto. rewrite Hn. intros y x Hy Hx Hi. rewrite Mz by auto. now apply H. }
    split; [exact E|]. subst cf. destruct (recon_val cs (zd_zerns d) (Z.of_nat num) n n full_slice So ltac:(now rewrite Hcs)) as (a & Ea & Sa & Ga). exists a. split; [exact Ea|]. split; [congruence|].
    rewrite Sa. intros ix Hix. destruct (inb2_inv _ _ _ Hix) as (y & x & -> & Hy & Hx). rewrite Ga by auto.
    assert (V : Rsum (zseq (Z.of_nat num)) (fun i => picked (Z.of_nat num) full_slice i * (nth (Z.to_nat i) cs 0 * get (zd_zerns d) [i; y; x])) = combo h cs y x).
    { unfold combo, mix. rewrite Hcs. unfold zseq. rewrite Nat2Z.id, Rsum_map. apply Rsum_ext. intros i Hi. apply in_seq in Hi. rewrite picked_full by lia. rewrite Nat2Z.id, Go by (auto; lia). ring. }
    rewrite V. destruct (Rle_dec (rim_r h y x) 1) as [Hle|Hgt]; [symmetry; now apply H|]. rewrite Oc by (auto; apply Out; lra). unfold combo. apply mix_outside. lra. }
  split; intros H.
  - apply (K (r_phase r) (zd_pcoefs d)); auto. intros y x Hy Hx Hi. now apply (Sup y x Hy Hx).
  - apply (K (r_mag r) (zd_mcoefs d)); auto. intros y x Hy Hx Hi. now apply (Sup y x Hy Hx).
Qed.
(** Fewer than two modes, or more than 120, are refused. *)
Theorem C51_refused :
  unwraps u -> usable data params nz n model -> 0 < h_na h ->
  forall k r num, (1 <= k)%Z -> fst (retrieve_phase u data params k pt mt po) = Ok r -> (num <= 1 \/ 120 < num)%Z ->
    fit_to_zernikes lstsq r num = Err IndexError.
Proof.
  intros Hu Hus Hna k r num Hk Er Hnum. destruct (hyps _ _ _ _ _ Hus) as (_ & Hph & _ & _ & _ & Hn2 & _). change (hpar_of (obj_params model)) with h in *.
  destruct (result_coords k r Hu Hus Hna Hk Er) as (Hn & Sr & St & G). rewrite Hn in Hn2. unfold fit_to_zernikes, noll_range. set (ra := amap (fun q => q / (r_na r / r_wl r)) (r_r r)) in *.
  destruct Hnum as [Hnum|Hnum].
  - assert (Nn : forall y x, (0 <= y < n)%Z -> (0 <= x < n)%Z -> 0 <= get ra [y; x]).
    { intros y x Hy Hx. rewrite (proj1 (G y x Hy Hx)). unfold rim_r. destruct Hph as (Hw & _). apply Rmult_le_pos; [apply Rmult_le_pos; [apply sqrt_pos|lra]|left; now apply Rinv_0_lt_compat]. }
    destruct (zern_gen n ra (r_theta r) Sr St Nn (Z.to_nat num) ltac:(lia)) as (out & Eo & H). rewrite Eo. cbn [bind].
    destruct (Z.eq_dec num 1) as [->|Hne].
    + destruct (H ltac:(change (Z.to_nat 1) with 1%nat; lia)) as [So _]. change (Z.of_nat (Z.to_nat 1)) with 1%Z in So.
      assert (Sn : shape out = [n; n]). { rewrite So. cbn [filter]. rewrite (proj2 (Z.eqb_neq n 1) ltac:(lia)). reflexivity. }
      unfold fit_to_zerns. rewrite Sn, Sr. cbn [zlist_eqb]. rewrite ?Z.eqb_refl. reflexivity.
    + clear H. replace (Z.to_nat num) with 0%nat in Eo by lia. cbn [noll_upto seq map] in Eo. unfold zernike in Eo. cbn [zernike_degrees noll2degrees forallb map bind negb] in Eo.
      destruct (negb (forallb _ _)); [discriminate|]. destruct (Nat.ltb 2 _); [discriminate|]. injection Eo as <-. unfold fit_to_zerns at 1. rewrite Sr. reflexivity.
  - assert (E : noll2degrees (NInts (noll_upto (Z.to_nat num))) = Err IndexError).
    { unfold noll2degrees. replace (forallb (fun j => (0 <? j)%Z) (noll_upto (Z.to_nat num))) with true.
      - replace (forallb (fun j => (j <=? 120)%Z) (noll_upto (Z.to_nat num))) with false; [reflexivity|]. symmetry. apply Bool.not_true_iff_false. rewrite forallb_forall. intros X. specialize (X num).
        apply Zle_is_le_bool in X; [lia|]. apply in_noll_upto. lia.
      - symmetry. apply forallb_forall. intros j Hj. apply in_noll_upto in Hj. apply Z.ltb_lt. lia. }
    unfold zernike. cbn [zernike_degrees]. rewrite E. reflexivity.
Qed.
End F.
Print Assumptions C51_least_squares. Print Assumptions C51_exact_recovery. Print Assumptions C51_refused.
