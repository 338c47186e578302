(** C76: the Apotome. *)
From Verif Require Import S_FFT S_Hanser S_Micro S_Apotome S_Bin L_Sum L_Bin L_PSF L_Ctor L_Phase5 L_Micro T_PSF T_Bin L_Array L_FFT L_FFT2 T_FFT L_Phase2 L_Polar L_Radial T_Radial T_Hanser T_Object T_Micro T_Micro2 T_Micro3 L_Micro2 T_Micro4 T_Micro5 T_Confocal T_Confocal2 T_SIM T_Wiener L_Hanser.
From Flocq Require Import Core.
From Coq Require Import Permutation.
Import M_Array.
Local Open Scope R_scope.

(** ** numpy's maximum of complex numbers *)
Lemma c_lt_trans a b c : c_lt a b = false -> c_lt b c = false -> c_lt a c = false.
Proof. unfold c_lt. intros H1 H2. repeat match goal with |- context [Rlt_dec ?x ?y] => destruct (Rlt_dec x y) | H : context [Rlt_dec ?x ?y] |- _ => destruct (Rlt_dec x y) | |- context [Req_EM_T ?x ?y] => destruct (Req_EM_T x y) | H : context [Req_EM_T ?x ?y] |- _ => destruct (Req_EM_T x y) end; try discriminate; try reflexivity; exfalso; lra. Qed.
Lemma c_lt_anti a b : c_lt a b = true -> c_lt b a = false.
Proof. unfold c_lt. intros H. repeat match goal with |- context [Rlt_dec ?x ?y] => destruct (Rlt_dec x y) | H : context [Rlt_dec ?x ?y] |- _ => destruct (Rlt_dec x y) | |- context [Req_EM_T ?x ?y] => destruct (Req_EM_T x y) | H : context [Req_EM_T ?x ?y] |- _ => destruct (Req_EM_T x y) end; try discriminate; try reflexivity; exfalso; lra. Qed.
Lemma c_lt_irrefl a : c_lt a a = false.
Proof. unfold c_lt. destruct (Rlt_dec (Re a) (Re a)); [exfalso; lra|]. destruct (Req_EM_T _ _); [|reflexivity]. destruct (Rlt_dec _ _); [exfalso; lra|reflexivity]. Qed.
Lemma c_fold_spec : forall l a, let r := fold_left (fun m b => if c_lt m b then b else m) l a in In r (a :: l) /\ forall x, In x (a :: l) -> c_lt r x = false.
Proof.
  induction l as [|b l IH]; intros a r.
  - cbn in r. subst r. split; [now left|]. intros x [<-|[]]. apply c_lt_irrefl.
  - cbn [fold_left] in r. subst r. destruct (c_lt a b) eqn:E.
    + destruct (IH b) as [H1 H2]. split; [destruct H1 as [H1|H1]; cbn; auto|]. intros x [<-|H]; [|now apply H2]. apply (c_lt_trans _ b); [apply H2; now left|]. now apply c_lt_anti.
    + destruct (IH a) as [H1 H2]. split; [destruct H1 as [H1|H1]; cbn; auto|]. intros x [<-|[<-|H]]; [apply H2; now left| |apply H2; now right]. apply (c_lt_trans _ a); [apply H2; now left|exact E].
Qed.
(** A real element that bounds all moduli is the maximum. *)
Lemma c_max_real l M : In (RtoC M) l -> (forall x, In x l -> Cmod x <= M) -> c_max l = Ok (RtoC M).
Proof.
  intros Hi Hb. destruct l as [|a l]; [contradiction|]. cbn [c_max]. destruct (c_fold_spec l a) as [H1 H2]. set (r := fold_left _ l a) in *. f_equal. specialize (H2 _ Hi). specialize (Hb _ H1).
  assert (Hr : Re r <= M) by (pose proof (Rle_abs (Re r)); pose proof (Rmax_Cmod r) as Q; pose proof (Rmax_l (Rabs (Re r)) (Rabs (Im r))); unfold Re, Im in *; lra).
  assert (E : Re r = M). { unfold c_lt in H2. cbn [RtoC Re fst] in H2. destruct (Rlt_dec (Re r) M); [discriminate|]. unfold Re in *. cbn in *. lra. }
  assert (I : Im r = 0). { assert (P : 0 <= M) by (pose proof (Cmod_ge_0 r); lra). assert (Q : Cmod r ^ 2 <= M ^ 2) by (pose proof (Cmod_ge_0 r); nra). rewrite Cmod2 in Q. unfold Cnorm2 in Q. rewrite E in Q. nra. }
  destruct r as [x y]. unfold Re, Im in *. cbn in E, I. subst. reflexivity.
Qed.

(** ** Rings *)
Section Plane.
Context (n : Z) (Pn : (0 < n)%Z).
Let c := [IZR (n / 2); IZR (n / 2)].
Let L := rp_len [n; n] (rp_bin c 1).
Let zc := [(n / 2)%Z; (n / 2)%Z].
Lemma zc_in : inb [n; n] zc.
Proof. assert (0 <= n / 2 < n)%Z by (Z.div_mod_to_equations; lia). apply Forall2_cons; [lia|]. apply Forall2_cons; [lia|]. apply Forall2_nil. Qed.
Lemma rings_L : rings n L.
Proof.
  intros k. unfold L. rewrite rp_len_spec by (intros ix _; apply rp_bin_nonneg; lra). split; intros [H1 (ix & H)].
  - destruct H as [H2 H3]. split; [exact H1|]. exists ix, (rp_bin c 1 ix). split; [exact H2|]. split; [exact H3|]. now apply rp_bin_spec.
  - destruct H as (j & H2 & H3 & H4). split; [exact H1|]. exists ix. split; [exact H2|]. apply rp_bin_spec in H4. unfold c. lia.
Qed.
Lemma rings_unique L' : (0 <= L')%Z -> rings n L' -> L' = L.
Proof.
  intros P H. pose proof rings_L as H0. pose proof (rp_len_nonneg [n; n] (rp_bin c 1)) as P0. fold L in P0. destruct (Z.lt_trichotomy L L') as [C|[C|C]]; auto; exfalso.
  - apply (proj2 (H0 L)), (proj1 (H L)) in C || idtac. assert (Q : (0 <= L < L')%Z) by lia. apply H, H0 in Q. lia.
  - assert (Q : (0 <= L' < L)%Z) by lia. apply H0, H in Q. lia.
Qed.
Lemma ring_full k : (0 <= k < L)%Z -> pix [n; n] c 1 k <> [].
Proof.
  intros Hk E. apply rings_L in Hk. destruct Hk as [P (ix & j & Hi & Hj & Hb)]. apply rp_bin_spec in Hb.
  destruct (all_bins_hit _ zc zc_in (Z.to_nat (l1 zc ix)) ix Hi ltac:(pose proof (l1_nonneg zc ix); lia) k) as (jx & Hjx & Eb); [change (map IZR zc) with [IZR (n / 2); IZR (n / 2)]; lia|].
  assert (In jx (pix [n; n] c 1 k)) by (unfold pix; apply filter_In; split; [now apply in_all_ix|change c with (map IZR zc); apply Z.eqb_eq, Eb]). rewrite E in H. contradiction.
Qed.
Lemma profile_rows (F : array C) : shape F = [n; n] -> exists s, radial_profile_c F None 1 = Ok (map (fun k => Some (mean_over (pix [n; n] c 1 k) F)) (zseq L), s).
Proof.
  intros Sh. unfold radial_profile_c.
  assert (Hc : forall g : C -> R, centre_of (shape (amap g F)) None c) by (intros g; cbn [amap shape]; rewrite Sh; reflexivity).
  rewrite (profile_val (amap Re F) None 1 c Rlt_0_1 (Hc Re)). cbn [bind fst snd]. rewrite (profile_val (amap Im F) None 1 c Rlt_0_1 (Hc Im)). cbn [bind fst snd]. cbn [amap shape get]. rewrite Sh. fold L.
  eexists. f_equal. f_equal. assert (Q : forall k, In k (zseq L) -> INR (List.length (pix [n; n] c 1 k)) <> 0). { intros k Hk H. apply nonempty_len in H. now apply (ring_full k); [apply in_zseq|]. }
  generalize Q. generalize (zseq L). intros l. induction l as [|k l IH]; intros Hq; [reflexivity|]. cbn [map combine fst snd]. destruct (Req_EM_T _ _) as [E|_]; [exfalso; apply (Hq k); [now left|exact E]|]. cbn [opt2]. f_equal. apply IH. intros; apply Hq; now right.
Qed.
(** ring 0 is the zero frequency alone *)
Lemma ring_zero : Permutation (pix [n; n] c 1 0) [zc].
Proof.
  apply NoDup_Permutation; [apply pix_spec|repeat constructor; intros []|]. intros ix. rewrite (proj2 (pix_spec [n; n] c 1 0)). split.
  - intros [Hi Hb]. destruct (inb_cons_inv _ _ _ Hi) as (y & r & -> & Hy & Hr). destruct (inb_cons_inv _ _ _ Hr) as (x & r' & -> & Hx & Hr'). destruct r'; [|inversion Hr']. left. destruct Hb as [Hb _]. cbn [dist2 c] in Hb. unfold c in Hb. cbn [dist2] in Hb.
    unfold Rdiv in Hb. rewrite Rinv_1, Rmult_1_r, Rminus_0_r in Hb. rewrite <- !minus_IZR in Hb.
    set (a := (y - n / 2)%Z) in *. set (b := (x - n / 2)%Z) in *.
    assert (D : 0 <= IZR a * IZR a + (IZR b * IZR b + 0)) by nra. rewrite Rabs_pos_eq in Hb by apply sqrt_pos.
    assert (D2 : IZR a * IZR a + (IZR b * IZR b + 0) < 1). { apply Rnot_le_lt. intros Q. apply sqrt_le_1_alt in Q. rewrite sqrt_1 in Q. lra. }
    rewrite Rplus_0_r in D2. rewrite <- !mult_IZR, <- plus_IZR in D2. apply lt_IZR in D2. assert (a = 0 /\ b = 0)%Z as [A B] by nia. unfold zc, a, b in *. f_equal; [lia|]. f_equal. lia.
  - intros [<-|[]]. split; [apply zc_in|]. unfold in_bin, zc, c. cbn [dist2]. replace ((IZR (n / 2) - IZR (n / 2)) * (IZR (n / 2) - IZR (n / 2)) + ((IZR (n / 2) - IZR (n / 2)) * (IZR (n / 2) - IZR (n / 2)) + 0)) with 0 by ring. rewrite sqrt_0. unfold Rdiv. rewrite Rmult_0_l, Rminus_0_r, Rabs_R0. split; [lra|]. intros. reflexivity.
Qed.
Lemma L_pos : (0 < L)%Z.
Proof. enough (0 <= 0 < L)%Z by lia. apply rings_L. split; [lia|]. exists zc, 0%Z. split; [apply zc_in|]. split; [lia|]. apply (proj2 (pix_spec [n; n] c 1 0)). apply (Permutation_in _ (Permutation_sym ring_zero)). now left. Qed.

(** ** Spectra of non-negative planes *)
Context (d : array R) (nz : Z) (Sd : shape d = [nz; n; n]) (Hd : forall ix, inb (shape d) ix -> 0 <= get d ix).
Lemma hybrid_plane z ix : inb [n; n] ix -> get (plane (hybrid_otf d) z) ix = get (plane_spectrum d z) ix.
Proof.
  intros Hi. destruct (inb_cons_inv _ _ _ Hi) as (y & r & -> & Hy & Hr). destruct (inb_cons_inv _ _ _ Hr) as (x & r' & -> & Hx & Hr'). destruct r'; [|inversion Hr'].
  unfold plane, hybrid_otf, plane_spectrum, easy_fft, fftshift, fftn, ifftshift. cbn [amap shape get]. rewrite Sd. reflexivity.
Qed.
Lemma box2 ix : box [true; true] [n; n] ix = all_ix [n; n] \/ List.length ix <> 2%nat.
Proof. destruct ix as [|a [|b [|]]]; [right; discriminate|right; discriminate|left; reflexivity|right; discriminate]. Qed.
Lemma spectrum_bound z ix : (0 <= z < nz)%Z -> inb [n; n] ix -> Cmod (get (plane_spectrum d z) ix) <= plane_light d z.
Proof.
  intros Hz Hi. unfold plane_spectrum. eapply Rle_trans; [apply bounded_mask; cbn [shape]; rewrite Sd; exact Hi|]. cbn [shape get axes_mask List.length]. rewrite Sd. cbn [tl List.length axes_mask repeat].
  destruct (box2 ix) as [->|N]; [|exfalso; apply N; now rewrite (inb_length _ _ Hi)]. unfold plane_light. rewrite Sd. cbn [tl]. apply Req_le. apply Rsum_ext. intros jx Hj. apply in_all_ix in Hj. rewrite Cmod_R. apply Rabs_pos_eq. apply Hd. rewrite Sd. apply Forall2_cons; [lia|exact Hj].
Qed.
Lemma spectrum_zero z : get (plane_spectrum d z) zc = RtoC (plane_light d z).
Proof.
  unfold plane_spectrum. pose proof (centre_sum None (mkArr (tl (shape d)) (fun ix => RtoC (get d (z :: ix)))) zc) as H. cbv zeta in H. cbn [shape get] in H. rewrite Sd in *. cbn [tl List.length axes_mask repeat at_centre zc] in H. unfold zc at 1. cbn [tl]. rewrite H by apply zc_in.
  unfold plane_light. rewrite Sd. cbn [tl]. rewrite Csum_RtoC. destruct (box2 zc) as [->|N]; [reflexivity|exfalso; now apply N].
Qed.
Lemma mean_over_Csum l (F : array C) : l <> [] -> mean_over l F = Cmult (RtoC (/ INR (List.length l))) (Csum l (get F)).
Proof. intros Hl. unfold mean_over, mean_of. rewrite <- Csum_Re, <- Csum_Im. destruct (Csum l (get F)) as [a b]. unfold Cmult, RtoC, Re, Im, Rdiv. cbn [fst snd]. f_equal; ring. Qed.
Lemma mean_bound l (F : array C) M : l <> [] -> (forall ix, In ix l -> Cmod (get F ix) <= M) -> Cmod (mean_over l F) <= M.
Proof.
  intros Hl H. rewrite mean_over_Csum by exact Hl. rewrite Cmod_mult, Cmod_R. assert (P : 0 < INR (List.length l)) by (destruct l; [contradiction|]; cbn [List.length]; rewrite S_INR; pose proof (pos_INR (List.length l0)); lra).
  rewrite Rabs_pos_eq by (apply Rlt_le, Rinv_0_lt_compat, P). apply Rmult_le_reg_l with (INR (List.length l)); [exact P|]. rewrite <- Rmult_assoc, Rinv_r, Rmult_1_l by lra.
  eapply Rle_trans; [apply Csum_Cmod|]. eapply Rle_trans; [apply (Rsum_le l _ (fun _ => M)); exact H|]. rewrite Rsum_const. lra.
Qed.
Lemma mean_perm2 l l' (F : array C) : Permutation l l' -> mean_over l F = mean_over l' F.
Proof. intros H. unfold mean_over. rewrite !(mean_perm l l') by exact H. reflexivity. Qed.
Lemma mean_over_ext l (F G : array C) : (forall ix, In ix l -> get F ix = get G ix) -> mean_over l F = mean_over l G.
Proof. intros H. unfold mean_over, mean_of. f_equal; f_equal; apply Rsum_ext; intros ix Hi; now rewrite H. Qed.
End Plane.

(** ** The program *)
Lemma zmap_res_ok {A B} (f : A -> res B) (g : A -> B) l : (forall x, In x l -> f x = Ok (g x)) -> M_Micro.map_res f l = Ok (map g l).
Proof. induction l as [|x l IH]; intros H; [reflexivity|]. cbn [M_Micro.map_res map]. rewrite (H x) by now left. cbn [bind]. rewrite IH by (intros; apply H; now right). reflexivity. Qed.
Lemma all_some_map {A B} (f : A -> B) l : all_some (map (fun x => Some (f x)) l) = Some (map f l).
Proof. induction l as [|x l IH]; [reflexivity|]. cbn [map all_some]. now rewrite IH. Qed.
Lemma concat_some {A B D : Type} (f : A -> B -> D) (l : list A) (l' : list B) : List.concat (map (fun z => map (fun k => Some (f z k)) l') l) = map (fun p : A * B => Some (f (fst p) (snd p))) (flat_map (fun z => map (pair z) l') l).
Proof. induction l as [|z l IH]; [reflexivity|]. cbn [map List.concat flat_map]. rewrite map_app, IH. f_equal. rewrite map_map. reflexivity. Qed.
Lemma bop_column (f : R -> R -> R) (l : list R) (a : array R) nz n : shape a = [nz; n; n] -> Z.of_nat (List.length l) = nz ->
  exists r, bop f (column l) a = Ok r /\ shape r = [nz; n; n] /\ forall z y x, inb [nz; n; n] [z; y; x] -> get r [z; y; x] = f (nth (Z.to_nat z) l 0) (get a [z; y; x]).
Proof.
  intros Sa Hl. unfold bop, bshape, column. cbn [shape]. rewrite Sa, Hl. cbn [rev app bshape_rev].
  assert (D : bdim 1 n = Ok n) by (unfold bdim; destruct (Z.eqb_spec 1 n) as [<-|]; reflexivity). rewrite D. cbn [bind]. assert (D2 : bdim nz nz = Ok nz) by (unfold bdim; now rewrite Z.eqb_refl). rewrite D2. cbn [bind rev app].
  eexists. split; [reflexivity|]. split; [reflexivity|]. intros z y x Hi. cbn [get]. unfold bget. cbn [shape]. rewrite Sa. cbn [List.length Nat.sub skipn bixs get].
  destruct (inb3_inv _ _ _ _ Hi) as (z' & y' & x' & [= <- <- <-] & Hz & Hy & Hx). rewrite !bix_in by (auto || lia). reflexivity.
Qed.

Section Run.
Context (n nz : Z) (Pn : (0 < n)%Z) (Pz : (0 < nz)%Z) (e : array R) (Se : shape e = [nz; n; n]) (He : forall ix, inb (shape e) ix -> 0 <= get e ix).
Let c := [IZR (n / 2); IZR (n / 2)].
Let L := rp_len [n; n] (rp_bin c 1).
Let rm (z k : Z) : C := mean_over (pix [n; n] c 1 k) (plane_spectrum e z).
Lemma rows_val : radial_rows (hybrid_otf e) = Ok (map (fun z => map (fun k => Some (rm z k)) (zseq L)) (zseq nz)).
Proof.
  unfold radial_rows. replace (hd 0%Z (shape (hybrid_otf e))) with nz by (cbn; rewrite Se; reflexivity). apply zmap_res_ok. intros z Hz.
  destruct (profile_rows n Pn (plane (hybrid_otf e) z)) as [s ->]; [cbn; now rewrite Se|]. cbn [bind fst]. fold c. fold L. f_equal. apply map_ext. intros k. f_equal. apply mean_over_ext. intros ix Hi. apply (hybrid_plane n e nz Se). now apply pix_spec in Hi.
Qed.
Context (M : R) (HM : largest nz (plane_light e) M).
Lemma rm_zero z : rm z 0 = RtoC (plane_light e z).
Proof.
  unfold rm. rewrite (mean_perm2 _ _ _ (ring_zero n Pn)). rewrite mean_over_Csum by discriminate. cbn [Csum List.length INR]. rewrite (spectrum_zero n Pn e nz Se He). rewrite Rinv_1. ring.
Qed.
Lemma rm_bound z k : (0 <= z < nz)%Z -> (0 <= k < L)%Z -> Cmod (rm z k) <= M.
Proof.
  intros Hz Hk. unfold rm. apply mean_bound; [now apply ring_full|]. intros ix Hi. apply pix_spec in Hi. eapply Rle_trans; [apply (spectrum_bound n e nz Se He z ix Hz); apply Hi|]. now apply HM.
Qed.
Lemma axial_val k : axial_profile (map (fun z => map (fun k => Some (rm z k)) (zseq L)) (zseq nz)) k =
  let j := wrap_index L k in
  if ((0 <=? j) && (j <? L))%Z then Ok (map (fun z => Cmod (Cdiv (rm z j) (RtoC M))) (zseq nz), if Ceq_dec (RtoC M) (RtoC 0) then false else true) else Err IndexError.
Proof.
  assert (LP : (0 < L)%Z) by (apply L_pos; exact Pn).
  unfold axial_profile. rewrite concat_some, all_some_map. rewrite (c_max_real _ M).
  - cbn [bind]. cbv zeta.
    assert (Len : forall z, Z.of_nat (List.length (map (fun k => Some (rm z k)) (zseq L))) = L) by (intros z; rewrite map_length, zseq_length; lia).
    assert (Fa : forallb (fun r : list (option C) => (0 <=? wrap_index (Z.of_nat (List.length r)) k) && (wrap_index (Z.of_nat (List.length r)) k <? Z.of_nat (List.length r)))%Z
      (map (fun z => map (fun k => Some (rm z k)) (zseq L)) (zseq nz)) = ((0 <=? wrap_index L k) && (wrap_index L k <? L))%Z).
    { assert (Ne : zseq nz <> []) by (intros E; assert (In 0%Z (zseq nz)) by (apply in_zseq; lia); rewrite E in H; contradiction).
      generalize Ne. generalize (zseq nz). intros l. induction l as [|z l IH]; intros H; [contradiction|]. cbn [map forallb]. rewrite Len. destruct l as [|z' l]; [cbn [map forallb]; apply Bool.andb_true_r|]. rewrite IH by discriminate. apply Bool.andb_diag. }
    rewrite Fa. destruct ((0 <=? wrap_index L k) && (wrap_index L k <? L))%Z eqn:B; [|reflexivity]. apply andb_true_iff in B. destruct B as [B1 B2]. apply Z.leb_le in B1. apply Z.ltb_lt in B2.
    f_equal. f_equal. rewrite map_map. apply map_ext. intros z. rewrite Len. do 2 f_equal.
    assert (Q : nth (Z.to_nat (wrap_index L k)) (map (fun k => Some (rm z k)) (zseq L)) None = Some (rm z (wrap_index L k))).
    { apply nth_error_nth. rewrite nth_error_map, nth_error_zseq by lia. cbn [option_map]. rewrite Z2Nat.id by lia. reflexivity. }
    rewrite Q. reflexivity.
  - apply in_map_iff. destruct HM as [(z & Hz & E) _]. exists (z, 0%Z). cbn [fst snd]. rewrite rm_zero, E. split; [reflexivity|]. apply in_flat_map. exists z. split; [now apply in_zseq|]. apply in_map, in_zseq. lia.
  - intros x Hx. apply in_map_iff in Hx. destruct Hx as ([z k'] & <- & H). apply in_flat_map in H. destruct H as (z' & Hz' & H). apply in_map_iff in H. destruct H as (k2 & [= -> ->] & Hk). apply in_zseq in Hz', Hk. cbn [fst snd]. now apply rm_bound.
Qed.
End Run.

(** ** C76 *)
Lemma shown_psfi m d : shows_image (mi_cls m) (mi_model m) d -> exists e m', model_PSFi m = (Ok (e, true), m') /\ mi_params m' = mi_params m /\ shape e = shape d /\ forall ix, inb (shape d) ix -> get e ix = get d ix.
Proof.
  intros Hd. destruct (shown_reals _ _ _ Hd) as (B & E & F & S & G). unfold model_PSFi. destruct (read numeric (mi_cls m) PSFi (mi_model m)) as [r o]. cbn [fst] in E. subst r.
  exists (reals B), (upd_model o m). cbn [bind]. unfold farr_of. rewrite F. auto.
Qed.
Lemma spectrum_same (e d : array R) nz n z ix : shape e = [nz; n; n] -> shape d = [nz; n; n] -> (forall ix, inb [nz; n; n] ix -> get e ix = get d ix) -> (0 <= z < nz)%Z -> inb [n; n] ix ->
  get (plane_spectrum e z) ix = get (plane_spectrum d z) ix.
Proof.
  intros Se Sd H Hz Hi. unfold plane_spectrum. rewrite Se, Sd. cbn [tl]. rewrite !easy_fft_mop by exact Hi. cbn [shape get]. apply mop_ext; [exact Hi|]. intros js Hj. rewrite H; [reflexivity|]. apply Forall2_cons; [lia|exact Hj].
Qed.
Lemma light_same (e d : array R) nz n z : shape e = [nz; n; n] -> shape d = [nz; n; n] -> (forall ix, inb [nz; n; n] ix -> get e ix = get d ix) -> (0 <= z < nz)%Z -> plane_light e z = plane_light d z.
Proof. intros Se Sd H Hz. unfold plane_light. rewrite Se, Sd. apply Rsum_ext. intros js Hj. apply H, Forall2_cons; [lia|]. now apply in_all_ix in Hj. Qed.

Theorem C76_apotome : forall m d n nz size res wl na L M l,
  mi_kind m = Apotome -> shows_image (mi_cls m) (mi_model m) d -> shape d = [nz; n; n] -> (0 < n)%Z -> (0 < nz)%Z ->
  (forall ix, inb [nz; n; n] ix -> 0 <= get d ix) ->
  let par k := option_map as_val (dget (mi_params m) k) in
  finite_number (par "size"%string) size -> finite_number (par "res"%string) res -> finite_number (par "wl"%string) wl -> finite_number (par "na"%string) na ->
  wl <> 0 -> na <> 0 -> (0 <= L)%Z -> rings n L -> largest nz (plane_light d) M ->
  let k := half_cutoff size res wl na in
  let j := if (k <? 0)%Z then (k + L)%Z else k in
  ring n j l ->
  (~ (0 <= j < L)%Z -> fst (model_psf m) = Err IndexError) /\
  ((0 <= j < L)%Z -> exists img fin, fst (model_psf m) = Ok (img, fin) /\ shape img = [nz; n; n] /\
     (M = 0 -> fin = false) /\
     (M <> 0 -> fin = true /\ l <> [] /\ forall z, (0 <= z < nz)%Z ->
        let factor := Cmod (mean_over l (plane_spectrum d z)) / M in
        0 <= factor <= 1 /\ forall y x, inb [nz; n; n] [z; y; x] -> get img [z; y; x] = factor * get d [z; y; x])).
Proof.
  intros m d n nz size res wl na L M l Hk Hd Sd Pn Pz Pd par P1 P2 P3 P4 Hwl Hna PL HL HM k j Hl.
  destruct (shown_psfi m d Hd) as (e & m' & E & Em & Se & Ge). rewrite Sd in Se, Ge.
  assert (Pe : forall ix, inb (shape e) ix -> 0 <= get e ix) by (intros ix Hi; rewrite Se in Hi; rewrite Ge by exact Hi; now apply Pd).
  assert (HMe : largest nz (plane_light e) M).
  { destruct HM as [(z & Hz & Ez) HM]. split; [exists z; split; [exact Hz|]; rewrite (light_same e d nz n z Se Sd Ge Hz); exact Ez|]. intros z' Hz'. rewrite (light_same e d nz n z' Se Sd Ge Hz'). now apply HM. }
  pose proof (rings_unique n L PL HL) as EL.
  assert (Run : fst (model_psf m) = do ax <- axial_profile (map (fun z => map (fun k => Some (mean_over (pix [n; n] [IZR (n / 2); IZR (n / 2)] 1 k) (plane_spectrum e z))) (zseq L)) (zseq nz)) k;
    do p <- bop Rmult (column (fst ax)) e; Ok (p, snd ax && true)).
  { unfold model_psf. rewrite Hk. unfold apotome_psf. unfold mbind at 1. rewrite E. cbn [fst snd]. unfold mbind at 1, mlift at 1. rewrite (rows_val n nz Pn e Se). cbv beta. rewrite <- EL.
    unfold mbind at 1, masks at 1. rewrite Em. unfold mbind at 1, mlift at 1. rewrite (par_R_val m "wl" wl P3). cbn [bind]. rewrite (par_R_val m "na" na P4). cbn [bind]. unfold rdiv at 1. destruct (Req_EM_T na 0); [contradiction|]. cbn [bind].
    unfold mbind at 1, mlift at 1. rewrite (par_R_val m "size" size P1). cbn [bind]. rewrite (par_R_val m "res" res P2). cbn [bind]. unfold rdiv at 1. destruct (Req_EM_T (wl / na / 4) 0) as [Z|Z].
    { exfalso. apply Hwl. unfold Rdiv in Z. apply Rmult_integral in Z. destruct Z as [Z|Z]; [|lra]. apply Rmult_integral in Z. destruct Z as [Z|Z]; [exact Z|]. exfalso. apply (Rinv_neq_0_compat na Hna Z). }
    cbn [bind]. replace (rint (size * res / (wl / na / 4) / 2) / 2)%Z with k by (unfold k, half_cutoff, rint; do 2 f_equal; field; auto).
    unfold mbind, mlift. destruct (axial_profile _ k) as [ax|err]; [|reflexivity]. cbn [bind fst]. destruct (bop Rmult (column (fst ax)) e); reflexivity. }
  pose proof (axial_val n nz Pn Pz e Se Pe M HMe k) as AV. cbv beta zeta in AV. rewrite <- EL in AV. rewrite Run, AV. clear AV Run. change (wrap_index L k) with j.
  split.
  - intros Hj. destruct ((0 <=? j) && (j <? L))%Z eqn:B; [|reflexivity]. exfalso. apply Hj. apply andb_true_iff in B. destruct B as [B1 B2]. apply Z.leb_le in B1. apply Z.ltb_lt in B2. lia.
  - intros Hj. replace ((0 <=? j) && (j <? L))%Z with true by (symmetry; apply andb_true_iff; split; [apply Z.leb_le|apply Z.ltb_lt]; lia). cbn [bind fst snd].
    set (col := map _ (zseq nz)). assert (Lc : Z.of_nat (List.length col) = nz) by (unfold col; rewrite map_length, zseq_length; lia).
    destruct (bop_column Rmult col e nz n Se Lc) as (img & -> & Si & Gi). cbn [bind]. rewrite Bool.andb_true_r. eexists img, _. split; [reflexivity|]. split; [exact Si|].
    assert (Pl : Permutation (pix [n; n] [IZR (n / 2); IZR (n / 2)] 1 j) l) by (apply NoDup_Permutation; [apply pix_spec|apply Hl|]; intros ix; rewrite (proj2 (pix_spec _ _ _ _)); symmetry; apply Hl).
    split; [intros ->; destruct (Ceq_dec _ _) as [|N]; [reflexivity|exfalso; apply N; reflexivity]|]. intros HM0. split; [destruct (Ceq_dec _ _) as [N|]; [exfalso; apply HM0; now apply (f_equal fst) in N|reflexivity]|].
    assert (Ne : l <> []). { intros ->. apply (ring_full n Pn j); [rewrite <- EL; exact Hj|]. apply Permutation_sym, Permutation_nil in Pl. exact Pl. }
    split; [exact Ne|]. intros z Hz. set (factor := Cmod (mean_over l (plane_spectrum d z)) / M).
    assert (Em2 : mean_over (pix [n; n] [IZR (n / 2); IZR (n / 2)] 1 j) (plane_spectrum e z) = mean_over l (plane_spectrum d z)).
    { rewrite (mean_perm2 _ _ _ Pl). apply mean_over_ext. intros ix Hi. apply (spectrum_same e d nz n z ix Se Sd Ge Hz). now apply Hl in Hi. }
    assert (PM : 0 < M). { destruct HM as [(z0 & Hz0 & E0) _]. enough (0 <= M) by lra. rewrite <- E0. unfold plane_light. apply Rsum_nonneg. intros js Hjs. apply Pd. rewrite Sd in Hjs. apply Forall2_cons; [lia|]. now apply in_all_ix in Hjs. }
    pose proof (rm_bound n nz Pn e Se Pe M HMe z j Hz ltac:(rewrite <- EL; exact Hj)) as Bd. cbv beta in Bd. rewrite Em2 in Bd. pose proof (Cmod_ge_0 (mean_over l (plane_spectrum d z))) as Nn.
    split. { unfold factor. split; [apply Rmult_le_pos; [exact Nn|]; apply Rlt_le, Rinv_0_lt_compat, PM|]. apply Rmult_le_reg_r with M; [exact PM|]. unfold Rdiv. rewrite Rmult_assoc, Rinv_l by lra. lra. }
    intros y x Hi. rewrite Gi by exact Hi. rewrite Ge by exact Hi. f_equal. unfold col. unfold factor.
    transitivity (Cmod (Cdiv (mean_over l (plane_spectrum d z)) (RtoC M))).
    { apply nth_error_nth. rewrite nth_error_map, nth_error_zseq by lia. cbn [option_map]. rewrite Z2Nat.id by lia. now rewrite Em2. }
    rewrite Cmod_div by (intros N; apply HM0; now apply (f_equal fst) in N). rewrite Cmod_R, (Rabs_pos_eq M) by lra. reflexivity.
Qed.
Print Assumptions C76_apotome.
(** the brightest plane exists *)
Lemma largest_exists nz f : (0 < nz)%Z -> exists M, largest nz f M.
Proof.
  intros P. rewrite <- (Z2Nat.id nz) by lia. assert (N : (0 < Z.to_nat nz)%nat) by lia. clear P. induction (Z.to_nat nz) as [|k IH]; [lia|]. destruct k as [|k].
  - exists (f 0%Z). split; [exists 0%Z; split; [lia|reflexivity]|]. intros z Hz. assert (z = 0%Z) by lia. subst. apply Rle_refl.
  - destruct IH as (M & (z & Hz & E) & HM); [lia|]. destruct (Rle_dec (f (Z.of_nat (S k))) M) as [D|D].
    + exists M. split; [exists z; split; [lia|exact E]|]. intros z' Hz'. destruct (Z.eq_dec z' (Z.of_nat (S k))) as [->|Nz]; [exact D|]. apply HM. lia.
    + exists (f (Z.of_nat (S k))). split; [exists (Z.of_nat (S k)); split; [lia|reflexivity]|]. intros z' Hz'. destruct (Z.eq_dec z' (Z.of_nat (S k))) as [->|Nz]; [apply Rle_refl|]. specialize (HM z'). lra || (assert (f z' <= M) by (apply HM; lia); lra).
Qed.
