(** One step of phase retrieval as projections. *)
From Verif Require Import M_Phase S_Hanser L_Array L_Sum L_FFT L_FFT2 L_Polar L_Hanser L_Hanser2.
Import M_Array.
Local Open Scope R_scope.

Lemma angle_polar z : z = Cmult (RtoC (Cmod z)) (cis (angle z)).
Proof.
  destruct z as [x y]. unfold angle, Re, Im, cis. cbn [fst snd]. destruct (polar y x) as [Ex Ey].
  assert (E : Cmod (x, y) = hypot y x) by (unfold Cmod, hypot; cbn; f_equal; ring).
  unfold RtoC, Cmult; cbn [fst snd]. rewrite E. f_equal; [rewrite Ex at 1|rewrite Ey at 1]; ring.
Qed.
Lemma Cmod_pos z : 0 <= Cmod z. Proof. apply Cmod_ge_0. Qed.
(** the nearest point of given modulus has the same phase *)
Lemma project_modulus z m : Cnorm2 (Cminus z (Cmult (RtoC m) (cis (angle z)))) = (Cmod z - m) ^ 2.
Proof.
  rewrite (angle_polar z) at 1. replace (Cminus _ _) with (Cmult (RtoC (Cmod z - m)) (cis (angle z))).
  - rewrite Cnorm2_mult, Cnorm2_cis, Cnorm2_RtoC. ring.
  - rewrite RtoC_minus. ring.
Qed.
Lemma modulus_distance z m t : 0 <= m -> (Cmod z - m) ^ 2 <= Cnorm2 (Cminus z (Cmult (RtoC m) (cis t))).
Proof.
  intros Hm. set (w := Cmult (RtoC m) (cis t)). assert (Ew : Cmod w = m) by (unfold w; rewrite Cmod_mult, Cmod_R, Cmod_cis, Rabs_right; lra).
  rewrite Cnorm2_Cmod. pose proof (Cmod_ge_0 (Cminus z w)) as Hd.
  assert (H1 : Cmod z <= Cmod (Cminus z w) + Cmod w) by (replace z with (Cplus (Cminus z w) w) at 1 by ring; apply Cmod_triangle).
  assert (H2 : Cmod w <= Cmod (Cminus z w) + Cmod z).
  { replace w with (Cplus (Copp (Cminus z w)) z) at 1 by ring. eapply Rle_trans; [apply Cmod_triangle|]. rewrite Cmod_opp. lra. }
  rewrite Ew in *. nra.
Qed.

(** sums of squared distances and the mean *)
Lemma mean_split {X} (l : list X) (q : X -> C) p m : Cmult (RtoC (INR (List.length l))) m = Csum l q ->
  Rsum l (fun z => Cnorm2 (Cminus p (q z))) = Rsum l (fun z => Cnorm2 (Cminus m (q z))) + INR (List.length l) * Cnorm2 (Cminus p m).
Proof.
  intros Hm.
  assert (E : forall z, Cnorm2 (Cminus p (q z)) = Cnorm2 (Cminus m (q z)) + Cnorm2 (Cminus p m) + 2 * (Re (Cmult (Cconj (Cminus p m)) m) - Re (Cmult (Cconj (Cminus p m)) (q z)))).
  { intros z. destruct p as [p1 p2], m as [m1 m2], (q z) as [q1 q2]. unfold Cnorm2, Cminus, Cplus, Copp, Cmult, Cconj, Re, Im; cbn. ring. }
  rewrite (Rsum_ext _ _ _ (fun z _ => E z)), !Rsum_plus, Rsum_const, Rsum_scal_l, Rsum_minus, Rsum_const.
  rewrite <- Csum_Re, Csum_scal_l, <- Hm.
  replace (Re (Cmult (Cconj (Cminus p m)) (Cmult (RtoC (INR (List.length l))) m))) with (INR (List.length l) * Re (Cmult (Cconj (Cminus p m)) m)); [ring|].
  destruct m as [m1 m2], p as [p1 p2]. unfold Cmult, Cconj, Cminus, Cplus, Copp, Re, RtoC; cbn. ring.
Qed.
Lemma mean_best {X} (l : list X) (q : X -> C) p m : Cmult (RtoC (INR (List.length l))) m = Csum l q ->
  Rsum l (fun z => Cnorm2 (Cminus m (q z))) <= Rsum l (fun z => Cnorm2 (Cminus p (q z))).
Proof. intros Hm. rewrite (mean_split l q p m Hm). pose proof (pos_INR (List.length l)). pose proof (Cnorm2_ge_0 (Cminus p m)). nra. Qed.
Lemma phase_best {X} (l : list X) (q : X -> C) p m : Cmult (RtoC (INR (List.length l))) m = Csum l q -> Cmod p = 1 ->
  Rsum l (fun z => Cnorm2 (Cminus (cis (angle m)) (q z))) <= Rsum l (fun z => Cnorm2 (Cminus p (q z))).
Proof.
  intros Hm Hp. rewrite (mean_split l q (cis (angle m)) m Hm), (mean_split l q p m Hm). pose proof (pos_INR (List.length l)). apply Rplus_le_compat_l, Rmult_le_compat_l; [auto|].
  assert (E1 : Cnorm2 (Cminus (cis (angle m)) m) = (Cmod m - 1) ^ 2).
  { rewrite <- (project_modulus m 1). rewrite Cmult_1_l. destruct m, (cis (angle (r, r0))). unfold Cnorm2, Cminus, Cplus, Copp, Re, Im; cbn. ring. }
  assert (E2 : p = Cmult (RtoC 1) (cis (angle p))) by (rewrite <- Hp at 1; apply angle_polar).
  rewrite E1. eapply Rle_trans; [apply (modulus_distance m 1 (angle p)); lra|]. rewrite <- E2. right. destruct m, p. unfold Cnorm2, Cminus, Cplus, Copp, Re, Im; cbn. ring.
Qed.

(** ** Amplitudes: forward and backward transforms *)
Definition kadj : Z -> Z -> Z -> C := fun n k j => Cconj (kpsf n j k).
Section A.
Context (h : hpar) (Hph : physical h).
Let n := h_size h.
Definition fl2 (F : Z -> Z -> C) : list Z -> C := fun ix => match ix with [j; i] => F j i | _ => RtoC 0 end.
(** field of a pupil at a plane *)
Definition amp (P : Z -> Z -> C) (z y x : Z) : C :=
  Cmult (RtoC (/ IZR (n * n))) (mop kpsf [true; true] [n; n] (fl2 (fun j i => Cmult (P j i) (defocus h z j i))) [y; x]).
(** back to the pupil plane *)
Definition back (B : Z -> Z -> C) (z j i : Z) : C :=
  Cdiv (mop kadj [true; true] [n; n] (fl2 B) [j; i]) (defocus h z j i).
Lemma defocus_nz z j i : defocus h z j i <> RtoC 0. Proof. apply cis_neq_0. Qed.
Lemma roundtrip2 B y x : (0 <= y < n)%Z -> (0 <= x < n)%Z ->
  mop kpsf [true; true] [n; n] (mop kadj [true; true] [n; n] (fl2 B)) [y; x] = Cmult (RtoC (IZR (n * n))) (B y x).
Proof.
  intros Hy Hx. rewrite mop_comp.
  rewrite (mop_kernel _ (fun n k j => Cmult (RtoC (IZR n)) (delta k j))); [|now apply inb2|].
  2:{ intros m k j Hm Hk Hj. unfold kcomp, kadj, kpsf.
      rewrite (Csum_ext _ _ (fun i => root m (i * (k - j)))); [rewrite root_orth by lia|intros i _; rewrite root_conj, <- root_add; f_equal; ring].
      unfold delta. destruct (Z.eqb_spec k j); [now rewrite Cmult_1_r|now rewrite Cmult_0_r]. }
  rewrite mop_kscaleN by now apply inb2. rewrite mop_id by now apply inb2. cbn [masked_size fl2]. f_equal. f_equal. f_equal. ring.
Qed.
Lemma amp_back P B z y x : (0 <= y < n)%Z -> (0 <= x < n)%Z ->
  Cminus (amp P z y x) (B y x) = amp (fun j i => Cminus (P j i) (back B z j i)) z y x.
Proof.
  intros Hy Hx. pose proof (n2_pos h Hph) as Hn. fold n in Hn.
  assert (E : B y x = Cmult (RtoC (/ IZR (n * n))) (mop kpsf [true; true] [n; n] (mop kadj [true; true] [n; n] (fl2 B)) [y; x])).
  { rewrite roundtrip2 by auto. rewrite Cmult_assoc, <- RtoC_mult, Rinv_l by lra. now rewrite Cmult_1_l. }
  rewrite E. unfold amp. 
  assert (S : forall f g ks, mop kpsf [true; true] [n; n] (fun js => Cminus (f js) (g js)) ks = Cminus (mop kpsf [true; true] [n; n] f ks) (mop kpsf [true; true] [n; n] g ks)).
  { intros f g ks. transitivity (mop kpsf [true; true] [n; n] (fun js => Cplus (f js) (Cmult (Copp (RtoC 1)) (g js))) ks).
    - apply mop_ext'. intros js. ring.
    - rewrite mop_plus, mop_scal. ring. }
  transitivity (Cmult (RtoC (/ IZR (n * n))) (mop kpsf [true; true] [n; n] (fun js => Cminus (fl2 (fun j i => Cmult (P j i) (defocus h z j i)) js) (mop kadj [true; true] [n; n] (fl2 B) js)) [y; x])).
  - rewrite S. ring.
  - f_equal. apply mop_ext; [now apply inb2|]. intros js Hjs. destruct (inb2_inv _ _ _ Hjs) as (j & i & -> & Hj & Hi). cbn [fl2]. unfold back. field. apply defocus_nz.
Qed.
Lemma amp_energy P z : plane_sum n (fun y x => Cnorm2 (amp P z y x)) = / IZR (n * n) * plane_sum n (fun j i => Cnorm2 (P j i)).
Proof.
  pose proof (n2_pos h Hph) as Hn. fold n in Hn. pose proof (n_pos h Hph) as Hn0. fold n in Hn0.
  rewrite (plane_ext n _ (fun y x => (/ IZR (n * n) * / IZR (n * n)) * Cnorm2 (mop kpsf [true; true] [n; n] (fl2 (fun j i => Cmult (P j i) (defocus h z j i))) [y; x])))
    by (intros; unfold amp; rewrite Cnorm2_mult, Cnorm2_RtoC; reflexivity).
  rewrite plane_scal, (plane_all n (fun ix => Cnorm2 (mop kpsf [true; true] [n; n] _ ix))).
  rewrite mop_energy.
  - rewrite <- plane_all. cbn [masked_size]. replace (n * (n * 1))%Z with (n * n)%Z by ring.
    rewrite (plane_ext n (fun y x => Cnorm2 (fl2 _ [y; x])) (fun j i => Cnorm2 (P j i))) by (intros; cbn [fl2]; unfold defocus; rewrite Cnorm2_mult, Cnorm2_cis; ring).
    field. lra.
  - repeat constructor; exact Hn0.
  - intros m i j Hm Hi Hj. now apply kpsf_unitary.
Qed.
Lemma distance P B z : plane_sum n (fun y x => Cnorm2 (Cminus (amp P z y x) (B y x))) = / IZR (n * n) * plane_sum n (fun j i => Cnorm2 (Cminus (P j i) (back B z j i))).
Proof.
  rewrite <- (amp_energy (fun j i => Cminus (P j i) (back B z j i)) z). apply plane_ext. intros y x Hy Hx. now rewrite amp_back.
Qed.

(** ** The step *)
Context (nz : Z) (Hnz : (0 < nz)%Z) (mg : Z -> Z -> Z -> R) (Hmg : forall z y x, 0 <= mg z y x) (mk : Z -> Z -> R)
  (Hmk : forall j i, mk j i = 0 \/ mk j i = 1).
(** measured magnitude, current phase *)
Definition fix_mag (P : Z -> Z -> C) (z y x : Z) : C := Cmult (RtoC (mg z y x)) (cis (angle (amp P z y x))).
Definition avg (P : Z -> Z -> C) (j i : Z) : C :=
  Cdiv (Csum (zseq nz) (fun z => back (fix_mag P z) z j i)) (RtoC (IZR nz)).
Definition step (phase_only : bool) (P : Z -> Z -> C) (j i : Z) : C :=
  let a := Cmult (avg P j i) (RtoC (mk j i)) in
  if phase_only then Cmult (cis (angle a)) (RtoC (mk j i)) else a.
(** amplitude error *)
Definition aerr (P : Z -> Z -> C) : R :=
  Rsum (zseq nz) (fun z => plane_sum n (fun y x => (Cmod (amp P z y x) - mg z y x) ^ 2)).
Definition admissible (phase_only : bool) (P : Z -> Z -> C) : Prop :=
  forall j i, (0 <= j < n)%Z -> (0 <= i < n)%Z ->
    (mk j i = 0 -> P j i = RtoC 0) /\ (phase_only = true -> mk j i = 1 -> Cmod (P j i) = 1).
Lemma step_admissible po P : admissible po (step po P).
Proof.
  intros j i _ _. unfold step. split.
  - intros E. rewrite E. destruct po; now rewrite Cmult_0_r.
  - intros -> E. rewrite E, !Cmult_1_r. apply Cmod_cis.
Qed.
Lemma step_point po P j i : (0 <= j < n)%Z -> (0 <= i < n)%Z -> admissible po P ->
  Rsum (zseq nz) (fun z => Cnorm2 (Cminus (step po P j i) (back (fix_mag P z) z j i))) <=
  Rsum (zseq nz) (fun z => Cnorm2 (Cminus (P j i) (back (fix_mag P z) z j i))).
Proof.
  intros Hj Hi Ha. destruct (Ha j i Hj Hi) as [H0 H1].
  assert (Hm : Cmult (RtoC (INR (List.length (zseq nz)))) (avg P j i) = Csum (zseq nz) (fun z => back (fix_mag P z) z j i)).
  { unfold avg, zseq at 1. rewrite map_length, seq_length, INR_IZR_INZ, Z2Nat.id by lia. assert (IZR nz <> 0) by (apply not_0_IZR; lia). field. intro E. apply RtoC_inj in E. contradiction. }
  unfold step. destruct (Hmk j i) as [E|E]; rewrite E.
  - rewrite (H0 E). destruct po; rewrite !Cmult_0_r; apply Rle_refl.
  - rewrite !Cmult_1_r. destruct po.
    + apply phase_best; auto.
    + now apply mean_best.
Qed.
Theorem step_decreases po P : admissible po P -> aerr (step po P) <= aerr P.
Proof.
  intros Ha. pose proof (n2_pos h Hph) as Hn. fold n in Hn.
  assert (EP : aerr P = Rsum (zseq nz) (fun z => plane_sum n (fun y x => Cnorm2 (Cminus (amp P z y x) (fix_mag P z y x))))).
  { unfold aerr. apply Rsum_ext. intros z _. apply plane_ext. intros y x _ _. unfold fix_mag. now rewrite project_modulus. }
  assert (D : forall Q, Rsum (zseq nz) (fun z => plane_sum n (fun y x => Cnorm2 (Cminus (amp Q z y x) (fix_mag P z y x)))) =
              / IZR (n * n) * plane_sum n (fun j i => Rsum (zseq nz) (fun z => Cnorm2 (Cminus (Q j i) (back (fix_mag P z) z j i))))).
  { intros Q. rewrite plane_swap, <- Rsum_scal_l. apply Rsum_ext. intros z _. apply distance. }
  rewrite EP, D. eapply Rle_trans.
  - unfold aerr. apply Rsum_le. intros z _. apply plane_le. intros y x _ _. apply (modulus_distance _ _ (angle (amp P z y x))). apply Hmg.
  - cbv beta. change (Rsum (zseq nz) (fun z => plane_sum n (fun y x => Cnorm2 (Cminus (amp (step po P) z y x) (fix_mag P z y x)))) <= / IZR (n * n) * plane_sum n (fun j i => Rsum (zseq nz) (fun z => Cnorm2 (Cminus (P j i) (back (fix_mag P z) z j i))))).
    rewrite D. apply Rmult_le_compat_l; [left; now apply Rinv_0_lt_compat|]. apply plane_le. intros j i Hj Hi. now apply step_point.
Qed.
End A.
