(** Convergence of phase retrieval: the light of the model grows as the pupil moves. *)
From Verif Require Import M_Phase S_Hanser L_Array L_Sum L_FFT L_FFT2 L_Polar L_Hanser L_Hanser2 L_Phase L_Phase2.
Import M_Array.
Local Open Scope R_scope.

Lemma plane_plus n F G : plane_sum n (fun y x => F y x + G y x) = plane_sum n F + plane_sum n G.
Proof. unfold plane_sum. rewrite <- Rsum_plus. apply Rsum_ext. intros y _. now rewrite Rsum_plus. Qed.
Lemma plane_nonneg n F : (forall y x, (0 <= y < n)%Z -> (0 <= x < n)%Z -> 0 <= F y x) -> 0 <= plane_sum n F.
Proof. intros H. unfold plane_sum. apply Rsum_nonneg. intros y Hy. apply Rsum_nonneg. intros x Hx. apply in_zseq_iff in Hy, Hx. auto. Qed.
Lemma amp_scale h t P z y x : amp h (fun j i => Cmult (RtoC t) (P j i)) z y x = Cmult (RtoC t) (amp h P z y x).
Proof.
  unfold amp. transitivity (Cmult (RtoC (/ IZR (h_size h * h_size h))) (mop kpsf [true; true] [h_size h; h_size h] (fun js => Cmult (RtoC t) (fl2 (fun j i => Cmult (P j i) (defocus h z j i)) js)) [y; x])).
  - f_equal. apply mop_ext'. intros js. destruct js as [|j [|i [|? ?]]]; cbn [fl2]; ring.
  - rewrite mop_scal. ring.
Qed.

Section A.
Context (h : hpar) (Hph : physical h).
Let n := h_size h.
Context (nz : Z) (Hnz : (0 < nz)%Z).
Let c := IZR nz * / IZR (n * n).
Lemma c_pos : 0 < c.
Proof. unfold c. apply Rmult_lt_0_compat; [apply IZR_lt; lia|]. apply Rinv_0_lt_compat. exact (n2_pos h Hph). Qed.
Definition en (P : Z -> Z -> C) : R := plane_sum n (fun j i => Cnorm2 (P j i)).
Definition en_diff (P Q : Z -> Z -> C) : R := plane_sum n (fun j i => Cnorm2 (Cminus (P j i) (Q j i))).
Lemma en_nonneg P : 0 <= en P. Proof. apply plane_nonneg. intros. apply Cnorm2_ge_0. Qed.
Lemma en_diff_nonneg P Q : 0 <= en_diff P Q. Proof. apply plane_nonneg. intros. apply Cnorm2_ge_0. Qed.
Lemma len_nz : INR (List.length (zseq nz)) = IZR nz.
Proof. unfold zseq. rewrite map_length, seq_length, INR_IZR_INZ, Z2Nat.id by lia. reflexivity. Qed.
(** the light of a pupil *)
Lemma light_en P : Rsum (zseq nz) (fun z => plane_sum n (fun y x => Cnorm2 (amp h P z y x))) = c * en P.
Proof.
  rewrite (Rsum_ext _ _ (fun _ => / IZR (n * n) * en P)) by (intros z _; apply (amp_energy h Hph)). rewrite Rsum_const, len_nz. unfold c. ring.
Qed.
Context (mg : Z -> Z -> Z -> R).
Local Notation fixm := (fix_mag h mg).
Local Notation aerrf := (aerr h nz mg).
Definition dist (P Q : Z -> Z -> C) : R := Rsum (zseq nz) (fun z => plane_sum n (fun y x => Cnorm2 (Cminus (amp h Q z y x) (fixm P z y x)))).
Definition msum : R := Rsum (zseq nz) (fun z => plane_sum n (fun y x => (mg z y x) ^ 2)).
Definition osum (P : Z -> Z -> C) : R := Rsum (zseq nz) (fun z => plane_sum n (fun y x => mg z y x * Cmod (amp h P z y x))).
Lemma dist_nonneg P Q : 0 <= dist P Q. Proof. apply Rsum_nonneg. intros z _. apply plane_nonneg. intros. apply Cnorm2_ge_0. Qed.
Lemma dist_self P : dist P P = aerrf P.
Proof. unfold dist, aerr. apply Rsum_ext. intros z _. apply plane_ext. intros y x _ _. unfold fix_mag. now rewrite project_modulus. Qed.
Lemma dist_back P Q : dist P Q = / IZR (n * n) * plane_sum n (fun j i => Rsum (zseq nz) (fun z => Cnorm2 (Cminus (Q j i) (back h (fixm P z) z j i)))).
Proof. unfold dist. rewrite plane_swap, <- Rsum_scal_l. apply Rsum_ext. intros z _. apply (distance h Hph). Qed.
(** distance of a multiple of the pupil *)
Lemma dist_scale P t : dist P (fun j i => Cmult (RtoC t) (P j i)) = t * t * (c * en P) - 2 * t * osum P + msum.
Proof.
  rewrite <- light_en. unfold dist, osum, msum.
  rewrite (Rsum_ext _ _ (fun z => t * t * plane_sum n (fun y x => Cnorm2 (amp h P z y x)) + ((-2) * t * plane_sum n (fun y x => mg z y x * Cmod (amp h P z y x)) + plane_sum n (fun y x => mg z y x ^ 2)))).
  - rewrite !Rsum_plus, !Rsum_scal_l. ring.
  - intros z _. rewrite <- !plane_scal, <- !plane_plus. apply plane_ext. intros y x _ _. rewrite amp_scale. unfold fix_mag.
    set (a := amp h P z y x). set (m := mg z y x). rewrite (angle_polar a) at 1.
    replace (Cminus (Cmult (RtoC t) (Cmult (RtoC (Cmod a)) (cis (angle a)))) (Cmult (RtoC m) (cis (angle a)))) with (Cmult (RtoC (t * Cmod a - m)) (cis (angle a))).
    + rewrite Cnorm2_mult, Cnorm2_cis, Cnorm2_RtoC, (Cnorm2_Cmod a). ring.
    + rewrite RtoC_minus, RtoC_mult. ring.
Qed.
Lemma quad a b d : 0 <= a -> (forall t, 2 * t * b - t * t * a <= d) -> b * b <= a * d.
Proof.
  intros Ha H. destruct (Req_dec a 0) as [E|E].
  - subst a. rewrite Rmult_0_l. destruct (Req_dec b 0) as [->|Nb]; [lra|]. exfalso. specialize (H ((d + 1) / (2 * b))).
    replace (2 * ((d + 1) / (2 * b)) * b) with (d + 1) in H by (field; assumption). lra.
  - specialize (H (b / a)). replace (2 * (b / a) * b - b / a * (b / a) * a) with (b * b / a) in H by (field; assumption).
    apply (Rmult_le_compat_l a) in H; [|lra]. replace (a * (b * b / a)) with (b * b) in H by (field; assumption). exact H.
Qed.
Context (mk : Z -> Z -> R) (Hmk : forall j i, mk j i = 0 \/ mk j i = 1).
Local Notation stepf := (step h nz mg mk false).
Local Notation adm := (admissible h mk false).
(** the step is an orthogonal projection *)
Lemma split_dist P Q : adm Q -> dist P Q = dist P (stepf P) + c * en_diff Q (stepf P).
Proof.
  intros HQ. rewrite !dist_back. unfold en_diff, c.
  replace (IZR nz * / IZR (n * n) * plane_sum n (fun j i => Cnorm2 (Cminus (Q j i) (stepf P j i)))) with (/ IZR (n * n) * (IZR nz * plane_sum n (fun j i => Cnorm2 (Cminus (Q j i) (stepf P j i))))) by ring.
  rewrite <- (plane_scal n (IZR nz)), <- Rmult_plus_distr_l, <- plane_plus. f_equal. apply plane_ext. intros j i Hj Hi.
  assert (Hm : Cmult (RtoC (INR (List.length (zseq nz)))) (avg h nz mg P j i) = Csum (zseq nz) (fun z => back h (fixm P z) z j i)).
  { rewrite len_nz. unfold avg. assert (IZR nz <> 0) by (apply not_0_IZR; lia). field. intro E. apply RtoC_inj in E. contradiction. }
  destruct (HQ j i Hj Hi) as [H0 _]. unfold step. destruct (Hmk j i) as [E|E]; rewrite E.
  - rewrite (H0 E), !Cmult_0_r. replace (Cnorm2 (Cminus (RtoC 0) (RtoC 0))) with 0; [ring|]. unfold Cnorm2, Cminus, Cplus, Copp, RtoC, Re, Im; cbn. ring.
  - rewrite !Cmult_1_r. rewrite (mean_split (zseq nz) (fun z => back h (fixm P z) z j i) (Q j i) _ Hm), len_nz. reflexivity.
Qed.
Lemma step_adm P : adm (stepf P). Proof. apply step_admissible. Qed.
Lemma adm_scale t P : adm P -> adm (fun j i => Cmult (RtoC t) (P j i)).
Proof. intros HP j i Hj Hi. split; [|discriminate]. intros E. rewrite (proj1 (HP j i Hj Hi) E). apply Cmult_0_r. Qed.
Lemma en_diff_0 P : en_diff (fun j i => Cmult (RtoC 0) (P j i)) (stepf P) = en (stepf P).
Proof. apply plane_ext. intros j i _ _. destruct (P j i), (stepf P j i). unfold Cnorm2, Cminus, Cplus, Copp, Cmult, RtoC, Re, Im; cbn. ring. Qed.
(** Pythagoras with the origin *)
Lemma dist_step P : adm P -> dist P (stepf P) = msum - c * en (stepf P).
Proof.
  intros HP. pose proof (split_dist P _ (adm_scale 0 P HP)) as E. rewrite dist_scale, en_diff_0 in E. lra.
Qed.
Lemma aerr_split P : adm P -> aerrf P = msum - c * en (stepf P) + c * en_diff P (stepf P).
Proof. intros HP. rewrite <- dist_self, (split_dist P P HP), dist_step by assumption. reflexivity. Qed.
Lemma en_bound P : adm P -> c * en (stepf P) <= msum.
Proof. intros HP. pose proof (dist_step P HP). pose proof (dist_nonneg P (stepf P)). lra. Qed.
(** the light of the first step *)
Lemma first_light P : adm P -> osum P * osum P <= (c * en P) * (c * en (stepf P)).
Proof.
  intros HP. apply quad.
  - pose proof c_pos. pose proof (en_nonneg P). nra.
  - intros t. pose proof (split_dist P _ (adm_scale t P HP)) as E. rewrite dist_scale, (dist_step P HP) in E.
    assert (0 <= c * en_diff (fun j i => Cmult (RtoC t) (P j i)) (stepf P)). { pose proof c_pos. pose proof (en_diff_nonneg (fun j i => Cmult (RtoC t) (P j i)) (stepf P)). nra. }
    lra.
Qed.
Context (Hmg : forall z y x, 0 <= mg z y x).
Lemma aerr_dist P Q : aerrf Q <= dist P Q.
Proof. unfold aerr, dist. apply Rsum_le. intros z _. apply plane_le. intros y x _ _. unfold fix_mag. apply modulus_distance, Hmg. Qed.
(** moving costs error *)
Lemma gain P : adm P -> aerrf (stepf P) + c * en_diff P (stepf P) <= aerrf P.
Proof. intros HP. rewrite <- (dist_self P), (split_dist P P HP). pose proof (aerr_dist P (stepf P)). lra. Qed.
Lemma aerr_step_le P : adm P -> aerrf (stepf P) <= msum - c * en (stepf P).
Proof. intros HP. rewrite <- dist_step by assumption. apply aerr_dist. Qed.
(** from the first step on, the light grows by what the pupil moves *)
Lemma en_grows P : adm P -> en (stepf P) + en_diff (stepf P) (stepf (stepf P)) <= en (stepf (stepf P)).
Proof.
  intros HP. pose proof (aerr_step_le P HP) as A. rewrite (aerr_split (stepf P) (step_adm P)) in A. pose proof c_pos. nra.
Qed.
End A.
