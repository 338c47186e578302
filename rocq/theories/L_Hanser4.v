From Verif Require Import M_Hanser S_Hanser L_Array L_Sum L_FFT L_FFT2 L_Polar L_Hanser L_Hanser2 L_Hanser3 L_Band.
Local Open Scope R_scope.
Notation "a *c b" := (Cmult a b) (at level 40, left associativity).

Definition with_vec (h : hpar) (v : vec) : hpar :=
  mkHpar (h_wl h) (h_na h) (h_ni h) (h_res h) (h_size h) (h_zrange h) v (h_cond h).

Section H.
Context (h : hpar) (Hph : physical h).
Let n := h_size h.

Lemma physical_nz : IZR n * h_res h <> 0 /\ h_wl h <> 0.
Proof.
  destruct Hph as (Hw & _ & _ & Hr & Hn). split; [|lra]. apply Rmult_integral_contrapositive_currified; [|lra]. apply not_0_IZR. fold n in Hn. lia.
Qed.
Lemma gen_psf_ok base : (forall P, base = Some P -> on_grid h P) -> exists A, gen_psf h base = Ok A.
Proof.
  intros Hg. destruct physical_nz as [H1 H2]. unfold gen_psf. fold n.
  destruct (Req_EM_T _ _); [contradiction|]. destruct (Req_EM_T _ _); [contradiction|]. destruct base as [P|]; eauto.
  specialize (Hg P eq_refl). rewrite Hg. fold n. rewrite !bdim_same. cbn. eauto.
Qed.
Lemma Cmod_pup Q c z y x : h_vec h = VecNone -> Cmod (pup h Q (Z.of_nat c) z y x) <= Cmod (Q y x) * apod h y x.
Proof.
  intros Hv. unfold pup, defocus. rewrite Hv, !Cmod_mult, Cmod_cis, !Cmod_R. pose proof (apod_pos h Hph y x). pose proof (Cmod_ge_0 (Q y x)).
  rewrite (Rabs_pos_eq (apod _ _ _)) by lra. rewrite Nat2Z.id. cbn [plist]. destruct c as [|[|c]]; cbn [nth].
  - rewrite Rabs_R1. lra.
  - rewrite Rabs_R0. nra.
  - rewrite Rabs_R0. nra.
Qed.
Definition peak : R := plane_sum n (fun y x => (if Rlt_dec (k2 h y x) ((h_na h / h_wl h) ^ 2) then 1 else 0) * apod h y x).
Lemma peak_ge_0 : 0 <= peak.
Proof.
  unfold peak, plane_sum. apply Rsum_nonneg. intros y _. apply Rsum_nonneg. intros x _. pose proof (apod_pos h Hph y x).
  destruct (Rlt_dec _ _); lra.
Qed.
Lemma scalar_psfi base A z y x : h_vec h = VecNone -> gen_psf h base = Ok A -> (forall P, base = Some P -> on_grid h P) ->
  (0 <= y < n)%Z -> (0 <= x < n)%Z ->
  get (sumsq A) [z; y; x] = (/ IZR (n * n) * Cmod (mop kpsf [true; true] [n; n] (pupf h (used_pupil h base) 0 z) [y; x])) ^ 2.
Proof.
  intros Hv HA Hg Hy Hx. rewrite (psfi_val h Hph base) by auto. rewrite Hv. change (zseq (components VecNone)) with [0%Z]. cbn [Rsum]. rewrite Cnorm2_Cmod. fold n. ring.
Qed.
Lemma peak_value A z0 : h_vec h = VecNone -> gen_psf h None = Ok A -> nth (Z.to_nat z0) (h_zrange h) 0 = 0 ->
  get (sumsq A) [z0; n / 2; n / 2]%Z = (/ IZR (n * n) * peak) ^ 2.
Proof.
  intros Hv HA Hz. pose proof (n_pos h Hph) as Hn. fold n in Hn.
  assert (Hc : (0 <= n / 2 < n)%Z) by (split; [apply Z.div_pos; lia|apply Z.div_lt; lia]).
  rewrite (scalar_psfi None) by (auto; discriminate). f_equal. f_equal. unfold n. rewrite (mop_kpsf_centre h). fold n.
  assert (E : Csum (all_ix [n; n]) (pupf h (used_pupil h None) 0 z0) = RtoC peak).
  { set (F := fun ix : list Z => match ix with [y; x] => (if Rlt_dec (k2 h y x) ((h_na h / h_wl h) ^ 2) then 1 else 0) * apod h y x | _ => 0 end).
    assert (EF : peak = Rsum (all_ix [n; n]) F) by apply (plane_all n F). rewrite EF.
    rewrite Csum_RtoC. apply Csum_ext. intros ix Hi. apply in_all_ix in Hi. destruct (inb2_inv _ _ _ Hi) as (y & x & -> & Hy & Hx).
    unfold F, pupf, pup, used_pupil, defocus. rewrite Hv, Hz, Rmult_0_r, cis_0. cbn [plist nth Z.to_nat]. rewrite RtoC_mult. ring. }
  fold n. rewrite E, Cmod_R. apply Rabs_pos_eq, peak_ge_0.
Qed.
Lemma peak_bound base A z y x : h_vec h = VecNone -> gen_psf h base = Ok A -> (forall P, base = Some P -> on_grid h P) ->
  (forall j i, (0 <= j < n)%Z -> (0 <= i < n)%Z -> Cmod (used_pupil h base j i) <= if Rlt_dec (k2 h j i) ((h_na h / h_wl h) ^ 2) then 1 else 0) ->
  (0 <= y < n)%Z -> (0 <= x < n)%Z -> get (sumsq A) [z; y; x] <= (/ IZR (n * n) * peak) ^ 2.
Proof.
  intros Hv HA Hg HQ Hy Hx. rewrite (scalar_psfi base) by auto. pose proof (n2_pos h Hph) as H2. fold n in H2.
  assert (Hi : 0 < / IZR (n * n)) by now apply Rinv_0_lt_compat.
  apply pow_incr. split; [apply Rmult_le_pos; [lra|apply Cmod_ge_0]|]. apply Rmult_le_compat_l; [lra|].
  eapply Rle_trans; [apply (psfa_bound h); auto|]. apply plane_le. intros j i Hj Hi'.
  eapply Rle_trans; [apply (Cmod_pup _ 0); auto|]. pose proof (apod_pos h Hph j i). specialize (HQ j i Hj Hi').
  apply Rmult_le_compat_r; lra.
Qed.
End H.

(** ** total = x + y + z *)
Section V.
Context (h : hpar) (Hph : physical h).
Let n := h_size h.
Lemma physical_vec v : physical (with_vec h v).
Proof. exact Hph. Qed.
Lemma vec_total base At Ax Ay Az z y x : (forall P, base = Some P -> on_grid h P) ->
  gen_psf (with_vec h VecTotal) base = Ok At -> gen_psf (with_vec h VecX) base = Ok Ax ->
  gen_psf (with_vec h VecY) base = Ok Ay -> gen_psf (with_vec h VecZ) base = Ok Az ->
  (0 <= y < n)%Z -> (0 <= x < n)%Z ->
  get (sumsq At) [z; y; x] = get (sumsq Ax) [z; y; x] + get (sumsq Ay) [z; y; x] + get (sumsq Az) [z; y; x].
Proof.
  intros Hg Ht Hx' Hy' Hz' Hy Hx.
  rewrite (psfi_val _ (physical_vec VecTotal) base At), (psfi_val _ (physical_vec VecX) base Ax),
    (psfi_val _ (physical_vec VecY) base Ay), (psfi_val _ (physical_vec VecZ) base Az) by auto.
  change (zseq (components (h_vec (with_vec h VecTotal)))) with [0; 1; 2; 3; 4; 5]%Z.
  change (zseq (components (h_vec (with_vec h VecX)))) with [0; 1]%Z.
  change (zseq (components (h_vec (with_vec h VecY)))) with [0; 1]%Z.
  change (zseq (components (h_vec (with_vec h VecZ)))) with [0; 1]%Z.
  cbn [Rsum]. change (h_size (with_vec h VecX)) with n. change (h_size (with_vec h VecY)) with n.
  change (h_size (with_vec h VecZ)) with n. change (h_size (with_vec h VecTotal)) with n.
  assert (Hin : inb [n; n] [y; x]) by now apply inb2.
  assert (E : forall v c c', (forall t p, nth (Z.to_nat c) (plist VecTotal t p) 0 = nth (Z.to_nat c') (plist v t p) 0) ->
    mop kpsf [true; true] [n; n] (pupf (with_vec h VecTotal) (used_pupil (with_vec h VecTotal) base) c z) [y; x] =
    mop kpsf [true; true] [n; n] (pupf (with_vec h v) (used_pupil (with_vec h v) base) c' z) [y; x]).
  { intros v c c' Hc. apply mop_ext; auto. intros js Hj. destruct (inb2_inv _ _ _ Hj) as (j & i & -> & _ & _).
    unfold pupf, pup.
    assert (Q : nth (Z.to_nat c) (plist (h_vec (with_vec h VecTotal)) (h_theta (with_vec h VecTotal) j i) (h_phi (with_vec h VecTotal) j i)) 0 =
                nth (Z.to_nat c') (plist (h_vec (with_vec h v)) (h_theta (with_vec h v) j i) (h_phi (with_vec h v) j i)) 0) by apply Hc.
    rewrite Q. reflexivity. }
  rewrite (E VecZ 0 0)%Z, (E VecZ 1 1)%Z, (E VecY 2 0)%Z, (E VecY 3 1)%Z, (E VecX 4 0)%Z, (E VecX 5 1)%Z by reflexivity.
  ring.
Qed.
End V.

(** ** angular spectrum form *)
Section A.
Context (h : hpar) (Hph : physical h).
Let n := h_size h.
Lemma root_freq j m : root n (j * m) = cis (2 * PI * (sfreq n (h_res h) j * (IZR m * h_res h))).
Proof.
  pose proof (n_pos h Hph) as Hn. fold n in Hn.
  rewrite (root_cong n (j * m) (six h j * m)); auto.
  - unfold root, n. rewrite sfreq_six. fold n. f_equal. rewrite mult_IZR. destruct Hph as (_ & _ & _ & Hr & _). field.
    split; [lra|]. apply not_0_IZR. lia.
  - apply mulmod_cong; auto; [|now rewrite Z.sub_diag, Zmod_0_l].
    pose proof (six_cong h Hph j) as E. fold n in E. apply Z.mod_divide in E; [|lia]. destruct E as [q Hq].
    replace (j - six h j)%Z with (- q * n)%Z by lia. apply Z_mod_mult.
Qed.
Lemma kz_spec y x : (0 <= y < n)%Z -> (0 <= x < n)%Z -> h_kz h y x = sqrt (Rmax 0 ((h_ni h / h_wl h) ^ 2 - k2 h y x)).
Proof. intros Hy Hx. unfold h_kz, psqrt, h_kmag. rewrite <- (kr2 h Hph) by auto. f_equal. f_equal. ring. Qed.
Lemma apod_sqrt y x : (0 <= y < n)%Z -> (0 <= x < n)%Z -> apod h y x = sqrt (cond_weight h y x).
Proof. intros Hy Hx. rewrite <- (apod2 h Hph) by auto. rewrite sqrt_square; auto. left. apply (apod_pos h Hph). Qed.
Lemma angular base A z y x : gen_psf h base = Ok A -> (forall P, base = Some P -> on_grid h P) -> h_vec h = VecNone ->
  (0 <= y < n)%Z -> (0 <= x < n)%Z ->
  get A [0%Z; z; y; x] =
  RtoC (/ IZR (n * n)) *c
  Csum (zseq n) (fun j => Csum (zseq n) (fun i =>
    (used_pupil h base j i *c RtoC (sqrt (cond_weight h j i))) *c
    cis (2 * PI * (sqrt (Rmax 0 ((h_ni h / h_wl h) ^ 2 - k2 h j i)) * nth (Z.to_nat z) (h_zrange h) 0 +
                   sfreq n (h_res h) j * (IZR (y - n / 2) * h_res h) +
                   sfreq n (h_res h) i * (IZR (x - n / 2) * h_res h))))).
Proof.
  intros HA Hg Hv Hy Hx. destruct (gen_psf_val h Hph _ _ HA Hg) as [_ Hval]. rewrite Hval by auto. f_equal. cbn [mop]. fold n.
  apply Csum_ext. intros j Hj%in_zseq_iff. rewrite <- Csum_scal_l. apply Csum_ext. intros i Hi%in_zseq_iff.
  unfold kpsf, pup, defocus. rewrite Hv. cbn [plist nth Z.to_nat]. rewrite !root_freq, kz_spec, apod_sqrt by auto.
  rewrite !Rmult_plus_distr_l, !cis_add.
  replace (2 * PI * sqrt (Rmax 0 ((h_ni h / h_wl h) ^ 2 - k2 h j i)) * nth (Z.to_nat z) (h_zrange h) 0)
    with (2 * PI * (sqrt (Rmax 0 ((h_ni h / h_wl h) ^ 2 - k2 h j i)) * nth (Z.to_nat z) (h_zrange h) 0)) by ring. ring.
Qed.
End A.
