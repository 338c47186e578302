From Verif Require Import M_Aberr S_Aberr L_Array L_Sum L_FFT L_FFT2 L_Polar L_Hanser L_Hanser2 L_Hanser3 L_Hanser4 T_Zernike L_Aberr L_Aberr2.
Local Open Scope R_scope.

Lemma Rsum_pick k j c (F : nat -> R) : (j < k)%nat -> Rsum (seq 0 k) (fun i => (if Nat.eqb i j then c else 0) * F i) = c * F j.
Proof.
  intros Hj. assert (G : forall l, NoDup l -> Rsum l (fun i => (if Nat.eqb i j then c else 0) * F i) = if in_dec Nat.eq_dec j l then c * F j else 0).
  { induction l as [|i l IH]; intros Hd; [reflexivity|]. inversion Hd; subst. cbn [Rsum]. rewrite IH by auto. destruct (Nat.eqb_spec i j) as [->|E].
    - destruct (in_dec Nat.eq_dec j l); [contradiction|]. destruct (in_dec Nat.eq_dec j (j :: l)) as [|N]; [ring|]. exfalso. apply N. now left.
    - destruct (in_dec Nat.eq_dec j l); destruct (in_dec Nat.eq_dec j (i :: l)) as [I|N]; try ring.
      + exfalso. apply N. now right.
      + destruct I; congruence. }
  rewrite G by apply seq_NoDup. destruct (in_dec _ _ _) as [|N]; [reflexivity|]. exfalso. apply N. apply in_seq. lia.
Qed.
Lemma mix_add p q d r t : List.length q = List.length p -> List.length d = List.length p ->
  (forall i, (i < List.length p)%nat -> nth i q 0 = nth i p 0 + nth i d 0) -> mix q r t = mix p r t + mix d r t.
Proof.
  intros Hq Hd H. unfold mix. rewrite Hq, Hd, <- Rsum_plus. apply Rsum_ext. intros i Hi. apply in_seq in Hi. rewrite H by lia. ring.
Qed.
Lemma mix_opp p r t : mix (map Ropp p) r t = - mix p r t.
Proof.
  unfold mix. rewrite map_length. replace (- Rsum (seq 0 (List.length p)) (fun i => nth i p 0 * zmode (Z.of_nat i + 1) r t)) with (-1 * Rsum (seq 0 (List.length p)) (fun i => nth i p 0 * zmode (Z.of_nat i + 1) r t)) by ring.
  rewrite <- Rsum_scal_l. apply Rsum_ext. intros i _. replace (nth i (map Ropp p) 0) with (nth i (map Ropp p) (- 0)) by (f_equal; ring). rewrite map_nth. ring.
Qed.
Lemma mix_zero k r t : mix (repeat 0 k) r t = 0.
Proof.
  unfold mix. rewrite repeat_length. transitivity (0 * Rsum (seq 0 k) (fun i => zmode (Z.of_nat i + 1) r t)); [|ring]. rewrite <- Rsum_scal_l. apply Rsum_ext. intros i _. rewrite nth_repeat. ring.
Qed.
Lemma zmode_outside j r t : 1 < r -> zmode j r t = 0.
Proof.
  intros Hr. unfold zmode. destruct (noll2degrees (NInts [j])) as [[|[a b] [|]]|]; auto. now apply C20_outside_disk.
Qed.
Lemma mix_outside cs r t : 1 < r -> mix cs r t = 0.
Proof.
  intros Hr. unfold mix. transitivity (0 * Rsum (seq 0 (List.length cs)) (fun i => nth i cs 0)); [|ring]. rewrite <- Rsum_scal_l. apply Rsum_ext. intros i _. rewrite zmode_outside by auto. ring.
Qed.
Lemma zmode_1 r t : r <= 1 -> zmode 1 r t = 1.
Proof.
  intros Hr. rewrite zmode_deg by lia. replace (deg 1) with (0, 0)%Z by (vm_compute; reflexivity). cbn [fst snd].
  rewrite C20_formula by (auto; repeat split; cbn; lia). cbn -[sqrt]. change (0 + 1)%Z with 1%Z. rewrite (Rmult_0_l t), cos_0, sqrt_1. field.
Qed.
Lemma zmode_23 r t : r <= 1 -> zmode 2 r t = - 2 * (r * cos t) /\ zmode 3 r t = - 2 * (r * sin t).
Proof.
  intros Hr. assert (Hq : sqrt (2 * IZR (1 + 1)) = 2) by (replace (2 * IZR (1 + 1)) with (2 * 2) by (rewrite plus_IZR; ring); apply sqrt_square; lra).
  split; rewrite zmode_deg by lia.
  - replace (deg 2) with (1, 1)%Z by (vm_compute; reflexivity). cbn [fst snd]. rewrite C20_formula by (auto; repeat split; cbn; lia).
    change (1 <? 0)%Z with false. change (1 =? 0)%Z with false. cbv iota. rewrite Hq. rewrite Rmult_1_l. generalize (cos t). intros v. unfold radial_poly. change (Z.to_nat 1) with 1%nat. change (Z.to_nat (Z.abs 1)) with 1%nat. cbn. field.
  - replace (deg 3) with (1, -1)%Z by (vm_compute; reflexivity). cbn [fst snd]. rewrite C20_formula by (auto; repeat split; cbn; lia).
    change (-1 <? 0)%Z with true. change (-1 =? 0)%Z with false. cbv iota. rewrite Hq. replace (IZR (- -1) * t) with t by (change (- -1)%Z with 1%Z; ring). generalize (sin t). intros v. unfold radial_poly. change (Z.to_nat 1) with 1%nat. change (Z.to_nat (Z.abs (-1))) with 1%nat. cbn. field.
Qed.
Lemma cis_plus a b : cis (a + b) = Cmult (cis a) (cis b).
Proof. unfold cis, Cmult. cbn. rewrite cos_plus, sin_plus. f_equal; ring. Qed.
Lemma cis_opp a : cis (- a) = Cconj (cis a).
Proof. unfold cis, Cconj. cbn. now rewrite cos_neg, sin_neg. Qed.
Lemma Cmod_cis a : Cmod (cis a) = 1.
Proof. unfold Cmod, cis. cbn [fst snd]. rewrite <- sqrt_1. f_equal. pose proof (sin2_cos2 a) as E. unfold Rsqr in E. nra. Qed.

Section H.
Context (h : hpar) (Hph : physical h) (Hna : 0 < h_na h).
Notation n := (h_size h).
Lemma r_inside y x : clear h y x = 1 -> pupil_r h y x <= 1.
Proof.
  unfold clear, pupil_r. destruct (Rlt_dec _ _) as [H|H]; [|intros; lra]. intros _. destruct Hph as (Hw & _).
  assert (Hq : 0 < h_na h / h_wl h) by now apply Rdiv_lt_0_compat.
  assert (Hs : sqrt (k2 h y x) <= h_na h / h_wl h).
  { rewrite <- (sqrt_pow2 (h_na h / h_wl h)) by lra. apply sqrt_le_1_alt. lra. }
  apply (Rmult_le_reg_r (h_na h / h_wl h)); [lra|]. replace (sqrt (k2 h y x) * h_wl h / h_na h * (h_na h / h_wl h)) with (sqrt (k2 h y x)) by (field; lra). lra.
Qed.
Lemma aberrated_outside m p y x : 1 < pupil_r h y x -> aberrated h m p y x = RtoC 0.
Proof.
  intros Hr. unfold aberrated. rewrite (mix_outside m) by auto. replace (clear h y x) with 0.
  - rewrite Rplus_0_l. apply Cmult_0_l.
  - pose proof (r_inside y x). unfold clear in *. destruct (Rlt_dec _ _); auto. specialize (H eq_refl). lra.
Qed.
Lemma aberrated_times m p q (f : Z -> Z -> R) y x :
  (pupil_r h y x <= 1 -> mix q (pupil_r h y x) (pupil_t h y x) = mix p (pupil_r h y x) (pupil_t h y x) + f y x) ->
  aberrated h m q y x = Cmult (aberrated h m p y x) (cis (f y x)).
Proof.
  intros H. destruct (Rle_lt_dec (pupil_r h y x) 1) as [Hr|Hr].
  - unfold aberrated. rewrite (H Hr), cis_plus. ring.
  - rewrite !aberrated_outside by auto. ring.
Qed.
Lemma polar_coords y x : (0 <= y < n)%Z -> (0 <= x < n)%Z ->
  pupil_r h y x * cos (pupil_t h y x) = sfreq n (h_res h) x * h_wl h / h_na h /\
  pupil_r h y x * sin (pupil_t h y x) = sfreq n (h_res h) y * h_wl h / h_na h.
Proof.
  intros Hy Hx. destruct (phi_polar h Hph y x Hy Hx) as [E1 E2]. rewrite <- (t_spec h Hph) by auto. unfold pupil_r. rewrite <- (kr_sqrt h Hph) by auto.
  rewrite E1, E2. unfold Rdiv. split; ring.
Qed.

(** consequences for the PSF of multiplying the pupil *)
Lemma pup_scale Q Q' w c z j i : Q' j i = Cmult (Q j i) w -> pup h Q' c z j i = Cmult (pup h Q c z j i) w.
Proof. intros E. unfold pup. rewrite E. ring. Qed.
Lemma mop2 f y x : mop kpsf [true; true] [n; n] f [y; x] =
  Csum (zseq n) (fun j => Cmult (kpsf n y j) (Csum (zseq n) (fun i => Cmult (kpsf n x i) (f [j; i])))).
Proof. reflexivity. Qed.
Lemma kpsf_shift k s j : kpsf n ((k + s) mod n) j = Cmult (root n (s * j)) (kpsf n k j).
Proof.
  pose proof (n_pos h Hph) as Hn. unfold kpsf. rewrite <- root_add. apply root_cong. { lia. }
  replace (s * j + j * (k - n / 2) )%Z with (j * ((k + s) - n / 2))%Z by ring. replace (j * ((k + s) mod n - n / 2) - j * (k + s - n / 2))%Z with (j * ((k + s) mod n - (k + s)))%Z by ring.
  pose proof (mod_self_cong n (k + s) ltac:(lia)) as Hm. rewrite Z.mul_mod, Hm, Z.mul_0_r by lia. apply Z.mod_0_l. lia.
Qed.
Lemma mop_shift f f' y x sy sx :
  (forall j i, (0 <= j < n)%Z -> (0 <= i < n)%Z -> f' [j; i] = Cmult (f [j; i]) (Cmult (root n (sy * j)) (root n (sx * i)))) ->
  mop kpsf [true; true] [n; n] f' [y; x] = mop kpsf [true; true] [n; n] f [((y + sy) mod n)%Z; ((x + sx) mod n)%Z].
Proof.
  intros H. rewrite !mop2. apply Csum_ext. intros j Hj. apply in_zseq_iff in Hj. rewrite kpsf_shift. rewrite (Cmult_comm (root n (sy * j))), <- Cmult_assoc. f_equal.
  rewrite <- Csum_scal_l. apply Csum_ext. intros i Hi. apply in_zseq_iff in Hi. rewrite H, kpsf_shift by auto. ring.
Qed.
Lemma psfi_shift P P' A A' z y x sy sx : on_grid h P -> on_grid h P' -> gen_psf h (Some P) = Ok A -> gen_psf h (Some P') = Ok A' ->
  (forall j i, (0 <= j < n)%Z -> (0 <= i < n)%Z -> get P' [j; i] = Cmult (get P [j; i]) (Cmult (root n (sy * j)) (root n (sx * i)))) ->
  (0 <= y < n)%Z -> (0 <= x < n)%Z ->
  get (sumsq A') [z; y; x] = get (sumsq A) [z; ((y + sy) mod n)%Z; ((x + sx) mod n)%Z].
Proof.
  intros HP HP' HA HA' HQ Hy Hx. pose proof (n_pos h Hph) as Hn.
  rewrite (psfi_val h Hph (Some P') A'), (psfi_val h Hph (Some P) A); auto; try (apply Z.mod_pos_bound; lia).
  2: intros ? [= <-]; auto. 2: intros ? [= <-]; auto.
  apply Rsum_ext. intros c _. do 2 f_equal. apply mop_shift. intros j i Hj Hi. unfold pupf. apply pup_scale. cbn [used_pupil]. now apply HQ.
Qed.
Lemma psfi_phase P P' A A' w z y x : on_grid h P -> on_grid h P' -> gen_psf h (Some P) = Ok A -> gen_psf h (Some P') = Ok A' ->
  Cnorm2 w = 1 -> (forall j i, (0 <= j < n)%Z -> (0 <= i < n)%Z -> get P' [j; i] = Cmult (get P [j; i]) w) ->
  (0 <= y < n)%Z -> (0 <= x < n)%Z -> get (sumsq A') [z; y; x] = get (sumsq A) [z; y; x].
Proof.
  intros HP HP' HA HA' Hw HQ Hy Hx.
  rewrite (psfi_val h Hph (Some P') A'), (psfi_val h Hph (Some P) A); auto. 2: intros ? [= <-]; auto. 2: intros ? [= <-]; auto.
  apply Rsum_ext. intros c _. f_equal. transitivity (Cnorm2 (Cmult w (mop kpsf [true; true] [n; n] (pupf h (used_pupil h (Some P)) c z) [y; x]))).
  - f_equal. rewrite !mop2. rewrite <- Csum_scal_l. apply Csum_ext. intros j Hj. apply in_zseq_iff in Hj. rewrite (Cmult_comm w), <- Cmult_assoc. f_equal.
    rewrite Cmult_comm, <- Csum_scal_l. apply Csum_ext. intros i Hi. apply in_zseq_iff in Hi. unfold pupf. rewrite (pup_scale (used_pupil h (Some P)) _ w) by (cbn [used_pupil]; auto). ring.
  - rewrite Cnorm2_mult, Hw. ring.
Qed.
(** conjugating the pupil *)
Lemma kpsf_mirror_conj k j : (0 <= k < n)%Z -> kpsf n ((2 * (n / 2) - k) mod n) j = Cconj (kpsf n k j).
Proof. intros Hk. rewrite (kpsf_mirror h Hph) by auto. rewrite <- (kpsf_neg h Hph k j). rewrite Cconj_conj. reflexivity. Qed.
Lemma psfi_conj P P' A A' z z' y x : on_grid h P -> on_grid h P' -> gen_psf h (Some P) = Ok A -> gen_psf h (Some P') = Ok A' ->
  (forall j i, (0 <= j < n)%Z -> (0 <= i < n)%Z -> get P' [j; i] = Cconj (get P [j; i])) ->
  nth (Z.to_nat z') (h_zrange h) 0 = - nth (Z.to_nat z) (h_zrange h) 0 ->
  (0 <= y < n)%Z -> (0 <= x < n)%Z -> get (sumsq A') [z'; ((2 * (n / 2) - y) mod n)%Z; ((2 * (n / 2) - x) mod n)%Z] = get (sumsq A) [z; y; x].
Proof.
  intros HP HP' HA HA' HQ Hz Hy Hx. pose proof (n_pos h Hph) as Hn.
  rewrite (psfi_val h Hph (Some P') A'), (psfi_val h Hph (Some P) A); auto; try (apply Z.mod_pos_bound; lia).
  2: intros ? [= <-]; auto. 2: intros ? [= <-]; auto.
  apply Rsum_ext. intros c _. f_equal. rewrite <- (Cnorm2_conj' (mop kpsf [true; true] [n; n] (pupf h (used_pupil h (Some P)) c z) [y; x])). f_equal.
  rewrite (mop_conj kpsf (fun n k j => Cconj (kpsf n k j)) (fun x => x)) by reflexivity. rewrite mop2. cbn [mop].
  apply Csum_ext. intros j Hj. apply in_zseq_iff in Hj. rewrite kpsf_mirror_conj by auto. f_equal.
  apply Csum_ext. intros i Hi. apply in_zseq_iff in Hi. rewrite kpsf_mirror_conj by auto. f_equal.
  unfold pupf, pup. cbn [used_pupil]. rewrite HQ by auto. rewrite !Cconj_mult, !Cconj_RtoC. do 3 f_equal.
  unfold defocus. rewrite Hz, <- cis_opp. f_equal. ring.
Qed.
End H.
