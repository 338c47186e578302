From Verif Require Import M_Zernike S_Zernike L_Array L_Sum.
From Coq Require Import Lra Lia ArithRing.
Local Open Scope R_scope.

(** ** sums over seq *)
Lemma Rsum_seq_last k (f : nat -> R) : Rsum (seq 0 (S k)) f = Rsum (seq 0 k) f + f k.
Proof. rewrite seq_S. rewrite Rsum_app. cbn. ring. Qed.
Lemma Rsum_seq_first k (f : nat -> R) : Rsum (seq 0 (S k)) f = f O + Rsum (seq 0 k) (fun s => f (S s)).
Proof. cbn [seq Rsum]. f_equal. rewrite <- seq_shift, Rsum_map. reflexivity. Qed.
Lemma Rsum_seq_rev k (f : nat -> R) : Rsum (seq 0 (S k)) f = Rsum (seq 0 (S k)) (fun s => f (k - s)%nat).
Proof.
  revert f. induction k as [|k IH]; intros f; [reflexivity|]. rewrite Rsum_seq_last. rewrite (Rsum_seq_first (S k)).
  replace (S k - 0)%nat with (S k) by lia. rewrite Rplus_comm. f_equal. rewrite IH. apply Rsum_ext. intros s _. reflexivity.
Qed.

(** ** rising factorials *)
Lemma fact_pos k : 0 < INR (fact k). Proof. apply INR_fact_lt_0. Qed.
Lemma fact_nz k : INR (fact k) <> 0. Proof. apply INR_fact_neq_0. Qed.
Lemma rising_nat a s : rising (INR a + 1) s = INR (fact (a + s)) / INR (fact a).
Proof.
  induction s as [|s IH]; cbn [rising].
  - rewrite Nat.add_0_r. field. apply fact_nz.
  - rewrite IH. replace (a + S s)%nat with (S (a + s)) by lia. rewrite fact_simpl, mult_INR.
    replace (INR (S (a + s))) with (INR a + 1 + INR s) by (rewrite S_INR, plus_INR; ring). field. apply fact_nz.
Qed.
Lemma rising_neg k s : (s <= k)%nat -> rising (- INR k) s = (-1) ^ s * (INR (fact k) / INR (fact (k - s))).
Proof.
  induction s as [|s IH]; intros Hs; cbn [rising].
  - rewrite Nat.sub_0_r. cbn. field. apply fact_nz.
  - rewrite IH by lia. replace (k - s)%nat with (S (k - S s)) by lia. rewrite fact_simpl, mult_INR.
    assert (E : INR (S (k - S s)) = INR k - INR s). { rewrite <- minus_INR by lia. f_equal. lia. }
    rewrite E. cbn [pow]. assert (INR k - INR s <> 0). { rewrite <- E. apply not_0_INR. lia. } field. split; [apply fact_nz|auto].
Qed.

(** ** the polynomial in a common form *)
Definition zc (m k s : nat) : R := (-1) ^ (k - s) * INR (fact (m + k + s)) / (INR (fact (k - s)) * INR (fact (m + s)) * INR (fact s)).
Definition zpoly (m k : nat) (r : R) : R := Rsum (seq 0 (S k)) (fun s => zc m k s * r ^ (m + 2 * s)).
Lemma pow_m1_sub k s : (s <= k)%nat -> (-1) ^ (k - s) = (-1) ^ k * (-1) ^ s.
Proof.
  intros H. replace k with (k - s + s)%nat at 2 by lia. rewrite pow_add, Rmult_assoc, <- pow_add.
  replace (s + s)%nat with (2 * s)%nat by lia. rewrite pow_1_even. ring.
Qed.
Lemma radial_poly_zpoly m k r : radial_poly (m + 2 * k) m r = zpoly m k r.
Proof.
  unfold radial_poly, zpoly. replace ((m + 2 * k - m) / 2)%nat with k by (apply Nat.div_unique with O; lia).
  replace ((m + 2 * k + m) / 2)%nat with (m + k)%nat by (apply Nat.div_unique with O; lia).
  rewrite Rsum_seq_rev. apply Rsum_ext. intros s Hs. apply in_seq in Hs. unfold zc.
  replace (m + 2 * k - (k - s))%nat with (m + k + s)%nat by lia. replace (m + k - (k - s))%nat with (m + s)%nat by lia.
  replace (k - (k - s))%nat with s by lia. replace (m + 2 * k - 2 * (k - s))%nat with (m + 2 * s)%nat by lia. reflexivity.
Qed.
Lemma jacobi_zpoly m k r : (-1) ^ k * r ^ m * eval_jacobi k (INR m) 0 (1 - 2 * r ^ 2) = zpoly m k r.
Proof.
  unfold eval_jacobi, zpoly. rewrite rising_nat.
  rewrite <- Rmult_assoc, <- Rsum_scal_l. apply Rsum_ext. intros s Hs. apply in_seq in Hs.
  rewrite rising_neg by lia. replace (1 + INR m + 0 + INR k) with (INR (m + k) + 1) by (rewrite plus_INR; ring).
  rewrite !rising_nat. replace ((1 - (1 - 2 * r ^ 2)) / 2) with (r ^ 2) by field. rewrite <- pow_mult. unfold zc. rewrite pow_m1_sub, pow_add by lia.
  field. repeat split; apply fact_nz.
Qed.
Lemma radial_zernike_zpoly m k r : r <= 1 -> radial_zernike r (Z.of_nat (m + 2 * k)) (Z.of_nat m) = (-1) ^ m * zpoly m k r.
Proof.
  intros Hr. unfold radial_zernike. destruct (Rle_dec r 1); [|contradiction].
  destruct ((Z.of_nat m =? 0) && (Z.of_nat (m + 2 * k) =? 0))%Z eqn:E.
  - assert (m = O /\ k = O) as [-> ->] by lia. unfold zpoly, zc. cbn. field.
  - rewrite Z.abs_eq by lia. replace ((Z.of_nat (m + 2 * k) + Z.of_nat m) / 2)%Z with (Z.of_nat (m + k)) by lia.
    replace ((Z.of_nat (m + 2 * k) - Z.of_nat m) / 2)%Z with (Z.of_nat k) by lia. rewrite !Nat2Z.id, <- INR_IZR_INZ.
    rewrite <- jacobi_zpoly, pow_add. ring.
Qed.
Lemma legal_form n m : legal n m -> exists a k, Z.abs m = Z.of_nat a /\ n = Z.of_nat (a + 2 * k).
Proof.
  intros (Hn & Hm & Hp). exists (Z.to_nat (Z.abs m)), (Z.to_nat ((n - Z.abs m) / 2)). split; [lia|].
  assert (E : ((n - Z.abs m) mod 2 = 0)%Z) by (destruct (Z.abs_spec m) as [[_ ->]|[_ ->]]; lia). lia.
Qed.
Lemma radial_abs r n m : radial_zernike r n m = radial_zernike r n (Z.abs m).
Proof.
  unfold radial_zernike. rewrite Z.abs_involutive. destruct (Rle_dec r 1); auto.
  destruct (Z.eqb_spec m 0) as [->|]; [reflexivity|]. destruct (Z.eqb_spec (Z.abs m) 0); [lia|reflexivity].
Qed.
(** value at the rim *)
