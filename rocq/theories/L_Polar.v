From Verif Require Import M_Polar.
Local Open Scope R_scope.

Lemma hypot_ge_0 y x : 0 <= hypot y x.
Proof. apply sqrt_pos. Qed.
Lemma hypot_sqr y x : hypot y x * hypot y x = y * y + x * x.
Proof. unfold hypot. rewrite sqrt_sqrt; auto. nra. Qed.
Lemma hypot_0 y x : hypot y x = 0 -> y = 0 /\ x = 0.
Proof. intros H. pose proof (hypot_sqr y x) as E. rewrite H in E. nra. Qed.

Lemma cos_atan_pos t : 0 < cos (atan t).
Proof. pose proof (atan_bound t). apply cos_gt_0; lra. Qed.
Lemma polar_pos y x : 0 < x -> x = hypot y x * cos (atan (y / x)) /\ y = hypot y x * sin (atan (y / x)).
Proof.
  intros Hx. set (t := atan (y / x)).
  assert (Hc : 0 < cos t) by apply cos_atan_pos.
  assert (Ht : sin t = y / x * cos t).
  { assert (Ht' : tan t = y / x) by apply tan_atan. unfold tan in Ht'. rewrite <- Ht'. field. lra. }
  pose proof (sin2_cos2 t) as S. unfold Rsqr in S.
  pose proof (hypot_sqr y x) as H. pose proof (hypot_ge_0 y x) as Hr. set (r := hypot y x) in *.
  assert (E1 : x * sin t = y * cos t). { rewrite Ht. field. lra. }
  assert (E2 : r * cos t = x).
  { assert (E : (r * cos t) * (r * cos t) = x * x).
    { replace (r * cos t * (r * cos t)) with (r * r * (cos t * cos t)) by ring. rewrite H.
      replace ((y * y + x * x) * (cos t * cos t)) with ((y * cos t) * (y * cos t) + x * x * (cos t * cos t)) by ring.
      rewrite <- E1. replace (x * sin t * (x * sin t) + x * x * (cos t * cos t)) with (x * x * (sin t * sin t + cos t * cos t)) by ring.
      rewrite S. ring. }
    assert (0 <= r * cos t) by (apply Rmult_le_pos; lra).
    nra. }
  split; [lra|]. rewrite Ht. replace (r * (y / x * cos t)) with (y / x * (r * cos t)) by ring. rewrite E2. field. lra.
Qed.
Lemma hypot_opp y x : hypot (- y) (- x) = hypot y x.
Proof. unfold hypot. f_equal. ring. Qed.

Lemma polar y x : x = hypot y x * cos (atan2 y x) /\ y = hypot y x * sin (atan2 y x).
Proof.
  unfold atan2. destruct (Rlt_dec 0 x) as [H|H]; [now apply polar_pos|].
  destruct (Rlt_dec x 0) as [H'|H'].
  - assert (Hq : y / x = - y / - x) by (field; lra).
    destruct (polar_pos (- y) (- x)) as [A B]; [lra|]. rewrite hypot_opp in A, B. rewrite <- Hq in A, B.
    destruct (Rle_dec 0 y).
    + rewrite neg_cos, neg_sin. lra.
    + replace (atan (y / x) - PI) with (atan (y / x) + PI - 2 * PI) by ring.
      assert (Ec : cos (atan (y / x) + PI - 2 * PI) = cos (atan (y / x) + PI)).
      { rewrite <- (cos_period (atan (y / x) + PI - 2 * PI) 1). f_equal. cbn. ring. }
      assert (Es : sin (atan (y / x) + PI - 2 * PI) = sin (atan (y / x) + PI)).
      { rewrite <- (sin_period (atan (y / x) + PI - 2 * PI) 1). f_equal. cbn. ring. }
      rewrite Ec, Es, neg_cos, neg_sin. lra.
  - assert (x = 0) as -> by lra. unfold hypot. rewrite Rmult_0_r, Rplus_0_r.
    destruct (Rlt_dec 0 y).
    + rewrite cos_PI2, sin_PI2, sqrt_square by lra. lra.
    + destruct (Rlt_dec y 0).
      * replace (y * y) with (- y * - y) by ring. rewrite cos_neg, sin_neg, cos_PI2, sin_PI2, sqrt_square by lra. lra.
      * assert (y = 0) as -> by lra. rewrite Rmult_0_r, sqrt_0. lra.
Qed.
Lemma atan2_bound y x : - PI < atan2 y x <= PI.
Proof.
  unfold atan2. pose proof PI_RGT_0 as Hp. pose proof (atan_bound (y / x)) as Hb.
  destruct (Rlt_dec 0 x) as [H|H]; [lra|]. destruct (Rlt_dec x 0) as [H'|H'].
  - destruct (Rle_dec 0 y) as [G|G].
    + split; [lra|]. assert (Hq : y / x <= 0).
      { unfold Rdiv. assert (/ x < 0) by (now apply Rinv_lt_0_compat). nra. }
      assert (atan (y / x) <= 0). { rewrite <- atan_0. destruct Hq as [Hq|Hq]; [left; now apply atan_increasing|rewrite Hq; lra]. }
      lra.
    + split; [|lra]. assert (Hq : 0 < y / x).
      { unfold Rdiv. assert (/ x < 0) by (now apply Rinv_lt_0_compat). nra. }
      apply atan_increasing in Hq. rewrite atan_0 in Hq. lra.
  - destruct (Rlt_dec 0 y); [lra|]. destruct (Rlt_dec y 0); lra.
Qed.
Lemma psqrt_sqr x : psqrt x * psqrt x = Rmax 0 x.
Proof. unfold psqrt. apply sqrt_sqrt. apply Rmax_l. Qed.
Lemma psqrt_ge_0 x : 0 <= psqrt x.
Proof. apply sqrt_pos. Qed.
Lemma psqrt_le x y : x <= y -> psqrt x <= psqrt y.
Proof. intros H. unfold psqrt. apply sqrt_le_1_alt. apply Rle_max_compat_l. auto. Qed.
