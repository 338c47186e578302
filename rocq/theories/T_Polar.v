(** cart2pol and psqrt. *)
From Verif Require Import M_Polar L_Polar.
Local Open Scope R_scope.

Theorem C08_cart2pol : forall y x rho theta, cart2pol y x = (rho, theta) ->
  0 <= rho /\ - PI < theta <= PI /\ x = rho * cos theta /\ y = rho * sin theta /\
  (rho = 0 -> x = 0 /\ y = 0).
Proof.
  intros y x rho theta H. unfold cart2pol in H. injection H as <- <-.
  destruct (polar y x) as [A B]. pose proof (atan2_bound y x). pose proof (hypot_ge_0 y x).
  repeat split; try lra; apply hypot_0 in H1; lra.
Qed.
Print Assumptions C08_cart2pol.
(** and it is the only such pair away from the origin *)
Theorem C08_unique : forall y x r t, (x <> 0 \/ y <> 0) -> 0 <= r -> - PI < t <= PI ->
  x = r * cos t -> y = r * sin t -> cart2pol y x = (r, t).
Proof.
  intros y x r t Hne Hr Ht Hx Hy. unfold cart2pol. pose proof (sin2_cos2 t) as S. unfold Rsqr in S.
  assert (Er : hypot y x = r).
  { unfold hypot. replace (y * y + x * x) with (r * r); [now apply sqrt_square|]. subst. nra. }
  rewrite Er. f_equal. destruct (polar y x) as [A B]. rewrite Er in A, B. pose proof (atan2_bound y x) as Hb.
  assert (Hr' : 0 < r). { destruct Hr as [|<-]; auto. lra. }
  assert (Ec : cos (atan2 y x) = cos t) by nra. assert (Es : sin (atan2 y x) = sin t) by nra.
  set (u := atan2 y x) in *. pose proof PI_RGT_0 as Hp.
  (* cos (u - t) = 1 with |u - t| < 2 PI *)
  assert (H1 : cos (u - t) = 1). { rewrite cos_minus, Ec, Es. lra. }
  assert (H2 : sin ((u - t) / 2) = 0).
  { replace (u - t) with (2 * ((u - t) / 2)) in H1 by field. rewrite cos_2a_sin in H1. nra. }
  destruct (Rtotal_order u t) as [L|[E|L]]; auto.
  - exfalso. assert (0 < sin (- ((u - t) / 2))) by (apply sin_gt_0; lra). rewrite sin_neg in H. lra.
  - exfalso. assert (0 < sin ((u - t) / 2)) by (apply sin_gt_0; lra). lra.
Qed.
Print Assumptions C08_unique.
Example C08_case : cart2pol 0 (-1) = (1, PI).
Proof. apply C08_unique; [lra|lra| |rewrite cos_PI; lra|rewrite sin_PI; lra]. pose proof PI_RGT_0. lra. Qed.

Theorem C12_psqrt : forall x,
  (0 <= x -> psqrt x = sqrt x /\ psqrt x * psqrt x = x) /\ (x < 0 -> psqrt x = 0) /\ 0 <= psqrt x /\
  psqrt x * psqrt x = Rmax 0 x /\ (forall y, x <= y -> psqrt x <= psqrt y).
Proof.
  intros x. split; [|split; [|split; [|split]]].
  - intros H. unfold psqrt. rewrite Rmax_right by auto. split; auto. now apply sqrt_sqrt.
  - intros H. unfold psqrt. rewrite Rmax_left by lra. apply sqrt_0.
  - apply psqrt_ge_0.
  - apply psqrt_sqr.
  - intros y. apply psqrt_le.
Qed.
Print Assumptions C12_psqrt.
