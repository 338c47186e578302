(** C64, C65: extents and focal shift (pyotf/display.py:23-84). *)
From Verif Require Import M_Display M_Hanser S_Display.
From Coq Require Import Lra.
Import M_Array.
Local Open Scope R_scope.

(** The extents are the coordinates of the first and last samples, for every size and pitch. *)
Theorem C64_extents : forall n d, (1 <= n)%Z -> max_min n d = (coord n d 0, coord n d (n - 1)).
Proof.
  intros n d H. unfold max_min, coord. f_equal.
  - rewrite minus_IZR. simpl. ring.
  - f_equal. f_equal. lia.
Qed.
Print Assumptions C64_extents.

(** They span n-1 pixels, sample n//2 sits at 0 inside them, and they are symmetric exactly for odd
    n; for even n the lower end is one pixel further out. *)
Theorem C64_parity : forall n d, (1 <= n)%Z -> 0 < d ->
  let (lo, hi) := max_min n d in
  hi - lo = IZR (n - 1) * d /\ lo <= 0 <= hi /\ coord n d (n / 2) = 0 /\
  (Z.Odd n -> lo = - hi) /\ (Z.Even n -> lo = - hi - d).
Proof.
  intros n d H Hd. rewrite C64_extents by assumption. unfold coord.
  repeat split.
  - rewrite !minus_IZR. simpl. ring.
  - assert (IZR (0 - n / 2) <= 0) by (apply (IZR_le _ 0); lia). nra.
  - assert (0 <= IZR (n - 1 - n / 2)) by (apply (IZR_le 0); lia). nra.
  - rewrite Z.sub_diag. ring.
  - intros [k ->]. replace (0 - (2 * k + 1) / 2)%Z with (- k)%Z by lia.
    replace (2 * k + 1 - 1 - (2 * k + 1) / 2)%Z with k by lia. rewrite opp_IZR. ring.
  - intros [k ->]. replace (0 - (2 * k) / 2)%Z with (- k)%Z by lia.
    replace (2 * k - 1 - (2 * k) / 2)%Z with (k - 1)%Z by lia. rewrite opp_IZR, minus_IZR. ring.
Qed.
Print Assumptions C64_parity.

(** The Fourier extents are the first and last entries of the centred frequency axis, which numpy
    computes as fftshift(fftfreq(n, d)). *)
Theorem C64_fft_extents : forall n d, (1 <= n)%Z -> d <> 0 ->
  let axis := fftshift [true] (mkArr [n] (fun ix => fftfreq n d (hd 0%Z ix))) in
  fft_max_min n d = Ok (get axis [0%Z], get axis [(n - 1)%Z]).
Proof.
  intros n d H Hd axis.
  assert (Hn : IZR n <> 0) by (apply (IZR_neq n 0); lia).
  unfold fft_max_min, pdiv. destruct Req_EM_T; [contradiction|]. cbn [bind].
  destruct Req_EM_T; [contradiction|]. cbn [bind]. f_equal.
  rewrite C64_extents by assumption. unfold axis, coord, fftshift, fftfreq. cbn [get shape hd shift_ix].
  replace (fftfreq_ix n ((0 + -1 * (n / 2)) mod n)) with (0 - n / 2)%Z.
  2:{ unfold fftfreq_ix. destruct (Z.eq_dec n 1) as [->|]; [reflexivity|].
      replace ((0 + -1 * (n / 2)) mod n)%Z with (n - n / 2)%Z
        by (rewrite <- (Z_mod_plus_full (0 + -1 * (n / 2)) 1 n), Z.mod_small by lia; lia).
      destruct Z.ltb eqn:E; [exfalso; lia|lia]. }
  replace (fftfreq_ix n ((n - 1 + -1 * (n / 2)) mod n)) with (n - 1 - n / 2)%Z.
  2:{ unfold fftfreq_ix. rewrite Z.mod_small by lia. destruct Z.ltb eqn:E; lia. }
  f_equal; field; auto.
Qed.
Print Assumptions C64_fft_extents.

(** ... and they bound every frequency of the transform, for a positive pitch. *)
Theorem C64_fft_bounds : forall n d k, (1 <= n)%Z -> 0 < d -> (0 <= k < n)%Z ->
  exists lo hi, fft_max_min n d = Ok (lo, hi) /\ lo <= fftfreq n d k <= hi /\
    lo = - IZR (n / 2) / (IZR n * d) /\ hi = IZR ((n - 1) / 2) / (IZR n * d).
Proof.
  intros n d k H Hd Hk.
  assert (Hn : 0 < IZR n) by (apply (IZR_lt 0); lia).
  eexists _, _. split.
  { unfold fft_max_min, pdiv. destruct Req_EM_T as [e|_]; [exfalso; exact (Rlt_not_eq _ _ Hd (eq_sym e))|]. cbn [bind].
    destruct Req_EM_T as [e|_]; [exfalso; exact (Rlt_not_eq _ _ Hn (eq_sym e))|]. cbn [bind]. rewrite C64_extents by assumption. reflexivity. }
  unfold coord, fftfreq.
  assert (P : 0 < 1 / (IZR n * d)) by (apply Rdiv_lt_0_compat; nra).
  replace (1 / d / IZR n) with (1 / (IZR n * d)) by (field; lra).
  assert (L : (0 - n / 2 <= fftfreq_ix n k <= n - 1 - n / 2)%Z)
    by (unfold fftfreq_ix; destruct Z.ltb eqn:E; lia).
  destruct L as [L1 L2]. apply IZR_le in L1, L2. repeat split.
  - nra.
  - nra.
  - rewrite minus_IZR. simpl. field; lra.
  - replace (n - 1 - n / 2)%Z with ((n - 1) / 2)%Z by lia. field; lra.
Qed.
Print Assumptions C64_fft_bounds.

(** Zero samples or a zero pitch: the division fails. *)
Theorem C64_fft_refused : forall n d, fft_max_min n d = Err ZeroDivisionError <-> (n = 0%Z \/ d = 0).
Proof.
  intros. unfold fft_max_min, pdiv. destruct (Req_EM_T d 0); cbn [bind].
  - split; [right; assumption|reflexivity].
  - destruct (Req_EM_T (IZR n) 0) as [e|e]; cbn [bind].
    + split; [intros _; left; apply eq_IZR_R0 in e; assumption|reflexivity].
    + split; [discriminate|]. intros [->|]; contradiction.
Qed.
Print Assumptions C64_fft_refused.

Example C64_case : max_min 10 1 = (- 5, 4) /\ max_min 11 1 = (-5, 5) /\ fft_max_min 10 1 = Ok (- / 2, 4 / 10).
Proof.
  split; [|split].
  - unfold max_min; cbn. f_equal; lra.
  - unfold max_min; cbn. f_equal; lra.
  - unfold fft_max_min, pdiv. destruct Req_EM_T; [lra|]. cbn [bind]. destruct Req_EM_T; [lra|].
    cbn [bind]. f_equal. unfold max_min. cbn. f_equal; field.
Qed.

(** ** z_squeeze *)
Lemma sq_func_pos : forall na n, na <> 0 -> 0 < n -> 0 < sq_func na n.
Proof.
  intros na n Ha Hn. unfold sq_func. cut (sqrt (Rmax 0 (n ^ 2 - na ^ 2)) < n); [lra|].
  rewrite <- (sqrt_pow2 n) at 2 by lra. apply sqrt_lt_1_alt. split; [apply Rmax_l|].
  apply Rmax_lub_lt; [nra|]. assert (0 < na ^ 2) by (rewrite <- Rsqr_pow2; apply Rlt_0_sqr; assumption). lra.
Qed.
Lemma sq_func_zero : forall n, 0 <= n -> sq_func 0 n = 0.
Proof.
  intros. unfold sq_func. rewrite Rmax_right by nra.
  replace (n ^ 2 - 0 ^ 2) with (n ^ 2) by ring. rewrite sqrt_pow2 by assumption. ring.
Qed.
Lemma sq_func_shift : forall na n, 0 < na <= n -> sq_func na n = axial_shift n na.
Proof.
  intros na n H. unfold sq_func, axial_shift.
  assert (B : 0 < na / n <= 1) by (split; [apply Rdiv_lt_0_compat; lra|apply (Rmult_le_reg_r n); [lra|]; unfold Rdiv; rewrite Rmult_assoc, Rinv_l by lra; lra]).
  rewrite cos_asin by lra. rewrite Rmax_right by nra.
  replace (n ^ 2 - na ^ 2) with (n ^ 2 * (1 - Rsqr (na / n))) by (unfold Rsqr; field; lra).
  rewrite sqrt_mult_alt by nra. rewrite sqrt_pow2 by lra. ring.
Qed.
Lemma z_squeeze_quot : forall n1 n2 na, na <> 0 -> 0 < n1 -> 0 < n2 ->
  value (z_squeeze n1 n2 na) (sq_func na n1 / sq_func na n2).
Proof.
  intros n1 n2 na Ha H1 H2. unfold z_squeeze, value.
  pose proof (sq_func_pos na n1 Ha H1). pose proof (sq_func_pos na n2 Ha H2).
  destruct Req_EM_T as [->|].
  - right. split; [reflexivity|]. field. lra.
  - left. destruct Req_EM_T; [lra|reflexivity].
Qed.
Lemma value_fun : forall q r s, value q r -> value q s -> r = s.
Proof. unfold value. intros q r s [->|[-> ->]] [E|[E ->]]; congruence. Qed.

(** For an aperture both media support, the factor is the ratio of the marginal-ray focal shifts
    n (1 - cos theta) with n sin theta = na. *)
Theorem C65_value : forall n1 n2 na, 0 < na -> na <= n1 -> na <= n2 ->
  value (z_squeeze n1 n2 na) (axial_shift n1 na / axial_shift n2 na).
Proof.
  intros. rewrite <- !sq_func_shift by lra. apply z_squeeze_quot; lra.
Qed.
Print Assumptions C65_value.

(** It is 1 for equal indices, positive, inverted by exchanging the media and composes; apertures
    larger than an index included. *)
Theorem C65_algebra : forall n1 n2 n3 na, na <> 0 -> 0 < n1 -> 0 < n2 -> 0 < n3 ->
  exists a b c i, value (z_squeeze n1 n2 na) a /\ value (z_squeeze n2 n3 na) b /\ value (z_squeeze n1 n3 na) c /\
    value (z_squeeze n2 n1 na) i /\ z_squeeze n1 n1 na = QOne /\ 0 < a /\ a * b = c /\ a * i = 1.
Proof.
  intros n1 n2 n3 na Ha H1 H2 H3.
  pose proof (sq_func_pos na n1 Ha H1). pose proof (sq_func_pos na n2 Ha H2). pose proof (sq_func_pos na n3 Ha H3).
  eexists _, _, _, _.
  do 4 (split; [apply z_squeeze_quot; assumption|]).
  split; [|split; [|split]].
  - unfold z_squeeze. destruct Req_EM_T; [reflexivity|contradiction].
  - apply Rdiv_lt_0_compat; assumption.
  - field; lra.
  - field; lra.
Qed.
Print Assumptions C65_algebra.

(** Going into a denser medium stretches: between the paraxial ratio n2/n1 and the same with
    cosines at full aperture; in particular always at least n2/n1 > 1. *)
Theorem C65_bounds : forall n1 n2 na, 0 < na -> na <= n1 -> n1 < n2 ->
  exists r, z_squeeze n1 n2 na = QFin r /\ n2 / n1 <= r /\
    r = (n2 + sqrt (n2 ^ 2 - na ^ 2)) / (n1 + sqrt (n1 ^ 2 - na ^ 2)).
Proof.
  intros n1 n2 na Ha H1 H2. exists (sq_func na n1 / sq_func na n2). split.
  - unfold z_squeeze. destruct Req_EM_T; [lra|].
    destruct Req_EM_T; [|reflexivity]. assert (0 < sq_func na n2) by (apply sq_func_pos; lra). lra.
  - assert (E1 : 0 <= n1 ^ 2 - na ^ 2) by nra. assert (E2 : 0 <= n2 ^ 2 - na ^ 2) by nra.
    unfold sq_func. rewrite !Rmax_right by assumption.
    pose proof (sqrt_pos (n1 ^ 2 - na ^ 2)) as P1. pose proof (sqrt_pos (n2 ^ 2 - na ^ 2)) as P2.
    pose proof (pow2_sqrt _ E1) as S1. pose proof (pow2_sqrt _ E2) as S2.
    set (s1 := sqrt (n1 ^ 2 - na ^ 2)) in *. set (s2 := sqrt (n2 ^ 2 - na ^ 2)) in *.
    assert (L1 : s1 < n1) by nra. assert (L2 : s2 < n2) by nra.
    assert (EQ : (n1 - s1) / (n2 - s2) = (n2 + s2) / (n1 + s1)).
    { apply (Rmult_eq_reg_r ((n2 - s2) * (n1 + s1))); [|nra]. field_simplify; nra. }
    split; [|exact EQ]. rewrite EQ.
    apply (Rmult_le_reg_r (n1 * (n1 + s1))); [nra|].
    replace (n2 / n1 * (n1 * (n1 + s1))) with (n2 * (n1 + s1)) by (field; lra).
    replace ((n2 + s2) / (n1 + s1) * (n1 * (n1 + s1))) with ((n2 + s2) * n1) by (field; nra).
    cut (n2 * s1 <= n1 * s2); [lra|].
    apply Rsqr_incr_0_var; [|nra]. unfold Rsqr.
    replace (n2 * s1 * (n2 * s1)) with (n2 ^ 2 * s1 ^ 2) by ring.
    replace (n1 * s2 * (n1 * s2)) with (n1 ^ 2 * s2 ^ 2) by ring.
    rewrite S1, S2. assert (n1 ^ 2 <= n2 ^ 2) by nra. nra.
Qed.
Print Assumptions C65_bounds.

(** Larger apertures stretch more (towards a denser medium). *)
Theorem C65_monotone : forall n1 n2 na na', 0 < na -> na <= na' -> na' <= n1 -> n1 < n2 ->
  exists r r', z_squeeze n1 n2 na = QFin r /\ z_squeeze n1 n2 na' = QFin r' /\ r <= r'.
Proof.
  intros n1 n2 na na' H0 H1 H2 H3.
  destruct (C65_bounds n1 n2 na) as (r & E & _ & V); try lra.
  destruct (C65_bounds n1 n2 na') as (r' & E' & _ & V'); try lra.
  exists r, r'. split; [assumption|]. split; [assumption|]. rewrite V, V'.
  assert (Hn : 0 < n1) by lra.
  assert (A1 : 0 <= n1 ^ 2 - na ^ 2) by nra. assert (A2 : 0 <= n2 ^ 2 - na ^ 2) by nra.
  assert (B1 : 0 <= n1 ^ 2 - na' ^ 2) by nra. assert (B2 : 0 <= n2 ^ 2 - na' ^ 2) by nra.
  pose proof (sqrt_pos (n1 ^ 2 - na ^ 2)) as Pa1. pose proof (sqrt_pos (n2 ^ 2 - na ^ 2)) as Pa2.
  pose proof (sqrt_pos (n1 ^ 2 - na' ^ 2)) as Pb1. pose proof (sqrt_pos (n2 ^ 2 - na' ^ 2)) as Pb2.
  pose proof (pow2_sqrt _ A1) as Sa1. pose proof (pow2_sqrt _ A2) as Sa2.
  pose proof (pow2_sqrt _ B1) as Sb1. pose proof (pow2_sqrt _ B2) as Sb2.
  set (a1 := sqrt (n1 ^ 2 - na ^ 2)) in *. set (a2 := sqrt (n2 ^ 2 - na ^ 2)) in *.
  set (b1 := sqrt (n1 ^ 2 - na' ^ 2)) in *. set (b2 := sqrt (n2 ^ 2 - na' ^ 2)) in *.
  apply (Rmult_le_reg_r ((n1 + a1) * (n1 + b1))); [nra|].
  replace ((n2 + a2) / (n1 + a1) * ((n1 + a1) * (n1 + b1))) with ((n2 + a2) * (n1 + b1)) by (field; lra).
  replace ((n2 + b2) / (n1 + b1) * ((n1 + a1) * (n1 + b1))) with ((n2 + b2) * (n1 + a1)) by (field; lra).
  assert (M1 : b1 <= a1) by (apply sqrt_le_1_alt; nra).
  assert (M2 : b2 <= a2) by (apply sqrt_le_1_alt; nra).
  assert (L1 : a1 <= n1) by nra. assert (L2 : a2 <= n2) by nra.
  assert (G1 : a1 <= a2) by (apply sqrt_le_1_alt; nra). assert (G2 : b1 <= b2) by (apply sqrt_le_1_alt; nra).
  assert (D : (a1 - b1) * (a1 + b1) = (a2 - b2) * (a2 + b2)) by nra.
  (* n2 (b1 - a1) + n1 (a2 - b2) + a2 b1 - a1 b2 <= 0 *)
  destruct (Req_dec (a1 - b1) 0) as [Z|Z].
  - assert (a1 = b1) by lra. assert (a2 - b2 = 0 \/ a2 + b2 = 0) by (apply Rmult_integral; nra).
    assert (a2 = b2) by lra. subst. nra.
  - assert (P : 0 < a1 - b1) by lra.
    assert (K : a2 - b2 <= a1 - b1).
    { destruct (Rle_dec (a2 - b2) (a1 - b1)); [assumption|]. exfalso.
      assert ((a1 - b1) * (a1 + b1) < (a2 - b2) * (a2 + b2)); [|lra].
      apply Rle_lt_trans with ((a1 - b1) * (a2 + b2)); [nra|]. apply Rmult_lt_compat_r; lra. }
    assert (X : n1 * (a2 - b2) <= n2 * (a1 - b1)) by nra.
    cut (a2 * b1 <= a1 * b2); [intro; lra|].
    apply Rsqr_incr_0_var; [|nra]. unfold Rsqr.
    replace (a2 * b1 * (a2 * b1)) with (a2 ^ 2 * b1 ^ 2) by ring.
    replace (a1 * b2 * (a1 * b2)) with (a1 ^ 2 * b2 ^ 2) by ring.
    rewrite Sa1, Sa2, Sb1, Sb2.
    assert (0 <= (n2 ^ 2 - n1 ^ 2) * (na' ^ 2 - na ^ 2)) by (apply Rmult_le_pos; nra). lra.
Qed.
Print Assumptions C65_monotone.

(** A zero aperture has no marginal ray: not-a-number, unless the indices are equal. *)
Theorem C65_zero_aperture : forall n1 n2, 0 <= n1 -> 0 <= n2 -> n1 <> n2 -> z_squeeze n1 n2 0 = QNaN.
Proof.
  intros. unfold z_squeeze. rewrite !sq_func_zero by assumption.
  destruct Req_EM_T; [contradiction|]. destruct Req_EM_T; [reflexivity|contradiction].
Qed.
Print Assumptions C65_zero_aperture.

Example C65_case : z_squeeze 5 13 5 = QFin 5.
Proof.
  unfold z_squeeze. destruct Req_EM_T; [lra|].
  assert (E1 : sq_func 5 5 = 5). { unfold sq_func. replace (5 ^ 2 - 5 ^ 2) with 0 by ring. rewrite Rmax_left by lra. rewrite sqrt_0. ring. }
  assert (E2 : sq_func 5 13 = 1).
  { unfold sq_func. rewrite Rmax_right by lra. replace (13 ^ 2 - 5 ^ 2) with (12 ^ 2) by ring. rewrite sqrt_pow2 by lra. ring. }
  rewrite E1, E2. destruct Req_EM_T; [lra|]. f_equal. field.
Qed.
