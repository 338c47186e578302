(** C79: the overlays of otf_plot are the limits of the widefield support (display.py:236-255). *)
From Verif Require Import M_Display S_Display T_Display T_Display2.
From Coq Require Import Lra.
Import M_Array.
Local Open Scope R_scope.

(** ** Geometry of the support *)
Definition height (k q l : R) : R := sqrt (k ^ 2 - (Rabs l - q) ^ 2) - sqrt (k ^ 2 - q ^ 2).

Lemma f_diff : forall k u v s, 0 <= u -> u <= v -> 0 <= s -> v + s <= k ->
  sqrt (k ^ 2 - u ^ 2) - sqrt (k ^ 2 - v ^ 2) <= sqrt (k ^ 2 - (u + s) ^ 2) - sqrt (k ^ 2 - (v + s) ^ 2).
Proof.
  intros k u v s Hu Huv Hs Hk.
  assert (A1 : 0 <= k ^ 2 - u ^ 2) by nra. assert (A2 : 0 <= k ^ 2 - v ^ 2) by nra.
  assert (A3 : 0 <= k ^ 2 - (u + s) ^ 2) by nra. assert (A4 : 0 <= k ^ 2 - (v + s) ^ 2) by nra.
  pose proof (pow2_sqrt _ A1) as S1. pose proof (pow2_sqrt _ A2) as S2.
  pose proof (pow2_sqrt _ A3) as S3. pose proof (pow2_sqrt _ A4) as S4.
  assert (M12 : sqrt (k ^ 2 - v ^ 2) <= sqrt (k ^ 2 - u ^ 2)) by (apply sqrt_le_1_alt; nra).
  assert (M34 : sqrt (k ^ 2 - (v + s) ^ 2) <= sqrt (k ^ 2 - (u + s) ^ 2)) by (apply sqrt_le_1_alt; nra).
  assert (M13 : sqrt (k ^ 2 - (u + s) ^ 2) <= sqrt (k ^ 2 - u ^ 2)) by (apply sqrt_le_1_alt; nra).
  assert (M24 : sqrt (k ^ 2 - (v + s) ^ 2) <= sqrt (k ^ 2 - v ^ 2)) by (apply sqrt_le_1_alt; nra).
  pose proof (sqrt_pos (k ^ 2 - u ^ 2)). pose proof (sqrt_pos (k ^ 2 - v ^ 2)).
  pose proof (sqrt_pos (k ^ 2 - (u + s) ^ 2)). pose proof (sqrt_pos (k ^ 2 - (v + s) ^ 2)).
  set (f1 := sqrt (k ^ 2 - u ^ 2)) in *. set (f2 := sqrt (k ^ 2 - v ^ 2)) in *.
  set (f3 := sqrt (k ^ 2 - (u + s) ^ 2)) in *. set (f4 := sqrt (k ^ 2 - (v + s) ^ 2)) in *.
  destruct (Rle_dec (f1 - f2) (f3 - f4)) as [|N]; [assumption|]. exfalso.
  assert (D1 : (f1 - f2) * (f1 + f2) = (v - u) * (v + u)) by nra.
  assert (D2 : (f3 - f4) * (f3 + f4) = (v - u) * (v + u + 2 * s)) by nra.
  assert (f1 + f2 <> 0 -> False).
  { intros P. assert (0 < f1 + f2) by lra.
    assert ((f3 - f4) * (f3 + f4) <= (f3 - f4) * (f1 + f2)) by nra.
    assert ((f3 - f4) * (f1 + f2) < (f1 - f2) * (f1 + f2)) by (apply Rmult_lt_compat_r; lra).
    assert (0 <= (v - u) * (2 * s)) by (apply Rmult_le_pos; lra). lra. }
  assert (f1 + f2 = 0) by (destruct (Req_dec (f1 + f2) 0); [assumption|contradiction]). lra.
Qed.

Lemma even_dec : forall k a b, Rabs a <= b -> b <= k -> sqrt (k ^ 2 - b ^ 2) <= sqrt (k ^ 2 - a ^ 2).
Proof.
  intros k a b H Hb. apply sqrt_le_1_alt. assert (a ^ 2 <= b ^ 2); [|lra].
  rewrite <- (pow2_abs a). pose proof (Rabs_pos a). nra.
Qed.

(** Cauchy-Schwarz in the plane: the norms of p and q differ by at most |p - q|, and |p - q| is at
    most their sum. *)
Lemma tri : forall px py qx qy l, px - qx = l -> py - qy = 0 ->
  let u := sqrt (px ^ 2 + py ^ 2) in let v := sqrt (qx ^ 2 + qy ^ 2) in
  v <= u + Rabs l /\ Rabs l <= u + v.
Proof.
  intros px py qx qy l H1 H2 u v.
  assert (Hu : 0 <= px ^ 2 + py ^ 2) by nra. assert (Hv : 0 <= qx ^ 2 + qy ^ 2) by nra.
  pose proof (pow2_sqrt _ Hu) as Su. pose proof (pow2_sqrt _ Hv) as Sv. fold u in Su. fold v in Sv.
  pose proof (sqrt_pos (px ^ 2 + py ^ 2)) as Pu. pose proof (sqrt_pos (qx ^ 2 + qy ^ 2)) as Pv. fold u in Pu. fold v in Pv.
  assert (L2 : Rabs l ^ 2 = l ^ 2) by apply pow2_abs. pose proof (Rabs_pos l) as Pl.
  assert (CS : - (u * v) <= px * qx + py * qy <= u * v).
  { assert ((px * qx + py * qy) ^ 2 <= (u * v) ^ 2).
    { replace ((u * v) ^ 2) with (u ^ 2 * v ^ 2) by ring. rewrite Su, Sv.
      assert (0 <= (px * qy - py * qx) ^ 2) by apply pow2_ge_0. nra. }
    assert (0 <= u * v) by (apply Rmult_le_pos; assumption). split; nra. }
  assert (E : l ^ 2 = u ^ 2 + v ^ 2 - 2 * (px * qx + py * qy)).
  { rewrite Su, Sv, <- H1. assert (E : py = qy) by lra. rewrite E. ring. }
  clearbody u v. set (L := Rabs l) in *. clearbody L. rewrite <- L2 in E. split.
  - destruct (Rle_dec v u); [lra|]. cut (v - u <= L); [lra|]. apply Rsqr_incr_0_var; [unfold Rsqr; nra|assumption].
  - apply Rsqr_incr_0_var; [unfold Rsqr; nra|lra].
Qed.

Lemma cap_norm : forall k q px py pz, 0 <= q -> collected k q px py pz ->
  let u := sqrt (px ^ 2 + py ^ 2) in 0 <= u <= q /\ pz = sqrt (k ^ 2 - u ^ 2).
Proof.
  intros k q px py pz Hq (A & B & P) u.
  assert (Hu : 0 <= px ^ 2 + py ^ 2) by nra. pose proof (pow2_sqrt _ Hu) as Su. fold u in Su.
  split; [split; [apply sqrt_pos|]|].
  - rewrite <- (sqrt_pow2 q Hq). apply sqrt_le_1_alt. exact B.
  - rewrite Su. replace (k ^ 2 - (px ^ 2 + py ^ 2)) with (pz ^ 2) by lra. symmetry. apply sqrt_pow2. exact P.
Qed.

Lemma support_below : forall k q l z, 0 <= q <= k -> in_support k q l z -> z <= height k q l.
Proof.
  intros k q l z [Hq Hk] (px & py & pz & qx & qy & qz & C1 & C2 & E1 & E2 & <-).
  destruct (cap_norm _ _ _ _ _ Hq C1) as [U ->]. destruct (cap_norm _ _ _ _ _ Hq C2) as [V ->].
  destruct (tri _ _ _ _ _ E1 E2) as [T1 T2].
  set (u := sqrt (px ^ 2 + py ^ 2)) in *. set (v := sqrt (qx ^ 2 + qy ^ 2)) in *. clearbody u v.
  unfold height. set (L := Rabs l) in *. assert (PL : 0 <= L) by apply Rabs_pos. clearbody L.
  assert (B : Rabs (L - q) <= q) by (apply Rabs_le; lra).
  destruct (Rle_dec u v) as [Huv|Huv].
  - apply Rle_trans with (sqrt (k ^ 2 - (u + (q - v)) ^ 2) - sqrt (k ^ 2 - (v + (q - v)) ^ 2)).
    + apply f_diff; lra.
    + replace (v + (q - v)) with q by ring. apply Rplus_le_compat_r. apply even_dec; [apply Rabs_le; lra|lra].
  - assert (sqrt (k ^ 2 - u ^ 2) <= sqrt (k ^ 2 - v ^ 2)) by (apply even_dec; [rewrite Rabs_pos_eq; lra|lra]).
    assert (sqrt (k ^ 2 - q ^ 2) <= sqrt (k ^ 2 - (L - q) ^ 2)) by (apply even_dec; lra). lra.
Qed.

Lemma support_width : forall k q l z, 0 <= q -> in_support k q l z -> Rabs l <= 2 * q.
Proof.
  intros k q l z Hq (px & py & pz & qx & qy & qz & C1 & C2 & E1 & E2 & _).
  destruct (cap_norm _ _ _ _ _ Hq C1) as [U _]. destruct (cap_norm _ _ _ _ _ Hq C2) as [V _].
  destruct (tri _ _ _ _ _ E1 E2) as [_ T]. lra.
Qed.

Lemma support_attained : forall k q l, 0 <= q <= k -> Rabs l <= 2 * q -> in_support k q l (height k q l).
Proof.
  intros k q l [Hq Hk] Hl. unfold height.
  assert (A1 : 0 <= k ^ 2 - q ^ 2) by nra.
  assert (B : (Rabs l - q) ^ 2 <= q ^ 2) by (pose proof (Rabs_pos l); nra).
  assert (A2 : 0 <= k ^ 2 - (Rabs l - q) ^ 2) by nra.
  pose proof (pow2_sqrt _ A1) as S1. pose proof (pow2_sqrt _ A2) as S2.
  pose proof (sqrt_pos (k ^ 2 - q ^ 2)) as P1. pose proof (sqrt_pos (k ^ 2 - (Rabs l - q) ^ 2)) as P2.
  destruct (Rle_dec 0 l) as [L|L].
  - rewrite (Rabs_pos_eq l) in * by assumption.
    exists (l - q), 0, (sqrt (k ^ 2 - (l - q) ^ 2)), (- q), 0, (sqrt (k ^ 2 - q ^ 2)).
    unfold collected. rewrite S1, S2. repeat split; try lra; nra.
  - rewrite (Rabs_left1 l) in * by lra.
    exists (l + q), 0, (sqrt (k ^ 2 - (- l - q) ^ 2)), q, 0, (sqrt (k ^ 2 - q ^ 2)).
    unfold collected. rewrite S1, S2. repeat split; try lra; nra.
Qed.

Lemma height_pos : forall k q l, 0 <= q <= k -> Rabs l <= 2 * q -> 0 <= height k q l.
Proof.
  intros k q l Hq Hl. unfold height. pose proof (Rabs_pos l).
  assert (sqrt (k ^ 2 - q ^ 2) <= sqrt (k ^ 2 - (Rabs l - q) ^ 2)) by (apply even_dec; [apply Rabs_le; lra|lra]). lra.
Qed.

Lemma edge_iff : forall k q l z, 0 <= q <= k -> (edge k q l z <-> Rabs l <= 2 * q /\ Rabs z = height k q l).
Proof.
  intros k q l z Hq. split.
  - intros [I M]. assert (W : Rabs l <= 2 * q) by (eapply support_width; [apply Hq|exact I]). split; [exact W|].
    apply Rle_antisym; [eapply support_below; eassumption|]. apply M, support_attained; assumption.
  - intros [W E]. split.
    + rewrite E. apply support_attained; assumption.
    + intros z' I. rewrite E. eapply support_below; eassumption.
Qed.

(** ** The arcs *)
Lemma arc_points : forall k q X Y, 0 < k -> 0 <= q <= k ->
  ((exists u, - asin (q / k) <= u <= asin (q / k) /\ X = k * sin u /\ Y = k * cos u) <->
   Rabs X <= q /\ Y = sqrt (k ^ 2 - X ^ 2)).
Proof.
  intros k q X Y Hk [Hq Hqk].
  assert (B : 0 <= q / k <= 1).
  { split; [apply Rmult_le_pos; [lra|left; apply Rinv_0_lt_compat; lra]|].
    apply (Rmult_le_reg_r k); [lra|]. unfold Rdiv. rewrite Rmult_assoc, Rinv_l by lra. lra. }
  pose proof (asin_bound (q / k)) as AB. assert (AS : sin (asin (q / k)) = q / k) by (apply sin_asin; lra).
  assert (Kq : k * (q / k) = q) by (field; lra).
  split.
  - intros (u & [U1 U2] & -> & ->).
    assert (S2 : sin u <= q / k) by (rewrite <- AS; apply sin_incr_1; lra).
    assert (S1 : - (q / k) <= sin u) by (rewrite <- AS, <- sin_neg; apply sin_incr_1; lra).
    split; [apply Rabs_le; nra|].
    assert (C : 0 <= cos u) by (apply cos_ge_0; lra).
    replace (k ^ 2 - (k * sin u) ^ 2) with ((k * cos u) ^ 2).
    + symmetry. apply sqrt_pow2. apply Rmult_le_pos; lra.
    + pose proof (sin2_cos2 u) as SC. unfold Rsqr in SC. replace ((k * cos u) ^ 2) with (k ^ 2 * (cos u * cos u)) by ring.
      replace (cos u * cos u) with (1 - sin u * sin u) by lra. ring.
  - intros [HX ->].
    assert (XB : - (q / k) <= X / k <= q / k).
    { assert (- q <= X <= q) by (unfold Rabs in HX; destruct Rcase_abs; lra).
      split; apply (Rmult_le_reg_r k); try lra; unfold Rdiv; rewrite ?Ropp_mult_distr_l_reverse, !Rmult_assoc, !Rinv_l by lra; lra. }
    exists (asin (X / k)). pose proof (asin_bound (X / k)) as XA.
    assert (XS : sin (asin (X / k)) = X / k) by (apply sin_asin; lra).
    split; [split|split].
    + apply sin_incr_0; rewrite ?sin_neg, ?AS, ?XS; lra.
    + apply sin_incr_0; rewrite ?sin_neg, ?AS, ?XS; lra.
    + rewrite XS. field; lra.
    + rewrite cos_asin by lra.
      replace (k ^ 2 - X ^ 2) with (k ^ 2 * (1 - Rsqr (X / k))) by (unfold Rsqr; field; lra).
      rewrite sqrt_mult_alt by nra. rewrite sqrt_pow2 by lra. reflexivity.
Qed.

(** An arc in terms of its angles in radians. *)
Lemma on_arc_rad : forall slot cx cy k t1 t2 x y,
  on_arc (mkWedge slot cx cy k (rad2deg t1) (rad2deg t2)) x y <->
  exists t, t1 <= t <= t2 /\ x = cx + k * cos t /\ y = cy + k * sin t.
Proof.
  intros. unfold on_arc, rad2deg. cbn [w_t1 w_t2 w_x w_y w_r]. pose proof PI_RGT_0 as P.
  assert (conv : forall t, t * 180 / PI * PI / 180 = t) by (intros; field; lra).
  split.
  - intros (t & [A B] & -> & ->). exists (t * PI / 180). split; [|split; reflexivity].
    split; apply (Rmult_le_reg_r (180 / PI)); try (apply Rdiv_lt_0_compat; lra).
    + replace (t * PI / 180 * (180 / PI)) with t by (field; lra). lra.
    + replace (t * PI / 180 * (180 / PI)) with t by (field; lra). lra.
  - intros (t & [A B] & -> & ->). exists (t * 180 / PI). rewrite conv. split; [|split; reflexivity].
    split; apply (Rmult_le_reg_r (PI / 180)); try (apply Rdiv_lt_0_compat; lra).
    + replace (t1 * 180 / PI * (PI / 180)) with t1 by (field; lra). replace (t * 180 / PI * (PI / 180)) with t by (field; lra). lra.
    + replace (t2 * 180 / PI * (PI / 180)) with t2 by (field; lra). replace (t * 180 / PI * (PI / 180)) with t by (field; lra). lra.
Qed.

Section Arcs.
Context (k q : R) (Hk : 0 < k) (Hq : 0 <= q <= k).
Let a := asin (q / k).
Let s := sqrt (k ^ 2 - q ^ 2).

Lemma k_sin_a : k * sin a = q.
Proof.
  unfold a. rewrite sin_asin; [field; lra|].
  assert (0 <= q / k) by (apply Rmult_le_pos; [lra|left; apply Rinv_0_lt_compat; lra]).
  assert (q / k <= 1) by (apply (Rmult_le_reg_r k); [lra|]; unfold Rdiv; rewrite Rmult_assoc, Rinv_l by lra; lra). lra.
Qed.
Lemma k_cos_a : k * cos a = s.
Proof.
  destruct (proj1 (arc_points k q (k * sin a) (k * cos a) Hk Hq)) as [_ E].
  - exists a. split; [|split; reflexivity]. unfold a.
    assert (0 <= q / k) by (apply Rmult_le_pos; [lra|left; apply Rinv_0_lt_compat; lra]).
    assert (q / k <= 1) by (apply (Rmult_le_reg_r k); [lra|]; unfold Rdiv; rewrite Rmult_assoc, Rinv_l by lra; lra).
    assert (0 <= asin (q / k)); [|lra]. pose proof (asin_bound (q / k)). pose proof PI_RGT_0.
    apply sin_incr_0; rewrite ?sin_0, ?sin_asin; lra.
  - rewrite E, k_sin_a. reflexivity.
Qed.

(** sg, tg = +-1: the arc whose centre is (sg q, tg s) and that faces the lateral axis. *)
Lemma facing : forall sg tg x z, (sg = 1 \/ sg = -1) -> (tg = 1 \/ tg = -1) ->
  ((exists u, - a <= u <= a /\ x = sg * q + k * sin u /\ z = tg * s - tg * (k * cos u)) <->
   Rabs (x - sg * q) <= q /\ tg * z = - (sqrt (k ^ 2 - (x - sg * q) ^ 2) - s)).
Proof.
  intros sg tg x z Hs Ht. rewrite <- (and_iff_compat_l _ (B := sqrt (k ^ 2 - (x - sg * q) ^ 2) = s - tg * z)).
  2:{ destruct Ht as [-> | ->]; split; lra. }
  pose proof (arc_points k q (x - sg * q) (s - tg * z) Hk Hq) as P. fold a in P. split.
  - intros (u & U & -> & ->). destruct (proj1 P) as [A B].
    + exists u. split; [exact U|]. split; [ring|]. destruct Ht as [-> | ->]; ring.
    + split; [exact A|]. symmetry. exact B.
  - intros [A B]. destruct (proj2 P) as (u & U & E1 & E2); [split; [exact A|symmetry; exact B]|].
    exists u. split; [exact U|]. split; [lra|]. rewrite <- E2. destruct Ht as [-> | ->]; ring.
Qed.

Lemma four_arcs : forall x z,
  (exists sg tg, (sg = 1 \/ sg = -1) /\ (tg = 1 \/ tg = -1) /\
     exists u, - a <= u <= a /\ x = sg * q + k * sin u /\ z = tg * s - tg * (k * cos u)) <-> edge k q x z.
Proof.
  intros x z. rewrite edge_iff by assumption. unfold height. fold s. split.
  - intros (sg & tg & Hs & Ht & H). apply facing in H; try assumption. destruct H as [A B].
    assert (HX : (Rabs x - q) ^ 2 = (x - sg * q) ^ 2 /\ Rabs x <= 2 * q).
    { assert (- q <= x - sg * q <= q) by (unfold Rabs in A; destruct Rcase_abs in A; lra).
      destruct Hs as [-> | ->].
      - rewrite Rabs_pos_eq by lra. split; [ring|lra].
      - rewrite Rabs_left1 by lra. split; [ring|lra]. }
    destruct HX as [HX W]. rewrite HX. split; [exact W|].
    assert (N : 0 <= sqrt (k ^ 2 - (x - sg * q) ^ 2) - s).
    { rewrite <- HX. apply (height_pos k q x); assumption. }
    destruct Ht as [-> | ->].
    + rewrite Rabs_left1; lra.
    + rewrite Rabs_pos_eq; lra.
  - intros [W E].
    exists (if Rle_dec 0 x then 1 else -1), (if Rle_dec 0 z then -1 else 1).
    assert (Hs : (if Rle_dec 0 x then 1 else -1) = 1 \/ (if Rle_dec 0 x then 1 else -1) = -1) by (destruct Rle_dec; auto).
    assert (Ht : (if Rle_dec 0 z then -1 else 1) = 1 \/ (if Rle_dec 0 z then -1 else 1) = -1) by (destruct (Rle_dec 0 z); auto).
    split; [exact Hs|]. split; [exact Ht|]. apply facing; try assumption.
    assert (HX : (x - (if Rle_dec 0 x then 1 else -1) * q) ^ 2 = (Rabs x - q) ^ 2 /\ Rabs (x - (if Rle_dec 0 x then 1 else -1) * q) <= q).
    { destruct Rle_dec as [L|L].
      - rewrite (Rabs_pos_eq x) in * by assumption. split; [ring|]. apply Rabs_le. lra.
      - rewrite (Rabs_left1 x) in * by lra. split; [ring|]. apply Rabs_le. lra. }
    destruct HX as [HX B]. split; [exact B|]. rewrite HX, <- E. destruct (Rle_dec 0 z) as [L|L].
    + rewrite Rabs_pos_eq by assumption. ring.
    + rewrite Rabs_left1 by lra. ring.
Qed.

Lemma slot1_arcs : forall x z, (exists w, In w (wedges a k) /\ w_slot w = 1%nat /\ on_arc w x z) <-> edge k q x z.
Proof.
  intros x z. rewrite <- four_arcs. unfold wedges. cbn [flat_map map fst snd app].
  pose proof k_sin_a as KS. pose proof k_cos_a as KC.
  assert (arc : forall i j sg tg, (j = 0 /\ sg = 1 \/ j = PI /\ sg = -1) -> (i = 0 /\ tg = 1 \/ i = PI /\ tg = -1) ->
    (on_arc (wedge_of a k 0 1 j i) x z <->
     exists u, - a <= u <= a /\ x = sg * q + k * sin u /\ z = tg * s - tg * (k * cos u))).
  { intros i j sg tg Hj Hi. unfold wedge_of. rewrite on_arc_rad. rewrite sin_0, cos_0.
    assert (CX : k * sin (a + 0 + j) = sg * q).
    { rewrite Rplus_0_r. destruct Hj as [[-> ->]|[-> ->]]; [rewrite Rplus_0_r|rewrite neg_sin]; rewrite <- KS; ring. }
    assert (CZ : k * cos (a + 0 + i) = tg * s).
    { rewrite Rplus_0_r. destruct Hi as [[-> ->]|[-> ->]]; [rewrite Rplus_0_r|rewrite neg_cos]; rewrite <- KC; ring. }
    rewrite CX, CZ.
    assert (TC : forall u, cos (u - PI / 2 + i) = tg * sin u /\ sin (u - PI / 2 + i) = - tg * cos u).
    { intros u. assert (C0 : cos (u - PI / 2) = sin u) by (rewrite <- cos_neg, Ropp_minus_distr; apply cos_shift).
      assert (S0 : sin (u - PI / 2) = - cos u) by (rewrite <- (Ropp_involutive (sin _)), <- sin_neg, Ropp_minus_distr, sin_shift; reflexivity).
      destruct Hi as [[-> ->]|[-> ->]]; [rewrite Rplus_0_r|rewrite neg_cos, neg_sin]; rewrite C0, S0; split; ring. }
    assert (Ht : tg = 1 \/ tg = -1) by (destruct Hi as [[_ ?]|[_ ?]]; auto).
    split.
    - intros (t & [T1 T2] & -> & ->). exists (tg * (t + PI / 2 - i)).
      destruct (TC (t + PI / 2 - i)) as [E1 E2]. replace (t + PI / 2 - i - PI / 2 + i) with t in * by ring. rewrite E1, E2.
      split; [destruct Ht as [-> | ->]; lra|]. destruct Ht as [-> | ->].
      + rewrite !Rmult_1_l. split; ring.
      + replace (-1 * (t + PI / 2 - i)) with (- (t + PI / 2 - i)) by ring. rewrite sin_neg, cos_neg. split; ring.
    - intros (u & U & -> & ->). exists (tg * u - PI / 2 + i). destruct (TC (tg * u)) as [E1 E2]. rewrite E1, E2.
      split; [destruct Ht as [-> | ->]; lra|]. destruct Ht as [-> | ->].
      + rewrite !Rmult_1_l. split; ring.
      + replace (-1 * u) with (- u) by ring. rewrite sin_neg, cos_neg. split; ring. }
  split.
  - intros (w & I & Sl & A). cbn in I.
    destruct I as [<-|[<-|[<-|[<-|[<-|[<-|[<-|[<-|[]]]]]]]]]; try discriminate Sl.
    + exists 1, 1. split; [auto|]. split; [auto|]. apply (arc 0 0); auto.
    + exists 1, (-1). split; [auto|]. split; [auto|]. apply (arc PI 0); auto.
    + exists (-1), 1. split; [auto|]. split; [auto|]. apply (arc 0 PI); auto.
    + exists (-1), (-1). split; [auto|]. split; [auto|]. apply (arc PI PI); auto.
  - intros (sg & tg & Hs & Ht & H).
    exists (wedge_of a k 0 1 (if Req_EM_T sg 1 then 0 else PI) (if Req_EM_T tg 1 then 0 else PI)).
    split; [|split; [reflexivity|]].
    + destruct (Req_EM_T sg 1), (Req_EM_T tg 1); cbn; tauto.
    + apply (arc _ _ sg tg); [destruct (Req_EM_T sg 1)|destruct (Req_EM_T tg 1)|exact H]; tauto.
Qed.

Lemma slot2_arcs : forall z y, (exists w, In w (wedges a k) /\ w_slot w = 2%nat /\ on_arc w z y) <-> edge k q y z.
Proof.
  intros z y. rewrite <- four_arcs. unfold wedges. cbn [flat_map map fst snd app].
  pose proof k_sin_a as KS. pose proof k_cos_a as KC.
  assert (arc : forall i j sg tg, (i = 0 /\ sg = -1 \/ i = PI /\ sg = 1) -> (j = 0 /\ tg = 1 \/ j = PI /\ tg = -1) ->
    (on_arc (wedge_of a k (PI / 2) 2 j i) z y <->
     exists u, - a <= u <= a /\ y = sg * q + k * sin u /\ z = tg * s - tg * (k * cos u))).
  { intros i j sg tg Hi Hj. unfold wedge_of. rewrite on_arc_rad. rewrite sin_PI2, cos_PI2.
    assert (CX : k * sin (a + PI / 2 + j) = tg * s).
    { replace (sin (a + PI / 2 + j)) with (tg * cos a); [rewrite <- KC; ring|].
      destruct Hj as [[-> ->]|[-> ->]]; [rewrite Rplus_0_r|rewrite neg_sin]; rewrite (Rplus_comm a), <- cos_sin; ring. }
    assert (CZ : k * cos (a + PI / 2 + i) = sg * q).
    { replace (cos (a + PI / 2 + i)) with (sg * sin a); [rewrite <- KS; ring|].
      assert (C0 : cos (a + PI / 2) = - sin a) by (rewrite (sin_cos a), Ropp_involutive; f_equal; ring).
      destruct Hi as [[-> ->]|[-> ->]]; [rewrite Rplus_0_r|rewrite neg_cos]; rewrite C0; ring. }
    rewrite CX, CZ.
    assert (TC : forall u, cos (u - (j + PI)) = - tg * cos u /\ sin (u - (j + PI)) = - tg * sin u).
    { intros u. assert (C0 : forall v, cos (v - PI) = - cos v) by (intros v; rewrite <- (Ropp_involutive (cos (v - PI))), <- neg_cos; do 2 f_equal; ring).
      assert (S0 : forall v, sin (v - PI) = - sin v) by (intros v; rewrite <- (Ropp_involutive (sin (v - PI))), <- neg_sin; do 2 f_equal; ring).
      replace (u - (j + PI)) with (u - j - PI) by ring. rewrite C0, S0.
      destruct Hj as [[-> ->]|[-> ->]]; [rewrite Rminus_0_r|rewrite C0, S0]; split; ring. }
    assert (Ht : tg = 1 \/ tg = -1) by (destruct Hj as [[_ ?]|[_ ?]]; auto).
    split.
    - intros (t & [T1 T2] & -> & ->). exists (- tg * (t + (j + PI))).
      destruct (TC (t + (j + PI))) as [E1 E2]. replace (t + (j + PI) - (j + PI)) with t in * by ring. rewrite E1, E2.
      split; [destruct Ht as [-> | ->]; lra|]. destruct Ht as [-> | ->].
      + replace (-(1) * (t + (j + PI))) with (- (t + (j + PI))) by ring. rewrite sin_neg, cos_neg. split; ring.
      + replace (- -1 * (t + (j + PI))) with (t + (j + PI)) by ring. split; ring.
    - intros (u & U & -> & ->). exists (- tg * u - (j + PI)). destruct (TC (- tg * u)) as [E1 E2]. rewrite E1, E2.
      split; [destruct Ht as [-> | ->]; lra|]. destruct Ht as [-> | ->].
      + replace (-(1) * u) with (- u) by ring. rewrite sin_neg, cos_neg. split; ring.
      + replace (- -1 * u) with u by ring. split; ring. }
  split.
  - intros (w & I & Sl & A). cbn in I.
    destruct I as [<-|[<-|[<-|[<-|[<-|[<-|[<-|[<-|[]]]]]]]]]; try discriminate Sl.
    + exists (-1), 1. split; [auto|]. split; [auto|]. apply (arc 0 0); auto.
    + exists 1, 1. split; [auto|]. split; [auto|]. apply (arc PI 0); auto.
    + exists (-1), (-1). split; [auto|]. split; [auto|]. apply (arc 0 PI); auto.
    + exists 1, (-1). split; [auto|]. split; [auto|]. apply (arc PI PI); auto.
  - intros (sg & tg & Hs & Ht & H).
    exists (wedge_of a k (PI / 2) 2 (if Req_EM_T tg 1 then 0 else PI) (if Req_EM_T sg 1 then PI else 0)).
    split; [|split; [reflexivity|]].
    + destruct (Req_EM_T sg 1), (Req_EM_T tg 1); cbn; tauto.
    + apply (arc _ _ sg tg); [destruct (Req_EM_T sg 1)|destruct (Req_EM_T tg 1)|exact H]; tauto.
Qed.
End Arcs.

(** The arcs drawn on the two axial panels are exactly the boundary of the support of the OTF of an
    aberration-free widefield microscope (apertures beyond the index count as the index); the circle
    drawn on the lateral panel is its lateral cut-off when na <= ni. *)
Theorem C79_overlays : forall otf nz n na ni wl zres res ps c ws, shape otf = [nz; n; n] ->
  0 <= na -> 0 < ni -> 0 < wl ->
  otf_plot otf na ni wl zres res = Ok (ps, c, ws) ->
  let k := ni / wl in let q := Rmin na ni / wl in
  (forall x z, (exists w, In w ws /\ w_slot w = 1%nat /\ on_arc w x z) <-> edge k q x z) /\
  (forall z y, (exists w, In w ws /\ w_slot w = 2%nat /\ on_arc w z y) <-> edge k q y z) /\
  (List.length ws = 8%nat /\ forall w, In w ws -> w_slot w = 1%nat \/ w_slot w = 2%nat) /\
  c = mkCircle 0 0 (2 * na / wl) /\
  (na <= ni -> forall l, (exists z, in_support k q l z) <-> Rabs l <= c_r c).
Proof.
  intros otf nz n na ni wl zres res ps c ws Hs Ha Hi Hw E k q.
  unfold otf_plot in E. rewrite Hs in E. rewrite Z.eqb_refl in E. cbn [negb] in E.
  destruct (fft_max_min nz zres); [cbn [bind] in E|discriminate]. destruct (fft_max_min n res); [cbn [bind] in E|discriminate].
  destruct (slice0 _ _ _ _ _); [cbn [bind] in E|discriminate]. destruct (slice1 _ _ _ _ _); [cbn [bind] in E|discriminate].
  destruct (slice2 _ _ _ _ _); [cbn [bind] in E|discriminate].
  unfold marginal_angle, pdiv in E. destruct (Req_EM_T ni 0); [exfalso; lra|]. destruct (Req_EM_T wl 0); [exfalso; lra|]. cbn [bind] in E.
  injection E as _ <- <-.
  assert (Hk : 0 < k) by (apply Rdiv_lt_0_compat; assumption).
  assert (W : 0 < / wl) by (apply Rinv_0_lt_compat; assumption).
  assert (Hq : 0 <= q <= k).
  { unfold q, k, Rdiv. pose proof (Rmin_r na ni). assert (0 <= Rmin na ni) by (apply Rmin_glb; lra). split; nra. }
  assert (Q : Rmin 1 (na / ni) = q / k).
  { unfold q, k. unfold Rmin. destruct (Rle_dec 1 (na / ni)) as [L|L], (Rle_dec na ni) as [M|M].
    - assert (na / ni <= 1) by (apply (Rmult_le_reg_r ni); [lra|]; unfold Rdiv; rewrite Rmult_assoc, Rinv_l by lra; lra).
      assert (F : na / ni = 1) by lra. transitivity (na / ni); [lra|]. field; lra.
    - field; lra.
    - field; lra.
    - exfalso. apply L. apply (Rmult_le_reg_r ni); [lra|]. unfold Rdiv. rewrite Rmult_assoc, Rinv_l by lra. lra. }
  rewrite Q. change (ni / wl) with k.
  split; [apply slot1_arcs; assumption|]. split; [apply slot2_arcs; assumption|].
  split; [split; [reflexivity|]|].
  { intros w I. cbn in I. destruct I as [<-|[<-|[<-|[<-|[<-|[<-|[<-|[<-|[]]]]]]]]]; cbn; auto. }
  split; [reflexivity|]. intros Hn l. cbn [c_r].
  replace (2 * na / wl) with (2 * q) by (unfold q; rewrite Rmin_left by assumption; field; lra). split.
  - intros [z Z]. eapply support_width; [apply Hq|exact Z].
  - intros L. exists (height k q l). apply support_attained; assumption.
Qed.
Print Assumptions C79_overlays.

(** A microscope with na = 3, ni = 5, wl = 1: the support reaches z = 5 - 4 = 1 at l = 3. *)
Example C79_case : edge 5 3 3 1 /\ edge 5 3 6 0.
Proof.
  split; apply edge_iff; try lra; unfold height.
  - rewrite !Rabs_pos_eq by lra. split; [lra|].
    replace (5 ^ 2 - (3 - 3) ^ 2) with (5 ^ 2) by ring. replace (5 ^ 2 - 3 ^ 2) with (4 ^ 2) by ring. rewrite !sqrt_pow2 by lra. lra.
  - rewrite !Rabs_pos_eq by lra. split; [lra|].
    replace (5 ^ 2 - (6 - 3) ^ 2) with (5 ^ 2 - 3 ^ 2) by ring. lra.
Qed.
Example C79_runs : exists r, otf_plot (mkArr [3; 4; 4]%Z (fun _ => 1)) 3 5 1 1 1 = Ok r.
Proof.
  destruct (C78_otf_panels (mkArr [3; 4; 4]%Z (fun _ => 1)) 3 4 3 5 1 1 1) as (a & b & c & d & e & E & _); try lra; try lia; try reflexivity.
  eexists. exact E.
Qed.
