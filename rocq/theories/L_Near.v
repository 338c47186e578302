(** Relative errors in units of 2^-53. *)
From Verif Require Import M_Float S_Float L_Float L_Float3 L_Noll.
From Flocq Require Import Core.
From Coq Require Import Lra Lia.
Local Open Scope R_scope.

Definition near (k x y : R) : Prop := exists r, 1 - k * uu <= r <= 1 + k * uu /\ y = x * r.
Definition small (k : R) : Prop := 0 <= k <= 1000.
Lemma small_uu k : small k -> 0 <= k * uu <= / 1000000000.
Proof. unfold small. intros H. unfold uu. lra. Qed.
Lemma near_refl k x : 0 <= k -> near k x x.
Proof. intros H. exists 1. pose proof uu_pos. split; [nra|ring]. Qed.
Lemma near_weaken k l x y : k <= l -> near k x y -> near l x y.
Proof. intros H (r & R1 & R2). exists r. pose proof uu_pos. split; [nra|exact R2]. Qed.
Lemma near_0 k y : near k 0 y -> y = 0.
Proof. intros (r & _ & ->). ring. Qed.
Lemma near_mult a b x y x' y' : small a -> small b -> near a x x' -> near b y y' -> near (a + b + 1) (x * y) (x' * y').
Proof.
  intros Ha Hb (r & R1 & ->) (s & S1 & ->). exists (r * s). split; [|ring]. apply small_uu in Ha as A. apply small_uu in Hb as B. pose proof uu_pos as U.
  assert (D : a * uu * (b * uu) <= uu). { unfold small in *. assert (a * uu * (b * uu) = (a * b * uu) * uu) by ring. assert (a * b <= 1000 * 1000) by (apply Rmult_le_compat; lra). unfold uu in *. nra. }
  assert (0 <= a * uu * (b * uu)) by nra.
  replace ((a + b + 1) * uu) with (a * uu + b * uu + uu) by ring. set (p := a * uu) in *. set (q := b * uu) in *. clearbody p q. split; nra.
Qed.
Lemma near_sqr a x x' : small a -> near a x x' -> near (2 * a + 1) (x * x) (x' * x').
Proof. intros H N. replace (2 * a + 1) with (a + a + 1) by ring. now apply near_mult. Qed.
Lemma near_div a b x y x' y' : small a -> small b -> near a x x' -> near b y y' -> near (a + b + 1) (x / y) (x' / y').
Proof.
  intros Ha Hb (r & R1 & ->) (s & S1 & ->). apply small_uu in Ha as A. apply small_uu in Hb as B. pose proof uu_pos as U.
  exists (r / s). assert (s0 : 0 < s) by lra. split; [|unfold Rdiv; rewrite Rinv_mult; ring].
  assert (D : (a + b + 1) * uu * (b * uu) <= uu / 2). { unfold small in *. assert ((a + b + 1) * b <= 2001 * 1000) by (apply Rmult_le_compat; lra). unfold uu in *. nra. }
  assert (D2 : 0 <= (a + b + 1) * uu * (b * uu)) by (unfold small in *; nra).
  assert (E : (a + b + 1) * uu = a * uu + b * uu + uu) by ring. rewrite E in *. set (p := a * uu) in *. set (q := b * uu) in *. clearbody p q.
  split; (apply Rmult_le_reg_r with s; [exact s0|]); unfold Rdiv; rewrite (Rmult_assoc r), Rinv_l by lra; nra.
Qed.
Lemma near_add a x y x' y' : small a -> 0 <= x -> 0 <= y -> near a x x' -> near a y y' -> near a (x + y) (x' + y').
Proof.
  intros Ha Hx Hy (r & R1 & ->) (s & S1 & ->). destruct (Req_EM_T (x + y) 0) as [E|E].
  - assert (x = 0) by lra. assert (y = 0) by lra. subst. exists 1. apply small_uu in Ha. split; [lra|ring].
  - exists ((x * r + y * s) / (x + y)). split; [|field; exact E].
    split; (apply Rmult_le_reg_r with (x + y); [lra|]); unfold Rdiv; rewrite (Rmult_assoc (x * r + y * s)), Rinv_l by exact E; nra.
Qed.
Lemma near_sqrt_ a x x' : small a -> 0 <= x -> near a x x' -> near a (sqrt x) (sqrt x').
Proof.
  intros Ha Hx (r & R1 & ->). apply small_uu in Ha as A. assert (r0 : 0 < r) by lra. exists (sqrt r). split; [|apply sqrt_mult; lra].
  pose proof (sqrt_pos r) as P. assert (S : sqrt r * sqrt r = r) by (apply sqrt_sqrt; lra). set (s := sqrt r) in *. clearbody s. split; nra.
Qed.
Lemma near_rnd a x y : small a -> near a x y -> bpow radix2 (-1022) <= Rabs y \/ y = 0 -> near (a + 2) x (rnd64 y).
Proof.
  intros Ha (r & R1 & E) [L|Z].
  - destruct (rnd64_rel y L) as (e & He & ->). exists (r * (1 + e)). apply err_bounds in He. apply small_uu in Ha as A. pose proof uu_pos as U. split; [|rewrite E; ring].
    assert (D : a * uu * uu <= uu) by nra. replace ((a + 2) * uu) with (a * uu + 2 * uu) by ring. set (p := a * uu) in *. clearbody p. split; nra.
  - exists r. pose proof uu_pos. split; [nra|]. rewrite Z, rnd64_0. rewrite <- Z. exact E.
Qed.
Lemma near_rnd_add a x y : small a -> 0 <= a -> is_float x -> is_float y -> forall s, near a s (x + y) -> near (a + 2) s (rnd64 (x + y)).
Proof.
  intros Ha H0 Fx Fy s (r & R1 & E). destruct (rnd64_plus x y Fx Fy) as (e & He & ->). exists (r * (1 + e)). apply err_bounds in He. apply small_uu in Ha as A. pose proof uu_pos as U. split; [|rewrite E; ring].
  assert (D : a * uu * uu <= uu) by nra. replace ((a + 2) * uu) with (a * uu + 2 * uu) by ring. set (p := a * uu) in *. clearbody p. split; nra.
Qed.
Lemma near_abs_err k x y : near k x y -> Rabs (y - x) <= k * uu * Rabs x.
Proof.
  intros (r & R1 & ->). replace (x * r - x) with ((r - 1) * x) by ring. rewrite Rabs_mult. apply Rmult_le_compat_r; [apply Rabs_pos|]. apply Rabs_le. lra.
Qed.
Lemma near_sign k x y : small k -> near k x y -> (0 <= x -> 0 <= y) /\ (0 < x -> 0 < y).
Proof. intros Hk (r & R1 & ->). apply small_uu in Hk. split; intros; [apply Rmult_le_pos|apply Rmult_lt_0_compat]; lra. Qed.
(** y is zero exactly when x is, and of the same magnitude up to a factor of two otherwise *)
Lemma near_range k x y b : small k -> near k x y -> x = 0 \/ 2 * b <= Rabs x -> 0 <= b -> y = 0 \/ b <= Rabs y.
Proof.
  intros Hk (r & R1 & ->) [->|L] Hb; [left; ring|right]. apply small_uu in Hk. rewrite Rabs_mult, (Rabs_pos_eq r) by lra. nra.
Qed.
