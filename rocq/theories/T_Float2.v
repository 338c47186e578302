(** C100: limits and the shell of SheppardPSF in binary64. *)
From Verif Require Import M_Float2 S_Float S_Float2 L_Float L_Float3 L_Near L_Noll L_Shell.
From Flocq Require Import Core.
From Coq Require Import Lra Lia.
Local Open Scope R_scope.

Lemma near_rnd_pos k x y : small k -> near k x y -> bpow radix2 (-1000) <= x -> near (k + 2) x (rnd64 y).
Proof.
  intros Hk N L. apply near_rnd; [exact Hk|exact N|left]. pose proof (bpow_pos (-1000)).
  destruct N as (r & R1 & ->). apply small_uu in Hk. rewrite Rabs_pos_eq by nra.
  apply Rle_trans with (/ 2 * bpow radix2 (-1000)); [|nra].
  change (/ 2) with (bpow radix2 (-1)). rewrite <- bpow_plus. apply bpow_le. lia.
Qed.
Lemma quot_range a b : rng a -> rng b -> bpow radix2 (-200) <= a / b.
Proof.
  intros [A1 A2] [B1 B2]. pose proof (bpow_pos (-100)). apply Rmult_le_reg_r with b; [lra|]. unfold Rdiv. rewrite Rmult_assoc, Rinv_l, Rmult_1_r by lra.
  apply Rle_trans with (bpow radix2 (-200) * bpow radix2 100); [apply Rmult_le_compat_l; [apply bpow_ge_0|lra]|]. rewrite <- bpow_plus. exact A1.
Qed.
Lemma e49 : bpow radix2 (-49) = 16 * uu. Proof. unfold uu. change (bpow radix2 (-49)) with (/ 562949953421312). lra. Qed.
Lemma limit_cmp T T' v : 0 < T -> near 8 T T' ->
  (v <= (1 - bpow radix2 (-49)) * T -> ~ T' <= v) /\ ((1 + bpow radix2 (-49)) * T <= v -> T' <= v).
Proof. intros T0 (r & R1 & ->). rewrite e49. pose proof uu_pos. split; intros H1; [intros H2|]; nra. Qed.

(** ** res is refused from the Abbe limit wl / (2 na) on, up to a relative 2^-49 *)
Theorem C100_res_limit : forall na wl res : R, rng na -> rng wl ->
  (res <= (1 - bpow radix2 (-49)) * (wl / (2 * na)) -> fl_res_refused na wl res = false) /\
  ((1 + bpow radix2 (-49)) * (wl / (2 * na)) <= res -> fl_res_refused na wl res = true).
Proof.
  intros na wl res Hna Hwl. pose proof (rng_pos _ Hna) as PA. pose proof (rng_pos _ Hwl) as PW.
  pose proof (quot_range _ _ Hna Hwl) as Q1. pose proof (quot_range _ _ Hwl Hna) as Q2. pose proof (bpow_pos (-200)) as P.
  assert (S2 : forall t, bpow radix2 (-200) <= 2 * t -> bpow radix2 (-1000) <= t).
  { intros t H. apply Rle_trans with (/ 2 * bpow radix2 (-200)); [|lra]. change (/ 2) with (bpow radix2 (-1)). rewrite <- bpow_plus. apply bpow_le. lia. }
  assert (N1 : near 2 (2 * na) (rnd64 (2 * na))).
  { replace 2 with (0 + 2) at 1 by ring. apply near_rnd_pos; [sm|apply near_refl; lra|]. destruct Hna as [A _]. pose proof (bpow_pos (-100)). apply Rle_trans with (bpow radix2 (-100)); [apply bpow_le; lia|lra]. }
  assert (N2 : near 5 (2 * na / wl) (rnd64 (rnd64 (2 * na) / wl))).
  { replace 5 with (2 + 0 + 1 + 2) by ring. apply near_rnd_pos; [sm|apply near_div; [sm|sm|exact N1|apply near_refl; lra]|].
    apply S2. replace (2 * na / wl) with (2 * (na / wl)) by (field; lra). lra. }
  assert (N3 : near 8 (1 / (2 * na / wl)) (rnd64 (1 / rnd64 (rnd64 (2 * na) / wl)))).
  { replace 8 with (0 + 5 + 1 + 2) by ring. apply near_rnd_pos; [sm|apply near_div; [sm|sm|apply near_refl; lra|exact N2]|].
    apply S2. replace (2 * (1 / (2 * na / wl))) with (wl / na) by (field; lra). exact Q2. }
  replace (1 / (2 * na / wl)) with (wl / (2 * na)) in N3 by (field; lra).
  assert (T0 : 0 < wl / (2 * na)) by (apply Rmult_lt_0_compat; [lra|apply Rinv_0_lt_compat; lra]).
  destruct (limit_cmp _ _ res T0 N3) as [L1 L2].
  unfold fl_res_refused. split; intros H; destruct (Rle_dec _ res) as [G|G]; try reflexivity; exfalso; [apply (L1 H G)|apply (G (L2 H))].
Qed.
Print Assumptions C100_res_limit.

(** ** zres is refused from wl / (2 ni) on, up to a relative 2^-49 *)
Theorem C100_zres_limit : forall ni wl zres : R, rng ni -> rng wl ->
  (zres <= (1 - bpow radix2 (-49)) * (wl / (2 * ni)) -> fl_zres_refused wl ni zres = false) /\
  ((1 + bpow radix2 (-49)) * (wl / (2 * ni)) <= zres -> fl_zres_refused wl ni zres = true).
Proof.
  intros ni wl zres Hni Hwl. pose proof (rng_pos _ Hni) as PA. pose proof (rng_pos _ Hwl) as PW.
  pose proof (quot_range _ _ Hwl Hni) as Q2. pose proof (bpow_pos (-200)) as P.
  assert (S2 : forall t, bpow radix2 (-200) <= 2 * t -> bpow radix2 (-1000) <= t).
  { intros t H. apply Rle_trans with (/ 2 * bpow radix2 (-200)); [|lra]. change (/ 2) with (bpow radix2 (-1)). rewrite <- bpow_plus. apply bpow_le. lia. }
  assert (N1 : near 2 (wl / 2) (rnd64 (wl / 2))).
  { replace 2 with (0 + 2) at 1 by ring. apply near_rnd_pos; [sm|apply near_refl; lra|]. apply S2. destruct Hwl as [A _]. apply Rle_trans with (bpow radix2 (-100)); [apply bpow_le; lia|]. replace (2 * (wl / 2)) with wl by field. exact A. }
  assert (N3 : near 5 (wl / 2 / ni) (rnd64 (rnd64 (wl / 2) / ni))).
  { replace 5 with (2 + 0 + 1 + 2) by ring. apply near_rnd_pos; [sm|apply near_div; [sm|sm|exact N1|apply near_refl; lra]|].
    apply S2. replace (2 * (wl / 2 / ni)) with (wl / ni) by (field; lra). exact Q2. }
  replace (wl / 2 / ni) with (wl / (2 * ni)) in N3 by (field; lra).
  assert (T0 : 0 < wl / (2 * ni)) by (apply Rmult_lt_0_compat; [lra|apply Rinv_0_lt_compat; lra]).
  destruct (limit_cmp _ _ zres T0 (near_weaken 5 8 _ _ ltac:(lra) N3)) as [L1 L2].
  unfold fl_zres_refused. split; intros H; destruct (Rle_dec _ zres) as [G|G]; try reflexivity; exfalso; [apply (L1 H G)|apply (G (L2 H))].
Qed.
Print Assumptions C100_zres_limit.

(** ** the aperture: na <= ni is never refused; na above ni is, from a relative 2^-49 on *)
Theorem C100_aperture_accepted : forall (sq : R -> R) (p : spar), monotone_square sq ->
  0 < s_wl p -> 0 <= s_na p <= s_ni p -> fl_aperture_refused sq p = false.
Proof.
  intros sq p Hm W [A1 A2]. unfold fl_aperture_refused. destruct (Rlt_dec _ 0) as [G|]; [exfalso|reflexivity]. revert G. apply Rle_not_lt. unfold fl_radicand. apply rnd64_nonneg.
  assert (X : 0 <= rnd64 (s_na p / s_wl p) <= rnd64 (s_ni p / s_wl p)).
  { split; [apply rnd64_nonneg; apply Rmult_le_pos; [lra|left; now apply Rinv_0_lt_compat]|apply rnd64_le; apply Rmult_le_compat_r; [left; now apply Rinv_0_lt_compat|exact A2]]. }
  apply Hm in X. lra.
Qed.
Print Assumptions C100_aperture_accepted.

Theorem C100_aperture_refused : forall (sq : R -> R) (p : spar), monotone_square sq -> accurate_square sq ->
  rng (s_wl p) -> rng (s_ni p) -> (1 + bpow radix2 (-49)) * s_ni p <= s_na p -> fl_aperture_refused sq p = true.
Proof.
  intros sq p Hm Ha W N A. pose proof (rng_pos _ W) as PW. pose proof (rng_pos _ N) as PN. destruct N as [N1 N2].
  set (p' := mkSpar (s_wl p) (s_ni p) (s_ni p) 1 3 1 3 (s_vec p) (s_cond p) (s_dual p)).
  assert (R1 : rng 1). { split; change 1 with (bpow radix2 0); apply bpow_le; lia. }
  assert (O : ordinary p') by (constructor; cbn; try lia; auto; split; auto; lra).
  assert (A' : s_ni p <= s_na p) by (pose proof (bpow_pos (-49)); nra).
  destruct (sq_near p' O sq Ha (s_ni p) N1) as [F1 (r & K1 & K2)]. destruct (sq_near p' O sq Ha (s_na p) ltac:(lra)) as [F2 (s & L1 & L2)].
  change (s_wl p') with (s_wl p) in *. unfold fl_aperture_refused, fl_radicand.
  destruct (rnd64_plus (sq (rnd64 (s_ni p / s_wl p))) (- sq (rnd64 (s_na p / s_wl p))) F1) as (e & He & Ee). { rewrite <- (rnd64_id _ F2), <- rnd64_opp. apply rnd64_float. }
  unfold Rminus. rewrite Ee, K2, L2. destruct (Rlt_dec _ 0) as [|G]; [reflexivity|exfalso; apply G; clear G].
  assert (Q : (1 + bpow radix2 (-49)) * (s_ni p / s_wl p) <= s_na p / s_wl p). { unfold Rdiv. rewrite <- Rmult_assoc. apply Rmult_le_compat_r; [left; now apply Rinv_0_lt_compat|exact A]. }
  assert (K0 : 0 < s_ni p / s_wl p) by (apply Rdiv_lt_0_compat; lra). rewrite e49 in Q.
  set (k := s_ni p / s_wl p) in *. set (q := s_na p / s_wl p) in *. clearbody k q. clear - K1 L1 He Q K0. pose proof uu_pos as U. apply err_bounds in He.
  assert (U2 : uu <= / 1000000) by (unfold uu; lra). set (u := uu) in *. clearbody u.
  assert (S1 : (1 + 32 * u) * (k * k) <= q * q). { assert (0 < k * k) by nra. assert ((1 + 16 * u) * k * ((1 + 16 * u) * k) <= q * q) by (apply Rmult_le_compat; nra). nra. }
  assert (KK : 0 < k * k) by nra. set (K := k * k) in *. set (Q2 := q * q) in *. clearbody K Q2.
  assert (D : K * r + - (Q2 * s) < 0).
  { assert (K * r <= K * (1 + 8 * u)) by (apply Rmult_le_compat_l; lra). assert ((1 + 32 * u) * K * (1 - 8 * u) <= Q2 * s) by (apply Rmult_le_compat; nra).
    assert (C : 1 + 8 * u < (1 + 32 * u) * (1 - 8 * u)) by nra. assert (K * (1 + 8 * u) < K * ((1 + 32 * u) * (1 - 8 * u))) by (apply Rmult_lt_compat_l; lra). lra. }
  assert (0 < 1 + e) by lra. nra.
Qed.
Print Assumptions C100_aperture_refused.

(** ** the valid points of the shell: the computed ones are the mathematical ones, except within 2^-46 of the shell's edge
    or 2^-23 of the polar limit (relative to the magnitudes involved) *)
Theorem C100_shell_inside : forall (sq : R -> R) (p : spar) (z y x : Z), monotone_square sq -> accurate_square sq -> ordinary p ->
  Rabs (s_kr p z y x - s_ni p / s_wl p) <= s_dkr p z y x - bpow radix2 (-46) * (s_kr p z y x + s_ni p / s_wl p + s_dkr p z y x) ->
  s_kz_min p + s_dkr p z y x + bpow radix2 (-23) * (s_ni p / s_wl p + s_dkr p z y x + Rabs (skz p z)) <= s_kzz p z ->
  fl_valid sq p z y x = true /\ s_valid p z y x = true.
Proof. intros sq p z y x Hm Ha O H1 H2. apply (deep_valid p O sq Hm Ha). split; [exact H1|exact H2]. Qed.
Print Assumptions C100_shell_inside.
Theorem C100_shell_outside : forall (sq : R -> R) (p : spar) (z y x : Z), monotone_square sq -> accurate_square sq -> ordinary p ->
  s_dkr p z y x + bpow radix2 (-46) * (s_kr p z y x + s_ni p / s_wl p + s_dkr p z y x) <= Rabs (s_kr p z y x - s_ni p / s_wl p) \/
  s_kzz p z <= s_kz_min p + s_dkr p z y x - bpow radix2 (-23) * (s_ni p / s_wl p + s_dkr p z y x + Rabs (skz p z)) ->
  fl_valid sq p z y x = false /\ s_valid p z y x = false.
Proof. intros sq p z y x Hm Ha O H. apply (off_invalid p O sq Hm Ha). exact H. Qed.
Print Assumptions C100_shell_outside.

(** ** whatever the rounding, the computed shell is symmetric under reflection of y and of x, and of z for a dual PSF *)
Lemma fl_norm3_sgn a b c a' b' c' : a' = - a \/ a' = a -> b' = - b \/ b' = b -> c' = - c \/ c' = c -> fl_norm3 a' b' c' = fl_norm3 a b c.
Proof. assert (E : forall t, - t * - t = t * t) by (intros; ring). intros [-> | ->] [-> | ->] [-> | ->]; unfold fl_norm3; now rewrite ?E. Qed.
Lemma rnd_sgn a a' d : a' = - a \/ a' = a -> rnd64 (a' * d) = - rnd64 (a * d) \/ rnd64 (a' * d) = rnd64 (a * d).
Proof. intros [-> | ->]; [left|now right]. rewrite <- rnd64_opp. f_equal. ring. Qed.
Lemma neg_zero n i : (0 < n)%Z -> (0 <= i < n)%Z -> (((n - i) mod n =? 0)%Z = (i =? 0)%Z).
Proof.
  intros Hn Hi. destruct (Z.eqb_spec i 0) as [-> |E]; [rewrite Z.sub_0_r, Z_mod_same_full; reflexivity|]. rewrite Z.mod_small by lia. apply Z.eqb_neq. lia.
Qed.
Theorem C100_shell_symmetric : forall (sq : R -> R) (p : spar) (z y x : Z),
  (0 <= z < s_zsize p)%Z -> (0 <= y < s_size p)%Z -> (0 <= x < s_size p)%Z ->
  fl_valid sq p z ((s_size p - y) mod s_size p) x = fl_valid sq p z y x /\
  fl_valid sq p z y ((s_size p - x) mod s_size p) = fl_valid sq p z y x /\
  (s_dual p = true -> fl_valid sq p ((s_zsize p - z) mod s_zsize p) y x = fl_valid sq p z y x).
Proof.
  intros sq p z y x Hz Hy Hx.
  assert (G : forall z' y' x', (fl_skz p z' = - fl_skz p z \/ fl_skz p z' = fl_skz p z) -> (fl_sk p y' = - fl_sk p y \/ fl_sk p y' = fl_sk p y) -> (fl_sk p x' = - fl_sk p x \/ fl_sk p x' = fl_sk p x) ->
    (z' =? 0)%Z = (z =? 0)%Z -> (y' =? 0)%Z = (y =? 0)%Z -> (x' =? 0)%Z = (x =? 0)%Z -> fl_kzz p z' = fl_kzz p z -> fl_valid sq p z' y' x' = fl_valid sq p z y x).
  { intros z' y' x' Ez Ey Ex Bz By Bx K. assert (S : fl_skr p z' y' x' = fl_skr p z y x) by (apply fl_norm3_sgn; auto).
    assert (D : fl_dkr p z' y' x' = fl_dkr p z y x). { unfold fl_dkr. rewrite Bz, By, Bx, S. rewrite (fl_norm3_sgn (rnd64 (fl_skz p z * fl_dkz p)) (rnd64 (fl_sk p y * fl_dk p)) (rnd64 (fl_sk p x * fl_dk p))); [reflexivity| | |]; now apply rnd_sgn. }
    unfold fl_valid. now rewrite S, D, K. }
  split; [|split; [|intros Du]]; apply G; auto; try (apply fl_fftfreq_neg; lia); try (apply neg_zero; lia).
  unfold fl_kzz. rewrite Du. destruct (fl_fftfreq_neg (s_zsize p) (s_zres p) z ltac:(lia) Hz) as [E|E]; unfold fl_skz; rewrite E; [apply Rabs_Ropp|reflexivity].
Qed.
Print Assumptions C100_shell_symmetric.

(** *** the hypotheses are met *)
Definition round_square (x : R) : R := rnd64 (x * x).
Example square_monotone : monotone_square round_square.
Proof. intros x y H. unfold round_square. split; [apply rnd64_nonneg; nra|apply rnd64_le; nra]. Qed.
Example square_accurate : accurate_square round_square.
Proof.
  intros x H. unfold round_square. split; [apply rnd64_float|]. pose proof (bpow_pos (-1022)).
  destruct (rnd64_rel (x * x)) as (e & He & ->); [rewrite Rabs_pos_eq; lra|].
  replace (x * x * (1 + e) - x * x) with (e * (x * x)) by ring. rewrite Rabs_mult, (Rabs_pos_eq (x * x)) by lra. apply Rmult_le_compat_r; [lra|].
  rewrite bpow_52. pose proof uu_pos. lra.
Qed.
(** wavelength 1, index 2, aperture 8/5, 16 pixels of 1/8 *)
Definition par : spar := mkSpar 1 (8 / 5) 2 (1 / 8) 16 (1 / 8) 16 VecNone CondSine false.
Lemma par_dk : s_dk par = 1 / 2 /\ s_dkz par = 1 / 2.
Proof. unfold s_dk, s_dkz, sk, skz, fftfreq. cbn [par s_size s_zsize s_res s_zres]. change (fftfreq_ix 16 1) with 1%Z. change (fftfreq_ix 16 0) with 0%Z. lra. Qed.
Lemma par_dkr z y x : s_dkr par z y x = 1 / 2.
Proof. destruct par_dk as [A B]. unfold s_dkr. rewrite A, B. destruct (Req_EM_T (1 / 2) (1 / 2)); [reflexivity|contradiction]. Qed.
Lemma par_min : s_kz_min par = 6 / 5.
Proof. unfold s_kz_min, s_kmag. cbn [par s_ni s_wl s_na]. replace ((2 / 1) ^ 2 - (8 / 5 / 1) ^ 2) with (6 / 5 * (6 / 5)) by field. apply sqrt_square. lra. Qed.
Example par_ordinary : ordinary par.
Proof.
  assert (R : forall a b v, (-100 <= a)%Z -> (b <= 100)%Z -> bpow radix2 a <= v <= bpow radix2 b -> rng v).
  { intros a b v Ha Hb [V1 V2]. split; [eapply Rle_trans; [|exact V1]|eapply Rle_trans; [exact V2|]]; apply bpow_le; lia. }
  constructor; cbn [par s_size s_zsize s_res s_zres s_wl s_ni s_na]; try lia.
  1,2: apply (R (-3) 0)%Z; [lia|lia|cbn; lra]. 1: apply (R 0 1)%Z; [lia|lia|cbn; lra]. 1: apply (R 0 1)%Z; [lia|lia|cbn; lra].
  split; [|lra]. apply Rle_trans with (bpow radix2 0); [apply bpow_le; lia|cbn; lra].
Qed.
(** a point inside the shell ... *)
Example par_inside : fl_valid round_square par 4 0 0 = true /\ s_valid par 4 0 0 = true.
Proof.
  assert (Z : skz par 4 = 2). { unfold skz, fftfreq. cbn [par s_zsize s_zres]. change (fftfreq_ix 16 4) with 4%Z. lra. }
  assert (Y : sk par 0 = 0). { unfold sk, fftfreq. change (fftfreq_ix (s_size par) 0) with 0%Z. change (IZR 0) with 0. ring. }
  assert (K : s_kr par 4 0 0 = 2). { unfold s_kr. rewrite Z, Y. replace (2 ^ 2 + 0 ^ 2 + 0 ^ 2) with (2 * 2) by ring. apply sqrt_square. lra. }
  apply C100_shell_inside; [apply square_monotone|apply square_accurate|apply par_ordinary| |]; rewrite ?K, par_dkr; cbn [par s_ni s_wl].
  - rewrite Rabs_pos_eq by lra. change (bpow radix2 (-46)) with (/ 70368744177664). lra.
  - fold par. unfold s_kzz. cbn [par s_dual]. fold par. rewrite Z, par_min, Rabs_pos_eq by lra. change (bpow radix2 (-23)) with (/ 8388608). lra.
Qed.
(** ... and one outside *)
Example par_outside : fl_valid round_square par 0 4 0 = false /\ s_valid par 0 4 0 = false.
Proof.
  assert (Z : skz par 0 = 0). { unfold skz, fftfreq. change (fftfreq_ix (s_zsize par) 0) with 0%Z. change (IZR 0) with 0. ring. }
  apply C100_shell_outside; [apply square_monotone|apply square_accurate|apply par_ordinary|right].
  rewrite par_dkr, par_min. unfold s_kzz. cbn [par s_dual s_ni s_wl]. fold par. rewrite Z, Rabs_R0. change (bpow radix2 (-23)) with (/ 8388608). lra.
Qed.
(** an aperture accepted, one refused *)
Example par_aperture : fl_aperture_refused round_square par = false.
Proof. apply C100_aperture_accepted; [apply square_monotone| |]; cbn [par s_wl s_na s_ni]; lra. Qed.
Example par_aperture_refused : fl_aperture_refused round_square (mkSpar 1 (21 / 10) 2 (1 / 8) 16 (1 / 8) 16 VecNone CondSine false) = true.
Proof.
  pose proof par_ordinary as [_ _ _ _ W N _]. apply C100_aperture_refused; [apply square_monotone|apply square_accurate|exact W|exact N|].
  cbn [s_ni s_na]. change (bpow radix2 (-49)) with (/ 562949953421312). lra.
Qed.
