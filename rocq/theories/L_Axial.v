(** The axial width of a plot in binary64. *)
From Verif Require Import M_Float3 S_Float S_Float2 S_Float3 L_Float L_Float3 L_Near L_Noll L_Shell L_Rint T_Float2.
From Flocq Require Import Core.
From Coq Require Import Lra Lia.
Local Open Scope R_scope.

Lemma tiny_t : bpow radix2 (-1075) <= uu * bpow radix2 (-200).
Proof. unfold uu. change (/ 9007199254740992) with (bpow radix2 (-53)). rewrite <- bpow_plus. apply bpow_le. lia. Qed.
Section A.
Context (sq : R -> R) (Hm : monotone_square sq) (Ha : accurate_square sq).
Context (ni na : R) (Hni : rng ni) (Hna : ni / 1024 <= na <= ni).
Let d := sqrt (ni ^ 2 - na ^ 2).
Let s' := sqrt (rnd64 (sq ni - sq na)).
Let P : 0 < ni. Proof. now apply rng_pos. Qed.
Let Q : bpow radix2 (-110) <= na.
Proof. destruct Hni as [A _]. apply Rle_trans with (ni / 1024); [|lra]. change (-110)%Z with (-100 - 10)%Z. apply big_div; [exact A|]. change (bpow radix2 10) with 1024. lra. Qed.
Lemma sq_err x : bpow radix2 (-110) <= x -> is_float (sq x) /\ Rabs (sq x - x * x) <= 2 * uu * (x * x).
Proof.
  intros Hx. rewrite <- bpow_52. apply Ha. apply Rle_trans with (bpow radix2 (-220)); [apply bpow_le; lia|]. change (-220)%Z with (-110 + -110)%Z. rewrite bpow_plus.
  apply Rmult_le_compat; auto using bpow_ge_0.
Qed.
Lemma rad_err : 0 <= rnd64 (sq ni - sq na) /\ Rabs (rnd64 (sq ni - sq na) - (ni ^ 2 - na ^ 2)) <= 6 * uu * (ni * ni).
Proof.
  pose proof (bpow_pos (-110)) as Z. destruct (sq_err na Q) as [F1 E1]. destruct (sq_err ni ltac:(lra)) as [F2 E2].
  assert (M : 0 <= sq na <= sq ni) by (apply Hm; lra).
  split; [apply rnd64_nonneg; lra|]. unfold Rminus. destruct (rnd64_plus (sq ni) (- sq na) F2) as (e & He & ->). { rewrite <- (rnd64_id _ F1), <- rnd64_opp. apply rnd64_float. }
  apply err_bounds in He. apply Rabs_le_inv in E1, E2. pose proof uu_pos as U. assert (NN : na * na <= ni * ni) by (apply Rmult_le_compat; lra). assert (0 <= na * na) by nra.
  replace (ni ^ 2) with (ni * ni) by ring. replace (na ^ 2) with (na * na) by ring.
  set (X := ni * ni) in *. set (Y := na * na) in *. set (a := sq ni) in *. set (b := sq na) in *. clearbody X Y a b.
  assert (T : - (uu * (a - b)) <= (a + - b) * (1 + e) - (a + - b) <= uu * (a - b)) by (split; nra).
  assert (uu * (a - b) <= 2 * uu * X) by nra. apply Rabs_le. split; nra.
Qed.
Lemma d_facts : 0 <= d <= ni /\ d * d = ni ^ 2 - na ^ 2 /\ ni / 2097152 <= ni - d.
Proof.
  assert (R0 : 0 <= ni ^ 2 - na ^ 2) by nra. assert (D0 : 0 <= d) by apply sqrt_pos. assert (DD : d * d = ni ^ 2 - na ^ 2) by (apply sqrt_sqrt, R0).
  assert (D1 : d <= ni) by nra. split; [lra|split; [exact DD|]].
  assert (E : (ni - d) * (ni + d) = na * na) by (rewrite <- (Rplus_0_r (na * na)); replace ((ni - d) * (ni + d)) with (ni ^ 2 - d * d) by ring; rewrite DD; ring).
  assert (N2 : ni / 1024 * (ni / 1024) <= na * na) by (apply Rmult_le_compat; lra).
  apply Rmult_le_reg_r with (ni + d); [lra|]. rewrite E. nra.
Qed.
Lemma s_err : Rabs (rnd64 s' - d) <= (ni - d) / 8388608.
Proof.
  destruct rad_err as [R0 R1]. destruct d_facts as ([D0 D1] & DD & D2). pose proof uu_pos as U. fold d.
  assert (S0 : 0 <= s') by apply sqrt_pos. assert (SS : s' * s' = rnd64 (sq ni - sq na)) by (apply sqrt_sqrt, R0).
  rewrite <- DD in R1. rewrite <- SS in R1.
  assert (S1 : s' <= 2 * ni). { apply Rabs_le_inv in R1. assert (d * d <= ni * ni) by nra. apply Rnot_lt_le. intros C. assert (4 * (ni * ni) < s' * s') by nra. assert (6 * uu * (ni * ni) <= ni * ni) by nra. lra. }
  assert (E0 : Rabs (rnd64 s' - s') <= 3 * uu * ni).
  { destruct (rnd64_any s') as (e & t & He & Ht & ->). pose proof tiny_t as T. assert (bpow radix2 (-200) <= ni) by (apply Rle_trans with (bpow radix2 (-100)); [apply bpow_le; lia|apply Hni]).
    assert (Rabs t <= uu * ni) by nra. replace (s' * (1 + e) + t - s') with (s' * e + t) by ring. eapply Rle_trans; [apply Rabs_triang|]. rewrite Rabs_mult, (Rabs_pos_eq s') by lra.
    assert (s' * Rabs e <= 2 * ni * uu) by (apply Rmult_le_compat; try lra; apply Rabs_pos). lra. }
  assert (E1 : Rabs (s' - d) <= (ni - d) / 8388608 - 3 * uu * ni).
  { assert (U53 : uu = / 9007199254740992) by reflexivity. destruct (Rle_lt_dec (ni / 2) d) as [C|C].
    - assert (Rabs (s' - d) <= 12 * uu * ni).
      { apply Rmult_le_reg_r with (s' + d); [lra|]. rewrite <- (Rabs_pos_eq (s' + d)) at 1 by lra. rewrite <- Rabs_mult. replace ((s' - d) * (s' + d)) with (s' * s' - d * d) by ring.
        eapply Rle_trans; [exact R1|]. nra. }
      rewrite U53 in *. lra.
    - assert (Rabs (s' - d) <= ni / 33554432).
      { unfold s', d. apply sqrt_close; [exact R0|rewrite <- DD; nra|lra|]. rewrite <- SS, <- DD. eapply Rle_trans; [exact R1|]. rewrite U53. nra. }
      rewrite U53 in *. lra. }
  replace (rnd64 s' - d) with ((rnd64 s' - s') + (s' - d)) by ring. eapply Rle_trans; [apply Rabs_triang|]. lra.
Qed.
Lemma depth_err : exists r, 1 - / 4194304 <= r <= 1 + / 4194304 /\ rnd64 (ni - rnd64 s') = (ni - d) * r.
Proof.
  pose proof s_err as E. destruct d_facts as ([D0 D1] & DD & D2). pose proof uu_pos as U. assert (U53 : uu = / 9007199254740992) by reflexivity.
  destruct (rnd64_any (ni - rnd64 s')) as (e & t & He & Ht & ->). pose proof tiny_t as T. assert (bpow radix2 (-200) <= ni) by (apply Rle_trans with (bpow radix2 (-100)); [apply bpow_le; lia|apply Hni]).
  assert (Rabs t <= uu * ni) by nra. assert (e0 : 0 < ni - d) by lra.
  exists (((ni - rnd64 s') * (1 + e) + t) / (ni - d)). split; [|field; lra].
  apply Rabs_le_inv in E, H0. apply err_bounds in He. set (z := ni - d) in *. set (v := ni - rnd64 s') in *. assert (V : z * (1 - / 8388608) <= v <= z * (1 + / 8388608)) by (unfold v, z in *; lra).
  assert (N : ni <= 2097152 * z) by lra. clearbody z v.
  assert (V1 : z * (1 - / 8388608) * (1 - uu) <= v * (1 + e) <= z * (1 + / 8388608) * (1 + uu)) by (split; apply Rmult_le_compat; nra).
  rewrite U53 in *. split; (apply Rmult_le_reg_r with z; [exact e0|]); unfold Rdiv; rewrite Rmult_assoc, Rinv_l by lra; lra.
Qed.
Lemma axial_near wl px : rng wl -> rng px -> Rabs (fl_axial sq wl na ni px - axial_width wl na ni px) <= bpow radix2 (-20) * axial_width wl na ni px /\ 0 < axial_width wl na ni px.
Proof.
  intros Hw Hp. destruct depth_err as (r & Hr & E). destruct d_facts as ([D0 D1] & DD & D2). pose proof (rng_pos _ Hw) as PW. pose proof (rng_pos _ Hp) as PP.
  unfold fl_axial. fold s'. rewrite E. unfold axial_width. fold d. set (z := ni - d) in *. assert (z0 : 0 < z) by lra.
  assert (Z : 0 < z * r <= bpow radix2 101). { split; [apply Rmult_lt_0_compat; lra|]. change 101%Z with (100 + 1)%Z. rewrite bpow_plus. change (bpow radix2 1) with 2. destruct Hni as [_ A]. apply Rmult_le_compat; unfold z; lra. }
  assert (B1 : big (-201) (wl / (z * r))) by (apply (big_div (-100) 101); [now apply rng_big|exact Z]).
  assert (B2 : big (-301) (wl / (z * r) / px)) by (apply (rng_div _ _ (-201)); auto).
  assert (B3 : big (-301) (wl / (z * r) / px * 16)) by (apply (big_mult (-301) 0); [exact B2|unfold big; change (bpow radix2 0) with 1; lra]).
  assert (N : near 9 (wl / (z * r) / px * 16) (rnd64 (rnd64 (rnd64 (wl / (z * r)) / px) * 16))).
  { replace 9 with (6 + 0 + 3) by ring. apply step_mult; try stp. replace 6 with (3 + 3) by ring. apply (div_exact 3 100); try stp. replace 3 with (0 + 3) at 1 by ring. apply (div_exact 0 101); try stp. }
  replace (16 * (wl / z / px)) with (wl / (z * r) / px * 16 * r) by (field; lra).
  pose proof (big_pos _ _ B3) as X0. set (X := wl / (z * r) / px * 16) in *. clearbody X. destruct N as (q & Hq & ->). pose proof uu_pos as U. assert (U53 : uu = / 9007199254740992) by reflexivity.
  change (bpow radix2 (-20)) with (/ 1048576). split; [|apply Rmult_lt_0_compat; lra]. replace (X * q - X * r) with (X * (q - r)) by ring. rewrite Rabs_mult, (Rabs_pos_eq X) by lra.
  replace (/ 1048576 * (X * r)) with (X * (/ 1048576 * r)) by ring. apply Rmult_le_compat_l; [lra|]. rewrite U53 in *. apply Rabs_le. lra.
Qed.
End A.
