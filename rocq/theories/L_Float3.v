From Verif Require Import M_Float S_Float L_Float L_Noll L_Array L_Sum L_Hanser.
From Flocq Require Import Core.
From Coq Require Import Lra Lia.
Local Open Scope R_scope.

(** ** Passband *)
Lemma bpow_pos e : 0 < bpow radix2 e.
Proof. apply bpow_gt_0. Qed.
Lemma err_bounds e : Rabs e <= uu -> 1 - uu <= 1 + e <= 1 + uu.
Proof. intros H. apply Rabs_le_inv in H. lra. Qed.
Lemma uu_cube : 0 < uu /\ uu <= / 1000.
Proof. pose proof uu_pos. lra. Qed.
Lemma ratio_bounds e1 e2 e3 : Rabs e1 <= uu -> Rabs e2 <= uu -> Rabs e3 <= uu ->
  1 - 3 * uu <= (1 + e2) / (1 + e1) * (1 + e3) <= 1 + 7 / 2 * uu.
Proof.
  intros H1 H2 H3. apply err_bounds in H1, H2, H3. destruct uu_cube as [U0 U1]. set (u := uu) in *. clearbody u.
  assert (P : 0 < 1 + e1) by lra. assert (I1 : / (1 + u) <= / (1 + e1)) by (apply Rinv_le_contravar; lra). assert (I2 : / (1 + e1) <= / (1 - u)) by (apply Rinv_le_contravar; lra).
  assert (J1 : 0 < / (1 + u)) by (apply Rinv_0_lt_compat; lra).
  assert (N : (1 - u) * (1 - u) <= (1 + e2) * (1 + e3) <= (1 + u) * (1 + u)) by nra.
  replace ((1 + e2) / (1 + e1) * (1 + e3)) with ((1 + e2) * (1 + e3) * / (1 + e1)) by (unfold Rdiv; ring).
  assert (K0 : 0 < / (1 + e1)) by (now apply Rinv_0_lt_compat). split.
  - apply Rle_trans with ((1 - u) * (1 - u) * / (1 + u)).
    + apply Rmult_le_reg_r with (1 + u); [lra|]. rewrite Rmult_assoc, Rinv_l by lra. nra.
    + apply Rle_trans with ((1 - u) * (1 - u) * / (1 + e1)); nra.
  - apply Rle_trans with ((1 + u) * (1 + u) * / (1 - u)).
    + apply Rle_trans with ((1 + u) * (1 + u) * / (1 + e1)); nra.
    + apply Rmult_le_reg_r with (1 - u); [lra|]. rewrite Rmult_assoc, Rinv_l by lra. nra.
Qed.

Lemma fl_fftfreq_0 n d i : fftfreq_ix n i = 0%Z -> fl_fftfreq n d i = 0 /\ fftfreq n d i = 0.
Proof. intros E. unfold fl_fftfreq, fftfreq. rewrite E. change (IZR 0) with 0. rewrite !Rmult_0_l, rnd64_0. auto. Qed.
Lemma fl_fftfreq_rel n d i : (1 <= n <= 2 ^ 53)%Z -> bpow radix2 (-500) <= d <= bpow radix2 500 ->
  exists r, 1 - 3 * uu <= r <= 1 + 7 / 2 * uu /\ fl_fftfreq n d i = fftfreq n d i * r.
Proof.
  intros Hn Hd. destruct uu_cube as [U0 U1]. destruct (Z.eq_dec (fftfreq_ix n i) 0) as [E|E].
  { destruct (fl_fftfreq_0 n d i E) as [-> ->]. exists 1. split; [lra|ring]. }
  assert (N1 : 1 <= IZR n <= bpow radix2 53). { split; [apply IZR_le; lia|]. change (bpow radix2 53) with (IZR (2 ^ 53)). apply IZR_le. lia. }
  assert (F1 : 1 <= Rabs (IZR (fftfreq_ix n i))). { rewrite <- abs_IZR. apply IZR_le. lia. }
  pose proof (bpow_pos (-500)) as P500.
  assert (A1 : bpow radix2 (-500) <= IZR n * d <= bpow radix2 553). { change 553%Z with (53 + 500)%Z. rewrite bpow_plus. split; [nra|]. apply Rmult_le_compat; lra. }
  destruct (rnd64_rel (IZR n * d)) as (e1 & H1 & R1). { rewrite Rabs_pos_eq by lra. eapply Rle_trans; [|apply A1]. apply bpow_le. lia. }
  pose proof (err_bounds _ H1) as B1.
  assert (Q0 : 0 < IZR n * d) by lra. assert (Q1 : 0 < IZR n * d * (1 + e1)) by (apply Rmult_lt_0_compat; lra).
  assert (A2 : bpow radix2 (-554) <= 1 / (IZR n * d * (1 + e1))).
  { unfold Rdiv. rewrite Rmult_1_l. apply Rmult_le_reg_r with (IZR n * d * (1 + e1)); [exact Q1|]. rewrite Rinv_l by lra.
    apply Rle_trans with (bpow radix2 (-554) * bpow radix2 554); [|rewrite <- bpow_plus; cbn; lra].
    apply Rmult_le_compat_l; [apply bpow_ge_0|]. change 554%Z with (553 + 1)%Z. rewrite bpow_plus. change (bpow radix2 1) with 2. pose proof (bpow_pos 553). nra. }
  destruct (rnd64_rel (1 / rnd64 (IZR n * d))) as (e2 & H2 & R2).
  { rewrite R1. rewrite Rabs_pos_eq; [|eapply Rle_trans; [apply bpow_ge_0|exact A2]]. eapply Rle_trans; [|exact A2]. apply bpow_le. lia. }
  pose proof (err_bounds _ H2) as B2.
  assert (A3 : bpow radix2 (-555) <= rnd64 (1 / rnd64 (IZR n * d))).
  { rewrite R2, R1. change (-555)%Z with (-554 + -1)%Z. rewrite bpow_plus. change (bpow radix2 (-1)) with (/ 2). pose proof (bpow_pos (-554)). nra. }
  pose proof (bpow_pos (-555)) as P555.
  destruct (rnd64_rel (IZR (fftfreq_ix n i) * rnd64 (1 / rnd64 (IZR n * d)))) as (e3 & H3 & R3).
  { rewrite Rabs_mult, (Rabs_pos_eq (rnd64 _)) by lra. apply Rle_trans with (bpow radix2 (-555)); [apply bpow_le; lia|]. nra. }
  exists ((1 + e2) / (1 + e1) * (1 + e3)). split; [now apply ratio_bounds|].
  unfold fl_fftfreq, fftfreq. rewrite R3, R2, R1. field. lra.
Qed.

Lemma hyp_scale a b ra rb lo hi : 0 <= lo -> lo <= ra <= hi -> lo <= rb <= hi ->
  lo * sqrt (a * a + b * b) <= sqrt (a * ra * (a * ra) + b * rb * (b * rb)) <= hi * sqrt (a * a + b * b).
Proof.
  intros L A B. assert (Q : 0 <= a * a + b * b) by nra.
  assert (SA : lo * lo <= ra * ra <= hi * hi) by (split; nra). assert (SB : lo * lo <= rb * rb <= hi * hi) by (split; nra).
  assert (XA : 0 <= a * a) by nra. assert (XB : 0 <= b * b) by nra.
  split.
  - rewrite <- (sqrt_square lo) at 1 by exact L. rewrite <- sqrt_mult by nra. apply sqrt_le_1_alt. nra.
  - rewrite <- (sqrt_square hi) at 1 by lra. rewrite <- sqrt_mult by nra. apply sqrt_le_1_alt. nra.
Qed.

Lemma fl_kr_bounds hyp h y x : accurate_hypot hyp -> (1 <= h_size h <= 2 ^ 53)%Z -> bpow radix2 (-500) <= h_res h <= bpow radix2 500 ->
  let K := hyp (fl_fftfreq (h_size h) (h_res h) y) (fl_fftfreq (h_size h) (h_res h) x) in
  (1 - 3 * uu) * (1 - 2 * uu) * h_kr h y x <= K <= (1 + 7 / 2 * uu) * (1 + 2 * uu) * h_kr h y x.
Proof.
  intros [Z A] Hn Hd. destruct uu_cube as [U0 U1].
  destruct (fl_fftfreq_rel (h_size h) (h_res h) y Hn Hd) as (ry & By & Ey). destruct (fl_fftfreq_rel (h_size h) (h_res h) x Hn Hd) as (rx & Bx & Ex).
  cbv zeta. change (h_kr h y x) with (sqrt (hk h y * hk h y + hk h x * hk h x)). unfold hk.
  set (a := fftfreq (h_size h) (h_res h) y) in *. set (b := fftfreq (h_size h) (h_res h) x) in *. rewrite Ey, Ex.
  destruct (hyp_scale a b ry rx (1 - 3 * uu) (1 + 7 / 2 * uu) ltac:(lra) By Bx) as [S1 S2].
  set (s := sqrt (a * a + b * b)) in *. set (s' := sqrt (a * ry * (a * ry) + b * rx * (b * rx))) in *. assert (s0 : 0 <= s) by apply sqrt_pos.
  destruct (Req_EM_T s 0) as [E0|N0].
  - assert (a = 0 /\ b = 0) as [E1 E2].
    { apply sqrt_eq_0 in E0; [|nra]. split; nra. }
    rewrite E0, E1, E2, !Rmult_0_l, Z. lra.
  - (* some frequency index is not zero, so s is at least the grid spacing *)
    assert (M : bpow radix2 (-1021) <= s).
    { assert (N1 : 1 <= IZR (h_size h) <= bpow radix2 53). { split; [apply IZR_le; lia|]. change (bpow radix2 53) with (IZR (2 ^ 53)). apply IZR_le. lia. }
      pose proof (bpow_pos (-500)).
      assert (G : bpow radix2 (-553) <= 1 / (IZR (h_size h) * h_res h)).
      { unfold Rdiv. rewrite Rmult_1_l. apply Rmult_le_reg_r with (IZR (h_size h) * h_res h); [nra|]. rewrite Rinv_l by nra.
        apply Rle_trans with (bpow radix2 (-553) * bpow radix2 553); [|rewrite <- bpow_plus; cbn; lra].
        apply Rmult_le_compat_l; [apply bpow_ge_0|]. change 553%Z with (53 + 500)%Z. rewrite bpow_plus. apply Rmult_le_compat; lra. }
      apply Rle_trans with (bpow radix2 (-553)); [apply bpow_le; lia|].
      pose proof (bpow_pos (-553)) as P553.
      assert (W : forall i, fftfreq (h_size h) (h_res h) i = 0 \/ bpow radix2 (-553) <= Rabs (fftfreq (h_size h) (h_res h) i)).
      { intros i. unfold fftfreq. destruct (Z.eq_dec (fftfreq_ix (h_size h) i) 0) as [E|E]; [left; rewrite E; change (IZR 0) with 0; ring|right].
        rewrite Rabs_mult, (Rabs_pos_eq (1 / _)) by lra. assert (1 <= Rabs (IZR (fftfreq_ix (h_size h) i))) by (rewrite <- abs_IZR; apply IZR_le; lia). nra. }
      assert (Sa : Rabs a <= s) by (rewrite <- sqrt_Rsqr_abs; apply sqrt_le_1_alt; unfold Rsqr; nra).
      assert (Sb : Rabs b <= s) by (rewrite <- sqrt_Rsqr_abs; apply sqrt_le_1_alt; unfold Rsqr; nra).
      destruct (W y) as [Wy|Wy]; [|fold a in Wy; lra]. destruct (W x) as [Wx|Wx]; [|fold b in Wx; lra].
      exfalso. apply N0. unfold s. fold a in Wy. fold b in Wx. rewrite Wy, Wx. rewrite Rmult_0_l, Rplus_0_l. apply sqrt_0. }
    assert (M' : bpow radix2 (-1022) <= s').
    { change (-1021)%Z with (-1022 + 1)%Z in M. rewrite bpow_plus in M. change (bpow radix2 1) with 2 in M. pose proof (bpow_pos (-1022)). nra. }
    specialize (A _ _ M'). fold s' in A. rewrite bpow_52 in A. apply Rabs_le_inv in A. assert (0 <= s') by apply sqrt_pos. nra.
Qed.

Lemma fl_passband_in hyp h y x : accurate_hypot hyp -> (1 <= h_size h <= 2 ^ 53)%Z -> bpow radix2 (-500) <= h_res h <= bpow radix2 500 ->
  bpow radix2 (-1000) <= h_na h / h_wl h -> h_kr h y x <= (1 - bpow radix2 (-50)) * (h_na h / h_wl h) -> fl_passband hyp h y x = true.
Proof.
  intros A Hn Hd HT K. destruct (fl_kr_bounds hyp h y x A Hn Hd) as [_ B]. unfold fl_passband. destruct (Rlt_dec _ _) as [|C]; [reflexivity|]. exfalso. apply C. clear C.
  eapply Rle_lt_trans; [exact B|]. set (T := h_na h / h_wl h) in *. pose proof (bpow_pos (-1000)).
  destruct (rnd64_rel T) as (e & He & ->). { rewrite Rabs_pos_eq by lra. eapply Rle_trans; [|exact HT]. apply bpow_le. lia. }
  apply err_bounds in He. destruct uu_cube as [U0 U1]. assert (E : bpow radix2 (-50) = 8 * uu) by (unfold uu; change (bpow radix2 (-50)) with (/ 1125899906842624); lra). rewrite E in K.
  assert (0 <= h_kr h y x) by apply sqrt_pos. set (u := uu) in *. clearbody u. set (k := h_kr h y x) in *. clearbody k. clearbody T.
  assert ((1 + 7 / 2 * u) * (1 + 2 * u) * k <= (1 + 7 / 2 * u) * (1 + 2 * u) * ((1 - 8 * u) * T)) by (apply Rmult_le_compat_l; nra).
  assert ((1 + 7 / 2 * u) * (1 + 2 * u) * (1 - 8 * u) < 1 - u) by nra. nra.
Qed.
Lemma fl_passband_out hyp h y x : accurate_hypot hyp -> (1 <= h_size h <= 2 ^ 53)%Z -> bpow radix2 (-500) <= h_res h <= bpow radix2 500 ->
  bpow radix2 (-1000) <= h_na h / h_wl h -> (1 + bpow radix2 (-50)) * (h_na h / h_wl h) <= h_kr h y x -> fl_passband hyp h y x = false.
Proof.
  intros A Hn Hd HT K. destruct (fl_kr_bounds hyp h y x A Hn Hd) as [B _]. unfold fl_passband. destruct (Rlt_dec _ _) as [C|]; [|reflexivity]. exfalso. revert C. apply Rle_not_lt.
  eapply Rle_trans; [|exact B]. set (T := h_na h / h_wl h) in *. pose proof (bpow_pos (-1000)).
  destruct (rnd64_rel T) as (e & He & ->). { rewrite Rabs_pos_eq by lra. eapply Rle_trans; [|exact HT]. apply bpow_le. lia. }
  apply err_bounds in He. destruct uu_cube as [U0 U1]. assert (E : bpow radix2 (-50) = 8 * uu) by (unfold uu; change (bpow radix2 (-50)) with (/ 1125899906842624); lra). rewrite E in K.
  set (u := uu) in *. clearbody u. set (k := h_kr h y x) in *. clearbody k. clearbody T.
  assert ((1 - 3 * u) * (1 - 2 * u) * ((1 + 8 * u) * T) <= (1 - 3 * u) * (1 - 2 * u) * k) by (apply Rmult_le_compat_l; nra).
  assert (1 + u <= (1 - 3 * u) * (1 - 2 * u) * (1 + 8 * u)) by nra. nra.
Qed.
Lemma ffx n i : (0 < n)%Z -> fftfreq_ix n i = (if 2 * i <? n then i else i - n)%Z.
Proof.
  intros Hn. unfold fftfreq_ix. pose proof (Z.div_mod (n - 1) 2 ltac:(lia)). pose proof (Z.mod_pos_bound (n - 1) 2 ltac:(lia)).
  pose proof (Z.div_mod n 2 ltac:(lia)). pose proof (Z.mod_pos_bound n 2 ltac:(lia)).
  destruct (Z.ltb_spec i ((n - 1) / 2 + 1)), (Z.ltb_spec (2 * i) n); lia.
Qed.
Lemma fl_fftfreq_neg n d i : (0 < n)%Z -> (0 <= i < n)%Z ->
  fl_fftfreq n d ((n - i) mod n) = - fl_fftfreq n d i \/ fl_fftfreq n d ((n - i) mod n) = fl_fftfreq n d i.
Proof.
  intros Hn Hi. destruct (Z.eq_dec i 0) as [->|E]; [right; rewrite Z.sub_0_r, Z_mod_same_full; reflexivity|].
  rewrite Z.mod_small by lia. destruct (Z.eq_dec (n - i) i) as [E2|E2]; [right; rewrite E2; reflexivity|left].
  unfold fl_fftfreq. rewrite <- rnd64_opp. f_equal. rewrite Ropp_mult_distr_l, <- opp_IZR. f_equal. f_equal.
  rewrite !ffx by lia. destruct (Z.ltb_spec (2 * (n - i)) n), (Z.ltb_spec (2 * i) n); lia.
Qed.
Lemma fl_passband_sym hyp h y x : even_hypot hyp -> (0 < h_size h)%Z -> (0 <= y < h_size h)%Z -> (0 <= x < h_size h)%Z ->
  fl_passband hyp h ((h_size h - y) mod h_size h) x = fl_passband hyp h y x /\ fl_passband hyp h x y = fl_passband hyp h y x.
Proof.
  intros E Hn Hy Hx. unfold fl_passband. split.
  - replace (hyp (fl_fftfreq (h_size h) (h_res h) ((h_size h - y) mod h_size h)) (fl_fftfreq (h_size h) (h_res h) x))
      with (hyp (fl_fftfreq (h_size h) (h_res h) y) (fl_fftfreq (h_size h) (h_res h) x)); [reflexivity|].
    destruct (fl_fftfreq_neg (h_size h) (h_res h) y Hn Hy) as [-> | ->]; [|reflexivity]. symmetry. apply E.
  - replace (hyp (fl_fftfreq (h_size h) (h_res h) x) (fl_fftfreq (h_size h) (h_res h) y))
      with (hyp (fl_fftfreq (h_size h) (h_res h) y) (fl_fftfreq (h_size h) (h_res h) x)); [reflexivity|]. symmetry. apply E.
Qed.
