From Verif Require Import M_Float S_Float S_Radial L_Radial L_Noll L_Array L_Sum.
From Flocq Require Import Core Relative Plus_error.
From Coq Require Import Lra Lia.
Local Open Scope R_scope.

#[local] Instance prec53 : Prec_gt_0 53. Proof. reflexivity. Qed.
Definition uu : R := / 9007199254740992.
Lemma uu_bpow : / 2 * bpow radix2 (- 53 + 1) = uu.
Proof. unfold uu. change (bpow radix2 (-53 + 1)) with (/ 4503599627370496). lra. Qed.
Lemma bpow_52 : bpow radix2 (-52) = 2 * uu.
Proof. unfold uu. change (bpow radix2 (-52)) with (/ 4503599627370496). lra. Qed.
Lemma uu_pos : 0 < uu <= / 1000000000000000.
Proof. unfold uu. lra. Qed.
Lemma is_float_format x : is_float x <-> generic_format radix2 (FLT_exp (-1074) 53) x.
Proof.
  split.
  - intros (m & e & -> & Hm & He). apply generic_format_FLT. exists (Float radix2 m e); auto.
  - intros H. apply FLT_format_generic in H; [|reflexivity]. destruct H as [f H1 H2 H3]. exists (Fnum f), (Fexp f). auto.
Qed.
Lemma rnd64_float x : is_float (rnd64 x).
Proof. apply is_float_format. unfold rnd64. apply generic_format_round; [now apply FLT_exp_valid|apply valid_rnd_N]. Qed.
Lemma rnd64_id x : is_float x -> rnd64 x = x.
Proof. intros H. apply is_float_format in H. unfold rnd64. apply round_generic; [apply valid_rnd_N|exact H]. Qed.
Lemma rnd64_0 : rnd64 0 = 0.
Proof. apply round_0, valid_rnd_N. Qed.
Lemma rnd64_opp x : rnd64 (- x) = - rnd64 x.
Proof. apply round_NE_opp. Qed.
Lemma rnd64_nonneg x : 0 <= x -> 0 <= rnd64 x.
Proof. intros H. rewrite <- rnd64_0. now apply rnd64_le. Qed.
Lemma rnd64_abs x : rnd64 (Rabs x) = Rabs (rnd64 x).
Proof.
  unfold Rabs at 1. destruct (Rcase_abs x).
  - rewrite rnd64_opp. rewrite Rabs_left1; [reflexivity|]. rewrite <- rnd64_0. apply rnd64_le. lra.
  - rewrite Rabs_pos_eq; [reflexivity|]. apply rnd64_nonneg. lra.
Qed.
Lemma rnd64_rel x : bpow radix2 (-1022) <= Rabs x -> exists e, Rabs e <= uu /\ rnd64 x = x * (1 + e).
Proof. intros H. rewrite <- uu_bpow. apply (relative_error_N_FLT_ex radix2 (-1074) 53); [lia|exact H]. Qed.
Lemma rnd64_plus x y : is_float x -> is_float y -> exists e, Rabs e <= uu /\ rnd64 (x + y) = (x + y) * (1 + e).
Proof.
  intros Hx Hy. apply is_float_format in Hx, Hy.
  destruct (FLT_plus_error_N_ex radix2 (-1074) 53 (fun z => negb (Z.even z)) x y Hx Hy) as (e & H1 & H2). exists e. split; [|exact H2].
  eapply Rle_trans; [exact H1|]. assert (E : u_ro radix2 53 = uu) by exact uu_bpow. rewrite E. pose proof uu_pos as P.
  apply Rmult_le_reg_r with (1 + uu); [lra|]. unfold Rdiv. rewrite Rmult_assoc, Rinv_l by lra. nra.
Qed.
Lemma rnd64_any x : exists e t, Rabs e <= uu /\ Rabs t <= bpow radix2 (-1075) /\ rnd64 x = x * (1 + e) + t.
Proof.
  destruct (error_N_FLT radix2 (-1074) 53 ltac:(lia) (fun z => negb (Z.even z)) x) as (e & t & H1 & H2 & _ & H3). exists e, t. split; [now rewrite <- uu_bpow|]. split; [|exact H3].
  eapply Rle_trans; [exact H2|]. right. change (-1075)%Z with (-1 + -1074)%Z. rewrite bpow_plus. reflexivity.
Qed.
Lemma rnd64_ub x y : is_float y -> x <= y -> rnd64 x <= y.
Proof. intros F H. rewrite <- (rnd64_id y F). now apply rnd64_le. Qed.
Lemma rnd64_lb x y : is_float y -> y <= x -> y <= rnd64 x.
Proof. intros F H. rewrite <- (rnd64_id y F). now apply rnd64_le. Qed.
Lemma is_float_0 : is_float 0.
Proof. exists 0%Z, 0%Z. split; [cbn; ring|lia]. Qed.

(** ** radial_profile *)
Lemma frac_float z : (Z.abs z < 2 ^ 53)%Z -> is_float (IZR z / 2 ^ 28).
Proof.
  intros Hz. exists z, (-28)%Z. split; [|lia]. unfold Rdiv. f_equal. change (bpow radix2 (-28)) with (/ IZR (Z.pow_pos 2 28)). f_equal. rewrite pow_IZR. reflexivity.
Qed.
Lemma quarter_float z : (Z.abs z < 2 ^ 53)%Z -> is_float (IZR z / 4).
Proof. intros Hz. exists z, (-2)%Z. split; [|lia]. unfold Rdiv. f_equal. Qed.
Lemma half_float z : (Z.abs z < 2 ^ 53)%Z -> is_float (IZR z / 2).
Proof. intros Hz. exists z, (-1)%Z. split; [|lia]. unfold Rdiv. f_equal. Qed.

Lemma round_sqrt_quarter n : (0 <= n < 2 ^ 46)%Z -> ZnearestE (rnd64 (sqrt (IZR n / 4))) = ZnearestE (sqrt (IZR n / 4)).
Proof.
  intros Hn. set (s := sqrt (IZR n / 4)). set (k := ZnearestE s).
  assert (Hn0 : 0 <= IZR n) by (apply IZR_le; lia).
  assert (Hss : s * s = IZR n / 4) by (apply sqrt_sqrt; lra). assert (Hs0 : 0 <= s) by apply sqrt_pos.
  assert (HN : IZR n < 70368744177664) by (apply IZR_lt; lia). assert (HS : s <= 4194304) by nra.
  destruct (proj1 (nearE_spec s k) eq_refl) as [K1 K2]. apply Rabs_le_inv in K1.
  assert (Hk : (0 <= k <= 4194304)%Z).
  { assert (-1 < IZR k < 4194305) as [A B] by lra. apply lt_IZR in A, B. lia. }
  assert (Hkr : 0 <= IZR k <= 4194304) by (split; apply IZR_le; lia).
  assert (E28 : (2:R) ^ 28 = 268435456) by lra.
  assert (U : s < IZR k + / 2 -> s <= IZR k + / 2 - / 2 ^ 28).
  { intros C. assert (D : IZR n < IZR ((2 * k + 1) * (2 * k + 1))). { rewrite mult_IZR, plus_IZR, mult_IZR. nra. }
    apply lt_IZR in D. assert (D' : IZR n <= IZR ((2 * k + 1) * (2 * k + 1) - 1)) by (apply IZR_le; lia).
    rewrite minus_IZR, mult_IZR, plus_IZR, mult_IZR in D'. destruct (Rle_lt_dec s (IZR k + / 2 - / 2 ^ 28)); auto. exfalso. rewrite E28 in *. nra. }
  assert (L : IZR k - / 2 < s -> IZR k - / 2 + / 2 ^ 28 <= s).
  { intros C. destruct (Z.eq_dec k 0) as [E|E]; [rewrite E; rewrite E28; lra|]. assert (K3 : 1 <= IZR k) by (apply IZR_le; lia).
    assert (D : IZR ((2 * k - 1) * (2 * k - 1)) < IZR n). { rewrite mult_IZR, minus_IZR, mult_IZR. nra. }
    apply lt_IZR in D. assert (D' : IZR ((2 * k - 1) * (2 * k - 1) + 1) <= IZR n) by (apply IZR_le; lia).
    rewrite plus_IZR, mult_IZR, minus_IZR, mult_IZR in D'. destruct (Rle_lt_dec (IZR k - / 2 + / 2 ^ 28) s); auto. exfalso. rewrite E28 in *. nra. }
  assert (F : forall y b, (Z.abs b < 2 ^ 52)%Z -> y = IZR k + IZR b / 2 ^ 28 -> is_float y).
  { intros y b Hb ->. replace (IZR k + IZR b / 2 ^ 28) with (IZR (k * 2 ^ 28 + b) / 2 ^ 28); [apply frac_float; lia|]. rewrite plus_IZR, mult_IZR. change (IZR (2 ^ 28)) with 268435456. lra. }
  assert (A1 : rnd64 s <= IZR k + / 2) by (apply rnd64_ub; [apply (F _ (2 ^ 27)%Z); [lia|change (IZR (2 ^ 27)) with 134217728; lra]|lra]).
  assert (A2 : IZR k - / 2 <= rnd64 s) by (apply rnd64_lb; [apply (F _ (- 2 ^ 27)%Z); [lia|change (IZR (- 2 ^ 27)) with (-134217728); lra]|lra]).
  apply nearE_spec. split; [apply Rabs_le; lra|]. intros T. apply K2.
  assert (B1 : s < IZR k + / 2 -> rnd64 s < IZR k + / 2).
  { intros C. apply U in C. apply Rle_lt_trans with (IZR k + / 2 - / 2 ^ 28); [|rewrite E28; lra].
    apply rnd64_ub; [|exact C]. apply (F _ (2 ^ 27 - 1)%Z); [lia|]. change (IZR (2 ^ 27 - 1)) with 134217727. lra. }
  assert (B2 : IZR k - / 2 < s -> IZR k - / 2 < rnd64 s).
  { intros C. apply L in C. apply Rlt_le_trans with (IZR k - / 2 + / 2 ^ 28); [rewrite E28; lra|].
    apply rnd64_lb; [|exact C]. apply (F _ (- 2 ^ 27 + 1)%Z); [lia|]. change (IZR (- 2 ^ 27 + 1)) with (-134217727). lra. }
  destruct (Rlt_le_dec s (IZR k + / 2)) as [C1|C1]; [|unfold Rabs; destruct Rcase_abs; lra].
  destruct (Rlt_le_dec (IZR k - / 2) s) as [C2|C2]; [|unfold Rabs; destruct Rcase_abs; lra].
  specialize (B1 C1). specialize (B2 C2). exfalso. revert T. unfold Rabs; destruct Rcase_abs; lra.
Qed.

Lemma fl_sumsq_exact c : forall a ix, (0 <= a)%Z -> Forall half_integer c -> IZR a / 4 + dist2 c ix < 2 ^ 44 ->
  exists b, (0 <= b)%Z /\ fl_sumsq (IZR a / 4) c ix = IZR b / 4 /\ IZR b / 4 = IZR a / 4 + dist2 c ix.
Proof.
  induction c as [|x c IH]; intros a ix Ha Hc Hb.
  - exists a. cbn. split; [exact Ha|]. destruct ix; split; try reflexivity; cbn [dist2]; ring.
  - destruct ix as [|i ix]; [exists a; cbn; split; [exact Ha|]; split; [reflexivity|ring]|].
    inversion Hc as [|? ? [z ->] Hc']; subst. cbn [fl_sumsq dist2] in *.
    assert (E : IZR i - IZR z / 2 = IZR (2 * i - z) / 2) by (rewrite minus_IZR, mult_IZR; lra). rewrite E in *. set (w := (2 * i - z)%Z) in *.
    pose proof (dist2_nonneg c ix) as D0. assert (P44 : (2:R) ^ 44 = 17592186044416) by lra. rewrite P44 in Hb. assert (Ha' : 0 <= IZR a) by (now apply IZR_le).
    assert (Hw : (w * w + a < 70368744177664)%Z). { apply lt_IZR. rewrite plus_IZR, mult_IZR. lra. }
    assert (Hw' : (Z.abs w < 2 ^ 53)%Z) by nia.
    rewrite (rnd64_id _ (half_float w Hw')).
    replace (IZR w / 2 * (IZR w / 2)) with (IZR (w * w) / 4) in * by (rewrite mult_IZR; lra).
    rewrite (rnd64_id _ (quarter_float (w * w) ltac:(nia))).
    replace (IZR a / 4 + IZR (w * w) / 4) with (IZR (a + w * w) / 4) in * by (rewrite plus_IZR; lra).
    rewrite (rnd64_id _ (quarter_float (a + w * w) ltac:(nia))).
    destruct (IH (a + w * w)%Z ix ltac:(nia) Hc') as (b & B0 & B1 & B2); [rewrite plus_IZR; rewrite P44; lra|].
    exists b. split; [exact B0|]. split; [exact B1|]. rewrite B2. rewrite plus_IZR. lra.
Qed.
Lemma fl_bin_exact c ix : Forall half_integer c -> dist2 c ix < 2 ^ 44 -> fl_bin c 1 ix = rp_bin c 1 ix.
Proof.
  intros Hc Hd. destruct (fl_sumsq_exact c 0 ix ltac:(lia) Hc) as (b & B0 & B1 & B2); [lra|]. unfold fl_bin, rp_bin. rewrite rp_r_dist.
  replace (IZR 0 / 4) with 0 in * by lra. rewrite B1. rewrite Rplus_0_l in B2. rewrite <- B2. assert (D1 : forall x, x / 1 = x) by (intros; field). rewrite !D1.
  rewrite (rnd64_id _ (rnd64_float _)). apply round_sqrt_quarter. split; [exact B0|]. apply lt_IZR. assert ((2:R) ^ 44 = 17592186044416) by lra. change (IZR (2 ^ 46)) with 70368744177664. lra.
Qed.
