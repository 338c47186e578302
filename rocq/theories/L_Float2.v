From Verif Require Import M_Float S_Float L_Float L_Noll L_Array L_Sum L_Micro.
From Flocq Require Import Core.
From Coq Require Import Lra Lia.
Local Open Scope R_scope.

(** ** pinhole *)
Lemma disk_size_exact radius : is_float radius -> fl_disk_size radius = disk_size radius.
Proof.
  intros (m & e & -> & Hm & He). unfold fl_disk_size, disk_size. rewrite rnd64_id; [reflexivity|]. exists m, (e + 1)%Z. split; [|lia].
  rewrite bpow_plus. change (bpow radix2 1) with 2. ring.
Qed.
Lemma near_sqrt n radius : is_float radius -> (0 <= n < 2 ^ 53)%Z -> rnd64 (sqrt (rnd64 (IZR n))) < radius -> sqrt (IZR n) < radius.
Proof.
  intros F Hn H. rewrite rnd64_int in H by lia. destruct (Rlt_le_dec (sqrt (IZR n)) radius) as [|C]; auto. apply (rnd64_lb _ _ F) in C. lra.
Qed.
Lemma near_sqrt_conv n radius : (0 <= n < 2 ^ 53)%Z -> sqrt (IZR n) < radius * (1 - bpow radix2 (-53)) -> rnd64 (sqrt (rnd64 (IZR n))) < radius.
Proof.
  intros Hn H. rewrite rnd64_int by lia. change (bpow radix2 (-53)) with uu in H. pose proof uu_pos.
  destruct (Z.eq_dec n 0) as [->|E].
  - change (IZR 0) with 0 in *. rewrite sqrt_0 in *. rewrite rnd64_0. nra.
  - assert (S1 : 1 <= sqrt (IZR n)). { rewrite <- sqrt_1. apply sqrt_le_1_alt. apply IZR_le. lia. }
    destruct (rnd64_rel (sqrt (IZR n))) as (e & He & ->).
    { rewrite Rabs_pos_eq by lra. eapply Rle_trans; [|exact S1]. change 1 with (bpow radix2 0). apply bpow_le. lia. }
    apply Rabs_le_inv in He. assert (0 < radius) by nra. assert (sqrt (IZR n) * (1 + e) <= sqrt (IZR n) * (1 + uu)) by nra. nra.
Qed.
(** radii with few digits *)
Lemma near_sqrt_short n a : (0 <= n < 2 ^ 40)%Z -> (Z.abs a < 2 ^ 24)%Z -> sqrt (IZR n) < IZR a / 2 ^ 6 -> rnd64 (sqrt (rnd64 (IZR n))) < IZR a / 2 ^ 6.
Proof.
  intros Hn Ha H. rewrite rnd64_int by lia. assert (S0 := sqrt_pos (IZR n)). assert (SS : sqrt (IZR n) * sqrt (IZR n) = IZR n) by (apply sqrt_sqrt, IZR_le; lia).
  set (s := sqrt (IZR n)) in *. assert (E6 : (2:R) ^ 6 = 64) by lra. rewrite E6 in *.
  assert (A0 : 0 < IZR a) by lra. apply lt_IZR in A0.
  assert (A1 : 0 < IZR a <= 16777215) by (split; [apply IZR_lt|apply IZR_le]; lia).
  assert (D : IZR (4096 * n) < IZR (a * a)) by (rewrite !mult_IZR; nra). apply lt_IZR in D.
  assert (D' : IZR (4096 * n) <= IZR (a * a - 1)) by (apply IZR_le; lia). rewrite minus_IZR, !mult_IZR in D'.
  apply Rle_lt_trans with (IZR (a * 2 ^ 26 - 1) / 2 ^ 32).
  - apply rnd64_ub.
    + exists (a * 2 ^ 26 - 1)%Z, (-32)%Z. split; [|lia]. unfold Rdiv. f_equal. change (bpow radix2 (-32)) with (/ IZR (Z.pow_pos 2 32)). f_equal. rewrite pow_IZR. reflexivity.
    + rewrite minus_IZR, mult_IZR. change (IZR (2 ^ 26)) with 67108864. assert (E32 : (2:R) ^ 32 = 4294967296) by lra. rewrite E32.
      destruct (Rle_lt_dec s ((IZR a * 67108864 - 1) / 4294967296)) as [|C]; auto. exfalso. nra.
  - rewrite minus_IZR, mult_IZR. change (IZR (2 ^ 26)) with 67108864. assert (E32 : (2:R) ^ 32 = 4294967296) by lra. rewrite E32. lra.
Qed.
