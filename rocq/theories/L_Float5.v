From Verif Require Import M_Float S_Float L_Float L_Float3 L_Float4 L_Noll L_Array L_Sum.
From Flocq Require Import Core.
From Coq Require Import Lra Lia Permutation.
Local Open Scope R_scope.

(** ** the default zrange *)
Lemma zseq_cons n : (0 <= n)%Z -> zseq (n + 1) = 0%Z :: map (fun i => (i + 1)%Z) (zseq n).
Proof.
  intros Hn. unfold zseq. replace (Z.to_nat (n + 1)) with (S (Z.to_nat n)) by lia. cbn [seq map]. f_equal. rewrite <- seq_shift, !map_map. apply map_ext. intros a. lia.
Qed.
Lemma fl_diff_map (f : Z -> R) n : (1 <= n)%Z -> fl_diff (map f (zseq n)) = map (fun i => rnd64 (f (i + 1)%Z - f i)) (zseq (n - 1)).
Proof.
  intros Hn. replace n with (Z.of_nat (S (Z.to_nat (n - 1)))) by lia. set (k := Z.to_nat (n - 1)). replace (n - 1)%Z with (Z.of_nat k) by lia. clearbody k. clear n Hn.
  replace (Z.of_nat (S k) - 1)%Z with (Z.of_nat k) by lia.
  revert f. induction k as [|k IH]; intros f; [reflexivity|].
  replace (Z.of_nat (S (S k))) with (Z.of_nat (S k) + 1)%Z by lia. rewrite zseq_cons by lia. replace (Z.of_nat (S k)) with (Z.of_nat k + 1)%Z at 2 by lia. rewrite (zseq_cons (Z.of_nat k)) by lia.
  cbn [map]. rewrite !map_map. specialize (IH (fun i => f (i + 1)%Z)). rewrite <- IH.
  replace (Z.of_nat (S k)) with (Z.of_nat k + 1)%Z by lia. rewrite zseq_cons by lia. cbn [map fl_diff]. reflexivity.
Qed.
Section Z.
Context (zres : R).
Hypothesis Hz : bpow radix2 (-900) <= zres.
Lemma zres_pos : 0 < zres.
Proof. pose proof (bpow_pos (-900)). lra. Qed.
Lemma plane_rel j : exists e, Rabs e <= uu /\ rnd64 (IZR j * zres) = IZR j * zres * (1 + e).
Proof.
  pose proof zres_pos as P. destruct uu_cube as [U0 _]. destruct (Z.eq_dec j 0) as [->|E].
  - exists 0. rewrite Rabs_R0. split; [lra|]. change (IZR 0) with 0. rewrite Rmult_0_l, rnd64_0. ring.
  - apply rnd64_rel. rewrite Rabs_mult, (Rabs_pos_eq zres) by lra. assert (1 <= Rabs (IZR j)) by (rewrite <- abs_IZR; apply IZR_le; lia).
    apply Rle_trans with (bpow radix2 (-900)); [apply bpow_le; lia|]. nra.
Qed.
Lemma step_rel j : (Z.abs j <= 2 ^ 30)%Z -> (Z.abs (j + 1) <= 2 ^ 30)%Z ->
  Rabs (rnd64 (rnd64 (IZR (j + 1) * zres) - rnd64 (IZR j * zres)) - zres) <= zres * / 2097152.
Proof.
  intros H1 H2. pose proof zres_pos as P. destruct uu_cube as [U0 _].
  destruct (plane_rel j) as (e & He & E1). destruct (plane_rel (j + 1)) as (e' & He' & E2).
  destruct (rnd64_plus (rnd64 (IZR (j + 1) * zres)) (- rnd64 (IZR j * zres))) as (d & Hd & E3); [apply rnd64_float|rewrite <- rnd64_opp; apply rnd64_float|].
  unfold Rminus at 1. unfold Rminus at 1. rewrite E3, E1, E2.
  assert (A1 : Rabs (IZR j * e) <= 1073741824 * uu). { rewrite Rabs_mult. apply Rmult_le_compat; try apply Rabs_pos; [|exact He]. rewrite <- abs_IZR. apply IZR_le. exact H1. }
  assert (A2 : Rabs (IZR (j + 1) * e') <= 1073741824 * uu). { rewrite Rabs_mult. apply Rmult_le_compat; try apply Rabs_pos; [|exact He']. rewrite <- abs_IZR. apply IZR_le. exact H2. }
  apply Rabs_le_inv in A1, A2. apply Rabs_le_inv in Hd.
  assert (W : exists w, Rabs w <= / 4194304 /\ IZR (j + 1) * zres * (1 + e') + - (IZR j * zres * (1 + e)) = zres * (1 + w)).
  { exists (IZR (j + 1) * e' - IZR j * e). split; [apply Rabs_le; unfold uu in *; lra|]. rewrite plus_IZR. ring. }
  destruct W as (w & Hw & ->). apply Rabs_le_inv in Hw.
  replace (zres * (1 + w) * (1 + d) + - zres) with (zres * (w + d + w * d)) by ring. rewrite Rabs_mult, (Rabs_pos_eq zres) by lra. apply Rmult_le_compat_l; [lra|].
  assert (Rabs (w * d) <= / 4194304 * uu). { rewrite Rabs_mult. apply Rmult_le_compat; try apply Rabs_pos; apply Rabs_le; lra. }
  apply Rabs_le_inv in H. apply Rabs_le. unfold uu in *. lra.
Qed.
Lemma isclose_near x m : Rabs (x - zres) <= zres * / 2097152 -> Rabs (m - zres) <= zres * / 524288 -> is_float x -> is_float m -> fl_isclose x m = true.
Proof.
  intros Hx Hm Fx Fm. pose proof zres_pos as P. destruct uu_cube as [U0 _]. apply Rabs_le_inv in Hx, Hm.
  unfold fl_isclose. destruct (Rle_dec _ _) as [|C]; [reflexivity|]. exfalso. apply C. clear C.
  destruct (rnd64_plus x (- m) Fx) as (d & Hd & E). { rewrite <- (rnd64_id m Fm), <- rnd64_opp. apply rnd64_float. }
  unfold Rminus. rewrite E. apply err_bounds in Hd.
  assert (M0 : 0 < m) by lra. rewrite (Rabs_pos_eq m) by lra.
  assert (L : Rabs ((x + - m) * (1 + d)) <= zres * / 262144).
  { rewrite Rabs_mult, (Rabs_pos_eq (1 + d)) by (unfold uu in *; lra). apply Rle_trans with (zres * (5 / 2097152) * (1 + uu)); [|unfold uu; nra].
    apply Rmult_le_compat; [apply Rabs_pos|unfold uu in *; lra|apply Rabs_le; lra|lra]. }
  eapply Rle_trans; [exact L|].
  destruct (rnd64_rel (1 / 10 ^ 5)) as (r & Hr & Er). { rewrite Rabs_pos_eq by lra. apply Rle_trans with (bpow radix2 (-20)); [apply bpow_le; lia|]. change (bpow radix2 (-20)) with (/ 1048576). lra. }
  apply err_bounds in Hr. set (rt := rnd64 (1 / 10 ^ 5)) in *. assert (R1 : / 110000 <= rt) by (rewrite Er; unfold uu in *; lra).
  assert (A : 0 <= rnd64 (1 / 10 ^ 8)) by (apply rnd64_nonneg; lra).
  apply Rle_trans with (rnd64 (rt * m)).
  - destruct (rnd64_rel (rt * m)) as (q & Hq & Eq).
    { rewrite Rabs_pos_eq by nra. apply Rle_trans with (bpow radix2 (-20) * bpow radix2 (-900) * bpow radix2 (-1)).
      - rewrite <- !bpow_plus. apply bpow_le. lia.
      - change (bpow radix2 (-20)) with (/ 1048576). change (bpow radix2 (-1)) with (/ 2). pose proof (bpow_pos (-900)). nra. }
    apply err_bounds in Hq. rewrite Eq. apply Rle_trans with (/ 110000 * (zres * (1 - / 524288)) * (1 - / 1000)); [lra|].
    apply Rmult_le_compat; [nra|lra|apply Rmult_le_compat; lra|unfold uu in *; lra].
  - rewrite <- (rnd64_id (rnd64 (rt * m))) at 1 by apply rnd64_float. apply rnd64_le. lra.
Qed.

Context (N : Z).
Hypothesis HN : (3 <= N <= 2 ^ 30)%Z.
Definition steps := fl_diff (fl_zrange N zres).
Lemma steps_eq : steps = map (fun i => rnd64 (rnd64 (IZR (i - (N + 1) / 2 + 1) * zres) - rnd64 (IZR (i - (N + 1) / 2) * zres))) (zseq (N - 1)).
Proof.
  unfold steps, fl_zrange. rewrite fl_diff_map by lia. apply map_ext. intros i. replace (i + 1 - (N + 1) / 2)%Z with (i - (N + 1) / 2 + 1)%Z by lia. reflexivity.
Qed.
Lemma steps_len : Z.of_nat (List.length steps) = (N - 1)%Z.
Proof. rewrite steps_eq, map_length, zseq_length. lia. Qed.
Lemma steps_near s : In s steps -> is_float s /\ Rabs (s - zres) <= zres * / 2097152.
Proof.
  rewrite steps_eq. intros H. apply in_map_iff in H. destruct H as (i & <- & Hi). apply in_zseq in Hi. split; [apply rnd64_float|].
  pose proof (Z.div_mod (N + 1) 2 ltac:(lia)). pose proof (Z.mod_pos_bound (N + 1) 2 ltac:(lia)). apply step_rel; lia.
Qed.
Lemma mean_near t : Permutation (leaves t) steps -> Rabs (rnd64 (fl_sum t / INR (List.length steps)) - zres) <= zres * / 524288.
Proof.
  intros Pm. pose proof zres_pos as P. destruct uu_cube as [U0 _].
  assert (L : Forall nn_float (leaves t)).
  { rewrite Forall_forall. intros s Hs. apply (Permutation_in _ Pm) in Hs. apply steps_near in Hs. destruct Hs as [F Hs]. apply Rabs_le_inv in Hs. split; [exact F|lra]. }
  pose proof (tree_rel t L) as B. cbv zeta in B. rewrite (L_Float4.Rsum_perm _ _ Pm), (Permutation_length Pm) in B.
  assert (SB : Rabs (Rsum steps (fun x => x) - Rsum steps (fun _ => zres)) <= INR (List.length steps) * (zres * / 2097152)) by (apply Rsum_bounds; intros s Hs; now apply steps_near).
  rewrite Rsum_const in SB. set (m := INR (List.length steps)) in *. set (S := Rsum steps _) in *.
  assert (M1 : 2 <= m <= 1073741824). { unfold m. rewrite INR_IZR_INZ, steps_len. split; apply IZR_le; lia. }
  assert (Em : INR (List.length steps - 1) = m - 1). { unfold m. rewrite minus_INR; [reflexivity|]. pose proof steps_len. lia. }
  rewrite Em in B. assert (MU : 0 <= (m - 1) * uu <= / 8000000) by (unfold uu; lra). destruct B as [B1 B2]; [lra|]. set (F := fl_sum t) in *. apply Rabs_le_inv in SB.
  set (q := (m - 1) * uu) in *. clearbody q.
  assert (S0 : 0 < S) by nra. assert (F0 : 0 < F) by nra.
  assert (X : m * zres * (1 - / 1048576) <= F <= m * zres * (1 + / 1048576)).
  { assert (m * zres > 0) by nra. split; [apply Rle_trans with ((1 - q) * S); [|exact B1]; nra|].
    assert (F <= S * (1 + / 7000000)) by nra. nra. }
  set (v := F / m). assert (V : zres * (1 - / 1048576) <= v <= zres * (1 + / 1048576)).
  { unfold v, Rdiv. split; (apply Rmult_le_reg_r with m; [lra|]); rewrite (Rmult_assoc F), Rinv_l by lra; lra. }
  destruct (rnd64_rel v) as (e & He & ->).
  { rewrite Rabs_pos_eq by nra. apply Rle_trans with (bpow radix2 (-900) * bpow radix2 (-1)); [rewrite <- bpow_plus; apply bpow_le; lia|]. change (bpow radix2 (-1)) with (/ 2). pose proof (bpow_pos (-900)). nra. }
  apply Rabs_le_inv in He. unfold uu in He. apply Rabs_le. split; nra.
Qed.
Lemma accepted t : Permutation (leaves t) steps -> fl_bad_steps steps t = false.
Proof.
  intros Pm. unfold fl_bad_steps. apply Bool.orb_false_iff. split.
  - apply Nat.ltb_ge. pose proof steps_len. lia.
  - apply Bool.negb_false_iff. apply forallb_forall. intros s Hs. destruct (steps_near s Hs) as [F D]. apply isclose_near; auto; [now apply mean_near|apply rnd64_float].
Qed.
End Z.
