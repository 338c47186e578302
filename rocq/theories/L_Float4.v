From Verif Require Import M_Float S_Float L_Float L_Float3 L_Noll L_Array L_Sum.
From Flocq Require Import Core.
From Coq Require Import Lra Lia Permutation.
Local Open Scope R_scope.

(** ** Sums in any order *)
Definition nn_float (x : R) : Prop := is_float x /\ 0 <= x.
Lemma leaves_len t : (1 <= List.length (leaves t))%nat.
Proof. induction t; cbn; [lia|]. rewrite app_length. lia. Qed.
Lemma leaves_pow_le x m k : 0 <= x <= 1 -> (m <= k)%nat -> x ^ k <= x ^ m.
Proof. intros H L. replace k with (m + (k - m))%nat by lia. rewrite pow_add. pose proof (pow_le x m (proj1 H)). assert (x ^ (k - m) <= 1) by (rewrite <- (pow1 (k - m)); apply pow_incr; lra). pose proof (pow_le x (k - m) (proj1 H)). nra. Qed.
Lemma tree_bounds t : Forall nn_float (leaves t) ->
  is_float (fl_sum t) /\ 0 <= fl_sum t /\
  (1 - uu) ^ (List.length (leaves t) - 1) * Rsum (leaves t) (fun x => x) <= fl_sum t <= (1 + uu) ^ (List.length (leaves t) - 1) * Rsum (leaves t) (fun x => x).
Proof.
  destruct uu_cube as [U0 U1].
  induction t as [x|l IHl r IHr]; cbn [leaves fl_sum].
  - intros H. inversion H as [|? ? [F P] _]; subst. cbn. split; [exact F|]. split; [exact P|]. lra.
  - intros H. apply Forall_app in H. destruct H as [Hl Hr]. destruct (IHl Hl) as (Fl & Pl & Ll & Ul). destruct (IHr Hr) as (Fr & Pr & Lr & Ur).
    split; [apply rnd64_float|]. split; [apply rnd64_nonneg; lra|]. rewrite Rsum_app, app_length.
    destruct (rnd64_plus _ _ Fl Fr) as (e & He & ->). apply err_bounds in He.
    assert (NL : 0 <= Rsum (leaves l) (fun x => x)) by (apply Rsum_nonneg; intros v Hv; rewrite Forall_forall in Hl; apply (Hl v Hv)).
    assert (NR : 0 <= Rsum (leaves r) (fun x => x)) by (apply Rsum_nonneg; intros v Hv; rewrite Forall_forall in Hr; apply (Hr v Hv)).
    pose proof (leaves_len l) as N1. pose proof (leaves_len r) as N2.
    set (a := List.length (leaves l)) in *. set (b := List.length (leaves r)) in *.
    set (SL := Rsum (leaves l) _) in *. set (SR := Rsum (leaves r) _) in *.
    assert (D : (a + b - 1 = S (a + b - 2))%nat) by lia. rewrite D. cbn [pow].
    assert (dl : (1 - uu) ^ (a + b - 2) <= (1 - uu) ^ (a - 1)) by (apply leaves_pow_le; [lra|lia]).
    assert (dr : (1 - uu) ^ (a + b - 2) <= (1 - uu) ^ (b - 1)) by (apply leaves_pow_le; [lra|lia]).
    assert (el : (1 + uu) ^ (a - 1) <= (1 + uu) ^ (a + b - 2)) by (apply Rle_pow; [lra|lia]).
    assert (er : (1 + uu) ^ (b - 1) <= (1 + uu) ^ (a + b - 2)) by (apply Rle_pow; [lra|lia]).
    pose proof (pow_le (1 - uu) (a + b - 2) ltac:(lra)) as q0. pose proof (pow_le (1 + uu) (a + b - 2) ltac:(lra)) as q1.
    assert (X1 : (1 - uu) ^ (a + b - 2) * (SL + SR) <= fl_sum l + fl_sum r) by nra.
    assert (X2 : fl_sum l + fl_sum r <= (1 + uu) ^ (a + b - 2) * (SL + SR)) by nra.
    assert (Y0 : 0 <= fl_sum l + fl_sum r) by lra.
    set (W := fl_sum l + fl_sum r) in *. clearbody W. split.
    + apply Rle_trans with ((1 - uu) * W); [rewrite Rmult_assoc; apply Rmult_le_compat_l; lra|nra].
    + apply Rle_trans with ((1 + uu) * W); [nra|]. rewrite (Rmult_assoc (1 + uu)). apply Rmult_le_compat_l; lra.
Qed.
Lemma leaf_le_sum t : Forall nn_float (leaves t) -> forall x, In x (leaves t) -> x <= fl_sum t.
Proof.
  induction t as [y|l IHl r IHr]; cbn [leaves fl_sum]; intros H x Hx.
  - destruct Hx as [->|[]]. lra.
  - apply Forall_app in H. destruct H as [Hl Hr]. destruct (tree_bounds l Hl) as (_ & Pl & _). destruct (tree_bounds r Hr) as (_ & Pr & _).
    apply in_app_or in Hx. destruct Hx as [Hx|Hx].
    + apply rnd64_lb; [rewrite Forall_forall in Hl; apply (Hl x Hx)|]. specialize (IHl Hl x Hx). lra.
    + apply rnd64_lb; [rewrite Forall_forall in Hr; apply (Hr x Hx)|]. specialize (IHr Hr x Hx). lra.
Qed.
Lemma bernoulli_dn m : 1 - INR m * uu <= (1 - uu) ^ m.
Proof. destruct uu_cube as [U0 U1]. induction m as [|m IH]; [cbn; lra|]. rewrite S_INR. cbn [pow]. pose proof (pos_INR m). pose proof (Rmult_le_compat_l (1 - uu) _ _ ltac:(lra) IH) as K. nra. Qed.
Lemma bernoulli_up m : INR m * uu <= 1 -> (1 + uu) ^ m * (1 - INR m * uu) <= 1.
Proof.
  intros H. destruct uu_cube as [U0 U1]. pose proof (bernoulli_dn m) as B. pose proof (pow_le (1 + uu) m ltac:(lra)) as P.
  apply Rle_trans with ((1 + uu) ^ m * (1 - uu) ^ m); [nra|]. rewrite <- Rpow_mult_distr. apply Rle_trans with (1 ^ m); [apply pow_incr; split; nra|rewrite pow1; lra].
Qed.
(** the computed sum against the exact one *)
Lemma tree_rel t : Forall nn_float (leaves t) -> let m := INR (List.length (leaves t) - 1) in let S := Rsum (leaves t) (fun x => x) in
  m * uu <= 1 -> (1 - m * uu) * S <= fl_sum t /\ (1 - m * uu) * fl_sum t <= S.
Proof.
  intros H m S Hm. destruct (tree_bounds t H) as (_ & P & L & U). fold S in L, U.
  assert (NS : 0 <= S) by (apply Rsum_nonneg; intros v Hv; rewrite Forall_forall in H; apply (H v Hv)).
  pose proof (bernoulli_dn (List.length (leaves t) - 1)) as B1. pose proof (bernoulli_up (List.length (leaves t) - 1) Hm) as B2. fold m in B1, B2.
  split; [nra|]. apply Rle_trans with ((1 - m * uu) * ((1 + uu) ^ (List.length (leaves t) - 1) * S)); [apply Rmult_le_compat_l; lra|nra].
Qed.
Lemma Rsum_perm l l' : Permutation l l' -> Rsum l (fun x => x) = Rsum l' (fun x => x).
Proof. induction 1; cbn [Rsum]; lra. Qed.
Lemma Rsum_bounds {A} (f g : A -> R) c l : (forall x, In x l -> Rabs (f x - g x) <= c) -> Rabs (Rsum l f - Rsum l g) <= INR (List.length l) * c.
Proof.
  induction l as [|x l IH]; intros H; cbn [Rsum List.length]; [rewrite Rminus_0_r, Rabs_R0; cbn; lra|]. rewrite S_INR.
  replace (f x + Rsum l f - (g x + Rsum l g)) with ((f x - g x) + (Rsum l f - Rsum l g)) by ring. eapply Rle_trans; [apply Rabs_triang|].
  pose proof (H x (or_introl eq_refl)). assert (Rabs (Rsum l f - Rsum l g) <= INR (List.length l) * c) by (apply IH; intros; apply H; right; auto). lra.
Qed.

Section Norm.
Context (p : list R) (t : stree).
Hypothesis Hp : Forall nn_float p.
Hypothesis Hpos : exists x, In x p /\ 0 < x.
Hypothesis Ht : Permutation (leaves t) p.
Hypothesis Hlen : (Z.of_nat (List.length p) <= 2 ^ 40)%Z.
Lemma leaves_ok : Forall nn_float (leaves t).
Proof. rewrite Forall_forall in *. intros x Hx. apply Hp. now apply (Permutation_in _ Ht). Qed.
Lemma norm_pos : 0 < fl_sum t.
Proof. destruct Hpos as (x & Hx & P). apply Rlt_le_trans with x; [exact P|]. apply leaf_le_sum; [apply leaves_ok|]. apply (Permutation_in _ (Permutation_sym Ht) Hx). Qed.
Lemma norm_range x : In x p -> 0 <= rnd64 (x / fl_sum t) <= 1.
Proof.
  intros Hx. pose proof norm_pos as P. assert (X0 : 0 <= x) by (rewrite Forall_forall in Hp; apply (Hp x Hx)).
  assert (X1 : x <= fl_sum t) by (apply leaf_le_sum; [apply leaves_ok|apply (Permutation_in _ (Permutation_sym Ht) Hx)]).
  split.
  - apply rnd64_nonneg. apply Rmult_le_pos; [exact X0|]. left. now apply Rinv_0_lt_compat.
  - apply rnd64_ub; [exists 1%Z, 0%Z; split; [cbn; ring|lia]|]. apply Rmult_le_reg_r with (fl_sum t); [exact P|]. unfold Rdiv. rewrite Rmult_assoc, Rinv_l by lra. lra.
Qed.
Lemma norm_total : Rabs (Rsum (fl_normalise p t) (fun x => x) - 1) <= INR (List.length p) * bpow radix2 (-52).
Proof.
  pose proof norm_pos as P. destruct uu_cube as [U0 U1].
  pose proof (tree_rel t leaves_ok) as B. cbv zeta in B. rewrite (Rsum_perm _ _ Ht), (Permutation_length Ht) in B.
  set (n := List.length p) in *. assert (Hn1 : (1 <= n)%nat). { destruct Hpos as (x & Hx & _). unfold n. destruct p; [destruct Hx|cbn; lia]. }
  assert (N1 : 1 <= INR n) by (change 1 with (INR 1); now apply le_INR).
  assert (N2 : INR n <= 1099511627776). { rewrite INR_IZR_INZ. apply IZR_le. exact Hlen. }
  assert (Em : INR (n - 1) = INR n - 1) by (rewrite minus_INR by lia; reflexivity). rewrite Em in B.
  assert (NU : INR n * uu <= / 8000) by (unfold uu; lra).
  destruct B as [B1 B2]; [nra|]. set (S := Rsum p (fun x => x)) in *. set (F := fl_sum t) in *.
  (* entries *)
  assert (Q : Rabs (Rsum (fl_normalise p t) (fun x => x) - S / F) <= uu * (S / F) + INR n * bpow radix2 (-1075)).
  { unfold fl_normalise. fold F. unfold S.
    assert (G : forall l, Forall nn_float l -> Rabs (Rsum (map (fun x => rnd64 (x / F)) l) (fun x => x) - Rsum l (fun x => x) / F) <= uu * (Rsum l (fun x => x) / F) + INR (List.length l) * bpow radix2 (-1075)).
    { induction l as [|x l IH]; intros Hl; cbn [map Rsum List.length].
      - unfold Rdiv. rewrite Rmult_0_l, Rminus_0_r, Rabs_R0. cbn. lra.
      - inversion Hl as [|? ? [_ X0] Hl']; subst. specialize (IH Hl'). rewrite S_INR. destruct (rnd64_any (x / F)) as (e & tt & He & Htt & ->).
        assert (X1 : 0 <= x / F) by (apply Rmult_le_pos; [exact X0|]; left; now apply Rinv_0_lt_compat).
        replace (x / F * (1 + e) + tt + Rsum (map (fun x0 => rnd64 (x0 / F)) l) (fun x0 => x0) - (x + Rsum l (fun x0 => x0)) / F)
          with ((x / F * e + tt) + (Rsum (map (fun x0 => rnd64 (x0 / F)) l) (fun x0 => x0) - Rsum l (fun x0 => x0) / F)) by (unfold Rdiv; ring).
        eapply Rle_trans; [apply Rabs_triang|]. assert (Rabs (x / F * e + tt) <= uu * (x / F) + bpow radix2 (-1075)).
        { eapply Rle_trans; [apply Rabs_triang|]. rewrite Rabs_mult, (Rabs_pos_eq (x / F)) by exact X1. nra. }
        replace ((x + Rsum l (fun x0 => x0)) / F) with (x / F + Rsum l (fun x0 => x0) / F) by (unfold Rdiv; ring). lra. }
    apply G. exact Hp. }
  assert (E1075 : 0 <= bpow radix2 (-1075) <= uu / 8).
  { split; [apply bpow_ge_0|]. apply Rle_trans with (bpow radix2 (-56)); [apply bpow_le; lia|]. unfold uu. change (bpow radix2 (-56)) with (/ 72057594037927936). lra. }
  assert (R1 : (1 - (INR n - 1) * uu) * (S / F) <= 1).
  { apply Rmult_le_reg_r with F; [exact P|]. unfold Rdiv. rewrite Rmult_assoc, (Rmult_assoc S), Rinv_l by lra. lra. }
  assert (R2 : 1 - (INR n - 1) * uu <= S / F).
  { apply Rmult_le_reg_r with F; [exact P|]. unfold Rdiv. rewrite (Rmult_assoc S), Rinv_l by lra. lra. }
  set (x := S / F) in *. rewrite bpow_52. apply Rabs_le_inv in Q.
  assert (X0 : 0 <= x) by lra. assert (X1 : x <= 1001 / 1000) by nra. assert (X2 : x - 1 <= 1001 / 1000 * ((INR n - 1) * uu)) by nra.
  assert (T : 0 <= INR n * bpow radix2 (-1075) <= INR n * uu / 8) by nra.
  apply Rabs_le. split; nra.
Qed.
End Norm.
