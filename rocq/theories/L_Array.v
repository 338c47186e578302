(** Lemmas about the array vocabulary. *)
From Verif Require Import M_Array S_Utils.

Lemma in_zseq n k : In k (zseq n) <-> 0 <= k < n.
Proof.
  unfold zseq. rewrite in_map_iff. split.
  - intros [m [Hm Hin]]. apply in_seq in Hin. lia.
  - intros H. exists (Z.to_nat k). split; [lia|]. apply in_seq. lia.
Qed.

Lemma zseq_length n : length (zseq n) = Z.to_nat n.
Proof. unfold zseq. now rewrite map_length, seq_length. Qed.

Lemma zseq_S n : 0 <= n -> zseq (n + 1) = zseq n ++ [n].
Proof.
  intros H. unfold zseq. replace (Z.to_nat (n + 1)) with (S (Z.to_nat n)) by lia.
  rewrite seq_S, map_app. simpl. repeat f_equal. lia.
Qed.

Lemma nth_zseq n k d : 0 <= k < n -> nth (Z.to_nat k) (zseq n) d = k.
Proof.
  intros H. unfold zseq.
  rewrite nth_indep with (d' := Z.of_nat 0) by (rewrite map_length, seq_length; lia).
  rewrite map_nth, seq_nth by lia. lia.
Qed.

Lemma inb_length sh ix : inb sh ix -> length sh = length ix.
Proof. induction 1; simpl; congruence. Qed.

Lemma inb_cons n sh i ix : inb (n :: sh) (i :: ix) <-> 0 <= i < n /\ inb sh ix.
Proof. split; [intros H; inversion H; auto | intros [H1 H2]; constructor; auto]. Qed.

Lemma inb_cons_inv n sh ix : inb (n :: sh) ix -> exists i r, ix = i :: r /\ 0 <= i < n /\ inb sh r.
Proof. intros H. inversion H; subst. eauto. Qed.

Lemma inb_nil ix : inb [] ix -> ix = [].
Proof. intros H. now inversion H. Qed.

Lemma size_nonneg sh : Forall (fun n => 0 <= n) sh -> 0 <= size sh.
Proof. induction 1; simpl; nia. Qed.

Lemma size_pos sh : Forall (fun n => 0 < n) sh -> 0 < size sh.
Proof. induction 1; simpl; nia. Qed.

Lemma inb_pos sh ix : inb sh ix -> Forall (fun n => 0 < n) sh.
Proof. induction 1; constructor; auto; lia. Qed.

Lemma ravel_bound sh ix : inb sh ix -> 0 <= ravel sh ix < size sh.
Proof.
  induction 1 as [|n i sh ix Hi H IH]; simpl; [lia|]. nia.
Qed.

Lemma unravel_ravel sh ix : inb sh ix -> unravel sh (ravel sh ix) = ix.
Proof.
  induction 1 as [|n i sh ix Hi H IH]; simpl; [reflexivity|].
  pose proof (ravel_bound sh ix H) as B.
  rewrite Z.div_add_l by lia. rewrite (Z.div_small (ravel sh ix)) by lia.
  rewrite (Z.add_comm (i * size sh)), Z_mod_plus_full, (Z.mod_small (ravel sh ix)) by lia.
  rewrite IH. f_equal. lia.
Qed.

Lemma inb_unravel sh k : Forall (fun n => 0 < n) sh -> 0 <= k < size sh -> inb sh (unravel sh k).
Proof.
  intros H. revert k. induction H as [|n sh Hn H IH]; simpl; intros k Hk; [constructor|].
  pose proof (size_pos sh H) as S.
  constructor.
  - split; [apply Z.div_pos; lia|]. apply Z.div_lt_upper_bound; nia.
  - apply IH. apply Z.mod_pos_bound; lia.
Qed.

Lemma ravel_unravel sh k : Forall (fun n => 0 < n) sh -> 0 <= k < size sh -> ravel sh (unravel sh k) = k.
Proof.
  intros H. revert k. induction H as [|n sh Hn H IH]; simpl; intros k Hk; [lia|].
  pose proof (size_pos sh H) as S.
  rewrite IH by (apply Z.mod_pos_bound; lia).
  pose proof (Z.div_mod k (size sh)). lia.
Qed.

Lemma size_pos_inv sh : Forall (fun n => 0 <= n) sh -> 0 < size sh -> Forall (fun n => 0 < n) sh.
Proof.
  induction 1 as [|n sh Hn H IH]; simpl; intros S; constructor.
  - pose proof (size_nonneg sh H). nia.
  - apply IH. pose proof (size_nonneg sh H). nia.
Qed.

Lemma ravel_lex sh i j : inb sh i -> inb sh j -> (ravel sh i < ravel sh j <-> lex_lt i j).
Proof.
  intros Hi. revert j. induction Hi as [|n a sh i Ha Hi IH]; intros j Hj.
  - apply inb_nil in Hj; subst. simpl. split; [lia|]. intros H; inversion H.
  - apply inb_cons_inv in Hj. destruct Hj as (b & j' & -> & Hb & Hj).
    simpl. pose proof (ravel_bound sh i Hi) as Bi. pose proof (ravel_bound sh j' Hj) as Bj.
    split.
    + intros H. destruct (Z.lt_trichotomy a b) as [L|[E|G]].
      * now constructor.
      * subst b. apply lex_next. apply IH; auto. lia.
      * exfalso. nia.
    + intros H. inversion H; subst.
      * nia.
      * apply IH in H1; auto. lia.
Qed.

Lemma forall2_map_combine {A B C} (f : A * B -> C) (P : C -> Prop) l1 l2 :
  Forall2 (fun a b => P (f (a, b))) l1 l2 -> Forall P (map f (combine l1 l2)).
Proof. induction 1; simpl; constructor; auto. Qed.

(** argmax: the first maximal position *)
Section Argmax.
  Context {A : Type} (ltb : A -> A -> bool) (W : strict_weak ltb) (f : Z -> A).

  Lemma argmax_inv n : 0 < n ->
    let m := argmax_from ltb f (zseq n) 0 in
    0 <= m < n /\ (forall k, 0 <= k < n -> ltb (f m) (f k) = false) /\
    (forall k, 0 <= k < m -> ltb (f k) (f m) = true).
  Proof.
    intros Hn.
    replace n with (Z.of_nat (S (Z.to_nat (n - 1)))) by lia.
    generalize (Z.to_nat (n - 1)). clear n Hn. intros n.
    induction n as [|n IH].
    - unfold argmax_from, zseq. simpl.
      rewrite (sw_irrefl _ W).
      split; [lia|]. split.
      + intros k Hk. replace k with 0 by lia. apply (sw_irrefl _ W).
      + intros k Hk. lia.
    - replace (Z.of_nat (S (S n))) with (Z.of_nat (S n) + 1) by lia.
      rewrite zseq_S by lia. unfold argmax_from in *. rewrite fold_left_app.
      set (m := fold_left _ (zseq (Z.of_nat (S n))) 0) in *.
      set (N := Z.of_nat (S n)) in *. cbv zeta in *.
      cbn [fold_left]. destruct IH as (Bm & Hmax & Hfirst).
      destruct (ltb (f m) (f N)) eqn:E.
      + split; [lia|]. split.
        * intros k Hk. destruct (Z.eq_dec k N) as [->|Hne]; [apply (sw_irrefl _ W)|].
          assert (Hk' : 0 <= k < N) by lia. specialize (Hmax k Hk').
          destruct (ltb (f N) (f k)) eqn:E2; auto.
          rewrite (sw_trans _ W _ _ _ E E2) in Hmax. discriminate.
        * intros k Hk. specialize (Hmax k Hk).
          destruct (ltb (f k) (f N)) eqn:E2; auto.
          rewrite (sw_ntrans _ W _ _ _ Hmax E2) in E. discriminate.
      + split; [lia|]. split.
        * intros k Hk. destruct (Z.eq_dec k N) as [->|Hne]; auto. apply Hmax. lia.
        * exact Hfirst.
  Qed.
End Argmax.

(** rolls *)
Lemma inb_upd_nth sh ix ax g :
  inb sh ix -> (forall i, 0 <= i < nth ax sh 1 -> 0 <= g i < nth ax sh 1) -> inb sh (upd_nth ax g ix).
Proof.
  intros H. revert ax. induction H as [|n i sh ix Hi H IH]; intros ax Hg; destruct ax; simpl in *.
  - constructor.
  - constructor.
  - constructor; [apply Hg|]; assumption.
  - constructor; [assumption|apply IH; assumption].
Qed.
