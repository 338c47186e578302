(** Finite differences and alternating binomial sums. *)
From Verif Require Import M_Zernike S_Zernike L_Array L_Sum L_Zern.
From Coq Require Import Lra Lia Binomial.
Local Open Scope R_scope.
Definition dif (f : nat -> R) (s : nat) : R := f s - f (S s).
Definition difs (k : nat) (f : nat -> R) : nat -> R := Nat.iter k dif f.
Lemma difs_S k f : difs (S k) f = difs k (dif f).
Proof. unfold difs. induction k as [|k IH]; [reflexivity|]. change (Nat.iter (S (S k)) dif f) with (dif (Nat.iter (S k) dif f)). now rewrite IH. Qed.
Lemma difs_ext k : forall f g, (forall s, f s = g s) -> forall s, difs k f s = difs k g s.
Proof. induction k as [|k IH]; intros f g H s; [apply H|]. rewrite !difs_S. apply IH. intros. unfold dif. now rewrite !H. Qed.
Lemma difs_plus k : forall f g s, difs k (fun s => f s + g s) s = difs k f s + difs k g s.
Proof.
  induction k as [|k IH]; intros f g s; [reflexivity|]. rewrite !difs_S, <- IH. apply difs_ext. intros. unfold dif. ring.
Qed.
Lemma difs_scal k c : forall f s, difs k (fun s => c * f s) s = c * difs k f s.
Proof. induction k as [|k IH]; intros f s; [reflexivity|]. rewrite !difs_S, <- IH. apply difs_ext. intros. unfold dif. ring. Qed.
Lemma difs_shift k : forall f s, difs k (fun s => f (S s)) s = difs k f (S s).
Proof. induction k as [|k IH]; intros f s; [reflexivity|]. rewrite !difs_S, <- IH. reflexivity. Qed.

(** f has degree <= k with leading behaviour v *)
Definition top (k : nat) (f : nat -> R) (v : R) : Prop := forall s, difs k f s = v.
Lemma top_ext k f g v : (forall s, f s = g s) -> top k f v -> top k g v.
Proof. intros H T s. rewrite <- (T s). apply difs_ext. auto. Qed.
Lemma top_S k f v : top k f v -> top (S k) f 0.
Proof. intros T s. change (difs (S k) f s) with (dif (difs k f) s). unfold dif. rewrite !T. ring. Qed.
Lemma top_mul k c : forall f v, top k f v -> top (S k) (fun s => (INR s + c) * f s) (- INR (S k) * v).
Proof.
  induction k as [|k IH]; intros f v T s.
  - assert (Tf : forall t, f t = v) by exact T. change (difs 1 (fun s0 => (INR s0 + c) * f s0) s) with ((INR s + c) * f s - (INR (S s) + c) * f (S s)).
    rewrite !Tf, !S_INR. cbn. ring.
  - rewrite difs_S. rewrite (difs_ext _ _ (fun s => (INR s + c) * dif f s + -1 * f (S s))).
    + rewrite difs_plus, difs_scal, difs_shift. rewrite (IH (dif f) v) by (intros t; rewrite <- difs_S; apply T). rewrite T. rewrite (S_INR (S k)). ring.
    + intros t. unfold dif. rewrite S_INR. ring.
Qed.
Lemma top_plus k f g v w : top k f v -> top k g w -> top k (fun s => f s + g s) (v + w).
Proof. intros H1 H2 s. now rewrite difs_plus, H1, H2. Qed.
Lemma top_const c : top 1 (fun _ => c) 0.
Proof. intros s. cbn. unfold dif. ring. Qed.

(** prod_{i=1..l} (s + a + i) *)
Fixpoint pr (a : R) (l : nat) (s : R) : R := match l with O => 1 | S l' => (s + (a + INR l)) * pr a l' s end.
Lemma pr_top a l : top l (fun s => pr a l (INR s)) ((-1) ^ l * INR (fact l)).
Proof.
  induction l as [|l IH].
  - intros s. cbn. ring.
  - eapply top_ext; [|intros s; rewrite (top_mul l (a + INR (S l)) _ _ IH s)].
    + intros s. reflexivity.
    + rewrite fact_simpl, mult_INR. cbn [pow]. ring.
Qed.
(** division by (s + M) *)
Fixpoint quo (a M : R) (l : nat) (s : R) : R := match l with O => 0 | S l' => (s + (a + INR l)) * quo a M l' s + pr a l' (- M) end.
Lemma pr_div a M l s : pr a l s = (s + M) * quo a M l s + pr a l (- M).
Proof. induction l as [|l IH]; cbn [pr quo]; [ring|]. rewrite IH at 1. ring. Qed.
Lemma quo_top a M l : top l (fun s => quo a M l (INR s)) 0.
Proof.
  induction l as [|l IH].
  - intros s. reflexivity.
  - destruct l as [|l].
    + eapply top_ext; [|apply (top_const 1)]. intros s. cbn. ring.
    + replace 0 with (- INR (S (S l)) * 0 + 0) by ring. cbn [quo]. apply top_plus.
      * apply (top_mul (S l) (a + INR (S (S l)))). exact IH.
      * clear IH. assert (H : forall k, top (S k) (fun _ : nat => pr a (S l) (- M)) 0). { induction k; [apply top_const|eapply top_S; eauto]. } apply H.
Qed.

(** alternating binomial sum *)
Definition alt (k : nat) (f : nat -> R) : R := Rsum (seq 0 (S k)) (fun s => (-1) ^ s * Binomial.C k s * f s).
Lemma alt_difs k : forall f, alt k f = difs k f O.
Proof.
  induction k as [|k IH]; intros f.
  - unfold alt. cbn. unfold Binomial.C. cbn. field.
  - change (difs (S k) f O) with (dif (difs k f) O). unfold dif. rewrite <- difs_shift, <- !IH. unfold alt.
    rewrite Rsum_seq_first, Rsum_seq_last.
    rewrite (Rsum_ext _ _ (fun s => (-1) ^ (S s) * Binomial.C k (S s) * f (S s) + -1 * ((-1) ^ s * Binomial.C k s * f (S s)))).
    + rewrite Rsum_plus, Rsum_scal_l. rewrite (Rsum_seq_first k (fun s => (-1) ^ s * Binomial.C k s * f s)).
      rewrite (Rsum_seq_last k (fun s => (-1) ^ s * Binomial.C k s * f (S s))).
      assert (E0 : forall j, Binomial.C j 0 = 1) by (intros j; unfold Binomial.C; rewrite Nat.sub_0_r; cbn; field; apply INR_fact_neq_0).
      assert (En : forall j, Binomial.C j j = 1) by (intros j; unfold Binomial.C; rewrite Nat.sub_diag; cbn; field; apply INR_fact_neq_0).
      rewrite !E0, !En. cbn [pow]. ring.
    + intros s Hs. apply in_seq in Hs. rewrite <- pascal by lia. cbn [pow]. ring.
Qed.
Lemma alt_top k f v : top k f v -> alt k f = v.
Proof. intros T. rewrite alt_difs. apply T. Qed.
Lemma alt_ext k f g : (forall s, (s <= k)%nat -> f s = g s) -> alt k f = alt k g.
Proof. intros H. unfold alt. apply Rsum_ext. intros s Hs. apply in_seq in Hs. rewrite H by lia. reflexivity. Qed.
Lemma alt_plus k f g : alt k (fun s => f s + g s) = alt k f + alt k g.
Proof. unfold alt. rewrite <- Rsum_plus. apply Rsum_ext. intros. ring. Qed.
Lemma alt_scal k c f : alt k (fun s => c * f s) = c * alt k f.
Proof. unfold alt. rewrite <- Rsum_scal_l. apply Rsum_ext. intros. ring. Qed.
(** 1/(s+M) *)
Lemma difs_inv k : forall M, 0 < M -> forall s, difs k (fun s => / (INR s + M)) s = INR (fact k) / rising (INR s + M) (S k).
Proof.
  induction k as [|k IH]; intros M HM s.
  - cbn. pose proof (pos_INR s). field. lra.
  - change (difs (S k) (fun s0 => / (INR s0 + M)) s) with (dif (difs k (fun s0 => / (INR s0 + M))) s). unfold dif. rewrite !IH by auto.
    pose proof (pos_INR s) as Hs. pose proof (pos_INR k) as Hk.
    assert (Hr : forall x j, 0 < x -> 0 < rising x j). { intros x j Hx. induction j as [|j IHj]; cbn [rising]; [lra|]. pose proof (pos_INR j). nra. }
    assert (Hshift : forall x j, rising x (S j) = x * rising (x + 1) j).
    { intros x j. induction j as [|j IHj]; [cbn; ring|]. change (rising x (S (S j))) with (rising x (S j) * (x + INR (S j))). rewrite IHj. cbn [rising]. rewrite S_INR. ring. }
    replace (INR (S s) + M) with (INR s + M + 1) by (rewrite S_INR; ring). set (x := INR s + M) in *.
    assert (Hx : 0 < x) by (unfold x; lra).
    rewrite (Hshift x (S k)). change (rising (x + 1) (S k)) with (rising (x + 1) k * (x + 1 + INR k)). rewrite (Hshift x k). rewrite fact_simpl, mult_INR, S_INR.
    pose proof (Hr (x + 1) k ltac:(lra)). field. repeat split; lra.
Qed.
