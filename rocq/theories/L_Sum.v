(** Finite sums over lists, real and complex; phases. *)
From Verif Require Import M_Num L_Array.
From Coq Require Import Permutation.
Local Open Scope C_scope.

Section CS.
Context {X : Type}.
Implicit Types (l : list X) (f g : X -> C).
Lemma Csum_ext l f g : (forall x, In x l -> f x = g x) -> Csum l f = Csum l g.
Proof. induction l as [|a l IH]; cbn; intros H; auto. rewrite H, IH; auto. Qed.
Lemma Csum_app l l' f : Csum (l ++ l') f = Csum l f + Csum l' f.
Proof. induction l; cbn; [ring|]. rewrite IHl. ring. Qed.
Lemma Csum_plus l f g : Csum l (fun x => f x + g x) = Csum l f + Csum l g.
Proof. induction l; cbn; [ring|]. rewrite IHl. ring. Qed.
Lemma Csum_minus l f g : Csum l (fun x => f x - g x) = Csum l f - Csum l g.
Proof. induction l; cbn; [ring|]. rewrite IHl. ring. Qed.
Lemma Csum_scal_l l c f : Csum l (fun x => c * f x) = c * Csum l f.
Proof. induction l; cbn; [ring|]. rewrite IHl. ring. Qed.
Lemma Csum_scal_r l c f : Csum l (fun x => f x * c) = Csum l f * c.
Proof. induction l; cbn; [ring|]. rewrite IHl. ring. Qed.
Lemma Csum_zero l f : (forall x, In x l -> f x = RtoC 0) -> Csum l f = RtoC 0.
Proof. induction l; cbn; intros H; auto. rewrite H, IHl; auto. ring. Qed.
Lemma Csum_perm l l' f : Permutation l l' -> Csum l f = Csum l' f.
Proof. induction 1; cbn; auto; try congruence. ring. Qed.
Lemma Csum_const l c : Csum l (fun _ => c) = RtoC (INR (length l)) * c.
Proof.
  induction l; cbn [Csum length]; [cbn; ring|]. rewrite IHl, S_INR, RtoC_plus. ring.
Qed.
Lemma Csum_single l f a : NoDup l -> In a l -> (forall x, In x l -> x <> a -> f x = RtoC 0) -> Csum l f = f a.
Proof.
  induction l as [|b l IH]; cbn; intros Hn Hi Hz; [contradiction|]. inversion Hn; subst.
  destruct Hi as [->|Hi].
  - rewrite Csum_zero; [ring|]. intros x Hx. apply Hz; auto. intros ->. contradiction.
  - rewrite (Hz b); auto; [|intros ->; contradiction]. rewrite IH; auto. ring.
Qed.
Lemma Csum_conj l f : Cconj (Csum l f) = Csum l (fun x => Cconj (f x)).
Proof.
  induction l; cbn [Csum]; [unfold Cconj, RtoC; cbn; f_equal; ring|].
  rewrite <- IHl. unfold Cconj, Cplus; cbn. f_equal; ring.
Qed.
Lemma Csum_Cmod l f : (Cmod (Csum l f) <= Rsum l (fun x => Cmod (f x)))%R.
Proof.
  induction l; cbn [Csum Rsum]; [rewrite Cmod_0; apply Rle_refl|].
  eapply Rle_trans; [apply Cmod_triangle|]. apply Rplus_le_compat_l. auto.
Qed.
Lemma Csum_RtoC l (f : X -> R) : RtoC (Rsum l f) = Csum l (fun x => RtoC (f x)).
Proof. induction l; cbn; auto. now rewrite RtoC_plus, IHl. Qed.
Lemma Csum_Re l f : Re (Csum l f) = Rsum l (fun x => Re (f x)).
Proof. induction l; cbn; auto. unfold Re in *. now rewrite <- IHl. Qed.
Lemma Csum_Im l f : Im (Csum l f) = Rsum l (fun x => Im (f x)).
Proof. induction l; cbn; auto. unfold Im in *. now rewrite <- IHl. Qed.
End CS.
Lemma Csum_map {X Y} (h : X -> Y) l (f : Y -> C) : Csum (map h l) f = Csum l (fun x => f (h x)).
Proof. induction l; cbn; auto. now rewrite IHl. Qed.
Lemma Csum_flat_map {X Y} (h : X -> list Y) l (f : Y -> C) :
  Csum (flat_map h l) f = Csum l (fun x => Csum (h x) f).
Proof. induction l; cbn; auto. now rewrite Csum_app, IHl. Qed.
Lemma Csum_swap {X Y} (l : list X) (l' : list Y) (f : X -> Y -> C) :
  Csum l (fun x => Csum l' (fun y => f x y)) = Csum l' (fun y => Csum l (fun x => f x y)).
Proof.
  induction l; cbn [Csum].
  - symmetry. now apply Csum_zero.
  - now rewrite IHl, <- Csum_plus.
Qed.
Lemma Csum_prod {X Y} (l : list X) (l' : list Y) (f : X -> C) (g : Y -> C) :
  Csum l f * Csum l' g = Csum l (fun x => Csum l' (fun y => f x * g y)).
Proof.
  rewrite <- Csum_scal_r. apply Csum_ext. intros x _. now rewrite Csum_scal_l.
Qed.

(** Reindexing along a bijection of the index list. *)
Lemma perm_bij {X} (s : X -> X) (l : list X) : NoDup l ->
  (forall x, In x l -> In (s x) l) -> (forall x y, In x l -> In y l -> s x = s y -> x = y) ->
  Permutation (map s l) l.
Proof.
  intros Hn Hi Hj.
  assert (Hd : NoDup (map s l)).
  { clear Hi. induction l as [|a l IH]; cbn; constructor.
    - rewrite in_map_iff. intros (y & Hy & Hin). inversion Hn; subst.
      assert (y = a) by (apply Hj; cbn; auto). subst. contradiction.
    - inversion Hn; subst. apply IH; auto. intros x y Hx Hy. apply Hj; now right. }
  apply NoDup_Permutation_bis; auto.
  - rewrite map_length. apply Nat.le_refl.
  - intros y Hy. apply in_map_iff in Hy. destruct Hy as (x & <- & Hx). auto.
Qed.
Lemma Csum_reindex {X} (s : X -> X) (l : list X) (f : X -> C) : NoDup l ->
  (forall x, In x l -> In (s x) l) -> (forall x y, In x l -> In y l -> s x = s y -> x = y) ->
  Csum l (fun x => f (s x)) = Csum l f.
Proof.
  intros H1 H2 H3. rewrite <- (Csum_perm _ _ f (perm_bij s l H1 H2 H3)). now rewrite Csum_map.
Qed.

(** The same for reals. *)
Section RS.
Local Open Scope R_scope.
Context {X : Type}.
Implicit Types (l : list X) (f g : X -> R).
Lemma Rsum_ext l f g : (forall x, In x l -> f x = g x) -> Rsum l f = Rsum l g.
Proof. induction l as [|a l IH]; cbn; intros H; auto. rewrite H, IH; auto. Qed.
Lemma Rsum_app l l' f : Rsum (l ++ l') f = Rsum l f + Rsum l' f.
Proof. induction l; cbn; [ring|]. rewrite IHl. ring. Qed.
Lemma Rsum_plus l f g : Rsum l (fun x => f x + g x) = Rsum l f + Rsum l g.
Proof. induction l; cbn; [ring|]. rewrite IHl. ring. Qed.
Lemma Rsum_minus l f g : Rsum l (fun x => f x - g x) = Rsum l f - Rsum l g.
Proof. induction l; cbn; [ring|]. rewrite IHl. ring. Qed.
Lemma Rsum_scal_l l c f : Rsum l (fun x => c * f x) = c * Rsum l f.
Proof. induction l; cbn; [ring|]. rewrite IHl. ring. Qed.
Lemma Rsum_scal_r l c f : Rsum l (fun x => f x * c) = Rsum l f * c.
Proof. induction l; cbn; [ring|]. rewrite IHl. ring. Qed.
Lemma Rsum_zero l f : (forall x, In x l -> f x = 0) -> Rsum l f = 0.
Proof. induction l; cbn; intros H; auto. rewrite H, IHl; auto. ring. Qed.
Lemma Rsum_perm l l' f : Permutation l l' -> Rsum l f = Rsum l' f.
Proof. induction 1; cbn; auto; try congruence. ring. Qed.
Lemma Rsum_const l c : Rsum l (fun _ => c) = INR (length l) * c.
Proof. induction l; cbn [Rsum length]; [cbn; ring|]. rewrite IHl, S_INR. ring. Qed.
Lemma Rsum_le l f g : (forall x, In x l -> f x <= g x) -> Rsum l f <= Rsum l g.
Proof.
  induction l as [|a l IH]; cbn; intros H; [lra|].
  apply Rplus_le_compat; [apply H; auto|apply IH; auto].
Qed.
Lemma Rsum_nonneg l f : (forall x, In x l -> 0 <= f x) -> 0 <= Rsum l f.
Proof.
  intros H. replace 0 with (Rsum l (fun _ : X => 0)) by now apply Rsum_zero.
  apply Rsum_le; auto.
Qed.
Lemma Rsum_pos l f a : (forall x, In x l -> 0 <= f x) -> In a l -> 0 < f a -> 0 < Rsum l f.
Proof.
  induction l as [|b l IH]; cbn; intros H Hi Ha; [contradiction|].
  assert (H0 : 0 <= Rsum l f) by (apply Rsum_nonneg; auto).
  assert (H1 : 0 <= f b) by auto.
  destruct Hi as [->|Hi]; [lra|]. assert (0 < Rsum l f) by (apply IH; auto). lra.
Qed.
Lemma Rsum_ge_term l f a : (forall x, In x l -> 0 <= f x) -> In a l -> f a <= Rsum l f.
Proof.
  induction l as [|b l IH]; cbn; intros H Hi; [contradiction|].
  assert (H0 : 0 <= Rsum l f) by (apply Rsum_nonneg; auto).
  assert (H1 : 0 <= f b) by auto.
  destruct Hi as [->|Hi]; [lra|]. assert (f a <= Rsum l f) by (apply IH; auto). lra.
Qed.
Lemma Rsum_single l f a : NoDup l -> In a l -> (forall x, In x l -> x <> a -> f x = 0) -> Rsum l f = f a.
Proof.
  induction l as [|b l IH]; cbn; intros Hn Hi Hz; [contradiction|]. inversion Hn; subst.
  destruct Hi as [->|Hi].
  - rewrite Rsum_zero; [ring|]. intros x Hx. apply Hz; auto. intros ->. contradiction.
  - rewrite (Hz b); auto; [|intros ->; contradiction]. rewrite IH; auto. ring.
Qed.
Lemma Rsum_abs l f : Rabs (Rsum l f) <= Rsum l (fun x => Rabs (f x)).
Proof.
  induction l; cbn; [rewrite Rabs_R0; lra|].
  eapply Rle_trans; [apply Rabs_triang|]. lra.
Qed.
End RS.
Lemma Rsum_map {X Y} (h : X -> Y) l (f : Y -> R) : Rsum (map h l) f = Rsum l (fun x => f (h x)).
Proof. induction l; cbn; auto. now rewrite IHl. Qed.
Lemma Rsum_flat_map {X Y} (h : X -> list Y) l (f : Y -> R) :
  Rsum (flat_map h l) f = Rsum l (fun x => Rsum (h x) f).
Proof. induction l; cbn; auto. now rewrite Rsum_app, IHl. Qed.
Lemma Rsum_swap {X Y} (l : list X) (l' : list Y) (f : X -> Y -> R) :
  Rsum l (fun x => Rsum l' (fun y => f x y)) = Rsum l' (fun y => Rsum l (fun x => f x y)).
Proof.
  induction l; cbn [Rsum].
  - symmetry. now apply Rsum_zero.
  - now rewrite IHl, <- Rsum_plus.
Qed.
Lemma Rsum_reindex {X} (s : X -> X) (l : list X) (f : X -> R) : NoDup l ->
  (forall x, In x l -> In (s x) l) -> (forall x y, In x l -> In y l -> s x = s y -> x = y) ->
  Rsum l (fun x => f (s x)) = Rsum l f.
Proof.
  intros H1 H2 H3. rewrite <- (Rsum_perm _ _ f (perm_bij s l H1 H2 H3)). now rewrite Rsum_map.
Qed.

(** Index lists *)
Local Open Scope Z_scope.
Lemma NoDup_zseq n : NoDup (zseq n).
Proof.
  unfold zseq. apply FinFun.Injective_map_NoDup; [intros x y; lia|apply seq_NoDup].
Qed.
Lemma in_all_ix sh : forall ix, In ix (all_ix sh) <-> inb sh ix.
Proof.
  induction sh as [|n sh IH]; intros ix; cbn [all_ix].
  - split; [intros [<-|[]]; constructor|]. intros H. apply inb_nil in H. subst. now left.
  - rewrite in_flat_map. split.
    + intros (i & Hi & H). apply in_map_iff in H. destruct H as (r & <- & Hr).
      apply inb_cons. split; [now apply in_zseq|now apply IH].
    + intros H. destruct (inb_cons_inv _ _ _ H) as (i & r & -> & Hi & Hr).
      exists i. split; [now apply in_zseq|]. apply in_map. now apply IH.
Qed.
Lemma NoDup_flat_map {X Y} (h : X -> list Y) l : NoDup l -> (forall x, In x l -> NoDup (h x)) ->
  (forall x x' y, In x l -> In x' l -> In y (h x) -> In y (h x') -> x = x') -> NoDup (flat_map h l).
Proof.
  induction l as [|a l IH]; cbn; intros Hn Hd Hj; [constructor|].
  inversion Hn; subst.
  assert (Hl : NoDup (flat_map h l)). { apply IH; auto. intros x x' y Hx Hx'. apply Hj; auto. }
  assert (Ha : NoDup (h a)) by auto.
  assert (Hx : forall y, In y (h a) -> ~ In y (flat_map h l)).
  { intros y Hy Hf. apply in_flat_map in Hf. destruct Hf as (x & Hin & Hxy).
    assert (a = x) by (eapply Hj; eauto). subst. contradiction. }
  clear -Hl Ha Hx. induction (h a) as [|y k IHk]; cbn; auto. inversion Ha; subst. constructor.
  - rewrite in_app_iff. intros [H|H]; [contradiction|]. apply (Hx y); cbn; auto.
  - apply IHk; auto. intros z Hz. apply Hx. now right.
Qed.
Lemma NoDup_all_ix sh : NoDup (all_ix sh).
Proof.
  induction sh as [|n sh IH]; cbn [all_ix]; [repeat constructor; auto|].
  apply NoDup_flat_map; [apply NoDup_zseq| |].
  - intros x _. apply FinFun.Injective_map_NoDup; auto. intros a b H. now injection H.
  - intros x x' y _ _ H H'. apply in_map_iff in H, H'. destruct H as (a & <- & _), H' as (b & Hb & _).
    now injection Hb.
Qed.
Lemma length_all_ix sh : Forall (fun n => 0 <= n) sh -> Z.of_nat (length (all_ix sh)) = size sh.
Proof.
  induction 1 as [|n sh Hn Hs IH]; cbn [all_ix size]; auto.
  assert (Hl : forall l : list Z, Z.of_nat (length (flat_map (fun i => map (cons i) (all_ix sh)) l)) = Z.of_nat (length l) * size sh).
  { induction l as [|i l IHl]; cbn [flat_map]; auto. rewrite app_length, map_length, Nat2Z.inj_add, IHl, IH.
    cbn [length]. rewrite Nat2Z.inj_succ. ring. }
  rewrite Hl, zseq_length, Z2Nat.id by lia. reflexivity.
Qed.
Lemma Csum_all_ix_cons n sh (f : list Z -> C) :
  Csum (all_ix (n :: sh)) f = Csum (zseq n) (fun i => Csum (all_ix sh) (fun r => f (i :: r))).
Proof. cbn [all_ix]. rewrite Csum_flat_map. apply Csum_ext. intros i _. apply Csum_map. Qed.
Lemma Rsum_all_ix_cons n sh (f : list Z -> R) :
  Rsum (all_ix (n :: sh)) f = Rsum (zseq n) (fun i => Rsum (all_ix sh) (fun r => f (i :: r))).
Proof. cbn [all_ix]. rewrite Rsum_flat_map. apply Rsum_ext. intros i _. apply Rsum_map. Qed.

(** Cyclic reindexing of one axis *)
Lemma small_mult n q x y : 0 <= x < n -> 0 <= y < n -> x - y = q * n -> x = y.
Proof.
  intros Hx Hy E. destruct (Z.lt_trichotomy q 0) as [H|[->|H]]; [|lia|].
  - assert (q * n <= -1 * n) by (apply Z.mul_le_mono_nonneg_r; lia). lia.
  - assert (1 * n <= q * n) by (apply Z.mul_le_mono_nonneg_r; lia). lia.
Qed.
Lemma mod_inj n x y : 0 <= x < n -> 0 <= y < n -> (x - y) mod n = 0 -> x = y.
Proof.
  intros Hx Hy E. apply Z.mod_divide in E; [|lia]. destruct E as [q Hq]. now apply (small_mult n q).
Qed.
Lemma Csum_cyclic n s (f : Z -> C) : Csum (zseq n) (fun i => f ((i + s) mod n)) = Csum (zseq n) f.
Proof.
  destruct (Z.le_gt_cases n 0) as [H|H].
  { unfold zseq. replace (Z.to_nat n) with O by lia. reflexivity. }
  apply (Csum_reindex (fun i => (i + s) mod n)); [apply NoDup_zseq| |].
  - intros x _. apply in_zseq. now apply Z.mod_pos_bound.
  - intros x y Hx Hy E. apply in_zseq in Hx, Hy.
    assert (E' : (x + s - (y + s)) mod n = 0). { rewrite Zminus_mod, E, Z.sub_diag. apply Zmod_0_l. }
    replace (x + s - (y + s)) with (x - y) in E' by lia.
    now apply (mod_inj n).
Qed.
Lemma Csum_reflect n s (f : Z -> C) : Csum (zseq n) (fun i => f ((s - i) mod n)) = Csum (zseq n) f.
Proof.
  destruct (Z.le_gt_cases n 0) as [H|H].
  { unfold zseq. replace (Z.to_nat n) with O by lia. reflexivity. }
  apply (Csum_reindex (fun i => (s - i) mod n)); [apply NoDup_zseq| |].
  - intros x _. apply in_zseq. now apply Z.mod_pos_bound.
  - intros x y Hx Hy E. apply in_zseq in Hx, Hy.
    assert (E' : (s - x - (s - y)) mod n = 0). { rewrite Zminus_mod, E, Z.sub_diag. apply Zmod_0_l. }
    replace (s - x - (s - y)) with (y - x) in E' by lia.
    symmetry. now apply (mod_inj n).
Qed.
Lemma Rsum_cyclic n s (f : Z -> R) : Rsum (zseq n) (fun i => f ((i + s) mod n)) = Rsum (zseq n) f.
Proof. apply RtoC_inj. rewrite !Csum_RtoC. apply (Csum_cyclic n s (fun i => RtoC (f i))). Qed.
Lemma Rsum_reflect n s (f : Z -> R) : Rsum (zseq n) (fun i => f ((s - i) mod n)) = Rsum (zseq n) f.
Proof. apply RtoC_inj. rewrite !Csum_RtoC. apply (Csum_reflect n s (fun i => RtoC (f i))). Qed.

(** ** phases *)
Lemma cis_add a b : cis (a + b) = Cmult (cis a) (cis b).
Proof. unfold cis, Cmult; cbn. rewrite cos_plus, sin_plus. f_equal; ring. Qed.
Lemma cis_0 : cis 0 = RtoC 1.
Proof. unfold cis. now rewrite cos_0, sin_0. Qed.
Lemma cis_conj a : Cconj (cis a) = cis (- a).
Proof. unfold cis, Cconj; cbn. now rewrite cos_neg, sin_neg. Qed.
Lemma cis_neg a : Cmult (cis a) (cis (- a)) = RtoC 1.
Proof. rewrite <- cis_add, Rplus_opp_r. apply cis_0. Qed.
Lemma cis_period a k : cis (a + 2 * PI * IZR k) = cis a.
Proof.
  unfold cis. f_equal.
  - destruct (Z.le_gt_cases 0 k) as [H|H].
    + rewrite <- (Z2Nat.id k H), <- INR_IZR_INZ. replace (2 * PI * INR (Z.to_nat k))%R with (2 * INR (Z.to_nat k) * PI)%R by ring. apply cos_period.
    + replace k with (- Z.of_nat (Z.to_nat (- k))) by lia. rewrite opp_IZR, <- INR_IZR_INZ.
      rewrite <- (cos_period (a + 2 * PI * - INR (Z.to_nat (- k))) (Z.to_nat (- k))). f_equal. ring.
  - destruct (Z.le_gt_cases 0 k) as [H|H].
    + rewrite <- (Z2Nat.id k H), <- INR_IZR_INZ. replace (2 * PI * INR (Z.to_nat k))%R with (2 * INR (Z.to_nat k) * PI)%R by ring. apply sin_period.
    + replace k with (- Z.of_nat (Z.to_nat (- k))) by lia. rewrite opp_IZR, <- INR_IZR_INZ.
      rewrite <- (sin_period (a + 2 * PI * - INR (Z.to_nat (- k))) (Z.to_nat (- k))). f_equal. ring.
Qed.
Lemma Cnorm2_cis a : Cnorm2 (cis a) = 1%R.
Proof. unfold Cnorm2, cis, Re, Im; cbn. pose proof (sin2_cos2 a) as H. unfold Rsqr in H. lra. Qed.
Lemma Cmod_cis a : Cmod (cis a) = 1%R.
Proof.
  unfold Cmod, cis; cbn [fst snd]. replace (cos a ^ 2 + sin a ^ 2)%R with 1%R; [apply sqrt_1|].
  pose proof (sin2_cos2 a) as H. unfold Rsqr in H. lra.
Qed.
Lemma Cnorm2_Cmod z : Cnorm2 z = (Cmod z * Cmod z)%R.
Proof.
  unfold Cmod. rewrite sqrt_sqrt; [unfold Cnorm2, Re, Im; ring|].
  pose proof (pow2_ge_0 (fst z)). pose proof (pow2_ge_0 (snd z)). lra.
Qed.
Lemma Cnorm2_ge_0 z : (0 <= Cnorm2 z)%R.
Proof. unfold Cnorm2. nra. Qed.
Lemma Cnorm2_mult a b : Cnorm2 (Cmult a b) = (Cnorm2 a * Cnorm2 b)%R.
Proof. unfold Cnorm2, Cmult, Re, Im; cbn. ring. Qed.
Lemma Cnorm2_conj z : RtoC (Cnorm2 z) = Cmult z (Cconj z).
Proof. unfold Cnorm2, Cmult, Cconj, RtoC, Re, Im; cbn. f_equal; ring. Qed.
Lemma Cnorm2_RtoC r : Cnorm2 (RtoC r) = (r * r)%R.
Proof. unfold Cnorm2, RtoC, Re, Im; cbn. ring. Qed.
Lemma Cconj_mult a b : Cconj (Cmult a b) = Cmult (Cconj a) (Cconj b).
Proof. unfold Cconj, Cmult; cbn. f_equal; ring. Qed.
Lemma Cconj_plus a b : Cconj (Cplus a b) = Cplus (Cconj a) (Cconj b).
Proof. unfold Cconj, Cplus; cbn. f_equal; ring. Qed.
Lemma Cconj_conj z : Cconj (Cconj z) = z.
Proof. destruct z. unfold Cconj; cbn. f_equal; ring. Qed.
Lemma Cconj_RtoC r : Cconj (RtoC r) = RtoC r.
Proof. unfold Cconj, RtoC; cbn. f_equal; ring. Qed.
Lemma cis_neq_0 a : cis a <> RtoC 0.
Proof. intros H. pose proof (Cmod_cis a) as E. rewrite H, Cmod_0 in E. lra. Qed.
