From Verif Require Import M_Bin S_Bin L_Array L_Sum.
Local Open Scope Z_scope.

Fixpoint inter (i o : list Z) : list Z := match i, o with x :: i', y :: o' => x :: y :: inter i' o' | _, _ => [] end.
Lemma flatten_app p q : flatten_pairs (p ++ q) = flatten_pairs p ++ flatten_pairs q.
Proof. unfold flatten_pairs. now rewrite flat_map_app. Qed.
Lemma flatten_len p : List.length (flatten_pairs p) = (2 * List.length p)%nat.
Proof. induction p as [|q p IH]; [reflexivity|]. unfold flatten_pairs in *. cbn [flat_map app List.length]. rewrite IH. lia. Qed.

(** the loop of reductions, generic in an operation that distributes: result as nested op *)
Fixpoint nest (op : Z -> (Z -> R) -> R) (ks : list Z) (g : list Z -> R) : R :=
  match ks with [] => g [] | k :: ks' => op k (fun o => nest op ks' (fun os => g (o :: os))) end.
Lemma inter_snoc i o x y : List.length i = List.length o -> inter (i ++ [x]) (o ++ [y]) = inter i o ++ [x; y].
Proof. revert o. induction i as [|a i IH]; intros [|b o] H; cbn in *; try discriminate; auto. f_equal. f_equal. apply IH. lia. Qed.
Lemma inter_len i : forall o, List.length i = List.length o -> List.length (inter i o) = (2 * List.length i)%nat.
Proof. induction i as [|a i IH]; intros [|b o] H; cbn in *; try discriminate; auto. rewrite IH by lia. lia. Qed.
Definition op_ext (op : Z -> (Z -> R) -> R) := forall n f g, (forall j, 0 <= j < n -> f j = g j) -> op n f = op n g.
Lemma op_sum_ext : op_ext op_sum. Proof. intros n f g H. unfold op_sum. apply Rsum_ext. intros j Hj. apply H. now apply in_zseq. Qed.
Lemma op_mean_ext : op_ext op_mean. Proof. intros n f g H. unfold op_mean. f_equal. apply (op_sum_ext n f g H). Qed.
Lemma nest_ext op ks : op_ext op -> forall f g, (forall os, inb ks os -> f os = g os) -> nest op ks f = nest op ks g.
Proof.
  intros E. induction ks as [|k ks IH]; intros f g H; cbn [nest]; [apply H; constructor|]. apply E. intros j Hj. apply IH. intros os Hos. apply H. now apply inb_cons.
Qed.
(** nested reductions in the order of the code: the last axis first *)
Fixpoint nest_rev (op : Z -> (Z -> R) -> R) (ks : list Z) (g : list Z -> R) : R :=
  match ks with [] => g [] | k :: ks' => nest_rev op ks' (fun os => op k (fun o => g (o :: os))) end.
Lemma nest_rev_ext op ks : op_ext op -> forall f g, (forall os, inb ks os -> f os = g os) -> nest_rev op ks f = nest_rev op ks g.
Proof.
  intros E. induction ks as [|k ks IH]; intros f g H; cbn [nest_rev]; [apply H; constructor|]. apply IH. intros os Hos. apply E. intros j Hj. apply H. now apply inb_cons.
Qed.
Lemma nest_snoc op ks : op_ext op -> forall k g, nest op (ks ++ [k]) g = nest op ks (fun os => op k (fun o => g (os ++ [o]))).
Proof.
  intros E. induction ks as [|k' ks IH]; intros k g; cbn [nest app]; [reflexivity|]. apply E. intros j _. now rewrite IH.
Qed.
Lemma reduce_loop op : op_ext op -> forall ps D a i, shape a = flatten_pairs ps ++ D -> List.length D = i ->
  let r := fold_left (fun acc i => reduce op i acc) (seq i (List.length ps)) a in
  shape r = map fst ps ++ D /\
  forall ix jx, List.length ix = List.length ps -> List.length jx = i -> get r (ix ++ jx) = nest op (map snd ps) (fun os => get a (inter ix os ++ jx)).
Proof.
  intros E ps. induction ps as [|[d k] ps IH] using rev_ind; intros D a i Hs HD; cbn zeta.
  - split; [exact Hs|]. intros [|] jx Hi Hj; [|discriminate]. reflexivity.
  - rewrite app_length. cbn [List.length]. replace (List.length ps + 1)%nat with (S (List.length ps)) by lia. cbn [seq fold_left].
    rewrite flatten_app in Hs. cbn in Hs. rewrite <- app_assoc in Hs. cbn in Hs.
    assert (Ep : (List.length (shape a) - S i)%nat = (2 * List.length ps + 1)%nat).
    { rewrite Hs, app_length, flatten_len. cbn [List.length]. lia. }
    assert (Es : shape a = (flatten_pairs ps ++ [d]) ++ k :: D) by (rewrite Hs, <- app_assoc; reflexivity).
    assert (El : List.length (flatten_pairs ps ++ [d]) = (2 * List.length ps + 1)%nat) by (rewrite app_length, flatten_len; reflexivity).
    assert (S1 : shape (reduce op i a) = flatten_pairs ps ++ (d :: D)).
    { unfold reduce. cbn [shape]. rewrite Ep, Es, <- El. rewrite firstn_app, firstn_all, Nat.sub_diag. cbn [firstn]. rewrite app_nil_r.
      rewrite skipn_app. replace (S (List.length (flatten_pairs ps ++ [d])) - List.length (flatten_pairs ps ++ [d]))%nat with 1%nat by lia. rewrite skipn_all2 by lia. cbn [skipn app]. now rewrite <- app_assoc. }
    assert (G1 : forall pre jx, List.length pre = (2 * List.length ps + 1)%nat -> get (reduce op i a) (pre ++ jx) = op k (fun j => get a (pre ++ j :: jx))).
    { intros pre jx Hp. unfold reduce. cbn [get]. rewrite Ep. rewrite Es at 1. rewrite app_nth2 by lia. replace (2 * List.length ps + 1 - List.length (flatten_pairs ps ++ [d]))%nat with O by lia. cbn [nth].
      apply E. intros j _. rewrite <- Hp. rewrite firstn_app, firstn_all, Nat.sub_diag, skipn_app, skipn_all, Nat.sub_diag. cbn [firstn skipn app]. now rewrite app_nil_r. }
    destruct (IH (d :: D) (reduce op i a) (S i) S1 ltac:(cbn; lia)) as [I1 I2]. split.
    + rewrite I1, map_app. cbn. now rewrite <- app_assoc.
    + intros ix jx Hi Hj. destruct (exists_last (l := ix)) as (ix' & x & ->); [intros ->; cbn in Hi; lia|].
      rewrite app_length in Hi. cbn [List.length] in Hi. rewrite <- app_assoc. cbn [app].
      rewrite I2; [|lia|cbn; lia]. rewrite map_app. cbn [map snd]. rewrite nest_snoc by exact E.
      apply nest_ext; [exact E|]. intros os Hos.
      pose proof (inb_length _ _ Hos) as Ho. rewrite map_length in Ho.
      replace (inter ix' os ++ x :: jx) with ((inter ix' os ++ [x]) ++ jx) by (rewrite <- app_assoc; reflexivity).
      rewrite G1; [|rewrite app_length, inter_len by lia; cbn; lia].
      apply E. intros j _. rewrite inter_snoc by lia. rewrite <- !app_assoc. reflexivity.
Qed.
Lemma nest_sum ks : forall g, nest op_sum ks g = Rsum (all_ix ks) g.
Proof.
  induction ks as [|k ks IH]; intros g; cbn [nest]; [cbn; ring|]. rewrite Rsum_all_ix_cons. apply Rsum_ext. intros i _. apply IH.
Qed.
Lemma nest_mean ks : Forall (fun k => 0 < k) ks -> forall g, nest op_mean ks g = (Rsum (all_ix ks) g / IZR (size ks))%R.
Proof.
  induction 1 as [|k ks Hk Hks IH]; intros g; cbn [nest]; [cbn; field|]. unfold op_mean. rewrite Rsum_all_ix_cons. cbn [size]. rewrite mult_IZR.
  rewrite (Rsum_ext _ _ (fun i => / IZR (size ks) * Rsum (all_ix ks) (fun r => g (i :: r)))%R) by (intros; rewrite IH; unfold Rdiv; ring).
  rewrite Rsum_scal_l. assert (IZR k <> 0%R) by (apply IZR_neq; lia). pose proof (size_pos _ Hks). assert (IZR (size ks) <> 0%R) by (apply IZR_neq; lia). field. auto.
Qed.

(** tiles *)
Lemma tiles_nil_l ks ds : tiles [] ks ds -> ks = [] /\ ds = [].
Proof. intros [H1 H2]. inversion H1 as [E|]. destruct ks, ds; cbn in *; try discriminate; auto. Qed.
Lemma tiles_cons_l c cs ks ds : tiles (c :: cs) ks ds -> exists k ks' d ds', ks = k :: ks' /\ ds = d :: ds' /\ c = k * d /\ tiles cs ks' ds'.
Proof.
  intros [H1 H2]. destruct ks as [|k ks'], ds as [|d ds']; cbn in *; try discriminate; inversion H1; subst. exists k, ks', d, ds'. repeat split; auto.
Qed.
Lemma tiles_size cs : forall ks ds, tiles cs ks ds -> size cs = size ks * size ds.
Proof.
  induction cs as [|c cs IH]; intros ks ds H.
  - destruct (tiles_nil_l _ _ H) as [-> ->]. reflexivity.
  - destruct (tiles_cons_l _ _ _ _ H) as (k & ks' & d & ds' & -> & -> & -> & H'). cbn [size]. rewrite (IH _ _ H'). ring.
Qed.
Lemma size_flatten ks : forall ds, List.length ks = List.length ds -> size (flatten_pairs (combine ds ks)) = size ks * size ds.
Proof. induction ks as [|k ks IH]; intros [|d ds] H; cbn in *; try discriminate; auto. change (flat_map _ _) with (flatten_pairs (combine ds ks)). rewrite IH by lia. ring. Qed.
Lemma ravel_inter cs : forall ks ds i o, tiles cs ks ds -> inb ds i -> inb ks o ->
  ravel (flatten_pairs (combine ds ks)) (inter i o) = ravel cs (block_ix ks i o) /\ inb cs (block_ix ks i o).
Proof.
  induction cs as [|c cs IH]; intros ks ds i o H Hi Ho.
  - destruct (tiles_nil_l _ _ H) as [-> ->]. rewrite (inb_nil _ Hi). split; [reflexivity|constructor].
  - destruct (tiles_cons_l _ _ _ _ H) as (k & ks' & d & ds' & -> & -> & -> & H').
    destruct (inb_cons_inv _ _ _ Hi) as (x & i' & -> & Hx & Hi'). destruct (inb_cons_inv _ _ _ Ho) as (y & o' & -> & Hy & Ho').
    destruct (IH _ _ _ _ H' Hi' Ho') as [I1 I2]. cbn [combine flatten_pairs flat_map fst snd app inter ravel size block_ix].
    change (flat_map (fun p : Z * Z => [fst p; snd p]) (combine ds' ks')) with (flatten_pairs (combine ds' ks')). rewrite I1, size_flatten by apply H'. rewrite (tiles_size _ _ _ H'). split; [ring|].
    apply inb_cons. split; [nia|exact I2].
Qed.
(** one axis *)
Lemma zseq_split n m : 0 <= n -> 0 <= m -> zseq (n + m) = zseq n ++ map (Z.add n) (zseq m).
Proof.
  intros Hn Hm. unfold zseq. rewrite Z2Nat.inj_add, seq_app, map_app by auto. f_equal. cbn [Nat.add].
  rewrite map_map. replace (Z.to_nat n) with (Z.to_nat n + 0)%nat at 1 by lia. generalize (Z.to_nat m), O. intros k s. revert s. induction k as [|k IH]; intros s; cbn [seq map]; [reflexivity|].
  f_equal; [lia|]. rewrite <- IH. f_equal. f_equal. lia.
Qed.
Lemma Rsum_tile1 d k (f : Z -> R) : 0 <= k -> 0 <= d -> Rsum (zseq (k * d)) f = Rsum (zseq d) (fun i => Rsum (zseq k) (fun o => f (i * k + o))).
Proof.
  intros Hk Hd. pattern d. apply natlike_ind; [| |exact Hd].
  - rewrite Z.mul_0_r. reflexivity.
  - intros x Hx IH. rewrite Z.mul_succ_r, zseq_split by nia. unfold Z.succ. rewrite (zseq_S x) by lia. rewrite !Rsum_app, IH, Rsum_map. f_equal. cbn [Rsum]. rewrite Rplus_0_r. apply Rsum_ext. intros o _. f_equal. ring.
Qed.
Lemma Rsum_tile cs : forall ks ds (f : list Z -> R), tiles cs ks ds -> Forall (fun k => 0 <= k) ks -> Forall (fun d => 0 <= d) ds ->
  Rsum (all_ix cs) f = Rsum (all_ix ds) (fun i => Rsum (all_ix ks) (fun o => f (block_ix ks i o))).
Proof.
  induction cs as [|c cs IH]; intros ks ds f H Hk Hd.
  - destruct (tiles_nil_l _ _ H) as [-> ->]. cbn. ring.
  - destruct (tiles_cons_l _ _ _ _ H) as (k & ks' & d & ds' & -> & -> & -> & H'). inversion Hk; inversion Hd; subst.
    rewrite Rsum_all_ix_cons, Rsum_tile1 by auto. rewrite Rsum_all_ix_cons. apply Rsum_ext. intros i _.
    rewrite (Rsum_ext _ _ (fun o => Rsum (all_ix ds') (fun i' => Rsum (all_ix ks') (fun o' => f ((i * k + o) :: block_ix ks' i' o'))))) by (intros; now apply IH).
    rewrite Rsum_swap. apply Rsum_ext. intros i' _. rewrite Rsum_all_ix_cons. reflexivity.
Qed.
