(** Properties of utils.bin_ndarray *)
From Verif Require Export M_Bin S_Bin.
From Verif Require Import L_Array L_Sum L_Bin.
Local Open Scope Z_scope.

Lemma tiles_pairs cs : forall ks ds, tiles cs ks ds -> Forall (fun d => 0 < d) ds -> Forall (fun k => 0 < k) ks ->
  map (fun dc => (fst dc, snd dc / fst dc)) (combine ds cs) = combine ds ks.
Proof.
  induction cs as [|c cs IH]; intros ks ds H Hd Hk.
  - destruct (tiles_nil_l _ _ H) as [-> ->]. reflexivity.
  - destruct (tiles_cons_l _ _ _ _ H) as (k & ks' & d & ds' & -> & -> & -> & H'). inversion Hd; inversion Hk; subst. cbn. rewrite Z.div_mul by lia. f_equal. now apply IH.
Qed.
Lemma combine_fst {A B} (l : list A) : forall l' : list B, List.length l = List.length l' -> map fst (combine l l') = l.
Proof. induction l as [|x l IH]; intros [|y l'] H; cbn in *; try discriminate; auto. f_equal. apply IH. lia. Qed.
Lemma combine_snd {A B} (l : list A) : forall l' : list B, List.length l = List.length l' -> map snd (combine l l') = l'.
Proof. induction l as [|x l IH]; intros [|y l'] H; cbn in *; try discriminate; auto. f_equal. apply IH. lia. Qed.
Lemma inb_length_gen {A B} (P : A -> B -> Prop) l l' : Forall2 P l l' -> List.length l = List.length l'.
Proof. induction 1; cbn; auto. Qed.
Lemma tiles_len cs ks ds : tiles cs ks ds -> List.length cs = List.length ds /\ List.length ks = List.length ds.
Proof. intros [H1 H2]. split; auto. apply inb_length_gen in H1. rewrite combine_length in H1. lia. Qed.
Lemma flatten_nonneg ps : Forall (fun p => 0 <= fst p /\ 0 <= snd p) ps -> existsb (fun n => n <? 0) (flatten_pairs ps) = false.
Proof. induction 1 as [|p ps [H1 H2] _ IH]; [reflexivity|]. unfold flatten_pairs in *. cbn [flat_map app existsb]. rewrite IH. destruct (Z.ltb_spec (fst p) 0), (Z.ltb_spec (snd p) 0); try lia; reflexivity. Qed.
Definition op_named (operation : string) (op : Z -> (Z -> R) -> R) : Prop :=
  lower operation = "sum"%string /\ op = op_sum \/ lower operation = "mean"%string /\ op = op_mean.
Lemma op_named_ext s op : op_named s op -> op_ext op.
Proof. intros [[_ ->]|[_ ->]]; [apply op_sum_ext|apply op_mean_ext]. Qed.
(** the core of both modes: any pairs (d, k) with c = k d *)
Lemma bin_to_val a ns operation op ks ds : op_named operation op ->
  (match ns with PyShape l => l = ds /\ ~ In 0 ds | NpShape l => l = ds end) ->
  map (fun dc => (fst dc, snd dc / fst dc)) (combine ds (shape a)) = combine ds ks ->
  tiles (shape a) ks ds -> Forall (fun d => 0 <= d) ds -> Forall (fun k => 0 <= k) ks ->
  exists r, bin_to a ns operation = Ok r /\ shape r = ds /\ forall i, inb ds i -> get r i = nest op ks (fun o => get a (block_ix ks i o)).
Proof.
  intros Hop Hns Ep Ht Hd Hk. destruct (tiles_len _ _ _ Ht) as [L1 L2]. unfold bin_to.
  assert (Eop : (if String.eqb (lower operation) "sum" then Ok op_sum else if String.eqb (lower operation) "mean" then Ok op_mean else Err ValueError) = Ok op).
  { destruct Hop as [[-> ->]|[-> ->]]; reflexivity. }
  rewrite Eop. cbn [bind].
  replace (match ns with PyShape l => l | NpShape l => l end) with ds by (destruct ns; [destruct Hns|]; subst; reflexivity).
  rewrite L1, Nat.eqb_refl. cbn [negb].
  replace (match ns with PyShape l => existsb (Z.eqb 0) l | NpShape _ => false end) with false.
  2:{ destruct ns; auto. destruct Hns as [-> Hn]. symmetry. apply not_true_iff_false. rewrite existsb_exists. intros (x & Hx & E). apply Hn. assert (x = 0) as <- by lia. exact Hx. }
  rewrite Ep. unfold reshape. rewrite flatten_nonneg.
  2:{ clear - Hd Hk L2. revert ks Hk L2. induction Hd as [|d ds Hd0 Hd IH]; intros ks Hk L2; [constructor|]. destruct ks as [|k ks]; [constructor|]. inversion Hk; subst. cbn. constructor; [cbn; auto|apply IH; auto; cbn in L2; lia]. }
  rewrite size_flatten, <- (tiles_size _ _ _ Ht), Z.eqb_refl by auto. cbn [bind]. eexists. split; [reflexivity|].
  pose proof (reduce_loop op (op_named_ext _ _ Hop) (combine ds ks) [] (mkArr (flatten_pairs (combine ds ks)) (fun ix => flat a (ravel (flatten_pairs (combine ds ks)) ix))) O) as R.
  cbn [shape] in R. rewrite app_nil_r in R. specialize (R eq_refl eq_refl). cbn zeta in R. rewrite combine_length, L2, Nat.min_id in R. rewrite combine_fst in R by auto. rewrite app_nil_r in R.
  destruct R as [R1 R2]. split; [exact R1|]. intros i Hi. specialize (R2 i []). rewrite !app_nil_r in R2. rewrite R2 by (auto; symmetry; apply (inb_length _ _ Hi)). rewrite combine_snd by auto.
  apply nest_ext; [apply (op_named_ext _ _ Hop)|]. intros o Ho. rewrite app_nil_r. cbn [get]. destruct (ravel_inter _ _ _ _ _ Ht Hi Ho) as [-> Hb]. unfold flat. now rewrite unravel_ravel.
Qed.

(** ** C14 *)
(** A target shape that divides the shape: block sums and block means. *)
Theorem C14_block_sums a ks ds b operation : tiles (shape a) ks ds -> Forall (fun k => 0 < k) ks -> Forall (fun d => 0 < d) ds -> lower operation = "sum"%string ->
  exists r, bin_ndarray a (Some (PyShape ds)) b operation = Ok r /\ shape r = ds /\ (forall i, inb ds i -> get r i = block_sum a ks i) /\ total r = total a.
Proof.
  intros Ht Hk Hd Ho.
  destruct (bin_to_val a (PyShape ds) operation op_sum ks ds) as (r & E1 & E2 & E3); auto.
  - left. auto.
  - split; auto. intros H. apply (proj1 (Forall_forall _ _) Hd) in H. lia.
  - now apply tiles_pairs.
  - eapply Forall_impl; [|exact Hd]. cbn; lia.
  - eapply Forall_impl; [|exact Hk]. cbn; lia.
  - assert (E3' : forall i, inb ds i -> get r i = block_sum a ks i) by (intros i Hi; rewrite E3, nest_sum by auto; reflexivity).
    exists r. repeat split; auto. unfold total. rewrite E2. rewrite (Rsum_tile _ ks ds _ Ht).
    + apply Rsum_ext. intros i Hi. apply E3', in_all_ix, Hi.
    + eapply Forall_impl; [|exact Hk]. cbn; lia.
    + eapply Forall_impl; [|exact Hd]. cbn; lia.
Qed.
Theorem C14_block_means a ks ds b operation : tiles (shape a) ks ds -> Forall (fun k => 0 < k) ks -> Forall (fun d => 0 < d) ds -> lower operation = "mean"%string ->
  exists r, bin_ndarray a (Some (PyShape ds)) b operation = Ok r /\ shape r = ds /\ forall i, inb ds i -> get r i = (block_sum a ks i / IZR (size ks))%R.
Proof.
  intros Ht Hk Hd Ho.
  destruct (bin_to_val a (PyShape ds) operation op_mean ks ds) as (r & E1 & E2 & E3); auto.
  - right. auto.
  - split; auto. intros H. apply (proj1 (Forall_forall _ _) Hd) in H. lia.
  - now apply tiles_pairs.
  - eapply Forall_impl; [|exact Hd]. cbn; lia.
  - eapply Forall_impl; [|exact Hk]. cbn; lia.
  - exists r. repeat split; auto. intros i Hi. rewrite E3, nest_mean by auto. reflexivity.
Qed.
(** Every block is a partition class: each pixel lies in exactly one block. *)
Theorem C14_blocks_partition cs ks ds : tiles cs ks ds -> Forall (fun k => 0 < k) ks -> forall p, inb cs p ->
  exists i o, inb ds i /\ inb ks o /\ p = block_ix ks i o /\ forall i' o', inb ds i' -> inb ks o' -> p = block_ix ks i' o' -> i' = i /\ o' = o.
Proof.
  revert ks ds. induction cs as [|c cs IH]; intros ks ds Ht Hk p Hp.
  - destruct (tiles_nil_l _ _ Ht) as [-> ->]. exists [], []. rewrite (inb_nil _ Hp). repeat split; try constructor; now apply inb_nil.
  - destruct (tiles_cons_l _ _ _ _ Ht) as (k & ks' & d & ds' & -> & -> & -> & Ht'). inversion Hk as [|? ? K1 K2]; subst.
    destruct (inb_cons_inv _ _ _ Hp) as (x & p' & -> & Hx & Hp'). destruct (IH _ _ Ht' K2 _ Hp') as (i & o & Hi & Ho & -> & U).
    exists (x / k :: i), (x mod k :: o). split; [|split; [|split]].
    + apply inb_cons. split; auto. pose proof (Z.div_mod x k). pose proof (Z.mod_pos_bound x k). nia.
    + apply inb_cons. split; auto. apply Z.mod_pos_bound. lia.
    + cbn. f_equal. pose proof (Z.div_mod x k). lia.
    + intros i' o' Hi' Ho' E. destruct (inb_cons_inv _ _ _ Hi') as (y & i'' & -> & Hy & Hi''). destruct (inb_cons_inv _ _ _ Ho') as (z & o'' & -> & Hz & Ho'').
      cbn in E. injection E as E1 E2. destruct (U _ _ Hi'' Ho'' E2) as [-> ->]. assert (y = x / k) by (apply (Z.div_unique x k y z); lia). assert (z = x mod k) by (apply (Z.mod_unique x k y z); lia). split; f_equal; auto.
Qed.
(** A target that does not divide the shape on some axis is refused. *)
Lemma size_lt cs : forall ds, List.length cs = List.length ds -> Forall (fun c => 0 < c) cs -> Forall (fun d => 0 < d) ds ->
  let s := size (flatten_pairs (map (fun dc => (fst dc, snd dc / fst dc)) (combine ds cs))) in
  0 <= s <= size cs /\ (Exists (fun dc => snd dc mod fst dc <> 0) (combine ds cs) -> s < size cs).
Proof.
  induction cs as [|c cs IH]; intros [|d ds] Hl Hc Hd; cbn in Hl; try discriminate.
  - cbn. split; [lia|]. intros H. inversion H.
  - inversion Hc as [|? ? C1 C2]; inversion Hd as [|? ? D1 D2]; subst. cbn in *. specialize (IH ds ltac:(lia) C2 D2). destruct IH as [I1 I2].
    unfold flatten_pairs in *. set (s := size _) in *. pose proof (size_pos _ C2) as Hs.
    assert (d * (c / d) <= c) by (pose proof (Z.mul_div_le c d); lia). assert (0 <= c / d) by (apply Z.div_pos; lia). assert (0 <= d * (c / d)) by nia.
    replace (d * (c / d * s)) with (d * (c / d) * s) by ring.
    split; [nia|]. intros H3. inversion H3 as [x y Hx|x y Hx]; subst; cbn in *.
    + assert (d * (c / d) < c). { pose proof (Z.div_mod c d). pose proof (Z.mod_pos_bound c d). lia. } destruct (Z.eq_dec s 0); nia.
    + specialize (I2 Hx). destruct (Z.eq_dec (d * (c / d)) 0) as [->|]; [|nia]. nia.
Qed.
Theorem C14_indivisible_refused a ds b operation : List.length (shape a) = List.length ds -> Forall (fun c => 0 < c) (shape a) -> Forall (fun d => 0 < d) ds ->
  (exists j, (j < List.length ds)%nat /\ nth j (shape a) 0 mod nth j ds 1 <> 0) ->
  bin_ndarray a (Some (PyShape ds)) b operation = Err ValueError.
Proof.
  intros Hl Hc Hd (j & Hj & Hn). cbn [bin_ndarray]. unfold bin_to.
  destruct (if String.eqb (lower operation) "sum" then _ else _) as [op|e] eqn:Eop; cbn [bind].
  2:{ revert Eop. destruct (String.eqb _ _); [discriminate|]. destruct (String.eqb _ _); [discriminate|]. now intros [= <-]. }
  rewrite Hl, Nat.eqb_refl. cbn [negb].
  destruct (existsb (Z.eqb 0) ds) eqn:E0. { apply existsb_exists in E0. destruct E0 as (x & Hx & E). apply (proj1 (Forall_forall _ _) Hd) in Hx. lia. }
  unfold reshape. destruct (existsb (fun n => n <? 0) _); [reflexivity|]. destruct (size_lt _ _ Hl Hc Hd) as [_ H]. cbn zeta in H.
  destruct (Z.eqb_spec (size (flatten_pairs (map (fun dc => (fst dc, snd dc / fst dc)) (combine ds (shape a))))) (size (shape a))) as [E|]; [|reflexivity].
  exfalso. rewrite E in H. assert (size (shape a) < size (shape a)); [|lia]. apply H. clear - Hl Hj Hn.
  revert ds Hl Hj Hn. generalize (shape a) as cs. intros cs. revert j. induction cs as [|c cs IH]; intros j [|d ds] Hl Hj Hn; cbn in *; try lia.
  destruct j; [now apply Exists_cons_hd|]. apply Exists_cons_tl. apply (IH j); auto; lia.
Qed.
(** With bin_size the remainder at the end of each axis is dropped and whole blocks are summed. *)
Lemma bin_crop_len n b : 0 <= n -> 0 < b -> slice_len n (bin_crop n b) = n - n mod b /\ norm_start n (bin_crop n b) = 0.
Proof.
  intros Hn Hb. pose proof (Z.mod_pos_bound n b Hb). pose proof (Z.mod_le n b Hn Hb). unfold bin_crop, slice_len, np_mod. destruct (Z.eqb_spec b 0); [lia|]. destruct (Z.eqb_spec (n mod b) 0); cbn; [lia|].
  unfold norm_bound. destruct (Z.ltb_spec (- (n mod b)) 0); lia.
Qed.
Lemma crop_all sh : forall bs, List.length bs = List.length sh -> Forall (fun n => 0 <= n) sh -> Forall (fun b => 0 < b) bs ->
  let sls := map (fun nb => bin_crop (fst nb) (snd nb)) (combine sh bs) in
  let ds := map (fun nb => fst nb / snd nb) (combine sh bs) in
  List.length sls = List.length sh /\ List.length ds = List.length sh /\ Forall (fun d => 0 <= d) ds /\
  slice_shape sh sls = map (fun nb => fst nb - fst nb mod snd nb) (combine sh bs) /\ (forall ix, List.length ix = List.length sh -> slice_index sh sls ix = ix) /\
  exists ks, tiles (slice_shape sh sls) ks ds /\ Forall (fun k => 0 <= k) ks /\ map (fun dc => (fst dc, snd dc / fst dc)) (combine ds (slice_shape sh sls)) = combine ds ks /\
    (Forall (fun d => 0 < d) ds -> ks = bs).
Proof.
  induction sh as [|n sh IH]; intros [|b bs] Hl Hs Hb; try discriminate Hl.
  - cbn. repeat split; auto. exists []. repeat split; constructor.
  - inversion Hs as [|? ? S1 S2]; inversion Hb as [|? ? B1 B2]; subst. destruct (IH bs ltac:(cbn in Hl; lia) S2 B2) as (I1 & I2 & I3 & I4 & I5 & ks & K1 & K2 & K3 & K4).
    destruct (bin_crop_len n b S1 B1) as [L1 L2]. cbn zeta. cbn [combine map fst snd slice_shape List.length]. rewrite L1. repeat split; try lia.
    + constructor; auto. apply Z.div_pos; lia.
    + now rewrite I4.
    + intros [|i ix] Hix; [discriminate|]. cbn [slice_index]. rewrite L2, I5 by (cbn in Hix; lia). f_equal.
    + assert (Ec : n - n mod b = b * (n / b)) by (pose proof (Z.div_mod n b); lia).
      exists ((if n / b =? 0 then 0 else b) :: ks). rewrite Ec. destruct K1 as [K1a K1b]. split; [split|split; [|split]].
      * cbn [combine]. constructor; [cbn [fst snd]; destruct (Z.eqb_spec (n / b) 0) as [->|]; lia|exact K1a].
      * cbn. f_equal. exact K1b.
      * constructor; auto. destruct (n / b =? 0); lia.
      * cbn [combine map fst snd]. f_equal; [f_equal|exact K3]. destruct (Z.eqb_spec (n / b) 0) as [->|]; [now rewrite Zdiv_0_r|apply Z.div_mul; auto].
      * intros Hp. inversion Hp as [|? ? P1 P2]; subst. destruct (Z.eqb_spec (n / b) 0); [lia|]. now rewrite K4.
Qed.
Lemma bin_size_val a bs bins operation : List.length bs = List.length (shape a) -> Forall (fun n => 0 <= n) (shape a) -> Forall (fun b => 0 < b) bs ->
  (bins = BSeq bs \/ exists b, bs = repeat b (List.length (shape a)) /\ (bins = BScalar b \/ bins = BSeq [b])) -> forall op, op_named operation op ->
  exists r, bin_ndarray a None (Some bins) operation = Ok r /\ shape r = map (fun nb => fst nb / snd nb) (combine (shape a) bs) /\
    forall i, inb (shape r) i -> get r i = nest op bs (fun o => get a (block_ix bs i o)).
Proof.
  intros Hl Hs Hb Hbins op Ho. cbn [bin_ndarray].
  assert (Eb : bcast_bins (List.length (shape a)) bins = Ok bs).
  { destruct Hbins as [->|(b & Eb & [->| ->])]; cbn [bcast_bins].
    - destruct bs as [|b [|b' bs]]; cbn [bcast_bins]; [now rewrite <- Hl|now rewrite <- Hl|]. now rewrite Hl, Nat.eqb_refl.
    - now rewrite Eb. - now rewrite Eb. }
  rewrite Eb. cbn [bind]. destruct (crop_all (shape a) bs Hl Hs Hb) as (I1 & I2 & I3 & I4 & I5 & ks & K1 & K2 & K3 & K4). cbn zeta in *.
  unfold getitem. rewrite I1, Nat.ltb_irrefl. cbn [bind]. set (ds := map (fun nb => fst nb / snd nb) (combine (shape a) bs)) in *. set (sls := map (fun nb => bin_crop (fst nb) (snd nb)) (combine (shape a) bs)) in *.
  set (a' := mkArr (slice_shape (shape a) sls) (fun ix => get a (slice_index (shape a) sls ix))).
  destruct (bin_to_val a' (NpShape ds) operation op ks ds) as (r & E1 & E2 & E3); auto.
  exists r. split; [exact E1|]. split; [exact E2|]. rewrite E2. intros i Hi. rewrite E3 by auto. rewrite K4 by (apply (inb_pos _ _ Hi)). apply nest_ext; [apply (op_named_ext _ _ Ho)|]. intros o Hio. cbn [a' get]. rewrite I5; auto.
  pose proof (inb_length _ _ Hi) as Li. pose proof (inb_length _ _ Hio) as Lo. clear - Li Lo Hl I2. rewrite Hl in Lo.
  assert (Lx : forall bs i o, List.length i = List.length bs -> List.length o = List.length bs -> List.length (block_ix bs i o) = List.length bs).
  { clear. induction bs as [|b bs IH]; intros [|x i] [|y o] H1 H2; cbn in *; try discriminate; auto. }
  rewrite Lx; lia.
Qed.
Theorem C14_bin_size a bs bins operation : List.length bs = List.length (shape a) -> Forall (fun n => 0 <= n) (shape a) -> Forall (fun b => 0 < b) bs ->
  (bins = BSeq bs \/ exists b, bs = repeat b (List.length (shape a)) /\ (bins = BScalar b \/ bins = BSeq [b])) ->
  lower operation = "sum"%string \/ lower operation = "mean"%string ->
  exists r, bin_ndarray a None (Some bins) operation = Ok r /\ shape r = map (fun nb => fst nb / snd nb) (combine (shape a) bs) /\
    forall i, inb (shape r) i ->
      (lower operation = "sum"%string -> get r i = block_sum a bs i) /\
      (lower operation = "mean"%string -> get r i = (block_sum a bs i / IZR (size bs))%R).
Proof.
  intros Hl Hs Hb Hbins [Ho|Ho].
  - destruct (bin_size_val a bs bins operation Hl Hs Hb Hbins op_sum) as (r & E1 & E2 & E3); [left; auto|]. exists r. split; [exact E1|]. split; [exact E2|].
    intros i Hi. split; [intros _; rewrite E3, nest_sum by auto; reflexivity|rewrite Ho; discriminate].
  - destruct (bin_size_val a bs bins operation Hl Hs Hb Hbins op_mean) as (r & E1 & E2 & E3); [right; auto|]. exists r. split; [exact E1|]. split; [exact E2|].
    intros i Hi. split; [rewrite Ho; discriminate|intros _; rewrite E3, nest_mean by auto; reflexivity].
Qed.
(** A bin size that is not positive is refused, when no axis is shorter than its bin. *)
Lemma crop_pos sh : forall bs, List.length bs = List.length sh -> Forall (fun n => 0 < n) sh -> Forall2 (fun n b => 0 <= b <= n) sh bs ->
  Forall (fun c => 0 < c) (slice_shape sh (map (fun nb => bin_crop (fst nb) (snd nb)) (combine sh bs))).
Proof.
  induction sh as [|n sh IH]; intros [|b bs] Hl Hn Hb; try discriminate Hl; [constructor|]. inversion Hn; inversion Hb; subst. cbn. constructor; [|apply IH; auto].
  destruct (Z.eq_dec b 0) as [->|]; [cbn; unfold slice_len; cbn; lia|]. destruct (bin_crop_len n b ltac:(lia) ltac:(lia)) as [-> _]. pose proof (Z.mod_pos_bound n b). lia.
Qed.
Theorem C14_bad_bins a bs operation : List.length bs = List.length (shape a) -> Forall (fun n => 0 < n) (shape a) ->
  (Exists (fun b => b < 0) bs \/ Exists (fun b => b = 0) bs /\ Forall2 (fun n b => 0 <= b <= n) (shape a) bs) ->
  bin_ndarray a None (Some (BSeq bs)) operation = Err ValueError.
Proof.
  intros Hl Hn H. cbn [bin_ndarray]. assert (Eb : bcast_bins (List.length (shape a)) (BSeq bs) = Ok bs).
  { destruct bs as [|b [|b' bs]]; cbn [bcast_bins]; [now rewrite <- Hl|now rewrite <- Hl|]. now rewrite Hl, Nat.eqb_refl. }
  rewrite Eb. cbn [bind]. unfold getitem. assert (Lsl : List.length (map (fun nb => bin_crop (fst nb) (snd nb)) (combine (shape a) bs)) = List.length (shape a)) by (rewrite map_length, combine_length; lia).
  rewrite Lsl, Nat.ltb_irrefl. cbn [bind]. unfold bin_to. cbn [shape].
  destruct (if String.eqb (lower operation) "sum" then _ else _) as [op|e] eqn:Eop; cbn [bind].
  2:{ revert Eop. destruct (String.eqb _ _); [discriminate|]. destruct (String.eqb _ _); [discriminate|]. now intros [= <-]. }
  destruct (negb _); [reflexivity|]. unfold reshape. set (ps := map _ (combine (map _ _) _)).
  assert (Ls : forall sls sh, List.length sls = List.length sh -> List.length (slice_shape sh sls) = List.length sh).
  { clear. induction sls as [|s sls IH]; intros [|n sh] E; try discriminate E; [reflexivity|]. cbn. f_equal. apply IH. now injection E. }
  destruct H as [H|[H H']].
  - assert (E : existsb (fun n => n <? 0) (flatten_pairs ps) = true).
    { apply existsb_exists. apply Exists_exists in H. destruct H as (b & Hb & Hneg). apply (In_nth _ _ 0) in Hb. destruct Hb as (j & Hj & Ej).
      assert (P : nth j ps (0, 0) = (nth j (shape a) 0 / b, nth j (slice_shape (shape a) (map (fun nb => bin_crop (fst nb) (snd nb)) (combine (shape a) bs))) 0 / (nth j (shape a) 0 / b))).
      { unfold ps. rewrite (nth_indep _ _ (let dc := (fst (0, 0) / snd (0, 0), 0) in (fst dc, snd dc / fst dc))) by (rewrite map_length, combine_length, map_length, combine_length, Ls; lia).
        rewrite (map_nth (fun dc : Z * Z => (fst dc, snd dc / fst dc)) _ (fst (0, 0) / snd (0, 0), 0)), combine_nth by (rewrite map_length, combine_length, Ls; lia).
        rewrite (map_nth (fun nb : Z * Z => fst nb / snd nb) _ (0, 0)), combine_nth by lia. now rewrite Ej. }
      exists (nth j (shape a) 0 / b). assert (N : 0 < nth j (shape a) 0). { apply (proj1 (Forall_forall _ _) Hn). apply nth_In. lia. }
      split; [|apply Z.ltb_lt; rewrite <- Z.div_opp_opp by lia; apply Z.div_lt_upper_bound; lia].
      unfold flatten_pairs. apply in_flat_map. exists (nth j ps (0, 0)). split; [apply nth_In; unfold ps; rewrite map_length, combine_length, map_length, combine_length, Ls; lia|].
      rewrite P. left. reflexivity. }
    rewrite E. reflexivity.
  - destruct (existsb _ (flatten_pairs ps)); [reflexivity|]. pose proof (crop_pos (shape a) bs Hl Hn H') as Cp. apply size_pos in Cp.
    assert (Z0 : size (flatten_pairs ps) = 0).
    { assert (Ex : Exists (fun p => fst p = 0) ps).
      { unfold ps. assert (Lc : List.length (slice_shape (shape a) (map (fun nb => bin_crop (fst nb) (snd nb)) (combine (shape a) bs))) = List.length (shape a)) by (apply Ls; exact Lsl).
        revert Lc. generalize (slice_shape (shape a) (map (fun nb => bin_crop (fst nb) (snd nb)) (combine (shape a) bs))). clear - Hl H. revert Hl H. generalize (shape a). induction bs as [|b bs IH]; intros sh Hl H l Lc; [inversion H|].
        destruct sh as [|n sh]; [discriminate|]. destruct l as [|c l]; [discriminate|]. cbn. inversion H; subst; [apply Exists_cons_hd; cbn; apply Zdiv_0_r|apply Exists_cons_tl]. apply IH; auto. }
      clear - Ex. induction Ex as [[d c] l E|p l E IH]; unfold flatten_pairs in *; cbn in *; [subst; lia|rewrite IH; lia]. }
    rewrite Z0. cbn [shape]. destruct (Z.eqb_spec 0 (size (slice_shape (shape a) (map (fun nb => bin_crop (fst nb) (snd nb)) (combine (shape a) bs))))); [lia|reflexivity].
Qed.
Print Assumptions C14_bad_bins.
(** Refusals *)
(** One bin size per axis: another number of them is refused (a single one counts for every axis). *)
Theorem C14_wrong_number_of_bins a bs operation : List.length bs <> List.length (shape a) -> List.length bs <> 1%nat ->
  bin_ndarray a None (Some (BSeq bs)) operation = Err (if (List.length (shape a) =? 1)%nat && (2 <=? List.length bs)%nat then IndexError else ValueError).
Proof.
  intros H1 H2. cbn [bin_ndarray]. destruct bs as [|b [|b' bs]]; [|cbn in H2; congruence|]; cbn [bcast_bins]; rewrite (proj2 (Nat.eqb_neq _ _) H1); cbn [bind].
  - cbn [List.length Nat.eqb negb Nat.leb]. now rewrite andb_false_r.
  - cbn [List.length Nat.eqb negb Nat.leb]. destruct (List.length (shape a) =? 1)%nat; reflexivity.
Qed.
Print Assumptions C14_wrong_number_of_bins.
Theorem C14_refusals a ns b operation :
  (lower operation <> "sum"%string -> lower operation <> "mean"%string -> bin_ndarray a (Some ns) b operation = Err ValueError) /\
  (List.length (shape a) <> List.length (match ns with PyShape l => l | NpShape l => l end) -> bin_ndarray a (Some ns) b operation = Err ValueError) /\
  bin_ndarray a None None operation = Err ValueError.
Proof.
  repeat split; auto.
  - intros H1 H2. cbn. unfold bin_to. rewrite (proj2 (String.eqb_neq _ _) H1), (proj2 (String.eqb_neq _ _) H2). reflexivity.
  - intros H. cbn. unfold bin_to. destruct (String.eqb (lower operation) "sum"), (String.eqb (lower operation) "mean"); cbn [bind]; try reflexivity; rewrite (proj2 (Nat.eqb_neq _ _) H); reflexivity.
Qed.
Print Assumptions C14_block_sums. Print Assumptions C14_block_means. Print Assumptions C14_blocks_partition. Print Assumptions C14_indivisible_refused. Print Assumptions C14_bin_size. Print Assumptions C14_refusals.
Example C14_witness : tiles [4; 6] [2; 3] [2; 2] /\ Forall (fun k => 0 < k) [2; 3] /\ lower "SUM" = "sum"%string.
Proof. split; [|split]; [split; repeat constructor|repeat constructor|reflexivity]. Qed.
Example C14_witness2 : exists r, bin_ndarray (mkArr [4; 7] (fun ix => IZR (nth 1 ix 0))) None (Some (BSeq [2; 3])) "sum" = Ok r /\ shape r = [2; 2] /\ get r [0; 1] = 24%R.
Proof.
  destruct (C14_bin_size (mkArr [4; 7] (fun ix => IZR (nth 1 ix 0))) [2; 3] (BSeq [2; 3]) "sum") as (r & E1 & E2 & E3); auto; try (repeat constructor; lia).
  exists r. split; [exact E1|]. split; [exact E2|]. rewrite (proj1 (E3 [0; 1] ltac:(rewrite E2; repeat constructor; lia)) eq_refl). unfold block_sum. change (all_ix [2; 3]) with [[0; 0]; [0; 1]; [0; 2]; [1; 0]; [1; 1]; [1; 2]]. cbn -[IZR Rplus]. lra.
Qed.

(** bin_ndarray(ones((4, 7)), bin_size=(2, 0)) and bin_size=(2, -3) meet the hypotheses of C14_bad_bins. *)
Example C14_bad_bins_witness : let a := mkArr [4; 7] (fun _ => 1%R) in
  bin_ndarray a None (Some (BSeq [2; 0])) "mean" = Err ValueError /\ bin_ndarray a None (Some (BSeq [2; -3])) "mean" = Err ValueError.
Proof.
  cbv zeta. assert (P : Forall (fun n => 0 < n) [4; 7]) by (repeat constructor). split; (apply C14_bad_bins; [reflexivity|exact P|]).
  - right. split; [apply Exists_cons_tl, Exists_cons_hd; reflexivity|]. repeat constructor; lia.
  - left. apply Exists_cons_tl, Exists_cons_hd. reflexivity.
Qed.
