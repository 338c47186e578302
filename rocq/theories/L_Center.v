(** center_data, remove_bg, prep_data_for_PR. *)
From Verif Require Import M_Utils S_Utils L_Array L_Pad L_Slice.
From Coq Require Import Lqa Qminmax.
Local Open Scope Z_scope.

Lemma upd_nth_app pre i rest g :
  upd_nth (length pre) g (pre ++ i :: rest) = pre ++ g i :: rest.
Proof. induction pre; simpl; congruence. Qed.

Lemma roll_all_shape {A} moves k (a : array A) : shape (roll_all k moves a) = shape a.
Proof. revert k a. induction moves as [|[x n] m IH]; intros; simpl; auto. now rewrite IH. Qed.

Lemma roll_all_get {A} sh : forall (a : array A) pre loc ipre ix,
  shape a = pre ++ sh -> length ipre = length pre -> length loc = length sh -> length ix = length sh ->
  get (roll_all (length pre) (combine loc sh) a) (ipre ++ ix)
  = get a (ipre ++ cyc_src sh loc ix).
Proof.
  induction sh as [|n sh IH]; intros a pre [|x loc] ipre [|i ix] Hs Hp Hl Hi; try discriminate; auto.
  cbn [combine roll_all].
  replace (ipre ++ i :: ix) with ((ipre ++ [i]) ++ ix) by now rewrite <- app_assoc.
  replace (S (length pre)) with (length (pre ++ [n])) by (rewrite app_length; simpl; lia).
  rewrite IH.
  - unfold roll. cbn [get]. rewrite <- app_assoc. cbn [app].
    rewrite <- Hp, upd_nth_app. rewrite Hp, Hs, app_nth2, Nat.sub_diag by lia. cbn [nth].
    unfold cyc_src. cbn [combine map fst snd]. replace (i - (n / 2 - x)) with (i - n / 2 + x) by lia. reflexivity.
  - unfold roll. cbn [shape]. now rewrite Hs, <- app_assoc.
  - rewrite !app_length. simpl. lia.
  - simpl in Hl. lia.
  - simpl in Hi. lia.
Qed.

Lemma cyc_src_inb sh loc ix : length loc = length sh -> inb sh ix -> inb sh (cyc_src sh loc ix).
Proof.
  intros Hl H. revert loc Hl. unfold cyc_src. induction H as [|n i sh ix Hi H IH]; intros [|x loc] Hl; try discriminate; simpl; constructor.
  - apply Z.mod_pos_bound. lia.
  - apply IH. simpl in Hl. lia.
Qed.

(** the shift is undone by its mirror image *)
Definition cyc_dst (sh loc ix : list Z) : list Z :=
  map (fun t => (fst t + fst (snd t) / 2 - snd (snd t)) mod fst (snd t)) (combine ix (combine sh loc)).

Lemma cyc_inv1 sh loc ix : length loc = length sh -> inb sh ix -> cyc_dst sh loc (cyc_src sh loc ix) = ix.
Proof.
  intros Hl H. revert loc Hl. unfold cyc_src, cyc_dst.
  induction H as [|n i sh ix Hi H IH]; intros [|x loc] Hl; try discriminate; simpl; auto.
  f_equal; [|apply IH; simpl in Hl; lia].
  rewrite <- Z.add_sub_assoc, Zplus_mod_idemp_l. replace (_ + _) with i by lia. apply Z.mod_small; lia.
Qed.
Lemma cyc_inv2 sh loc ix : length loc = length sh -> inb sh ix -> cyc_src sh loc (cyc_dst sh loc ix) = ix.
Proof.
  intros Hl H. revert loc Hl. unfold cyc_src, cyc_dst.
  induction H as [|n i sh ix Hi H IH]; intros [|x loc] Hl; try discriminate; simpl; auto.
  f_equal; [|apply IH; simpl in Hl; lia].
  replace (((i + n / 2 - x) mod n - n / 2 + x)) with ((i + n / 2 - x) mod n + (x - n / 2)) by lia.
  rewrite Zplus_mod_idemp_l. replace (_ + _) with i by lia. apply Z.mod_small; lia.
Qed.
Lemma cyc_dst_inb sh loc ix : length loc = length sh -> inb sh ix -> inb sh (cyc_dst sh loc ix).
Proof.
  intros Hl H. revert loc Hl. unfold cyc_dst. induction H as [|n i sh ix Hi H IH]; intros [|x loc] Hl; try discriminate; simpl; constructor.
  - apply Z.mod_pos_bound. lia.
  - apply IH. simpl in Hl. lia.
Qed.

Lemma centre_inb sh : Forall (fun n => 0 < n) sh -> inb sh (centre sh).
Proof. unfold centre. induction 1; simpl; constructor; auto. lia. Qed.

Lemma cyc_src_centre sh loc : inb sh loc -> cyc_src sh loc (centre sh) = loc.
Proof.
  unfold cyc_src, centre. induction 1 as [|n x sh loc Hx H IH]; simpl; auto.
  f_equal; auto. rewrite Z.sub_diag. cbn. apply Z.mod_small; lia.
Qed.

Lemma center_data_ok {A} (ltb : A -> A -> bool) (W : strict_weak ltb) (a : array A) :
  Forall (fun n => 0 < n) (shape a) ->
  exists b loc, center_data ltb a = Ok b /\ shape b = shape a /\
    first_max ltb a loc /\
    get b (centre (shape a)) = get a loc /\
    (forall ix, inb (shape a) ix -> get b ix = get a (cyc_src (shape a) loc ix)).
Proof.
  intros Hp. pose proof (size_pos _ Hp) as Hs.
  unfold center_data, argmax. destruct (size (shape a) <=? 0) eqn:E; [lia|]. cbn [bind].
  set (m := argmax_from ltb (flat a) (zseq (size (shape a))) 0).
  destruct (argmax_inv ltb W (flat a) (size (shape a)) Hs) as (Bm & Mx & Fst). fold m in Bm, Mx, Fst.
  set (loc := unravel (shape a) m).
  assert (Hloc : inb (shape a) loc) by (apply inb_unravel; auto).
  assert (Hfl : forall ix, inb (shape a) ix -> get a ix = flat a (ravel (shape a) ix)).
  { intros ix Hix. unfold flat. now rewrite unravel_ravel. }
  assert (Hlr : ravel (shape a) loc = m) by (apply ravel_unravel; auto).
  assert (G : forall ix, inb (shape a) ix -> get (roll_all 0 (combine loc (shape a)) a) ix = get a (cyc_src (shape a) loc ix)).
  { intros ix Hix. apply (roll_all_get (shape a) a [] loc [] ix); auto.
    - symmetry; now apply inb_length.
    - symmetry; now apply inb_length. }
  exists (roll_all 0 (combine loc (shape a)) a), loc. split; [reflexivity|].
  split; [apply roll_all_shape|]. split.
  - split; [auto|]. split.
    + intros ix Hix. rewrite !Hfl by auto. rewrite Hlr. apply Mx. now apply ravel_bound.
    + intros ix Hix Hlex. rewrite !Hfl by auto. rewrite Hlr. apply Fst.
      split; [apply ravel_bound; auto|]. rewrite <- Hlr. now apply ravel_lex.
  - split; [|exact G]. rewrite G by now apply centre_inb. now rewrite cyc_src_centre.
Qed.

Lemma center_data_empty {A} (ltb : A -> A -> bool) (a : array A) :
  Forall (fun n => 0 <= n) (shape a) -> Exists (fun n => n = 0) (shape a) ->
  center_data ltb a = Err ValueError.
Proof.
  intros Hn H. unfold center_data, argmax.
  assert (E : size (shape a) = 0).
  { clear Hn. induction H; simpl; [subst; lia|lia]. }
  rewrite E. reflexivity.
Qed.

(** ** remove_bg *)
Lemma occ_spec v l : occurrences v l = Z.of_nat (count_occ Z.eq_dec l v).
Proof.
  unfold occurrences. f_equal. induction l as [|x l IH]; simpl; auto.
  destruct (Z.eqb_spec v x) as [Heq|Hne]; destruct (Z.eq_dec x v); simpl; try congruence; auto.
Qed.

Lemma list_max_ge l v : In v l -> v <= list_max l.
Proof. unfold list_max. induction l; simpl; intros []; subst; lia. Qed.
Lemma list_max_nonneg l : 0 <= list_max l.
Proof. unfold list_max. induction l; simpl; lia. Qed.

Lemma zltb_sw : strict_weak Z.ltb.
Proof. constructor; intros; lia. Qed.

Lemma bincount_argmax_ok l : l <> [] -> Forall (fun v => 0 <= v) l ->
  exists m, bincount_argmax l = Ok m /\ is_mode l m.
Proof.
  intros Hne Hp. unfold bincount_argmax.
  assert (E : existsb (fun v => v <? 0) l = false).
  { clear Hne. induction Hp; simpl; auto. rewrite IHHp. lia. }
  rewrite E. destruct l as [|x0 l0]; [congruence|]. cbn [length Nat.eqb].
  set (l := x0 :: l0) in *.
  pose proof (list_max_nonneg l) as Hm.
  destruct (argmax_inv Z.ltb zltb_sw (fun v => occurrences v l) (list_max l + 1)) as (B & Mx & F); [lia|].
  set (m := argmax_from _ _ _ _) in *.
  exists m. split; auto.
  assert (Hall : forall v, In v l -> (count_occ Z.eq_dec l v <= count_occ Z.eq_dec l m)%nat).
  { intros v Hv. rewrite Forall_forall in Hp. specialize (Hp v Hv). pose proof (list_max_ge l v Hv).
    specialize (Mx v ltac:(lia)). cbv beta in Mx. rewrite !occ_spec in Mx. lia. }
  assert (Hin : In m l).
  { apply (count_occ_In Z.eq_dec). specialize (Hall x0 (or_introl eq_refl)).
    assert (In x0 l) by (now left). apply (count_occ_In Z.eq_dec) in H. lia. }
  split; auto. intros v Hv. split; [now apply Hall|].
  intros Heq. destruct (Z_lt_le_dec v m) as [L|L]; auto.
  rewrite Forall_forall in Hp. specialize (Hp v Hv).
  specialize (F v ltac:(lia)). cbv beta in F. rewrite !occ_spec in F. lia.
Qed.

Lemma bincount_argmax_neg l : Exists (fun v => v < 0) l -> bincount_argmax l = Err ValueError.
Proof.
  intros H. unfold bincount_argmax.
  assert (E : existsb (fun v => v <? 0) l = true).
  { induction H; simpl; [|rewrite IHExists; apply orb_true_r]. apply orb_true_iff. left. lia. }
  now rewrite E.
Qed.

Lemma size_to_list {A} (a : array A) v : Forall (fun n => 0 < n) (shape a) ->
  In v (flat_list a) <-> exists ix, inb (shape a) ix /\ get a ix = v.
Proof.
  intros Hp. unfold flat_list. rewrite in_map_iff. split.
  - intros (k & E & Hk). apply in_zseq in Hk. exists (unravel (shape a) k). split; auto. now apply inb_unravel.
  - intros (ix & Hix & E). exists (ravel (shape a) ix). split.
    + unfold flat. now rewrite unravel_ravel.
    + apply in_zseq. now apply ravel_bound.
Qed.

Lemma flat_list_length {A} (a : array A) : length (flat_list a) = Z.to_nat (size (shape a)).
Proof. unfold flat_list. now rewrite map_length, zseq_length. Qed.

Lemma remove_bg_ok (a : array Z) mult :
  Forall (fun n => 0 < n) (shape a) -> (forall ix, inb (shape a) ix -> 0 <= get a ix) ->
  exists b mode, remove_bg a mult = Ok b /\ is_mode (flat_list a) mode /\
    shape b = shape a /\ forall ix, get b ix = (inject_Z (get a ix) - mult * inject_Z mode)%Q.
Proof.
  intros Hp Hn. unfold remove_bg.
  destruct (bincount_argmax_ok (flat_list a)) as (m & E & M).
  - intros H. pose proof (flat_list_length a) as L. rewrite H in L. pose proof (size_pos _ Hp). simpl in L. lia.
  - apply Forall_forall. intros v Hv. apply size_to_list in Hv; auto. destruct Hv as (ix & Hix & <-). auto.
  - rewrite E. cbn [bind]. eexists _, m. split; [reflexivity|]. auto.
Qed.

Lemma remove_bg_rejects (a : array Z) mult :
  Forall (fun n => 0 <= n) (shape a) ->
  (size (shape a) = 0 \/ exists ix, inb (shape a) ix /\ get a ix < 0) -> remove_bg a mult = Err ValueError.
Proof.
  intros Hn [H0|(ix & Hix & Hneg)]; unfold remove_bg.
  - unfold flat_list. rewrite H0. reflexivity.
  - rewrite bincount_argmax_neg; auto. apply Exists_exists. exists (get a ix). split; auto.
    apply size_to_list; eauto using inb_pos.
Qed.

(** ** prep_data_for_PR *)
Lemma qltb_sw : strict_weak qltb.
Proof.
  assert (F : forall a b, qltb a b = false <-> (b <= a)%Q).
  { intros. unfold qltb. rewrite negb_false_iff. apply Qle_bool_iff. }
  assert (T : forall a b, qltb a b = true <-> ~ (b <= a)%Q).
  { intros. unfold qltb. rewrite negb_true_iff, <- Qle_bool_iff. now destruct (Qle_bool b a). }
  constructor; intros x; intros.
  - apply F. lra.
  - rewrite T in *. lra.
  - rewrite F in *. lra.
Qed.

Lemma moved_same sh ix : length ix = length sh -> moved_from sh sh ix = ix.
Proof.
  unfold moved_from. revert ix. induction sh; intros [|i ix]; simpl; intros; try discriminate; auto.
  f_equal; [lia|]. apply IHsh. congruence.
Qed.

Lemma prep_bg (data : array Z) mult :
  Forall (fun n => 0 < n) (shape data) -> (forall ix, inb (shape data) ix -> 0 <= get data ix) ->
  exists mode, is_mode (flat_list data) mode /\
   remove_bg data mult = Ok (amap (fun d => (inject_Z d - mult * inject_Z mode)%Q) data).
Proof.
  intros Hp Hn. unfold remove_bg.
  destruct (bincount_argmax_ok (flat_list data)) as (m & E & M).
  - intros H. pose proof (flat_list_length data) as L. rewrite H in L. pose proof (size_pos _ Hp). simpl in L. lia.
  - apply Forall_forall. intros v Hv. apply size_to_list in Hv; auto. destruct Hv as (ix & Hix & <-). auto.
  - exists m. rewrite E. split; auto.
Qed.

Lemma prep_pad_ok (data : array Z) nz ny nx xy mult s :
  shape data = [nz; ny; nx] -> 0 < nz -> 0 < ny -> 0 < nx ->
  (forall ix, inb (shape data) ix -> 0 <= get data ix) ->
  s = match xy with None => Z.max ny nx | Some s => s end -> Z.max ny nx <= s ->
  exists b mode, prep_data_for_PR data xy mult = Ok b /\ is_mode (flat_list data) mode /\
    shape b = [nz; s; s] /\
    (forall ix, inb [nz; s; s] ix -> inb (shape data) (moved_from (shape data) [nz; s; s] ix) ->
       get b ix = fmax0 (inject_Z (get data (moved_from (shape data) [nz; s; s] ix)) - mult * inject_Z mode)%Q) /\
    (forall ix, inb [nz; s; s] ix -> ~ inb (shape data) (moved_from (shape data) [nz; s; s] ix) -> get b ix = 0%Q).
Proof.
  intros Hs Hz Hy Hx Hn -> Hle.
  assert (Hp : Forall (fun n => 0 < n) (shape data)) by (rewrite Hs; repeat constructor; auto).
  destruct (prep_bg data mult Hp Hn) as (mode & M & Ebg).
  set (s := match xy with None => Z.max ny nx | Some s => s end) in *.
  unfold prep_data_for_PR. rewrite Hs. rewrite Ebg. cbn [bind]. fold s.
  set (bg := amap _ data).
  destruct ((s =? ny) && (ny =? nx)) eqn:E.
  - exists (amap fmax0 bg), mode. split; auto. split; auto.
    assert (E1 : s = ny) by lia. assert (E2 : ny = nx) by lia. subst nx. rewrite E1 in *.
    split; [unfold amap, bg; cbn [shape]; auto|].
    split.
    + intros ix Hix _. rewrite <- Hs, moved_same by (rewrite Hs; symmetry; now apply inb_length). reflexivity.
    + intros ix Hix Ho. exfalso. apply Ho. rewrite moved_same by (symmetry; now apply inb_length). auto.
  - destruct (Z.max ny nx <=? s) eqn:E3; [|lia].
    destruct (fft_pad_main bg [Some nz; Some s; Some s] (PadConstant 0%Q)) as (b & Eb & Sb & Gb & Fb).
    { unfold bg, amap. cbn [shape]. rewrite Hs. discriminate. }
    { unfold bg, amap. cbn [shape]. now rewrite Hs. }
    { unfold bg, amap. cbn [shape]. rewrite Hs. repeat constructor; lia. }
    { unfold newshape_nonneg. repeat constructor; lia. }
    { left. eauto. }
    rewrite Eb. cbn [bind]. exists (amap fmax0 b), mode. split; auto. split; auto.
    assert (Sbg : shape bg = shape data) by reflexivity.
    rewrite Sbg in *. rewrite Hs in Sb. cbn in Sb. rewrite Sb in *.
    split; [exact Sb|]. rewrite Hs in *. split.
    + intros ix Hix Hin. cbn [amap get]. rewrite Gb by auto. reflexivity.
    + intros ix Hix Ho. cbn [amap get]. rewrite (Fb 0%Q ix) by auto. reflexivity.
Qed.

Lemma slice_maker_two y x s : 0 <= s ->
  exists a1 b1 a2 b2,
  slice_maker [SReal (inject_Z y); SReal (inject_Z x)] (WScalar (SReal (inject_Z s)))
   = Ok [Slice (Some a1) (Some b1); Slice (Some a2) (Some b2)] /\
   (0 <= a1 <= b1 /\ forall i, a1 <= i < b1 <-> 0 <= i /\ y - s / 2 <= i < y + (s + 1) / 2) /\
   (0 <= a2 <= b2 /\ forall i, a2 <= i < b2 <-> 0 <= i /\ x - s / 2 <= i < x + (s + 1) / 2).
Proof.
  intros Hs.
  change [SReal (inject_Z y); SReal (inject_Z x)] with (map SReal [inject_Z y; inject_Z x]).
  rewrite slice_maker_scalar. cbn [length repeat].
  destruct (slice_maker_ok [inject_Z y; inject_Z x] [inject_Z s; inject_Z s]) as (ss & E & F).
  - reflexivity.
  - assert (0 <= inject_Z s)%Q by (change 0%Q with (inject_Z 0); now rewrite <- Zle_Qle).
    repeat constructor; auto.
  - rewrite E. cbn [combine] in F. inversion F as [|? ? ? ? W1 F1]; subst. inversion F1 as [|? ? ? ? W2 F2]; subst.
    inversion F2; subst. cbn [fst snd] in W1, W2. rewrite !qrint_Z in *.
    destruct W1 as (a1 & b1 & -> & B1 & I1). destruct W2 as (a2 & b2 & -> & B2 & I2).
    exists a1, b1, a2, b2. auto.
Qed.

Lemma crop_axis n s a b : 0 < n -> 0 < s -> 0 <= a <= b ->
  (forall i, a <= i < b <-> 0 <= i /\ (n + 1) / 2 - s / 2 <= i < (n + 1) / 2 + (s + 1) / 2) ->
  slice_len n (Slice (Some a) (Some b)) = crop_len s n /\ norm_start n (Slice (Some a) (Some b)) = crop_start s n.
Proof.
  intros Hn Hs Hab I.
  assert (Ha : a = crop_start s n).
  { unfold crop_start. pose proof (proj2 (I (Z.max 0 ((n + 1) / 2 - s / 2))) ltac:(lia)).
    pose proof (proj1 (I a) ltac:(lia)). lia. }
  assert (Hb : b = (n + 1) / 2 + (s + 1) / 2).
  { pose proof (proj2 (I ((n + 1) / 2 + (s + 1) / 2 - 1)) ltac:(lia)).
    destruct (Z_lt_le_dec ((n + 1) / 2 + (s + 1) / 2) b); [|lia].
    pose proof (proj1 (I ((n + 1) / 2 + (s + 1) / 2)) ltac:(lia)). lia. }
  subst b. unfold slice_len, norm_stop, norm_start, norm_bound. cbn [sl_start sl_stop].
  destruct (_ <? 0) eqn:E1; [lia|]. destruct (a <? 0) eqn:E2; [lia|].
  rewrite Ha. unfold crop_start, crop_len in *.
  pose proof (Zmod_odd n) as Ho.
  destruct (Z.odd n) eqn:Eo; destruct (s <? n) eqn:E3; destruct (s =? n) eqn:E4; cbn [andb]; lia.
Qed.

Lemma crop_len_bounds s n i : 0 < n -> 0 < s -> 0 <= i < crop_len s n -> 0 <= crop_start s n + i < n.
Proof.
  intros Hn Hs. unfold crop_len, crop_start. pose proof (Zmod_odd n) as Ho.
  destruct (Z.odd n) eqn:Eo; destruct (s <? n) eqn:E3; destruct (s =? n) eqn:E4; cbn [andb]; lia.
Qed.

Lemma prep_crop_ok (data : array Z) nz ny nx mult s :
  shape data = [nz; ny; nx] -> 0 < nz -> 0 < ny -> 0 < nx ->
  (forall ix, inb (shape data) ix -> 0 <= get data ix) ->
  0 < s < Z.max ny nx ->
  exists b mode loc, prep_data_for_PR data (Some s) mult = Ok b /\ is_mode (flat_list data) mode /\
    first_max qltb (amap (fun d => (inject_Z d - mult * inject_Z mode)%Q) data) loc /\
    shape b = [nz; crop_len s ny; crop_len s nx] /\
    (forall z y x, inb (shape b) [z; y; x] ->
       get b [z; y; x] =
       (inject_Z (get data (cyc_src [nz; ny; nx] loc [z; crop_start s ny + y; crop_start s nx + x])%Z)
        - mult * inject_Z mode)%Q).
Proof.
  intros Hs Hz Hy Hx Hn Hle.
  assert (Hp : Forall (fun n => 0 < n) (shape data)) by (rewrite Hs; repeat constructor; auto).
  destruct (prep_bg data mult Hp Hn) as (mode & M & Ebg).
  unfold prep_data_for_PR. rewrite Hs. rewrite Ebg. cbn [bind].
  set (bg := amap _ data).
  destruct ((s =? ny) && (ny =? nx)) eqn:E; [lia|].
  destruct (Z.max ny nx <=? s) eqn:E3; [lia|].
  destruct (slice_maker_two ((ny + 1) / 2) ((nx + 1) / 2) s) as (a1 & b1 & a2 & b2 & Es & [B1 I1] & [B2 I2]); [lia|].
  rewrite Es. cbn [bind].
  destruct (crop_axis ny s a1 b1) as [L1 S1]; auto; try lia.
  destruct (crop_axis nx s a2 b2) as [L2 S2]; auto; try lia.
  assert (Sbg : shape bg = [nz; ny; nx]) by exact Hs.
  destruct (center_data_ok qltb qltb_sw bg) as (c & loc & Ec & Sc & Fm & _ & Gc).
  { now rewrite Sbg, <- Hs. }
  rewrite Ec. cbn [bind].
  unfold getitem_last, getitem. rewrite Sc, Sbg. cbn [length Nat.ltb Nat.leb Nat.sub repeat app].
  eexists _, mode, loc. split; [reflexivity|]. split; auto. split; auto.
  cbn [shape slice_shape]. rewrite L1, L2.
  assert (L0 : slice_len nz full_slice = nz).
  { unfold slice_len, full_slice, norm_stop, norm_start. cbn. lia. }
  rewrite L0. split; auto.
  intros z y x Hin. cbn [get slice_index].
  apply inb_cons in Hin. destruct Hin as [Hz' Hin].
  apply inb_cons in Hin. destruct Hin as [Hy' Hin].
  apply inb_cons in Hin. destruct Hin as [Hx' _].
  rewrite S1, S2. change (norm_start nz full_slice) with 0. rewrite Z.add_0_l.
  rewrite Gc.
  - rewrite Sbg. reflexivity.
  - rewrite Sbg. repeat constructor; try lia; apply crop_len_bounds; lia.
Qed.

(** position of the brightest voxel after cropping *)
Lemma crop_peak nz ny nx s loc y x : inb [nz; ny; nx] loc ->
  crop_start s ny + y = ny / 2 -> crop_start s nx + x = nx / 2 ->
  cyc_src [nz; ny; nx] loc [nz / 2; crop_start s ny + y; crop_start s nx + x] = loc.
Proof. intros H -> ->. apply (cyc_src_centre [nz; ny; nx] loc H). Qed.

Lemma fmax0_spec x : (fmax0 x == Qminmax.Qmax 0 x)%Q.
Proof.
  unfold fmax0. destruct (Qle_bool 0 x) eqn:E.
  - apply Qle_bool_iff in E. symmetry. now apply Qminmax.Q.max_r.
  - assert (~ (0 <= x)%Q) by (rewrite <- Qle_bool_iff; congruence).
    symmetry. apply Qminmax.Q.max_l. lra.
Qed.

Lemma prep_pad_spec (data : array Z) nz ny nx xysize mult s :
  shape data = [nz; ny; nx] -> 0 < nz -> 0 < ny -> 0 < nx ->
  (forall ix, inb (shape data) ix -> 0 <= get data ix) ->
  s = match xysize with None => Z.max ny nx | Some s => s end -> Z.max ny nx <= s ->
  exists b mode, prep_data_for_PR data xysize mult = Ok b /\ is_mode (flat_list data) mode /\
    shape b = [nz; s; s] /\
    (forall ix, inb [nz; s; s] ix -> inb (shape data) (moved_from (shape data) [nz; s; s] ix) ->
       (get b ix == Qminmax.Qmax 0 (inject_Z (get data (moved_from (shape data) [nz; s; s] ix)) - mult * inject_Z mode))%Q) /\
    (forall ix, inb [nz; s; s] ix -> ~ inb (shape data) (moved_from (shape data) [nz; s; s] ix) -> get b ix = 0%Q).
Proof.
  intros H1 H2 H3 H4 H5 H6 H7.
  destruct (prep_pad_ok data nz ny nx xysize mult s H1 H2 H3 H4 H5 H6 H7) as (b & mode & E & M & S & G & F).
  exists b, mode. do 3 (split; [auto|]). split; [|auto]. intros ix Hix Hin. rewrite G by auto. apply fmax0_spec.
Qed.

Lemma prep_crop_spec (data : array Z) nz ny nx mult s :
  shape data = [nz; ny; nx] -> 0 < nz -> 0 < ny -> 0 < nx ->
  (forall ix, inb (shape data) ix -> 0 <= get data ix) ->
  0 < s < Z.max ny nx ->
  exists b mode loc, prep_data_for_PR data (Some s) mult = Ok b /\ is_mode (flat_list data) mode /\
    first_max qltb (amap (fun d => (inject_Z d - mult * inject_Z mode)%Q) data) loc /\
    shape b = [nz; crop_len s ny; crop_len s nx] /\
    (forall z y x, inb (shape b) [z; y; x] ->
       get b [z; y; x] =
       (inject_Z (get data (cyc_src [nz; ny; nx] loc [z; crop_start s ny + y; crop_start s nx + x])%Z)
        - mult * inject_Z mode)%Q) /\
    (s < Z.min ny nx ->
       forall y x, y = s / 2 - ny mod 2 -> x = s / 2 - nx mod 2 -> 0 <= y -> 0 <= x ->
       get b [nz / 2; y; x] = (inject_Z (get data loc) - mult * inject_Z mode)%Q).
Proof.
  intros H1 H2 H3 H4 H5 H6.
  destruct (prep_crop_ok data nz ny nx mult s H1 H2 H3 H4 H5 H6) as (b & mode & loc & E & M & FM & S & G).
  exists b, mode, loc. do 5 (split; [auto|]). intros Hs y x Ey Ex Py Px.
  assert (Hloc : inb [nz; ny; nx] loc). { destruct FM as [HL _]. cbn [shape amap] in HL. now rewrite H1 in HL. }
  rewrite G.
  - rewrite crop_peak; auto; unfold crop_start; lia.
  - rewrite S. unfold crop_len. destruct (s <? ny) eqn:E1; [|lia]. destruct (s <? nx) eqn:E2; [|lia].
    repeat constructor; lia.
Qed.

Lemma prep_neg_spec (data : array Z) nz ny nx mult s :
  shape data = [nz; ny; nx] -> 0 < nz -> 0 < ny -> 0 < nx ->
  (forall ix, inb (shape data) ix -> 0 <= get data ix) -> s < 0 ->
  prep_data_for_PR data (Some s) mult = Err ValueError.
Proof.
  intros Hs Hz Hy Hx Hn Hle.
  assert (Hp : Forall (fun n => 0 < n) (shape data)) by (rewrite Hs; repeat constructor; auto).
  destruct (prep_bg data mult Hp Hn) as (mode & M & Ebg).
  unfold prep_data_for_PR. rewrite Hs. rewrite Ebg. cbn [bind].
  destruct ((s =? ny) && (ny =? nx)) eqn:E; [lia|].
  destruct (Z.max ny nx <=? s) eqn:E3; [lia|].
  change [SReal (inject_Z ((ny + 1) / 2)); SReal (inject_Z ((nx + 1) / 2))]
    with (map SReal [inject_Z ((ny + 1) / 2); inject_Z ((nx + 1) / 2)]).
  rewrite slice_maker_scalar, slice_maker_neg; auto.
  - cbn. left. unfold Qlt. simpl. lia.
Qed.
