(** Proofs about [_calc_pad], [_calc_crop], [fft_pad], [slice_maker]. *)
From Verif Require Import M_Utils S_Utils L_Array.

Lemma calc_pad_closed n N :
  calc_pad n N = ((N + 1) / 2 - (n + 1) / 2, N / 2 - n / 2).
Proof.
  unfold calc_pad. cbv zeta.
  destruct (n mod 2 =? 0) eqn:E; cbn [negb]; f_equal; lia.
Qed.

Lemma calc_pad_sum n N : fst (calc_pad n N) + snd (calc_pad n N) = N - n.
Proof. rewrite calc_pad_closed. cbn [fst snd]. lia. Qed.

(** One axis of [fft_pad]. *)
Definition clip (p : Z * Z) : Z * Z := (Z.max (fst p) 0, Z.max (snd p) 0).
Definition crop_of (p : Z * Z) : pyslice := calc_crop (fst p) (snd p).

Lemma axis_len n N : 0 <= n -> 0 <= N ->
  slice_len n (crop_of (calc_pad n N)) = Z.min n N.
Proof.
  intros Hn HN. rewrite calc_pad_closed. unfold crop_of, calc_crop, slice_len, norm_start, norm_stop, norm_bound.
  cbn [fst snd sl_start sl_stop].
  destruct ((N + 1) / 2 - (n + 1) / 2 <? 0) eqn:E1; destruct (N / 2 - n / 2 <? 0) eqn:E2.
  - destruct (Z.abs ((N + 1) / 2 - (n + 1) / 2) <? 0) eqn:E3; [lia|].
    rewrite E2. lia.
  - destruct (Z.abs ((N + 1) / 2 - (n + 1) / 2) <? 0) eqn:E3; lia.
  - rewrite E2. lia.
  - lia.
Qed.

Lemma axis_start n N : 0 <= n -> 0 <= N ->
  norm_start n (crop_of (calc_pad n N)) = Z.max 0 ((n + 1) / 2 - (N + 1) / 2).
Proof.
  intros Hn HN. rewrite calc_pad_closed. unfold crop_of, calc_crop, norm_start, norm_bound.
  cbn [fst snd sl_start sl_stop].
  destruct ((N + 1) / 2 - (n + 1) / 2 <? 0) eqn:E1.
  - destruct (Z.abs ((N + 1) / 2 - (n + 1) / 2) <? 0) eqn:E3; lia.
  - lia.
Qed.

(** N-d: shapes *)
Definition axes_ok (old new : list Z) : Prop := Forall2 (fun n N => 0 <= n /\ 0 <= N) old new.

Definition pads old new := map (fun p => calc_pad (fst p) (snd p)) (combine old new).

Lemma pad_for_target old ns : length old = length ns ->
  map pad_for (combine old ns) = pads old (target_shape old ns).
Proof.
  unfold pads, target_shape. revert ns. induction old as [|o old IH]; intros [|n ns]; simpl; intros H; try discriminate; auto.
  rewrite IH by congruence. f_equal. unfold pad_for. destruct n; reflexivity.
Qed.

Lemma crop_shape old new : axes_ok old new ->
  slice_shape old (map crop_of (pads old new)) = map (fun p => Z.min (fst p) (snd p)) (combine old new).
Proof.
  induction 1 as [|n N old new [Hn HN] H IH]; simpl; auto.
  unfold pads in *. simpl. rewrite axis_len by lia. now rewrite IH.
Qed.

Lemma padded_shape old new : axes_ok old new ->
  pad_shape (map (fun p => Z.min (fst p) (snd p)) (combine old new)) (map clip (pads old new)) = new.
Proof.
  induction 1 as [|n N old new [Hn HN] H IH]; simpl; auto.
  unfold pads, pad_shape in *. simpl. rewrite IH. f_equal.
  rewrite calc_pad_closed. cbn [fst snd clip]. lia.
Qed.

Lemma len_pads old new : axes_ok old new -> length (pads old new) = length old.
Proof. unfold pads. induction 1; simpl; congruence. Qed.

Lemma src_in old new ix : axes_ok old new -> inb new ix -> inb old (moved_from old new ix) ->
  pad_src (map (fun p => Z.min (fst p) (snd p)) (combine old new)) (map clip (pads old new)) ix
  = Some (map (fun t => fst t - Z.max ((snd (snd t) + 1) / 2 - (fst (snd t) + 1) / 2) 0)
              (combine ix (combine old new)))
  /\ slice_index old (map crop_of (pads old new))
       (map (fun t => fst t - Z.max ((snd (snd t) + 1) / 2 - (fst (snd t) + 1) / 2) 0)
              (combine ix (combine old new)))
     = moved_from old new ix.
Proof.
  intros H. revert ix. induction H as [|n N old new [Hn HN] H IH]; intros ix Hix Hin.
  - apply inb_nil in Hix; subst; simpl. auto.
  - apply inb_cons_inv in Hix. destruct Hix as (i & r & -> & Hi & Hr).
    unfold moved_from, pads in *. cbn [combine map fst snd] in *.
    apply inb_cons in Hin. destruct Hin as [Hin1 Hin2].
    destruct (IH r Hr Hin2) as [IH1 IH2].
    rewrite calc_pad_closed. cbn [clip fst snd pad_src].
    match goal with |- (if ?b then _ else _) = _ /\ _ => destruct b eqn:E end; [|exfalso; lia].
    rewrite IH1. split; [reflexivity|].
    cbn [slice_index]. rewrite IH2. rewrite <- calc_pad_closed, axis_start by lia.
    f_equal. lia.
Qed.

Lemma src_out old new ix : axes_ok old new -> inb new ix -> ~ inb old (moved_from old new ix) ->
  pad_src (map (fun p => Z.min (fst p) (snd p)) (combine old new)) (map clip (pads old new)) ix = None.
Proof.
  intros H. revert ix. induction H as [|n N old new [Hn HN] H IH]; intros ix Hix Hin.
  - apply inb_nil in Hix; subst; simpl. exfalso. apply Hin. constructor.
  - apply inb_cons_inv in Hix. destruct Hix as (i & r & -> & Hi & Hr).
    unfold moved_from, pads in *. cbn [combine map fst snd] in *.
    rewrite calc_pad_closed. cbn [clip fst snd pad_src].
    match goal with |- (if ?b then _ else _) = _ => destruct b eqn:E end; [|reflexivity].
    rewrite IH; auto. intros Hc. apply Hin. constructor; auto. lia.
Qed.

Lemma not_refused {A} (f : array A -> list (Z * Z) -> list Z -> A) old new : axes_ok old new ->
  Forall (fun n => 0 < n) old ->
  pad_refused (PadOther f) (map (fun p => Z.min (fst p) (snd p)) (combine old new)) (map clip (pads old new)) = false.
Proof.
  intros H Hp. unfold pad_refused. induction H as [|n N old new [Hn HN] H IH]; simpl; auto.
  inversion Hp; subst. unfold pads in *. rewrite (IH H3).
  rewrite orb_false_r. rewrite calc_pad_closed. cbn [fst snd clip]. lia.
Qed.

Lemma target_length old ns : length old = length ns -> length (target_shape old ns) = length old.
Proof. unfold target_shape. intros. rewrite map_length, combine_length. lia. Qed.

Lemma axes_ok_target old ns :
  length ns = length old ->
  Forall (fun n => 0 <= n) old -> Forall (fun n => match n with Some v => 0 <= v | None => True end) ns ->
  axes_ok old (target_shape old ns).
Proof.
  unfold axes_ok, target_shape. intros Hl Ho. revert ns Hl.
  induction Ho as [|o old Hpos Ho IH]; intros [|n ns] Hl Hns; simpl in *; try discriminate; constructor.
  - inversion Hns; subst. destruct n; simpl in *; lia.
  - inversion Hns; subst. apply IH; auto.
Qed.

Definition newshape_nonneg (ns : list (option Z)) : Prop :=
  Forall (fun n => match n with Some v => 0 <= v | None => True end) ns.

Lemma fft_pad_main {A} (a : array A) ns m :
  shape a <> [] -> length ns = length (shape a) ->
  Forall (fun n => 0 <= n) (shape a) -> newshape_nonneg ns ->
  ((exists c, m = PadConstant c) \/ Forall (fun n => 0 < n) (shape a)) ->
  exists b, fft_pad a (NSIter ns) m = Ok b /\
    shape b = target_shape (shape a) ns /\
    (forall ix, inb (shape b) ix -> inb (shape a) (moved_from (shape a) (shape b) ix) ->
       get b ix = get a (moved_from (shape a) (shape b) ix)) /\
    (forall c ix, m = PadConstant c -> inb (shape b) ix ->
       ~ inb (shape a) (moved_from (shape a) (shape b) ix) -> get b ix = c).
Proof.
  intros Hne Hl Ho Hns Hm. destruct a as [old g]. cbn [shape get] in *.
  set (new := target_shape old ns).
  assert (Hax : axes_ok old new) by (apply axes_ok_target; auto).
  unfold fft_pad. cbn [bind shape].
  unfold padding_slices. rewrite pad_for_target by auto. fold new.
  change (map (fun s => calc_crop (fst s) (snd s)) (pads old new)) with (map crop_of (pads old new)).
  change (map (fun s => (Z.max (fst s) 0, Z.max (snd s) 0)) (pads old new)) with (map clip (pads old new)).
  unfold getitem. cbn [shape].
  rewrite map_length, len_pads by auto. rewrite Nat.ltb_irrefl. cbn [bind].
  unfold np_pad, bcast_pairs. cbn [shape]. rewrite crop_shape by auto.
  assert (Hlen : length (map (fun p => Z.min (fst p) (snd p)) (combine old new)) = length old).
  { rewrite map_length, combine_length. unfold new. rewrite target_length by auto. lia. }
  rewrite map_length, len_pads, Hlen, Nat.eqb_refl by auto. destruct (Nat.eqb_spec (length old) 0) as [Z0|_]; [apply length_zero_iff_nil in Z0; contradiction|]. cbn [bind].
  assert (Href : pad_refused m (map (fun p => Z.min (fst p) (snd p)) (combine old new)) (map clip (pads old new)) = false).
  { destruct m as [c|f]; [reflexivity|]. apply not_refused; auto.
    destruct Hm as [[c Hc]|Hm]; [discriminate|auto]. }
  rewrite Href. eexists. split; [reflexivity|]. cbn [shape get].
  rewrite padded_shape by auto. split; [reflexivity|]. split.
  - intros ix Hix Hin. destruct (src_in old new ix Hax Hix Hin) as [E1 E2].
    rewrite E1, E2. reflexivity.
  - intros c ix -> Hix Hin. rewrite src_out by auto. reflexivity.
Qed.

(** The rigid motion and its inverse. *)
Lemma moved_back small big ix : length small = length big -> length ix = length small ->
  moved_from small big (moved_from big small ix) = ix.
Proof.
  unfold moved_from. revert big ix.
  induction small as [|n s IH]; intros [|N b] [|i r]; simpl; intros H1 H2; try discriminate; auto.
  f_equal; [lia|]. apply IH; congruence.
Qed.

Lemma moved_inb small big ix : Forall2 (fun n N => 0 <= n <= N) small big -> inb small ix ->
  inb big (moved_from big small ix).
Proof.
  unfold moved_from. intros H. revert ix. induction H as [|n N s b Hn H IH]; intros ix Hix.
  - apply inb_nil in Hix; subst. constructor.
  - apply inb_cons_inv in Hix. destruct Hix as (i & r & -> & Hi & Hr).
    simpl. constructor; [lia|]. apply IH; auto.
Qed.

Lemma target_some old new : length old = length new -> target_shape old (map Some new) = new.
Proof.
  unfold target_shape. revert new. induction old; intros [|N new]; simpl; intros; try discriminate; auto.
  f_equal. apply IHold. congruence.
Qed.

Lemma pad_crop_id {A} (a : array A) (big : list Z) m1 m2 :
  shape a <> [] -> Forall2 (fun n N => 0 <= n <= N) (shape a) big ->
  ((exists c, m1 = PadConstant c) \/ Forall (fun n => 0 < n) (shape a)) ->
  ((exists c, m2 = PadConstant c) \/ Forall (fun n => 0 < n) big) ->
  exists b c, fft_pad a (NSIter (map Some big)) m1 = Ok b /\
    fft_pad b (NSIter (map Some (shape a))) m2 = Ok c /\ arr_eq c a.
Proof.
  intros Hne H Hm1 Hm2.
  assert (Hl : length (shape a) = length big) by (clear -H; induction H; simpl; congruence).
  assert (Hnn : forall l, (forall x, In x l -> 0 <= x) -> newshape_nonneg (map Some l)).
  { intros l Hx. unfold newshape_nonneg. apply Forall_forall. intros o Ho.
    apply in_map_iff in Ho. destruct Ho as (x & <- & Hx'). auto. }
  assert (Hpa : Forall (fun n => 0 <= n) (shape a)).
  { clear -H. induction H; constructor; auto; lia. }
  assert (Hpb : Forall (fun n => 0 <= n) big).
  { clear -H. induction H; constructor; auto; lia. }
  destruct (fft_pad_main a (map Some big) m1) as (b & Eb & Sb & Gb & _); auto.
  { now rewrite map_length. }
  { apply Hnn. now apply Forall_forall. }
  rewrite target_some in Sb by auto.
  destruct (fft_pad_main b (map Some (shape a)) m2) as (c & Ec & Sc & Gc & _); auto.
  { rewrite Sb. intros E0. rewrite E0 in Hl. apply length_zero_iff_nil in Hl. contradiction. }
  { now rewrite map_length, Sb. }
  { now rewrite Sb. }
  { apply Hnn. now apply Forall_forall. }
  { now rewrite Sb. }
  rewrite target_some in Sc by congruence.
  exists b, c. split; auto. split; auto. split; auto.
  intros ix Hix. rewrite Sc in Hix. pose proof (inb_length _ _ Hix) as Hli.
  rewrite Sb, Sc in Gc. rewrite Sb in Gb.
  assert (Hmid : inb big (moved_from big (shape a) ix)) by (apply moved_inb; auto).
  assert (Hback : moved_from (shape a) big (moved_from big (shape a) ix) = ix) by (apply moved_back; auto).
  rewrite Gc by assumption. rewrite Gb by (rewrite ?Hback; assumption). now rewrite Hback.
Qed.

Lemma fft_pad_content_any {A} (a : array A) ns m b :
  length ns = length (shape a) ->
  Forall (fun n => 0 <= n) (shape a) -> newshape_nonneg ns ->
  fft_pad a (NSIter ns) m = Ok b ->
  shape b = target_shape (shape a) ns /\
  (forall ix, inb (shape b) ix -> inb (shape a) (moved_from (shape a) (shape b) ix) ->
       get b ix = get a (moved_from (shape a) (shape b) ix)) /\
  (forall c ix, m = PadConstant c -> inb (shape b) ix ->
       ~ inb (shape a) (moved_from (shape a) (shape b) ix) -> get b ix = c).
Proof.
  intros Hl Ho Hns Hok. destruct m as [c|f].
  - assert (Hne : shape a <> []).
    { intros E0. destruct a as [sh g]. cbn [shape] in *. subst sh. destruct ns; [|discriminate]. discriminate Hok. }
    destruct (fft_pad_main a ns (PadConstant c) Hne Hl Ho Hns) as (b' & E & R); [eauto|].
    rewrite E in Hok. injection Hok as <-. exact R.
  - (* the border rule does not matter for shape and overlap *)
    destruct a as [old g]. cbn [shape get] in *.
    set (new := target_shape old ns).
    assert (Hax : axes_ok old new) by (apply axes_ok_target; auto).
    revert Hok. unfold fft_pad. cbn [bind shape].
    unfold padding_slices. rewrite pad_for_target by auto. fold new.
    change (map (fun s => calc_crop (fst s) (snd s)) (pads old new)) with (map crop_of (pads old new)).
    change (map (fun s => (Z.max (fst s) 0, Z.max (snd s) 0)) (pads old new)) with (map clip (pads old new)).
    unfold getitem. cbn [shape].
    rewrite map_length, len_pads by auto. rewrite Nat.ltb_irrefl. cbn [bind].
    unfold np_pad, bcast_pairs. cbn [shape]. rewrite crop_shape by auto.
    assert (Hlen : length (map (fun p => Z.min (fst p) (snd p)) (combine old new)) = length old).
    { rewrite map_length, combine_length. unfold new. rewrite target_length by auto. lia. }
    rewrite map_length, len_pads, Hlen, Nat.eqb_refl by auto. destruct (Nat.eqb_spec (length old) 0) as [Z0|_]; [discriminate|]. cbn [bind].
    destruct (pad_refused _ _ _); [discriminate|].
    intros H. injection H as <-. cbn [shape get].
    rewrite padded_shape by auto. split; [reflexivity|]. split.
    + intros ix Hix Hin. destruct (src_in old new ix Hax Hix Hin) as [E1 E2].
      rewrite E1, E2. reflexivity.
    + discriminate.
Qed.

Lemma moved_ref old new : length old = length new ->
  moved_from old new (map (fun N => (N + 1) / 2) new) = map (fun n => (n + 1) / 2) old.
Proof.
  unfold moved_from. revert new. induction old as [|n old IH]; intros [|N new] H; try discriminate; simpl; auto.
  f_equal; [lia|]. apply IH. simpl in H. congruence.
Qed.

Lemma moved_centre old new : length old = length new ->
  moved_from old new (centre new) = map (fun p => fst p / 2 + fst p mod 2 - snd p mod 2) (combine old new).
Proof.
  unfold moved_from, centre. revert new. induction old as [|n old IH]; intros [|N new] H; try discriminate; simpl; auto.
  f_equal; [lia|]. apply IH. simpl in H. congruence.
Qed.

Lemma inb_dec sh ix : {inb sh ix} + {~ inb sh ix}.
Proof.
  revert ix. induction sh as [|n sh IH]; intros [|i ix].
  - left. constructor.
  - right. intros H. inversion H.
  - right. intros H. inversion H.
  - destruct (Z_le_dec 0 i), (Z_lt_dec i n), (IH ix); try (right; intros H; inversion H; subst; tauto || lia).
    left. constructor; auto.
Qed.

Lemma fft_pad_origin {A} (a : array A) new c b :
  Forall (fun n => 0 < n) (shape a) -> Forall2 (fun n N => n <= N) (shape a) new ->
  fft_pad a (NSIter (map Some new)) (PadConstant c) = Ok b ->
  exists src, get b (centre new) = match src with Some ix => get a ix | None => c end /\
    (src = Some (centre (shape a)) <-> Forall2 (fun n N => Z.even n = Z.even N) (shape a) new) /\
    (forall ix, src = Some ix ->
       ix = map (fun p => fst p / 2 + fst p mod 2 - snd p mod 2) (combine (shape a) new)).
Proof.
  intros Hp Hle Hok.
  assert (Hl : length (shape a) = length new) by (clear -Hle; induction Hle; simpl; congruence).
  assert (Hpn : Forall (fun n => 0 < n) new).
  { clear -Hp Hle. induction Hle; constructor; inversion Hp; subst; [lia|auto]. }
  destruct (fft_pad_content_any a (map Some new) (PadConstant c) b) as (S & G & F); auto.
  { now rewrite map_length. }
  { eapply Forall_impl; [|exact Hp]. cbv beta; lia. }
  { unfold newshape_nonneg. apply Forall_forall. intros o Ho. apply in_map_iff in Ho. destruct Ho as (x & <- & Hx).
    rewrite Forall_forall in Hpn. specialize (Hpn x Hx). lia. }
  rewrite target_some in S by auto. rewrite S in *.
  set (src := moved_from (shape a) new (centre new)) in *.
  assert (Hc : inb new (centre new)).
  { unfold centre. clear -Hpn. induction Hpn; simpl; constructor; auto. lia. }
  pose proof (moved_centre (shape a) new Hl) as Hsrc. fold src in Hsrc.
  assert (Key : src = centre (shape a) <-> Forall2 (fun n N => Z.even n = Z.even N) (shape a) new).
  { rewrite Hsrc. unfold centre. clear -Hle. split.
    - induction Hle as [|n N old new H Hle IH]; simpl; intros E; constructor.
      + injection E as E1 E2. rewrite !Zeven_mod. assert (n mod 2 = N mod 2) by lia. now rewrite H0.
      + apply IH. injection E; auto.
    - induction 1 as [|n N old new' H Hf IH]; simpl; auto. inversion Hle; subst. f_equal; auto.
      rewrite !Zeven_mod in H. pose proof (Z.mod_pos_bound n 2). pose proof (Z.mod_pos_bound N 2).
      destruct (Zeq_bool (n mod 2) 0) eqn:E1; destruct (Zeq_bool (N mod 2) 0) eqn:E2; try discriminate;
      [apply Zeq_bool_eq in E1, E2|apply Zeq_bool_neq in E1, E2]; lia. }
  destruct (inb_dec (shape a) src) as [Hin|Hout].
  - exists (Some src). split; [now apply G|]. split.
    + rewrite <- Key. split; [congruence|now intros ->].
    + intros ix E. injection E as <-. exact Hsrc.
  - exists None. split; [now apply F|]. split; [|discriminate]. split; [discriminate|].
    intros Hf. exfalso. apply Key in Hf. apply Hout. rewrite Hf.
    unfold centre. clear -Hp. induction Hp; simpl; constructor; auto. lia.
Qed.
