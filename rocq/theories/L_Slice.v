(** fft_pad's reading of [newshape]; slice_maker. *)
From Verif Require Import M_Utils S_Utils L_Array L_Pad.
From Coq Require Import Lqa Qabs.
Local Open Scope Z_scope.

(** ** newshape *)
Lemma combine_firstn_l {A B} (l : list A) (m k : list B) : length m = length l ->
  combine l (m ++ k) = combine l m.
Proof. revert m. induction l; intros [|x m]; simpl; intros; try discriminate; auto. f_equal. apply IHl; congruence. Qed.

Lemma fft_pad_extra {A} (a : array A) ns extra m : length ns = length (shape a) ->
  fft_pad a (NSIter (ns ++ extra)) m = fft_pad a (NSIter ns) m.
Proof. intros H. unfold fft_pad. cbn [bind]. unfold padding_slices. now rewrite combine_firstn_l by auto. Qed.

Lemma fft_pad_int {A} (a : array A) n m :
  fft_pad a (NSInt n) m = fft_pad a (NSIter (map (fun _ => Some n) (shape a))) m.
Proof. reflexivity. Qed.

Lemma fft_pad_none {A} (a : array A) m :
  fft_pad a NSNone m = fft_pad a (NSIter (map (fun k => Some (next_fast_len k)) (shape a))) m.
Proof. reflexivity. Qed.

Lemma slice_shape_length sh sls : length (slice_shape sh sls) = length sh.
Proof. revert sls. induction sh; intros [|s sls]; simpl; auto. Qed.

Lemma fft_pad_short {A} (a : array A) ns m :
  (length ns < length (shape a))%nat -> length ns <> 1%nat ->
  fft_pad a (NSIter ns) m = Err (if Nat.eqb (length ns) 0 then TypeError else ValueError).
Proof.
  intros Hl H1. unfold fft_pad, padding_slices. cbn [bind].
  unfold getitem. rewrite !map_length, combine_length.
  destruct (Nat.ltb _ _) eqn:E; [apply Nat.ltb_lt in E; lia|]. cbn [bind].
  unfold np_pad, bcast_pairs. cbn [shape].
  rewrite slice_shape_length, !map_length, combine_length.
  replace (Nat.min (length (shape a)) (length ns)) with (length ns) by lia. destruct (Nat.eqb_spec (length ns) 0) as [E0|E0]; [reflexivity|].
  destruct (Nat.eqb _ _) eqn:E2; [apply Nat.eqb_eq in E2; lia|].
  destruct ns as [|x [|y ns]]; destruct (shape a) as [|p [|q r]]; cbn in *; try lia; reflexivity.
Qed.

(** A one-entry newshape: the widths of axis 0 are used on every axis. *)
Lemma pad_repeat_shape sh p : pad_shape sh (repeat p (length sh)) = map (fun n => n + fst p + snd p) sh.
Proof. unfold pad_shape. induction sh; simpl; auto. now rewrite IHsh. Qed.

Lemma fft_pad_single {A} (g : list Z -> A) o sh N c :
  0 <= o -> 0 <= N ->
  exists b, fft_pad (mkArr (o :: sh) g) (NSIter [Some N]) (PadConstant c) = Ok b /\
            shape b = N :: map (fun n => n + Z.max 0 (N - o)) sh.
Proof.
  intros Ho HN. unfold fft_pad, padding_slices. cbn [bind shape combine map pad_for fst snd].
  unfold getitem. cbn [shape length]. rewrite combine_nil || idtac. cbn [map length Nat.ltb Nat.leb bind].
  assert (Ec : combine sh (@nil (option Z)) = []) by (destruct sh; reflexivity).
  rewrite ?Ec. cbn [map length].
  unfold np_pad, bcast_pairs. cbn [shape length map].
  rewrite calc_pad_closed. cbn [fst snd].
  change (calc_crop ((N + 1) / 2 - (o + 1) / 2) (N / 2 - o / 2)) with (crop_of ((N + 1) / 2 - (o + 1) / 2, N / 2 - o / 2)).
  rewrite <- calc_pad_closed.
  assert (Es : slice_shape (o :: sh) [crop_of (calc_pad o N)] = Z.min o N :: sh).
  { cbn [slice_shape]. rewrite axis_len by auto. destruct sh; reflexivity. }
  rewrite Es. cbn [length].
  destruct (Nat.eqb 1 (S (length sh))) eqn:E; cbn [bind pad_refused].
  - apply Nat.eqb_eq in E. destruct sh; [|discriminate].
    eexists; split; [reflexivity|]. cbn [shape].
    unfold pad_shape. cbn [combine map fst snd]. f_equal. lia.
  - eexists; split; [reflexivity|]. cbn [shape].
    change (repeat ?p (S (length sh))) with (repeat p (length (Z.min o N :: sh))).
    rewrite pad_repeat_shape. cbn [map fst snd]. f_equal; [lia|].
    apply map_ext. intros n. lia.
Qed.

(** ** rint *)
Lemma Qfloor_bounds q : (inject_Z (Qfloor q) <= q)%Q /\ (q < inject_Z (Qfloor q) + 1)%Q.
Proof.
  split; [apply Qfloor_le|]. pose proof (Qlt_floor q). rewrite inject_Z_plus in H. exact H.
Qed.

Lemma qrint_spec q :
  (Qabs.Qabs (q - inject_Z (qrint q)) <= 1 # 2)%Q /\
  (Qabs.Qabs (q - inject_Z (qrint q)) == 1 # 2 -> Z.even (qrint q) = true)%Q.
Proof.
  unfold qrint. destruct (Qfloor_bounds q) as [L U]. set (f := Qfloor q) in *.
  destruct (Qle_bool (1 # 2) (q - inject_Z f)) eqn:E1.
  - apply Qle_bool_iff in E1. destruct (Qle_bool (q - inject_Z f) (1 # 2)) eqn:E2.
    + apply Qle_bool_iff in E2. destruct (Z.even f) eqn:Ev.
      * split; [|auto]. rewrite Qabs.Qabs_pos by lra. lra.
      * rewrite inject_Z_plus. change (inject_Z 1) with 1%Q. split.
        -- rewrite Qabs.Qabs_neg by lra. lra.
        -- intros _. rewrite Z.even_add, Ev. reflexivity.
    + assert (Hn : ~ (q - inject_Z f <= 1 # 2)%Q) by (rewrite <- Qle_bool_iff; congruence).
      rewrite inject_Z_plus. change (inject_Z 1) with 1%Q.
      rewrite Qabs.Qabs_neg by lra. split; [lra|]. intros; exfalso; lra.
  - assert (Hn : ~ (1 # 2 <= q - inject_Z f)%Q) by (rewrite <- Qle_bool_iff; congruence).
    rewrite Qabs.Qabs_pos by lra. split; [lra|]. intros; exfalso; lra.
Qed.

Lemma qrint_Z z : qrint (inject_Z z) = z.
Proof.
  unfold qrint. rewrite Qfloor_Z.
  assert (E : Qle_bool (1 # 2) (inject_Z z - inject_Z z) = false).
  { destruct (Qle_bool _ _) eqn:E; auto. apply Qle_bool_iff in E. exfalso. lra. }
  now rewrite E.
Qed.

Lemma qrint_nonneg q : (0 <= q)%Q -> 0 <= qrint q.
Proof.
  intros H. unfold qrint.
  assert (0 <= Qfloor q). { change 0 with (Qfloor 0). now apply Qfloor_resp_le. }
  destruct (Qle_bool _ _); [destruct (Qle_bool _ _); [destruct (Z.even _)|]|]; lia.
Qed.

(** ** slice_maker *)
(** The window of width [w] centred on [x], cut at 0. *)
Definition window (x w : Z) (s : pyslice) : Prop :=
  exists a b, s = Slice (Some a) (Some b) /\ 0 <= a <= b /\
    forall i, a <= i < b <-> 0 <= i /\ x - w / 2 <= i < x + (w + 1) / 2.

Lemma one_slice_ok x w : 0 <= w -> exists s, one_slice x w = Ok s /\ window x w s.
Proof.
  intros Hw. unfold one_slice. rewrite calc_pad_closed. cbv zeta.
  change ((0 + 1) / 2) with 0. change (0 / 2) with 0. rewrite !Z.sub_0_r.
  destruct (negb _) eqn:E; [exfalso; lia|].
  destruct (x + (w + 1) / 2 <=? 0) eqn:E2; eexists; (split; [reflexivity|]); unfold window.
  - exists 0, 0. split; [reflexivity|]. split; [lia|]. intros i. lia.
  - eexists _, _. split; [reflexivity|]. split; [lia|]. intros i. lia.
Qed.

Lemma slice_loop_ok xws : Forall (fun xw => 0 <= snd xw) xws ->
  exists ss, slice_loop xws = Ok ss /\ Forall2 (fun xw s => window (fst xw) (snd xw) s) xws ss.
Proof.
  induction 1 as [|[x w] xws Hw H IH]; cbn [slice_loop].
  - eexists; split; [reflexivity|constructor].
  - destruct (one_slice_ok x w Hw) as (s & Es & Ws). destruct IH as (ss & Ess & Wss).
    rewrite Es. cbn [bind]. rewrite Ess. cbn [bind]. eexists; split; [reflexivity|].
    constructor; auto.
Qed.

Lemma slice_maker_ok xs ws : length xs = length ws -> Forall (fun w => 0 <= w)%Q ws ->
  exists ss, slice_maker (map SReal xs) (WSeq (map SReal ws)) = Ok ss /\
    Forall2 (fun xw s => window (qrint (fst xw)) (qrint (snd xw)) s) (combine xs ws) ss.
Proof.
  intros Hl Hw. unfold slice_maker, normalize_sequence. rewrite !map_length.
  rewrite (proj2 (Nat.eqb_eq _ _)) by auto. cbn [bind].
  assert (R : forall l, forallb sreal (map SReal l) = true) by (induction l; simpl; auto).
  rewrite !R. cbn [andb negb].
  assert (X : existsb (fun w => negb (Qle_bool 0 (sre w))) (map SReal ws) = false).
  { clear Hl. induction Hw as [|w ws H Hw IH]; simpl; auto. rewrite IH.
    apply Qle_bool_iff in H. now rewrite H. }
  rewrite X. rewrite !map_map. cbn [sre].
  destruct (slice_loop_ok (combine (map qrint xs) (map qrint ws))) as (ss & Ess & Wss).
  { clear -Hl Hw. revert xs Hl. induction Hw; intros [|x0 xs] Hl; simpl; try constructor; try discriminate.
    - simpl. now apply qrint_nonneg.
    - apply IHHw. simpl in Hl. congruence. }
  change (map (fun x => qrint x) ?l) with (map qrint l).
  exists ss. split; auto.
  clear -Wss Hl. revert ws ss Hl Wss.
  induction xs as [|x xs IH]; intros [|w ws] ss Hl Wss; simpl in *; try discriminate; inversion Wss; subst; constructor; auto.
Qed.

Lemma slice_maker_scalar xs w :
  slice_maker (map SReal xs) (WScalar (SReal w)) = slice_maker (map SReal xs) (WSeq (map SReal (repeat w (length xs)))).
Proof.
  unfold slice_maker, normalize_sequence. rewrite !map_length, repeat_length, Nat.eqb_refl. cbn [bind].
  assert (E : repeat (SReal w) (length xs) = map SReal (repeat w (length xs))).
  { generalize (length xs). intros n. induction n; simpl; auto. now rewrite IHn. }
  now rewrite E.
Qed.

Lemma slice_maker_neg xs ws : length xs = length ws -> Exists (fun w => w < 0)%Q ws ->
  slice_maker (map SReal xs) (WSeq (map SReal ws)) = Err ValueError.
Proof.
  intros Hl Hw. unfold slice_maker, normalize_sequence. rewrite !map_length.
  rewrite (proj2 (Nat.eqb_eq _ _)) by auto. cbn [bind].
  assert (R : forall l, forallb sreal (map SReal l) = true) by (induction l; simpl; auto).
  rewrite !R. cbn [andb negb].
  assert (X : existsb (fun w => negb (Qle_bool 0 (sre w))) (map SReal ws) = true).
  { clear Hl. induction Hw as [w ws H|w ws Hw IH]; simpl.
    - destruct (Qle_bool 0 w) eqn:E; auto. apply Qle_bool_iff in E. exfalso. lra.
    - rewrite IH. apply orb_true_r. }
  now rewrite X.
Qed.

Lemma slice_maker_len xs ws : length xs <> length ws -> slice_maker xs (WSeq ws) = Err RuntimeError.
Proof.
  intros H. unfold slice_maker, normalize_sequence.
  destruct (Nat.eqb _ _) eqn:E; auto. apply Nat.eqb_eq in E. congruence.
Qed.

Lemma slice_maker_complex xs ws : length xs = length ws ->
  Exists (fun s => exists a b, s = SComplex a b) (xs ++ ws) ->
  slice_maker xs (WSeq ws) = Err TypeError.
Proof.
  intros Hl H. unfold slice_maker, normalize_sequence.
  rewrite (proj2 (Nat.eqb_eq _ _)) by auto. cbn [bind].
  rewrite <- forallb_app.
  assert (E : forallb sreal (xs ++ ws) = false).
  { revert H. generalize (xs ++ ws). intros l H. induction H as [s l (a & b & ->)|s l H IH]; simpl; auto.
    rewrite IH. apply andb_false_r. }
  now rewrite E.
Qed.

Lemma slice_maker_spec xs ws :
  length xs = length ws -> Forall (fun w => 0 <= w)%Q ws ->
  exists ss, slice_maker (map SReal xs) (WSeq (map SReal ws)) = Ok ss /\
    Forall2 (fun xw s => exists x w a b,
        nearest_even (fst xw) x /\ nearest_even (snd xw) w /\ 0 <= w /\
        s = Slice (Some a) (Some b) /\ 0 <= a <= b /\
        (forall i, a <= i < b <-> 0 <= i /\ x - w / 2 <= i < x + (w + 1) / 2) /\
        (w / 2 <= x -> b - a = w))
      (combine xs ws) ss.
Proof.
  intros Hl Hw. destruct (slice_maker_ok xs ws Hl Hw) as (ss & E & F). exists ss. split; auto.
  assert (Hw' : Forall (fun xw => 0 <= snd xw)%Q (combine xs ws)).
  { clear -Hl Hw. revert xs Hl. induction Hw; intros [|x0 xs] Hl; simpl; try constructor; try discriminate; auto. }
  clear E. induction F as [|[x w] s xws ss W F IH]; constructor.
  - inversion Hw'; subst. cbn [fst snd] in *.
    destruct W as (a & b & Es & B & I). exists (qrint x), (qrint w), a, b.
    split; [apply qrint_spec|]. split; [apply qrint_spec|].
    pose proof (qrint_nonneg w H1) as Hn. split; auto. split; auto. split; auto. split; auto.
    intros Hx. set (X := qrint x) in *. set (W := qrint w) in *. clearbody X W.
    destruct (Z.eq_dec W 0) as [->|Hne].
    + destruct (Z.eq_dec a b); [lia|]. pose proof (proj1 (I a) ltac:(lia)). lia.
    + pose proof (proj2 (I (X - W / 2)) ltac:(lia)).
      pose proof (proj2 (I (X + (W + 1) / 2 - 1)) ltac:(lia)).
      pose proof (proj1 (I a) ltac:(lia)). pose proof (proj1 (I (b - 1)) ltac:(lia)). lia.
  - inversion Hw'; subst. auto.
Qed.
