(** Property theorems C01-C05, C10, C11, C13: padding, cropping, slicing, centring, background. *)
From Verif Require Import M_Utils S_Utils L_Array L_Pad L_Smooth L_Slice L_Center.
From Coq Require Import Lqa Qabs Qminmax.
Local Open Scope Z_scope.

(** ** C01: fft_pad delivers the requested shape.
    The hypothesis on the mode is numpy's: only mode "constant" can extend an empty axis. *)
Theorem C01_fft_pad_shape : forall (A : Type) (a : array A) (ns : list (option Z)) (m : pad_mode A),
  shape a <> [] -> length ns = length (shape a) ->
  Forall (fun n => 0 <= n) (shape a) ->
  (forall n, In (Some n) ns -> 0 <= n) ->
  ((exists c, m = PadConstant c) \/ Forall (fun n => 0 < n) (shape a)) ->
  exists b, fft_pad a (NSIter ns) m = Ok b /\
    length (shape b) = length (shape a) /\
    forall i o, nth_error (shape a) i = Some o ->
      nth_error (shape b) i = match nth_error ns i with Some (Some n) => Some n | _ => Some o end.
Proof.
  intros A a ns m Hne Hl Ho Hns Hm.
  destruct (fft_pad_main a ns m) as (b & Eb & Sb & _); auto.
  { unfold newshape_nonneg. apply Forall_forall. intros [v|] Hv; auto. }
  exists b. split; auto. rewrite Sb. split; [apply target_length; auto|].
  clear - Hl. unfold target_shape. generalize dependent ns. generalize (shape a).
  induction l as [|x l IH]; intros [|n ns] Hl [|i] o Hi; simpl in *; try discriminate.
  - injection Hi as ->. destruct n; reflexivity.
  - apply IH; auto.
Qed.
Print Assumptions C01_fft_pad_shape.

Example C01_case : exists b,
  fft_pad (mkArr [3; 4; 5] (fun ix => ravel [3; 4; 5] ix)) (NSIter [Some 6; None; Some 2]) (PadConstant (-1)) = Ok b
  /\ shape b = [6; 4; 2].
Proof. eexists. split; [reflexivity|reflexivity]. Qed.

(** ** C02: alignment and content *)
Theorem C02_fft_pad_content : forall (A : Type) (a : array A) (ns : list (option Z)) (m : pad_mode A) b,
  length ns = length (shape a) ->
  Forall (fun n => 0 <= n) (shape a) -> (forall n, In (Some n) ns -> 0 <= n) ->
  fft_pad a (NSIter ns) m = Ok b ->
  (forall ix, inb (shape b) ix -> inb (shape a) (moved_from (shape a) (shape b) ix) ->
     get b ix = get a (moved_from (shape a) (shape b) ix)) /\
  (forall c ix, m = PadConstant c -> inb (shape b) ix ->
     ~ inb (shape a) (moved_from (shape a) (shape b) ix) -> get b ix = c).
Proof.
  intros A a ns m b Hl Ho Hns Hok.
  assert (Hn : newshape_nonneg ns).
  { unfold newshape_nonneg. apply Forall_forall. intros [v|] Hv; auto. }
  destruct (fft_pad_content_any a ns m b Hl Ho Hn Hok) as (S & G & F). auto.
Qed.
Print Assumptions C02_fft_pad_content.

(** The element at (n+1)//2 of every axis lands on (N+1)//2. *)
Theorem C02_fft_pad_alignment : forall old new : list Z, length old = length new ->
  moved_from old new (map (fun N => (N + 1) / 2) new) = map (fun n => (n + 1) / 2) old.
Proof. exact moved_ref. Qed.
Print Assumptions C02_fft_pad_alignment.

(** What stands at the new fftshift origin: the old origin iff every axis keeps its parity,
    otherwise the data is displaced by one pixel on each axis that changes parity. *)
Theorem C02_fft_pad_origin : forall (A : Type) (a : array A) (new : list Z) (c : A) b,
  Forall (fun n => 0 < n) (shape a) -> Forall2 (fun n N => n <= N) (shape a) new ->
  fft_pad a (NSIter (map Some new)) (PadConstant c) = Ok b ->
  exists src, get b (centre new) = match src with Some ix => get a ix | None => c end /\
    (src = Some (centre (shape a)) <-> Forall2 (fun n N => Z.even n = Z.even N) (shape a) new) /\
    (forall ix, src = Some ix ->
       ix = map (fun p => fst p / 2 + fst p mod 2 - snd p mod 2) (combine (shape a) new)).
Proof. exact @fft_pad_origin. Qed.
Print Assumptions C02_fft_pad_origin.

Example C02_case_even_to_odd : exists b,
  fft_pad (mkArr [4] (fun ix => 10 + hd 0 ix)) (NSIter [Some 7]) (PadConstant 0) = Ok b /\
  map (fun i => get b [i]) (zseq 7) = [0; 0; 10; 11; 12; 13; 0].
Proof. eexists. split; reflexivity. Qed.
(* origin of 4 samples is index 2 (value 12), of 7 samples index 3 (value 11): displaced. *)

(** ** C03: padding then cropping back *)
Theorem C03_pad_then_crop : forall (A : Type) (a : array A) (big : list Z) (m1 m2 : pad_mode A),
  shape a <> [] -> Forall2 (fun n N => 0 <= n <= N) (shape a) big ->
  ((exists c, m1 = PadConstant c) \/ Forall (fun n => 0 < n) (shape a)) ->
  ((exists c, m2 = PadConstant c) \/ Forall (fun n => 0 < n) big) ->
  exists b c, fft_pad a (NSIter (map Some big)) m1 = Ok b /\
    fft_pad b (NSIter (map Some (shape a))) m2 = Ok c /\
    shape c = shape a /\ forall ix, inb (shape a) ix -> get c ix = get a ix.
Proof.
  intros A a big m1 m2 H0 H1 H2 H3.
  destruct (pad_crop_id a big m1 m2 H0 H1 H2 H3) as (b & c & E1 & E2 & S & G).
  exists b, c. repeat split; auto. intros ix Hix. apply G. now rewrite S.
Qed.
Print Assumptions C03_pad_then_crop.

Example C03_case : Forall2 (fun n N => 0 <= n <= N) [3; 4] [8; 9].
Proof. repeat constructor; lia. Qed.

(** ** C04: the newshape argument *)
Theorem C04_newshape : forall (A : Type) (a : array A) (m : pad_mode A),
  (* an integer applies to every axis *)
  (forall n, fft_pad a (NSInt n) m = fft_pad a (NSIter (map (fun _ => Some n) (shape a))) m) /\
  (* extra trailing entries are ignored *)
  (forall ns extra, length ns = length (shape a) ->
     fft_pad a (NSIter (ns ++ extra)) m = fft_pad a (NSIter ns) m) /\
  (* too few (and not exactly one) entries are rejected, and so are none at all *)
  (forall ns, (2 <= length ns < length (shape a))%nat -> fft_pad a (NSIter ns) m = Err ValueError) /\
  ((1 <= length (shape a))%nat -> fft_pad a (NSIter []) m = Err TypeError) /\
  (* floats are rejected *)
  fft_pad a NSPyFloat m = Err TypeError /\ fft_pad a NSNpFloat m = Err ValueError.
Proof.
  intros A a m. split; [intros; apply fft_pad_int|]. split; [intros; now apply fft_pad_extra|].
  split; [intros ns Hns; rewrite fft_pad_short by lia; now destruct (Nat.eqb_spec (length ns) 0); [lia|]|].
  split; [intros; rewrite fft_pad_short by (cbn; lia); reflexivity|]. auto.
Qed.
Print Assumptions C04_newshape.

(** newshape=None: every axis is padded to the smallest 5-smooth length not below it. *)
Theorem C04_newshape_none : forall (A : Type) (a : array A) (m : pad_mode A),
  shape a <> [] -> Forall (fun n => 0 < n) (shape a) ->
  exists b, fft_pad a NSNone m = Ok b /\
    Forall2 (fun n N => n <= N /\ smooth5 N /\ forall k, n <= k -> smooth5 k -> N <= k) (shape a) (shape b).
Proof. exact @fft_pad_none_least. Qed.
Print Assumptions C04_newshape_none.

Example C04_none_case : exists b,
  fft_pad (mkArr [7; 11; 16] (fun _ => 0)) NSNone (PadConstant 0) = Ok b /\ shape b = [8; 12; 16].
Proof. eexists. split; reflexivity. Qed.

(** A single entry on an N-d array: the widths computed for axis 0 are added to every axis. *)
Theorem C04_newshape_single : forall (A : Type) (g : list Z -> A) o sh N c, 0 <= o -> 0 <= N ->
  exists b, fft_pad (mkArr (o :: sh) g) (NSIter [Some N]) (PadConstant c) = Ok b /\
            shape b = N :: map (fun n => n + Z.max 0 (N - o)) sh.
Proof. exact @fft_pad_single. Qed.
Print Assumptions C04_newshape_single.

(** ** C05: slice_maker *)
Theorem C05_slice_maker : forall (xs ws : list Q),
  length xs = length ws -> Forall (fun w => 0 <= w)%Q ws ->
  exists ss, slice_maker (map SReal xs) (WSeq (map SReal ws)) = Ok ss /\
    Forall2 (fun xw s => exists x w a b,
        nearest_even (fst xw) x /\ nearest_even (snd xw) w /\ 0 <= w /\
        s = Slice (Some a) (Some b) /\ 0 <= a <= b /\
        (forall i, a <= i < b <-> 0 <= i /\ x - w / 2 <= i < x + (w + 1) / 2) /\
        (w / 2 <= x -> b - a = w))
      (combine xs ws) ss.
Proof. exact slice_maker_spec. Qed.
Print Assumptions C05_slice_maker.

Theorem C05_slice_maker_errors : forall (xs ws : list snum),
  (length xs <> length ws -> slice_maker xs (WSeq ws) = Err RuntimeError) /\
  (length xs = length ws -> (exists a b, In (SComplex a b) (xs ++ ws)) ->
     slice_maker xs (WSeq ws) = Err TypeError) /\
  (forall rx rw, xs = map SReal rx -> ws = map SReal rw -> length xs = length ws ->
     (exists w, In w rw /\ w < 0)%Q -> slice_maker xs (WSeq ws) = Err ValueError).
Proof.
  intros xs ws. split; [apply slice_maker_len|]. split.
  - intros Hl (a & b & Hin). apply slice_maker_complex; auto. apply Exists_exists. eauto.
  - intros rx rw -> -> Hl (w & Hin & Hw). apply slice_maker_neg.
    + rewrite !map_length in Hl. auto.
    + apply Exists_exists. eauto.
Qed.
Print Assumptions C05_slice_maker_errors.

(** A scalar width is used for every axis. *)
Theorem C05_slice_maker_scalar : forall xs w,
  slice_maker (map SReal xs) (WScalar (SReal w))
  = slice_maker (map SReal xs) (WSeq (map SReal (repeat w (length xs)))).
Proof. exact slice_maker_scalar. Qed.
Print Assumptions C05_slice_maker_scalar.

Example C05_case : slice_maker [SReal 30; SReal 20; SReal (5 # 2); SReal (-7)] (WScalar (SReal 25))
  = Ok [Slice (Some 18) (Some 43); Slice (Some 8) (Some 33); Slice (Some 0) (Some 15); Slice (Some 0) (Some 6)].
Proof. vm_compute. reflexivity. Qed.

(** ** C10: center_data *)
Theorem C10_center_data : forall (A : Type) (ltb : A -> A -> bool) (a : array A),
  strict_weak ltb -> Forall (fun n => 0 < n) (shape a) ->
  exists b loc, center_data ltb a = Ok b /\ shape b = shape a /\
    first_max ltb a loc /\ get b (centre (shape a)) = get a loc /\
    (forall ix, inb (shape a) ix -> get b ix = get a (cyc_src (shape a) loc ix)).
Proof. intros A ltb a W Hp. now apply center_data_ok. Qed.
Print Assumptions C10_center_data.

(** The displacement is a bijection of the index space: nothing is lost or duplicated. *)
Theorem C10_center_data_bijection : forall (sh loc : list Z),
  inb sh loc ->
  (forall ix, inb sh ix -> inb sh (cyc_src sh loc ix)) /\
  (forall jx, inb sh jx -> exists ix, inb sh ix /\ cyc_src sh loc ix = jx /\
      forall ix', inb sh ix' -> cyc_src sh loc ix' = jx -> ix' = ix).
Proof.
  intros sh loc H. pose proof (inb_length _ _ H) as Hl.
  split; [intros; now apply cyc_src_inb|].
  intros jx Hj. exists (cyc_dst sh loc jx). split; [now apply cyc_dst_inb|].
  split; [now apply cyc_inv2|]. intros ix' Hi <-. symmetry. now apply cyc_inv1.
Qed.
Print Assumptions C10_center_data_bijection.

Theorem C10_center_data_empty : forall (A : Type) (ltb : A -> A -> bool) (a : array A),
  Forall (fun n => 0 <= n) (shape a) -> In 0 (shape a) -> center_data ltb a = Err ValueError.
Proof. intros A ltb a H1 H2. apply center_data_empty; auto. apply Exists_exists. eauto. Qed.
Print Assumptions C10_center_data_empty.

Example C10_case : exists b, center_data Z.ltb (mkArr [2; 5] (fun ix => nth (Z.to_nat (ravel [2; 5] ix)) [1; 9; 3; 4; 5; 9; 7; 8; 2; 0] 0)) = Ok b
  /\ map (flat b) (zseq 10) = [0; 9; 7; 8; 2; 5; 1; 9; 3; 4].
Proof. eexists. split; [reflexivity|vm_compute; reflexivity]. Qed.

(** ** C11: remove_bg *)
Theorem C11_remove_bg : forall (a : array Z) (mult : Q),
  Forall (fun n => 0 < n) (shape a) -> (forall ix, inb (shape a) ix -> 0 <= get a ix) ->
  exists b mode, remove_bg a mult = Ok b /\ is_mode (flat_list a) mode /\ shape b = shape a /\
    forall ix, get b ix = (inject_Z (get a ix) - mult * inject_Z mode)%Q.
Proof. exact remove_bg_ok. Qed.
Print Assumptions C11_remove_bg.

Theorem C11_remove_bg_rejects : forall (a : array Z) (mult : Q),
  Forall (fun n => 0 <= n) (shape a) ->
  (In 0 (shape a) \/ exists ix, inb (shape a) ix /\ get a ix < 0) ->
  remove_bg a mult = Err ValueError.
Proof.
  intros a mult Hn [H|H]; apply remove_bg_rejects; auto.
  left. clear Hn. induction (shape a) as [|x l IH]; [destruct H|]. destruct H as [->|H]; simpl; [lia|].
  rewrite (IH H). lia.
Qed.
Print Assumptions C11_remove_bg_rejects.

Example C11_case : exists b, remove_bg (mkArr [6] (fun ix => nth (Z.to_nat (hd 0 ix)) [3; 5; 2; 5; 2; 7] 0)) (3 # 2) = Ok b
  /\ (get b [0%Z] == 0)%Q /\ (get b [2%Z] == -1)%Q.
Proof. eexists. split; [reflexivity|]. split; vm_compute; reflexivity. Qed.

(** ** C13: prep_data_for_PR *)
Theorem C13_prep_pad : forall (data : array Z) nz ny nx xysize mult s,
  shape data = [nz; ny; nx] -> 0 < nz -> 0 < ny -> 0 < nx ->
  (forall ix, inb (shape data) ix -> 0 <= get data ix) ->
  s = match xysize with None => Z.max ny nx | Some s => s end -> Z.max ny nx <= s ->
  exists b mode, prep_data_for_PR data xysize mult = Ok b /\ is_mode (flat_list data) mode /\
    shape b = [nz; s; s] /\
    (forall ix, inb [nz; s; s] ix -> inb (shape data) (moved_from (shape data) [nz; s; s] ix) ->
       (get b ix == Qminmax.Qmax 0 (inject_Z (get data (moved_from (shape data) [nz; s; s] ix)) - mult * inject_Z mode))%Q) /\
    (forall ix, inb [nz; s; s] ix -> ~ inb (shape data) (moved_from (shape data) [nz; s; s] ix) -> get b ix = 0%Q).
Proof. exact prep_pad_spec. Qed.
Print Assumptions C13_prep_pad.

(** The cropping branch: centred on the brightest voxel, NOT clipped at zero, and the side is
    [crop_len], which is s unless s exceeds the axis (then the axis length) or s equals an odd
    axis length (then one less). *)
Theorem C13_prep_crop : forall (data : array Z) nz ny nx mult s,
  shape data = [nz; ny; nx] -> 0 < nz -> 0 < ny -> 0 < nx ->
  (forall ix, inb (shape data) ix -> 0 <= get data ix) ->
  0 < s < Z.max ny nx ->
  exists b mode loc, prep_data_for_PR data (Some s) mult = Ok b /\ is_mode (flat_list data) mode /\
    first_max qltb (amap (fun d => (inject_Z d - mult * inject_Z mode)%Q) data) loc /\
    shape b = [nz; crop_len s ny; crop_len s nx] /\
    (forall z y x, inb (shape b) [z; y; x] ->
       get b [z; y; x] =
       (inject_Z (get data (cyc_src [nz; ny; nx] loc [z; crop_start s ny + y; crop_start s nx + x])%Z)
        - mult * inject_Z mode)%Q) /\
    (s < Z.min ny nx ->
       forall y x, y = s / 2 - ny mod 2 -> x = s / 2 - nx mod 2 -> 0 <= y -> 0 <= x ->
       get b [nz / 2; y; x] = (inject_Z (get data loc) - mult * inject_Z mode)%Q).
Proof. exact prep_crop_spec. Qed.
Print Assumptions C13_prep_crop.

Theorem C13_prep_negative_size : forall (data : array Z) nz ny nx mult s,
  shape data = [nz; ny; nx] -> 0 < nz -> 0 < ny -> 0 < nx ->
  (forall ix, inb (shape data) ix -> 0 <= get data ix) -> s < 0 ->
  prep_data_for_PR data (Some s) mult = Err ValueError.
Proof. exact prep_neg_spec. Qed.
Print Assumptions C13_prep_negative_size.

(** The documented "clip at zero" fails in the cropping branch. *)
Theorem C13_prep_clip_refuted : exists (data : array Z) b,
  shape data = [1; 3; 3] /\ (forall ix, inb (shape data) ix -> 0 <= get data ix) /\
  prep_data_for_PR data (Some 2) (3 # 2) = Ok b /\
  exists ix, inb (shape b) ix /\ (get b ix < 0)%Q.
Proof.
  exists (mkArr [1; 3; 3] (fun ix => nth (Z.to_nat (ravel [1; 3; 3] ix)) [4; 4; 4; 4; 9; 4; 4; 4; 4] 0)).
  eexists. split; [reflexivity|]. split.
  - intros ix Hix. cbn [get]. cbn [shape] in Hix. pose proof (ravel_bound _ _ Hix) as B.
    set (k := ravel [1; 3; 3] ix) in *. clearbody k. change (size [1; 3; 3]) with 9 in B.
    assert (Hk : In k (zseq 9)) by (apply in_zseq; auto). cbn in Hk.
    repeat (destruct Hk as [<-|Hk]; [vm_compute; discriminate|]). destruct Hk.
  - split; [reflexivity|]. exists [0; 1; 1]. split; [repeat constructor; cbn; lia|vm_compute; reflexivity].
Qed.
Print Assumptions C13_prep_clip_refuted.
