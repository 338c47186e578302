(** Model of the integer / rational part of pyotf/utils.py: padding, cropping, slicing and the
    preparation of data for phase retrieval. *)
From Verif Require Export M_Array.
From Coq Require Export QArith Qround.
Global Open Scope Z_scope.

(** utils.py:16-20 [_calc_crop]. *)
Definition calc_crop (s1 s2 : Z) : pyslice :=
  Slice (if s1 <? 0 then Some (Z.abs s1) else None)
        (if s2 <? 0 then Some s2 else None).

(** utils.py:23-63 [_calc_pad]. *)
Definition calc_pad (oldnum newnum : Z) : Z * Z :=
  let width := newnum - oldnum in
  let pad_s := width / 2 in
  let pad_b := width - pad_s in
  if negb (oldnum mod 2 =? 0) then (pad_s, pad_b) else (pad_b, pad_s).

(** utils.py:66-79 [_padding_slices]; [zip] stops at the shorter of the two shapes. *)
Definition pad_for (on : Z * option Z) : Z * Z :=
  match snd on with Some n => calc_pad (fst on) n | None => calc_pad (fst on) (fst on) end.
(** utils.py:66-79 *)
Definition padding_slices (oldshape : list Z) (newshape : list (option Z))
  : list (Z * Z) * list pyslice :=
  let padding := map pad_for (combine oldshape newshape) in
  let slices := map (fun s => calc_crop (fst s) (snd s)) padding in
  (map (fun s => (Z.max (fst s) 0, Z.max (snd s) 0)) padding, slices).

(** scipy.fftpack.next_fast_len: smallest 5-smooth number >= n (external; an executable search).
    The search needs no more than n further candidates because a power of two lies in [n, 2n]. *)
Fixpoint strip (p : Z) (fuel : nat) (n : Z) : Z :=
  match fuel with
  | O => n
  | S f => if (n mod p =? 0) then strip p f (n / p) else n
  end.
(** no prime factor above 5 *)
Definition is_5smooth (n : Z) : bool :=
  let f := Z.to_nat (Z.log2 n + 1) in
  strip 5 f (strip 3 f (strip 2 f n)) =? 1.
(** the first 5-smooth number from n on *)
Fixpoint search_smooth (fuel : nat) (n : Z) : Z :=
  match fuel with
  | O => n
  | S f => if is_5smooth n then n else search_smooth f (n + 1)
  end.
(** scipy.fftpack.next_fast_len(n) (utils.py:88) *)
Definition next_fast_len (n : Z) : Z :=
  if n <=? 0 then n else search_smooth (Z.to_nat n) n.

(** The kinds of [newshape] argument distinguished by utils.py:86-97. *)
Inductive newshape_arg :=
| NSNone                          (* None *)
| NSIter (l : list (option Z))    (* any iterable of ints / None *)
| NSInt (n : Z)                   (* int, bool or numpy integer *)
| NSPyFloat                       (* a Python float: np.issubdtype(3.5, np.integer) raises TypeError *)
| NSNpFloat.                      (* a numpy float scalar: reaches the explicit ValueError *)

(** utils.py:82-100 [fft_pad]. *)
Definition fft_pad {A} (array : array A) (newshape : newshape_arg) (mode : pad_mode A)
  : res (M_Array.array A) :=
  let oldshape := shape array in
  do ns <- match newshape with
           | NSNone => Ok (map (fun n => Some (next_fast_len n)) oldshape)
           | NSIter l => Ok l
           | NSInt n => Ok (map (fun _ => Some n) oldshape)
           | NSPyFloat => Err TypeError
           | NSNpFloat => Err ValueError
           end;
  let '(padding, slices) := padding_slices oldshape ns in
  do cropped <- getitem array slices;
  np_pad mode cropped padding.

(** [np.rint]: round half to even, on exact rationals. *)
Definition qrint (q : Q) : Z :=
  let f := Qfloor q in
  let d := (q - inject_Z f)%Q in
  if Qle_bool (1 # 2) d then
    if Qle_bool d (1 # 2) then (if Z.even f then f else f + 1) else f + 1
  else f.

(** An entry of [xs] or [ws]: real or complex. *)
Inductive snum := SReal (q : Q) | SComplex (re im : Q).
(** np.isrealobj of the entry (utils.py:135) *)
Definition sreal (s : snum) : bool := match s with SReal _ => true | _ => false end.
(** its real part *)
Definition sre (s : snum) : Q := match s with SReal q => q | SComplex q _ => q end.

(** scipy's [_normalize_sequence]: a scalar is repeated, a sequence must have the right length. *)
Inductive ws_arg := WScalar (w : snum) | WSeq (l : list snum).
(** utils.py:134 _normalize_sequence(ws, len(xs)) *)
Definition normalize_sequence (w : ws_arg) (n : nat) : res (list snum) :=
  match w with
  | WScalar x => Ok (repeat x n)
  | WSeq l => if Nat.eqb (length l) n then Ok l else Err RuntimeError
  end.

(** utils.py:144-152, one pass of the loop. *)
Definition one_slice (x w : Z) : res pyslice :=
  let '(half2, half1) := calc_pad 0 w in
  let xstart := x - half1 in
  let xend := x + half2 in
  if negb (xstart <=? xend) then Err AssertionError
  else
    let '(xstart, xend) := if xend <=? 0 then (0, 0) else (xstart, xend) in
    Ok (Slice (Some (Z.max 0 xstart)) (Some xend)).

(** utils.py:143-154 the loop *)
Fixpoint slice_loop (xws : list (Z * Z)) : res (list pyslice) :=
  match xws with
  | [] => Ok []
  | (x, w) :: rest =>
      do s <- one_slice x w;
      do ss <- slice_loop rest;
      Ok (s :: ss)
  end.

(** utils.py:103-154 [slice_maker]. *)
Definition slice_maker (xs : list snum) (ws : ws_arg) : res (list pyslice) :=
  do wl <- normalize_sequence ws (length xs);
  if negb (forallb sreal xs && forallb sreal wl) then Err TypeError
  else if existsb (fun w => negb (Qle_bool 0 (sre w))) wl then Err ValueError
  else
    slice_loop (combine (map (fun x => qrint (sre x)) xs) (map (fun w => qrint (sre w)) wl)).

(** utils.py:218-239 [center_data]; [ltb] is the "less than" of the element type. *)
Fixpoint roll_all {A} (k : nat) (moves : list (Z * Z)) (a : array A) : array A :=
  match moves with
  | [] => a
  | (x0, nx) :: rest => roll_all (S k) rest (roll (nx / 2 - x0) k a)
  end.
(** utils.py:218-239 *)
Definition center_data {A} (ltb : A -> A -> bool) (data : array A) : res (array A) :=
  do am <- argmax ltb data;
  let data_shape := shape data in
  let max_loc := unravel data_shape am in
  Ok (roll_all 0 (combine max_loc data_shape) data).

(** [np.bincount(l)[v]]: number of occurrences. *)
Definition occurrences (v : Z) (l : list Z) : Z :=
  Z.of_nat (length (filter (Z.eqb v) l)).
(** ndarray.max of non-negative integers *)
Definition list_max (l : list Z) : Z := fold_right Z.max 0 l.

(** [np.bincount(l).argmax()]: negative entries and an empty result raise ValueError. *)
Definition bincount_argmax (l : list Z) : res Z :=
  if existsb (fun v => v <? 0) l then Err ValueError
  else if Nat.eqb (length l) 0 then Err ValueError
  else Ok (argmax_from Z.ltb (fun v => occurrences v l) (zseq (list_max l + 1)) 0).

(** utils.py:242-250 [remove_bg], integer data; the product with the float multiplier makes the
    result float (exact rationals here), so unsigned integers cannot wrap. *)
Definition remove_bg (data : array Z) (multiplier : Q) : res (array Q) :=
  do mode <- bincount_argmax (flat_list data);
  Ok (amap (fun d => (inject_Z d - multiplier * inject_Z mode)%Q) data).

(** x < y of exact numbers *)
Definition qltb (a b : Q) : bool := negb (Qle_bool b a).
(** [np.fmax(0, x)] *)
Definition fmax0 (x : Q) : Q := if Qle_bool 0 x then x else 0%Q.

(** utils.py:258-294 [prep_data_for_PR]. *)
Definition prep_data_for_PR (data : array Z) (xysize : option Z) (multiplier : Q)
  : res (array Q) :=
  match shape data with
  | [nz; ny; nx] =>
      do data_without_bg <- remove_bg data multiplier;
      let xysize := match xysize with None => Z.max ny nx | Some s => s end in
      if (xysize =? ny) && (ny =? nx) then Ok (amap fmax0 data_without_bg)
      else if Z.max ny nx <=? xysize then
        do pad_data <- fft_pad data_without_bg
                         (NSIter [Some nz; Some xysize; Some xysize]) (PadConstant 0%Q);
        Ok (amap fmax0 pad_data)
      else
        do my_slice <- slice_maker
                         [SReal (inject_Z ((ny + 1) / 2)); SReal (inject_Z ((nx + 1) / 2))]
                         (WScalar (SReal (inject_Z xysize)));
        do centered <- center_data qltb data_without_bg;
        getitem_last centered my_slice
  | _ => Err ValueError   (* "not enough / too many values to unpack" *)
  end.
