(** Model of the numpy array operations pyOTF relies on (numpy is not part of /repo;
    these definitions are the trusted reading of numpy's documentation).

    An array is a shape (one length per axis) and an index function; only indices that are
    in bounds are meaningful. *)
From Verif Require Export Base.

(** numpy.ndarray: [shape] and element access. *)
Record array (A : Type) := mkArr { shape : list Z; get : list Z -> A }.
Arguments mkArr {A} shape get.
Arguments shape {A} a.
Arguments get {A} a ix.

(** In-bounds multi-index. *)
Definition inb (sh ix : list Z) : Prop := Forall2 (fun n i => 0 <= i < n) sh ix.

(** Observable equality of arrays. *)
Definition arr_eq {A} (a b : array A) : Prop :=
  shape a = shape b /\ forall ix, inb (shape a) ix -> get a ix = get b ix.

(** Number of elements, [ndarray.size]. *)
Fixpoint size (sh : list Z) : Z :=
  match sh with [] => 1 | n :: sh' => n * size sh' end.

(** C-order linear index of a multi-index and back ([np.ravel_multi_index],
    [np.unravel_index]). *)
Fixpoint ravel (sh ix : list Z) : Z :=
  match sh, ix with
  | n :: sh', i :: ix' => i * size sh' + ravel sh' ix'
  | _, _ => 0
  end.

(** [np.unravel_index(k, sh)] (used in utils.py:235, otf.py:235, microscope.py:145) *)
Fixpoint unravel (sh : list Z) (k : Z) : list Z :=
  match sh with
  | [] => []
  | n :: sh' => (k / size sh') :: unravel sh' (k mod size sh')
  end.

(** [a.ravel()[k]] *)
Definition flat {A} (a : array A) (k : Z) : A := get a (unravel (shape a) k).

(** [a.ravel()] as a list *)
Definition flat_list {A} (a : array A) : list A := map (flat a) (zseq (size (shape a))).

(** Elementwise application. *)
Definition amap {A B} (f : A -> B) (a : array A) : array B :=
  mkArr (shape a) (fun ix => f (get a ix)).

(** ** Slicing *)

(** [slice(start, stop, None)] *)
Record pyslice := Slice { sl_start : option Z; sl_stop : option Z }.

(** Python's [slice.indices(n)] for step None. *)
Definition norm_bound (n v : Z) : Z := if v <? 0 then Z.max 0 (v + n) else Z.min v n.
(** First index a slice selects from an axis of length n. *)
Definition norm_start (n : Z) (s : pyslice) : Z :=
  match sl_start s with None => 0 | Some v => norm_bound n v end.
(** Index after the last one a slice selects. *)
Definition norm_stop (n : Z) (s : pyslice) : Z :=
  match sl_stop s with None => n | Some v => norm_bound n v end.
(** Number of elements a slice selects. *)
Definition slice_len (n : Z) (s : pyslice) : Z := Z.max 0 (norm_stop n s - norm_start n s).

(** Shape of [a[s0, s1, ...]]. *)
Fixpoint slice_shape (sh : list Z) (sls : list pyslice) : list Z :=
  match sh, sls with
  | n :: sh', s :: sls' => slice_len n s :: slice_shape sh' sls'
  | sh, _ => sh
  end.
(** Position in [a] of a position in [a[s0, s1, ...]]. *)
Fixpoint slice_index (sh : list Z) (sls : list pyslice) (ix : list Z) : list Z :=
  match sh, sls, ix with
  | n :: sh', s :: sls', i :: ix' => (norm_start n s + i) :: slice_index sh' sls' ix'
  | _, _, ix => ix
  end.

(** [a[s0, s1, ...]]: fewer slices than axes leave the last axes whole, more raise. *)
Definition getitem {A} (a : array A) (sls : list pyslice) : res (array A) :=
  if Nat.ltb (length (shape a)) (length sls) then Err IndexError
  else Ok (mkArr (slice_shape (shape a) sls) (fun ix => get a (slice_index (shape a) sls ix))).

(** [a[(Ellipsis,) + (s0, s1, ...)]]: the slices apply to the last axes. *)
Definition full_slice := Slice None None.
(** [a[(Ellipsis,) + slices]] (utils.py:292) *)
Definition getitem_last {A} (a : array A) (sls : list pyslice) : res (array A) :=
  if Nat.ltb (length (shape a)) (length sls) then Err IndexError
  else getitem a (repeat full_slice (length (shape a) - length sls) ++ sls).

(** ** numpy.pad *)

(** The rule filling the border: a constant, or any other mode ("median", "edge", ...), given
    abstractly as a function of the array, the widths and the output position. *)
Inductive pad_mode (A : Type) :=
| PadConstant (c : A)
| PadOther (f : array A -> list (Z * Z) -> list Z -> A).
Arguments PadConstant {A} c.
Arguments PadOther {A} f.

(** Shape of numpy.pad's result. *)
Definition pad_shape (sh : list Z) (pw : list (Z * Z)) : list Z :=
  map (fun np => fst np + fst (snd np) + snd (snd np)) (combine sh pw).

(** Position in the source array of an output position, if it is not in the border. *)
Fixpoint pad_src (sh : list Z) (pw : list (Z * Z)) (ix : list Z) : option (list Z) :=
  match sh, pw, ix with
  | n :: sh', (p1, _) :: pw', i :: ix' =>
      if (p1 <=? i) && (i <? p1 + n) then
        match pad_src sh' pw' ix' with Some r => Some ((i - p1) :: r) | None => None end
      else None
  | [], [], [] => Some []
  | _, _, _ => None
  end.

(** [pad_width] is broadcast against (ndim, 2): one pair is used for every axis, otherwise the
    number of pairs must be ndim.  An empty list becomes an array of floats, which numpy.pad refuses first. *)
Definition bcast_pairs (nd : nat) (pw : list (Z * Z)) : res (list (Z * Z)) :=
  if Nat.eqb (length pw) 0 then Err TypeError
  else if Nat.eqb (length pw) nd then Ok pw
  else match pw with [p] => Ok (repeat p nd) | _ => Err ValueError end.

(** Value of a border element. *)
Definition pad_fill {A} (m : pad_mode A) (a : array A) (pw : list (Z * Z)) (ix : list Z) : A :=
  match m with PadConstant c => c | PadOther f => f a pw ix end.

(** Modes other than "constant" cannot extend an axis of length 0. *)
Definition pad_refused {A} (m : pad_mode A) (sh : list Z) (pw : list (Z * Z)) : bool :=
  match m with
  | PadConstant _ => false
  | PadOther _ =>
      existsb (fun np => (fst np =? 0) && negb ((fst (snd np) =? 0) && (snd (snd np) =? 0)))
        (combine sh pw)
  end.

(** numpy.pad(a, pw0, mode) (utils.py:100) *)
Definition np_pad {A} (m : pad_mode A) (a : array A) (pw0 : list (Z * Z)) : res (array A) :=
  do pw <- bcast_pairs (length (shape a)) pw0;
  if pad_refused m (shape a) pw then Err ValueError
  else Ok (mkArr (pad_shape (shape a) pw)
             (fun ix => match pad_src (shape a) pw ix with
                        | Some src => get a src
                        | None => pad_fill m a pw ix
                        end)).

(** ** numpy.roll along one axis: [np.roll(a, s, ax)[.., i, ..] = a[.., (i - s) mod n, ..]] *)
Fixpoint upd_nth (k : nat) (f : Z -> Z) (l : list Z) : list Z :=
  match k, l with
  | O, x :: l' => f x :: l'
  | S k', x :: l' => x :: upd_nth k' f l'
  | _, [] => []
  end.

(** numpy.roll(a, s, axis=ax) (utils.py:238, microscope.py:118) *)
Definition roll {A} (s : Z) (ax : nat) (a : array A) : array A :=
  mkArr (shape a) (fun ix => get a (upd_nth ax (fun i => (i - s) mod (nth ax (shape a) 1)) ix)).

(** ** argmax over the flattened array: position of the first maximum. *)
Definition argmax_from {A} (ltb : A -> A -> bool) (f : Z -> A) (ks : list Z) (b : Z) : Z :=
  fold_left (fun best k => if ltb (f best) (f k) then k else best) ks b.
(** numpy.argmax; no element raises ValueError. *)
Definition argmax {A} (ltb : A -> A -> bool) (a : array A) : res Z :=
  if size (shape a) <=? 0 then Err ValueError
  else Ok (argmax_from ltb (flat a) (zseq (size (shape a))) 0).
