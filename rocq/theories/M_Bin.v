(** utils.bin_ndarray (pyotf/utils.py:297-344) over real data *)
From Coq Require Export String Ascii.
From Verif Require Export M_Num.
Global Open Scope Z_scope.

(** str.lower on ASCII text *)
Definition lower_ascii (c : ascii) : ascii :=
  let n := nat_of_ascii c in if Nat.leb 65 n && Nat.leb n 90 then ascii_of_nat (n + 32) else c.
(** str.lower (utils.py:329, microscope.py:41) *)
Fixpoint lower (s : string) : string :=
  match s with EmptyString => EmptyString | String c s' => String (lower_ascii c) (lower s') end.

(** ndarray.reshape: the same elements in C order; the number of elements must agree.  A negative length is either
    refused or inferred by numpy; the calls made below that contain one always contain two, or an empty axis, and
    are refused. *)
Definition reshape {A} (a : array A) (sh : list Z) : res (array A) :=
  if existsb (fun n => n <? 0) sh then Err ValueError
  else if size sh =? size (shape a) then Ok (mkArr sh (fun ix => flat a (ravel sh ix)))
  else Err ValueError.

(** ndarray.sum(-(k+1)) and .mean(-(k+1)): [op n g] combines the n elements g 0, ..., g (n-1) along the axis. *)
Definition reduce (op : Z -> (Z -> R) -> R) (k : nat) (a : array R) : array R :=
  let p := (List.length (shape a) - S k)%nat in
  mkArr (firstn p (shape a) ++ skipn (S p) (shape a))
        (fun ix => op (nth p (shape a) 1) (fun j => get a (firstn p ix ++ j :: skipn p ix))).
(** ndarray.sum along one axis (utils.py:342-343) *)
Definition op_sum (n : Z) (g : Z -> R) : R := Rsum (zseq n) g.
(** ndarray.mean along one axis (utils.py:342-343) *)
Definition op_mean (n : Z) (g : Z -> R) : R := (Rsum (zseq n) g / IZR n)%R.

(** new_shape: a sequence of Python ints, or of numpy integers (whose // by zero gives 0 instead of raising). *)
Inductive shape_arg := PyShape (l : list Z) | NpShape (l : list Z).
(** bin_size: a scalar or a sequence of integers (utils.py:297, 323) *)
Inductive bin_arg := BScalar (b : Z) | BSeq (l : list Z).
(** numpy broadcasting of bin_size against the vector of nd lengths (utils.py:323); the crop window has one slice per
    entry of the result, and more slices than axes are an IndexError (utils.py:327). *)
Definition bcast_bins (nd : nat) (b : bin_arg) : res (list Z) :=
  match b with
  | BScalar x => Ok (repeat x nd)
  | BSeq [x] => Ok (repeat x nd)
  | BSeq l => if Nat.eqb (List.length l) nd then Ok l
              else if Nat.eqb nd 1 && negb (Nat.eqb (List.length l) 0) then Err IndexError else Err ValueError
  end.
(** numpy's integer % (utils.py:325): 0 for a zero divisor, with a warning.  Its // gives 0 there, as Coq's Z.div does, so
    n // b is written n / b below. *)
Definition np_mod (n b : Z) : Z := if b =? 0 then 0 else n mod b.
(** utils.py:325 *)
Definition bin_crop (n b : Z) : pyslice := if np_mod n b =? 0 then full_slice else Slice None (Some (- np_mod n b)).
(** utils.py:335-337 *)
Definition flatten_pairs (ps : list (Z * Z)) : list Z := flat_map (fun p => [fst p; snd p]) ps.
(** utils.py:328-344 *)
Definition bin_to (a : array R) (new_shape : shape_arg) (operation : string) : res (array R) :=
  do op <- (if String.eqb (lower operation) "sum" then Ok op_sum
            else if String.eqb (lower operation) "mean" then Ok op_mean else Err ValueError);
  let ns := match new_shape with PyShape l => l | NpShape l => l end in
  if negb (Nat.eqb (List.length (shape a)) (List.length ns)) then Err ValueError
  else if match new_shape with PyShape l => existsb (Z.eqb 0) l | NpShape _ => false end then Err ZeroDivisionError
  else
    let pairs := map (fun dc => (fst dc, snd dc / fst dc)) (combine ns (shape a)) in
    do r <- reshape a (flatten_pairs pairs);
    Ok (fold_left (fun acc i => reduce op i acc) (seq 0 (List.length ns)) r).
(** utils.py:297-344 *)
Definition bin_ndarray (a : array R) (new_shape : option shape_arg) (bin_size : option bin_arg) (operation : string)
  : res (array R) :=
  match new_shape with
  | Some ns => bin_to a ns operation
  | None =>
      match bin_size with
      | None => Err ValueError
      | Some b =>
          do bs <- bcast_bins (List.length (shape a)) b;
          let ns := map (fun nb => fst nb / snd nb) (combine (shape a) bs) in
          do cropped <- getitem a (map (fun nb => bin_crop (fst nb) (snd nb)) (combine (shape a) bs));
          bin_to cropped (NpShape ns) operation
      end
  end.
