(** numpy's broadcasting of elementwise operations and reductions over the first axis (numpy is outside /repo; these
    follow its documentation). *)
From Verif Require Export M_Hanser.
Local Open Scope Z_scope.

(** Shapes are aligned at their last axes; each pair of lengths must be equal or contain a 1 ([bdim]). *)
Fixpoint bshape_rev (a b : list Z) : res (list Z) :=
  match a, b with
  | [], _ => Ok b
  | _, [] => Ok a
  | x :: a', y :: b' => do d <- bdim x y; do r <- bshape_rev a' b'; Ok (d :: r)
  end.
(** Shape of an elementwise operation on two arrays. *)
Definition bshape (a b : list Z) : res (list Z) := do r <- bshape_rev (rev a) (rev b); Ok (rev r).
(** The source position of an output position: leading axes dropped, axes of length 1 repeated. *)
Fixpoint bixs (sh ix : list Z) : list Z :=
  match sh, ix with n :: sh', i :: ix' => bix n i :: bixs sh' ix' | _, _ => [] end.
(** The element of [a] used at a position of the broadcast result. *)
Definition bget {A} (a : array A) (ix : list Z) : A :=
  get a (bixs (shape a) (skipn (List.length ix - List.length (shape a)) ix)).
(** [f(a, b)] elementwise *)
Definition bop {A B D} (f : A -> B -> D) (a : array A) (b : array B) : res (array D) :=
  do sh <- bshape (shape a) (shape b); Ok (mkArr sh (fun ix => f (bget a ix) (bget b ix))).
(** Equality of two shapes. *)
Fixpoint zlist_eqb (a b : list Z) : bool :=
  match a, b with [], [] => true | x :: a', y :: b' => (x =? y) && zlist_eqb a' b' | _, _ => false end.
(** [a op= b]: the broadcast shape must be that of [a]. *)
Definition ibop {A B} (f : A -> B -> A) (a : array A) (b : array B) : res (array A) :=
  do c <- bop f a b; if zlist_eqb (shape c) (shape a) then Ok c else Err ValueError.
(** [a.sum(0)] *)
Definition sum0 (a : array R) : array R :=
  mkArr (tl (shape a)) (fun ix => Rsum (zseq (hd 0 (shape a))) (fun i => get a (i :: ix))).
(** [v[:, None, None]] for a 1-d array *)
Definition column (l : list R) : array R :=
  mkArr [Z.of_nat (List.length l); 1; 1] (fun ix => match ix with i :: _ => nth (Z.to_nat i) l 0%R | [] => 0%R end).
