(** Real and complex arithmetic used to model numpy's float64/complex128 numbers: exact reals
    (rounding is not modelled), complex numbers from Coquelicot, finite sums, phases. *)
From Verif Require Export M_Array.
From Coq Require Export Reals Lra.
From Coquelicot Require Export Complex.
Global Open Scope Z_scope.
Global Set Warnings "-notation-overridden".

(** [sum(f(x) for x in l)] *)
Fixpoint Csum {X} (l : list X) (f : X -> C) : C :=
  match l with [] => RtoC 0 | x :: l' => Cplus (f x) (Csum l' f) end.
(** the same for real numbers *)
Fixpoint Rsum {X} (l : list X) (f : X -> R) : R :=
  match l with [] => 0%R | x :: l' => Rplus (f x) (Rsum l' f) end.

(** All in-bounds multi-indices, in C order. *)
Fixpoint all_ix (sh : list Z) : list (list Z) :=
  match sh with
  | [] => [[]]
  | n :: sh' => flat_map (fun i => map (cons i) (all_ix sh')) (zseq n)
  end.

(** [exp(1j * t)] *)
Definition cis (t : R) : C := (cos t, sin t).
(** [abs(z) ** 2] *)
Definition Cnorm2 (z : C) : R := (Re z * Re z + Im z * Im z)%R.
