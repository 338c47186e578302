(** Common vocabulary of the model: Python integers, exceptions as values,
    integer ranges.  Nothing here models a particular line of pyOTF. *)
From Coq Require Export ZArith List Bool Lia.
From Coq Require Export ZifyBool ZifyNat.
Export ListNotations.
Global Open Scope Z_scope.
Ltac Zify.zify_post_hook ::= Z.div_mod_to_equations.

(** The Python exception classes raised by pyOTF and the library calls it makes. *)
Inductive exn :=
| ValueError | TypeError | IndexError | KeyError | AssertionError
| RuntimeError | AttributeError | ZeroDivisionError | NotImplementedError
| UnboundLocalError.

(** Result of a Python computation: a value or a raised exception. *)
Inductive res (A : Type) :=
| Ok (a : A)
| Err (e : exn).
Arguments Ok {A} a.
Arguments Err {A} e.

(** Sequencing: an exception ends the computation. *)
Definition bind {A B} (x : res A) (f : A -> res B) : res B :=
  match x with Ok a => f a | Err e => Err e end.
Notation "'do' x <- e ; k" := (bind e (fun x => k))
  (at level 200, x pattern, e at level 100, k at level 200, right associativity).

(** [zseq n] is Python's [range(n)] as a list. *)
Definition zseq (n : Z) : list Z := map Z.of_nat (seq 0 (Z.to_nat n)).

(** Python [max]/[min] on ints are [Z.max]/[Z.min]; [//] and [%] are [Z.div] and
    [Z.modulo] (Python's floor division and its remainder), for non-zero divisors. *)
