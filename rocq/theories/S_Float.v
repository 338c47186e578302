(** Words used in the statements about floating point. *)
From Verif Require Export M_Num.
From Flocq Require Import Core.
Local Open Scope R_scope.
(** x is a binary64 number (of any magnitude) *)
Definition is_float (x : R) : Prop := exists m e, x = IZR m * bpow radix2 e /\ (Z.abs m < 2 ^ 53)%Z /\ (-1074 <= e)%Z.
(** multiples of one half *)
Definition half_integer (x : R) : Prop := exists z, x = IZR z / 2.
(** hypot with an error of at most one unit in the last place, barring underflow *)
Definition accurate_hypot (hyp : R -> R -> R) : Prop :=
  hyp 0 0 = 0 /\
  forall y x, bpow radix2 (-1022) <= sqrt (y * y + x * x) -> Rabs (hyp y x - sqrt (y * y + x * x)) <= bpow radix2 (-52) * sqrt (y * y + x * x).
(** hypot as C describes it: signs and order do not matter *)
Definition even_hypot (hyp : R -> R -> R) : Prop :=
  forall y x, hyp (- y) x = hyp y x /\ hyp y (- x) = hyp y x /\ hyp x y = hyp y x.
(** squaring by the C library: monotone, and within one unit in the last place barring underflow *)
Definition monotone_square (sq : R -> R) : Prop := forall x y, 0 <= x <= y -> 0 <= sq x <= sq y.
Definition accurate_square (sq : R -> R) : Prop :=
  forall x, bpow radix2 (-1022) <= x * x -> is_float (sq x) /\ Rabs (sq x - x * x) <= bpow radix2 (-52) * (x * x).
