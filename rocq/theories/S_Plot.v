(** Vocabulary for the plotting methods of microscopes. *)
From Verif Require Export S_Micro S_Confocal S_Display S_Utils M_Plot.
Import M_Array.
Local Open Scope R_scope.

(** [k] is [x] rounded to the nearest integer, ties to even. *)
Definition rounds_to (x : R) (k : Z) : Prop := Rabs (x - IZR k) <= / 2 /\ (Rabs (x - IZR k) = / 2 -> Z.even k = true).
(** Samples [s], ..., [s + l - 1] are those of an axis of [n] samples that lie in the window of [w]
    samples around [x]: [x - w//2] up to, excluding, [x + (w+1)//2]. *)
Definition window_of (n x w s l : Z) : Prop :=
  (0 <= l)%Z /\ forall i, (0 <= i < l <-> 0 <= i + s < n /\ x - w / 2 <= i + s < x + (w + 1) / 2)%Z.
(** All entries are finite. *)
Definition all_finite {A} (a : array (option A)) : Prop := forall ix, inb (shape a) ix -> get a ix <> None.
Definition r_ltb (a b : R) : bool := if Rlt_dec a b then true else false.
(** 2^-52 *)
Definition machine_eps : R := / 4503599627370496.
