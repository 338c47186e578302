(** Specification of a radial profile, independent of M_Radial's helpers. *)
From Verif Require Import M_Num.
Local Open Scope R_scope.
(** Euclidean distance of pixel ix from the point c *)
Fixpoint dist2 (c : list R) (ix : list Z) : R :=
  match c, ix with x :: c', i :: ix' => (IZR i - x) * (IZR i - x) + dist2 c' ix' | _, _ => 0 end.
(** k is the distance in units of b, rounded to the nearest integer with ties to even *)
Definition in_bin (c : list R) (b : R) (k : Z) (ix : list Z) : Prop :=
  let t := sqrt (dist2 c ix) / b in Rabs (t - IZR k) <= / 2 /\ (Rabs (t - IZR k) = / 2 -> Z.even k = true).
(** l lists the pixels of bin k, each once *)
Definition bin_pixels (sh : list Z) (c : list R) (b : R) (k : Z) (l : list (list Z)) : Prop :=
  NoDup l /\ forall ix, In ix l <-> inb sh ix /\ in_bin c b k ix.
Definition mean_of (l : list (list Z)) (f : list Z -> R) : R := Rsum l f / INR (length l).
(** The point the profile is taken about. *)
Definition centre_of (sh : list Z) (center : option (list R)) (c : list R) : Prop :=
  match center with
  | None => c = map (fun n => IZR (n / 2)) sh
  | Some l => c = l /\ length l = length sh \/ exists x, l = [x] /\ c = repeat x (length sh)
  end.
