(** Specifications for the padding / slicing / data preparation properties, independent of the
    model's helper functions. *)
From Verif Require Import M_Array.
From Coq Require QArith.QArith_base QArith.Qabs.

(** Shape requested by a list of sizes, [None] meaning "keep". *)
Definition target_shape (old : list Z) (ns : list (option Z)) : list Z :=
  map (fun on => match snd on with Some n => n | None => fst on end) (combine old ns).

(** Rigid motion that sends index (n+1)//2 to (N+1)//2 on each axis: the output position [i] of an
    axis resized from [n] to [N] shows the source position [i - (N+1)//2 + (n+1)//2]. *)
Definition moved_from (old new ix : list Z) : list Z :=
  map (fun t => fst t - (snd (snd t) + 1) / 2 + (fst (snd t) + 1) / 2)
      (combine ix (combine old new)).

(** Lexicographic (C) order of multi-indices. *)
Inductive lex_lt : list Z -> list Z -> Prop :=
| lex_here i j l m : i < j -> lex_lt (i :: l) (j :: m)
| lex_next i l m : lex_lt l m -> lex_lt (i :: l) (i :: m).

(** 5-smooth: no prime factor but 2, 3, 5. *)
Definition smooth5 (n : Z) : Prop :=
  exists a b c, 0 <= a /\ 0 <= b /\ 0 <= c /\ n = 2 ^ a * 3 ^ b * 5 ^ c.

(** A strict weak order given as a boolean "less than" (true of <, on ints, rationals, reals). *)
Record strict_weak {A} (ltb : A -> A -> bool) : Prop := {
  sw_irrefl : forall x, ltb x x = false;
  sw_trans : forall x y z, ltb x y = true -> ltb y z = true -> ltb x z = true;
  sw_ntrans : forall x y z, ltb x y = false -> ltb y z = false -> ltb x z = false }.

(** The centre pixel n//2 on every axis. *)
Definition centre (sh : list Z) : list Z := map (fun n => n / 2) sh.

(** Cyclic shift taking [loc] to the centre: where the output position [ix] comes from. *)
Definition cyc_src (sh loc ix : list Z) : list Z :=
  map (fun t => (fst t - fst (snd t) / 2 + snd (snd t)) mod fst (snd t)) (combine ix (combine sh loc)).

(** [loc] is the position of the first (C order) maximum. *)
Definition first_max {A} (ltb : A -> A -> bool) (a : array A) (loc : list Z) : Prop :=
  inb (shape a) loc /\
  (forall ix, inb (shape a) ix -> ltb (get a loc) (get a ix) = false) /\
  (forall ix, inb (shape a) ix -> lex_lt ix loc -> ltb (get a ix) (get a loc) = true).

(** Mode of a list: an element of maximal multiplicity, the smallest such. *)
Definition is_mode (l : list Z) (m : Z) : Prop :=
  In m l /\ forall v, In v l ->
    (count_occ Z.eq_dec l v <= count_occ Z.eq_dec l m)%nat /\
    (count_occ Z.eq_dec l v = count_occ Z.eq_dec l m -> m <= v).

(** Length of an axis of [n] samples after prep_data_for_PR's cropping to [s], and the first
    sample kept. *)
Definition crop_len (s n : Z) : Z :=
  if s <? n then s else if (s =? n) && Z.odd n then n - 1 else n.
Definition crop_start (s n : Z) : Z := Z.max 0 ((n + 1) / 2 - s / 2).

(** [z] is [q] rounded to the nearest integer, ties to even. *)
Definition nearest_even (q : QArith_base.Q) (z : Z) : Prop :=
  QArith_base.Qle (Qabs.Qabs (QArith_base.Qminus q (QArith_base.inject_Z z))) (QArith_base.Qmake 1 2) /\
  (QArith_base.Qeq (Qabs.Qabs (QArith_base.Qminus q (QArith_base.inject_Z z))) (QArith_base.Qmake 1 2) ->
   Z.even z = true).
