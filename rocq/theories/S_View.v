(** Vocabulary for C90: one specimen measured twice, the second time with the camera mirrored or turned, from the other side, with
    the planes in another order, in another unit of length or with another scale of the refractive index. *)
From Verif Require Export S_Phase.
Import M_Array.
Local Open Scope R_scope.

(** What differs in the second measurement. *)
Record view := mkView
  { v_mirror_y : bool;      (* rows mirrored about pixel n//2 *)
    v_mirror_x : bool;      (* columns mirrored about pixel n//2 *)
    v_swap : bool;          (* then rows and columns exchanged *)
    v_side : bool;          (* z counted in the other direction *)
    v_plane : Z -> Z;       (* where plane z of the first stack is found in the second *)
    v_unit : R;             (* lengths times this *)
    v_index : R }.          (* na, ni and wl times this *)

(** Mirror image of pixel i about pixel n//2 on the periodic grid of n pixels. *)
Definition mirrored (n i : Z) : Z := ((2 * (n / 2) - i) mod n)%Z.
Definition mirrored_if (b : bool) (n i : Z) : Z := if b then mirrored n i else i.
(** Where pixel (y, x) of the first images is found in the second. *)
Definition moved (my mx sw : bool) (n y x : Z) : Z * Z :=
  if sw then (mirrored_if mx n x, mirrored_if my n y) else (mirrored_if my n y, mirrored_if mx n x).
Definition pixel (w : view) (n y x : Z) : Z * Z := moved (v_mirror_y w) (v_mirror_x w) (v_swap w) n y x.
(** The same for the pupil: seen from the other side it is also turned by half a turn, and its phase changes sign. *)
Definition pupil_pixel (w : view) (n y x : Z) : Z * Z := moved (xorb (v_mirror_y w) (v_side w)) (xorb (v_mirror_x w) (v_side w)) (v_swap w) n y x.
Definition pupil_value (w : view) (c : C) : C := if v_side w then Cconj c else c.

(** Scales are positive and the second stack has the planes of the first, in some order. *)
Definition proper (w : view) (nz : Z) : Prop :=
  0 < v_unit w /\ 0 < v_index w /\ (forall z, (0 <= z < nz)%Z -> (0 <= v_plane w z < nz)%Z) /\
  (forall z z', (0 <= z < nz)%Z -> (0 <= z' < nz)%Z -> v_plane w z = v_plane w z' -> z = z').
(** The two microscopes. *)
Definition optics (w : view) (nz : Z) (h h' : hpar) : Prop :=
  h_wl h' = v_unit w * v_index w * h_wl h /\ h_na h' = v_index w * h_na h /\ h_ni h' = v_index w * h_ni h /\ h_res h' = v_unit w * h_res h /\
  forall z, (0 <= z < nz)%Z -> nth (Z.to_nat (v_plane w z)) (h_zrange h') 0 = (if v_side w then - v_unit w else v_unit w) * nth (Z.to_nat z) (h_zrange h) 0.
(** Two stacks showing the same. *)
Definition seen (w : view) (nz n : Z) (a a' : array R) : Prop :=
  forall z y x, (0 <= z < nz)%Z -> (0 <= y < n)%Z -> (0 <= x < n)%Z ->
    get a' [v_plane w z; fst (pixel w n y x); snd (pixel w n y x)] = get a [z; y; x].
