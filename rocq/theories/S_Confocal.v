(** Vocabulary for pinholes and confocal images. *)
From Verif Require Export S_Micro.
Import M_Array.
Local Open Scope R_scope.

(** An integer displacement shorter than r. *)
Definition near (r : R) (j i : Z) : Prop := IZR j ^ 2 + IZR i ^ 2 < r ^ 2.
Lemma near_dec r j i : {near r j i} + {~ near r j i}.
Proof. unfold near. apply Rlt_dec. Qed.
(** The list of all of them, each once. *)
Definition disk (r : R) (l : list (Z * Z)) : Prop := NoDup l /\ forall j i, In (j, i) l <-> near r j i.
(** Radius of the pinhole in pixels of the model: [p] Airy units, of 1.22 wl / na each, as a diameter. *)
Definition pinhole_radius (p wl na res : R) : R := p * (122 / 100 * wl / na) / res / 2.
(** Light within r of (y, x) in plane z of an n x n image, divided by the number of points of the disk. *)
Definition through_pinhole (r : R) (N : nat) (d : array R) (n z y x : Z) : R :=
  / INR N * Rsum (zseq n) (fun y' => Rsum (zseq n) (fun x' => if near_dec r (y - y') (x - x') then get d [z; y'; x'] else 0)).
(** an attribute of a model / a numeric property of a microscope is the finite number x *)
Definition finite_number (v : option pyval) (x : R) : Prop := exists w q, v = Some w /\ M_Val.num w = Some (FFin q) /\ x = Q2R q.
(** reading PSFi of a model now gives the finite image d *)
Definition shows_image (c : cls) (o : obj numeric) (d : array R) : Prop :=
  exists B, fst (read numeric c PSFi o) = Ok B /\ finite_all B = true /\ shape d = shape B /\ forall ix, inb (shape B) ix -> get B ix = Some (RtoC (get d ix)).
