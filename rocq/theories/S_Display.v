(** Specifications for the display properties: sample coordinates, where matplotlib draws a sample,
    focal displacement, and the support of a widefield OTF. *)
From Verif Require Import Base M_Array M_Display.
From Coq Require Import Reals.
Local Open Scope R_scope.

(** Coordinate of sample [i] on an axis of [n] samples of pitch [d] whose sample n//2 is at 0. *)
Definition coord (n : Z) (d : R) (i : Z) : R := IZR (i - n / 2) * d.

(** [m] is the largest value of [f] on 0 .. n-1. *)
Definition is_max (n : Z) (f : Z -> R) (m : R) : Prop :=
  (exists k, (0 <= k < n)%Z /\ f k = m) /\ forall k, (0 <= k < n)%Z -> f k <= m.

(** matplotlib's imshow with its default origin ("upper"): the extent is the outer bounding box,
    cells have equal sizes, row 0 is at the top.  Centre of the cell in column [c] / row [r]. *)
Definition ncols (p : panel) : Z := nth 1 (shape (p_img p)) 0%Z.
Definition nrows (p : panel) : Z := nth 0 (shape (p_img p)) 0%Z.
Definition drawn_x (p : panel) (c : Z) : R :=
  p_left p + (IZR c + / 2) / IZR (ncols p) * (p_right p - p_left p).
Definition drawn_y (p : panel) (r : Z) : R :=
  p_top p - (IZR r + / 2) / IZR (nrows p) * (p_top p - p_bottom p).

(** Points on an arc patch: angles in degrees, between the wedge's two angles. *)
Definition on_arc (w : wedge) (x y : R) : Prop :=
  exists t, w_t1 w <= t <= w_t2 w /\
    x = w_x w + w_r w * cos (t * PI / 180) /\ y = w_y w + w_r w * sin (t * PI / 180).

(** The wave vectors an objective collects: a cap of the sphere of radius [k] of lateral radius [q]. *)
Definition collected (k q px py pz : R) : Prop :=
  px ^ 2 + py ^ 2 + pz ^ 2 = k ^ 2 /\ px ^ 2 + py ^ 2 <= q ^ 2 /\ 0 <= pz.
(** Spatial frequencies of the intensity image in the plane ky = 0: differences of two collected
    wave vectors with equal second components. *)
Definition in_support (k q : R) (kx kz : R) : Prop :=
  exists px py pz qx qy qz, collected k q px py pz /\ collected k q qx qy qz /\
    px - qx = kx /\ py - qy = 0 /\ pz - qz = kz.

(** Displacement of the focus of the marginal ray per unit index: n (1 - cos theta), n sin theta = na. *)
Definition axial_shift (n na : R) : R := n * (1 - cos (asin (na / n))).

(** The number a call to z_squeeze denotes (the int 1 is the number 1). *)
Definition value (q : squeeze) (r : R) : Prop := q = QFin r \/ (q = QOne /\ r = 1).

(** (l, z) lies on the boundary of the support: no transmitted frequency with lateral part [l] has a
    larger axial part than |z|, and one has exactly |z|. *)
Definition edge (k q l z : R) : Prop :=
  in_support k q l (Rabs z) /\ forall z', in_support k q l z' -> z' <= Rabs z.
