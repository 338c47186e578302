(** Vocabulary for the plotting methods of PSF objects. *)
From Verif Require Export S_Plot S_Object M_PsfPlot.
From Coq Require Import Qabs.
Import M_Array.

(** At least three planes, and each step differs from the average step (last - first) / (planes - 1) by at most
    1e-8 + 1e-5 |average step|. *)
Definition evenly_spaced (l : list Q) : Prop :=
  let n := List.length l in
  let step := ((nth (n - 1) l 0%Q - nth 0 l 0%Q) / inject_Z (Z.of_nat n - 1))%Q in
  (3 <= n)%nat /\
  forall i, (S i < n)%nat -> (Qabs (nth (S i) l 0%Q - nth i l 0%Q - step) <= (1 # 100000000) + (1 # 100000) * Qabs step)%Q.

(** Both plots raise RuntimeError and change nothing. *)
Definition plots_refused (c : cls) (o : obj numeric) : Prop :=
  (forall mip, p_plot_psf c mip o = (Err RuntimeError, o)) /\ p_plot_otf c o = (Err RuntimeError, o).
(** The planes of the object do not stand in the way of plotting: it has none stored (SheppardPSF), or finite evenly
    spaced ones. *)
Definition plottable (o : obj numeric) : Prop :=
  o_zrange o = None \/ exists l, o_zrange o = Some (map FFin l) /\ evenly_spaced l.
