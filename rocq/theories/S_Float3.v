(** Words for statements about rounding a computed length to whole pixels. *)
From Verif Require Export S_Float S_Float2.
From Flocq Require Import Core.
Local Open Scope R_scope.
(** x is further than a fraction e of itself from every tie between two whole numbers *)
Definition clear_of_ties (e x : R) : Prop := forall z : Z, e * Rabs x < Rabs (x - (IZR z + / 2)).
(** the whole number nearest to x, when x is not half way between two *)
Definition nearest (x : R) (n : Z) : Prop := Rabs (x - IZR n) < / 2.
(** Distances of the Apotome's cut-off, in frequency pixels: the field of view over a quarter of the wavelength over na, halved. *)
Definition cutoff (size : Z) (px wl na : R) : R := IZR size * px / (wl / na / 4) / 2.
(** the radius of a pinhole of [ph] Airy units in pixels of width px / k *)
Definition pinhole (ph wl na px : R) (k : Z) : R := ph * (122 / 100 * wl / na / (px / IZR k)) / 2.
(** 32 half-wavelengths over na; 16 axial resolutions *)
Definition lateral_width (wl na px : R) : R := 32 * (wl / (2 * na) / px).
Definition axial_width (wl na ni px : R) : R := 16 * (wl / (ni - sqrt (ni ^ 2 - na ^ 2)) / px).
