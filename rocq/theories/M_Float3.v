(** Sizes found by rounding real lengths to whole pixels, in binary64 (see M_Float.v for the conventions): the Apotome's cut-off,
    the confocal pinhole, the windows of the plots.  Python ints among the arguments are converted to floats first; those
    below 2^53 exactly. *)
From Verif Require Export M_Float M_Plot.
From Flocq Require Import Core.
Local Open Scope R_scope.

(** microscope.py:67-72 psf_params["res"] *)
Definition fl_model_res (px : R) (k : Z) : R := if (k =? 1)%Z then px else rnd64 (px / IZR k).
(** microscope.py:67-72 psf_params["size"] *)
Definition fl_model_size (size k : Z) : Z := (size * k)%Z.
(** microscope.py:252 nyquist_sampling = wl / na / 4 *)
Definition fl_nyquist (wl na : R) : R := rnd64 (rnd64 (wl / na) / 4).
(** microscope.py:253-255 int(np.rint(size * res / nyquist_sampling / 2)) *)
Definition fl_abbe_limit (size k : Z) (px wl na : R) : Z :=
  rint (rnd64 (rnd64 (rnd64 (IZR (fl_model_size size k) * fl_model_res px k) / fl_nyquist wl na) / 2)).
(** microscope.py:258 abbe_limit // 2 *)
Definition fl_apotome_column (size k : Z) (px wl na : R) : Z := (fl_abbe_limit size k px wl na / 2)%Z.

(** microscope.py:215 airy_unit = 1.22 * wl / na / res *)
Definition fl_airy_unit (wl na rs : R) : R := rnd64 (rnd64 (rnd64 (rnd64 (122 / 100) * wl) / na) / rs).
(** microscope.py:218 pinhole_size * airy_unit / 2 *)
Definition fl_pinhole_radius (ph wl na px : R) (k : Z) : R := rnd64 (rnd64 (ph * fl_airy_unit wl na (fl_model_res px k)) / 2).
(** microscope.py:220 pixel_pinhole_radius > 1.5 *)
Definition fl_pinhole_applies (ph wl na px : R) (k : Z) : bool := if Rlt_dec (3 / 2) (fl_pinhole_radius ph wl na px k) then true else false.

(** microscope.py:137, otf.py:232: wl / 2 / na / pixel * 32 *)
Definition fl_lateral (wl na px : R) : R := rnd64 (rnd64 (rnd64 (rnd64 (wl / 2) / na) / px) * 32).
(** microscope.py:138-143, otf.py:233: wl / (ni - np.sqrt(ni ** 2 - na ** 2)) / pixel * 16, with [sq] the platform's square.
    The argument of the square root is negative only when na > ni, where numpy gives NaN: not described here. *)
Definition fl_axial (sq : R -> R) (wl na ni px : R) : R :=
  rnd64 (rnd64 (rnd64 (wl / rnd64 (ni - rnd64 (sqrt (rnd64 (sq ni - sq na))))) / px) * 16).
(** microscope.py:146, otf.py:236 the window of plot_psf *)
Definition fl_window (sq : R -> R) (wl na ni pz px : R) (at_ : list Z) : res (list pyslice) :=
  let ax := fl_axial sq wl na ni pz in let lat := fl_lateral wl na px in r_slice_maker at_ [ax; lat; lat].
