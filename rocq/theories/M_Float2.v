(** The limits and the spherical shell of the PSF classes in binary64 (see M_Float.v for the conventions). *)
From Verif Require Export M_Float M_Sheppard.
From Flocq Require Import Core.
Local Open Scope R_scope.

(** otf.py:142-156 BasePSF.res: refused when res >= 1 / (2 * na / wl) *)
Definition fl_res_refused (na wl res : R) : bool := if Rle_dec (rnd64 (1 / rnd64 (rnd64 (2 * na) / wl))) res then true else false.
(** otf.py:483-490 SheppardPSF.zres: refused when zres >= wl / 2 / ni *)
Definition fl_zres_refused (wl ni zres : R) : bool := if Rle_dec (rnd64 (rnd64 (wl / 2) / ni)) zres then true else false.

Section S.
(** Python's x ** 2 on floats is the C library's pow: a parameter. *)
Context (sq : R -> R).
(** otf.py:506 kmag ** 2 - (na / wl) ** 2 *)
Definition fl_radicand (p : spar) : R := rnd64 (sq (rnd64 (s_ni p / s_wl p)) - sq (rnd64 (s_na p / s_wl p))).
(** otf.py:506-508 the assertion kz_min >= 0, which a NaN (negative radicand) fails *)
Definition fl_aperture_refused (p : spar) : bool := if Rlt_dec (fl_radicand p) 0 then true else false.
(** otf.py:506 *)
Definition fl_kz_min (p : spar) : R := rnd64 (sqrt (fl_radicand p)).
(** otf.py:494-495 *)
Definition fl_sk (p : spar) (i : Z) : R := fl_fftfreq (s_size p) (s_res p) i.
(** otf.py:495 *)
Definition fl_skz (p : spar) (i : Z) : R := fl_fftfreq (s_zsize p) (s_zres p) i.
(** numpy.linalg.norm(..., axis=0) of three real arrays: squares, two additions, square root *)
Definition fl_norm3 (a b c : R) : R := rnd64 (sqrt (rnd64 (rnd64 (rnd64 (a * a) + rnd64 (b * b)) + rnd64 (c * c)))).
(** otf.py:498 *)
Definition fl_skr (p : spar) (z y x : Z) : R := fl_norm3 (fl_skz p z) (fl_sk p y) (fl_sk p x).
(** otf.py:502 *)
Definition fl_dk (p : spar) : R := rnd64 (fl_sk p 1 - fl_sk p 0).
(** otf.py:502 *)
Definition fl_dkz (p : spar) : R := rnd64 (fl_skz p 1 - fl_skz p 0).
(** otf.py:511-518 *)
Definition fl_dkr (p : spar) (z y x : Z) : R :=
  if Req_EM_T (fl_dk p) (fl_dkz p) then fl_dk p
  else if (z =? 0)%Z && (y =? 0)%Z && (x =? 0)%Z then 0
  else rnd64 (fl_norm3 (rnd64 (fl_skz p z * fl_dkz p)) (rnd64 (fl_sk p y * fl_dk p)) (rnd64 (fl_sk p x * fl_dk p)) / fl_skr p z y x).
(** otf.py:519-527 *)
Definition fl_kzz (p : spar) (z : Z) : R := if s_dual p then Rabs (fl_skz p z) else fl_skz p z.
(** otf.py:526-527 the valid points *)
Definition fl_valid (p : spar) (z y x : Z) : bool :=
  (if Rlt_dec (Rabs (rnd64 (fl_skr p z y x - rnd64 (s_ni p / s_wl p)))) (fl_dkr p z y x) then true else false) &&
  (if Rlt_dec (rnd64 (fl_kz_min p + fl_dkr p z y x)) (fl_kzz p z) then true else false).
End S.
