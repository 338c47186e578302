(** utils.cart2pol and utils.psqrt over the reals. *)
From Verif Require Export M_Num.
Local Open Scope R_scope.

(** numpy.arctan2 without signed zeros. *)
Definition atan2 (y x : R) : R :=
  if Rlt_dec 0 x then atan (y / x)
  else if Rlt_dec x 0 then (if Rle_dec 0 y then atan (y / x) + PI else atan (y / x) - PI)
  else if Rlt_dec 0 y then PI / 2 else if Rlt_dec y 0 then - (PI / 2) else 0.
(** numpy.hypot *)
Definition hypot (y x : R) : R := sqrt (y * y + x * x).

(** utils.py:167-171 cart2pol: (rho, theta) *)
Definition cart2pol (y x : R) : R * R := (hypot y x, atan2 y x).
(** utils.py:253-255 psqrt, for real (non-NaN) data: fmax(0, x) is the larger *)
Definition psqrt (x : R) : R := sqrt (Rmax 0 x).
