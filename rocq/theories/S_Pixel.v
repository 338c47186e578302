(** What binning f x f pixels does to a spectrum. *)
From Verif Require Export S_Micro.
Import M_Array.
Local Open Scope R_scope.

(** The transfer function of a pixel f fine pixels wide, at p cycles per field of N fine pixels; it is f at p = 0. *)
Definition pixel_transfer (f N p : Z) : R := Rsum (offsets f) (fun j => cos (2 * PI * (IZR (p * j) / IZR N))).
(** The rows (or columns) of the centred fine spectrum (N = n * f) that show, after keeping one pixel out of f, as row k of the
    centred coarse spectrum: same frequency up to a multiple of n. *)
Definition aliases (n f k : Z) : list Z := filter (fun K => (K - (n * f) / 2 - (k - n / 2)) mod n =? 0)%Z (zseq (n * f)).
