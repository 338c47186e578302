(** Vocabulary for the convergence of phase retrieval (independent of how M_Phase.v computes). *)
From Verif Require Export S_Phase.
Import M_Array.
Local Open Scope R_scope.

(** Everything a PSF stack holds; everything the data hold once negative counts are clipped; how much the two share. *)
Definition light (psf : array R) : R := Rsum (all_ix (shape psf)) (get psf).
Definition measured (data : array R) : R := Rsum (all_ix (shape data)) (fun ix => Rmax 0 (get data ix)).
Definition overlap (data psf : array R) : R := Rsum (all_ix (shape data)) (fun ix => sqrt (Rmax 0 (get data ix)) * sqrt (get psf ix)).
(** A tolerance that something can be below. *)
Definition attainable (t : tol) : Prop := match t with Tol r => 0 < r | TolInf => True | TolNever => False end.
