(** Vocabulary for plane counts that differ (independent of how M_Phase.v computes). *)
From Verif Require Export S_Phase.
Import M_Array.
Local Open Scope R_scope.

(** One plane, m times. *)
Definition repeated (m : Z) (data : array R) : array R :=
  mkArr [m; nth 1 (shape data) 0%Z; nth 2 (shape data) 0%Z] (fun ix => match ix with [_; y; x] => get data [0%Z; y; x] | _ => 0 end).
(** All planes as one: the square of the mean of their amplitudes (negative counts clipped). *)
Definition merged (data : array R) : array R :=
  mkArr [1%Z; nth 1 (shape data) 0%Z; nth 2 (shape data) 0%Z]
    (fun ix => match ix with [_; y; x] => (Rsum (zseq (hd 0%Z (shape data))) (fun z => sqrt (Rmax 0 (get data [z; y; x]))) / IZR (hd 0%Z (shape data))) ^ 2 | _ => 0 end).
(** [params] holds a zrange other than None. *)
Definition zrange_given (params : pdict) : Prop :=
  match dget params "zrange" with None | Some (KV VNone) => False | _ => True end.
(** HanserPSF( ** params) succeeds with the entries imposed by data of shape (nz, n, n). *)
Definition makes (params : pdict) (nz n : Z) : Prop :=
  exists k model, ctor_of (forced nz n params) = Ok k /\ construct numeric Hanser k = Ok model.
(** A tolerance nothing non-negative is below. *)
Definition never_met (t : tol) : Prop := match t with Tol r => r <= 0 | TolInf => False | TolNever => True end.
(** Two results show the same magnitude, the same complex pupil and the same PSF. *)
Definition same_pupil (r r' : result) : Prop :=
  arr_eq (r_mag r) (r_mag r') /\
  (exists P P', complex_pupil (r_mag r) (r_phase r) = Ok P /\ complex_pupil (r_mag r') (r_phase r') = Ok P' /\ arr_eq P P') /\
  (exists psf psf', generate_psf r None None None = Ok psf /\ generate_psf r' None None None = Ok psf' /\ arr_eq psf psf').
