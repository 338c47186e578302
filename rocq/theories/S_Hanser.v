(** What the Hanser model computes, in the vocabulary of optics (independent of M_Hanser's helpers). *)
From Verif Require Export M_Hanser.
Local Open Scope R_scope.

(** Number of field components. *)
Definition components (v : vec) : Z :=
  match v with VecNone => 1 | VecX | VecY | VecZ => 2 | VecTotal => 6 end%Z.

(** Signed spatial frequency of row/column i: the representative of i modulo n in [-n/2, n/2). *)
Definition sfreq (n : Z) (d : R) (i : Z) : R := IZR ((i + n / 2) mod n - n / 2) / (IZR n * d).

Section S.
Context (h : hpar).
Let f i := sfreq (h_size h) (h_res h) i.
(** |k|^2 *)
Definition k2 (y x : Z) : R := f y * f y + f x * f x.
(** squared sine of the angle to the optical axis: (|k| wl / ni)^2 inside the sphere, else 0 *)
Definition sin2 (y x : Z) : R :=
  if Rlt_dec (k2 y x) ((h_ni h / h_wl h) ^ 2) then k2 y x * (h_wl h / h_ni h) ^ 2 else 0.
(** squared direction cosines along x and y *)
Definition dirx2 (y x : Z) : R :=
  if Rlt_dec (k2 y x) ((h_ni h / h_wl h) ^ 2) then (f x * (h_wl h / h_ni h)) ^ 2 else 0.
Definition diry2 (y x : Z) : R :=
  if Rlt_dec (k2 y x) ((h_ni h / h_wl h) ^ 2) then (f y * (h_wl h / h_ni h)) ^ 2 else 0.
(** intensity weight of the imaging condition *)
Definition cond_weight (y x : Z) : R :=
  match h_cond h with
  | CondNone => 1
  | CondSine => 1 / sqrt (1 - sin2 y x)
  | CondHerschel => 1 / (1 - sin2 y x)
  end.
(** fraction of the light seen by the selected field components, over the two illumination polarisations *)
Definition pol_weight (v : vec) (y x : Z) : R :=
  match v with
  | VecNone => 1
  | VecX => 1 - dirx2 y x
  | VecY => 1 - diry2 y x
  | VecZ => dirx2 y x + diry2 y x
  | VecTotal => 2
  end.
(** inside the aperture *)
Definition in_aperture (y x : Z) : Prop := k2 y x < (h_na h / h_wl h) ^ 2.

(** the parameter sets the real-number model speaks about *)
Definition physical : Prop :=
  0 < h_wl h /\ 0 <= h_na h /\ 0 < h_ni h /\ 0 < h_res h /\ (0 < h_size h)%Z.
(** the Abbe limit checked when res is assigned *)
Definition sampled : Prop := h_res h < 1 / (2 * h_na h / h_wl h).
End S.

(** A pupil on the model's grid. *)
Definition on_grid (h : hpar) (P : array C) : Prop := shape P = [h_size h; h_size h].
(** The pupil that is used: the ideal one unless one is given. *)
Definition used_pupil (h : hpar) (base : option (array C)) (y x : Z) : C :=
  match base with Some P => get P [y; x] | None => RtoC (if Rlt_dec (k2 h y x) ((h_na h / h_wl h) ^ 2) then 1 else 0) end.

(** Sum over one plane. *)
Definition plane_sum (n : Z) (F : Z -> Z -> R) : R := Rsum (zseq n) (fun y => Rsum (zseq n) (fun x => F y x)).
