(** Vocabulary for SheppardPSF, independent of M_Sheppard's helpers. *)
From Verif Require Export M_Sheppard S_Hanser.
Local Open Scope R_scope.

(** parameters for which the model is meaningful and computable *)
Definition s_physical (p : spar) : Prop :=
  0 < s_wl p /\ 0 <= s_na p /\ 0 < s_ni p /\ 0 < s_res p /\ 0 < s_zres p /\ (2 <= s_size p)%Z /\ (2 <= s_zsize p)%Z.

(** frequency at position k of a centred (fftshifted) axis *)
Definition cfreq (n : Z) (d : R) (k : Z) : R := IZR (k - n / 2) / (IZR n * d).
(** spacing of the frequencies of an axis *)
Definition pitch (n : Z) (d : R) : R := 1 / (IZR n * d).

Section S.
Context (p : spar).
Definition sfz (kz : Z) : R := cfreq (s_zsize p) (s_zres p) kz.
Definition sfl (k : Z) : R := cfreq (s_size p) (s_res p) k.
(** |k| at a centred position *)
Definition kabs (kz ky kx : Z) : R := sqrt (sfz kz ^ 2 + sfl ky ^ 2 + sfl kx ^ 2).
(** lowest kz of the aperture *)
Definition cone : R := sqrt ((s_ni p / s_wl p) ^ 2 - (s_na p / s_wl p) ^ 2).
Definition pz : R := pitch (s_zsize p) (s_zres p).
Definition pl : R := pitch (s_size p) (s_res p).
(** height above the focal plane of frequency space that counts for the aperture *)
Definition height (kz : Z) : R := if s_dual p then Rabs (sfz kz) else sfz kz.
(** components whose factor divides by 1 + s *)
Definition divides (v : vec) (c : Z) : bool :=
  match v with VecX | VecY => true | VecTotal => (2 <=? c)%Z | _ => false end.
End S.

(** sign convention: SheppardPSF's z components are the negatives of HanserPSF's *)
Definition zsign (v : vec) (c : Z) : R :=
  match v with VecZ => -1 | VecTotal => if (c <? 2)%Z then -1 else 1 | _ => 1 end.
(** amplitude weight of the imaging condition at angle theta *)
Definition cond_amp (c : cond) (theta : R) : R :=
  match c with CondNone => 1 | CondSine => 1 / sqrt (cos theta) | CondHerschel => 1 / cos theta end.
(** the same parameters with another polarisation / condition *)
Definition s_with_vec (p : spar) (v : vec) : spar :=
  mkSpar (s_wl p) (s_na p) (s_ni p) (s_res p) (s_size p) (s_zres p) (s_zsize p) v (s_cond p) (s_dual p).
Definition s_with_cond (p : spar) (c : cond) : spar :=
  mkSpar (s_wl p) (s_na p) (s_ni p) (s_res p) (s_size p) (s_zres p) (s_zsize p) (s_vec p) c (s_dual p).
(** The band of the model: the centred positions where the scalar OTF of the same geometry is 1. *)
Definition in_band (A0 : array (option C)) (kz ky kx : Z) : Prop := get A0 [0%Z; kz; ky; kx] = Some (RtoC 1).
Definition on_ix (p : spar) (kz ky kx : Z) : Prop :=
  (0 <= kz < s_zsize p)%Z /\ (0 <= ky < s_size p)%Z /\ (0 <= kx < s_size p)%Z.
