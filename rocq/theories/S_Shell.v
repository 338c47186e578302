(** Vocabulary for C111: how far sideways the imaging cap of SheppardPSF's shell reaches. *)
From Verif Require Export S_Sheppard.
Local Open Scope R_scope.

(** na/wl, widened by the thickness of the shell (at most one frequency pixel, along whichever axis has the coarser ones) *)
Definition cap_reach (p : spar) : R :=
  sqrt ((s_na p / s_wl p) ^ 2 + 2 * Rmax (pl p) (pz p) * (s_ni p / s_wl p - cone p)).
(** every amplitude of the OTF is a number (always so with dual=False: C38_single_shell_finite) *)
Definition all_numbers (A : array (option C)) : Prop := forall ix, inb (shape A) ix -> get A ix <> None.
(** sum of the squared moduli of the OTF's amplitudes *)
Definition otf_energy (A : array (option C)) : R :=
  Rsum (all_ix (shape A)) (fun ix => match get A ix with Some v => Cmod v ^ 2 | None => 0 end).
(** the light in the PSF *)
Definition psf_light (p : spar) (A : array (option C)) : R :=
  Rsum (all_ix [s_zsize p; s_size p; s_size p]) (fun ix => match get (s_psfi (s_psfa A)) ix with Some v => v | None => 0 end).
