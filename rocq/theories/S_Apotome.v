(** Vocabulary for the Apotome's axial response. *)
From Verif Require Export S_Confocal S_Radial S_FFT.
From Flocq Require Import Core.
Import M_Array.
Local Open Scope R_scope.

(** Light in plane z of the image d, and the centred two-dimensional spectrum of that plane. *)
Definition plane_light (d : array R) (z : Z) : R := Rsum (all_ix (tl (shape d))) (fun ix => get d (z :: ix)).
Definition plane_spectrum (d : array R) (z : Z) : array C := easy_fft None (mkArr (tl (shape d)) (fun ix => RtoC (get d (z :: ix)))).
(** l lists the pixels of an n x n spectrum at distance k from the zero frequency, rounded to whole pixels. *)
Definition ring (n k : Z) (l : list (list Z)) : Prop := bin_pixels [n; n] [IZR (n / 2); IZR (n / 2)] 1 k l.
(** There are L rings: 0, ..., L - 1. *)
Definition rings (n L : Z) : Prop := forall k, (0 <= k < L)%Z <-> (0 <= k)%Z /\ exists ix j, inb [n; n] ix /\ (k <= j)%Z /\ in_bin [IZR (n / 2); IZR (n / 2)] 1 j ix.
(** Mean of a spectrum over a list of pixels. *)
Definition mean_over (l : list (list Z)) (F : array C) : C := (mean_of l (fun ix => Re (get F ix)), mean_of l (fun ix => Im (get F ix))).
(** Half of the cut-off frequency 2 na / wl, in pixels of a spectrum of n pixels of pitch 1 / (n res), rounded (half to even) before
    it is halved. *)
Definition half_cutoff (n res wl na : R) : Z := (ZnearestE (2 * na / wl * (n * res)) / 2)%Z.
(** M is the largest value of f on 0, ..., nz - 1. *)
Definition largest (nz : Z) (f : Z -> R) (M : R) : Prop := (exists z, (0 <= z < nz)%Z /\ f z = M) /\ forall z, (0 <= z < nz)%Z -> f z <= M.
