(** Vocabulary for structured illumination: interference of plane waves, as in a textbook. *)
From Verif Require Export S_Confocal.
Import M_Array.
Local Open Scope R_scope.

(** Grid and beams: lateral and axial size and spacing, refractive index, excitation wavelength and NA. *)
Record beams := mkBeams { b_n : Z; b_nz : Z; b_dx : R; b_dz : R; b_ni : R; b_wl : R; b_na : R }.
(** Coordinate of pixel i: the code's centre is pixel (n + 1) // 2. *)
Definition coord (n : Z) (d : R) (i : Z) : R := IZR (i - (n + 1) / 2) * d.
Section B.
Context (B : beams).
(** Phase of a beam at NA [b_na] across the direction o at pixel (y, x): 2 pi na r / wl. *)
Definition across (o : R) (y x : Z) : R :=
  2 * PI * b_na B / b_wl B * (coord (b_n B) (b_dx B) x * cos o + coord (b_n B) (b_dx B) y * sin o).
(** Phase between the axial beam and the tilted ones in plane z: 2 pi z (ni - sqrt (ni^2 - na^2)) / wl. *)
Definition along (z : Z) : R := 2 * PI / b_wl B * (b_ni B - sqrt (b_ni B ^ 2 - b_na B ^ 2)) * coord (b_nz B) (b_dz B) z.
(** The microscope's current settings are these. *)
Definition settings (m : micro) : Prop :=
  let par k := option_map as_val (dget (mi_params m) k) in
  (exists v, par "size"%string = Some v /\ int_value v = Some (b_n B)) /\ (exists v, par "zsize"%string = Some v /\ int_value v = Some (b_nz B)) /\
  finite_number (par "res"%string) (b_dx B) /\ finite_number (par "zres"%string) (b_dz B) /\ finite_number (par "ni"%string) (b_ni B) /\
  finite_number (mi_num m MWlExc) (b_wl B) /\ finite_number (mi_num m MNaExc) (b_na B).
End B.
(** the three switches *)
Definition switches (m : micro) (coherent dc dc_suppress : bool) : Prop :=
  mi_num m MCoherent = Some (VBool coherent) /\ mi_num m MDc = Some (VBool dc) /\ mi_num m MDcSup = Some (VBool dc_suppress).
Definition count (os : list R) : R := INR (List.length os).
(** Light that reaches a point per unit of fluorescence response: orientations one after the other or all at once. *)
Definition illumination (B : beams) (coherent dc dc_suppress : bool) (os : list R) (z y x : Z) : R :=
  let N := count os in
  if coherent then
    let A := Rsum os (fun o => 2 * cos (across B o y x)) in (if dc then 1 + 2 * A * cos (along B z) else 0) + A ^ 2
  else (if dc_suppress then 1 else 2 * N) + (if dc then N else 0) +
       Rsum os (fun o => (if dc then 4 * cos (across B o y x) * cos (along B z) else 0) + 2 * cos (2 * across B o y x)).
