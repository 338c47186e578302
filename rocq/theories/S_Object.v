(** What the numbers of a PSF object should be, from its attributes to its arrays, in the vocabulary of optics. *)
From Verif Require Export M_Engine S_Hanser S_Sheppard S_PSF S_FFT.
Import M_Array.
Local Open Scope R_scope.

(** ** Attributes as numbers *)
(** a finite real number; a whole number (a bool counts as 0 or 1) *)
Definition is_real (v : option pyval) (r : R) : Prop := exists w q, v = Some w /\ M_Val.num w = Some (FFin q) /\ r = Q2R q.
Definition is_whole (v : option pyval) (n : Z) : Prop :=
  v = Some (VInt n) \/ exists b : bool, v = Some (VBool b) /\ n = if b then 1%Z else 0%Z.
Definition says_vec (v : option pyval) (x : vec) : Prop :=
  exists s, v = Some (VStr s) /\ In (s, x) [("none", VecNone); ("x", VecX); ("y", VecY); ("z", VecZ); ("total", VecTotal)]%string.
Definition says_cond (v : option pyval) (x : cond) : Prop :=
  exists s, v = Some (VStr s) /\ In (s, x) [("none", CondNone); ("sine", CondSine); ("herschel", CondHerschel)]%string.
(** [h] ([p]) holds the attributes of the object *)
Definition h_describes (h : hpar) (o : obj numeric) : Prop :=
  is_real (o_attr o A_wl) (h_wl h) /\ is_real (o_attr o A_na) (h_na h) /\ is_real (o_attr o A_ni) (h_ni h) /\
  is_real (o_attr o A_res) (h_res h) /\ is_whole (o_attr o A_size) (h_size h) /\
  says_vec (o_attr o A_vec_corr) (h_vec h) /\ says_cond (o_attr o A_condition) (h_cond h) /\
  exists l, o_zrange o = Some l /\ Forall2 (fun f r => exists q, f = FFin q /\ r = Q2R q) l (h_zrange h).
Definition s_describes (p : spar) (o : obj numeric) : Prop :=
  is_real (o_attr o A_wl) (s_wl p) /\ is_real (o_attr o A_na) (s_na p) /\ is_real (o_attr o A_ni) (s_ni p) /\
  is_real (o_attr o A_res) (s_res p) /\ is_whole (o_attr o A_size) (s_size p) /\
  is_real (o_attr o A_zres) (s_zres p) /\ is_whole (o_attr o A_zsize) (s_zsize p) /\
  says_vec (o_attr o A_vec_corr) (s_vec p) /\ says_cond (o_attr o A_condition) (s_cond p) /\
  o_attr o A_dual = Some (VBool (s_dual p)).

(** ** Polarisation *)
(** 3 x 3 matrices over the axes x, y, z; rotations about z and about y. *)
Inductive axis := X | Y | Z'.
Definition mat := axis -> axis -> R.
Definition mat_mul (a b : mat) : mat := fun i k => a i X * b X k + a i Y * b Y k + a i Z' * b Z' k.
Definition rot_z (f : R) : mat := fun i k =>
  match i, k with X, X => cos f | X, Y => - sin f | Y, X => sin f | Y, Y => cos f | Z', Z' => 1 | _, _ => 0 end.
Definition rot_y (t : R) : mat := fun i k =>
  match i, k with X, X => cos t | X, Z' => sin t | Z', X => - sin t | Z', Z' => cos t | Y, Y => 1 | _, _ => 0 end.
(** An ideal lens turns the field of a ray in the meridional plane at azimuth f by the angle t. *)
Definition lens (t f : R) : mat := mat_mul (rot_z f) (mat_mul (rot_y t) (rot_z (- f))).
(** The components stored for each setting, in order: (component of the field, polarisation of the illumination). *)
Definition component_list (v : vec) : list (axis * axis) :=
  match v with
  | VecNone => []
  | VecX => [(X, X); (X, Y)]
  | VecY => [(Y, X); (Y, Y)]
  | VecZ => [(Z', X); (Z', Y)]
  | VecTotal => [(Z', X); (Z', Y); (Y, X); (Y, Y); (X, X); (X, Y)]
  end.
Definition polarisation (v : vec) (m : mat) (c : Z) : R :=
  match v with VecNone => 1 | _ => let '(i, k) := nth (Z.to_nat c) (component_list v) (X, X) in m i k end.

(** ** HanserPSF *)
(** angles of the ray of each pupil pixel: polar angle with the sine |k| wl / ni (0 outside the sphere), azimuth of (kx, ky) *)
Definition ray_angles (h : hpar) (theta phi : Z -> Z -> R) : Prop :=
  forall y x, (0 <= y < h_size h)%Z -> (0 <= x < h_size h)%Z ->
    sin (theta y x) = sqrt (S_Hanser.sin2 h y x) /\ 0 <= cos (theta y x) /\
    sfreq (h_size h) (h_res h) x = sqrt (k2 h y x) * cos (phi y x) /\ sfreq (h_size h) (h_res h) y = sqrt (k2 h y x) * sin (phi y x).
(** The amplitude: one plane wave per pupil pixel, with the pupil's value, the square root of the condition's weight and the
    polarisation; its phase is 2 pi times kz z + ky y + kx x, position measured from pixel size//2. *)
Definition plane_waves (h : hpar) (pupil : Z -> Z -> C) (theta phi : Z -> Z -> R) (c z y x : Z) : C :=
  let n := h_size h in
  Cmult (RtoC (/ IZR (n * n)))
    (Csum (zseq n) (fun j => Csum (zseq n) (fun i =>
      Cmult (Cmult (pupil j i) (RtoC (sqrt (cond_weight h j i) * polarisation (h_vec h) (lens (- theta j i) (phi j i)) c)))
        (cis (2 * PI * (sqrt (Rmax 0 ((h_ni h / h_wl h) ^ 2 - k2 h j i)) * nth (Z.to_nat z) (h_zrange h) 0 +
                        sfreq n (h_res h) j * (IZR (y - n / 2) * h_res h) +
                        sfreq n (h_res h) i * (IZR (x - n / 2) * h_res h))))))).

(** ** SheppardPSF *)
Section Sh.
Context (p : spar).
(** k[1] - k[0] of an axis (negative when it has two samples) *)
Definition spacing (n : Z) (d : R) : R := if (n =? 2)%Z then - pitch n d else pitch n d.
Definition along_z : R := spacing (s_zsize p) (s_zres p).
Definition along_xy : R := spacing (s_size p) (s_res p).
(** half the thickness of the drawn shell *)
Definition thickness (kz ky kx : Z) : R :=
  if Req_EM_T along_xy along_z then along_xy
  else if Req_EM_T (kabs p kz ky kx) 0 then 0
  else sqrt ((sfz p kz * along_z) ^ 2 + (sfl p ky * along_xy) ^ 2 + (sfl p kx * along_xy) ^ 2) / kabs p kz ky kx.
Definition on_shell (kz ky kx : Z) : Prop :=
  Rabs (kabs p kz ky kx - s_ni p / s_wl p) < thickness kz ky kx /\ cone p + thickness kz ky kx < height p kz.
End Sh.
(** Inverse of the centred transform as easy_ifft computes it, along three axes. *)
Definition inverse_sum (nz n : Z) (f : Z -> Z -> Z -> C) (z y x : Z) : C :=
  Cmult (RtoC (/ IZR (nz * (n * n))))
    (Csum (zseq nz) (fun kz => Csum (zseq n) (fun ky => Csum (zseq n) (fun kx =>
      Cmult (cis (2 * PI * (IZR ((kz + nz / 2) * (z + nz / 2)) / IZR nz + IZR ((ky + n / 2) * (y + n / 2)) / IZR n +
                            IZR ((kx + n / 2) * (x + n / 2)) / IZR n))) (f kz ky kx))))).
