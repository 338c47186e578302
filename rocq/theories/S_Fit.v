(** Vocabulary for the Zernike fit, the partial reconstructions and the resizing of phase retrieval results. *)
From Verif Require Export S_Phase S_Aberr.
Import M_Array.
Local Open Scope R_scope.

(** Polar coordinates of pixel (y, x) of a centred pupil image; the aperture's rim has radius 1. *)
Definition rim_r (h : hpar) (y x : Z) : R := sqrt (cfreq h y ^ 2 + cfreq h x ^ 2) * h_wl h / h_na h.
Definition rim_t (h : hpar) (y x : Z) : R := snd (cart2pol (cfreq h y) (cfreq h x)).
(** The value at a pixel of the combination of the first modes with coefficients [cs]. *)
Definition combo (h : hpar) (cs : list R) (y x : Z) : R := mix cs (rim_r h y x) (rim_t h y x).
(** Sum over the pixels with radius at most 1 of the squared difference from [d]. *)
Definition misfit (h : hpar) (cs : list R) (d : array R) : R :=
  Rsum (zseq (h_size h)) (fun y => Rsum (zseq (h_size h)) (fun x =>
    if Rle_dec (rim_r h y x) 1 then (combo h cs y x - get d [y; x]) ^ 2 else 0)).
(** The first k modes are linearly independent on those pixels. *)
Definition independent (h : hpar) (k : nat) : Prop :=
  forall cs, List.length cs = k ->
    (forall y x, (0 <= y < h_size h)%Z -> (0 <= x < h_size h)%Z -> rim_r h y x <= 1 -> combo h cs y x = 0) -> cs = repeat 0 k.

(** What is assumed of numpy.linalg.lstsq(rows, b): as many numbers as there are columns, with minimal squared error. *)
Definition dot (a b : list R) : R := Rsum (combine a b) (fun p => fst p * snd p).
Definition sqerr (rows : list (list R)) (b x : list R) : R := Rsum (combine rows b) (fun p => (dot (fst p) x - snd p) ^ 2).
Definition least_squares (lstsq : list (list R) -> list R -> list R) : Prop :=
  forall rows b m, List.length b = List.length rows -> rows <> [] -> (forall r, In r rows -> List.length r = m) ->
    List.length (lstsq rows b) = m /\ forall x, List.length x = m -> sqerr rows b (lstsq rows b) <= sqerr rows b x.

(** Python's [i in range(n)[s]]: a bound v < 0 counts from the end, bounds are clipped, None is the end. *)
Definition slice_bound (n : Z) (v : option Z) (none : Z) : Z :=
  match v with None => none | Some v => if (v <? 0)%Z then Z.max 0 (n + v) else Z.min n v end.
Definition selects (n : Z) (s : pyslice) (i : Z) : Prop := (slice_bound n (sl_start s) 0 <= i < slice_bound n (sl_stop s) n)%Z.
Definition picked (n : Z) (s : pyslice) (i : Z) : R :=
  if Z.leb (slice_bound n (sl_start s) 0) i then if Z.ltb i (slice_bound n (sl_stop s) n) then 1 else 0 else 0.

(** z positions of the planes of a generated PSF: the zrange given, else zsize planes at the model's spacing with plane
    (zsize+1)//2 in focus, else the model's own. *)
Definition fine_val (f : fl) : R := match f with FFin q => Q2R q | _ => 0 end.
Definition planes_of (h : hpar) (zres : R) (zsize : option Z) (zrange : option zrange_arg) : list R :=
  match zrange, zsize with
  | Some (ZScalar z), _ => [fine_val z]
  | Some (ZList l), _ => map fine_val l
  | None, Some m => map (fun i => IZR (i - (m + 1) / 2) * zres) (zseq m)
  | None, None => h_zrange h
  end.
Definition with_planes (h : hpar) (zs : list R) : hpar :=
  mkHpar (h_wl h) (h_na h) (h_ni h) (h_res h) (h_size h) zs (h_vec h) (h_cond h).
