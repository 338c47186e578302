(** Where pyotf's binary64 arithmetic decides something: bins of radial_profile, the pinhole disc, the passband of a
    HanserPSF, the default zrange, and the division of a PSF by its sum.  [rnd64] rounds to nearest even with gradual
    underflow (Flocq); overflow to infinity is not modelled (every statement bounds its inputs well below 2^1024). *)
From Verif Require Export M_Radial M_Hanser M_Zernike M_Micro.
From Flocq Require Import Core.
Local Open Scope R_scope.

(** utils.py:395-397 i ** 2 summed over the axes, in floats.  For integer centres numpy computes in int64: the same numbers as long
    as they stay below 2^53. *)
Fixpoint fl_sumsq (acc : R) (c : list R) (ix : list Z) : R :=
  match c, ix with
  | x :: c', i :: ix' => let d := rnd64 (IZR i - x) in fl_sumsq (rnd64 (acc + rnd64 (d * d))) c' ix'
  | _, _ => acc
  end.
(** utils.py:397-399 np.round(np.sqrt(...) / binsize).astype(int) *)
Definition fl_bin (c : list R) (binsize : R) (ix : list Z) : Z :=
  ZnearestE (rnd64 (rnd64 (sqrt (fl_sumsq 0 c ix)) / binsize)).

(** utils.py:387-413 with the bins found in floats (the sums in each bin are exact here) *)
Definition fl_radial_profile (data : array R) (center : option (list R)) (binsize : R) : res (list (option R) * list (option R)) :=
  let sh := shape data in
  do c <- rp_center sh center;
  let r := fl_bin c binsize in
  if existsb (fun ix => r ix <? 0)%Z (all_ix sh) then Err ValueError
  else
    let ks := zseq (rp_len sh r) in
    let nr := rp_count sh r (fun _ => 1) in
    let tbin := rp_count sh r (get data) in
    let tbin2 := rp_count sh r (fun ix => get data ix ^ 2) in
    let mean k := div_nan (tbin k) (nr k) in
    let var k := match div_nan (tbin2 k) (nr k), mean k with Some a, Some m => Some (a - m ^ 2) | _, _ => None end in
    Ok (map mean ks, map (fun k => sqrt_nan (var k)) ks).

(** microscope.py:176-178 full_size = int(np.ceil(radius * 2)), made odd *)
Definition fl_disk_size (radius : R) : Z := let s := Zceil (rnd64 (radius * 2)) in if (s mod 2 =? 0)%Z then (s + 1)%Z else s.
(** microscope.py:179-181 kernel = r < radius: integer coordinates, one rounded square root *)
Definition fl_disk_hit (radius : R) (y x : Z) : bool :=
  let c := ((fl_disk_size radius - 1) / 2)%Z in
  if Rlt_dec (rnd64 (sqrt (rnd64 (IZR ((y - c) * (y - c) + (x - c) * (x - c)))))) radius then true else false.
(** microscope.py:182 kernel.sum(): a count, in integers *)
Definition fl_disk_count (radius : R) : Z :=
  let s := zseq (fl_disk_size radius) in
  Z.of_nat (List.length (filter (fun p => fl_disk_hit radius (fst p) (snd p)) (list_prod s s))).
(** microscope.py:182 kernel / kernel.sum() *)
Definition fl_disk_value (radius : R) (y x : Z) : R :=
  if fl_disk_hit radius y x then rnd64 (1 / IZR (fl_disk_count radius)) else 0.

(** numpy.fft.fftfreq(n, d)[i] in floats: integers * (1.0 / (n * d)) (otf.py:331) *)
Definition fl_fftfreq (n : Z) (d : R) (i : Z) : R := rnd64 (IZR (fftfreq_ix n i) * rnd64 (1 / rnd64 (IZR n * d))).
(** otf.py:329-349 kr < diff_limit, [hyp] being the platform's hypot *)
Definition fl_passband (hyp : R -> R -> R) (h : hpar) (y x : Z) : bool :=
  if Rlt_dec (hyp (fl_fftfreq (h_size h) (h_res h) y) (fl_fftfreq (h_size h) (h_res h) x)) (rnd64 (h_na h / h_wl h)) then true else false.

(** otf.py:285-287 (np.arange(zsize) - (zsize + 1) // 2) * zres *)
Definition fl_zrange (zsize : Z) (zres : R) : list R := map (fun i => rnd64 (IZR (i - (zsize + 1) / 2) * zres)) (zseq zsize).
(** numpy.diff *)
Fixpoint fl_diff (l : list R) : list R :=
  match l with x :: ((y :: _) as l') => rnd64 (y - x) :: fl_diff l' | _ => [] end.
(** A sum computed with rounded additions; numpy's order of summation (pairwise, blocked) is some binary tree over the entries. *)
Inductive stree := Leaf (x : R) | Node (l r : stree).
(** the entries *)
Fixpoint leaves (t : stree) : list R := match t with Leaf x => [x] | Node l r => leaves l ++ leaves r end.
(** the computed sum *)
Fixpoint fl_sum (t : stree) : R := match t with Leaf x => x | Node l r => rnd64 (fl_sum l + fl_sum r) end.
(** numpy.isclose(x, y) on finite floats: abs(x - y) <= atol + rtol * abs(y) with rtol = 1e-5, atol = 1e-8 *)
Definition fl_isclose (x y : R) : bool :=
  if Rle_dec (Rabs (rnd64 (x - y))) (rnd64 (rnd64 (1 / 10 ^ 8) + rnd64 (rnd64 (1 / 10 ^ 5) * Rabs y))) then true else false.
(** otf.py:218-219 in floats, the mean being a rounded sum in the order of [t], divided by the count *)
Definition fl_bad_steps (zsteps : list R) (t : stree) : bool :=
  Nat.ltb (List.length zsteps) 2
  || negb (forallb (fun s => fl_isclose s (rnd64 (fl_sum t / INR (List.length zsteps)))) zsteps).

(** microscope.py:124 psf / psf.sum(), the sum taken in the order of [t] *)
Definition fl_normalise (p : list R) (t : stree) : list R := map (fun x => rnd64 (x / fl_sum t)) p.
