(** utils.radial_profile (pyotf/utils.py:347-413) over real and complex data.
    [np.int] (line 399) exists only in numpy < 1.24, which is assumed here: later versions raise AttributeError. *)
From Verif Require Export M_Num.
From Flocq Require Import Core.
Local Open Scope R_scope.

(** utils.py:389-394, 396 the centre, broadcast against the axes: one value per axis, or one for all.
    (For one-dimensional data numpy would also accept several values and add up the squares; that is not modelled.) *)
Definition rp_center (sh : list Z) (center : option (list R)) : res (list R) :=
  match center with
  | None => Ok (map (fun n => IZR (n / 2)) sh)
  | Some [c] => Ok (repeat c (length sh))
  | Some l => if Nat.eqb (length l) (length sh) then Ok l else Err ValueError
  end.
(** utils.py:395-397 distance of a pixel *)
Definition rp_r (c : list R) (ix : list Z) : R := sqrt (Rsum (combine ix c) (fun p => (IZR (fst p) - snd p) ^ 2)).
(** utils.py:399 numpy.round (half to even) of r / binsize; binsize = 0 is not modelled. *)
Definition rp_bin (c : list R) (binsize : R) (ix : list Z) : Z := ZnearestE (rp_r c ix / binsize).
(** numpy.bincount(r, w)[k] *)
Definition rp_count (sh : list Z) (bin : list Z -> Z) (w : list Z -> R) (k : Z) : R :=
  Rsum (filter (fun ix => bin ix =? k)%Z (all_ix sh)) w.
(** length of numpy.bincount's result *)
Definition rp_len (sh : list Z) (bin : list Z -> Z) : Z :=
  match all_ix sh with [] => 0%Z | l => (fold_right Z.max 0 (map bin l) + 1)%Z end.
(** x / y and numpy.sqrt x with NaN (None) for 0/0 and negative arguments *)
Definition div_nan (x y : R) : option R := if Req_EM_T y 0 then None else Some (x / y).
(** numpy.sqrt (utils.py:411) *)
Definition sqrt_nan (x : option R) : option R := match x with Some v => if Rle_dec 0 v then Some (sqrt v) else None | None => None end.
(** utils.py:387-413, real data *)
Definition radial_profile (data : array R) (center : option (list R)) (binsize : R) : res (list (option R) * list (option R)) :=
  let sh := shape data in
  do c <- rp_center sh center;
  let r := rp_bin c binsize in
  if existsb (fun ix => r ix <? 0)%Z (all_ix sh) then Err ValueError
  else
    let ks := zseq (rp_len sh r) in
    let nr := rp_count sh r (fun _ => 1) in
    let tbin := rp_count sh r (get data) in
    let tbin2 := rp_count sh r (fun ix => get data ix ^ 2) in
    let mean k := div_nan (tbin k) (nr k) in
    let var k := match div_nan (tbin2 k) (nr k), mean k with Some a, Some m => Some (a - m ^ 2) | _, _ => None end in
    Ok (map mean ks, map (fun k => sqrt_nan (var k)) ks).
(** utils.py:376-382, complex data *)
Definition opt2 {A B C} (f : A -> B -> C) (x : option A) (y : option B) : option C :=
  match x, y with Some a, Some b => Some (f a b) | _, _ => None end.
(** utils.py:376-382 *)
Definition radial_profile_c (data : array C) (center : option (list R)) (binsize : R) : res (list (option C) * list (option R)) :=
  do rp <- radial_profile (amap Re data) center binsize;
  do ip <- radial_profile (amap Im data) center binsize;
  Ok (map (fun p => opt2 (fun a b => (a, b)) (fst p) (snd p)) (combine (fst rp) (fst ip)),
      map (fun p => opt2 (fun a b => sqrt (a ^ 2 + b ^ 2)) (fst p) (snd p)) (combine (snd rp) (snd ip))).
