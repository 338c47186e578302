(** pyotf/zernike.py *)
From Coq Require Export String.
From Verif Require Export M_Num.
From Flocq Require Import Core.
Global Open Scope Z_scope.

(** ** Noll's indices *)
(** zernike.py:21-144 *)
Definition noll_mapping : list Z :=
  [
   1;
   3; 2;
   5; 4; 6;
   9; 7; 8; 10;
   15; 13; 11; 12; 14;
   21; 19; 17; 16; 18; 20;
   27; 25; 23; 22; 24; 26; 28;
   35; 33; 31; 29; 30; 32; 34; 36;
   45; 43; 41; 39; 37; 38; 40; 42; 44;
   55; 53; 51; 49; 47; 46; 48; 50; 52; 54;
   65; 63; 61; 59; 57; 56; 58; 60; 62; 64; 66;
   77; 75; 73; 71; 69; 67; 68; 70; 72; 74; 76; 78;
   91; 89; 87; 85; 83; 81; 79; 80; 82; 84; 86; 88; 90;
   105; 103; 101; 99; 97; 95; 93; 92; 94; 96; 98; 100; 102; 104;
   119; 117; 115; 113; 111; 109; 107; 106; 108; 110; 112; 114; 116; 118; 120].

(** numpy.argsort of distinct integers: the positions, ordered by value. *)
Fixpoint insert_by (x : Z * Z) (l : list (Z * Z)) : list (Z * Z) :=
  match l with [] => [x] | y :: l' => if fst x <=? fst y then x :: l else y :: insert_by x l' end.
(** numpy.argsort *)
Definition argsort (l : list Z) : list Z :=
  map snd (fold_right insert_by [] (combine l (zseq (Z.of_nat (List.length l))))).
(** zernike.py:147 *)
Definition noll_inverse : list Z := argsort noll_mapping.

(** zernike.py:151-167 *)
Definition noll2name : list (Z * string) :=
  [(1, "piston"%string); (2, "tip"%string); (3, "tilt"%string); (4, "defocus"%string);
   (5, "oblique astigmatism"%string); (6, "vertical astigmatism"%string); (7, "vertical coma"%string);
   (8, "horizontal coma"%string); (9, "vertical trefoil"%string); (10, "oblique trefoil"%string);
   (11, "primary spherical"%string); (12, "vertical secondary astigmatism"%string);
   (13, "oblique secondary astigmatism"%string); (14, "vertical quadrafoil"%string); (15, "oblique quadrafoil"%string)].
(** zernike.py:169 {v: k for k, v in ...}: for distinct names, the swapped pairs. *)
Definition name2noll : list (string * Z) := map (fun kv => (snd kv, fst kv)) noll2name.

(** An array argument as the index functions see it: signed integers (flattened), or another dtype. *)
Inductive narg := NInts (l : list Z) | NOther.

(** IEEE binary64 rounding to nearest even (Flocq); over- and underflow do not occur here. *)
Definition rnd64 (x : R) : R := round radix2 (FLT_exp (-1074) 53) ZnearestE x.
(** zernike.py:181-182 in floating point: n = ceil((-3 + sqrt(9 + 8 p)) / 2), m = 2 p - n (n + 2); both are
    then converted to integers (truncation of an integral float). *)
Definition float_n (p : Z) : R :=
  IZR (Zceil (rnd64 (rnd64 (-3 + rnd64 (sqrt (rnd64 (IZR (9 + 8 * p))))) / 2))).
(** zernike.py:182 *)
Definition float_m (p : Z) (n : R) : R := rnd64 (IZR (2 * p) - rnd64 (n * rnd64 (n + 2))).
(** zernike.py:172-183 *)
Definition noll2degrees (a : narg) : res (list (Z * Z)) :=
  match a with
  | NOther => Err ValueError
  | NInts l =>
      if negb (forallb (fun j => 0 <? j) l) then Err ValueError
      else if negb (forallb (fun j => j <=? 120) l) then Err IndexError
      else Ok (map (fun j => let p := nth (Z.to_nat (j - 1)) noll_inverse 0 in
                             (Ztrunc (float_n p), Ztrunc (float_m p (float_n p)))) l)
  end.

(** Python/numpy indexing of a table with negative indices counted from the end. *)
Definition py_index (l : list Z) (i : Z) : res Z :=
  let n := Z.of_nat (List.length l) in
  if (- n <=? i) && (i <? n) then Ok (nth (Z.to_nat (if i <? 0 then i + n else i)) l 0) else Err IndexError.
(** a list comprehension whose body may raise *)
Fixpoint map_res {A B} (f : A -> res B) (l : list A) : res (list B) :=
  match l with
  | [] => Ok []
  | x :: l' => do y <- f x; do ys <- map_res f l'; Ok (y :: ys)
  end.
(** numpy broadcasting of two vectors (zernike.py:194, 197: n - m, m + n * (n + 2)) *)
Definition pair_up (ns ms : list Z) : res (list (Z * Z)) :=
  if Nat.eqb (List.length ns) (List.length ms) then Ok (combine ns ms)
  else match ns, ms with
       | [n], _ => Ok (map (fun m => (n, m)) ms)
       | _, [m] => Ok (map (fun n => (n, m)) ns)
       | _, _ => Err ValueError
       end.
(** zernike.py:186-199 for scalars and vectors.  The quotient (m + n(n+2))/2 is exact; int64 wrap-around
    and float rounding beyond 2^53 are not modelled. *)
Definition degrees2noll (n m : narg) : res (list Z) :=
  match n, m with
  | NOther, _ => Err ValueError
  | _, NOther => Err ValueError
  | NInts ns, NInts ms =>
      do nm <- pair_up ns ms;
      if existsb (fun q => negb ((fst q - snd q) mod 2 =? 0)) nm then Err ValueError
      else map_res (fun q => py_index noll_mapping ((snd q + fst q * (fst q + 2)) / 2)) nm
  end.

(** ** Zernike polynomials *)
Local Open Scope R_scope.
(** Rising factorial and scipy.special.eval_jacobi(k, a, b, x) for integer k >= 0 by scipy's documented formula
    (a+1)_k / k! * 2F1(-k, 1+a+b+k; a+1; (1-x)/2), a terminating series. *)
Fixpoint rising (x : R) (k : nat) : R := match k with O => 1 | S k' => rising x k' * (x + INR k') end.
(** scipy.special.eval_jacobi *)
Definition eval_jacobi (k : nat) (a b x : R) : R :=
  rising (a + 1) k / INR (fact k) *
  Rsum (seq 0 (S k)) (fun s => rising (- INR k) s * rising (1 + a + b + INR k) s / (rising (a + 1) s * INR (fact s)) * ((1 - x) / 2) ^ s).

(** zernike.py:280-299, at one point; n >= |m| >= 0 there, so the exponents are non-negative. *)
Definition radial_zernike (r : R) (n m : Z) : R :=
  if Rle_dec r 1 then
    if ((m =? 0) && (n =? 0))%Z then 1
    else
      let m := Z.abs m in
      let coef1 := Z.to_nat ((n + m) / 2) in let coef2 := Z.to_nat ((n - m) / 2) in
      (-1) ^ coef1 * r ^ Z.to_nat m * eval_jacobi coef2 (IZR m) 0 (1 - 2 * r ^ 2)
  else 0.
(** zernike.py:302-330, at one point *)
Definition zernike_at (norm : bool) (n m : Z) (r theta : R) : R :=
  let mneg := (m <? 0)%Z in
  let m := Z.abs m in
  if negb ((n - m) mod 2 =? 0)%Z then 0
  else
    let zern := radial_zernike r n m in
    let zern := if mneg then zern * sin (IZR m * theta) else zern * cos (IZR m * theta) in
    if norm then (if (m =? 0)%Z then zern * sqrt (IZR (n + 1)) else zern * sqrt (IZR (2 * (n + 1)))) else zern.

(** ** zernike(r, theta, *args, norm=True): zernike.py:202-277 *)
(** An integer array argument by its number of axes. *)
Inductive iarr := IScalar (z : Z) | IVec (l : list Z) | IMat (rows : list (list Z)) | IHigh.
(** The positional arguments: one (integers, or a 0/1-d array of another dtype), two (integers), or another number. *)
Inductive zargs := One (a : iarr) | OneOther | Two (n m : iarr) | Many.
(** zernike.py:237-257.  With two arguments numpy first stacks them: unequal shapes raise ValueError there
    (numpy >= 1.24; older versions reach the explicit checks or fail otherwise). *)
Definition zernike_degrees (a : zargs) : res (list (Z * Z)) :=
  match a with
  | One (IScalar z) => noll2degrees (NInts [z])
  | One (IVec l) => noll2degrees (NInts l)
  | One (IMat [ns; ms]) => Ok (combine ns ms)
  | One (IMat _) => Err RuntimeError
  | One IHigh => Err ValueError
  | OneOther => noll2degrees NOther
  | Two (IScalar n) (IScalar m) => Ok [(n, m)]
  | Two (IVec ns) (IVec ms) => if Nat.eqb (List.length ns) (List.length ms) then Ok (combine ns ms) else Err ValueError
  | Two _ _ => Err ValueError
  | Many => Err ValueError
  end.
(** numpy.squeeze: drop the axes of length 1. *)
Fixpoint unsqueeze_ix (sh ix : list Z) : list Z :=
  match sh with
  | [] => []
  | n :: sh' => if (n =? 1)%Z then 0%Z :: unsqueeze_ix sh' ix
                else match ix with i :: ix' => i :: unsqueeze_ix sh' ix' | [] => 0%Z :: unsqueeze_ix sh' [] end
  end.
(** numpy.squeeze *)
Definition squeeze {A} (a : array A) : array A :=
  mkArr (filter (fun n => negb (n =? 1)%Z) (shape a)) (fun ix => get a (unsqueeze_ix (shape a) ix)).
(** Numpy broadcasting of theta into the shape of r ([zern *= np.cos(m * theta)] in place, zernike.py:312-317): axes are
    aligned from the last; theta may lack leading axes, and an axis of length 1 is repeated.  Shapes reversed. *)
Fixpoint fits_rev (tsh rsh : list Z) : bool :=
  match tsh, rsh with
  | [], _ => true
  | a :: tsh', b :: rsh' => ((a =? b) || (a =? 1))%Z && fits_rev tsh' rsh'
  | _ :: _, [] => false
  end.
(** zernike.py:312-317, the in-place product's shape rule *)
Definition fits_into (tsh rsh : list Z) : bool := fits_rev (rev tsh) (rev rsh).
(** zernike.py:312-317: the element of theta used at a position of r. *)
Fixpoint stretch_ix (tsh jx : list Z) : list Z :=
  match tsh, jx with n :: tsh', j :: jx' => (if (n =? 1)%Z then 0%Z else j) :: stretch_ix tsh' jx' | _, _ => [] end.
(** zernike.py:312-317 *)
Definition theta_at (theta : array R) (jx : list Z) : R :=
  get theta (stretch_ix (shape theta) (skipn (List.length jx - List.length (shape theta)) jx)).
(** zernike.py:259-277.  A mode with n - m odd is returned before theta is used, any other one needs theta to fit into the
    shape of r.  No mode at all gives numpy.array([]). *)
Definition zernike (norm : bool) (r theta : array R) (a : zargs) : res (array R) :=
  do nm <- zernike_degrees a;
  if negb (forallb (fun ix => if Rle_dec 0 (get r ix) then true else false) (all_ix (shape r))) then Err ValueError
  else if Nat.ltb 2 (List.length (shape r)) then Err ValueError
  else if negb (forallb (fun q => Z.abs (snd q) <=? fst q)%Z nm) then Err ValueError
  else if existsb (fun q => (fst q - Z.abs (snd q)) mod 2 =? 0)%Z nm && negb (fits_into (shape theta) (shape r)) then Err ValueError
  else Ok (squeeze
    (mkArr (match nm with [] => [0%Z] | _ => Z.of_nat (List.length nm) :: shape r end)
       (fun ix => match ix with
          | k :: jx => let q := nth (Z.to_nat k) nm (0%Z, 0%Z) in zernike_at norm (fst q) (snd q) (get r jx) (theta_at theta jx)
          | [] => 0
          end))).
