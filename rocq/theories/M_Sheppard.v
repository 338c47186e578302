(** SheppardPSF numerics (pyotf/otf.py:491-586) over exact reals.  [None] stands for a number that is not
    finite (numpy NaN or inf): it arises from 0/0, 1/0 and the square root of a negative number. *)
From Verif Require Export M_Hanser.
Local Open Scope R_scope.

(** The attributes _gen_otf reads. *)
Record spar := mkSpar {
  s_wl : R; s_na : R; s_ni : R; s_res : R; s_size : Z; s_zres : R; s_zsize : Z; s_vec : vec; s_cond : cond; s_dual : bool }.

(** float arithmetic with non-finite results *)
Definition oret (r : R) : option R := Some r.
(** a binary operation *)
Definition olift2 (f : R -> R -> R) (a b : option R) : option R :=
  match a, b with Some x, Some y => Some (f x y) | _, _ => None end.
(** division, not finite for a zero denominator *)
Definition odiv (a b : option R) : option R :=
  match a, b with Some x, Some y => if Req_EM_T y 0 then None else Some (x / y) | _, _ => None end.
(** numpy.sqrt, NaN below zero *)
Definition osqrt (a : option R) : option R :=
  match a with Some x => if Rlt_dec x 0 then None else Some (sqrt x) | None => None end.
(** negation *)
Definition oneg (a : option R) : option R := match a with Some x => Some (- x) | None => None end.

Section P.
Context (p : spar).
(** otf.py:494-500 coordinates and |k| *)
Definition sk (i : Z) : R := fftfreq (s_size p) (s_res p) i.
(** otf.py:495 kz *)
Definition skz (i : Z) : R := fftfreq (s_zsize p) (s_zres p) i.
(** otf.py:496-498 kr *)
Definition s_kr (z y x : Z) : R := sqrt (skz z ^ 2 + sk y ^ 2 + sk x ^ 2).
(** otf.py:500 kmag *)
Definition s_kmag : R := s_ni p / s_wl p.
(** otf.py:502 *)
Definition s_dk : R := sk 1 - sk 0.
(** otf.py:502 *)
Definition s_dkz : R := skz 1 - skz 0.
(** otf.py:506 *)
Definition s_kz_min : R := sqrt (s_kmag ^ 2 - (s_na p / s_wl p) ^ 2).
(** otf.py:509-518 *)
Definition s_dkr (z y x : Z) : R :=
  if Req_EM_T s_dk s_dkz then s_dk
  else if (z =? 0)%Z && (y =? 0)%Z && (x =? 0)%Z then 0
  else sqrt ((skz z * s_dkz) ^ 2 + (sk y * s_dk) ^ 2 + (sk x * s_dk) ^ 2) / s_kr z y x.
(** otf.py:519-527 *)
Definition s_kzz (z : Z) : R := if s_dual p then Rabs (skz z) else skz z.
(** otf.py:526-527 the valid points *)
Definition s_valid (z y x : Z) : bool :=
  (if Rlt_dec (Rabs (s_kr z y x - s_kmag)) (s_dkr z y x) then true else false) &&
  (if Rlt_dec (s_kz_min + s_dkr z y x) (s_kzz z) then true else false).

(** otf.py:536-537 direction cosines (of the signed kz, also for dual) *)
Definition dcos (c : R) (z y x : Z) : option R := odiv (Some c) (Some (s_kr z y x)).
(** otf.py:538-546 *)
Definition s_apod (s : option R) : option R :=
  match s_cond p with
  | CondSine => odiv (Some 1) (osqrt s)
  | CondHerschel => odiv (Some 1) s
  | CondNone => Some 1
  end.
(** otf.py:547-558 *)
Definition s_plist (m n s : option R) : list (option R) :=
  let one_s := olift2 Rplus (Some 1) s in
  (if vec_z (s_vec p) then [oneg m; oneg n] else [])
  ++ (if vec_y (s_vec p) then [odiv (olift2 Rmult (oneg n) m) one_s;
                               olift2 Rminus (Some 1) (odiv (olift2 Rmult n n) one_s)] else [])
  ++ (if vec_x (s_vec p) then [olift2 Rminus (Some 1) (odiv (olift2 Rmult m m) one_s);
                               odiv (olift2 Rmult (oneg m) n) one_s] else []).
(** otf.py:560, 573: the number of components *)
Definition s_ncomp : Z := match s_vec p with VecNone => 1 | v => Z.of_nat (length (plist v 0 0)) end.
(** the value at a valid point: otf.py:547-573 *)
Definition s_value (c z y x : Z) : option R :=
  let m := dcos (sk x) z y x in let n := dcos (sk y) z y x in let s := dcos (skz z) z y x in
  match s_vec p with
  | VecNone => Some 1
  | _ => olift2 Rmult (nth (Z.to_nat c) (s_plist m n s) (Some 0)) (s_apod s)
  end.
(** a real number as a complex one *)
Definition ocplx (a : option R) : option C := match a with Some r => Some (RtoC r) | None => None end.
(** otf.py:559-573: zeros, filled at the valid points *)
Definition s_otf : array (option C) :=
  mkArr [s_ncomp; s_zsize p; s_size p; s_size p]
    (fun ix => match ix with
      | [c; z; y; x] => if s_valid z y x then ocplx (s_value c z y x) else Some (RtoC 0)
      | _ => Some (RtoC 0)
      end).
End P.

(** otf.py:529-576 _gen_otf with the exceptions of _gen_kr: fftfreq's and ni/wl's divisions, k[1] on an
    axis of length 1, the assertion on kz_min (the square root of a negative number is NaN). *)
Definition axes123 : list bool := axes_mask 4 (Some [1%nat; 2%nat; 3%nat]).
(** otf.py:529-576 *)
Definition gen_otf (p : spar) : res (array (option C)) :=
  if Req_EM_T (IZR (s_size p) * s_res p) 0 then Err ZeroDivisionError
  else if Req_EM_T (IZR (s_zsize p) * s_zres p) 0 then Err ZeroDivisionError
  else if Req_EM_T (s_wl p) 0 then Err ZeroDivisionError
  else if (s_size p <? 2)%Z || (s_zsize p <? 2)%Z then Err IndexError
  else if Rlt_dec (s_kmag p ^ 2 - (s_na p / s_wl p) ^ 2) 0 then Err AssertionError
  else Ok (fftshift axes123 (s_otf p)).

(** otf.py:583-586 PSFa = easy_ifft(OTFa, axes=(1, 2, 3)); a non-finite input makes its whole component
    non-finite (every output of the transform depends on every input). *)
Definition is_some {A} (o : option A) : bool := match o with Some _ => true | None => false end.
(** the number, when it is finite *)
Definition cval (o : option C) : C := match o with Some v => v | None => RtoC 0 end.
(** otf.py:583-586 *)
Definition s_psfa (a : array (option C)) : array (option C) :=
  mkArr (shape a) (fun ix => match ix with
    | c :: _ => if forallb (fun r => is_some (get a (c :: r))) (all_ix (tl (shape a)))
                then Some (get (easy_ifft (Some [1%nat; 2%nat; 3%nat]) (amap cval a)) ix) else None
    | [] => None
    end).
(** otf.py:204-207 for arrays that may contain non-finite numbers *)
Definition s_psfi (a : array (option C)) : array (option R) :=
  mkArr (tl (shape a)) (fun ix =>
    if forallb (fun c => is_some (get a (c :: ix))) (zseq (hd 0%Z (shape a)))
    then Some (Rsum (zseq (hd 0%Z (shape a))) (fun c => Cnorm2 (cval (get a (c :: ix))))) else None).
