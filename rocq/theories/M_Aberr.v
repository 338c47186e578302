(** apply_aberration and the named aberrations: pyotf/otf.py:589-696. *)
From Coq Require Import String.
From Verif Require Export M_Zernike M_Engine M_Heap M_Bcast.
Local Open Scope R_scope.

(** A coefficient argument: None, a 1-d real array, or another sequence of reals (a list or tuple). *)
Inductive coefs := CNone | CVec (l : list R) | CSeq (l : list R).
(** otf.py:618 len() of a coefficient argument *)
Definition clen (c : coefs) : nat := match c with CNone => O | CVec l | CSeq l => List.length l end.
(** numpy.zeros_like of an array or a sequence is an array. *)
Definition zeros_like (c : coefs) : coefs := CVec (repeat 0 (clen c)).
(** [c[:, None, None]] on a list raises TypeError. *)
Definition subscript (c : coefs) : res (array R) := match c with CVec l => Ok (column l) | _ => Err TypeError end.
(** otf.py:329-338, 620-627: the normalised pupil coordinates; [na = 0] is outside the real-number model. *)
Definition h_r (h : hpar) : array R :=
  mkArr [h_size h; h_size h] (fun ix => match ix with [y; x] => h_kr h y x * h_wl h / h_na h | _ => 0 end).
(** otf.py:623, 627 the angle [_phi] passed as theta *)
Definition h_t (h : hpar) : array R :=
  mkArr [h_size h; h_size h] (fun ix => match ix with [y; x] => h_phi h y x | _ => 0 end).
(** [np.arange(k) + 1] *)
Definition noll_upto (k : nat) : list Z := map (fun i => Z.of_nat i + 1)%Z (seq 0 k).

(** otf.py:608-636 after the class check and the copy: the pupil that is applied, [None] when there is nothing to do. *)
Definition aberration_pupil (h : hpar) (mcoefs pcoefs : coefs) : res (option (array C)) :=
  match mcoefs, pcoefs with
  | CNone, CNone => Ok None
  | _, _ =>
      let mcoefs := match mcoefs with CNone => zeros_like pcoefs | _ => mcoefs end in
      let pcoefs := match pcoefs with CNone => zeros_like mcoefs | _ => pcoefs end in
      if negb (Nat.eqb (clen mcoefs) (clen pcoefs)) then Err AssertionError
      else if Req_EM_T (IZR (h_size h) * h_res h) 0 then Err ZeroDivisionError
      else if Req_EM_T (h_wl h) 0 then Err ZeroDivisionError
      else
        do zerns <- zernike true (h_r h) (h_t h) (One (IVec (noll_upto (clen mcoefs))));
        do pc <- subscript pcoefs;
        do zp <- bop Rmult zerns pc;
        let pupil_phase := sum0 zp in
        do mc <- subscript mcoefs;
        do zm <- bop Rmult zerns mc;
        let pupil_mag := sum0 zm in
        do pupil_mag <- ibop Rplus pupil_mag (amap Cmod (gen_pupil h));
        do pupil_total <- bop (fun m p => Cmult (RtoC m) (cis p)) pupil_mag pupil_phase;
        Ok (Some pupil_total)
  end.

(** otf.py:648-673 named_aberration_to_pcoefs; a dictionary look-up by name. *)
Fixpoint lookup (d : list (string * Z)) (k : string) : option Z :=
  match d with [] => None | (k', v) :: d' => if String.eqb k k' then Some v else lookup d' k end.
(** otf.py:648-673: one coefficient per named mode, all zero but the named one; an unknown name is a KeyError. *)
Definition named_aberration_to_pcoefs (aberration : string) (magnitude : R) : res (list R) :=
  match lookup name2noll aberration with
  | None => Err KeyError
  | Some noll => Ok (map (fun i => if Nat.eqb i (Z.to_nat (noll - 1)) then magnitude else 0) (seq 0 (List.length name2noll)))
  end.
(** otf.py:692-695: the sum over the dictionary's items, in its order. *)
Fixpoint sum_named (acc : list R) (items : list (string * R)) : res (list R) :=
  match items with
  | [] => Ok acc
  | (a, g) :: items' =>
      do p <- named_aberration_to_pcoefs a g;
      sum_named (map (fun q => fst q + snd q) (combine acc p)) items'
  end.

(** otf.py:589-639, 642-645, 676-696 on objects: the returned object. *)
Definition ab_of (r : hpar -> res (option (array C))) (P : params) : res (option (array C)) :=
  if h_ready P then r (hpar_of P) else Err AttributeError.
(** otf.py:589-639 apply_aberration(model, mcoefs, pcoefs) *)
Definition apply_aberration (m p : coefs) : nat -> HM numeric nat :=
  h_aberrate numeric (ab_of (fun h => aberration_pupil h m p)).
(** The coefficients are computed before the model is looked at. *)
Definition apply_named_aberration (a : string) (g : R) (l : nat) : HM numeric nat :=
  hbind numeric (hlift numeric (named_aberration_to_pcoefs a g)) (fun p => apply_aberration CNone (CVec p) l).
(** otf.py:676-696: the coefficients are summed first, then one apply_aberration. *)
Definition apply_named_aberrations (d : list (string * R)) (l : nat) : HM numeric nat :=
  hbind numeric (hlift numeric (sum_named (repeat 0 (List.length name2noll)) d)) (fun p => apply_aberration CNone (CVec p) l).
