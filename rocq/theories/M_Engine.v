(** The array computations behind the PSF objects of M_PSF.v: the numerics of M_Hanser.v and M_Sheppard.v applied to an
    object's attributes. *)
From Verif Require Export M_PSF M_Sheppard.
From Coq Require Export Qreals.
Local Open Scope R_scope.

(** A finite float is the real number it denotes.  Non-finite attribute values are outside the real-number model (the
    conversion gives 0): theorems about numbers assume finite attributes. *)
Definition fl_R (f : fl) : R := match f with FFin q => Q2R q | _ => 0 end.
(** An attribute read as a real number; only used when it is set (see [h_ready]). *)
Definition val_R (v : option pyval) : R := match v with Some w => fl_R (num_or_nan w) | None => 0 end.
(** An attribute read as an integer (size, zsize). *)
Definition val_Z (v : option pyval) : Z := match v with Some w => as_int w | None => 0%Z end.
(** An attribute read as a bool (dual). *)
Definition val_bool (v : option pyval) : bool := match v with Some (VBool b) => b | _ => false end.
(** vec_corr as one of the five settings (otf.py:174-176 admits no other). *)
Definition val_vec (v : option pyval) : vec :=
  match v with
  | Some (VStr s) => if String.eqb s "x" then VecX else if String.eqb s "y" then VecY else if String.eqb s "z" then VecZ
                     else if String.eqb s "total" then VecTotal else VecNone
  | _ => VecNone
  end.
(** condition as one of the three settings (otf.py:187-189). *)
Definition val_cond (v : option pyval) : cond :=
  match v with
  | Some (VStr s) => if String.eqb s "sine" then CondSine else if String.eqb s "herschel" then CondHerschel else CondNone
  | _ => CondNone
  end.

(** The attributes [_gen_psf] (otf.py:356-422) and [_gen_otf] (otf.py:529-576) read. *)
Definition hpar_of (P : params) : hpar :=
  mkHpar (val_R (p_wl P)) (val_R (p_na P)) (val_R (p_ni P)) (val_R (p_res P)) (val_Z (p_size P))
         (match p_zrange P with Some l => map fl_R l | None => [] end) (val_vec (p_vec_corr P)) (val_cond (p_condition P)).
(** The attributes of a SheppardPSF that [_gen_otf] (otf.py:529-576) reads. *)
Definition spar_of (P : params) : spar :=
  mkSpar (val_R (p_wl P)) (val_R (p_na P)) (val_R (p_ni P)) (val_R (p_res P)) (val_Z (p_size P)) (val_R (p_zres P))
         (val_Z (p_zsize P)) (val_vec (p_vec_corr P)) (val_cond (p_condition P)) (val_bool (p_dual P)).

(** An attribute that was never set raises when it is read. *)
Definition all_set (l : list (option pyval)) : bool := forallb (fun v => match v with Some _ => true | None => false end) l.
(** All attributes [_gen_psf] reads are set. *)
Definition h_ready (P : params) : bool :=
  all_set [p_wl P; p_na P; p_ni P; p_res P; p_size P; p_vec_corr P; p_condition P] &&
  match p_zrange P with Some _ => true | None => false end.
(** All attributes [_gen_otf] reads are set. *)
Definition s_ready (P : params) : bool :=
  all_set [p_wl P; p_na P; p_ni P; p_res P; p_size P; p_zres P; p_zsize P; p_vec_corr P; p_condition P; p_dual P].

(** A transform of an array that may contain non-finite numbers (see s_psfa): every output over the transformed axes
    depends on every input, so one non-finite input spoils them all. *)
Definition finite_all (a : array (option C)) : bool := forallb (fun ix => is_some (get a ix)) (all_ix (shape a)).
(** otf.py:209-212 easy_fft over all axes. *)
Definition o_fft (a : array (option C)) : array (option C) :=
  mkArr (shape a) (fun ix => if finite_all a then Some (get (easy_fft None (amap cval a)) ix) else None).
(** otf.py:429-432 easy_fft over axes 1, 2, 3: component by component. *)
Definition o_fft3 (a : array (option C)) : array (option C) :=
  mkArr (shape a) (fun ix => match ix with
    | c :: _ => if forallb (fun r => is_some (get a (c :: r))) (all_ix (tl (shape a)))
                then Some (get (easy_fft (Some [1%nat; 2%nat; 3%nat]) (amap cval a)) ix) else None
    | [] => None
    end).

(** The engine of the real objects: otf.py:356-422, 429-437, 204-212, 529-586. *)
Definition numeric : engine :=
  mkEngine (array (option C)) (array C)
    (fun P base => if h_ready P then do a <- M_Hanser.gen_psf (hpar_of P) base; Ok (amap Some a) else Err AttributeError)
    o_fft3
    (fun P => if s_ready P then M_Sheppard.gen_otf (spar_of P) else Err AttributeError)
    s_psfa
    (fun a => amap ocplx (s_psfi a))
    o_fft.
