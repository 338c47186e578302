(** Vocabulary for the microscope properties. *)
From Verif Require Export S_PSF M_Micro.
Import M_Array.
Local Open Scope R_scope.

(** ** Arguments *)
(** Python passes as **kwargs a dict without the names of the explicit parameters. *)
Definition kwargs_ok (a : wargs) : Prop :=
  NoDup (map fst (w_kwargs a)) /\
  forall k, In k ["model"; "na"; "ni"; "wl"; "size"; "pixel_size"; "oversample_factor"]%string -> dget (w_kwargs a) k = None.
(** A keyword argument, where None counts as not passed. *)
Definition passed (d : pdict) (k : string) : option pyval :=
  match dget d k with None => None | Some v => not_none (as_val v) end.
(** An int (a bool is one) and its value; a real number. *)
Definition int_value (v : pyval) : option Z := match v with VInt z => Some z | VBool b => Some (if b then 1 else 0)%Z | _ => None end.
Definition is_number (v : pyval) : Prop := exists f, M_Val.num v = Some f.

(** ** Histories of a microscope *)
Inductive mevent :=
| MSet (a : mattr) (v : pyval)            (* m.oversample_factor = v, m.pinhole_size = v, ... *)
| MModelOp (x : op numeric)               (* any operation on m.model *)
| MExcOp (x : op numeric)                 (* any operation on m.model_exc *)
| MReplaceModel (o : obj numeric)         (* m.model = o *)
| MPixel (v : pyval) | MWiener (v : pyval) | MOrient (l : list R)
| MReadPSF | MReadOTF.
Definition mexec (x : mevent) (m : micro) : micro :=
  match x with
  | MSet a v => snd (m_set a v m)
  | MModelOp x => upd_model (snd (exec numeric (mi_cls m) x (mi_model m))) m
  | MExcOp x => upd_exc (snd (exec numeric (mi_cls m) x (mi_exc m))) m
  | MReplaceModel o => upd_model o m
  | MPixel v => upd_pixel v m
  | MWiener v => upd_wiener v m
  | MOrient l => upd_orient l m
  | MReadPSF => snd (m_PSF m)
  | MReadOTF => snd (m_OTF m)
  end.
Fixpoint mrun (h : list mevent) (m : micro) : micro := match h with [] => m | x :: h' => mrun h' (mexec x m) end.
(** An accepted assignment of a different value to a numeric property of the class. *)
Definition acceptable (t : vartype) (v : pyval) : bool :=
  isinstance v t && match M_Val.num v with Some f => negb (fl_lt f (FFin 0)) | None => false end.
Definition m_effective (m : micro) (x : mevent) : bool :=
  match x with MSet a v => has_prop (mi_kind m) a && acceptable (mtype a) v && differs (mi_num m a) v | _ => false end.
(** What the microscope would return in this state if nothing were cached. *)
Definition fresh (m : micro) : res (array (option R)) := fst (m_PSF (m_changed m)).
Definition is_ok {A} (r : res A) : bool := match r with Ok _ => true | Err _ => false end.
(** The state in which the array returned now was computed: the first successful read since construction or since the last
    m_effective assignment; None if there was none (it is computed now). *)
Definition is_read (x : mevent) : bool := match x with MReadPSF | MReadOTF => true | _ => false end.
Fixpoint snapshot (h : list mevent) (m : micro) (s : option micro) : option micro :=
  match h with
  | [] => s
  | x :: h' => snapshot h' (mexec x m)
      (if m_effective m x then None
       else match s with Some q => Some q | None => if is_read x && is_ok (fresh m) then Some m else None end)
  end.

(** ** The model a microscope is built on *)
(** value of a keyword argument, or the default *)
Definition given_or (a : wargs) (k : string) (v : pyval) : pyval := match dget (w_kwargs a) k with Some w => as_val w | None => v end.
Definition model_name (c : cls) : string := match c with Hanser => "hanser" | Sheppard => "sheppard" end.
Definition model_keywords (c : cls) : list string :=
  ["wl"; "na"; "ni"; "res"; "size"; "zres"; "zsize"; "vec_corr"; "condition"]%string ++ [match c with Hanser => "zrange" | Sheppard => "dual" end]%string.
(** The arguments of the model's constructor, given its lateral size and pixel size: the axial ones are not oversampled. *)
Definition model_ctor (c : cls) (a : wargs) (size res : pyval) (z : option zrange_arg) : ctor :=
  mkCtor (w_wl a) (w_na a) (w_ni a) res size (not_none (given_or a "zres" (w_pixel a))) (not_none (given_or a "zsize" (w_size a)))
    (given_or a "vec_corr" (VStr "none")) (given_or a "condition" (VStr "sine"))
    (match c with Hanser => z | Sheppard => None end) (match c with Hanser => VBool false | Sheppard => given_or a "dual" (VBool false) end).
(** [fine size of a with factor f]: n * f pixels; a pixel f times smaller *)
Definition fine_size (a : wargs) (f : Z) (v : pyval) : Prop := forall n, int_value (w_size a) = Some n -> int_value v = Some (n * f)%Z.
Definition fine_res (a : wargs) (f : Z) (v : pyval) : Prop :=
  forall q, M_Val.num (w_pixel a) = Some (FFin q) -> exists q', M_Val.num v = Some (FFin q') /\ (q' == q / inject_Z f)%Q.
(** The microscopes that can be built, with their arguments. *)
Inductive built_from (a : wargs) : micro -> Prop :=
| built_wide m : WidefieldMicroscope a = Ok m -> built_from a m
| built_confocal w p m : ConfocalMicroscope a w p = Ok m -> built_from a m
| built_apotome m : ApotomeMicroscope a = Ok m -> built_from a m
| built_sim s m : BaseSIMMicroscope a s = Ok m -> built_from a m.
Definition built (m : micro) : Prop := exists a, built_from a m.

(** ** Checks of the SIM constructor *)
Definition float_error (v : pyval) : option exn :=
  match v with VFloat f => if fl_lt f (FFin 0) then Some ValueError else None | _ => Some TypeError end.
Definition bool_error (v : pyval) : option exn := match v with VBool _ => None | _ => Some TypeError end.
Definition wiener_error (v : pyval) : option exn :=
  match M_Val.num v with None => Some TypeError | Some f => if fl_lt f (FFin 0) then Some ValueError else None end.
Fixpoint first_error (l : list (option exn)) : option exn := match l with [] => None | Some e :: _ => Some e | None :: l' => first_error l' end.
Definition instead_of_none (v w : pyval) : pyval := match v with VNone => w | _ => v end.

(** ** Binning *)
(** 0 - f//2, ..., f//2 for odd f *)
Definition offsets (f : Z) : list Z := map (fun k => k - f / 2)%Z (zseq f).
(** The light of the fine image p (side N = n*f) that belongs to coarse pixel (y, x): the f x f fine pixels around the one that
    lies (y - n//2)*f and (x - n//2)*f away from the fine image's centre N//2, cyclically. *)
Definition collected (p : array R) (n f z y x : Z) : R :=
  let N := (n * f)%Z in
  Rsum (offsets f) (fun j => Rsum (offsets f) (fun i =>
    get p [z; (N / 2 + (y - n / 2) * f + j) mod N; (N / 2 + (x - n / 2) * f + i) mod N]%Z)).
Definition image_sum (a : array (option R)) : R := Rsum (all_ix (shape a)) (fun ix => match get a ix with Some v => v | None => 0 end).
(** the current oversampling factor and the size stored at construction *)
Definition factor_is (m : micro) (f : Z) : Prop := exists v, mi_num m MOs = Some v /\ int_value v = Some f.
Definition stored_size (m : micro) (n : Z) : Prop := exists v, dget (mi_params m) "size" = Some (KV v) /\ int_value v = Some n.

(** ** Models a program can reach *)
Definition reached (c : cls) (o : obj numeric) : Prop := exists k o0 h, construct numeric c k = Ok o0 /\ o = run numeric c h o0.
(** a history in which m.model is only ever replaced by a model of the same class *)
Definition decent (c : cls) (h : list mevent) : Prop := forall o, In (MReplaceModel o) h -> reached c o.
Definition nonneg_image (a : array (option R)) : Prop := forall ix, inb (shape a) ix -> match get a ix with Some v => 0 <= v | None => True end.
