(** The PSF objects of pyotf/otf.py as state machines: attributes, cached arrays, setters.

    What an array is and how it is computed is a parameter ([engine]); the concrete engine is in
    M_Hanser.v / M_Sheppard.v.  Everything here is about WHEN arrays are computed, kept and dropped. *)
From Verif Require Export M_Val.

(** Backing attributes (otf.py:46-51, 131-192, 294-327, 466-488). *)
Inductive attr :=
  A_wl | A_na | A_ni | A_res | A_size | A_zres | A_zsize | A_vec_corr | A_condition | A_dual.
(** equality of attribute names *)
Definition attr_eqb (a b : attr) : bool :=
  match a, b with
  | A_wl, A_wl | A_na, A_na | A_ni, A_ni | A_res, A_res | A_size, A_size | A_zres, A_zres
  | A_zsize, A_zsize | A_vec_corr, A_vec_corr | A_condition, A_condition | A_dual, A_dual => true
  | _, _ => false
  end.

(** The cached arrays. *)
Inductive slot := PSFa | OTFa | PSFi | OTFi.
(** equality of cache names *)
Definition slot_eqb (a b : slot) : bool :=
  match a, b with PSFa, PSFa | OTFa, OTFa | PSFi, PSFi | OTFi, OTFi => true | _, _ => false end.

(** otf.py:259, 440 *)
Inductive cls := Hanser | Sheppard.

(** The parameters a computation depends on. *)
Record params := mkParams {
  p_wl : option pyval; p_na : option pyval; p_ni : option pyval; p_res : option pyval;
  p_size : option pyval; p_zres : option pyval; p_zsize : option pyval;
  p_vec_corr : option pyval; p_condition : option pyval; p_dual : option pyval;
  p_zrange : option (list fl) }.

(** Array computations, as opaque total functions (partial ones return [res]). *)
Record engine := mkEngine {
  arr : Type;
  pupil : Type;
  e_gen_psf : params -> option pupil -> res arr;   (* HanserPSF._gen_psf   otf.py:356-422 *)
  e_fft3 : arr -> arr;                             (* easy_fft(., axes=(1,2,3)) *)
  e_gen_otf : params -> res arr;                   (* SheppardPSF._gen_otf otf.py:529-576 *)
  e_ifft3 : arr -> arr;                            (* easy_ifft(., axes=(1,2,3)) *)
  e_sumsq : arr -> arr;                            (* (abs(.) ** 2).sum(axis=0) *)
  e_fft : arr -> arr                               (* easy_fft(.) *)
}.

Section Machine.
Context (E : engine).

(** An object: its attributes (None = not set yet), its zrange (HanserPSF only) and its cache. *)
Record obj := mkObj {
  o_attr : attr -> option pyval;
  o_zrange : option (list fl);
  o_cache : slot -> option (arr E)
}.
(** What a computation reads from the object. *)
Definition obj_params (o : obj) : params :=
  let a := o_attr o in
  mkParams (a A_wl) (a A_na) (a A_ni) (a A_res) (a A_size) (a A_zres) (a A_zsize)
           (a A_vec_corr) (a A_condition) (a A_dual) (o_zrange o).
(** A new instance, before __init__. *)
Definition empty_obj : obj := mkObj (fun _ => None) None (fun _ => None).

(** Methods: they may raise, and keep the effects they had before raising. *)
Definition M (A : Type) := obj -> res A * obj.
(** return *)
Definition ret {A} (x : A) : M A := fun o => (Ok x, o).
(** raise *)
Definition raise {A} (e : exn) : M A := fun o => (Err e, o).
(** sequencing *)
Definition bindM {A B} (m : M A) (f : A -> M B) : M B :=
  fun o => match m o with (Ok x, o') => f x o' | (Err e, o') => (Err e, o') end.
(** a computation without effect on the object *)
Definition lift {A} (r : res A) : M A := fun o => (r, o).
Notation "'let*' x ':=' m 'in' k" := (bindM m (fun x => k)) (at level 200, x name, k at level 200, right associativity).
Notation "m ;; k" := (bindM m (fun _ => k)) (at level 100, k at level 200, right associativity).

(** [getattr(self, attr)]: AttributeError when it was never set. *)
Definition getattr (a : attr) : M pyval :=
  fun o => match o_attr o a with Some v => (Ok v, o) | None => (Err AttributeError, o) end.
(** [setattr(self, attr, value)] *)
Definition setattr (a : attr) (v : pyval) : M unit :=
  fun o => (Ok tt, mkObj (fun b => if attr_eqb a b then Some v else o_attr o b) (o_zrange o) (o_cache o)).
(** the store of functools.cached_property *)
Definition set_cache (s : slot) (x : arr E) : M unit :=
  fun o => (Ok tt, mkObj (o_attr o) (o_zrange o) (fun t => if slot_eqb s t then Some x else o_cache o t)).

(** otf.py:114-124 [_attribute_changed]: delete the four cached arrays, those that exist. *)
Definition attribute_changed : M unit :=
  fun o => (Ok tt, mkObj (o_attr o) (o_zrange o) (fun _ => None)).

(** utils.py:205-213, the setter of a NumericProperty on an object of this kind; see
    [numeric_fset] in M_Val.v. *)
Definition numeric_set (a : attr) (t : vartype) (value : pyval) : M unit :=
  numeric_fset (fun o => o_attr o a) (fun v o => snd (setattr a v o)) (fun o => snd (attribute_changed o)) t value.

(** otf.py:131-137 BasePSF.zres setter. *)
Definition base_zres_set (value : pyval) : M unit :=
  let* pos := lift (py_gt value (VInt 0)) in
  if negb pos then raise ValueError
  else setattr A_zres value ;; attribute_changed.

(** otf.py:144-163 BasePSF.res setter: abbe_limit = 1 / (2 * self.na / self.wl).  The second
    comparison (otf.py:158) only logs. *)
Definition num_or_nan (v : pyval) : fl := match num v with Some f => f | None => FNaN end.
(** otf.py:144-163 *)
Definition res_set (value : pyval) : M unit :=
  let* na := getattr A_na in
  let* wl := getattr A_wl in
  let* t := lift (fl_div (fl_mul (FFin 2) (num_or_nan na)) (num_or_nan wl)) in
  let* abbe := lift (fl_div (FFin 1) t) in
  let* bad := lift (py_ge value (VFloat abbe)) in
  if bad : bool then raise ValueError
  else setattr A_res value ;; attribute_changed.

(** otf.py:173-179 and 186-192: [value not in {...}]; an unhashable value raises TypeError. *)
Definition in_set (value : pyval) (valid : list string) : res bool :=
  match value with
  | VUnhashable => Err TypeError
  | VStr s => Ok (existsb (String.eqb s) valid)
  | _ => Ok false
  end.
(** otf.py:175 *)
Definition vec_corr_values : list string := ["none"; "x"; "y"; "z"; "total"]%string.
(** otf.py:188 *)
Definition condition_values : list string := ["none"; "sine"; "herschel"]%string.
(** otf.py:173-179, 186-192 *)
Definition choice_set (a : attr) (valid : list string) (value : pyval) : M unit :=
  let* ok := lift (in_set value valid) in
  if negb ok then raise ValueError
  else setattr a value ;; attribute_changed.
(** otf.py:173-179 *)
Definition vec_corr_set := choice_set A_vec_corr vec_corr_values.
(** otf.py:186-192 *)
Definition condition_set := choice_set A_condition condition_values.

(** otf.py:320-327 HanserPSF.zrange setter, for a real scalar or 1-d array-like. *)
Inductive zrange_arg := ZScalar (z : fl) | ZList (l : list fl).
(** otf.py:320-327 *)
Definition zrange_set (value : zrange_arg) : M unit :=
  (fun o => (Ok tt, mkObj (o_attr o)
                      (Some match value with ZScalar z => [z] | ZList l => l end) (o_cache o)))
  ;; attribute_changed.

(** otf.py:290-292 HanserPSF._gen_zrange. *)
Definition gen_zrange : M unit :=
  let* zsize := getattr A_zsize in
  let* zres := getattr A_zres in
  zrange_set (ZList (map (fun i => fl_mul (FFin (inject_Z (i - (as_int zsize + 1) / 2))) (num_or_nan zres))
                        (zseq (as_int zsize)))).

(** [try: m except AttributeError: pass] *)
Definition ignore_attribute_error (m : M unit) : M unit :=
  fun o => match m o with (Err AttributeError, o') => (Ok tt, o') | r => r end.

(** otf.py:294-303 HanserPSF.zsize setter. *)
Definition hanser_zsize_set (value : pyval) : M unit :=
  numeric_set A_zsize TInt value ;; ignore_attribute_error gen_zrange.
(** otf.py:305-313 HanserPSF.zres setter. *)
Definition hanser_zres_set (value : pyval) : M unit :=
  base_zres_set value ;; ignore_attribute_error gen_zrange.

(** otf.py:478-489 SheppardPSF.zres setter. *)
Definition sheppard_zres_set (value : pyval) : M unit :=
  let* wl := getattr A_wl in
  let* ni := getattr A_ni in
  let* t := lift (fl_div (num_or_nan wl) (FFin 2)) in
  let* max_val := lift (fl_div t (num_or_nan ni)) in
  let* bad := lift (py_ge value (VFloat max_val)) in
  if bad : bool then raise ValueError else base_zres_set value.

(** otf.py:471-476 SheppardPSF.dual setter. *)
Definition dual_set (value : pyval) : M unit :=
  if negb (isinstance value TBool) then raise TypeError
  else setattr A_dual value ;; attribute_changed.

(** Assignment of any public attribute, by class. *)
Inductive assignment := SetNum (a : attr) (v : pyval) | SetZrange (z : zrange_arg).
(** otf.py:46-51, 131-192, 294-327, 466-489: the setter each class has. *)
Definition assign (c : cls) (s : assignment) : M unit :=
  match s with
  | SetNum a v =>
      match a, c with
      | A_wl, _ | A_na, _ | A_ni, _ => numeric_set a TFloatInt v
      | A_size, _ => numeric_set a TInt v
      | A_zsize, Hanser => hanser_zsize_set v
      | A_zsize, Sheppard => numeric_set a TInt v
      | A_res, _ => res_set v
      | A_zres, Hanser => hanser_zres_set v
      | A_zres, Sheppard => sheppard_zres_set v
      | A_vec_corr, _ => vec_corr_set v
      | A_condition, _ => condition_set v
      | A_dual, Sheppard => dual_set v
      | A_dual, Hanser => ret tt             (* an ordinary new attribute of a HanserPSF *)
      end
  | SetZrange z =>
      match c with
      | Hanser => zrange_set z
      | Sheppard => ret tt                   (* an ordinary new attribute of a SheppardPSF *)
      end
  end.

(** otf.py:356-373, 529-534: _gen_psf / _gen_otf clear the caches first, then compute. *)
Definition gen_psf (p : option (pupil E)) : M (arr E) :=
  attribute_changed ;;
  (fun o => (e_gen_psf E (obj_params o) p, o)).
(** otf.py:529-576 *)
Definition gen_otf : M (arr E) :=
  attribute_changed ;;
  (fun o => (e_gen_otf E (obj_params o), o)).

(** functools.cached_property: return the stored value, else compute and store. *)
Definition cached (s : slot) (compute : M (arr E)) : M (arr E) :=
  fun o => match o_cache o s with
           | Some x => (Ok x, o)
           | None => (let* x := compute in set_cache s x ;; ret x) o
           end.

(** otf.py:434-437.  (The other reads: HanserPSF otf.py:429-437, 204-212; SheppardPSF otf.py:578-586.) *)
Definition read_PSFa_h : M (arr E) := cached PSFa (gen_psf None).
(** otf.py:578-581 *)
Definition read_OTFa_s : M (arr E) := cached OTFa gen_otf.
(** otf.py:434-437, 583-586 *)
Definition read_PSFa (c : cls) : M (arr E) :=
  match c with
  | Hanser => read_PSFa_h
  | Sheppard => cached PSFa (let* x := read_OTFa_s in ret (e_ifft3 E x))
  end.
(** otf.py:429-432, 578-581 *)
Definition read_OTFa (c : cls) : M (arr E) :=
  match c with
  | Hanser => cached OTFa (let* x := read_PSFa_h in ret (e_fft3 E x))
  | Sheppard => read_OTFa_s
  end.
(** otf.py:204-207 *)
Definition read_PSFi (c : cls) : M (arr E) :=
  cached PSFi (let* x := read_PSFa c in ret (e_sumsq E x)).
(** otf.py:209-212 *)
Definition read_OTFi (c : cls) : M (arr E) :=
  cached OTFi (let* x := read_PSFi c in ret (e_fft E x)).
(** reading one of the four cached properties *)
Definition read (c : cls) (s : slot) : M (arr E) :=
  match s with
  | PSFa => read_PSFa c | OTFa => read_OTFa c | PSFi => read_PSFi c | OTFi => read_OTFi c
  end.

(** otf.py:424-427 HanserPSF.apply_pupil. *)
Definition apply_pupil (p : pupil E) : M unit :=
  attribute_changed ;;
  (let* x := gen_psf (Some p) in set_cache PSFa x).

(** Constructors: otf.py:53-103 (BasePSF), 272-281 (HanserPSF), 452-457 (SheppardPSF).
    [None] for zres / zsize / zrange means "not passed, or None" (otf.py:94-101, 277), so [Some VNone] stands for no call. *)
Record ctor := mkCtor {
  k_wl : pyval; k_na : pyval; k_ni : pyval; k_res : pyval; k_size : pyval;
  k_zres : option pyval; k_zsize : option pyval; k_vec_corr : pyval; k_condition : pyval;
  k_zrange : option zrange_arg; k_dual : pyval }.
(** otf.py:90-104 *)
Definition base_init (c : cls) (k : ctor) : M unit :=
  assign c (SetNum A_wl (k_wl k)) ;;
  assign c (SetNum A_na (k_na k)) ;;
  assign c (SetNum A_ni (k_ni k)) ;;
  assign c (SetNum A_res (k_res k)) ;;
  assign c (SetNum A_size (k_size k)) ;;
  assign c (SetNum A_zres (match k_zres k with None => k_res k | Some v => v end)) ;;
  assign c (SetNum A_zsize (match k_zsize k with None => k_size k | Some v => v end)) ;;
  assign c (SetNum A_vec_corr (k_vec_corr k)) ;;
  assign c (SetNum A_condition (k_condition k)).
(** otf.py:272-281, 452-457 *)
Definition init (c : cls) (k : ctor) : M unit :=
  base_init c k ;;
  match c with
  | Hanser => match k_zrange k with None => gen_zrange | Some z => zrange_set z end
  | Sheppard => dual_set (k_dual k)
  end.
(** The call HanserPSF(...) or SheppardPSF(...). *)
Definition construct (c : cls) (k : ctor) : res obj :=
  match init c k empty_obj with (Ok _, o) => Ok o | (Err e, _) => Err e end.

End Machine.
Arguments o_attr {E} o.
Arguments o_zrange {E} o.
Arguments o_cache {E} o.
Arguments obj_params {E} o.
Arguments mkObj {E}.
