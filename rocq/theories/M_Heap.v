(** The PSF objects of pyotf/otf.py as Python sees them: several objects in one heap, whose array attributes are
    REFERENCES to numpy arrays.  [copy.copy], the aberration helpers and the phase-retrieval result share or copy such
    references; the caller can hold them too and write into the arrays.  The value-level machine is M_PSF.v. *)
From Verif Require Export M_PSF.

Section Heap.
Context (E : engine).

(** A real array used as a z range: 0-dimensional or 1-dimensional. *)
Inductive rng := R0 (z : fl) | R1 (l : list fl).
(** The __dict__ of an instance.  Numbers, strings and bools are immutable; [_zrange] and the cached arrays are
    references. *)
Record hobj := mkHobj {
  ho_cls : cls;
  ho_attr : attr -> option pyval;
  ho_zrange : option nat;
  ho_cache : slot -> option nat }.
(** References are positions; nothing is ever freed. *)
Record heap := mkHeap { hp_obj : list hobj; hp_rng : list rng; hp_arr : list (arr E) }.

(** A method call in a heap: it may raise, and keeps the effects it had before raising. *)
Definition HM (A : Type) := heap -> res A * heap.
(** return *)
Definition hret {A} (x : A) : HM A := fun H => (Ok x, H).
(** raise *)
Definition hraise {A} (e : exn) : HM A := fun H => (Err e, H).
(** sequencing *)
Definition hbind {A B} (m : HM A) (f : A -> HM B) : HM B :=
  fun H => match m H with (Ok x, H') => f x H' | (Err e, H') => (Err e, H') end.
(** a computation without effect on the heap *)
Definition hlift {A} (r : res A) : HM A := fun H => (r, H).
Notation "'let^' x ':=' m 'in' k" := (hbind m (fun x => k)) (at level 200, x name, k at level 200, right associativity).
Notation "m ;^ k" := (hbind m (fun _ => k)) (at level 100, k at level 200, right associativity).

(** new arrays and objects *)
Definition alloc_rng (r : rng) : HM nat :=
  fun H => (Ok (List.length (hp_rng H)), mkHeap (hp_obj H) (hp_rng H ++ [r]) (hp_arr H)).
(** a new result array *)
Definition alloc_arr (a : arr E) : HM nat :=
  fun H => (Ok (List.length (hp_arr H)), mkHeap (hp_obj H) (hp_rng H) (hp_arr H ++ [a])).
(** a new object *)
Definition alloc_obj (o : hobj) : HM nat :=
  fun H => (Ok (List.length (hp_obj H)), mkHeap (hp_obj H ++ [o]) (hp_rng H) (hp_arr H)).
(** list update at a position *)
Fixpoint replace {A} (n : nat) (x : A) (l : list A) : list A :=
  match l, n with [], _ => [] | _ :: l', O => x :: l' | y :: l', S n' => y :: replace n' x l' end.
(** in-place modification of an object's __dict__ and of a z range array *)
Definition dict (l : nat) : HM hobj :=
  fun H => match nth_error (hp_obj H) l with Some o => (Ok o, H) | None => (Err RuntimeError, H) end.
(** self.__dict__ = ... *)
Definition update (l : nat) (o : hobj) : HM unit :=
  fun H => (Ok tt, mkHeap (replace l o (hp_obj H)) (hp_rng H) (hp_arr H)).
(** in-place write to a z range array *)
Definition write_rng (r : nat) (c : rng) : HM unit :=
  fun H => (Ok tt, mkHeap (hp_obj H) (replace r c (hp_rng H)) (hp_arr H)).

Section Methods.
Context (l : nat).   (* self *)
Definition h_getattr (a : attr) : HM pyval :=
  let^ o := dict l in match ho_attr o a with Some v => hret v | None => hraise AttributeError end.
(** setattr(self, attr, value) *)
Definition h_setattr (a : attr) (v : pyval) : HM unit :=
  let^ o := dict l in
  update l (mkHobj (ho_cls o) (fun b => if attr_eqb a b then Some v else ho_attr o b) (ho_zrange o) (ho_cache o)).
(** the store of functools.cached_property *)
Definition h_set_cache (s : slot) (r : nat) : HM unit :=
  let^ o := dict l in
  update l (mkHobj (ho_cls o) (ho_attr o) (ho_zrange o) (fun t => if slot_eqb s t then Some r else ho_cache o t)).
(** otf.py:114-124: deletes the dictionary entries, not the arrays. *)
Definition h_changed : HM unit :=
  let^ o := dict l in update l (mkHobj (ho_cls o) (ho_attr o) (ho_zrange o) (fun _ => None)).

(** utils.py:205-213 *)
Definition h_numeric_set (a : attr) (t : vartype) (value : pyval) : HM unit :=
  let^ o := dict l in
  let^ store := hlift (numeric_decide (ho_attr o a) t value) in
  if store : bool then h_setattr a value ;^ h_changed else hret tt.
(** otf.py:131-137 *)
Definition h_base_zres_set (value : pyval) : HM unit :=
  let^ pos := hlift (py_gt value (VInt 0)) in
  if negb pos then hraise ValueError else h_setattr A_zres value ;^ h_changed.
(** otf.py:144-163 *)
Definition h_res_set (value : pyval) : HM unit :=
  let^ na := h_getattr A_na in
  let^ wl := h_getattr A_wl in
  let^ t := hlift (fl_div (fl_mul (FFin 2) (num_or_nan na)) (num_or_nan wl)) in
  let^ abbe := hlift (fl_div (FFin 1) t) in
  let^ bad := hlift (py_ge value (VFloat abbe)) in
  if bad : bool then hraise ValueError else h_setattr A_res value ;^ h_changed.
(** otf.py:165-192 *)
Definition h_choice_set (a : attr) (valid : list string) (value : pyval) : HM unit :=
  let^ ok := hlift (in_set value valid) in
  if negb ok then hraise ValueError else h_setattr a value ;^ h_changed.
(** otf.py:320-327: numpy.asarray makes a new array of a scalar or a list, but returns an array it is given ITSELF;
    a 0-d array is reshaped in place. *)
Inductive zarg := ZVal (z : zrange_arg) | ZRef (r : nat).
(** otf.py:322 numpy.asarray(value) *)
Definition asarray (z : zarg) : HM nat :=
  match z with
  | ZVal (ZScalar x) => alloc_rng (R0 x)
  | ZVal (ZList xs) => alloc_rng (R1 xs)
  | ZRef r => hret r
  end.
(** otf.py:320-327 the zrange setter *)
Definition h_zrange_set (z : zarg) : HM unit :=
  let^ r := asarray z in
  let^ o := dict l in
  update l (mkHobj (ho_cls o) (ho_attr o) (Some r) (ho_cache o)) ;^
  (fun H => match nth_error (hp_rng H) r with
            | Some (R0 x) => write_rng r (R1 [x]) H
            | _ => (Ok tt, H)
            end) ;^
  h_changed.
(** otf.py:290-292 *)
Definition h_gen_zrange : HM unit :=
  let^ zsize := h_getattr A_zsize in
  let^ zres := h_getattr A_zres in
  h_zrange_set (ZVal (ZList (map (fun i => fl_mul (FFin (inject_Z (i - (as_int zsize + 1) / 2))) (num_or_nan zres))
                                (zseq (as_int zsize))))).
(** try: ... except AttributeError: pass (otf.py:300-303, 310-313) *)
Definition h_ignore (m : HM unit) : HM unit :=
  fun H => match m H with (Err AttributeError, H') => (Ok tt, H') | r => r end.
(** otf.py:294-313 *)
Definition h_hanser_zsize_set (value : pyval) : HM unit := h_numeric_set A_zsize TInt value ;^ h_ignore h_gen_zrange.
(** otf.py:305-313 *)
Definition h_hanser_zres_set (value : pyval) : HM unit := h_base_zres_set value ;^ h_ignore h_gen_zrange.
(** otf.py:478-489 *)
Definition h_sheppard_zres_set (value : pyval) : HM unit :=
  let^ wl := h_getattr A_wl in
  let^ ni := h_getattr A_ni in
  let^ t := hlift (fl_div (num_or_nan wl) (FFin 2)) in
  let^ max_val := hlift (fl_div t (num_or_nan ni)) in
  let^ bad := hlift (py_ge value (VFloat max_val)) in
  if bad : bool then hraise ValueError else h_base_zres_set value.
(** otf.py:471-476 *)
Definition h_dual_set (value : pyval) : HM unit :=
  if negb (isinstance value TBool) then hraise TypeError else h_setattr A_dual value ;^ h_changed.

(** assignment by class, as [assign] in M_PSF.v *)
Inductive hassignment := HSetNum (a : attr) (v : pyval) | HSetZrange (z : zarg).
(** otf.py:46-51, 131-192, 294-327, 466-489: the setter each class has. *)
Definition h_assign (c : cls) (s : hassignment) : HM unit :=
  match s with
  | HSetNum a v =>
      match a, c with
      | A_wl, _ | A_na, _ | A_ni, _ => h_numeric_set a TFloatInt v
      | A_size, _ => h_numeric_set a TInt v
      | A_zsize, Hanser => h_hanser_zsize_set v
      | A_zsize, Sheppard => h_numeric_set a TInt v
      | A_res, _ => h_res_set v
      | A_zres, Hanser => h_hanser_zres_set v
      | A_zres, Sheppard => h_sheppard_zres_set v
      | A_vec_corr, _ => h_choice_set A_vec_corr vec_corr_values v
      | A_condition, _ => h_choice_set A_condition condition_values v
      | A_dual, Sheppard => h_dual_set v
      | A_dual, Hanser => hret tt
      end
  | HSetZrange z => match c with Hanser => h_zrange_set z | Sheppard => hret tt end
  end.

(** the parameters, with [_zrange] dereferenced *)
Definition deref_rng (H : heap) (r : nat) : option (list fl) :=
  match nth_error (hp_rng H) r with Some (R1 xs) => Some xs | Some (R0 x) => Some [x] | None => None end.
(** The parameters a computation on this object sees. *)
Definition h_params : HM params :=
  fun H => match nth_error (hp_obj H) l with
           | Some o =>
               let a := ho_attr o in
               (Ok (mkParams (a A_wl) (a A_na) (a A_ni) (a A_res) (a A_size) (a A_zres) (a A_zsize) (a A_vec_corr)
                  (a A_condition) (a A_dual) (match ho_zrange o with Some r => deref_rng H r | None => None end)), H)
           | None => (Err RuntimeError, H)
           end.
(** otf.py:356-422, 529-576: a new array each time.  (The coordinate arrays [_kr], [_phi], ... are also stored on the
    object, but always regenerated before they are read; they are not modelled.) *)
Definition h_gen_psf (p : option (pupil E)) : HM nat :=
  h_changed ;^ let^ P := h_params in let^ a := hlift (e_gen_psf E P p) in alloc_arr a.
(** otf.py:529-576 *)
Definition h_gen_otf : HM nat :=
  h_changed ;^ let^ P := h_params in let^ a := hlift (e_gen_otf E P) in alloc_arr a.
(** functools.cached_property *)
Definition h_cached (s : slot) (compute : HM nat) : HM nat :=
  let^ o := dict l in
  match ho_cache o s with
  | Some r => hret r
  | None => let^ r := compute in h_set_cache s r ;^ hret r
  end.
(** a new array computed from an existing one *)
Definition h_map (f : arr E -> arr E) (m : HM nat) : HM nat :=
  let^ r := m in
  (fun H => match nth_error (hp_arr H) r with Some a => alloc_arr (f a) H | None => (Err RuntimeError, H) end).
(** otf.py:429-437, 204-212, 578-586 *)
Definition h_read_PSFa_h : HM nat := h_cached PSFa (h_gen_psf None).
(** otf.py:578-581 *)
Definition h_read_OTFa_s : HM nat := h_cached OTFa h_gen_otf.
(** otf.py:434-437, 583-586 *)
Definition h_read_PSFa (c : cls) : HM nat :=
  match c with Hanser => h_read_PSFa_h | Sheppard => h_cached PSFa (h_map (e_ifft3 E) h_read_OTFa_s) end.
(** otf.py:429-432, 578-581 *)
Definition h_read_OTFa (c : cls) : HM nat :=
  match c with Hanser => h_cached OTFa (h_map (e_fft3 E) h_read_PSFa_h) | Sheppard => h_read_OTFa_s end.
(** otf.py:204-207 *)
Definition h_read_PSFi (c : cls) : HM nat := h_cached PSFi (h_map (e_sumsq E) (h_read_PSFa c)).
(** otf.py:209-212 *)
Definition h_read_OTFi (c : cls) : HM nat := h_cached OTFi (h_map (e_fft E) (h_read_PSFi c)).
(** reading one of the four cached properties *)
Definition h_read (c : cls) (s : slot) : HM nat :=
  match s with PSFa => h_read_PSFa c | OTFa => h_read_OTFa c | PSFi => h_read_PSFi c | OTFi => h_read_OTFi c end.
(** otf.py:424-427 *)
Definition h_apply_pupil (p : pupil E) : HM unit :=
  h_changed ;^ let^ r := h_gen_psf (Some p) in h_set_cache PSFa r.
End Methods.

(** type(obj) *)
Definition h_cls (l : nat) : HM cls := let^ o := dict l in hret (ho_cls o).

(** copy.copy: a new object whose __dict__ holds the same references. *)
Definition h_copy (l : nat) : HM nat := let^ o := dict l in alloc_obj o.

(** The shape common to apply_aberration, apply_named_aberration and apply_named_aberrations (otf.py:589-696): check
    the class, copy, compute a pupil from the parameters ([None]: both coefficient arguments are None), apply it to
    the copy, return the copy. *)
Definition h_aberrate (ab : params -> res (option (pupil E))) (l : nat) : HM nat :=
  let^ c := h_cls l in
  match c with
  | Sheppard => hraise AssertionError
  | Hanser =>
      let^ m := h_copy l in
      let^ P := h_params m in
      let^ q := hlift (ab P) in
      match q with
      | None => hret m
      | Some p => h_apply_pupil m p ;^ hret m
      end
  end.
(** phaseretrieval.py:202-228 PhaseRetrievalResult._generate_psf up to the resizing of the result. *)
Definition h_generate (p : pupil E) (zsize : option pyval) (zrange : option zarg) (l : nat) : HM nat :=
  let^ m := h_copy l in
  (match zsize with Some v => h_assign m Hanser (HSetNum A_zsize v) | None => hret tt end) ;^
  (match zrange with Some z => h_assign m Hanser (HSetZrange z) | None => hret tt end) ;^
  h_apply_pupil m p ;^
  h_read_PSFi m Hanser.
(** A constructor call: otf.py:53-103, 272-281, 452-457; [zr] is the zrange argument. *)
Definition blank (c : cls) : hobj := mkHobj c (fun _ => None) None (fun _ => None).
(** The call HanserPSF(...) or SheppardPSF(...): a new object, the assignments in order, the object. *)
Definition h_construct (c : cls) (k : ctor) (zr : option zarg) : HM nat :=
  let^ l := alloc_obj (blank c) in
  h_assign l c (HSetNum A_wl (k_wl k)) ;^
  h_assign l c (HSetNum A_na (k_na k)) ;^
  h_assign l c (HSetNum A_ni (k_ni k)) ;^
  h_assign l c (HSetNum A_res (k_res k)) ;^
  h_assign l c (HSetNum A_size (k_size k)) ;^
  h_assign l c (HSetNum A_zres (match k_zres k with None => k_res k | Some v => v end)) ;^
  h_assign l c (HSetNum A_zsize (match k_zsize k with None => k_size k | Some v => v end)) ;^
  h_assign l c (HSetNum A_vec_corr (k_vec_corr k)) ;^
  h_assign l c (HSetNum A_condition (k_condition k)) ;^
  (match c with
   | Hanser => match zr with None => h_gen_zrange l | Some z => h_zrange_set l z end
   | Sheppard => h_dual_set l (k_dual k)
   end) ;^
  hret l.
End Heap.
