(** The PSF objects of pyotf/otf.py, one atomic step at a time.

    M_PSF.v gives the effect of a whole read or assignment.  Here each of them is a program: a tree of
    atomic steps between which a thread may be interrupted (KeyboardInterrupt) or may lose the
    processor to another thread.  The atomic steps are the reads and writes of attributes of the
    instance, each deletion of a cached array, the store of functools.cached_property and, for Python
    3.8 to 3.11, taking and releasing the lock of a cached_property.  L_Steps.v proves that a program
    run without a break does what M_PSF.v says. *)
From Verif Require Export M_PSF.

(** The locks.  functools.cached_property of Python 3.8 to 3.11 holds one reentrant lock per property
    of a class, shared by all instances; PSFi and OTFi belong to BasePSF (otf.py:204-212), PSFa and OTFa to each
    of the two classes (otf.py:429-437, 578-586).  No thread takes a lock twice, so they are modelled without
    re-entrance. *)
Inductive lk := L_PSFi | L_OTFi | L_own (c : cls) (s : slot).
(** equality of locks *)
Definition lk_eqb (a b : lk) : bool :=
  match a, b with
  | L_PSFi, L_PSFi | L_OTFi, L_OTFi => true
  | L_own Hanser s, L_own Hanser t | L_own Sheppard s, L_own Sheppard t => slot_eqb s t
  | _, _ => false
  end.
(** the lock of a cached property of a class: otf.py:194-212, 429-437, 578-586 *)
Definition lock_of (c : cls) (s : slot) : lk :=
  match s with PSFi => L_PSFi | OTFi => L_OTFi | _ => L_own c s end.

Section Steps.
Context (E : engine).

(** An instance together with its working attributes, the coordinates that _gen_kr leaves on it
    (otf.py:330-339, 491-526): register [i] holds a value made from the parameters [m_regs i].
    Simplification: a register remembers the parameters it was made from instead of the coordinates. *)
Record mem := mkMem { m_obj : obj E; m_regs : nat -> option params }.

(** Programs.  [PStep f k]: one atomic step that maps the object by [f] and goes on with [k], which sees
    the object as it was just before the step. *)
Inductive prog (A : Type) : Type :=
| PDone (r : res A)
| PStep (f : mem -> mem) (k : mem -> prog A)
| PLock (l : lk) (k : prog A)
| PUnlock (l : lk) (k : prog A).
Arguments PDone {A}. Arguments PStep {A}. Arguments PLock {A}. Arguments PUnlock {A}.

(** sequencing: an exception ends the program *)
Fixpoint pbind {A B} (p : prog A) (f : A -> prog B) : prog B :=
  match p with
  | PDone (Ok x) => f x
  | PDone (Err e) => PDone (Err e)
  | PStep g k => PStep g (fun o => pbind (k o) f)
  | PLock l k => PLock l (pbind k f)
  | PUnlock l k => PUnlock l (pbind k f)
  end.
(** [with lock: p]: the lock is released whether or not [p] raises *)
Fixpoint release {A} (l : lk) (p : prog A) : prog A :=
  match p with
  | PDone r => PUnlock l (PDone r)
  | PStep g k => PStep g (fun o => release l (k o))
  | PLock l' k => PLock l' (release l k)
  | PUnlock l' k => PUnlock l' (release l k)
  end.
(** [try: p except AttributeError: pass] *)
Fixpoint ignoring {A} (x : A) (p : prog A) : prog A :=
  match p with
  | PDone (Err AttributeError) => PDone (Ok x)
  | PDone r => PDone r
  | PStep g k => PStep g (fun o => ignoring x (k o))
  | PLock l k => PLock l (ignoring x k)
  | PUnlock l k => PUnlock l (ignoring x k)
  end.
(** a step that only looks *)
Definition plook {A} (k : mem -> prog A) : prog A := PStep (fun o => o) k.
(** a step that only writes *)
Definition pdo {A} (f : mem -> mem) (k : prog A) : prog A := PStep f (fun _ => k).
(** return *)
Definition pret {A} (x : A) : prog A := PDone (Ok x).
(** a computation without effect on the object *)
Definition plift {A} (r : res A) : prog A := PDone r.

(** one [setattr(self, attr, value)] *)
Definition w_attr (a : attr) (v : pyval) (m : mem) : mem :=
  mkMem (snd (setattr E a v (m_obj m))) (m_regs m).
(** the store of a cached array, [cache[name] = val] or [self.PSFa = ...] (otf.py:427) *)
Definition w_store (s : slot) (x : arr E) (m : mem) : mem :=
  mkMem (snd (set_cache E s x (m_obj m))) (m_regs m).
(** [delattr(self, s)], or nothing when the array is not there: otf.py:120-124 *)
Definition w_del (s : slot) (m : mem) : mem :=
  mkMem (mkObj (o_attr (m_obj m)) (o_zrange (m_obj m))
               (fun t => if slot_eqb s t then None else o_cache (m_obj m) t)) (m_regs m).
(** [self._zrange = ...]: otf.py:322-326 *)
Definition w_zrange (l : list fl) (m : mem) : mem :=
  mkMem (mkObj (o_attr (m_obj m)) (Some l) (o_cache (m_obj m))) (m_regs m).
(** one of the assignments [self._k = ...] of _gen_kr: otf.py:330-339, 502-526 *)
Definition w_reg (i : nat) (m : mem) : mem :=
  mkMem (m_obj m) (fun j => if Nat.eqb i j then Some (obj_params (m_obj m)) else m_regs m j).

(** otf.py:114-124 [_attribute_changed]: four deletions, in this order *)
Definition pchanged : prog unit :=
  pdo (w_del PSFa) (pdo (w_del OTFa) (pdo (w_del PSFi) (pdo (w_del OTFi) (pret tt)))).

(** reading an attribute that may be missing *)
Definition pget (a : attr) : prog pyval :=
  plook (fun m => match o_attr (m_obj m) a with Some v => pret v | None => PDone (Err AttributeError) end).
(** writing an attribute and then clearing: the last two lines of the setters *)
Definition pput (a : attr) (v : pyval) : prog unit := pdo (w_attr a v) pchanged.

(** utils.py:205-213, the setter of a NumericProperty *)
Definition pnumeric (a : attr) (t : vartype) (v : pyval) : prog unit :=
  plook (fun m => match numeric_decide (o_attr (m_obj m) a) t v with
                  | Err e => PDone (Err e)
                  | Ok true => pput a v
                  | Ok false => pret tt
                  end).
(** otf.py:131-137 *)
Definition pzres (v : pyval) : prog unit :=
  pbind (plift (py_gt v (VInt 0))) (fun pos => if negb pos then PDone (Err ValueError) else pput A_zres v).
(** otf.py:144-163 *)
Definition pres (v : pyval) : prog unit :=
  pbind (pget A_na) (fun na => pbind (pget A_wl) (fun wl =>
  pbind (plift (fl_div (fl_mul (FFin 2) (num_or_nan na)) (num_or_nan wl))) (fun t =>
  pbind (plift (fl_div (FFin 1) t)) (fun abbe =>
  pbind (plift (py_ge v (VFloat abbe))) (fun bad =>
  if bad : bool then PDone (Err ValueError) else pput A_res v))))).
(** otf.py:173-179, 186-192 *)
Definition pchoice (a : attr) (valid : list string) (v : pyval) : prog unit :=
  pbind (plift (in_set v valid)) (fun ok => if negb ok then PDone (Err ValueError) else pput a v).
(** otf.py:320-327 *)
Definition pzrange (z : zrange_arg) : prog unit :=
  pdo (w_zrange match z with ZScalar z => [z] | ZList l => l end) pchanged.
(** otf.py:290-292 *)
Definition pgen_zrange : prog unit :=
  pbind (pget A_zsize) (fun zsize => pbind (pget A_zres) (fun zres =>
  pzrange (ZList (map (fun i => fl_mul (FFin (inject_Z (i - (as_int zsize + 1) / 2))) (num_or_nan zres))
                      (zseq (as_int zsize)))))).
(** otf.py:294-303 *)
Definition phanser_zsize (v : pyval) : prog unit :=
  pbind (pnumeric A_zsize TInt v) (fun _ => ignoring tt pgen_zrange).
(** otf.py:305-313 *)
Definition phanser_zres (v : pyval) : prog unit :=
  pbind (pzres v) (fun _ => ignoring tt pgen_zrange).
(** otf.py:478-489 *)
Definition psheppard_zres (v : pyval) : prog unit :=
  pbind (pget A_wl) (fun wl => pbind (pget A_ni) (fun ni =>
  pbind (plift (fl_div (num_or_nan wl) (FFin 2))) (fun t =>
  pbind (plift (fl_div t (num_or_nan ni))) (fun max_val =>
  pbind (plift (py_ge v (VFloat max_val))) (fun bad =>
  if bad : bool then PDone (Err ValueError) else pzres v))))).
(** otf.py:471-476 *)
Definition pdual (v : pyval) : prog unit :=
  if negb (isinstance v TBool) then PDone (Err TypeError) else pput A_dual v.
(** Assignment of any public attribute, by class: otf.py:46-51, 131-192, 294-327, 466-489. *)
Definition passign (c : cls) (s : assignment) : prog unit :=
  match s with
  | SetNum a v =>
      match a, c with
      | A_wl, _ | A_na, _ | A_ni, _ => pnumeric a TFloatInt v
      | A_size, _ => pnumeric a TInt v
      | A_zsize, Hanser => phanser_zsize v
      | A_zsize, Sheppard => pnumeric a TInt v
      | A_res, _ => pres v
      | A_zres, Hanser => phanser_zres v
      | A_zres, Sheppard => psheppard_zres v
      | A_vec_corr, _ => pchoice A_vec_corr vec_corr_values v
      | A_condition, _ => pchoice A_condition condition_values v
      | A_dual, Sheppard => pdual v
      | A_dual, Hanser => pret tt
      end
  | SetZrange z => match c with Hanser => pzrange z | Sheppard => pret tt end
  end.

(** The computation once the coordinates are there: it reads the registers and the parameters
    (otf.py:366-422, 536-576).  When the registers were made from other parameters the result is
    whatever [mixed] says; nothing is assumed of it.  Simplification: this is one step; the parameters it reads
    are read together. *)
Record mixture := mkMixture {
  mixed_psf : (nat -> option params) -> params -> option (pupil E) -> res (arr E);
  mixed_otf : (nat -> option params) -> params -> res (arr E) }.
(** how many registers each class has: [_k, _kr, _phi, _kmag, _kz] (otf.py:330-339) and
    [kmag, dk, dkz, valid_points, kzz, kyy, kxx] (otf.py:502-526) *)
Definition n_regs (c : cls) : nat := match c with Hanser => 5 | Sheppard => 7 end.
(** [mixed] agrees with the engine when all registers belong to the parameters *)
Definition lawful (x : mixture) : Prop :=
  (forall r P p, (forall i, (i < n_regs Hanser)%nat -> r i = Some P) -> mixed_psf x r P p = e_gen_psf E P p) /\
  (forall r P, (forall i, (i < n_regs Sheppard)%nat -> r i = Some P) -> mixed_otf x r P = e_gen_otf E P).

(** _gen_kr: the registers are written one after the other (otf.py:330-339, 491-526).  Simplification: the
    assert and the reads that may raise inside _gen_kr raise in the computation that follows. *)
Fixpoint pgen_kr {A} (n i : nat) (k : prog A) : prog A :=
  match n with 0%nat => k | S n => pdo (w_reg i) (pgen_kr n (S i) k) end.

Context (X : mixture).
(** otf.py:356-422 *)
Definition pgen_psf (p : option (pupil E)) : prog (arr E) :=
  pbind pchanged (fun _ => pgen_kr (n_regs Hanser) 0 (
  plook (fun m => PDone (mixed_psf X (m_regs m) (obj_params (m_obj m)) p)))).
(** otf.py:529-576 *)
Definition pgen_otf : prog (arr E) :=
  pbind pchanged (fun _ => pgen_kr (n_regs Sheppard) 0 (
  plook (fun m => PDone (mixed_otf X (m_regs m) (obj_params (m_obj m)))))).

(** functools.cached_property.__get__: with a lock and a second look up to Python 3.11, without from 3.12. *)
Definition pcached (locking : bool) (c : cls) (s : slot) (compute : prog (arr E)) : prog (arr E) :=
  let fill := pbind compute (fun x => pdo (w_store s x) (pret x)) in
  plook (fun m => match o_cache (m_obj m) s with
  | Some x => pret x
  | None =>
      if locking
      then PLock (lock_of c s) (release (lock_of c s)
             (plook (fun m => match o_cache (m_obj m) s with Some x => pret x | None => fill end)))
      else fill
  end).
(** otf.py:434-437, 583-586, with what they call *)
Definition pread_PSFa (b : bool) (c : cls) : prog (arr E) :=
  match c with
  | Hanser => pcached b Hanser PSFa (pgen_psf None)
  | Sheppard => pcached b Sheppard PSFa (pbind (pcached b Sheppard OTFa pgen_otf) (fun x => pret (e_ifft3 E x)))
  end.
(** otf.py:429-432, 578-581 *)
Definition pread_OTFa (b : bool) (c : cls) : prog (arr E) :=
  match c with
  | Hanser => pcached b Hanser OTFa (pbind (pcached b Hanser PSFa (pgen_psf None)) (fun x => pret (e_fft3 E x)))
  | Sheppard => pcached b Sheppard OTFa pgen_otf
  end.
(** otf.py:204-207 *)
Definition pread_PSFi (b : bool) (c : cls) : prog (arr E) :=
  pcached b c PSFi (pbind (pread_PSFa b c) (fun x => pret (e_sumsq E x))).
(** otf.py:209-212 *)
Definition pread_OTFi (b : bool) (c : cls) : prog (arr E) :=
  pcached b c OTFi (pbind (pread_PSFi b c) (fun x => pret (e_fft E x))).
(** reading one of the four cached properties *)
Definition pread (b : bool) (c : cls) (s : slot) : prog (arr E) :=
  match s with
  | PSFa => pread_PSFa b c | OTFa => pread_OTFa b c | PSFi => pread_PSFi b c | OTFi => pread_OTFi b c
  end.
(** otf.py:424-427 *)
Definition papply (p : pupil E) : prog unit :=
  pbind pchanged (fun _ => pbind (pgen_psf (Some p)) (fun x => pdo (w_store PSFa x) (pret tt))).

(** A program alone, to its end.  (Locks are free: nobody else is there.) *)
Fixpoint finish {A} (p : prog A) (m : mem) : res A * mem :=
  match p with
  | PDone r => (r, m)
  | PStep f k => finish (k m) (f m)
  | PLock _ k | PUnlock _ k => finish k m
  end.
(** A program alone, interrupted after [n] atomic steps: what it leaves behind. *)
Fixpoint cut {A} (n : nat) (p : prog A) (m : mem) : mem :=
  match n, p with
  | S n, PStep f k => cut n (k m) (f m)
  | S n, PLock _ k | S n, PUnlock _ k => cut n k m
  | _, _ => m
  end.
End Steps.
Arguments mkMem {E}. Arguments m_obj {E}. Arguments m_regs {E}.
Arguments PDone {E A}. Arguments PStep {E A}. Arguments PLock {E A}. Arguments PUnlock {E A}.
