(** The microscopes of pyotf/microscope.py, one atomic step at a time, and threads that read them.

    M_Micro.v gives the effect of a whole read or assignment.  Here each is a program over the microscope and the two
    PSF objects it holds; the steps of the PSF objects are those of M_Steps.v.  L_MicroSteps.v proves that a
    program run without a break does what M_Micro.v says. *)
From Verif Require Export M_Micro M_Steps.
Import M_Array.
Local Open Scope R_scope.

(** The locks: those of the PSF classes, and one for each of the two cached properties of the microscopes, which the
    subclasses inherit (microscope.py:109-129). *)
Inductive mlk := LModel (l : lk) | LPSF | LOTF.
(** equality of locks *)
Definition mlk_eqb (a b : mlk) : bool :=
  match a, b with LModel x, LModel y => lk_eqb x y | LPSF, LPSF | LOTF, LOTF => true | _, _ => false end.

(** A microscope with the working attributes of its model and of its model_exc (see [mem] in M_Steps.v). *)
Record mmem := mkMMem { q_m : micro; q_regs : nat -> option params; q_xregs : nat -> option params }.

(** Programs, as in M_Steps.v. *)
Inductive qprog (A : Type) : Type :=
| QDone (r : res A)
| QStep (f : mmem -> mmem) (k : mmem -> qprog A)
| QLock (l : mlk) (k : qprog A)
| QUnlock (l : mlk) (k : qprog A).
Arguments QDone {A}. Arguments QStep {A}. Arguments QLock {A}. Arguments QUnlock {A}.
(** sequencing: an exception ends the program *)
Fixpoint qbind {A B} (p : qprog A) (f : A -> qprog B) : qprog B :=
  match p with
  | QDone (Ok x) => f x
  | QDone (Err e) => QDone (Err e)
  | QStep g k => QStep g (fun s => qbind (k s) f)
  | QLock l k => QLock l (qbind k f)
  | QUnlock l k => QUnlock l (qbind k f)
  end.
(** [with lock: p] *)
Fixpoint qrelease {A} (l : mlk) (p : qprog A) : qprog A :=
  match p with
  | QDone r => QUnlock l (QDone r)
  | QStep g k => QStep g (fun s => qrelease l (k s))
  | QLock l' k => QLock l' (qrelease l k)
  | QUnlock l' k => QUnlock l' (qrelease l k)
  end.
(** a step that only looks *)
Definition qlook {A} (k : mmem -> qprog A) : qprog A := QStep (fun s => s) k.
(** a step that only writes *)
Definition qdo {A} (f : mmem -> mmem) (k : qprog A) : qprog A := QStep f (fun _ => k).
(** return *)
Definition qret {A} (x : A) : qprog A := QDone (Ok x).
(** reading a plain attribute of the microscope *)
Definition qasks {A} (f : micro -> A) : qprog A := qlook (fun s => qret (f (q_m s))).

(** The PSF objects as seen from the microscope: self.model, self.model_exc (microscope.py:78, 201). *)
Definition model_mem (s : mmem) : mem numeric := mkMem (mi_model (q_m s)) (q_regs s).
(** see [model_mem] *)
Definition exc_mem (s : mmem) : mem numeric := mkMem (mi_exc (q_m s)) (q_xregs s).
(** writing back; see [model_mem] *)
Definition put_model (x : mem numeric) (s : mmem) : mmem := mkMMem (upd_model (m_obj x) (q_m s)) (m_regs x) (q_xregs s).
(** writing back; see [model_mem] *)
Definition put_exc (x : mem numeric) (s : mmem) : mmem := mkMMem (upd_exc (m_obj x) (q_m s)) (q_regs s) (m_regs x).
(** a program of the PSF object run on self.model *)
Fixpoint qmodel {A} (p : prog numeric A) : qprog A :=
  match p with
  | PDone r => QDone r
  | PStep f k => QStep (fun s => put_model (f (model_mem s)) s) (fun s => qmodel (k (model_mem s)))
  | PLock l k => QLock (LModel l) (qmodel k)
  | PUnlock l k => QUnlock (LModel l) (qmodel k)
  end.
(** a program of the PSF object run on self.model_exc *)
Fixpoint qexc {A} (p : prog numeric A) : qprog A :=
  match p with
  | PDone r => QDone r
  | PStep f k => QStep (fun s => put_exc (f (exc_mem s)) s) (fun s => qexc (k (exc_mem s)))
  | PLock l k => QLock (LModel l) (qexc k)
  | PUnlock l k => QUnlock (LModel l) (qexc k)
  end.

(** [del self.PSF], [del self.OTF] with AttributeError ignored: microscope.py:94-102 *)
Definition w_del_psf (s : mmem) : mmem := mkMMem (upd_cache None (mi_otf (q_m s)) (q_m s)) (q_regs s) (q_xregs s).
(** see [w_del_psf] *)
Definition w_del_otf (s : mmem) : mmem := mkMMem (upd_cache (mi_psf (q_m s)) None (q_m s)) (q_regs s) (q_xregs s).
(** the stores of functools.cached_property: microscope.py:109, 126 *)
Definition w_psf (a : array (option R)) (s : mmem) : mmem := mkMMem (upd_cache (Some a) (mi_otf (q_m s)) (q_m s)) (q_regs s) (q_xregs s).
(** see [w_psf] *)
Definition w_otf (a : array (option C)) (s : mmem) : mmem := mkMMem (upd_cache (mi_psf (q_m s)) (Some a) (q_m s)) (q_regs s) (q_xregs s).
(** [setattr(self, attr, value)] of a NumericProperty: utils.py:205-213 *)
Definition w_num (a : mattr) (v : pyval) (s : mmem) : mmem :=
  mkMMem (upd_num (fun b => if mattr_eqb a b then Some v else mi_num (q_m s) b) (q_m s)) (q_regs s) (q_xregs s).
(** assignment to a NumericProperty (utils.py:205-213), then microscope.py:91-102 *)
Definition qset (a : mattr) (v : pyval) : qprog unit :=
  qlook (fun s =>
    if has_prop (mi_kind (q_m s)) a then
      match numeric_decide (mi_num (q_m s) a) (mtype a) v with
      | Err e => QDone (Err e)
      | Ok true => qdo (w_num a v) (qdo w_del_psf (qdo w_del_otf (qret tt)))
      | Ok false => qret tt
      end
    else qret tt).
(** reading one *)
Definition qget (a : mattr) : qprog pyval :=
  qlook (fun s => match mi_num (q_m s) a with Some v => qret v | None => QDone (Err AttributeError) end).

Section Q.
(** [X]: what the model computes from a mixture of coordinates (M_Steps.v); [b]: Python 3.8 to 3.11. *)
Context (X : mixture numeric) (b : bool).
(** attribute of self.model as a number: otf.py:46-51, 131-163 *)
Definition qmodel_R (a : attr) : qprog R := qbind (qmodel (pget numeric a)) (fun v => QDone (as_R v)).
(** self.model.PSFi *)
Definition qmodel_PSFi : qprog farr :=
  qlook (fun s => qbind (qmodel (pread numeric X b (mi_cls (q_m s)) PSFi)) (fun a => qret (farr_of a))).
(** self.model_exc.PSFi *)
Definition qexc_PSFi : qprog farr :=
  qlook (fun s => qbind (qexc (pread numeric X b (mi_cls (q_m s)) PSFi)) (fun a => qret (farr_of a))).
(** self.model.OTFi *)
Definition qmodel_OTFi : qprog (array C * bool) :=
  qlook (fun s => qbind (qmodel (pread numeric X b (mi_cls (q_m s)) OTFi)) (fun a => qret (complexes a, finite_all a))).
(** microscope.py:211-226 *)
Definition qconfocal : qprog farr :=
  qbind (qmodel_R A_wl) (fun wl => qbind (qmodel_R A_na) (fun na => qbind (QDone (rdiv (122 / 100 * wl) na)) (fun t =>
  qbind (qmodel_R A_res) (fun rs => qbind (QDone (rdiv t rs)) (fun airy_unit =>
  qbind (qget MPinhole) (fun ph => qbind (QDone (as_R ph)) (fun ph =>
  let pixel_pinhole_radius := ph * airy_unit / 2 in
  qbind qmodel_PSFi (fun det =>
  qbind (if Rlt_dec (3 / 2) pixel_pinhole_radius
         then let kernel := disk_kernel pixel_pinhole_radius in
              QDone (do c <- fftconvolve_same (fst det) (fst kernel); Ok (c, snd det && snd kernel))
         else qret det) (fun det =>
  qbind qexc_PSFi (fun exc =>
  QDone (do p <- bop Rmult (fst det) (fst exc); Ok (p, snd det && snd exc)))))))))))).
(** microscope.py:241-261 *)
Definition qapotome : qprog farr :=
  qbind qmodel_PSFi (fun psf =>
  qbind (QDone (radial_rows (hybrid_otf (fst psf)))) (fun rows =>
  qbind (qasks mi_params) (fun d =>
  qbind (QDone (do wl <- par_R d "wl"; do na <- par_R d "na"; do q <- rdiv wl na; Ok (q / 4))) (fun nyq =>
  qbind (QDone (do n <- par_R d "size"; do rs <- par_R d "res"; do q <- rdiv (n * rs) nyq; Ok (rint (q / 2)))) (fun lim =>
  qbind (QDone (axial_profile rows (lim / 2)%Z)) (fun ax =>
  QDone (do p <- bop Rmult (column (fst ax)) (fst psf); Ok (p, snd ax && snd psf)))))))).
(** microscope.py:340-357 *)
Definition qsim_base : qprog farr :=
  qbind (qasks mi_wiener) (fun w =>
  match w with
  | VNone => qmodel_PSFi
  | _ =>
      qbind (QDone (py_ge w (VInt 0))) (fun ok =>
      if ok : bool then
        qbind qmodel_OTFi (fun o =>
        let otf := power (fst o) in
        if py_eq w (VInt 0) then qret (ifft_real (support otf), snd o)
        else match M_Val.num w with
             | Some (FFin q) =>
                 qbind (QDone (r_max otf)) (fun mx =>
                 let w2 := mx * Q2R q ^ 2 in
                 qret (ifft_real (amap (wiener_factor w2) otf),
                       snd o && forallb (fun ix => if Req_EM_T (get otf ix + w2) 0 then false else true) (all_ix (shape otf))))
             | _ => qbind (QDone (r_max otf)) (fun _ => qret (otf, false))
             end)
      else QDone (Err ValueError))
  end).
(** microscope.py:314-400 *)
Definition qsim : qprog farr :=
  qbind (qasks mi_params) (fun d =>
  qbind (QDone (par_Z d "size")) (fun n => qbind (QDone (par_R d "res")) (fun rs =>
  qbind (QDone (par_Z d "zsize")) (fun zsize => qbind (QDone (par_R d "zres")) (fun zres =>
  qbind (QDone (par_R d "ni")) (fun ni =>
  qbind (qget MWlExc) (fun wle => qbind (QDone (as_R wle)) (fun wle =>
  qbind (QDone (rdiv (2 * PI * ni) wle)) (fun freq =>
  qbind (qget MNaExc) (fun nae => qbind (QDone (as_R nae)) (fun nae =>
  qbind (QDone (rdiv nae ni)) (fun s =>
  let alpha := asin s in
  qbind qsim_base (fun psf =>
  qbind (qget MDc) (fun dc => qbind (qget MCoherent) (fun coh => qbind (qget MDcSup) (fun sup =>
  qbind (qasks mi_orient) (fun os =>
  let xx := centred n rs in let zz := centred zsize zres in
  let base := base_pattern (py_bool dc) zsize zz freq (shape (fst psf)) in
  let ok := snd psf && (if Rle_dec (Rabs s) 1 then true else match os with [] => true | _ => false end) in
  if py_bool coh then QDone (do r <- coherent n zsize xx zz freq alpha (fst psf) base os; Ok (r, ok))
  else QDone (
    do r <- incoherent n zsize xx zz freq alpha (fst psf) base os (amap (fun _ => 0) (fst psf));
    if py_bool sup then do r <- ibop (fun a p => a - (2 * INR (List.length os) - 1) * p) r (fst psf); Ok (r, ok) else Ok (r, ok)
  )))))))))))))))))).
(** microscope.py:104-107, 211, 241, 314: model_psf of the four classes *)
Definition qmodel_psf : qprog farr :=
  qlook (fun s => match mi_kind (q_m s) with Widefield => qmodel_PSFi | Confocal => qconfocal | Apotome => qapotome | SIM => qsim end).
(** microscope.py:109-124, the body of PSF *)
Definition qcompute : qprog (array (option R)) :=
  qbind qmodel_psf (fun psf => qbind (qget MOs) (fun os => qbind (qasks mi_params) (fun d =>
  qbind (QDone (do n <- par_Z d "size"; bin_psf (as_int os) n (fst psf))) (fun a => qret (normalise (a, snd psf)))))).
(** functools.cached_property.__get__, as in M_Steps.v *)
Definition qcached {A} (l : mlk) (found : micro -> option A) (store : A -> mmem -> mmem) (compute : qprog A) : qprog A :=
  let fill := qbind compute (fun x => qdo (store x) (qret x)) in
  qlook (fun s => match found (q_m s) with
  | Some x => qret x
  | None =>
      if b then QLock l (qrelease l (qlook (fun s => match found (q_m s) with Some x => qret x | None => fill end)))
      else fill
  end).
(** microscope.py:109-124 *)
Definition qPSF : qprog (array (option R)) := qcached LPSF mi_psf w_psf qcompute.
(** microscope.py:126-129 *)
Definition qOTF : qprog (array (option C)) :=
  qcached LOTF mi_otf w_otf (qbind qPSF (fun a => qret (o_fft (amap (option_map RtoC) a)))).

(** ** Reads of a microscope *)
Inductive mquery := AskPSF | AskOTF | AskModelPSF.
(** what a read of [m.PSF], [m.OTF], [m.model_psf] gives *)
Inductive mview := SeePSF (a : array (option R)) | SeeOTF (a : array (option C)) | SeeModel (a : farr).
(** the three public reads: microscope.py:104-129 *)
Definition qask (x : mquery) : qprog mview :=
  match x with
  | AskPSF => qbind qPSF (fun a => qret (SeePSF a))
  | AskOTF => qbind qOTF (fun a => qret (SeeOTF a))
  | AskModelPSF => qbind qmodel_psf (fun a => qret (SeeModel a))
  end.

(** A program alone, to its end. *)
Fixpoint qfinish {A} (p : qprog A) (s : mmem) : res A * mmem :=
  match p with
  | QDone r => (r, s)
  | QStep f k => qfinish (k s) (f s)
  | QLock _ k | QUnlock _ k => qfinish k s
  end.
(** A program alone, interrupted after [n] atomic steps. *)
Fixpoint qcut {A} (n : nat) (p : qprog A) (s : mmem) : mmem :=
  match n, p with
  | S n, QStep f k => qcut n (k s) (f s)
  | S n, QLock _ k | S n, QUnlock _ k => qcut n k s
  | _, _ => s
  end.

(** ** Threads that read microscopes: as M_Threads.v *)
Definition mjob := (nat * mquery)%type.
(** a thread *)
Record mthread := mkMThread { mt_now : option (mjob * qprog mview); mt_todo : list mjob; mt_log : list (mjob * res mview) }.
(** the microscopes, the owner of each lock, the threads.  Simplification: no two microscopes share a PSF object. *)
Record mworld := mkMWorld { mw_mem : nat -> mmem; mw_owner : mlk -> option nat; mw_threads : list mthread }.
(** replace one element of a list *)
Fixpoint set_nth {A} (i : nat) (x : A) (l : list A) : list A :=
  match l, i with
  | [], _ => []
  | _ :: l, 0%nat => x :: l
  | y :: l, S i => y :: set_nth i x l
  end.
(** update of one microscope *)
Definition set_mem (i : nat) (m : mmem) (h : nat -> mmem) : nat -> mmem := fun j => if Nat.eqb i j then m else h j.
(** update of one lock *)
Definition set_owner (l : mlk) (x : option nat) (h : mlk -> option nat) : mlk -> option nat := fun l' => if mlk_eqb l l' then x else h l'.
(** One step of thread [i]; [None] when it cannot move: it has finished, or it waits for a lock. *)
Definition mstep (i : nat) (w : mworld) : option mworld :=
  match nth_error (mw_threads w) i with
  | None => None
  | Some t =>
      let upd t' := set_nth i t' (mw_threads w) in
      match mt_now t with
      | None =>
          match mt_todo t with
          | [] => None
          | j :: todo => Some (mkMWorld (mw_mem w) (mw_owner w) (upd (mkMThread (Some (j, qask (snd j))) todo (mt_log t))))
          end
      | Some (j, p) =>
          match p with
          | QDone r => Some (mkMWorld (mw_mem w) (mw_owner w) (upd (mkMThread None (mt_todo t) ((j, r) :: mt_log t))))
          | QStep f k =>
              let m := mw_mem w (fst j) in
              Some (mkMWorld (set_mem (fst j) (f m) (mw_mem w)) (mw_owner w) (upd (mkMThread (Some (j, k m)) (mt_todo t) (mt_log t))))
          | QLock l k =>
              match mw_owner w l with
              | Some _ => None
              | None => Some (mkMWorld (mw_mem w) (set_owner l (Some i) (mw_owner w)) (upd (mkMThread (Some (j, k)) (mt_todo t) (mt_log t))))
              end
          | QUnlock l k =>
              Some (mkMWorld (mw_mem w) (set_owner l None (mw_owner w)) (upd (mkMThread (Some (j, k)) (mt_todo t) (mt_log t))))
          end
      end
  end.
(** A schedule; a thread that cannot move is passed over. *)
Fixpoint mplay (sched : list nat) (w : mworld) : mworld :=
  match sched with
  | [] => w
  | i :: s => mplay s (match mstep i w with Some w' => w' | None => w end)
  end.
(** The start: threads with reads to do, no lock taken. *)
Definition mstart (objects : nat -> mmem) (jobs : list (list mjob)) : mworld :=
  mkMWorld objects (fun _ => None) (map (fun l => mkMThread None l []) jobs).
End Q.
