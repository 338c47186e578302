(** Specification for the life of a phase retrieval result: what the user can do with it, in any order. *)
From Verif Require Import M_PSF S_PSF M_Result.
Import M_Array.
Local Open Scope R_scope.

(** Calls of the methods of the result. *)
Inductive method :=
| Fit (num_zerns : Z)
| Pupil
| Psf (size : option Z) (zsize : option pyval) (zrange : option zrange_arg)
| ZdPsf (sphase : pyslice) (size : option Z) (zsize : option pyval) (zrange : option zrange_arg).
(** Things the user does: call a method; call a method and be stopped (KeyboardInterrupt, MemoryError) somewhere in it,
    [late] saying that it is stopped after its last store; work with result.model (assign, read, apply a pupil); assign
    result.mag or result.phase; write new coefficients into a decomposition obtained earlier; put an earlier decomposition
    back into result.zd_result. *)
Inductive act :=
| Call (m : method)
| Cut (m : method) (late : bool)
| OnModel (x : op numeric)
| SetMag (a : array R)
| SetPhase (a : array R)
| EditZD (k : nat) (mcoefs pcoefs : list R)
| PutZD (k : nat).

Definition with_mag (r : result) (a : array R) : result :=
  mkResult a (r_phase r) (r_mse r) (r_pupil_diff r) (r_mse_diff r) (r_model r) (r_r r) (r_theta r) (r_na r) (r_wl r).
Definition with_phase (r : result) (a : array R) : result :=
  mkResult (r_mag r) a (r_mse r) (r_pupil_diff r) (r_mse_diff r) (r_model r) (r_r r) (r_theta r) (r_na r) (r_wl r).
Definition with_model (r : result) (o : obj numeric) : result :=
  mkResult (r_mag r) (r_phase r) (r_mse r) (r_pupil_diff r) (r_mse_diff r) o (r_r r) (r_theta r) (r_na r) (r_wl r).
Fixpoint rewritten (k : nat) (mc pc : list R) (l : list decomposition) : list decomposition :=
  match l, k with
  | [], _ => []
  | d :: l', O => mkZD mc pc (zd_zerns d) :: l'
  | d :: l', S k' => d :: rewritten k' mc pc l'
  end.

Section Life.
Context (lstsq : list (list R) -> list R -> list R).
Definition call (m : method) (s : robj) : res rvalue * robj :=
  match m with
  | Fit n => x_fit lstsq n s
  | Pupil => x_complex_pupil s
  | Psf size zs zr => x_generate_psf size zs zr s
  | ZdPsf sp size zs zr => x_generate_zd_psf sp size zs zr s
  end.
(** what the call returns, and the state after an act *)
Definition reply (m : method) (s : robj) : res rvalue := fst (call m s).
Definition act_on (a : act) (s : robj) : robj :=
  match a with
  | Call m => snd (call m s)
  | Cut m late => if late then snd (call m s) else s
  | OnModel x => mkRobj (with_model (so_res s) (snd (exec numeric Hanser x (r_model (so_res s))))) (so_made s) (so_zd s)
  | SetMag a => mkRobj (with_mag (so_res s) a) (so_made s) (so_zd s)
  | SetPhase a => mkRobj (with_phase (so_res s) a) (so_made s) (so_zd s)
  | EditZD k mc pc => mkRobj (so_res s) (rewritten k mc pc (so_made s)) (so_zd s)
  | PutZD k => if (k <? List.length (so_made s))%nat then mkRobj (so_res s) (so_made s) (Some k) else s
  end.
(** the state after a history *)
Definition after (h : list act) (s : robj) : robj := fold_left (fun s a => act_on a s) h s.

(** In the history [h] from [s], no fit got as far as storing its decomposition. *)
Definition no_fit_stored (h : list act) (s : robj) : Prop :=
  forall h1 a h2 n, h = h1 ++ a :: h2 -> (a = Call (Fit n) \/ a = Cut (Fit n) true) ->
    exists e, fit_to_zernikes lstsq (so_res (after h1 s)) n = Err e.
End Life.
Definition puts_no_zd (h : list act) : Prop := forall k, ~ In (PutZD k) h.
(** The user left the two arrays alone. *)
Definition arrays_kept (h : list act) : Prop := forall a, ~ In (SetMag a) h /\ ~ In (SetPhase a) h.
(** What the history does to result.model, as operations on a HanserPSF. *)
Definition model_ops (h : list act) : list (op numeric) := flat_map (fun a => match a with OnModel x => [x] | _ => [] end) h.

(** The parameters of a HanserPSF with parameters [P] after assigning zsize and zrange where given ([None]: left alone).
    A new zsize makes the planes (i - (zsize + 1) // 2) * zres; a zrange replaces the planes; zres stays. *)
Definition asked (P : params) (zs : option pyval) (zr : option zrange_arg) : params :=
  let planes := match zr with
                | Some (ZScalar z) => Some [z]
                | Some (ZList l) => Some l
                | None => match zs with Some n => gen_range (Some n) (p_zres P) | None => p_zrange P end
                end in
  mkParams (p_wl P) (p_na P) (p_ni P) (p_res P) (p_size P) (p_zres P) (match zs with Some v => Some v | None => p_zsize P end)
    (p_vec_corr P) (p_condition P) (p_dual P) planes.
(** Acceptable as zsize: an int, not negative. *)
Definition refused_zsize (zs : option pyval) : option exn :=
  match zs with
  | Some (VInt n) => if (n <? 0)%Z then Some ValueError else None
  | Some (VBool _) | None => None
  | Some _ => Some TypeError
  end.
(** A PSF from parameters and a pupil (zero frequency first), computed from scratch, brought to [size] pixels. *)
Definition psf_from (P : params) (pupil : array C) (size : option Z) : res (array R) :=
  do a <- scratch numeric Hanser PSFi P (Some pupil); resize (reals a) size.
