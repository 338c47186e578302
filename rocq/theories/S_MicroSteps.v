(** Specifications for interrupted operations on microscopes and for threads that read them. *)
From Verif Require Export M_MicroSteps S_Micro S_Steps.
Import M_Array.

(** What a whole read of [m.PSF], [m.OTF], [m.model_psf] gives. *)
Definition answer (x : mquery) (m : micro) : res mview :=
  match x with
  | AskPSF => do a <- fst (m_PSF m); Ok (SeePSF a)
  | AskOTF => do a <- fst (m_OTF m); Ok (SeeOTF a)
  | AskModelPSF => do a <- fst (model_psf m); Ok (SeeModel a)
  end.
(** Everything a user can see of a microscope except its arrays: its own attributes and those of its model and model_exc. *)
Definition alike (m m' : micro) : Prop :=
  mi_kind m = mi_kind m' /\ mi_cls m = mi_cls m' /\ mi_num m = mi_num m' /\ mi_params m = mi_params m' /\ mi_pixel m = mi_pixel m' /\
  mi_orient m = mi_orient m' /\ mi_wiener m = mi_wiener m' /\
  o_attr (mi_model m) = o_attr (mi_model m') /\ o_zrange (mi_model m) = o_zrange (mi_model m') /\
  o_attr (mi_exc m) = o_attr (mi_exc m') /\ o_zrange (mi_exc m) = o_zrange (mi_exc m').

(** Histories in which some reads are broken off after a number of atomic steps. *)
Inductive mievent := MWhole (x : mevent) | MBroken (q : mquery) (n : nat).
(** One event, step by step. *)
Definition mruns (X : mixture numeric) (b : bool) (x : mevent) (s : mmem) : mmem :=
  match x with
  | MSet a v => snd (qfinish (qset a v) s)
  | MModelOp x => put_model (runs numeric X b (mi_cls (q_m s)) x (model_mem s)) s
  | MExcOp x => put_exc (runs numeric X b (mi_cls (q_m s)) x (exc_mem s)) s
  | MReadPSF => snd (qfinish (qPSF X b) s)
  | MReadOTF => snd (qfinish (qOTF X b) s)
  | MReplaceModel _ | MPixel _ | MWiener _ | MOrient _ => mkMMem (mexec x (q_m s)) (q_regs s) (q_xregs s)
  end.
Fixpoint mrun_broken (X : mixture numeric) (b : bool) (h : list mievent) (s : mmem) : mmem :=
  match h with
  | [] => s
  | MWhole x :: h' => mrun_broken X b h' (mruns X b x s)
  | MBroken q n :: h' => mrun_broken X b h' (qcut n (qask X b q) s)
  end.
(** [as_if h h']: [h'] is [h] with every broken read left out, or completed, or (a read of OTF) completed as far as the PSF. *)
Inductive as_if : list mievent -> list mevent -> Prop :=
| as_nil : as_if [] []
| as_whole x h h' : as_if h h' -> as_if (MWhole x :: h) (x :: h')
| as_omitted q n h h' : as_if h h' -> as_if (MBroken q n :: h) h'
| as_psf q n h h' : q <> AskModelPSF -> as_if h h' -> as_if (MBroken q n :: h) (MReadPSF :: h')
| as_otf n h h' : as_if h h' -> as_if (MBroken AskOTF n :: h) (MReadOTF :: h').
(** Histories that make sense for [m]: m.model is only replaced by a model of the same class, and only a confocal has a
    model_exc. *)
Definition sensible (m : micro) (x : mevent) : Prop :=
  match x with MReplaceModel o => reached (mi_cls m) o | MExcOp _ => mi_kind m = Confocal | _ => True end.
Definition sensible_i (m : micro) (x : mievent) : Prop := match x with MWhole y => sensible m y | MBroken _ _ => True end.
(** A microscope in use. *)
Definition in_use (m : micro) : Prop := exists a m0 h, built_from a m0 /\ Forall (sensible m0) h /\ m = mrun h m0.

(** The number of turns in a schedule in which the chosen thread could move. *)
Fixpoint mturns_used (X : mixture numeric) (b : bool) (sched : list nat) (w : mworld) : nat :=
  match sched with
  | [] => 0
  | i :: s => match mstep X b i w with
              | Some w' => S (mturns_used X b s w')
              | None => mturns_used X b s w
              end
  end.
