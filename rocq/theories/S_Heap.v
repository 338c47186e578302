(** Specification vocabulary for programs that use several PSF objects. *)
From Verif Require Export M_Heap S_PSF.

Section Spec.
Context (E : engine).

(** What a user can observe of an object: its attributes, its z range and its cached arrays, as values. *)
Definition view (H : heap E) (l : nat) : option (obj E) :=
  match nth_error (hp_obj E H) l with
  | Some o => Some (mkObj (ho_attr o)
                     (match ho_zrange o with Some r => deref_rng E H r | None => None end)
                     (fun s => match ho_cache o s with Some r => nth_error (hp_arr E H) r | None => None end))
  | None => None
  end.
Definition class_of (H : heap E) (l : nat) : option cls := option_map ho_cls (nth_error (hp_obj E H) l).

(** References that objects hold are to existing arrays of the right kind. *)
Definition obj_ok (H : heap E) (o : hobj) : Prop :=
  (forall r, ho_zrange o = Some r -> exists xs, nth_error (hp_rng E H) r = Some (R1 xs)) /\
  (forall s r, ho_cache o s = Some r -> (r < List.length (hp_arr E H))%nat).
Definition wf (H : heap E) : Prop := forall l o, nth_error (hp_obj E H) l = Some o -> obj_ok H o.

(** One step of a program: the user makes an array, constructs an object, copies one, assigns to or reads from or
    applies a pupil to an object, calls an aberration helper, or generates a PSF from a phase-retrieval result. *)
Inductive step :=
| SNewRange (r : rng)
| SConstruct (c : cls) (k : ctor) (zr : option zarg)
| SCopy (l : nat)
| SAssign (l : nat) (s : hassignment)
| SRead (l : nat) (s : slot)
| SApply (l : nat) (p : pupil E)
| SAberrate (l : nat) (ab : params -> res (option (pupil E)))
| SGenerate (l : nat) (p : pupil E) (zsize : option pyval) (zrange : option zarg).

(** references the user passes exist; objects the user names exist and have the method *)
Definition zarg_ok (H : heap E) (z : zarg) : Prop := match z with ZVal _ => True | ZRef r => (r < List.length (hp_rng E H))%nat end.
Definition legal_step (H : heap E) (x : step) : Prop :=
  match x with
  | SNewRange _ => True
  | SConstruct _ _ zr => forall z, zr = Some z -> zarg_ok H z
  | SCopy l | SRead l _ | SAberrate l _ => (l < List.length (hp_obj E H))%nat
  | SAssign l s => (l < List.length (hp_obj E H))%nat /\ forall z, s = HSetZrange z -> zarg_ok H z
  | SApply l _ => class_of H l = Some Hanser
  | SGenerate l _ _ zr => class_of H l = Some Hanser /\ forall z, zr = Some z -> zarg_ok H z
  end.

Definition drop {A} (m : HM E A) (H : heap E) : res unit * heap E :=
  match m H with (Ok _, H') => (Ok tt, H') | (Err e, H') => (Err e, H') end.
Definition do_step (x : step) (H : heap E) : res unit * heap E :=
  match x with
  | SNewRange r => drop (alloc_rng E r) H
  | SConstruct c k zr => drop (h_construct E c k zr) H
  | SCopy l => drop (h_copy E l) H
  | SAssign l s => match class_of H l with Some c => h_assign E l c s H | None => (Err RuntimeError, H) end
  | SRead l s => match class_of H l with Some c => drop (h_read E l c s) H | None => (Err RuntimeError, H) end
  | SApply l p => h_apply_pupil E l p H
  | SAberrate l ab => drop (h_aberrate E ab l) H
  | SGenerate l p zs zr => drop (h_generate E p zs zr l) H
  end.
Inductive legal : heap E -> list step -> Prop :=
| legal_nil H : legal H []
| legal_cons H x h : legal_step H x -> legal (snd (do_step x H)) h -> legal H (x :: h).
Fixpoint prog (h : list step) (H : heap E) : heap E :=
  match h with [] => H | x :: h' => prog h' (snd (do_step x H)) end.

(** The operations of a program that are addressed to object [l], as value-level operations. *)
Definition as_value (H : heap E) (s : hassignment) : assignment :=
  match s with
  | HSetNum a v => SetNum a v
  | HSetZrange (ZVal z) => SetZrange z
  | HSetZrange (ZRef r) => SetZrange match nth_error (hp_rng E H) r with
                                     | Some (R0 x) => ZScalar x | Some (R1 xs) => ZList xs | None => ZList [] end
  end.
Definition own_op (l : nat) (x : step) (H : heap E) : list (op E) :=
  match x with
  | SAssign l' s => if Nat.eqb l' l then [Assign E (as_value H s)] else []
  | SRead l' s => if Nat.eqb l' l then [Read E s] else []
  | SApply l' p => if Nat.eqb l' l then [Apply E p] else []
  | _ => []
  end.
Fixpoint own_ops (l : nat) (h : list step) (H : heap E) : list (op E) :=
  match h with [] => [] | x :: h' => own_op l x H ++ own_ops l h' (snd (do_step x H)) end.
Definition addressed (l : nat) (x : step) : Prop :=
  match x with SAssign l' _ | SRead l' _ | SApply l' _ => l' = l | _ => False end.
End Spec.
