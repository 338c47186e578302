(** Specification vocabulary for programs in which the caller also writes into arrays. *)
From Verif Require Export M_Write S_Heap.

Section Spec.
Context (E : engine).

(** An action of the caller: a call of the library, or writing new contents into an array he has a reference to. *)
Inductive act :=
| Call (x : step E)
| WriteArr (r : nat) (a : arr E)
| WriteRng (r : nat) (c : rng).
Definition act_on (x : act) (H : heap E) : heap E :=
  match x with
  | Call x => snd (do_step E x H)
  | WriteArr r a => snd (write_arr E r a H)
  | WriteRng r c => snd (write_rng E r c H)
  end.
(** One writes into arrays that exist; writing does not change the number of dimensions. *)
Definition same_ndim (c c' : rng) : Prop := match c, c' with R0 _, R0 _ | R1 _, R1 _ => True | _, _ => False end.
Definition legal_act (H : heap E) (x : act) : Prop :=
  match x with
  | Call x => legal_step E H x
  | WriteArr r _ => (r < List.length (hp_arr E H))%nat
  | WriteRng r c => exists c0, nth_error (hp_rng E H) r = Some c0 /\ same_ndim c0 c
  end.
Inductive legal_acts : heap E -> list act -> Prop :=
| la_nil H : legal_acts H []
| la_cons H x h : legal_act H x -> legal_acts (act_on x H) h -> legal_acts H (x :: h).
Fixpoint acts (h : list act) (H : heap E) : heap E := match h with [] => H | x :: h' => acts h' (act_on x H) end.

(** The array an object's __dict__ has in a slot; the z range array it has. *)
Definition held (H : heap E) (l : nat) (s : slot) : option nat :=
  match nth_error (hp_obj E H) l with Some d => ho_cache d s | None => None end.
Definition planes (H : heap E) (l : nat) : option nat :=
  match nth_error (hp_obj E H) l with Some d => ho_zrange d | None => None end.
Definition is (r : nat) (o : option nat) : bool := match o with Some r' => Nat.eqb r' r | None => false end.

(** What an action does to one object, as a value: the operations addressed to it, and the new contents of the slots
    that hold the written array. *)
Definition overwrite (hit : slot -> bool) (a : arr E) (o : obj E) : obj E :=
  mkObj (o_attr o) (o_zrange o) (fun s => if hit s then Some a else o_cache o s).
Definition move_planes (xs : list fl) (o : obj E) : obj E := mkObj (o_attr o) (Some xs) (o_cache o).
Definition seen (c : cls) (l : nat) (x : act) (H : heap E) (o : obj E) : obj E :=
  match x with
  | Call x => run E c (own_op E l x H) o
  | WriteArr r a => overwrite (fun s => is r (held H l s)) a o
  | WriteRng r (R1 xs) => if is r (planes H l) then move_planes xs o else o
  | WriteRng r (R0 _) => o
  end.
Fixpoint seen_all (c : cls) (l : nat) (h : list act) (H : heap E) (o : obj E) : obj E :=
  match h with [] => o | x :: h' => seen_all c l h' (act_on x H) (seen c l x H o) end.

(** No two slots of any objects hold one array, except the same slot of two objects (copies). *)
Definition slots_apart (H : heap E) : Prop :=
  forall l l' s s' r, held H l s = Some r -> held H l' s' = Some r -> s = s'.
(** ... or not even those. *)
Definition objects_apart (H : heap E) : Prop :=
  forall l l' s s' r, held H l s = Some r -> held H l' s' = Some r -> l = l'.
(** An action that leaves no copy behind: no copy.copy; a helper call that ran to its end with a pupil to apply. *)
Definition no_copy (H : heap E) (x : act) : Prop :=
  match x with
  | Call (SCopy _ _) => False
  | Call (SAberrate _ l ab) =>
      raised (fst (do_step E (SAberrate E l ab) H)) = false /\ forall o, view E H l = Some o -> ab (obj_params o) <> Ok None
  | Call (SGenerate _ l p zs zr) => raised (fst (do_step E (SGenerate E l p zs zr) H)) = false
  | _ => True
  end.
Inductive no_copies : heap E -> list act -> Prop :=
| nc_nil H : no_copies H []
| nc_cons H x h : no_copy H x -> no_copies (act_on x H) h -> no_copies H (x :: h).
End Spec.
