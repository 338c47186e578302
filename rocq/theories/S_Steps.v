(** Specifications for interrupted operations and for threads. *)
From Verif Require Export M_Steps M_Threads S_PSF.

Section Spec.
Context (E : engine).

(** A history in which some reads are broken off: [Broken s n] is a read of [s] that is interrupted after [n] atomic
    steps (or completes, when it has no more than [n]). *)
Inductive iop := Whole (x : op E) | Broken (s : slot) (n : nat).
(** the operations that were not interrupted *)
Definition whole_ops (h : list iop) : list (op E) :=
  flat_map (fun x => match x with Whole y => [y] | Broken _ _ => [] end) h.
(** the program of an operation *)
Definition runs (X : mixture E) (b : bool) (c : cls) (x : op E) (m : mem E) : mem E :=
  match x with
  | Assign _ s => snd (finish E (passign E c s) m)
  | Read _ s => snd (finish E (pread E X b c s) m)
  | Apply _ p => match c with Hanser => snd (finish E (papply E X p) m) | Sheppard => m end
  end.
Fixpoint run_broken (X : mixture E) (b : bool) (c : cls) (h : list iop) (m : mem E) : mem E :=
  match h with
  | [] => m
  | Whole x :: h' => run_broken X b c h' (runs X b c x m)
  | Broken s n :: h' => run_broken X b c h' (cut E n (pread E X b c s) m)
  end.

(** A program stopped after [n] steps: what is left of it, and the object at that moment. *)
Fixpoint later {A} (n : nat) (p : prog E A) (m : mem E) : prog E A * mem E :=
  match n, p with
  | S n, PStep f k => later n (k m) (f m)
  | S n, PLock _ k | S n, PUnlock _ k => later n k m
  | _, _ => (p, m)
  end.

(** The number of turns in a schedule in which the chosen thread could move. *)
Fixpoint turns_used (X : mixture E) (b : bool) (class_of : nat -> cls) (sched : list nat) (w : world E) : nat :=
  match sched with
  | [] => 0
  | i :: s => match step E X b class_of i w with
              | Some w' => S (turns_used X b class_of s w')
              | None => turns_used X b class_of s w
              end
  end.
End Spec.

(** Setters that clear the arrays even when the value does not change. *)
Definition always_clears (c : cls) (s : assignment) : bool :=
  match s, c with
  | SetNum A_wl _, _ | SetNum A_na _, _ | SetNum A_ni _, _ | SetNum A_size _, _ => false
  | SetNum A_zsize _, Sheppard => false
  | SetNum A_dual _, Hanser | SetZrange _, Sheppard => false        (* not properties of that class *)
  | _, _ => true
  end.
