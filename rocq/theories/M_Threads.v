(** Several threads reading several PSF objects: an interleaving semantics over M_Steps.v. *)
From Verif Require Export M_Steps.
Section T.
Context (E : engine) (X : mixture E).

(** One read: which object, which array. *)
Definition job := (nat * slot)%type.
(** A thread: the read under way (if any), the reads still to do, and the results so far (latest first).  It models a
    Python thread that evaluates [o.PSFi], [p.OTFa], ... one after the other (otf.py:204-212, 429-437, 578-586);
    an exception is recorded as the result of the read and the thread carries on. *)
Record thread := mkThread {
  t_now : option (job * prog E (arr E)); t_todo : list job; t_log : list (job * res (arr E)) }.
(** The world: the objects, the owner of each lock, the threads. *)
Record world := mkWorld {
  w_mem : nat -> mem E; w_owner : lk -> option nat; w_threads : list thread }.

(** Python 3.8 to 3.11 ([true]) or later ([false]), and the class of each object: otf.py:259, 440. *)
Context (locking : bool) (class_of : nat -> cls).

(** replace one element of a list *)
Fixpoint put_nth {A} (i : nat) (x : A) (l : list A) : list A :=
  match l, i with
  | [], _ => []
  | _ :: l, 0%nat => x :: l
  | y :: l, S i => y :: put_nth i x l
  end.
(** update of one object *)
Definition put_mem (i : nat) (m : mem E) (h : nat -> mem E) : nat -> mem E :=
  fun j => if Nat.eqb i j then m else h j.
(** update of one lock *)
Definition put_owner (l : lk) (x : option nat) (h : lk -> option nat) : lk -> option nat :=
  fun l' => if lk_eqb l l' then x else h l'.

(** One step of thread [i]; [None] when it cannot move: it has finished, or it waits for a lock. *)
Definition step (i : nat) (w : world) : option world :=
  match nth_error (w_threads w) i with
  | None => None
  | Some t =>
      let upd t' := put_nth i t' (w_threads w) in
      match t_now t with
      | None =>
          match t_todo t with
          | [] => None
          | j :: todo =>
              Some (mkWorld (w_mem w) (w_owner w)
                      (upd (mkThread (Some (j, pread E X locking (class_of (fst j)) (snd j))) todo (t_log t))))
          end
      | Some (j, p) =>
          match p with
          | PDone r => Some (mkWorld (w_mem w) (w_owner w) (upd (mkThread None (t_todo t) ((j, r) :: t_log t))))
          | PStep f k =>
              let m := w_mem w (fst j) in
              Some (mkWorld (put_mem (fst j) (f m) (w_mem w)) (w_owner w)
                      (upd (mkThread (Some (j, k m)) (t_todo t) (t_log t))))
          | PLock l k =>
              match w_owner w l with
              | Some _ => None
              | None => Some (mkWorld (w_mem w) (put_owner l (Some i) (w_owner w))
                                (upd (mkThread (Some (j, k)) (t_todo t) (t_log t))))
              end
          | PUnlock l k =>
              Some (mkWorld (w_mem w) (put_owner l None (w_owner w))
                      (upd (mkThread (Some (j, k)) (t_todo t) (t_log t))))
          end
      end
  end.
(** A schedule names the thread to move, again and again; a thread that cannot move is passed over. *)
Fixpoint play (sched : list nat) (w : world) : world :=
  match sched with
  | [] => w
  | i :: s => play s (match step i w with Some w' => w' | None => w end)
  end.
(** The start: threads with reads to do, no lock taken. *)
Definition start (objects : nat -> mem E) (jobs : list (list job)) : world :=
  mkWorld objects (fun _ => None) (map (fun l => mkThread None l []) jobs).
End T.
Arguments mkThread {E}. Arguments t_now {E}. Arguments t_todo {E}. Arguments t_log {E}.
Arguments mkWorld {E}. Arguments w_mem {E}. Arguments w_owner {E}. Arguments w_threads {E}.
