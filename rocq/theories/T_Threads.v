(** C96: threads that read the same objects. *)
From Verif Require Import M_PSF S_PSF S_Steps L_PSF L_Steps L_Steps2 L_Threads T_PSF.

Lemma reached_J E c k o0 h m : construct E c k = Ok o0 -> m_obj m = run E c h o0 ->
  J E c (o_attr (m_obj m)) (o_zrange (m_obj m)) (in_force E c h o0 None) m.
Proof.
  intros Hc Hm. destruct (construct_ok E c k o0 Hc) as (Hv & HI & _). split; [reflexivity|]. split; [reflexivity|].
  rewrite Hm. now apply run_inv.
Qed.
Lemma P0_obj E (o : obj E) : P0 E (o_attr o) (o_zrange o) = obj_params o.
Proof. destruct o. reflexivity. Qed.

Section C96.
Context (E : engine) (X : mixture E) (locking : bool) (class_of : nat -> cls).
Context (k : nat -> ctor) (o0 : nat -> obj E) (h : nat -> list (op E)) (objects : nat -> mem E).

(** Any number of objects of both classes, each after any history; any number of threads, each with any list of
    reads; any interleaving of their atomic steps: every read that is completed gives what it would have given alone, which
    is the array for the object's parameters and pupil. *)
Theorem C96_concurrent_reads_are_right :
  lawful E X ->
  (forall x, construct E (class_of x) (k x) = Ok (o0 x)) ->
  (forall x, m_obj (objects x) = run E (class_of x) (h x) (o0 x)) ->
  forall (jobs : list (list (nat * slot))) (sched : list nat) i t x s r,
    nth_error (w_threads (play E X locking class_of sched (start E objects jobs))) i = Some t ->
    In ((x, s), r) (t_log t) ->
    r = fst (read E (class_of x) s (m_obj (objects x))) /\
    r = scratch E (class_of x) s (obj_params (m_obj (objects x))) (in_force E (class_of x) (h x) (o0 x) None).
Proof.
  intros LX Hc Ho jobs sched i t x s r Ht Hr.
  destruct (inv_play E X LX locking class_of (fun x => o_attr (m_obj (objects x))) (fun x => o_zrange (m_obj (objects x)))
              (fun x => in_force E (class_of x) (h x) (o0 x) None) sched (fun _ => []) (start E objects jobs)) as [H' HI].
  { apply inv_start. intros y. now apply (reached_J E _ (k y)). }
  destruct (wi_thr _ _ _ _ _ _ _ HI i t Ht) as [Hl _]. rewrite Forall_forall in Hl. specialize (Hl _ Hr). cbn [fst snd] in Hl.
  unfold right, Qs in Hl. cbn [fst snd] in Hl. rewrite P0_obj in Hl. split; [|exact Hl].
  rewrite Hl. symmetry. rewrite Ho. now apply reachable_reads with (k x).
Qed.

(** Meanwhile and afterwards the objects are as good as untouched: same parameters, and any later read is right. *)
Theorem C96_objects_stay_right :
  lawful E X ->
  (forall x, construct E (class_of x) (k x) = Ok (o0 x)) ->
  (forall x, m_obj (objects x) = run E (class_of x) (h x) (o0 x)) ->
  forall (jobs : list (list (nat * slot))) (sched : list nat) (x : nat),
    let o := m_obj (w_mem (play E X locking class_of sched (start E objects jobs)) x) in
    o_attr o = o_attr (m_obj (objects x)) /\ o_zrange o = o_zrange (m_obj (objects x)) /\
    forall s, fst (read E (class_of x) s o) = fst (read E (class_of x) s (m_obj (objects x))).
Proof.
  intros LX Hc Ho jobs sched x.
  destruct (inv_play E X LX locking class_of (fun x => o_attr (m_obj (objects x))) (fun x => o_zrange (m_obj (objects x)))
              (fun x => in_force E (class_of x) (h x) (o0 x) None) sched (fun _ => []) (start E objects jobs)) as [H' HI].
  { apply inv_start. intros y. now apply (reached_J E _ (k y)). }
  pose proof (wi_mem _ _ _ _ _ _ _ HI x) as (H1 & H2 & H3). cbn zeta. split; [exact H1|]. split; [exact H2|]. intros s.
  transitivity (scratch E (class_of x) s (obj_params (m_obj (objects x))) (in_force E (class_of x) (h x) (o0 x) None)).
  - rewrite (proj1 (read_good E (class_of x) s _ _ H3)). f_equal. unfold obj_params. now rewrite H1, H2.
  - symmetry. rewrite Ho. now apply reachable_reads with (k x).
Qed.

(** No deadlock, whether or not cached_property locks: as long as a thread has not finished, some thread can move. *)
Theorem C96_no_deadlock :
  lawful E X ->
  (forall x, construct E (class_of x) (k x) = Ok (o0 x)) ->
  (forall x, m_obj (objects x) = run E (class_of x) (h x) (o0 x)) ->
  forall (jobs : list (list (nat * slot))) (sched : list nat),
    let w := play E X locking class_of sched (start E objects jobs) in
    forall i t, nth_error (w_threads w) i = Some t -> ~ (t_now t = None /\ t_todo t = []) ->
    exists j w', step E X locking class_of j w = Some w'.
Proof.
  intros LX Hc Ho jobs sched w i t Ht Hf.
  destruct (inv_play E X LX locking class_of (fun x => o_attr (m_obj (objects x))) (fun x => o_zrange (m_obj (objects x)))
              (fun x => in_force E (class_of x) (h x) (o0 x) None) sched (fun _ => []) (start E objects jobs)) as [H' HI].
  { apply inv_start. intros y. now apply (reached_J E _ (k y)). }
  destruct (progress E X locking class_of _ _ _ H' w i t HI Ht Hf) as [q Hq]. exists q.
  destruct (step E X locking class_of q w) as [w'|]; [eauto|congruence].
Qed.
End C96.

(** The threads finish: at most 34 moves for each read are possible, in any schedule and from any objects. *)
Theorem C96_bounded_work :
  forall (E : engine) (X : mixture E) locking class_of objects (jobs : list (list (nat * slot))) (sched : list nat),
    (turns_used E X locking class_of sched (start E objects jobs) <= 34 * List.length (List.concat jobs))%nat.
Proof.
  intros E X locking class_of objects jobs sched.
  assert (G : forall s w n, left_w E w n -> (turns_used E X locking class_of s w <= n)%nat).
  { induction s as [|i s IH]; intros w n Hn; cbn [turns_used]; [lia|]. destruct (step E X locking class_of i w) as [w'|] eqn:Es; [|auto].
    edestruct (left_step E X locking class_of) as (n' & Hn' & Hlt); [..|exact Hn|exact Es|]; try exact (fun _ => None); try exact (fun _ _ => None). specialize (IH w' n' Hn'). lia. }
  apply G. exists (map (fun l => (34 * List.length l)%nat) jobs). split.
  - cbn. induction jobs as [|l jobs IH]; cbn; constructor; auto. constructor.
  - induction jobs as [|l jobs IH]; cbn [List.concat map list_sum fold_right]; [reflexivity|]. rewrite app_length. change (fold_right Nat.add 0%nat ?l) with (list_sum l). lia.
Qed.
(** When no thread can move any more, each has done exactly its reads, in order. *)
Theorem C96_all_reads_done :
  forall (E : engine) (X : mixture E) locking (class_of : nat -> cls) (k : nat -> ctor) (o0 : nat -> obj E) h objects,
    lawful E X ->
    (forall x, construct E (class_of x) (k x) = Ok (o0 x)) ->
    (forall x, m_obj (objects x) = run E (class_of x) (h x) (o0 x)) ->
    forall (jobs : list (list (nat * slot))) (sched : list nat),
    let w := play E X locking class_of sched (start E objects jobs) in
    (forall i, step E X locking class_of i w = None) ->
    map (fun t => rev (map fst (t_log t))) (w_threads w) = jobs.
Proof.
  intros E X locking class_of k o0 h objects LX Hc Ho jobs sched w Hw.
  pose proof (asked_play E X locking class_of sched (start E objects jobs)) as Ha. rewrite asked_start in Ha. fold w in Ha. rewrite <- Ha.
  apply map_ext_in. intros t Ht. unfold asked. apply In_nth_error in Ht. destruct Ht as [i Hi].
  assert (Hd : t_now t = None /\ t_todo t = []).
  { destruct (t_now t) as [p|] eqn:En, (t_todo t) as [|j l] eqn:Et; auto; exfalso;
    (destruct (C96_no_deadlock E X locking class_of k o0 h objects LX Hc Ho jobs sched i t Hi) as (j' & w' & Hj); [rewrite ?En, ?Et; intros [? ?]; discriminate|]);
    fold w in Hj; rewrite Hw in Hj; discriminate. }
  destruct Hd as [-> ->]. cbn. now rewrite app_nil_r.
Qed.
Print Assumptions C96_concurrent_reads_are_right.
Print Assumptions C96_objects_stay_right.
Print Assumptions C96_no_deadlock.
Print Assumptions C96_bounded_work.
Print Assumptions C96_all_reads_done.

(** ** A writer among the readers is not safe, with or without the lock: a read that started before the assignment stores
    its array after it, and the object then gives the array of the old parameters until something is changed. *)
Definition toy_mix : mixture toy :=
  mkMixture toy (fun r P p => Ok (Gen P p)) (fun r P => Ok (T_PSF.O P)).
Lemma toy_lawful : lawful toy toy_mix. Proof. split; reflexivity. Qed.
Definition fresh_mem (E : engine) (o : obj E) : mem E := mkMem o (fun _ => None).
Theorem C96_writer_leaves_stale_array_refuted :
  forall locking : bool, exists n : nat,
    let m0 := fresh_mem toy (made_of toy Hanser) in
    let '(rest, m1) := later toy n (pread toy toy_mix locking Hanser PSFa) m0 in     (* thread 1 reads and loses the processor *)
    let '(r2, m2) := finish toy (passign toy Hanser (SetNum A_wl (VInt 600))) m1 in   (* thread 2 assigns wl *)
    let '(r1, m3) := finish toy rest m2 in                                              (* thread 1 goes on *)
    r2 = Ok tt /\ o_attr (m_obj m3) A_wl = Some (VInt 600) /\
    fst (read toy Hanser PSFa (m_obj m3)) = scratch toy Hanser PSFa (obj_params (m_obj m0)) None /\
    fst (read toy Hanser PSFa (m_obj m3)) <> scratch toy Hanser PSFa (obj_params (m_obj m3)) None.
Proof.
  intros [|]; [exists 13%nat|exists 11%nat]; vm_compute; repeat split; discriminate.
Qed.
Print Assumptions C96_writer_leaves_stale_array_refuted.

(** *** A case: two threads, two objects of different classes, the second object with an applied pupil... *)
Definition two_objects (x : nat) : mem toy :=
  fresh_mem toy (match x with
                 | 0%nat => made_of toy Sheppard
                 | _ => run toy Hanser [Apply toy 5%Z; Read toy OTFi] (made_of toy Hanser)
                 end).
Definition two_classes (x : nat) : cls := match x with 0%nat => Sheppard | _ => Hanser end.
Definition two_histories (x : nat) : list (op toy) := match x with 0%nat => [] | _ => [Apply toy 5%Z; Read toy OTFi] end.
Example C96_case :
  (forall x, construct toy (two_classes x) (kw (two_classes x)) = Ok (made_of toy (two_classes x))) /\
  (forall x, m_obj (two_objects x) = run toy (two_classes x) (two_histories x) (made_of toy (two_classes x))) /\
  let w := play toy toy_mix true two_classes (List.concat (repeat [0%nat; 1%nat] 60))
             (start toy two_objects [[(0%nat, OTFi); (1%nat, PSFi)]; [(0%nat, PSFa); (1%nat, OTFa)]]) in
  map (fun t => (t_now t, t_todo t, List.length (t_log t))) (w_threads w) = [(None, [], 2%nat); (None, [], 2%nat)] /\
  (* half way, thread 1 waits for a lock that thread 0 holds *)
  step toy toy_mix true two_classes 1 (play toy toy_mix true two_classes [0; 0; 0; 0; 0; 0; 0; 0; 0; 1; 1; 1]%nat
             (start toy two_objects [[(0%nat, OTFi); (1%nat, PSFi)]; [(0%nat, PSFa); (1%nat, OTFa)]])) = None.
Proof.
  split; [intros x; apply kw_constructs|]. split; [intros [|x]; reflexivity|]. split; vm_compute; reflexivity.
Qed.
