(** Lemmas about threads that read. *)
From Verif Require Export M_Threads L_Steps2.

Lemma nth_put_same {A} (l : list A) : forall i x, (i < List.length l)%nat -> nth_error (put_nth i x l) i = Some x.
Proof. induction l as [|y l IH]; intros [|i] x H; cbn in *; try lia; auto. apply IH. lia. Qed.
Lemma nth_put_other {A} (l : list A) : forall i j x, i <> j -> nth_error (put_nth i x l) j = nth_error l j.
Proof. induction l as [|y l IH]; intros [|i] [|j] x H; cbn; auto; try congruence. Qed.
Lemma put_length {A} (l : list A) : forall i x, List.length (put_nth i x l) = List.length l.
Proof. induction l as [|y l IH]; intros [|i] x; cbn; auto. Qed.
Lemma nth_lt {A} (l : list A) i x : nth_error l i = Some x -> (i < List.length l)%nat.
Proof. intros H. apply nth_error_Some. congruence. Qed.
Lemma lk_eqb_eq a b : lk_eqb a b = true <-> a = b.
Proof.
  split; [|intros <-; destruct a as [| |[|] []]; reflexivity].
  destruct a as [| |[|] []], b as [| |[|] []]; cbn; intros H; try discriminate; reflexivity.
Qed.

Section T.
Context (E : engine) (X : mixture E) (LX : lawful E X) (b : bool) (class_of : nat -> cls).
Context (A0 : nat -> attr -> option pyval) (Z0 : nat -> option (list fl)) (G0 : nat -> option (pupil E)).
Notation step := (step E X b class_of).
Notation play := (play E X b class_of).
Notation job := job.

Definition right (j : job) (r : res (arr E)) : Prop := Qs E (class_of (fst j)) (A0 (fst j)) (Z0 (fst j)) (G0 (fst j)) (snd j) r.
Definition JJ (x : nat) (m : mem E) : Prop := J E (class_of x) (A0 x) (Z0 x) (G0 x) m.
Definition FF (x : nat) := fresh E (A0 x) (Z0 x).
Definition GG (x : nat) {A} := @Good E (class_of x) (A0 x) (Z0 x) (G0 x) A.

Definition thread_ok (mm : nat -> mem E) (h : list lk) (t : thread E) : Prop :=
  Forall (fun jr => right (fst jr) (snd jr)) (t_log t) /\
  match t_now t with
  | None => h = []
  | Some (j, p) => exists n, GG (fst j) (right j) [] n h p /\ FF (fst j) n (mm (fst j))
  end.
Record WInv (H : nat -> list lk) (w : world E) : Prop := {
  wi_mem : forall x, JJ x (w_mem w x);
  wi_thr : forall i t, nth_error (w_threads w) i = Some t -> thread_ok (w_mem w) (H i) t;
  wi_out : forall i, nth_error (w_threads w) i = None -> H i = [];
  wi_own : forall l i, w_owner w l = Some i <-> In l (H i);
  wi_nodup : forall i, NoDup (H i) }.

Definition put_h (i : nat) (h : list lk) (H : nat -> list lk) : nat -> list lk := fun j => if Nat.eqb i j then h else H j.
Lemma put_h_same i h H : put_h i h H i = h. Proof. unfold put_h. now rewrite Nat.eqb_refl. Qed.
Lemma put_h_other i j h H : i <> j -> put_h i h H j = H j.
Proof. unfold put_h. intros. destruct (Nat.eqb_spec i j); congruence. Qed.

(** a thread is not disturbed by a step of another that keeps right registers right *)
Lemma thread_ok_stable mm mm' h t :
  (forall x i, m_regs (mm x) i = Some (P0 E (A0 x) (Z0 x)) -> m_regs (mm' x) i = Some (P0 E (A0 x) (Z0 x))) ->
  thread_ok mm h t -> thread_ok mm' h t.
Proof.
  intros Hs [Hl Hn]. split; auto. destruct (t_now t) as [[j p]|]; auto. destruct Hn as (n & Hg & Hf). exists n. split; auto.
  intros i Hi. apply Hs. now apply Hf.
Qed.

(** a step that leaves memory and locks alone *)
Lemma inv_local H w i t t' :
  WInv H w -> nth_error (w_threads w) i = Some t -> thread_ok (w_mem w) (H i) t' ->
  WInv H (mkWorld (w_mem w) (w_owner w) (put_nth i t' (w_threads w))).
Proof.
  intros [I1 I2 I3 I4 I5] Ht Ht'. pose proof (nth_lt _ _ _ Ht) as Hlt. constructor; cbn; auto.
  - intros j u Hj. destruct (Nat.eq_dec i j) as [<-|Hne].
    + rewrite nth_put_same in Hj by auto. now injection Hj as <-.
    + rewrite nth_put_other in Hj by auto. now apply I2.
  - intros j Hj. apply I3. destruct (Nat.eq_dec i j) as [<-|Hne].
    + rewrite nth_put_same in Hj by auto. discriminate.
    + now rewrite nth_put_other in Hj.
Qed.

Lemma inv_step H w i w' : WInv H w -> step i w = Some w' -> exists H', WInv H' w'.
Proof.
  intros HI Hs. unfold M_Threads.step in Hs. destruct (nth_error (w_threads w) i) as [t|] eqn:Ht; [|discriminate].
  pose proof (nth_lt _ _ _ Ht) as Hlt. pose proof (wi_thr _ _ HI i t Ht) as [Hlog Hnow].
  destruct (t_now t) as [[j p]|] eqn:Enow.
  - destruct Hnow as (n & Hg & Hf). destruct p as [r|f k|l k|l k].
    + injection Hs as <-. exists H. apply inv_local with t; auto.
      assert (HQ : right j r /\ H i = []) by (inversion Hg; auto). destruct HQ as [HQ Hh]. split; cbn [t_log t_now]; auto.
    + injection Hs as <-.
      destruct (Good_step_inv _ _ _ _ _ _ _ _ _ _ _ Hg (w_mem w (fst j)) (wi_mem _ _ HI (fst j)) Hf) as (W1 & W2 & n2 & W3 & W4).
      destruct HI as [I1 I2 I3 I4 I5].
      assert (St : forall x i, m_regs (w_mem w x) i = Some (P0 E (A0 x) (Z0 x)) ->
                 m_regs (put_mem E (fst j) (f (w_mem w (fst j))) (w_mem w) x) i = Some (P0 E (A0 x) (Z0 x))).
      { intros x q Hq. unfold put_mem. destruct (Nat.eqb_spec (fst j) x) as [<-|]; auto. }
      exists H. constructor; cbn; auto.
      * intros x. unfold put_mem. destruct (Nat.eqb_spec (fst j) x) as [<-|]; [exact W1|apply I1].
      * intros q u Hq. destruct (Nat.eq_dec i q) as [<-|Hne].
        -- rewrite nth_put_same in Hq by auto. injection Hq as <-. split; cbn [t_log t_now]; auto. exists n2. split; auto.
           unfold put_mem. now rewrite Nat.eqb_refl.
        -- rewrite nth_put_other in Hq by auto. eapply thread_ok_stable; [exact St|]. now apply I2.
      * intros q Hq. apply I3. destruct (Nat.eq_dec i q) as [<-|Hne].
        -- rewrite nth_put_same in Hq by auto. discriminate.
        -- now rewrite nth_put_other in Hq.
    + destruct (w_owner w l) eqn:Eo; [discriminate|]. injection Hs as <-. destruct HI as [I1 I2 I3 I4 I5].
      assert (Hin : forall q, ~ In l (H q)) by (intros q Hq; apply I4 in Hq; congruence).
      exists (put_h i (l :: H i) H). constructor; cbn; auto.
      * intros q u Hq. destruct (Nat.eq_dec i q) as [<-|Hne].
        -- rewrite nth_put_same in Hq by auto. injection Hq as <-. rewrite put_h_same. split; cbn [t_log t_now]; auto. exists n. split; auto.
           inversion Hg; auto.
        -- rewrite nth_put_other in Hq by auto. rewrite put_h_other by auto. now apply I2.
      * intros q Hq. destruct (Nat.eq_dec i q) as [<-|Hne].
        -- rewrite nth_put_same in Hq by auto. discriminate.
        -- rewrite nth_put_other in Hq by auto. rewrite put_h_other by auto. auto.
      * intros l' q. unfold put_owner. destruct (lk_eqb l l') eqn:El.
        -- apply lk_eqb_eq in El. subst l'. split.
           ++ intros [= <-]. rewrite put_h_same. now left.
           ++ destruct (Nat.eq_dec i q) as [<-|Hne]; auto. rewrite put_h_other by auto. intros Hq. now elim (Hin q).
        -- rewrite I4. destruct (Nat.eq_dec i q) as [<-|Hne]; [|now rewrite put_h_other]. rewrite put_h_same. cbn. split; auto.
           intros [->|]; auto. pose proof (proj2 (lk_eqb_eq l' l') eq_refl). congruence.
      * intros q. destruct (Nat.eq_dec i q) as [<-|Hne]; [|rewrite put_h_other by auto; auto]. rewrite put_h_same. constructor; auto.
    + injection Hs as <-. destruct HI as [I1 I2 I3 I4 I5].
      assert (Hh : exists h, H i = l :: h /\ GG (fst j) (right j) [] n h k) by (inversion Hg; subst; eauto). destruct Hh as (h & Hh & Hg').
      pose proof (I5 i) as Hnd. rewrite Hh in Hnd. inversion Hnd as [|? ? Hni Hnd']; subst.
      assert (Hq : forall q, i <> q -> ~ In l (H q)).
      { intros q Hne Hq. apply I4 in Hq. assert (w_owner w l = Some i) by (apply I4; rewrite Hh; now left). congruence. }
      exists (put_h i h H). constructor; cbn; auto.
      * intros q u Hu. destruct (Nat.eq_dec i q) as [<-|Hne].
        -- rewrite nth_put_same in Hu by auto. injection Hu as <-. rewrite put_h_same. split; cbn [t_log t_now]; auto. exists n. split; auto.
        -- rewrite nth_put_other in Hu by auto. rewrite put_h_other by auto. now apply I2.
      * intros q Hu. destruct (Nat.eq_dec i q) as [<-|Hne].
        -- rewrite nth_put_same in Hu by auto. discriminate.
        -- rewrite nth_put_other in Hu by auto. rewrite put_h_other by auto. auto.
      * intros l' q. unfold put_owner. destruct (lk_eqb l l') eqn:El.
        -- apply lk_eqb_eq in El. subst l'. split; [discriminate|]. destruct (Nat.eq_dec i q) as [<-|Hne].
           ++ rewrite put_h_same. intros. contradiction.
           ++ rewrite put_h_other by auto. intros Hx. now elim (Hq q).
        -- rewrite I4. destruct (Nat.eq_dec i q) as [<-|Hne]; [|now rewrite put_h_other]. rewrite put_h_same, Hh. cbn. split; auto.
           intros [->|]; auto. pose proof (proj2 (lk_eqb_eq l' l') eq_refl). congruence.
      * intros q. destruct (Nat.eq_dec i q) as [<-|Hne]; [|rewrite put_h_other by auto; auto]. rewrite put_h_same. auto.
  - destruct (t_todo t) as [|j todo] eqn:Etodo; [discriminate|]. injection Hs as <-. exists H. apply inv_local with t; auto.
    split; cbn [t_log t_now]; auto. exists 0%nat. split; [|intros q Hq; lia]. rewrite Hnow. apply Good_read. exact LX.
Qed.
Lemma inv_play s : forall H w, WInv H w -> exists H', WInv H' (play s w).
Proof.
  induction s as [|i s IH]; intros H w HI; cbn [M_Threads.play]; [eauto|]. destruct (step i w) as [w'|] eqn:Es; [|eauto].
  destruct (inv_step H w i w' HI Es) as [H' HI']. eauto.
Qed.
Lemma inv_start objects jobs : (forall x, JJ x (objects x)) -> WInv (fun _ => []) (start E objects jobs).
Proof.
  intros Hj. constructor; cbn; auto.
  - intros i t Hi. rewrite nth_error_map in Hi. destruct (nth_error jobs i); [|discriminate]. injection Hi as <-. split; cbn; auto.
  - intros l i. split; [discriminate|intros []].
  - intros i. constructor.
Qed.

(** Somebody can always move. *)
Definition finished (t : thread E) : Prop := t_now t = None /\ t_todo t = [].
Lemma waits_progress H w : WInv H w -> forall n i t j l k,
  (rank l < n)%nat -> nth_error (w_threads w) i = Some t -> t_now t = Some (j, PLock l k) -> exists q, step q w <> None.
Proof.
  intros HI. induction n as [|n IH]; intros i t j l k Hr Ht Hn; [lia|].
  destruct (w_owner w l) as [q|] eqn:Eo.
  - assert (Hq : In l (H q)) by now apply (wi_own _ _ HI).
    destruct (nth_error (w_threads w) q) as [u|] eqn:Eu; [|rewrite (wi_out _ _ HI q Eu) in Hq; destruct Hq].
    destruct (wi_thr _ _ HI q u Eu) as [_ Hu]. destruct (t_now u) as [[j' p]|] eqn:En; [|rewrite Hu in Hq; destruct Hq].
    destruct Hu as (n' & Hg & _). destruct p as [r|f k'|l' k'|l' k'].
    + assert (Hz : H q = []) by (inversion Hg; auto). rewrite Hz in Hq. destruct Hq.
    + exists q. unfold M_Threads.step. rewrite Eu, En. discriminate.
    + apply (IH q u j' l' k'); auto. inversion Hg; subst. match goal with F : Forall _ _ |- _ => rewrite Forall_forall in F; specialize (F l Hq) end. lia.
    + exists q. unfold M_Threads.step. rewrite Eu, En. discriminate.
  - exists i. unfold M_Threads.step. rewrite Ht, Hn, Eo. discriminate.
Qed.
Lemma progress H w i t : WInv H w -> nth_error (w_threads w) i = Some t -> ~ finished t -> exists q, step q w <> None.
Proof.
  intros HI Ht Hf. destruct (t_now t) as [[j p]|] eqn:En.
  - destruct p as [r|f k|l k|l k]; try (exists i; unfold M_Threads.step; rewrite Ht, En; discriminate).
    eapply waits_progress with (n := S (rank l)); eauto.
  - destruct (t_todo t) as [|j todo] eqn:Et; [elim Hf; now split|]. exists i. unfold M_Threads.step. rewrite Ht, En, Et. discriminate.
Qed.

(** Every read takes a bounded number of steps. *)
Inductive Bounded {A} : nat -> prog E A -> Prop :=
| B_done n r : Bounded n (PDone r)
| B_step n f k : (forall m, Bounded n (k m)) -> Bounded (S n) (PStep f k)
| B_lock n l k : Bounded n k -> Bounded (S n) (PLock l k)
| B_unlock n l k : Bounded n k -> Bounded (S n) (PUnlock l k).
Lemma Bounded_mono {A} (p : prog E A) : forall n n', Bounded n p -> (n <= n')%nat -> Bounded n' p.
Proof.
  induction p as [r|f k IH|l k IH|l k IH]; intros n n' H Hn; inversion H; subst; [constructor|..]; (destruct n' as [|n']; [lia|]); constructor; intros; eapply IH; eauto; lia.
Qed.
Lemma Bounded_bind {A B} (p : prog E A) (f : A -> prog E B) d : (forall x, Bounded d (f x)) -> forall n, Bounded n p -> Bounded (n + d) (pbind E p f).
Proof.
  intros Hf. induction p as [[x|e]|g k IH|l k IH|l k IH]; intros n H; cbn [pbind]; try (inversion H; subst; cbn; constructor; intros; apply IH; auto; fail).
  eapply Bounded_mono; [apply Hf|lia].
Qed.
Lemma Bounded_release {A} l (p : prog E A) : forall n, Bounded n p -> Bounded (S n) (release E l p).
Proof.
  induction p as [r|g k IH|l' k IH|l' k IH]; intros n H; cbn [release]; inversion H; subst; repeat constructor; intros; apply IH; auto.
Qed.
Lemma Bounded_kr {A} (k : prog E A) d : Bounded d k -> forall n i, Bounded (n + d) (pgen_kr E n i k).
Proof. intros H. induction n as [|n IH]; intros i; cbn [pgen_kr]; [exact H|]. constructor. auto. Qed.
Lemma Bounded_changed : Bounded 4 (pchanged E).
Proof. repeat constructor. Qed.
Lemma Bounded_psf p : Bounded 10 (pgen_psf E X p).
Proof. apply (Bounded_bind _ _ 6) with (n := 4%nat); [|apply Bounded_changed]. intros _. refine (Bounded_kr _ 1 _ (n_regs Hanser) 0). repeat constructor. Qed.
Lemma Bounded_otf : Bounded 12 (pgen_otf E X).
Proof. apply (Bounded_bind _ _ 8) with (n := 4%nat); [|apply Bounded_changed]. intros _. refine (Bounded_kr _ 1 _ (n_regs Sheppard) 0). repeat constructor. Qed.
Lemma Bounded_cached c s p n : Bounded n p -> Bounded (n + 5) (pcached E b c s p).
Proof.
  intros H. unfold pcached. replace (n + 5)%nat with (S (n + 4)) by lia. constructor. intros m.
  assert (F : Bounded (n + 1) (pbind E p (fun x => pdo E (w_store E s x) (pret E x)))) by (apply Bounded_bind; auto; repeat constructor).
  destruct (o_cache (m_obj m) s); [constructor|]. destruct b; [|eapply Bounded_mono; [exact F|lia]].
  replace (n + 4)%nat with (S (S (S (n + 1)))) by lia. constructor. apply Bounded_release. constructor. intros m'.
  destruct (o_cache (m_obj m') s); [constructor|exact F].
Qed.
Lemma Bounded_map p n (f : arr E -> arr E) : Bounded n p -> Bounded n (pbind E p (fun x => pret E (f x))).
Proof. intros H. rewrite <- (Nat.add_0_r n). apply Bounded_bind; auto. constructor. Qed.
Lemma Bounded_PSFa c : Bounded 22 (pread_PSFa E X b c).
Proof.
  destruct c; cbn [pread_PSFa].
  - eapply Bounded_mono; [apply Bounded_cached, Bounded_psf|lia].
  - apply (Bounded_cached _ _ _ 17). apply Bounded_map. apply (Bounded_cached _ _ _ 12). apply Bounded_otf.
Qed.
Lemma Bounded_read c s : Bounded 32 (pread E X b c s).
Proof.
  assert (I : Bounded 27 (pread_PSFi E X b c)) by (apply (Bounded_cached _ _ _ 22), Bounded_map, Bounded_PSFa).
  destruct s; cbn [pread].
  - eapply Bounded_mono; [apply Bounded_PSFa|lia].
  - destruct c; cbn [pread_OTFa].
    + eapply Bounded_mono; [apply (Bounded_cached _ _ _ 15), Bounded_map, (Bounded_cached _ _ _ 10), Bounded_psf|lia].
    + eapply Bounded_mono; [apply (Bounded_cached _ _ _ 12), Bounded_otf|lia].
  - eapply Bounded_mono; [exact I|lia].
  - apply (Bounded_cached _ _ _ 27), Bounded_map, I.
Qed.

(** [left w n]: the threads have at most [n] moves left. *)
Inductive left_t : thread E -> nat -> Prop :=
| left_idle todo log : left_t (mkThread None todo log) (34 * List.length todo)
| left_busy j p n todo log : Bounded n p -> left_t (mkThread (Some (j, p)) todo log) (S n + 34 * List.length todo).
Definition left_w (w : world E) (n : nat) : Prop := exists ns, Forall2 left_t (w_threads w) ns /\ n = list_sum ns.
Lemma left_upd ts : forall ns i t t', Forall2 left_t ts ns -> nth_error ts i = Some t ->
  (forall n, left_t t n -> exists n', left_t t' n' /\ (n' < n)%nat) ->
  exists ns', Forall2 left_t (put_nth i t' ts) ns' /\ (list_sum ns' < list_sum ns)%nat.
Proof.
  induction ts as [|u ts IH]; intros ns [|i] t t' Hf Ht Hd; cbn in Ht; try discriminate; inversion Hf as [|? n ? ns0 Hu Hr]; subst; cbn [put_nth].
  - injection Ht as ->. destruct (Hd n Hu) as (n' & Hn' & Hlt). exists (n' :: ns0). split; [constructor; auto|]. cbn. lia.
  - destruct (IH ns0 i t t' Hr Ht Hd) as (ns' & Hf' & Hlt). exists (n :: ns'). split; [constructor; auto|]. cbn. unfold list_sum in Hlt. lia.
Qed.
Lemma left_step w i w' n : left_w w n -> step i w = Some w' -> exists n', left_w w' n' /\ (n' < n)%nat.
Proof.
  intros (ns & Hf & ->) Hs. unfold M_Threads.step in Hs. destruct (nth_error (w_threads w) i) as [t|] eqn:Ht; [|discriminate].
  assert (G : forall t' mm oo, (forall n, left_t t n -> exists n', left_t t' n' /\ (n' < n)%nat) ->
            exists n', left_w (mkWorld mm oo (put_nth i t' (w_threads w))) n' /\ (n' < list_sum ns)%nat).
  { intros t' mm oo Hd. destruct (left_upd _ ns i t t' Hf Ht Hd) as (ns' & H1 & H2). exists (list_sum ns'). split; [exists ns'; auto|exact H2]. }
  destruct t as [[[j p]|] todo log]; cbn [t_now t_todo t_log] in Hs.
  - destruct p as [r|f k|l k|l k]; [..|destruct (w_owner w l); [discriminate|]|]; injection Hs as <-; apply G; intros n Hn; inversion Hn; subst.
    + exists (34 * List.length todo)%nat. split; [constructor|lia].
    + match goal with B : Bounded _ _ |- _ => inversion B; subst end. eexists. split; [constructor; eauto|lia].
    + match goal with B : Bounded _ _ |- _ => inversion B; subst end. eexists. split; [constructor; eauto|lia].
    + match goal with B : Bounded _ _ |- _ => inversion B; subst end. eexists. split; [constructor; eauto|lia].
  - destruct todo as [|j todo]; [discriminate|]. injection Hs as <-. apply G. intros n Hn. inversion Hn; subst.
    exists (S 32 + 34 * List.length todo)%nat. split; [constructor; apply Bounded_read|]. cbn [List.length]. lia.
Qed.
(** what a thread has been asked to do, in order *)
Definition asked (t : thread E) : list job :=
  (rev (map fst (t_log t)) ++ match t_now t with Some (j, _) => [j] | None => [] end ++ t_todo t)%list.
Lemma asked_step w i w' : step i w = Some w' -> map asked (w_threads w') = map asked (w_threads w).
Proof.
  intros Hs. unfold M_Threads.step in Hs. destruct (nth_error (w_threads w) i) as [t|] eqn:Ht; [|discriminate].
  assert (G : forall (ts : list (thread E)) i t', nth_error ts i = Some t -> asked t' = asked t -> map asked (put_nth i t' ts) = map asked ts).
  { induction ts as [|u ts IH]; intros [|q] t' Hq Ha; cbn in *; try discriminate; [injection Hq as ->|]; f_equal; auto. }
  destruct t as [[[j p]|] todo log]; cbn [t_now t_todo t_log] in Hs.
  - destruct p as [r|f k|l k|l k]; [..|destruct (w_owner w l); [discriminate|]|]; injection Hs as <-; cbn [w_threads]; apply G; auto.
    unfold asked; cbn. now rewrite <- app_assoc.
  - destruct todo as [|j todo]; [discriminate|]. injection Hs as <-; cbn [w_threads]. apply G; auto.
Qed.
Lemma asked_play s : forall w, map asked (w_threads (play s w)) = map asked (w_threads w).
Proof.
  induction s as [|i s IH]; intros w; cbn [M_Threads.play]; auto. rewrite IH. destruct (step i w) as [w'|] eqn:Es; auto. eapply asked_step; eauto.
Qed.
Lemma asked_start objects jobs : map asked (w_threads (start E objects jobs)) = jobs.
Proof. cbn. rewrite map_map. rewrite <- (map_id jobs) at 2. apply map_ext. reflexivity. Qed.
End T.
