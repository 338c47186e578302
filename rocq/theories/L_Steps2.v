(** What a program may do at each step, whatever other threads do in between. *)
From Verif Require Export L_Steps.

(** The order in which locks are taken. *)
Definition rank (l : lk) : nat :=
  match l with
  | L_OTFi => 4 | L_PSFi => 3
  | L_own Hanser OTFa => 2 | L_own Hanser PSFa => 1
  | L_own Sheppard PSFa => 2 | L_own Sheppard OTFa => 1
  | _ => 0
  end%nat.

Section G.
Context (E : engine) (X : mixture E) (LX : lawful E X).
Context (c : cls) (A0 : attr -> option pyval) (Z0 : option (list fl)) (g : option (pupil E)).
Notation mem := (mem E).
Notation obj := (obj E).

(** The object keeps its parameters and its arrays are right. *)
Definition J (m : mem) : Prop := o_attr (m_obj m) = A0 /\ o_zrange (m_obj m) = Z0 /\ Inv E c (m_obj m) g.
Definition P0 : params := obj_params (mkObj (E := E) A0 Z0 (fun _ => None)).
Lemma J_params m : J m -> obj_params (m_obj m) = P0.
Proof. destruct m as [[a z k] r]. unfold J, P0, obj_params. cbn. intros (-> & -> & _). reflexivity. Qed.
(** The first [n] registers are right. *)
Definition fresh (n : nat) (m : mem) : Prop := forall i, (i < n)%nat -> m_regs m i = Some P0.

Inductive Good {A} (Q : res A -> Prop) (hend : list lk) : nat -> list lk -> prog E A -> Prop :=
| G_done n r : Q r -> Good Q hend n hend (PDone r)
| G_step n h f k :
    (forall m, J m -> fresh n m ->
       J (f m) /\ (forall i, m_regs m i = Some P0 -> m_regs (f m) i = Some P0) /\
       exists n', fresh n' (f m) /\ Good Q hend n' h (k m)) ->
    Good Q hend n h (PStep f k)
| G_lock n h l k :
    Forall (fun x => (rank l < rank x)%nat) h -> Good Q hend n (l :: h) k -> Good Q hend n h (PLock l k)
| G_unlock n h l k : Good Q hend n h k -> Good Q hend n (l :: h) (PUnlock l k).

Lemma fresh_le n n' m : (n <= n')%nat -> fresh n' m -> fresh n m.
Proof. intros H F i Hi. apply F. lia. Qed.
Lemma Good_mono {A} (Q : res A -> Prop) he n h (p : prog E A) : Good Q he n h p -> forall n', (n <= n')%nat -> Good Q he n' h p.
Proof.
  induction 1 as [n r H|n h f k H|n h l k Hl H IH|n h l k H IH]; intros n' Hn; constructor; auto.
  intros m Hm Hf. destruct (H m Hm (fresh_le n n' m Hn Hf)) as (W1 & W2 & n2 & W3 & W4). eauto.
Qed.

Lemma Good_step_inv {A} (Q : res A -> Prop) he n h f (k : mem -> prog E A) : Good Q he n h (PStep f k) ->
  forall m, J m -> fresh n m -> J (f m) /\ (forall i, m_regs m i = Some P0 -> m_regs (f m) i = Some P0) /\
       exists n', fresh n' (f m) /\ Good Q he n' h (k m).
Proof. intros H. inversion H. subst. assumption. Qed.

(** The induction principle generated for [Good] says nothing inside [G_step]; by recursion on the program instead. *)
Lemma Good_bind {A B} (Qa : res A -> Prop) (Qb : res B -> Prop) he (f : A -> prog E B) (p : prog E A) : forall n h,
  Good Qa he n h p ->
  (forall x, Qa (Ok x) -> Good Qb he 0 he (f x)) -> (forall e, Qa (Err e) -> Qb (Err e)) ->
  Good Qb he n h (pbind E p f).
Proof.
  induction p as [r|gg k IH|l k IH|l k IH]; intros n h H Hx He; inversion H; subst; cbn [pbind].
  - destruct r as [x|e]; [apply Good_mono with 0%nat; [auto|lia]|constructor; auto].
  - constructor. intros m Hm Hf. destruct (Good_step_inv _ _ _ _ _ _ H m Hm Hf) as (W1 & W2 & n2 & W3 & W4).
    eauto 10.
  - constructor; auto.
  - constructor; auto.
Qed.
Lemma Good_release {A} (Q : res A -> Prop) he l (p : prog E A) : forall n h,
  Good Q (l :: he) n h p -> Good Q he n h (release E l p).
Proof.
  induction p as [r|gg k IH|l' k IH|l' k IH]; intros n h H; inversion H; subst; cbn [release].
  - repeat constructor; auto.
  - constructor. intros m Hm Hf. destruct (Good_step_inv _ _ _ _ _ _ H m Hm Hf) as (W1 & W2 & n2 & W3 & W4). eauto 10.
  - constructor; auto.
  - constructor; auto.
Qed.

Lemma J_del s m : (c = Hanser -> g = None) -> J m -> J (w_del E s m).
Proof.
  intros Hg (H1 & H2 & H3 & H4). unfold w_del. split; [exact H1|]. split; [exact H2|]. cbn. split.
  - intros t x. cbn. destruct (slot_eqb s t); [discriminate|]. apply H3.
  - intros Hc Hn. elim Hn. auto.
Qed.
Lemma Good_changed {B} (Q : res B -> Prop) he n h (k : prog E B) : (c = Hanser -> g = None) ->
  Good Q he n h k -> Good Q he n h (pbind E (pchanged E) (fun _ => k)).
Proof.
  intros Hg H. unfold pchanged, pdo, pret. cbn [pbind].
  do 4 (constructor; intros ? ? ?; split; [now apply J_del|split; [auto|exists n; split; [assumption|]]]). exact H.
Qed.
Lemma Good_kr {B} (Q : res B -> Prop) he h (k : prog E B) : forall j n, Good Q he (n + j) h k -> Good Q he n h (pgen_kr E j n k).
Proof.
  induction j as [|j IH]; intros n H; cbn [pgen_kr]; [now rewrite Nat.add_0_r in H|].
  constructor. intros m Hm Hf. split; [exact Hm|]. split.
  - intros i Hi. cbn. destruct (Nat.eqb n i); [now rewrite J_params|exact Hi].
  - exists (S n). split; [|apply IH; now rewrite Nat.add_succ_l, <- Nat.add_succ_r].
    intros i Hi. cbn. destruct (Nat.eqb_spec n i); [now rewrite J_params|]. apply Hf. lia.
Qed.
Lemma Good_gen_psf he p : c = Hanser -> g = None -> Good (fun r => r = e_gen_psf E P0 p) he 0 he (pgen_psf E X p).
Proof.
  intros Hc Hg. unfold pgen_psf. apply Good_changed; auto. apply Good_kr. constructor. intros m Hm Hf. split; [auto|]. split; [auto|].
  exists 0%nat. split; [intros i Hi; lia|]. constructor. rewrite (J_params m Hm). apply (proj1 LX). exact Hf.
Qed.
Lemma Good_gen_otf he : c = Sheppard -> Good (fun r => r = e_gen_otf E P0) he 0 he (pgen_otf E X).
Proof.
  intros Hc. unfold pgen_otf. apply Good_changed; [congruence|]. apply Good_kr. constructor. intros m Hm Hf. split; [auto|]. split; [auto|].
  exists 0%nat. split; [intros i Hi; lia|]. constructor. rewrite (J_params m Hm). apply (proj2 LX). exact Hf.
Qed.

Definition Qs (s : slot) (r : res (arr E)) : Prop := r = scratch E c s P0 g.
Lemma J_store s x m : scratch E c s P0 g = Ok x -> J m -> J (w_store E s x m).
Proof.
  intros Hs Hm. pose proof (J_params m Hm) as Hp. destruct Hm as (H1 & H2 & H3 & H4). split; [exact H1|]. split; [exact H2|]. split.
  - intros t y. cbn. replace (obj_params _) with (obj_params (m_obj m)) by reflexivity. destruct (slot_eqb s t) eqn:Es.
    + intros [= <-]. assert (s = t) as <- by (destruct s, t; try reflexivity; discriminate). now rewrite Hp.
    + intros Hy. change (scratch E c t (obj_params (m_obj m)) g = Ok y). now apply H3.
  - intros Hc Hg. cbn. destruct (slot_eqb s PSFa); [discriminate|auto].
Qed.
Lemma Good_cached b s he compute :
  Forall (fun x => (rank (lock_of c s) < rank x)%nat) he ->
  ((s = PSFa -> c = Hanser -> g = None) -> forall he', (he' = he \/ he' = lock_of c s :: he) -> Good (Qs s) he' 0 he' compute) ->
  Good (Qs s) he 0 he (pcached E b c s compute).
Proof.
  intros Hr Hc. unfold pcached. constructor. intros m Hm _. split; [auto|]. split; [auto|]. exists 0%nat. split; [intros i Hi; lia|].
  assert (Hit : forall he' m x, J m -> o_cache (m_obj m) s = Some x -> Good (Qs s) he' 0 he' (pret E x)).
  { intros he' m' x Hm' Hx. constructor. unfold Qs. rewrite <- (J_params m' Hm'). symmetry. now apply (proj2 (proj2 Hm')). }
  assert (Miss : forall m, J m -> o_cache (m_obj m) s = None -> s = PSFa -> c = Hanser -> g = None).
  { intros m' (_ & _ & _ & H4) Hn -> Hh. destruct g as [q|]; [|reflexivity]. elim (H4 Hh); [discriminate|exact Hn]. }
  assert (Fill : (s = PSFa -> c = Hanser -> g = None) -> forall he', (he' = he \/ he' = lock_of c s :: he) ->
            Good (Qs s) he' 0 he' (pbind E compute (fun x => pdo E (w_store E s x) (pret E x)))).
  { intros Hg he' Hh. apply Good_bind with (Qs s); auto. intros x Hx. constructor. intros m' Hm' _. split; [now apply J_store|]. split; [auto|].
    exists 0%nat. split; [intros i Hi; lia|]. now constructor. }
  destruct (o_cache (m_obj m) s) as [x|] eqn:Ex; [now apply (Hit he m)|].
  destruct b; [|apply Fill; auto; now apply (Miss m)].
  constructor; [exact Hr|]. apply Good_release. constructor. intros m' Hm' _. split; [auto|]. split; [auto|]. exists 0%nat. split; [intros i Hi; lia|].
  destruct (o_cache (m_obj m') s) as [x|] eqn:Ex'; [now apply (Hit _ m')|]. apply Fill; auto. now apply (Miss m').
Qed.
Lemma Good_map s t (f : arr E -> arr E) he p : (forall P, scratch E c s P g = rmap f (scratch E c t P g)) ->
  Good (Qs t) he 0 he p -> Good (Qs s) he 0 he (pbind E p (fun x => pret E (f x))).
Proof.
  intros Hs Hp. apply Good_bind with (Qs t); auto.
  - intros x Hx. constructor. unfold Qs in *. now rewrite Hs, <- Hx.
  - intros e He. unfold Qs in *. now rewrite Hs, <- He.
Qed.
Lemma Good_impl {A} (Q Q' : res A -> Prop) he n h p : (forall r, Q r -> Q' r) -> Good Q he n h p -> Good Q' he n h p.
Proof.
  intros HQ. revert n h. induction p as [r|gg k IH|l' k IH|l' k IH]; intros n h H; inversion H; subst.
  - constructor; auto.
  - constructor. intros m Hm Hf. destruct (Good_step_inv _ _ _ _ _ _ H m Hm Hf) as (W1 & W2 & n2 & W3 & W4). eauto 10.
  - constructor; auto.
  - constructor; auto.
Qed.
Lemma outranked l l' he : (rank l < rank l')%nat -> Forall (fun x => (rank l' < rank x)%nat) he ->
  forall he', (he' = he \/ he' = l' :: he) -> Forall (fun x => (rank l < rank x)%nat) he'.
Proof.
  intros Hl Hf he' [->| ->]; [|constructor; [exact Hl|]]; (eapply Forall_impl; [|exact Hf]; cbn; intros; lia).
Qed.
Lemma Good_PSFa_h b he : c = Hanser -> Forall (fun x => (1 < rank x)%nat) he -> Good (Qs PSFa) he 0 he (pcached E b Hanser PSFa (pgen_psf E X None)).
Proof.
  intros Hc Hr. rewrite <- Hc. apply Good_cached; [rewrite Hc; exact Hr|]. intros Hg he' _. eapply Good_impl; [|apply Good_gen_psf; auto].
  intros r ->. unfold Qs. cbn [scratch]. unfold scratch_PSFa. rewrite Hc, Hg; auto.
Qed.
Lemma Good_OTFa_s b he : c = Sheppard -> Forall (fun x => (1 < rank x)%nat) he -> Good (Qs OTFa) he 0 he (pcached E b Sheppard OTFa (pgen_otf E X)).
Proof.
  intros Hc Hr. rewrite <- Hc. apply Good_cached; [rewrite Hc; exact Hr|]. intros Hg he' _. eapply Good_impl; [|apply Good_gen_otf; auto].
  intros r ->. unfold Qs. cbn [scratch]. now rewrite Hc.
Qed.
Lemma Good_PSFa b he : Forall (fun x => (rank (lock_of c PSFa) < rank x)%nat) he -> Good (Qs PSFa) he 0 he (pread_PSFa E X b c).
Proof.
  intros Hr. assert (c = Hanser \/ c = Sheppard) as [Hc|Hc] by (destruct c; auto).
  - rewrite Hc. apply Good_PSFa_h; auto. now rewrite Hc in Hr.
  - assert (Hp : pread_PSFa E X b c = pcached E b c PSFa (pbind E (pcached E b Sheppard OTFa (pgen_otf E X)) (fun x => pret E (e_ifft3 E x)))) by now rewrite Hc.
    rewrite Hp. apply Good_cached; [exact Hr|]. intros _ he' Hh. apply Good_map with OTFa; [intros P; cbn [scratch]; unfold scratch_PSFa; now rewrite Hc|].
    apply Good_OTFa_s; auto. refine (outranked (L_own Sheppard OTFa) _ he _ Hr he' Hh). rewrite Hc. cbn. lia.
Qed.
Lemma Good_OTFa b he : Forall (fun x => (rank (lock_of c OTFa) < rank x)%nat) he -> Good (Qs OTFa) he 0 he (pread_OTFa E X b c).
Proof.
  intros Hr. assert (c = Hanser \/ c = Sheppard) as [Hc|Hc] by (destruct c; auto).
  - assert (Hp : pread_OTFa E X b c = pcached E b c OTFa (pbind E (pcached E b Hanser PSFa (pgen_psf E X None)) (fun x => pret E (e_fft3 E x)))) by now rewrite Hc.
    rewrite Hp. apply Good_cached; [exact Hr|]. intros _ he' Hh. apply Good_map with PSFa; [intros P; cbn [scratch]; unfold scratch_PSFa; now rewrite Hc|].
    apply Good_PSFa_h; auto. refine (outranked (L_own Hanser PSFa) _ he _ Hr he' Hh). rewrite Hc. cbn. lia.
  - rewrite Hc. apply Good_OTFa_s; auto. now rewrite Hc in Hr.
Qed.
Lemma Good_PSFi b he : Forall (fun x => (3 < rank x)%nat) he -> Good (Qs PSFi) he 0 he (pread_PSFi E X b c).
Proof.
  intros Hr. apply Good_cached; [exact Hr|]. intros _ he' Hh. apply Good_map with PSFa; [reflexivity|]. apply Good_PSFa.
  refine (outranked _ L_PSFi he _ Hr he' Hh). destruct c; cbn; lia.
Qed.
Lemma Good_OTFi b he : Forall (fun x => (4 < rank x)%nat) he -> Good (Qs OTFi) he 0 he (pread_OTFi E X b c).
Proof.
  intros Hr. apply Good_cached; [exact Hr|]. intros _ he' Hh. apply Good_map with PSFi; [reflexivity|]. apply Good_PSFi.
  refine (outranked L_PSFi L_OTFi he _ Hr he' Hh). cbn. lia.
Qed.
Lemma Good_read b s : Good (Qs s) [] 0 [] (pread E X b c s).
Proof. destruct s; cbn [pread]; [apply Good_PSFa|apply Good_OTFa|apply Good_PSFi|apply Good_OTFi]; constructor. Qed.

(** A program interrupted anywhere. *)
Lemma Good_cut {A} (Q : res A -> Prop) he : forall j (p : prog E A) n h m, Good Q he n h p -> fresh n m -> J m -> J (cut E j p m).
Proof.
  induction j as [|j IH]; intros p n h m H Hf Hm; [destruct p; exact Hm|].
  destruct p as [r|f k|l k|l k]; cbn [cut]; auto.
  - destruct (Good_step_inv _ _ _ _ _ _ H m Hm Hf) as (W1 & W2 & n2 & W3 & W4). eapply IH; eauto.
  - inversion H; subst; eapply IH; eauto.
  - inversion H; subst; eapply IH; eauto.
Qed.
End G.
