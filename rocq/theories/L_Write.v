(** Caller writes: views, and who holds which array. *)
From Verif Require Import M_Write S_Write L_Heap.
From Coq Require Import FunctionalExtensionality.

Section L.
Context (E : engine).
Notation heap := (heap E).

Lemma write_arr_wf H r a : wf E H -> wf E (snd (write_arr E r a H)).
Proof. intros W l o Ho. destruct (W l o Ho) as [O1 O2]. split; [exact O1|]. cbn. intros s r' Hr. rewrite replace_length. eauto. Qed.
Lemma write_rng_wf H r c c0 : wf E H -> nth_error (hp_rng E H) r = Some c0 -> same_ndim c0 c -> wf E (snd (write_rng E r c H)).
Proof.
  intros W Hc Hs l o Ho. destruct (W l o Ho) as [O1 O2]. split; [|exact O2]. cbn. intros r' Hr. destruct (O1 r' Hr) as [xs Hx].
  destruct (Nat.eq_dec r' r) as [->|Hne].
  - rewrite Hc in Hx. injection Hx as ->. destruct c as [|ys]; [contradiction|]. exists ys. apply nth_replace_same. apply nth_error_Some. congruence.
  - exists xs. now rewrite nth_replace_other.
Qed.
Lemma write_arr_view H r a l o : wf E H -> (r < List.length (hp_arr E H))%nat -> view E H l = Some o ->
  view E (snd (write_arr E r a H)) l = Some (overwrite E (fun s => is r (held E H l s)) a o).
Proof.
  intros W Hr V. destruct (view_dict' E H l o V) as (d & Hd & ->). unfold view. cbn. rewrite Hd. unfold overwrite, view_of. cbn. f_equal. f_equal.
  apply functional_extensionality. intros s. unfold held. rewrite Hd. destruct (ho_cache d s) as [r'|]; cbn; [|reflexivity].
  destruct (Nat.eqb_spec r' r) as [->|Hne]; [now apply nth_replace_same|now apply nth_replace_other].
Qed.
Lemma write_rng_view H r c c0 l o : wf E H -> nth_error (hp_rng E H) r = Some c0 -> same_ndim c0 c -> view E H l = Some o ->
  view E (snd (write_rng E r c H)) l = Some (match c with R1 xs => if is r (planes E H l) then move_planes E xs o else o | R0 _ => o end).
Proof.
  intros W Hc Hs V. destruct (view_dict' E H l o V) as (d & Hd & ->). unfold view, planes. cbn. rewrite Hd. destruct (W l d Hd) as [O1 O2].
  assert (Hr : (r < List.length (hp_rng E H))%nat) by (apply nth_error_Some; congruence).
  destruct (ho_zrange d) as [r'|] eqn:Ez; cbn [is].
  - destruct (O1 r' eq_refl) as [ys Hy]. destruct (Nat.eqb_spec r' r) as [->|Hne].
    + rewrite Hc in Hy. injection Hy as ->. destruct c as [|xs]; [contradiction|]. unfold move_planes, view_of, deref_rng. cbn. rewrite nth_replace_same by auto. reflexivity.
    + unfold view_of, deref_rng. cbn. rewrite Ez, nth_replace_other by auto. unfold deref_rng. now destruct c.
  - unfold view_of. rewrite Ez. now destruct c.
Qed.

Definition arrs_kept (H H' : heap) : Prop := exists t, hp_arr E H' = hp_arr E H ++ t.
Lemma step_grows x H : wf E H -> legal_step E H x -> grows E H (snd (do_step E x H)).
Proof.
  intros W L. destruct x as [r|k ctr zr|l'|l' s|l' s|l' p|l' ab|l' p zs zr]; cbn [legal_step] in L; cbn [do_step]; rewrite ?drop_snd.
  - split; [exists []; cbn; now rewrite app_nil_r|]. cbn. split; [rewrite app_length; lia|]. intros r1 xs Hx. rewrite nth_error_app1; auto. apply nth_error_Some. congruence.
  - now apply construct_new.
  - destruct (nth_error (hp_obj E H) l') as [d|] eqn:Hd; [|apply nth_error_None in Hd; lia].
    rewrite (copy_eq E H l' d Hd). cbn [snd]. apply (new_spec E H d W (W l' d Hd)).
  - destruct L as [Hl' Kz]. destruct (class_some E H l' Hl') as [c' ->]. destruct (view_some E H l' Hl') as [o' V']. apply (sim_assign E l' c' s (as_value E H s) H o' W V' (conj Kz eq_refl)).
  - destruct (class_some E H l' L) as [c' ->]. rewrite drop_snd. destruct (view_some E H l' L) as [o' V']. apply (sim_read E l' (top E) c' s H o' W V' I).
  - destruct (view_some E H l' (class_lt E _ _ _ L)) as [o' V']. apply (sim_apply E l' (top E) p H o' W V' I).
  - now apply aberrate_new.
  - destruct L as [Hc Kz]. apply generate_new; auto. now apply (class_lt E _ _ _ Hc).
Qed.
Lemma act_wf x H : wf E H -> legal_act E H x -> wf E (act_on E x H).
Proof.
  intros W L. destruct x as [x|r a|r c]; cbn [act_on legal_act] in *.
  - now apply step_wf.
  - now apply write_arr_wf.
  - destruct L as (c0 & Hc & Hs). eapply write_rng_wf; eauto.
Qed.
Lemma act_view x H l c o : wf E H -> legal_act E H x -> view E H l = Some o -> class_of E H l = Some c ->
  wf E (act_on E x H) /\ class_of E (act_on E x H) l = Some c /\ view E (act_on E x H) l = Some (seen E c l x H o).
Proof.
  intros W L V Cl. split; [now apply act_wf|]. destruct x as [x|r a|r k]; cbn [act_on legal_act seen] in *.
  - destruct (step_view E x H l c o W L V Cl) as (_ & _ & _ & A & B & _). auto.
  - split; [exact Cl|]. now apply write_arr_view.
  - destruct L as (c0 & Hc & Hs). split; [exact Cl|]. now apply (write_rng_view H r k c0).
Qed.
Lemma acts_view h : forall H l c o, wf E H -> legal_acts E H h -> view E H l = Some o -> class_of E H l = Some c ->
  wf E (acts E h H) /\ class_of E (acts E h H) l = Some c /\ view E (acts E h H) l = Some (seen_all E c l h H o).
Proof.
  induction h as [|x h IH]; intros H l c o W L V Cl; cbn [acts seen_all]; [auto|].
  inversion L; subst. destruct (act_view x H l c o) as (W1 & C1 & V1); auto.
Qed.
Lemma acts_wf h : forall H, wf E H -> legal_acts E H h -> wf E (acts E h H).
Proof. induction h as [|x h IH]; intros H W L; cbn [acts]; auto. inversion L; subst. apply IH; auto. now apply act_wf. Qed.

(** ** who holds which array *)
Lemma held_lt H l s r : wf E H -> held E H l s = Some r -> (r < List.length (hp_arr E H))%nat.
Proof. unfold held. intros W. destruct (nth_error (hp_obj E H) l) as [d|] eqn:Hd; [|discriminate]. apply (W l d Hd). Qed.

(** what happened to the references of object [l]: each slot is as before, or emptied, or holds an array made since;
    arrays made since are in one slot *)
Definition cstep (l : nat) (H H' : heap) : Prop :=
  (List.length (hp_arr E H) <= List.length (hp_arr E H'))%nat /\
  (forall s, held E H' l s = None \/ held E H' l s = held E H l s \/ exists r, held E H' l s = Some r /\ (List.length (hp_arr E H) <= r)%nat) /\
  (forall s s' r, held E H' l s = Some r -> held E H' l s' = Some r -> (List.length (hp_arr E H) <= r)%nat -> s = s').
Lemma cstep_refl l H : wf E H -> cstep l H H.
Proof. intros W. split; [lia|]. split; [auto|]. intros s s' r A _ Hr. apply held_lt in A; auto. lia. Qed.
Lemma cstep_trans l H1 H2 H3 : wf E H2 -> cstep l H1 H2 -> cstep l H2 H3 -> cstep l H1 H3.
Proof.
  intros W2 (A1 & B1 & C1) (A2 & B2 & C2). split; [lia|]. split.
  - intros s. destruct (B2 s) as [K|[K|(r & K & Hr)]]; [auto| |right; right; exists r; split; [exact K|lia]]. rewrite K. destruct (B1 s) as [K'|[K'|(r & K' & Hr)]]; eauto.
  - intros s s' r K K' Hr.
    destruct (B2 s) as [Q|[Q|(r1 & Q & Hr1)]]; [congruence| |].
    + destruct (B2 s') as [Q'|[Q'|(r2 & Q' & Hr2)]]; [congruence| |].
      * apply (C1 s s' r); congruence || auto.
      * rewrite Q in K. pose proof (held_lt H2 l s r W2 K). assert (r2 = r) by congruence. lia.
    + assert (r1 = r) by congruence. subst. now apply (C2 s s' r).
Qed.
Definition ctame {A} (m : nat) (P : heap -> Prop) (hm : HM E A) : Prop :=
  forall H, wf E H -> (m < List.length (hp_obj E H))%nat -> P H -> wf E (snd (hm H)) /\ local E m H (snd (hm H)) /\ cstep m H (snd (hm H)).
Lemma ctame_bind {A B} m P (hm : HM E A) (f : A -> HM E B) : mono E P -> ctame m P hm -> (forall a, ctame m P (f a)) -> ctame m P (hbind E hm f).
Proof.
  intros HP T1 T2 H W Hl K. destruct (T1 H W Hl K) as (W1 & L1 & S1). unfold hbind. destruct (hm H) as [[a|e] H1]; cbn [snd] in *; [|auto].
  pose proof L1 as (G & Len & O & C). assert (Hl1 : (m < List.length (hp_obj E H1))%nat) by lia.
  destruct (T2 a H1 W1 Hl1 (HP _ _ G K)) as (W2 & L2 & S2). split; [exact W2|]. split; [exact (local_trans E m _ _ _ L1 L2)|]. exact (cstep_trans m _ _ _ W1 S1 S2).
Qed.
Lemma ctame_ret {A} m P (x : A) : ctame m P (hret E x).
Proof. intros H W Hl K. split; [exact W|]. split; [apply local_refl|]. now apply cstep_refl. Qed.
Lemma ctame_raise {A} m P e : ctame m P (@hraise E A e).
Proof. intros H W Hl K. split; [exact W|]. split; [apply local_refl|]. now apply cstep_refl. Qed.
Lemma ctame_lift {A} m P (r : res A) : ctame m P (hlift E r).
Proof. intros H W Hl K. split; [exact W|]. split; [apply local_refl|]. now apply cstep_refl. Qed.
Lemma ctame_if {A} m P (b : bool) (h1 h2 : HM E A) : ctame m P h1 -> ctame m P h2 -> ctame m P (if b then h1 else h2).
Proof. now destruct b. Qed.
Lemma ctame_weaken {A} m (P P' : heap -> Prop) (hm : HM E A) : (forall H, P' H -> P H) -> ctame m P hm -> ctame m P' hm.
Proof. intros HP T H W Hl K. apply T; auto. Qed.
(** an operation that leaves every slot as it was or empty *)
Lemma ctame_tame {A} m P (hm : HM E A) : tame E m P hm ->
  (forall H, wf E H -> (m < List.length (hp_obj E H))%nat -> P H -> forall s, held E (snd (hm H)) m s = None \/ held E (snd (hm H)) m s = held E H m s) -> ctame m P hm.
Proof.
  intros T Q H W Hl K. destruct (T H W Hl K) as [W1 L1]. split; [exact W1|]. split; [exact L1|].
  destruct L1 as (([t G] & _) & _). split; [rewrite G, app_length; lia|]. split.
  - intros s. destruct (Q H W Hl K s); auto.
  - intros s s' r A1 _ Hr. destruct (Q H W Hl K s) as [X|X]; [congruence|]. rewrite X in A1. apply held_lt in A1; auto. lia.
Qed.
Lemma held_update H l d t s : (l < List.length (hp_obj E H))%nat -> held E (mkHeap E (replace l d (hp_obj E H)) (hp_rng E H) t) l s = ho_cache d s.
Proof. intros Hl. unfold held. cbn. now rewrite nth_replace_same. Qed.
Lemma ctame_getattr m P a : ctame m P (h_getattr E m a).
Proof.
  apply ctame_tame; [eapply sim_tame, sim_getattr|]. intros H W Hl _ s. right. unfold h_getattr, hbind, dict.
  destruct (nth_error (hp_obj E H) m) as [d|]; [|reflexivity]. destruct (ho_attr d a); reflexivity.
Qed.
Lemma ctame_setattr m P a v : ctame m P (h_setattr E m a v).
Proof.
  apply ctame_tame; [eapply sim_tame, sim_setattr|]. intros H W Hl _ s. right. unfold h_setattr, hbind, dict.
  destruct (nth_error (hp_obj E H) m) as [d|] eqn:Hd; [|reflexivity]. cbn [update snd]. rewrite held_update by auto. unfold held. now rewrite Hd.
Qed.
Lemma ctame_changed m P : ctame m P (h_changed E m).
Proof.
  apply ctame_tame; [eapply sim_tame, sim_changed|]. intros H W Hl _ s. left. unfold h_changed, hbind, dict.
  destruct (nth_error (hp_obj E H) m) as [d|] eqn:Hd; [|apply nth_error_None in Hd; lia]. cbn [update snd]. now rewrite held_update by auto.
Qed.
Lemma ctame_set_changed m P a v : mono E P -> ctame m P (hbind E (h_setattr E m a v) (fun _ => h_changed E m)).
Proof. intros M. apply ctame_bind; [exact M|apply ctame_setattr|intros _; apply ctame_changed]. Qed.
Lemma ctame_numeric m P a t v : mono E P -> ctame m P (h_numeric_set E m a t v).
Proof.
  intros M H W Hl K. destruct (nth_error (hp_obj E H) m) as [d|] eqn:Hd; [|apply nth_error_None in Hd; lia]. rewrite (numeric_eq E m a t v H d Hd).
  destruct (numeric_decide (ho_attr d a) t v) as [[|]|e]; [now apply ctame_set_changed with (P := P)|exact (ctame_ret m P tt H W Hl K)|exact (@ctame_raise unit m P e H W Hl K)].
Qed.
Ltac cb M := apply ctame_bind; [exact M|first [apply ctame_getattr|apply ctame_lift|apply ctame_changed|apply ctame_setattr]|].
Lemma ctame_base_zres m P v : mono E P -> ctame m P (h_base_zres_set E m v).
Proof. intros M. unfold h_base_zres_set. cb M. intros b. apply ctame_if; [apply ctame_raise|now apply ctame_set_changed]. Qed.
Lemma ctame_res m P v : mono E P -> ctame m P (h_res_set E m v).
Proof. intros M. unfold h_res_set. cb M. intros na. cb M. intros wl. cb M. intros t. cb M. intros abbe. cb M. intros b. apply ctame_if; [apply ctame_raise|now apply ctame_set_changed]. Qed.
Lemma ctame_choice m P a valid v : mono E P -> ctame m P (h_choice_set E m a valid v).
Proof. intros M. unfold h_choice_set. cb M. intros b. apply ctame_if; [apply ctame_raise|now apply ctame_set_changed]. Qed.
Lemma ctame_dual m P v : mono E P -> ctame m P (h_dual_set E m v).
Proof. intros M. unfold h_dual_set. apply ctame_if; [apply ctame_raise|now apply ctame_set_changed]. Qed.
Lemma ctame_sheppard_zres m P v : mono E P -> ctame m P (h_sheppard_zres_set E m v).
Proof. intros M. unfold h_sheppard_zres_set. cb M. intros wl. cb M. intros ni. cb M. intros t. cb M. intros mx. cb M. intros b. apply ctame_if; [apply ctame_raise|now apply ctame_base_zres]. Qed.
Lemma tame_zrange_set m (P : heap -> Prop) z : (forall H, P H -> zarg_ok E H z) -> tame E m P (h_zrange_set E m z).
Proof.
  intros HP H W Hl K. destruct (view_some E H m Hl) as [o V]. destruct (sim_zrange_set E m z (zval E H z) H o W V (conj (HP H K) eq_refl)) as (A1 & A2 & _). auto.
Qed.
Lemma ctame_zrange_set m (P : heap -> Prop) z : (forall H, P H -> zarg_ok E H z) -> ctame m P (h_zrange_set E m z).
Proof.
  intros HP. apply ctame_tame; [now apply tame_zrange_set|]. intros H W Hl K s. left. specialize (HP H K).
  destruct (nth_error (hp_obj E H) m) as [d|] eqn:Hd; [|apply nth_error_None in Hd; lia].
  assert (exists H1 r, asarray E z H = (Ok r, H1) /\ hp_obj E H1 = hp_obj E H) as (H1 & r & EA & EO) by (destruct z as [[x|xs]|r]; do 2 eexists; split; reflexivity).
  unfold h_zrange_set, hbind. rewrite EA. unfold dict at 1. rewrite EO, Hd. unfold update at 1. cbn [hp_rng hp_obj hp_arr].
  assert (F : forall H2 : heap, (m < List.length (hp_obj E H2))%nat -> held E (snd (h_changed E m H2)) m s = None).
  { intros H2 Hl2. unfold h_changed, hbind, dict. destruct (nth_error (hp_obj E H2) m) eqn:Hd2; [|apply nth_error_None in Hd2; lia]. cbn [update snd]. now rewrite held_update by auto. }
  destruct (nth_error (hp_rng E H1) r) as [[x|xs]|]; cbn [write_rng]; apply F; cbn; now rewrite replace_length, EO.
Qed.
Lemma ctame_gen_zrange m P : mono E P -> ctame m P (h_gen_zrange E m).
Proof. intros M. unfold h_gen_zrange. cb M. intros zs. cb M. intros zr. apply ctame_zrange_set. intros H _. exact I. Qed.
Lemma ctame_ignore m P hm : ctame m P hm -> ctame m P (h_ignore E hm).
Proof.
  intros T H W Hl K. specialize (T H W Hl K). unfold h_ignore. destruct (hm H) as [[[]|e] H']; [exact T|]. destruct e; exact T.
Qed.
Lemma ctame_assign m (P : heap -> Prop) c s : mono E P -> (forall H z, P H -> s = HSetZrange z -> zarg_ok E H z) -> ctame m P (h_assign E m c s).
Proof.
  intros M HP. destruct s as [a v|z]; cbn [h_assign].
  - destruct a, c; first [now apply ctame_numeric|now apply ctame_res|now apply ctame_choice|now apply ctame_dual|now apply ctame_sheppard_zres|apply ctame_ret|idtac].
    + apply ctame_bind; [exact M|now apply ctame_base_zres|intros _; now apply ctame_ignore, ctame_gen_zrange].
    + apply ctame_bind; [exact M|now apply ctame_numeric|intros _; now apply ctame_ignore, ctame_gen_zrange].
  - destruct c; [|apply ctame_ret]. apply ctame_zrange_set. intros H K. now apply (HP H z K).
Qed.

(** computing an array: the result is new, nothing holds it *)
Definition makes (m : nat) (P : heap -> Prop) (hm : HM E nat) : Prop :=
  ctame m P hm /\ forall H r H', wf E H -> (m < List.length (hp_obj E H))%nat -> P H -> hm H = (Ok r, H') ->
    (List.length (hp_arr E H) <= r < List.length (hp_arr E H'))%nat /\ forall s, held E H' m s <> Some r.
(** the last array of a heap that was just extended is held by nobody *)
Lemma alloc_ctame m P a : ctame m P (alloc_arr E a).
Proof.
  apply ctame_tame; [eapply sim_tame, (alloc_sim E m P a)|]. intros H W Hl _ s. now right.
Qed.
Lemma alloc_fresh m H a r H' : wf E H -> alloc_arr E a H = (Ok r, H') ->
  (List.length (hp_arr E H) <= r < List.length (hp_arr E H'))%nat /\ forall s, held E H' m s <> Some r.
Proof.
  intros W [= <- <-]. cbn. rewrite app_length. cbn. split; [lia|]. intros s K. assert (K' : held E H m s = Some (List.length (hp_arr E H))) by exact K.
  apply held_lt in K'; auto. lia.
Qed.
Lemma makes_alloc {A} m (P : heap -> Prop) (hm : HM E A) (f : A -> HM E nat) :
  mono E P -> ctame m P hm -> (forall a, makes m P (f a)) -> makes m P (hbind E hm f).
Proof.
  intros M T F. split; [apply ctame_bind; auto; intros a; apply F|]. intros H r H' W Hl K. unfold hbind. destruct (T H W Hl K) as (W1 & L1 & (N1 & _)). destruct (hm H) as [[a|e] H1]; [|discriminate]. cbn [snd] in *.
  pose proof L1 as (G & Len & _). intros Q. destruct (proj2 (F a) H1 r H' W1 ltac:(lia) (M _ _ G K) Q) as [R1 R2]. split; [lia|exact R2].
Qed.
Lemma makes_ret m P a : makes m P (alloc_arr E a).
Proof. split; [apply alloc_ctame|]. intros H r H' W Hl K. now apply alloc_fresh. Qed.
Lemma makes_lift m P (x : res (arr E)) : mono E P -> makes m P (hbind E (hlift E x) (alloc_arr E)).
Proof. intros M. apply makes_alloc; [exact M|apply ctame_lift|intros a; apply makes_ret]. Qed.
Lemma ctame_params m P : ctame m P (h_params E m).
Proof. apply ctame_tame; [apply tame_params|]. intros H W Hl _ s. right. unfold h_params. now destruct (nth_error (hp_obj E H) m). Qed.
Lemma makes_gen_psf m P p : mono E P -> makes m P (h_gen_psf E m p).
Proof. intros M. apply makes_alloc; [exact M|apply ctame_changed|intros _]. apply makes_alloc; [exact M|apply ctame_params|intros Q]. now apply makes_lift. Qed.
Lemma makes_gen_otf m P : mono E P -> makes m P (h_gen_otf E m).
Proof. intros M. apply makes_alloc; [exact M|apply ctame_changed|intros _]. apply makes_alloc; [exact M|apply ctame_params|intros Q]. now apply makes_lift. Qed.
Lemma makes_map m P f hm : mono E P -> ctame m P hm -> makes m P (h_map E f hm).
Proof.
  intros M T. apply makes_alloc; auto. intros r. split.
  - intros H W Hl K. destruct (nth_error (hp_arr E H) r) as [a|]; [exact (alloc_ctame m P (f a) H W Hl K)|]. split; [exact W|]. split; [apply local_refl|]. now apply cstep_refl.
  - intros H r' H' W Hl K. destruct (nth_error (hp_arr E H) r) as [a|]; [|discriminate]. now apply alloc_fresh.
Qed.
(** storing a new array *)
Lemma set_cache_held H l s r : (l < List.length (hp_obj E H))%nat ->
  fst (h_set_cache E l s r H) = Ok tt /\ hp_arr E (snd (h_set_cache E l s r H)) = hp_arr E H /\
  forall t, held E (snd (h_set_cache E l s r H)) l t = if slot_eqb s t then Some r else held E H l t.
Proof.
  intros Hl. unfold h_set_cache, hbind, dict, held. destruct (nth_error (hp_obj E H) l) as [d|] eqn:Hd; [|apply nth_error_None in Hd; lia]. cbn. split; [reflexivity|]. split; [reflexivity|].
  intros t. now rewrite nth_replace_same by auto.
Qed.
Lemma set_cache_local H l s r : wf E H -> (l < List.length (hp_obj E H))%nat -> (r < List.length (hp_arr E H))%nat ->
  wf E (snd (h_set_cache E l s r H)) /\ local E l H (snd (h_set_cache E l s r H)).
Proof.
  intros W Hl Hr. destruct (view_some E H l Hl) as [o V]. destruct (nth_error (hp_arr E H) r) as [x|] eqn:Hx; [|apply nth_error_None in Hx; lia].
  destruct (sim_set_cache E l s r x H o W V Hx) as (A & B & _). auto.
Qed.
Lemma slot_eqb_spec s t : reflect (s = t) (slot_eqb s t).
Proof. destruct s, t; constructor; congruence. Qed.
(** compute, store, hand out *)
Lemma store_spec m P s hm H : makes m P hm -> wf E H -> (m < List.length (hp_obj E H))%nat -> P H ->
  let k := hbind E hm (fun r => hbind E (h_set_cache E m s r) (fun _ => hret E r)) in
  wf E (snd (k H)) /\ local E m H (snd (k H)) /\ cstep m H (snd (k H)) /\
  forall r H', k H = (Ok r, H') -> held E H' m s = Some r /\ (List.length (hp_arr E H) <= r)%nat.
Proof.
  intros [T F] W Hl K. cbv zeta. unfold hbind at 1 3 5 7. destruct (T H W Hl K) as (W1 & L1 & S1). specialize (F H). destruct (hm H) as [[r|e] H1] eqn:Eh; cbn [snd] in *.
  2:{ repeat (split; [assumption|]). discriminate. }
  destruct (F r H1 W Hl K eq_refl) as [R1 R2]. pose proof L1 as (G & Len & _). assert (Hl1 : (m < List.length (hp_obj E H1))%nat) by lia.
  destruct (set_cache_held H1 m s r Hl1) as (E1 & E2 & E3). destruct (set_cache_local H1 m s r W1 Hl1 ltac:(lia)) as [W2 L2].
  unfold hbind, hret. destruct (h_set_cache E m s r H1) as [[[]|e] H2]; [|discriminate]. cbn [fst snd] in *.
  split; [exact W2|]. split; [eapply local_trans; eauto|]. split.
  - destruct S1 as (A & B & C). split; [rewrite E2; exact A|]. split.
    + intros t. rewrite E3. destruct (slot_eqb s t); [|apply B]. right. right. exists r. split; [reflexivity|lia].
    + intros t t' r'. rewrite !E3. destruct (slot_eqb_spec s t) as [e1|], (slot_eqb_spec s t') as [e2|]; intros Q Q' Hr.
      * congruence.
      * injection Q as <-. now apply R2 in Q'.
      * injection Q' as <-. now apply R2 in Q.
      * eauto.
  - intros r' H' [= <- <-]. rewrite E3. split; [destruct (slot_eqb_spec s s); [reflexivity|congruence]|lia].
Qed.
Lemma ctame_cached m P s hm : makes m P hm -> ctame m P (h_cached E m s hm).
Proof.
  intros T H W Hl K. destruct (nth_error (hp_obj E H) m) as [d|] eqn:Hd; [|apply nth_error_None in Hd; lia]. rewrite (cached_eq E m s hm H d Hd).
  destruct (ho_cache d s) as [r|]; [exact (ctame_ret m P r H W Hl K)|]. destruct (store_spec m P s hm H T W Hl K) as (A & B & C & _). auto.
Qed.
(** reading: what comes back is what the object holds from then on; if it held nothing, the array is new *)
Definition hands_out (m : nat) (s : slot) (hm : HM E nat) : Prop :=
  ctame m (top E) hm /\ forall H r H', wf E H -> (m < List.length (hp_obj E H))%nat -> hm H = (Ok r, H') ->
    held E H' m s = Some r /\ (forall r0, held E H m s = Some r0 -> r = r0 /\ H' = H) /\ (held E H m s = None -> (List.length (hp_arr E H) <= r)%nat).
Lemma hands_cached m s hm : makes m (top E) hm -> hands_out m s (h_cached E m s hm).
Proof.
  intros T. split; [now apply ctame_cached|]. intros H r H' W Hl.
  destruct (nth_error (hp_obj E H) m) as [d|] eqn:Hd; [|apply nth_error_None in Hd; lia]. rewrite (cached_eq E m s hm H d Hd).
  destruct (store_spec m (top E) s hm H T W Hl I) as (_ & _ & _ & F). unfold held at 2 3. rewrite Hd.
  destruct (ho_cache d s) as [r0|] eqn:Ec.
  - intros [= <- <-]. unfold held. rewrite Hd. split; [exact Ec|]. split; [intros ? [= <-]; auto|discriminate].
  - intros Q. destruct (F r H' Q) as [A B]. split; [exact A|]. split; [discriminate|auto].
Qed.
Lemma hands_read m c s : hands_out m s (h_read E m c s).
Proof.
  assert (P1 : hands_out m PSFa (h_read_PSFa_h E m)) by (apply hands_cached, makes_gen_psf, mono_top).
  assert (P2 : hands_out m OTFa (h_read_OTFa_s E m)) by (apply hands_cached, makes_gen_otf, mono_top).
  assert (P3 : hands_out m PSFa (h_read_PSFa E m c)) by (destruct c; [exact P1|apply hands_cached, makes_map; [apply mono_top|apply P2]]).
  assert (P4 : hands_out m OTFa (h_read_OTFa E m c)) by (destruct c; [apply hands_cached, makes_map; [apply mono_top|apply P1]|exact P2]).
  assert (P5 : hands_out m PSFi (h_read_PSFi E m c)) by (apply hands_cached, makes_map; [apply mono_top|apply P3]).
  destruct s; cbn [h_read]; [exact P3|exact P4|exact P5|apply hands_cached, makes_map; [apply mono_top|apply P5]].
Qed.
End L.

Section Inv.
Context (E : engine).
Notation heap := (heap E).
Lemma held_same H H' l s : nth_error (hp_obj E H') l = nth_error (hp_obj E H) l -> held E H' l s = held E H l s.
Proof. unfold held. now intros ->. Qed.
Lemma held_obj H l s r : held E H l s = Some r -> (l < List.length (hp_obj E H))%nat.
Proof. unfold held. destruct (nth_error (hp_obj E H) l) eqn:Hd; [|discriminate]. intros _. apply nth_error_Some. congruence. Qed.

(** a call that only touches object [l], and stores new arrays *)
Lemma apart_local H H' l : wf E H -> local E l H H' -> cstep E l H H' ->
  (slots_apart E H -> slots_apart E H') /\ (objects_apart E H -> objects_apart E H').
Proof.
  intros W (G & Len & Oth & _) (N & B & C).
  assert (OLD : forall l1 s r, held E H' l1 s = Some r -> l1 <> l -> held E H l1 s = Some r) by (intros l1 s r K Hn; now rewrite <- (held_same H H' l1 s (Oth l1 Hn))).
  assert (LOW : forall s r, held E H' l s = Some r -> (r < List.length (hp_arr E H))%nat -> held E H l s = Some r).
  { intros s r K Hr. destruct (B s) as [Q|[Q|(r' & Q & Hr')]]; [congruence|congruence|]. assert (r' = r) by congruence. lia. }
  split; intros A l1 l2 s1 s2 r K1 K2.
  - destruct (Nat.eq_dec l1 l) as [->|H1], (Nat.eq_dec l2 l) as [->|H2].
    + destruct (Nat.lt_ge_cases r (List.length (hp_arr E H))); [|eauto]. apply (A l l s1 s2 r); auto.
    + specialize (OLD l2 s2 r K2 H2). pose proof (held_lt E H l2 s2 r W OLD) as L. apply (A l l2 s1 s2 r); auto.
    + specialize (OLD l1 s1 r K1 H1). pose proof (held_lt E H l1 s1 r W OLD) as L. apply (A l1 l s1 s2 r); auto.
    + apply (A l1 l2 s1 s2 r); auto.
  - destruct (Nat.eq_dec l1 l) as [->|H1], (Nat.eq_dec l2 l) as [->|H2]; auto.
    + specialize (OLD l2 s2 r K2 H2). pose proof (held_lt E H l2 s2 r W OLD) as L. apply (A l l2 s1 s2 r); auto.
    + specialize (OLD l1 s1 r K1 H1). pose proof (held_lt E H l1 s1 r W OLD) as L. apply (A l1 l s1 s2 r); auto.
    + apply (A l1 l2 s1 s2 r); auto.
Qed.
(** a new object with the slots of [d] *)
Lemma held_new H d l s : held E (with_new E H d) l s =
  if Nat.eqb l (List.length (hp_obj E H)) then ho_cache d s else held E H l s.
Proof.
  unfold held, with_new. cbn. destruct (Nat.eqb_spec l (List.length (hp_obj E H))) as [->|Hn].
  - now rewrite nth_error_app2, Nat.sub_diag by lia.
  - destruct (Nat.lt_ge_cases l (List.length (hp_obj E H))); [now rewrite nth_error_app1|].
    rewrite (proj2 (nth_error_None _ _)) by (rewrite app_length; cbn; lia). now rewrite (proj2 (nth_error_None _ _)) by lia.
Qed.
Lemma apart_copy H l d : nth_error (hp_obj E H) l = Some d -> slots_apart E H -> slots_apart E (with_new E H d).
Proof.
  intros Hd A l1 l2 s1 s2 r. rewrite !held_new. assert (Q : forall s, held E H l s = ho_cache d s) by (intros s; unfold held; now rewrite Hd).
  rewrite <- !Q. destruct (Nat.eqb l1 _), (Nat.eqb l2 _); intros K1 K2; eauto.
Qed.
Lemma apart_blank H c : (slots_apart E H -> slots_apart E (with_new E H (blank c))) /\ (objects_apart E H -> objects_apart E (with_new E H (blank c))).
Proof.
  split; intros A l1 l2 s1 s2 r; rewrite !held_new; destruct (Nat.eqb l1 _), (Nat.eqb l2 _); cbn; try discriminate; eauto.
Qed.
(** a copy whose slots were all emptied or filled anew *)
Definition renewed (n m : nat) (H : heap) : Prop := forall s r, held E H m s = Some r -> (n <= r)%nat.
Lemma apart_renewed H d H' : let m := List.length (hp_obj E H) in wf E H -> wf E (with_new E H d) -> local E m (with_new E H d) H' ->
  renewed (List.length (hp_arr E H)) m H' -> objects_apart E H -> objects_apart E H'.
Proof.
  cbv zeta. set (m := List.length (hp_obj E H)). intros W W1 (G & Len & Oth & _) R A.
  assert (OLD : forall l s r, held E H' l s = Some r -> l <> m -> held E H l s = Some r /\ (r < List.length (hp_arr E H))%nat).
  { intros l s r K Hn. rewrite (held_same (with_new E H d) H' l s (Oth l Hn)), held_new in K. fold m in K. destruct (Nat.eqb_spec l m); [contradiction|]. split; [exact K|]. eapply held_lt; eauto. }
  intros l1 l2 s1 s2 r K1 K2. destruct (Nat.eq_dec l1 m) as [->|H1], (Nat.eq_dec l2 m) as [->|H2]; auto.
  - destruct (OLD _ _ _ K2 H2). specialize (R _ _ K1). lia.
  - destruct (OLD _ _ _ K1 H1). specialize (R _ _ K2). lia.
  - apply (A l1 l2 s1 s2 r); now apply OLD.
Qed.
Definition renews {A} (m : nat) (P : heap -> Prop) (hm : HM E A) : Prop :=
  ctame E m P hm /\ forall H a, wf E H -> (m < List.length (hp_obj E H))%nat -> P H -> fst (hm H) = Ok a -> renewed (List.length (hp_arr E H)) m (snd (hm H)).
Lemma renews_changed m P : renews m P (h_changed E m).
Proof.
  split; [apply ctame_changed|]. intros H a W Hl _ _ s r. unfold h_changed, hbind, dict.
  destruct (nth_error (hp_obj E H) m) as [d|] eqn:Hd; [|apply nth_error_None in Hd; lia]. cbn [update snd]. rewrite held_update by auto. discriminate.
Qed.
Lemma renews_left {A B} m P (hm : HM E A) (f : A -> HM E B) : mono E P -> renews m P hm -> (forall a, ctame E m P (f a)) -> renews m P (hbind E hm f).
Proof.
  intros M [T R] F. split; [now apply ctame_bind|]. intros H b W Hl K. unfold hbind. destruct (T H W Hl K) as (W1 & L1 & _). specialize (R H).
  destruct (hm H) as [[a|e] H1]; [|discriminate]. cbn [fst snd] in *. pose proof L1 as (G & Len & _). specialize (R a W Hl K eq_refl).
  destruct (F a H1 W1 ltac:(lia) (M _ _ G K)) as (W2 & _ & (N & B0 & _)). intros _ s r Q. destruct (B0 s) as [X|[X|(r' & X & Hr)]]; [congruence| |].
  - apply (R s). congruence.
  - assert (r' = r) by congruence. subst. destruct G as ([t Gt] & _). rewrite Gt, app_length in Hr. lia.
Qed.
Lemma renews_right {A B} m P (hm : HM E A) (f : A -> HM E B) : mono E P -> ctame E m P hm -> (forall a, renews m P (f a)) -> renews m P (hbind E hm f).
Proof.
  intros M T F. split; [apply ctame_bind; auto; intros a; apply F|]. intros H b W Hl K. unfold hbind. destruct (T H W Hl K) as (W1 & L1 & _).
  destruct (hm H) as [[a|e] H1]; [|discriminate]. cbn [fst snd] in *. pose proof L1 as (G & Len & _). intros Q s r X.
  pose proof (proj2 (F a) H1 b W1 ltac:(lia) (M _ _ G K) Q s r X). destruct G as ([t Gt] & _). rewrite Gt, app_length in *. lia.
Qed.
Lemma mono_conj (P : heap -> Prop) : mono E P -> mono E P. Proof. auto. Qed.
Lemma ctame_gen_store m P p : mono E P -> ctame E m P (hbind E (h_gen_psf E m p) (fun r => h_set_cache E m PSFa r)).
Proof.
  intros M H W Hl K.
  pose proof (store_spec E m P PSFa _ H (makes_gen_psf E m P p M) W Hl K) as S. cbv zeta in S. destruct S as (A & B & C & _).
  assert (EQ : snd (hbind E (h_gen_psf E m p) (fun r => hbind E (h_set_cache E m PSFa r) (fun _ => hret E r)) H) =
               snd (hbind E (h_gen_psf E m p) (fun r => h_set_cache E m PSFa r) H)).
  { unfold hbind at 1 3. destruct (h_gen_psf E m p H) as [[r|e] H1]; [|reflexivity]. unfold hbind at 1. now destruct (h_set_cache E m PSFa r H1) as [[]]. }
  rewrite EQ in A, B, C. auto.
Qed.
Lemma renews_apply m P p : mono E P -> renews m P (h_apply_pupil E m p).
Proof. intros M. apply renews_left; [exact M|apply renews_changed|]. intros _. now apply ctame_gen_store. Qed.

Lemma aberrate_apart H l ab : wf E H -> (l < List.length (hp_obj E H))%nat ->
  let H' := snd (h_aberrate E ab l H) in
  (slots_apart E H -> slots_apart E H') /\
  ((exists m, fst (h_aberrate E ab l H) = Ok m) -> (forall o, view E H l = Some o -> ab (obj_params o) <> Ok None) -> objects_apart E H -> objects_apart E H').
Proof.
  intros W Hl. cbv zeta. destruct (nth_error (hp_obj E H) l) as [d|] eqn:Hd; [|apply nth_error_None in Hd; lia].
  unfold h_aberrate. rewrite (bind_ok E _ _ H (ho_cls d) H) by (unfold h_cls, hbind, dict; now rewrite Hd).
  destruct (ho_cls d); [|cbn; auto].
  rewrite (bind_ok E _ _ H _ _ (copy_eq E H l d Hd)). set (m := List.length (hp_obj E H)).
  destruct (new_spec E H d W (W l d Hd)) as (W1 & G1 & N1). fold m in N1.
  assert (Hm : (m < List.length (hp_obj E (with_new E H d)))%nat) by (cbn; rewrite app_length; cbn; lia).
  assert (V1 : view E (with_new E H d) m = Some (view_of E H d)) by (unfold view; rewrite N1; reflexivity).
  rewrite (bind_ok E _ _ _ _ _ (params_val E m _ _ V1)). unfold hbind at 1 3 5, hlift.
  assert (V0 : view E H l = Some (view_of E H d)) by (unfold view; rewrite Hd; reflexivity).
  destruct (ab (obj_params (view_of E H d))) as [[p|]|e] eqn:Eab.
  - assert (R : renews m (top E) (hbind E (h_apply_pupil E m p) (fun _ => hret E m))) by (apply renews_left; [apply mono_top|apply renews_apply, mono_top|intros _; apply ctame_ret]).
    destruct R as [T R]. destruct (T (with_new E H d) W1 Hm I) as (W2 & L2 & S2). split.
    + intros A. apply (apart_local (with_new E H d) _ m W1 L2 S2). eapply apart_copy; eauto.
    + intros (m' & Hok) _ A. apply (apart_renewed H d _ W W1 L2); [|exact A]. exact (R _ _ W1 Hm I Hok).
  - cbn. split; [intros A; eapply apart_copy; eauto|]. intros _ Hn. now destruct (Hn _ V0).
  - cbn. split; [intros A; eapply apart_copy; eauto|]. intros [? [=]].
Qed.
Lemma generate_apart H l p zs zr : wf E H -> (l < List.length (hp_obj E H))%nat -> (forall z, zr = Some z -> zarg_ok E H z) ->
  let H' := snd (h_generate E p zs zr l H) in
  (slots_apart E H -> slots_apart E H') /\
  ((exists r, fst (h_generate E p zs zr l H) = Ok r) -> objects_apart E H -> objects_apart E H').
Proof.
  intros W Hl Kz. cbv zeta. destruct (nth_error (hp_obj E H) l) as [d|] eqn:Hd; [|apply nth_error_None in Hd; lia].
  unfold h_generate. rewrite (bind_ok E _ _ H _ _ (copy_eq E H l d Hd)). set (m := List.length (hp_obj E H)).
  destruct (new_spec E H d W (W l d Hd)) as (W1 & G1 & N1). fold m in N1.
  assert (Hm : (m < List.length (hp_obj E (with_new E H d)))%nat) by (cbn; rewrite app_length; cbn; lia).
  set (P := fun H : heap => forall z, zr = Some z -> zarg_ok E H z). assert (M : mono E P) by apply mono_all.
  match goal with |- context [snd (?k (with_new E H d))] => set (k0 := k) end.
  assert (R : renews m P k0).
  { apply renews_right; [exact M| |intros _]. { destruct zs; [|apply ctame_ret]. apply ctame_assign; [exact M|discriminate]. }
    apply renews_right; [exact M| |intros _]. { destruct zr as [z|]; [|apply ctame_ret]. apply ctame_assign; [exact M|]. intros H' z' K [= <-]. now apply K. }
    apply renews_left; [exact M|now apply renews_apply|intros _]. eapply ctame_weaken; [|apply (proj1 (hands_read E m Hanser PSFi))]. intros; exact I. }
  destruct R as [T R]. destruct (T (with_new E H d) W1 Hm Kz) as (W2 & L2 & S2). split.
  - intros A. apply (apart_local (with_new E H d) _ m W1 L2 S2). eapply apart_copy; eauto.
  - intros (r & Hok) A. apply (apart_renewed H d _ W W1 L2); [|exact A]. exact (R _ _ W1 Hm Kz Hok).
Qed.
Lemma construct_apart H c k zr : wf E H -> (forall z, zr = Some z -> zarg_ok E H z) ->
  let H' := snd (h_construct E c k zr H) in (slots_apart E H -> slots_apart E H') /\ (objects_apart E H -> objects_apart E H').
Proof.
  intros W Kz. cbv zeta. unfold h_construct. rewrite (bind_ok E _ _ H (List.length (hp_obj E H)) (with_new E H (blank c))) by reflexivity.
  set (m := List.length (hp_obj E H)).
  set (P := fun H : heap => forall z, zr = Some z -> zarg_ok E H z). assert (M : mono E P) by apply mono_all.
  assert (O : obj_ok E H (blank c)) by (split; discriminate). destruct (new_spec E H (blank c) W O) as (W1 & G1 & N1).
  assert (Hm : (m < List.length (hp_obj E (with_new E H (blank c))))%nat) by (cbn; rewrite app_length; cbn; lia).
  match goal with |- context [snd (?k (with_new E H (blank c)))] => set (k0 := k) end.
  assert (T : ctame E m P k0).
  { do 9 (apply ctame_bind; [exact M|apply ctame_assign; [exact M|discriminate]|intros _]).
    apply ctame_bind; [exact M| |intros _; apply ctame_ret]. destruct c.
    - destruct zr as [z|]; [|now apply ctame_gen_zrange]. apply ctame_zrange_set. intros H' K. now apply K.
    - now apply ctame_dual. }
  destruct (T _ W1 Hm Kz) as (W2 & L2 & S2). destruct (apart_local _ _ m W1 L2 S2), (apart_blank H c). auto.
Qed.
Lemma raised_false {A} (m : HM E A) H : raised (fst (drop E m H)) = false -> exists a, fst (m H) = Ok a.
Proof. unfold drop. destruct (m H) as [[a|e] H']; cbn; [eauto|discriminate]. Qed.
Lemma step_apart x H : wf E H -> legal_step E H x ->
  (slots_apart E H -> slots_apart E (snd (do_step E x H))) /\ (no_copy E H (Call E x) -> objects_apart E H -> objects_apart E (snd (do_step E x H))).
Proof.
  intros W L. destruct x as [r|k ctr zr|l'|l' s|l' s|l' p|l' ab|l' p zs zr]; cbn [legal_step no_copy] in *.
  - cbn. auto.
  - cbn [do_step]. rewrite drop_snd. destruct (construct_apart H k ctr zr W L). auto.
  - cbn [do_step]. rewrite drop_snd. destruct (nth_error (hp_obj E H) l') as [d|] eqn:Hd; [|apply nth_error_None in Hd; lia].
    rewrite (copy_eq E H l' d Hd). cbn [snd]. split; [eapply apart_copy; eauto|contradiction].
  - destruct L as [Hl' Kz]. cbn [do_step]. destruct (class_some E H l' Hl') as [c' ->].
    destruct (ctame_assign E l' (fun H => forall z, s = HSetZrange z -> zarg_ok E H z) c' s) with (H := H) as (W2 & L2 & S2); auto.
    { intros H1 H2 G K z ->. eapply mono_zarg; eauto. }
    destruct (apart_local _ _ l' W L2 S2). auto.
  - cbn [do_step]. destruct (class_some E H l' L) as [c' ->]. rewrite drop_snd. destruct (proj1 (hands_read E l' c' s) H W L I) as (W2 & L2 & S2). destruct (apart_local _ _ l' W L2 S2). auto.
  - cbn [do_step]. destruct (proj1 (renews_apply l' (top E) p (mono_top E)) H W (class_lt E _ _ _ L) I) as (W2 & L2 & S2). destruct (apart_local _ _ l' W L2 S2). auto.
  - cbn [do_step]. rewrite !drop_snd. destruct (aberrate_apart H l' ab W L) as [A B]. split; [exact A|]. intros [N1 N2]. apply B; [now apply raised_false|exact N2].
  - cbn [do_step]. rewrite !drop_snd. destruct L as [Hc Kz]. destruct (generate_apart H l' p zs zr W (class_lt E _ _ _ Hc) Kz) as [A B]. split; [exact A|]. intros N1. apply B. now apply raised_false.
Qed.
Lemma act_apart x H : wf E H -> legal_act E H x ->
  (slots_apart E H -> slots_apart E (act_on E x H)) /\ (no_copy E H x -> objects_apart E H -> objects_apart E (act_on E x H)).
Proof. intros W L. destruct x as [x|r a|r c]; cbn [act_on legal_act] in *; [now apply step_apart| |]; split; intros; assumption. Qed.
Lemma acts_slots h : forall H, wf E H -> legal_acts E H h -> slots_apart E H -> slots_apart E (acts E h H).
Proof. induction h as [|x h IH]; intros H W L A; cbn [acts]; auto. inversion L; subst. apply IH; auto; [now apply act_wf|]. now apply (act_apart x H). Qed.
Lemma acts_objects h : forall H, wf E H -> legal_acts E H h -> no_copies E H h -> objects_apart E H -> objects_apart E (acts E h H).
Proof.
  induction h as [|x h IH]; intros H W L N A; cbn [acts]; auto. inversion L; subst. inversion N; subst. apply IH; auto; [now apply act_wf|]. now apply (act_apart x H).
Qed.
End Inv.
