(** Lemmas about the step-by-step programs of M_Steps.v. *)
From Verif Require Export M_Steps S_PSF L_PSF.

Section R.
Context (E : engine) (X : mixture E).
Notation mem := (mem E).
Notation obj := (obj E).

(** Objects that cannot be told apart. *)
Definition obj_eq (o o' : obj) : Prop :=
  o_attr o = o_attr o' /\ o_zrange o = o_zrange o' /\ forall s, o_cache o s = o_cache o' s.
Lemma obj_eq_refl o : obj_eq o o. Proof. repeat split. Qed.
Lemma obj_eq_sym o o' : obj_eq o o' -> obj_eq o' o. Proof. intros (A & B & C). repeat split; congruence. Qed.
Lemma obj_eq_trans o o' o'' : obj_eq o o' -> obj_eq o' o'' -> obj_eq o o''.
Proof. intros (A & B & C) (A' & B' & C'). repeat split; congruence. Qed.
Lemma obj_eq_params o o' : obj_eq o o' -> obj_params o = obj_params o'.
Proof. destruct o, o'; unfold obj_eq, obj_params; cbn. intros (-> & -> & _). reflexivity. Qed.

Lemma finish_bind {A B} (p : prog E A) (f : A -> prog E B) : forall m,
  finish E (pbind E p f) m = match finish E p m with (Ok x, m') => finish E (f x) m' | (Err e, m') => (Err e, m') end.
Proof. induction p as [[x|e]|g k IH|l k IH|l k IH]; intros m; cbn; auto. Qed.
Lemma finish_release {A} l (p : prog E A) : forall m, finish E (release E l p) m = finish E p m.
Proof. induction p as [r|g k IH|l' k IH|l' k IH]; intros m; cbn; auto. Qed.
Lemma finish_ignoring {A} (x : A) (p : prog E A) : forall m,
  finish E (ignoring E x p) m = match finish E p m with (Err AttributeError, m') => (Ok x, m') | r => r end.
Proof.
  induction p as [[y|e]|g k IH|l' k IH|l' k IH]; intros m; cbn; auto. destruct e; reflexivity.
Qed.

(** A program does what a method does. *)
Definition Ref {A} (p : prog E A) (q : M E A) : Prop :=
  forall m o, obj_eq (m_obj m) o ->
    fst (finish E p m) = fst (q o) /\ obj_eq (m_obj (snd (finish E p m))) (snd (q o)).

Lemma Ref_bind {A B} p q (f : A -> prog E B) (g : A -> M E B) :
  Ref p q -> (forall x, Ref (f x) (g x)) -> Ref (pbind E p f) (bindM E q g).
Proof.
  intros H1 H2 m o Ho. rewrite finish_bind. unfold bindM. destruct (H1 m o Ho) as [Hr He].
  destruct (finish E p m) as [[x|e] m'], (q o) as [[y|e'] o']; cbn [fst snd] in *; try discriminate.
  - injection Hr as ->. now apply H2.
  - injection Hr as ->. auto.
Qed.
Lemma Ref_done {A} (r : res A) : Ref (PDone r) (lift E r).
Proof. intros m o Ho. split; auto. Qed.
Lemma Ref_ret {A} (x : A) : Ref (PDone (Ok x)) (ret E x).
Proof. intros m o Ho. split; auto. Qed.
Lemma Ref_raise {A} e : Ref (A := A) (PDone (Err e)) (raise E e).
Proof. intros m o Ho. split; auto. Qed.
Lemma Ref_get a : Ref (pget E a) (getattr E a).
Proof.
  intros m o Ho. unfold pget, getattr. cbn. destruct Ho as (Ha & Hz & Hc). rewrite <- Ha.
  destruct (o_attr (m_obj m) a); cbn; repeat split; auto.
Qed.
Lemma Ref_changed : Ref (pchanged E) (attribute_changed E).
Proof. intros m o (Ha & Hz & Hc). cbn. repeat split; auto. intros s. destruct s; reflexivity. Qed.
Lemma Ref_put a v : Ref (pput E a v) (bindM E (setattr E a v) (fun _ => attribute_changed E)).
Proof.
  intros m o (Ha & Hz & Hc). cbn. repeat split; auto. cbn. now rewrite Ha. intros s. destruct s; reflexivity.
Qed.
Lemma Ref_numeric a t v : Ref (pnumeric E a t v) (numeric_set E a t v).
Proof.
  intros m o Ho. unfold pnumeric, numeric_set, numeric_fset. cbn [plook finish].
  pose proof Ho as (Ha & _ & _). rewrite <- Ha. destruct (numeric_decide _ t v) as [[|]|e]; cbn [finish]; auto.
  apply (Ref_put a v m o Ho).
Qed.
Lemma Ref_zres v : Ref (pzres E v) (base_zres_set E v).
Proof.
  apply Ref_bind; [apply Ref_done|]. intros [|]; cbn [negb]; [apply Ref_put|apply Ref_raise].
Qed.
Lemma Ref_res v : Ref (pres E v) (res_set E v).
Proof.
  unfold pres, res_set. repeat (apply Ref_bind; [apply Ref_get || apply Ref_done|intros ?]).
  destruct x3; [apply Ref_raise|apply Ref_put].
Qed.
Lemma Ref_choice a l v : Ref (pchoice E a l v) (choice_set E a l v).
Proof.
  apply Ref_bind; [apply Ref_done|]. intros [|]; cbn [negb]; [apply Ref_put|apply Ref_raise].
Qed.
Lemma Ref_zrange z : Ref (pzrange E z) (zrange_set E z).
Proof. intros m o (Ha & Hz & Hc). cbn. repeat split; auto. intros s. destruct s; reflexivity. Qed.
Lemma Ref_gen_zrange : Ref (pgen_zrange E) (gen_zrange E).
Proof. unfold pgen_zrange, gen_zrange. repeat (apply Ref_bind; [apply Ref_get|intros ?]). apply Ref_zrange. Qed.
Lemma Ref_ignoring p q : Ref p q -> Ref (ignoring E tt p) (ignore_attribute_error E q).
Proof.
  intros H m o Ho. rewrite finish_ignoring. unfold ignore_attribute_error. destruct (H m o Ho) as [Hr He].
  destruct (finish E p m) as [r m'], (q o) as [r' o']; cbn [fst snd] in *. subst r'. destruct r as [[]|[]]; auto.
Qed.
Lemma Ref_hanser_zsize v : Ref (phanser_zsize E v) (hanser_zsize_set E v).
Proof. apply Ref_bind; [apply Ref_numeric|]. intros _. apply Ref_ignoring, Ref_gen_zrange. Qed.
Lemma Ref_hanser_zres v : Ref (phanser_zres E v) (hanser_zres_set E v).
Proof. apply Ref_bind; [apply Ref_zres|]. intros _. apply Ref_ignoring, Ref_gen_zrange. Qed.
Lemma Ref_sheppard_zres v : Ref (psheppard_zres E v) (sheppard_zres_set E v).
Proof.
  unfold psheppard_zres, sheppard_zres_set. repeat (apply Ref_bind; [apply Ref_get || apply Ref_done|intros ?]).
  destruct x3; [apply Ref_raise|apply Ref_zres].
Qed.
Lemma Ref_dual v : Ref (pdual E v) (dual_set E v).
Proof. unfold pdual, dual_set. destruct (isinstance v TBool); cbn [negb]; [apply Ref_put|apply Ref_raise]. Qed.
Lemma Ref_assign c s : Ref (passign E c s) (assign E c s).
Proof.
  destruct s as [a v|z]; [|destruct c; [apply Ref_zrange|apply Ref_ret]].
  destruct a, c; cbn [passign assign];
    auto using Ref_numeric, Ref_res, Ref_hanser_zsize, Ref_hanser_zres, Ref_sheppard_zres, Ref_dual; first [apply Ref_choice|apply Ref_ret].
Qed.

(** _gen_kr *)
Lemma finish_kr {A} n : forall i (k : prog E A) m, exists r,
  finish E (pgen_kr E n i k) m = finish E k (mkMem (m_obj m) r) /\
  (forall j, (i <= j < i + n)%nat -> r j = Some (obj_params (m_obj m))) /\
  (forall j, (j < i)%nat -> r j = m_regs m j).
Proof.
  induction n as [|n IH]; intros i k m; cbn [pgen_kr].
  - exists (m_regs m). split; [destruct m; reflexivity|]. split; [lia|auto].
  - unfold pdo. cbn [finish]. destruct (IH (S i) k (w_reg E i m)) as (r & Hf & Hr & Hl). exists r.
    split; [exact Hf|]. split.
    + intros j Hj. destruct (Nat.eq_dec j i) as [->|]; [|apply Hr; lia].
      rewrite Hl by lia. cbn. now rewrite Nat.eqb_refl.
    + intros j Hj. rewrite Hl by lia. cbn. destruct (Nat.eqb_spec i j); [lia|reflexivity].
Qed.

Context (LX : lawful E X).
Lemma Ref_gen_psf p : Ref (pgen_psf E X p) (gen_psf E p).
Proof.
  apply Ref_bind; [apply Ref_changed|]. intros _ m o Ho.
  destruct (finish_kr (n_regs Hanser) 0 (plook E (fun m => PDone (mixed_psf E X (m_regs m) (obj_params (m_obj m)) p))) m) as (r & -> & Hr & _).
  cbn [plook finish fst snd m_obj m_regs]. split; auto. rewrite <- (obj_eq_params _ _ Ho). apply (proj1 LX). intros i Hi. apply Hr. lia.
Qed.
Lemma Ref_gen_otf : Ref (pgen_otf E X) (gen_otf E).
Proof.
  apply Ref_bind; [apply Ref_changed|]. intros _ m o Ho.
  destruct (finish_kr (n_regs Sheppard) 0 (plook E (fun m => PDone (mixed_otf E X (m_regs m) (obj_params (m_obj m))))) m) as (r & -> & Hr & _).
  cbn [plook finish fst snd m_obj m_regs]. split; auto. rewrite <- (obj_eq_params _ _ Ho). apply (proj2 LX). intros i Hi. apply Hr. lia.
Qed.
Lemma Ref_store s x : Ref (pdo E (w_store E s x) (pret E x)) (bindM E (set_cache E s x) (fun _ => ret E x)).
Proof.
  intros m o (Ha & Hz & Hc). cbn. repeat split; auto. cbn. intros t. destruct (slot_eqb s t); auto.
Qed.
Lemma Ref_cached b c s p q : Ref p q -> Ref (pcached E b c s p) (cached E s q).
Proof.
  intros H m o Ho. unfold pcached, cached. cbn [plook finish]. pose proof Ho as (_ & _ & Hc). rewrite <- (Hc s).
  destruct (o_cache (m_obj m) s) as [x|] eqn:Ec; [cbn; auto|].
  assert (F : Ref (pbind E p (fun x => pdo E (w_store E s x) (pret E x))) (bindM E q (fun x => bindM E (set_cache E s x) (fun _ => ret E x)))).
  { apply Ref_bind; auto. intros x. apply Ref_store. }
  destruct b; [|now apply F]. cbn [finish]. rewrite finish_release. cbn [plook finish]. rewrite Ec. now apply F.
Qed.
Lemma Ref_read b c s : Ref (pread E X b c s) (read E c s).
Proof.
  assert (A : forall b c, Ref (pread_PSFa E X b c) (read_PSFa E c)).
  { intros b' [|]; apply Ref_cached; [apply Ref_gen_psf|]. apply Ref_bind; [apply Ref_cached, Ref_gen_otf|intros; apply Ref_ret]. }
  assert (B : forall b c, Ref (pread_OTFa E X b c) (read_OTFa E c)).
  { intros b' [|]; apply Ref_cached; [|apply Ref_gen_otf]. apply Ref_bind; [apply Ref_cached, Ref_gen_psf|intros; apply Ref_ret]. }
  assert (C : forall b c, Ref (pread_PSFi E X b c) (read_PSFi E c)).
  { intros. apply Ref_cached. apply Ref_bind; [apply A|intros; apply Ref_ret]. }
  destruct s; cbn [pread read]; auto. apply Ref_cached. apply Ref_bind; [apply C|intros; apply Ref_ret].
Qed.
Lemma Ref_apply p : Ref (papply E X p) (apply_pupil E p).
Proof.
  apply Ref_bind; [apply Ref_changed|]. intros _. apply Ref_bind; [apply Ref_gen_psf|]. intros x m o (Ha & Hz & Hc).
  cbn. repeat split; auto. cbn. intros t. now rewrite (Hc t).
Qed.
End R.
