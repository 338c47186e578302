(** Lemmas about the step-by-step programs of M_MicroSteps.v. *)
From Coq Require Import FunctionalExtensionality.
From Verif Require Export M_MicroSteps L_Interrupt S_Micro.
Import M_Array.
Local Open Scope R_scope.

(** ** A program run without a break does what M_Micro.v says *)
Lemma obj_eq_eq (o o' : obj numeric) : obj_eq numeric o o' -> o = o'.
Proof. destruct o as [a z c], o' as [a' z' c']. intros (A & B & D). cbn in *. subst. f_equal. now apply functional_extensionality. Qed.
Lemma qfinish_bind {A B} (p : qprog A) (f : A -> qprog B) : forall s,
  qfinish (qbind p f) s = match qfinish p s with (Ok x, s') => qfinish (f x) s' | (Err e, s') => (Err e, s') end.
Proof. induction p as [[x|e]|g k IH|l k IH|l k IH]; intros s; cbn; auto. Qed.
Lemma qfinish_release {A} l (p : qprog A) : forall s, qfinish (qrelease l p) s = qfinish p s.
Proof. induction p as [r|g k IH|l' k IH|l' k IH]; intros s; cbn; auto. Qed.
Lemma qfinish_model {A} (p : prog numeric A) : forall s,
  qfinish (qmodel p) s = (fst (finish numeric p (model_mem s)), put_model (snd (finish numeric p (model_mem s))) s).
Proof.
  induction p as [r|f k IH|l k IH|l k IH]; intros s; cbn [qmodel qfinish finish]; auto.
  - destruct s as [m r1 r2]. destruct m. reflexivity.
  - rewrite IH. unfold put_model, model_mem. cbn. destruct (f _). cbn. reflexivity.
Qed.
Lemma qfinish_exc {A} (p : prog numeric A) : forall s,
  qfinish (qexc p) s = (fst (finish numeric p (exc_mem s)), put_exc (snd (finish numeric p (exc_mem s))) s).
Proof.
  induction p as [r|f k IH|l k IH|l k IH]; intros s; cbn [qexc qfinish finish]; auto.
  - destruct s as [m r1 r2]. destruct m. reflexivity.
  - rewrite IH. unfold put_exc, exc_mem. cbn. destruct (f _). cbn. reflexivity.
Qed.

Definition QRef {A} (p : qprog A) (q : MM A) : Prop :=
  forall s, fst (qfinish p s) = fst (q (q_m s)) /\ q_m (snd (qfinish p s)) = snd (q (q_m s)).
Lemma QRef_bind {A B} p q (f : A -> qprog B) (g : A -> MM B) : QRef p q -> (forall x, QRef (f x) (g x)) -> QRef (qbind p f) (mbind q g).
Proof.
  intros H1 H2 s. rewrite qfinish_bind. unfold mbind. destruct (H1 s) as [Hr He].
  destruct (qfinish p s) as [[x|e] s'], (q (q_m s)) as [[y|e'] m']; cbn [fst snd] in *; try discriminate; injection Hr as ->; subst m'.
  - apply H2.
  - auto.
Qed.
Lemma QRef_done {A} (r : res A) : QRef (QDone r) (mlift r). Proof. intros s. split; reflexivity. Qed.
Lemma QRef_ret {A} (x : A) : QRef (qret x) (mret x). Proof. intros s. split; reflexivity. Qed.
Lemma QRef_asks {A} (f : micro -> A) : QRef (qasks f) (masks f). Proof. intros s. split; reflexivity. Qed.
Lemma QRef_get a : QRef (qget a) (m_get a).
Proof. intros s. unfold qget, m_get. cbn. destruct (mi_num (q_m s) a); split; reflexivity. Qed.
Lemma QRef_set a v : QRef (qset a v) (m_set a v).
Proof.
  intros s. unfold qset, m_set, numeric_fset. cbn [qlook qfinish]. destruct (has_prop _ a); [|split; reflexivity].
  destruct (numeric_decide _ _ v) as [[|]|e]; split; reflexivity.
Qed.
Section Ref.
Context (X : mixture numeric) (LX : lawful numeric X) (b : bool).
Lemma QRef_model_R a : QRef (qmodel_R a) (model_R a).
Proof.
  intros s. unfold qmodel_R, model_R. rewrite qfinish_bind, qfinish_model. unfold on_model, bindM, getattr, lift, pget. cbn.
  destruct (o_attr (mi_model (q_m s)) a); cbn; (split; [reflexivity|]); destruct (q_m s); reflexivity.
Qed.
Lemma finish_read c t (x : mem numeric) :
  fst (finish numeric (pread numeric X b c t) x) = fst (read numeric c t (m_obj x)) /\
  m_obj (snd (finish numeric (pread numeric X b c t) x)) = snd (read numeric c t (m_obj x)).
Proof. destruct (Ref_read numeric X LX b c t x (m_obj x) (obj_eq_refl numeric _)) as [H1 H2]. split; [exact H1|now apply obj_eq_eq]. Qed.
Lemma QRef_PSFi : QRef (qmodel_PSFi X b) model_PSFi.
Proof.
  intros s. unfold qmodel_PSFi, model_PSFi. cbn [qlook qfinish]. rewrite qfinish_bind, qfinish_model.
  destruct (finish_read (mi_cls (q_m s)) PSFi (model_mem s)) as [H1 H2]. cbn [model_mem m_obj] in H1, H2.
  destruct (finish _ _ _) as [r x], (read _ _ _ _) as [r' o]. cbn [fst snd] in *. subst. destruct r'; split; reflexivity.
Qed.
Lemma QRef_exc : QRef (qexc_PSFi X b) exc_PSFi.
Proof.
  intros s. unfold qexc_PSFi, exc_PSFi. cbn [qlook qfinish]. rewrite qfinish_bind, qfinish_exc.
  destruct (finish_read (mi_cls (q_m s)) PSFi (exc_mem s)) as [H1 H2]. cbn [exc_mem m_obj] in H1, H2.
  destruct (finish _ _ _) as [r x], (read _ _ _ _) as [r' o]. cbn [fst snd] in *. subst. destruct r'; split; reflexivity.
Qed.
Lemma QRef_OTFi : QRef (qmodel_OTFi X b) model_OTFi.
Proof.
  intros s. unfold qmodel_OTFi, model_OTFi. cbn [qlook qfinish]. rewrite qfinish_bind, qfinish_model.
  destruct (finish_read (mi_cls (q_m s)) OTFi (model_mem s)) as [H1 H2]. cbn [model_mem m_obj] in H1, H2.
  destruct (finish _ _ _) as [r x], (read _ _ _ _) as [r' o]. cbn [fst snd] in *. subst. destruct r'; split; reflexivity.
Qed.
Ltac qref := repeat first [apply QRef_ret | apply QRef_done | apply QRef_get | apply QRef_model_R | apply QRef_PSFi | apply QRef_exc | apply QRef_OTFi
  | apply QRef_asks | (apply QRef_bind; [|intros ?]) | match goal with |- QRef (if ?b then _ else _) _ => destruct b | |- QRef (match ?b with _ => _ end) _ => destruct b end].
Lemma QRef_confocal : QRef (qconfocal X b) confocal_psf.
Proof. unfold qconfocal, confocal_psf. cbv zeta. qref. Qed.
Lemma QRef_apotome : QRef (qapotome X b) apotome_psf.
Proof. unfold qapotome, apotome_psf. qref. Qed.
Lemma QRef_sim_base : QRef (qsim_base X b) sim_base.
Proof. unfold qsim_base, sim_base. cbv zeta. qref. Qed.
Lemma QRef_sim : QRef (qsim X b) sim_psf.
Proof. unfold qsim, sim_psf. cbv zeta. repeat (apply QRef_bind; [first [apply QRef_sim_base | qref]|intros ?]). qref. Qed.
Lemma QRef_model_psf : QRef (qmodel_psf X b) model_psf.
Proof.
  intros s. unfold qmodel_psf, model_psf. cbn [qlook qfinish]. destruct (mi_kind (q_m s)); [apply QRef_PSFi|apply QRef_confocal|apply QRef_apotome|apply QRef_sim].
Qed.
Lemma QRef_compute : QRef (qcompute X b) compute_psf.
Proof. unfold qcompute, compute_psf. apply QRef_bind; [apply QRef_model_psf|intros ?]. qref. Qed.
Lemma QRef_PSF : QRef (qPSF X b) m_PSF.
Proof.
  assert (F : QRef (qbind (qcompute X b) (fun x => qdo (w_psf x) (qret x))) (let! a := compute_psf in fun m => (Ok a, upd_cache (Some a) (mi_otf m) m))).
  { apply QRef_bind; [apply QRef_compute|]. intros x s. split; reflexivity. }
  intros s. unfold qPSF, qcached, m_PSF. cbn [qlook qfinish]. destruct (mi_psf (q_m s)) eqn:E; [split; reflexivity|].
  destruct b; [|apply F]. cbn [qfinish]. rewrite qfinish_release. cbn [qlook qfinish]. rewrite E. apply F.
Qed.
Lemma QRef_OTF : QRef (qOTF X b) m_OTF.
Proof.
  assert (F : QRef (qbind (qbind (qPSF X b) (fun a => qret (o_fft (amap (option_map RtoC) a)))) (fun x => qdo (w_otf x) (qret x)))
                   (let! a := m_PSF in let f := o_fft (amap (option_map RtoC) a) in fun m => (Ok f, upd_cache (mi_psf m) (Some f) m))).
  { intros s. rewrite qfinish_bind, qfinish_bind. unfold mbind. destruct (QRef_PSF s) as [H1 H2].
    destruct (qfinish (qPSF X b) s) as [[x|e] s'], (m_PSF (q_m s)) as [[y|e'] m']; cbn [fst snd] in *; try discriminate; injection H1 as ->; subst m'; split; reflexivity. }
  intros s. unfold qOTF, qcached, m_OTF. cbn [qlook qfinish]. destruct (mi_otf (q_m s)) eqn:E; [split; reflexivity|].
  destruct b; [|apply F]. cbn [qfinish]. rewrite qfinish_release. cbn [qlook qfinish]. rewrite E. apply F.
Qed.
(** the whole reads, by M_Micro.v *)
Definition m_ask (x : mquery) : MM mview :=
  match x with
  | AskPSF => mbind m_PSF (fun a => mret (SeePSF a))
  | AskOTF => mbind m_OTF (fun a => mret (SeeOTF a))
  | AskModelPSF => mbind model_psf (fun a => mret (SeeModel a))
  end.
Lemma QRef_ask x : QRef (qask X b x) (m_ask x).
Proof. destruct x; (apply QRef_bind; [|intros; apply QRef_ret]); [apply QRef_PSF|apply QRef_OTF|apply QRef_model_psf]. Qed.
End Ref.

(** ** What a read may do at each step, whatever other readers do in between *)
Definition mrank (l : mlk) : nat := match l with LModel l => rank l | LPSF => 5 | LOTF => 6 end.
Lemma rank_le l : (rank l <= 4)%nat.
Proof. destruct l as [| |[|] [| | |]]; cbn; lia. Qed.

Section Good.
Context (X : mixture numeric) (LX : lawful numeric X).
(** the microscope at the start, and the pupils in force in its two PSF objects *)
Context (m0 : micro) (g gx : option (pupil numeric)).
Context (I0 : Inv numeric (mi_cls m0) (mi_model m0) g) (Ix0 : Inv numeric (mi_cls m0) (mi_exc m0) gx).
Notation c := (mi_cls m0).
Definition fft_psf (a : array (option R)) : array (option C) := o_fft (amap (option_map RtoC) a).
Definition right_psf : res (array (option R)) := match mi_psf m0 with Some a => Ok a | None => fst (compute_psf m0) end.
Definition right_otf : res (array (option C)) := match mi_otf m0 with Some a => Ok a | None => do a <- right_psf; Ok (fft_psf a) end.

(** what stays the same *)
Record same_micro (m : micro) : Prop := mkSame {
  sm_kind : mi_kind m = mi_kind m0; sm_cls : mi_cls m = c; sm_num : mi_num m = mi_num m0; sm_params : mi_params m = mi_params m0;
  sm_pixel : mi_pixel m = mi_pixel m0; sm_orient : mi_orient m = mi_orient m0; sm_wiener : mi_wiener m = mi_wiener m0;
  sm_attr : o_attr (mi_model m) = o_attr (mi_model m0); sm_z : o_zrange (mi_model m) = o_zrange (mi_model m0);
  sm_xattr : o_attr (mi_exc m) = o_attr (mi_exc m0); sm_xz : o_zrange (mi_exc m) = o_zrange (mi_exc m0) }.
Record JM (m : micro) : Prop := mkJM {
  jm_same : same_micro m;
  jm_inv : Inv numeric c (mi_model m) g; jm_xinv : Inv numeric c (mi_exc m) gx;
  jm_psf : match mi_psf m with Some a => right_psf = Ok a | None => mi_psf m0 = None end;
  jm_otf : match mi_otf m with Some a => right_otf = Ok a | None => mi_otf m0 = None end }.
Definition MP : params := P0 numeric (o_attr (mi_model m0)) (o_zrange (mi_model m0)).
Definition XP : params := P0 numeric (o_attr (mi_exc m0)) (o_zrange (mi_exc m0)).
Lemma JM_start : JM m0.
Proof.
  constructor; auto.
  - constructor; reflexivity.
  - unfold right_psf. destruct (mi_psf m0); reflexivity.
  - unfold right_otf. destruct (mi_otf m0); reflexivity.
Qed.
Definition know (n x : nat) (s : mmem) : Prop :=
  (forall i, (i < n)%nat -> q_regs s i = Some MP) /\ (forall i, (i < x)%nat -> q_xregs s i = Some XP).
Lemma know0 s : know 0 0 s. Proof. split; intros i Hi; lia. Qed.
Lemma know_le n x n' x' s : (n <= n')%nat -> (x <= x')%nat -> know n' x' s -> know n x s.
Proof. intros H1 H2 [K1 K2]. split; intros i Hi; [apply K1|apply K2]; lia. Qed.
Definition keeps (s s' : mmem) : Prop :=
  (forall i, q_regs s i = Some MP -> q_regs s' i = Some MP) /\ (forall i, q_xregs s i = Some XP -> q_xregs s' i = Some XP).
Lemma keeps_refl s : keeps s s. Proof. split; auto. Qed.
Lemma know_keeps n x s s' : keeps s s' -> know n x s -> know n x s'.
Proof. intros [A B] [K1 K2]. split; auto. Qed.

Inductive MGood {A} (Q : res A -> Prop) (hend : list mlk) : nat -> nat -> list mlk -> qprog A -> Prop :=
| MG_done n x r : Q r -> MGood Q hend n x hend (QDone r)
| MG_step n x h f k :
    (forall s, JM (q_m s) -> know n x s -> JM (q_m (f s)) /\ keeps s (f s) /\ exists n' x', know n' x' (f s) /\ MGood Q hend n' x' h (k s)) ->
    MGood Q hend n x h (QStep f k)
| MG_lock n x h l k : Forall (fun y => (mrank l < mrank y)%nat) h -> MGood Q hend n x (l :: h) k -> MGood Q hend n x h (QLock l k)
| MG_unlock n x h l k : MGood Q hend n x h k -> MGood Q hend n x (l :: h) (QUnlock l k).
Lemma MG_step_inv {A} (Q : res A -> Prop) he n x h f (k : mmem -> qprog A) : MGood Q he n x h (QStep f k) ->
  forall s, JM (q_m s) -> know n x s -> JM (q_m (f s)) /\ keeps s (f s) /\ exists n' x', know n' x' (f s) /\ MGood Q he n' x' h (k s).
Proof. intros H. inversion H. subst. assumption. Qed.
Lemma MG_mono {A} (Q : res A -> Prop) he (p : qprog A) : forall n x h n' x', MGood Q he n x h p -> (n <= n')%nat -> (x <= x')%nat -> MGood Q he n' x' h p.
Proof.
  induction p as [r|f k IH|l k IH|l k IH]; intros n x h n' x' H Hn Hx; inversion H; subst; constructor; eauto.
  intros s Hs Hk. apply (MG_step_inv _ _ _ _ _ _ _ H s Hs). eapply know_le; eauto.
Qed.
Lemma MG_bind {A B} (Qa : res A -> Prop) (Qb : res B -> Prop) he (f : A -> qprog B) (p : qprog A) : forall n x h,
  MGood Qa he n x h p -> (forall y, Qa (Ok y) -> MGood Qb he 0 0 he (f y)) -> (forall e, Qa (Err e) -> Qb (Err e)) -> MGood Qb he n x h (qbind p f).
Proof.
  induction p as [r|gg k IH|l k IH|l k IH]; intros n x h H Hx He; pose proof H as H'; inversion H; subst; cbn [qbind].
  - destruct r as [y|e]; [apply MG_mono with 0%nat 0%nat; [auto|lia|lia]|constructor; auto].
  - constructor. intros s Hs Hk. destruct (MG_step_inv _ _ _ _ _ _ _ H' s Hs Hk) as (W1 & W2 & n2 & x2 & W3 & W4). split; [exact W1|]. split; [exact W2|]. exists n2, x2. eauto.
  - constructor; auto.
  - constructor; auto.
Qed.
Lemma MG_release {A} (Q : res A -> Prop) he l (p : qprog A) : forall n x h, MGood Q (l :: he) n x h p -> MGood Q he n x h (qrelease l p).
Proof.
  induction p as [r|gg k IH|l' k IH|l' k IH]; intros n x h H; pose proof H as H'; inversion H; subst; cbn [qrelease].
  - repeat constructor; auto.
  - constructor. intros s Hs Hk. destruct (MG_step_inv _ _ _ _ _ _ _ H' s Hs Hk) as (W1 & W2 & n2 & x2 & W3 & W4). split; [exact W1|]. split; [exact W2|]. exists n2, x2. eauto.
  - constructor; auto.
  - constructor; auto.
Qed.
Lemma MG_impl {A} (Q Q' : res A -> Prop) he (p : qprog A) : forall n x h, (forall r, Q r -> Q' r) -> MGood Q he n x h p -> MGood Q' he n x h p.
Proof.
  induction p as [r|gg k IH|l' k IH|l' k IH]; intros n x h HQ H; pose proof H as H'; inversion H; subst.
  - constructor; auto.
  - constructor. intros s Hs Hk. destruct (MG_step_inv _ _ _ _ _ _ _ H' s Hs Hk) as (W1 & W2 & n2 & x2 & W3 & W4). split; [exact W1|]. split; [exact W2|]. exists n2, x2. eauto.
  - constructor; auto.
  - constructor; auto.
Qed.
Lemma MG_look {A} (Q : res A -> Prop) he (k : mmem -> qprog A) : (forall s, JM (q_m s) -> MGood Q he 0 0 he (k s)) -> MGood Q he 0 0 he (qlook k).
Proof. intros H. constructor. intros s Hs Hk. split; [exact Hs|]. split; [apply keeps_refl|]. exists 0%nat, 0%nat. auto. Qed.

(** the steps of the PSF objects *)
Notation Gm := (Good numeric c (o_attr (mi_model m0)) (o_zrange (mi_model m0)) g).
Notation Gx := (Good numeric c (o_attr (mi_exc m0)) (o_zrange (mi_exc m0)) gx).
Lemma MG_model {A} (Q : res A -> Prop) outer (p : prog numeric A) : Forall (fun l => (4 < mrank l)%nat) outer -> forall n h,
  Gm Q [] n h p -> MGood Q outer n 0 (map LModel h ++ outer)%list (qmodel p).
Proof.
  intros Ho. induction p as [r|f k IH|l k IH|l k IH]; intros n h H; pose proof H as H'; inversion H; subst; cbn [qmodel map app].
  - now constructor.
  - constructor. intros s Hs [Hk _].
    assert (HJ : J numeric c (o_attr (mi_model m0)) (o_zrange (mi_model m0)) g (model_mem s)).
    { destruct Hs as [S I _ _ _]. split; [apply S|]. split; [apply S|exact I]. }
    destruct (Good_step_inv _ _ _ _ _ _ _ _ _ _ _ H' (model_mem s) HJ Hk) as ((J1 & J2 & J3) & W2 & n2 & W3 & W4).
    split; [|split].
    + destruct Hs as [[S1 S2 S3 S4 S5 S6 S7 S8 S9 S10 S11] I Ix P O]. constructor; auto. constructor; auto.
    + split; cbn; auto.
    + exists n2, 0%nat. split; [|apply IH; exact W4]. split; [exact W3|intros i Hi; lia].
  - constructor.
    + apply Forall_app. split; [|eapply Forall_impl; [|exact Ho]; cbn; intros a Ha; pose proof (rank_le l); lia].
      rewrite Forall_forall in *. intros y Hy. apply in_map_iff in Hy. destruct Hy as (z & <- & Hz). cbn. auto.
    + apply (IH n (l :: h)). assumption.
  - constructor. auto.
Qed.
Lemma MG_exc {A} (Q : res A -> Prop) outer (p : prog numeric A) : Forall (fun l => (4 < mrank l)%nat) outer -> forall n h,
  Gx Q [] n h p -> MGood Q outer 0 n (map LModel h ++ outer)%list (qexc p).
Proof.
  intros Ho. induction p as [r|f k IH|l k IH|l k IH]; intros n h H; pose proof H as H'; inversion H; subst; cbn [qexc map app].
  - now constructor.
  - constructor. intros s Hs [_ Hk].
    assert (HJ : J numeric c (o_attr (mi_exc m0)) (o_zrange (mi_exc m0)) gx (exc_mem s)).
    { destruct Hs as [S _ I _ _]. split; [apply S|]. split; [apply S|exact I]. }
    destruct (Good_step_inv _ _ _ _ _ _ _ _ _ _ _ H' (exc_mem s) HJ Hk) as ((J1 & J2 & J3) & W2 & n2 & W3 & W4).
    split; [|split].
    + destruct Hs as [[S1 S2 S3 S4 S5 S6 S7 S8 S9 S10 S11] I Ix P O]. constructor; auto. constructor; auto.
    + split; cbn; auto.
    + exists 0%nat, n2. split; [|apply IH; exact W4]. split; [intros i Hi; lia|exact W3].
  - constructor.
    + apply Forall_app. split; [|eapply Forall_impl; [|exact Ho]; cbn; intros a Ha; pose proof (rank_le l); lia].
      rewrite Forall_forall in *. intros y Hy. apply in_map_iff in Hy. destruct Hy as (z & <- & Hz). cbn. auto.
    + apply (IH n (l :: h)). assumption.
  - constructor. auto.
Qed.

(** a program that computes the same value as a method, in every state that may occur *)
Definition Agree {A} (outer : list mlk) (p : qprog A) (q : MM A) : Prop :=
  exists v, MGood (fun r => r = v) outer 0 0 outer p /\ forall m, JM m -> fst (q m) = v /\ JM (snd (q m)).
Context (outer : list mlk) (Ho : Forall (fun l => (4 < mrank l)%nat) outer).
Lemma Agree_bind {A B} p q (f : A -> qprog B) (h : A -> MM B) : Agree outer p q -> (forall x, Agree outer (f x) (h x)) -> Agree outer (qbind p f) (mbind q h).
Proof.
  intros (v & G & E) H. destruct v as [x|e].
  - destruct (H x) as (w & G' & E'). exists w. split.
    + apply MG_bind with (fun r => r = Ok x); auto; [|discriminate]. intros y [= ->]. exact G'.
    + intros m Hm. unfold mbind. destruct (E m Hm) as [E1 E2]. destruct (q m) as [[y|e] m']; cbn [fst snd] in *; [|discriminate]. injection E1 as ->. auto.
  - exists (Err e). split.
    + apply MG_bind with (fun r => r = Err e); auto; [discriminate|]. intros e' [= ->]. reflexivity.
    + intros m Hm. unfold mbind. destruct (E m Hm) as [E1 E2]. destruct (q m) as [[y|e'] m']; cbn [fst snd] in *; [discriminate|]. injection E1 as ->. auto.
Qed.
Lemma Agree_done {A} (r : res A) : Agree outer (QDone r) (mlift r).
Proof. exists r. split; [now constructor|]. intros m Hm. auto. Qed.
Lemma Agree_ret {A} (x : A) : Agree outer (qret x) (mret x).
Proof. exists (Ok x). split; [now constructor|]. intros m Hm. auto. Qed.
Lemma Agree_asks {A} (f : micro -> A) : (forall m, JM m -> f m = f m0) -> Agree outer (qasks f) (masks f).
Proof.
  intros H. exists (Ok (f m0)). split.
  - apply MG_look. intros s Hs. constructor. now rewrite H.
  - intros m Hm. split; [|exact Hm]. unfold masks. cbn. now rewrite H.
Qed.
Lemma Agree_get a : Agree outer (qget a) (m_get a).
Proof.
  exists (match mi_num m0 a with Some v => Ok v | None => Err AttributeError end). split.
  - apply MG_look. intros s Hs. rewrite (sm_num _ (jm_same _ Hs)). destruct (mi_num m0 a); now constructor.
  - intros m Hm. unfold m_get. rewrite (sm_num _ (jm_same _ Hm)). destruct (mi_num m0 a); auto.
Qed.
Lemma JM_upd_model m o : JM m -> o_attr o = o_attr (mi_model m) -> o_zrange o = o_zrange (mi_model m) -> Inv numeric c o g -> JM (upd_model o m).
Proof.
  intros [[S1 S2 S3 S4 S5 S6 S7 S8 S9 S10 S11] I Ix P O] Ha Hz Hi. constructor; auto. constructor; cbn; congruence.
Qed.
Lemma JM_upd_exc m o : JM m -> o_attr o = o_attr (mi_exc m) -> o_zrange o = o_zrange (mi_exc m) -> Inv numeric c o gx -> JM (upd_exc o m).
Proof.
  intros [[S1 S2 S3 S4 S5 S6 S7 S8 S9 S10 S11] I Ix P O] Ha Hz Hi. constructor; auto. constructor; cbn; congruence.
Qed.
Lemma upd_model_id m : upd_model (mi_model m) m = m. Proof. destruct m; reflexivity. Qed.
Lemma Agree_model_R a : Agree outer (qmodel_R a) (model_R a).
Proof.
  exists (match o_attr (mi_model m0) a with Some v => as_R v | None => Err AttributeError end). split.
  - unfold qmodel_R, pget. cbn [plook qmodel qbind]. constructor. intros s Hs Hk.
    assert (E : put_model (model_mem s) s = s) by (destruct s as [m r x]; destruct m; reflexivity). rewrite E.
    split; [exact Hs|]. split; [apply keeps_refl|]. exists 0%nat, 0%nat. split; [exact Hk|]. cbn [model_mem m_obj]. rewrite (sm_attr _ (jm_same _ Hs)).
    destruct (o_attr (mi_model m0) a); cbn; now constructor.
  - intros m Hm. unfold model_R, on_model, bindM, getattr, lift. rewrite (sm_attr _ (jm_same _ Hm)).
    destruct (o_attr (mi_model m0) a); cbn; rewrite upd_model_id; auto.
Qed.
Lemma params_model m : JM m -> obj_params (mi_model m) = MP.
Proof. intros [S _ _ _ _]. unfold MP, P0, obj_params. cbn. now rewrite (sm_attr _ S), (sm_z _ S). Qed.
Lemma params_exc m : JM m -> obj_params (mi_exc m) = XP.
Proof. intros [S _ _ _ _]. unfold XP, P0, obj_params. cbn. now rewrite (sm_xattr _ S), (sm_xz _ S). Qed.
Lemma Agree_read_model b t {A} (k : arr numeric -> A) :
  Agree outer (qlook (fun s => qbind (qmodel (pread numeric X b (mi_cls (q_m s)) t)) (fun a => qret (k a))))
              (fun m => let (r, o) := read numeric (mi_cls m) t (mi_model m) in (do a <- r; Ok (k a), upd_model o m)).
Proof.
  exists (do a <- scratch numeric c t MP g; Ok (k a)). split.
  - apply MG_look. intros s Hs. rewrite (sm_cls _ (jm_same _ Hs)). apply MG_bind with (fun r => r = scratch numeric c t MP g).
    + apply (MG_model _ outer _ Ho 0 []). apply (Good_read numeric X LX).
    + intros y <-. constructor. reflexivity.
    + intros e <-. reflexivity.
  - intros m Hm. rewrite (sm_cls _ (jm_same _ Hm)). destruct (read_good numeric c t g (mi_model m) (jm_inv _ Hm)) as (R1 & R2 & [R3 R4]).
    destruct (read numeric c t (mi_model m)) as [r o]. cbn [fst snd] in *. rewrite R1, (params_model m Hm). split; [reflexivity|]. apply JM_upd_model; auto.
Qed.
Lemma Agree_read_exc b t {A} (k : arr numeric -> A) :
  Agree outer (qlook (fun s => qbind (qexc (pread numeric X b (mi_cls (q_m s)) t)) (fun a => qret (k a))))
              (fun m => let (r, o) := read numeric (mi_cls m) t (mi_exc m) in (do a <- r; Ok (k a), upd_exc o m)).
Proof.
  exists (do a <- scratch numeric c t XP gx; Ok (k a)). split.
  - apply MG_look. intros s Hs. rewrite (sm_cls _ (jm_same _ Hs)). apply MG_bind with (fun r => r = scratch numeric c t XP gx).
    + apply (MG_exc _ outer _ Ho 0 []). apply (Good_read numeric X LX).
    + intros y <-. constructor. reflexivity.
    + intros e <-. reflexivity.
  - intros m Hm. rewrite (sm_cls _ (jm_same _ Hm)). destruct (read_good numeric c t gx (mi_exc m) (jm_xinv _ Hm)) as (R1 & R2 & [R3 R4]).
    destruct (read numeric c t (mi_exc m)) as [r o]. cbn [fst snd] in *. rewrite R1, (params_exc m Hm). split; [reflexivity|]. apply JM_upd_exc; auto.
Qed.
Context (b : bool).
Lemma Agree_PSFi : Agree outer (qmodel_PSFi X b) model_PSFi. Proof. apply Agree_read_model. Qed.
Lemma Agree_OTFi : Agree outer (qmodel_OTFi X b) model_OTFi. Proof. apply (Agree_read_model b OTFi (fun a => (complexes a, finite_all a))). Qed.
Lemma Agree_excPSFi : Agree outer (qexc_PSFi X b) exc_PSFi. Proof. apply Agree_read_exc. Qed.
Lemma Agree_params : Agree outer (qasks mi_params) (masks mi_params). Proof. apply Agree_asks. intros m H. apply (jm_same _ H). Qed.
Lemma Agree_wiener : Agree outer (qasks mi_wiener) (masks mi_wiener). Proof. apply Agree_asks. intros m H. apply (jm_same _ H). Qed.
Lemma Agree_orient : Agree outer (qasks mi_orient) (masks mi_orient). Proof. apply Agree_asks. intros m H. apply (jm_same _ H). Qed.
Ltac agree := repeat first [apply Agree_ret | apply Agree_done | apply Agree_get | apply Agree_model_R | apply Agree_PSFi | apply Agree_excPSFi | apply Agree_OTFi
  | apply Agree_params | apply Agree_wiener | apply Agree_orient | (apply Agree_bind; [|intros ?])
  | match goal with |- Agree _ (if ?b then _ else _) _ => destruct b | |- Agree _ (match ?b with _ => _ end) _ => destruct b end].
Lemma Agree_confocal : Agree outer (qconfocal X b) confocal_psf.
Proof. unfold qconfocal, confocal_psf. cbv zeta. agree. Qed.
Lemma Agree_apotome : Agree outer (qapotome X b) apotome_psf.
Proof. unfold qapotome, apotome_psf. agree. Qed.
Lemma Agree_sim_base : Agree outer (qsim_base X b) sim_base.
Proof. unfold qsim_base, sim_base. cbv zeta. agree. Qed.
Lemma Agree_sim : Agree outer (qsim X b) sim_psf.
Proof. unfold qsim, sim_psf. cbv zeta. repeat (apply Agree_bind; [first [apply Agree_sim_base | agree]|intros ?]). agree. Qed.
Lemma Agree_model_psf : Agree outer (qmodel_psf X b) model_psf.
Proof.
  assert (K : Agree outer (match mi_kind m0 with Widefield => qmodel_PSFi X b | Confocal => qconfocal X b | Apotome => qapotome X b | SIM => qsim X b end)
                    (match mi_kind m0 with Widefield => model_PSFi | Confocal => confocal_psf | Apotome => apotome_psf | SIM => sim_psf end)).
  { destruct (mi_kind m0); [apply Agree_PSFi|apply Agree_confocal|apply Agree_apotome|apply Agree_sim]. }
  destruct K as (v & G & E). exists v. split.
  - apply MG_look. intros s Hs. now rewrite (sm_kind _ (jm_same _ Hs)).
  - intros m Hm. specialize (E m Hm). unfold model_psf. rewrite (sm_kind _ (jm_same _ Hm)). destruct (mi_kind m0); exact E.
Qed.
Lemma Agree_compute : Agree outer (qcompute X b) compute_psf.
Proof. unfold qcompute, compute_psf. apply Agree_bind; [apply Agree_model_psf|intros ?]. agree. Qed.
End Good.
