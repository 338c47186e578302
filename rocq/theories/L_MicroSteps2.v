(** Interrupted reads of a microscope. *)
From Verif Require Export L_MicroSteps S_MicroSteps L_Micro2 T_Micro.
Import M_Array.
Local Open Scope R_scope.

Section P.
Context (X : mixture numeric) (LX : lawful numeric X) (b : bool).
Section One.
Context (m0 : micro) (g gx : option (pupil numeric)).
Context (I0 : Inv numeric (mi_cls m0) (mi_model m0) g) (Ix0 : Inv numeric (mi_cls m0) (mi_exc m0) gx).
Notation JJ := (JM m0 g gx).
Notation MG := (MGood m0 g gx).
Lemma MG_cached {A} (l : mlk) (found : micro -> option A) (store : A -> mmem -> mmem) (compute : qprog A) (right : res A) outer :
  Forall (fun y => (mrank l < mrank y)%nat) outer ->
  (forall m x, JJ m -> found m = Some x -> right = Ok x) ->
  (forall m, JJ m -> found m = None -> forall o', o' = outer \/ o' = l :: outer -> MG (fun r => r = right) o' 0%nat 0%nat o' compute) ->
  (forall s x, right = Ok x -> JJ (q_m s) -> JJ (q_m (store x s)) /\ L_MicroSteps.keeps m0 s (store x s)) ->
  MG (fun r => r = right) outer 0%nat 0%nat outer (qcached b l found store compute).
Proof.
  intros Hr Hf Hc Hs. unfold qcached. apply MG_look. intros s Hj.
  assert (Fill : forall m, JJ m -> found m = None -> forall o', o' = outer \/ o' = l :: outer ->
            MG (fun r => r = right) o' 0%nat 0%nat o' (qbind compute (fun x => qdo (store x) (qret x)))).
  { intros m Hm Hn o' Ho'. apply MG_bind with (fun r => r = right); [now apply (Hc m)| |auto]. intros y Hy. constructor. intros s' Hs' _.
    destruct (Hs s' y (eq_sym Hy) Hs') as [W1 W2]. split; [exact W1|]. split; [exact W2|]. exists 0%nat, 0%nat. split; [apply know0|]. now constructor. }
  destruct (found (q_m s)) as [x|] eqn:Ex; [constructor; symmetry; now apply (Hf (q_m s))|].
  destruct b; [|apply (Fill (q_m s)); auto].
  constructor; [exact Hr|]. apply MG_release. apply MG_look. intros s' Hj'.
  destruct (found (q_m s')) as [x|] eqn:Ex'; [constructor; symmetry; now apply (Hf (q_m s'))|]. apply (Fill (q_m s')); auto.
Qed.
Lemma MG_PSF outer : Forall (fun y => (5 < mrank y)%nat) outer -> MG (fun r => r = right_psf m0) outer 0%nat 0%nat outer (qPSF X b).
Proof.
  intros Ho. apply MG_cached; [exact Ho|..].
  - intros m x Hm Hx. pose proof (jm_psf _ _ _ _ Hm) as H. now rewrite Hx in H.
  - intros m Hm Hn o' Ho'. pose proof (jm_psf _ _ _ _ Hm) as H. rewrite Hn in H.
    assert (Ho4 : Forall (fun y => (4 < mrank y)%nat) o').
    { assert (Forall (fun y => (4 < mrank y)%nat) outer) by (eapply Forall_impl; [|exact Ho]; cbn; intros; lia). destruct Ho' as [->| ->]; auto. }
    destruct (Agree_compute X LX m0 g gx o' Ho4 b) as (v & G & E). destruct (E m0 (JM_start m0 g gx I0 Ix0)) as [E1 _].
    unfold right_psf. rewrite H, E1. exact G.
  - intros s x Hx [S I Ix P O]. split; [|split; auto]. destruct S as [S1 S2 S3 S4 S5 S6 S7 S8 S9 S10 S11]. constructor; auto. constructor; auto.
Qed.
Lemma MG_OTF outer : Forall (fun y => (6 < mrank y)%nat) outer -> MG (fun r => r = right_otf m0) outer 0%nat 0%nat outer (qOTF X b).
Proof.
  intros Ho. apply MG_cached; [exact Ho|..].
  - intros m x Hm Hx. pose proof (jm_otf _ _ _ _ Hm) as H. now rewrite Hx in H.
  - intros m Hm Hn o' Ho'. pose proof (jm_otf _ _ _ _ Hm) as H. rewrite Hn in H. unfold right_otf. rewrite H.
    apply MG_bind with (fun r => r = right_psf m0).
    + apply MG_PSF. assert (Forall (fun y => (5 < mrank y)%nat) outer) by (eapply Forall_impl; [|exact Ho]; cbn; intros; lia). destruct Ho' as [->| ->]; auto.
    + intros y <-. constructor. reflexivity.
    + intros e <-. reflexivity.
  - intros s x Hx [S I Ix P O]. split; [|split; auto]. destruct S as [S1 S2 S3 S4 S5 S6 S7 S8 S9 S10 S11]. constructor; auto. constructor; auto.
Qed.
Definition right_model : res farr := fst (model_psf m0).
Definition right_answer (x : mquery) : res mview :=
  match x with
  | AskPSF => do a <- right_psf m0; Ok (SeePSF a)
  | AskOTF => do a <- right_otf m0; Ok (SeeOTF a)
  | AskModelPSF => do a <- right_model; Ok (SeeModel a)
  end.
Lemma MG_ask x : MG (fun r => r = right_answer x) [] 0%nat 0%nat [] (qask X b x).
Proof.
  destruct x; cbn [qask right_answer].
  - apply MG_bind with (fun r => r = right_psf m0); [apply MG_PSF; constructor|..]; intros y <-; try constructor; reflexivity.
  - apply MG_bind with (fun r => r = right_otf m0); [apply MG_OTF; constructor|..]; intros y <-; try constructor; reflexivity.
  - apply MG_bind with (fun r => r = right_model); [|intros y <-; constructor; reflexivity|intros y <-; reflexivity].
    destruct (Agree_model_psf X LX m0 g gx [] (Forall_nil _) b) as (v & G & E). unfold right_model. destruct (E m0 (JM_start m0 g gx I0 Ix0)) as [-> _]. exact G.
Qed.
Lemma JM_psf m : JJ m -> fst (m_PSF m) = right_psf m0 /\ JJ (snd (m_PSF m)).
Proof.
  intros Hm. unfold m_PSF. pose proof (jm_psf _ _ _ _ Hm) as H. destruct (mi_psf m) as [a|] eqn:Ea; [now rewrite H|].
  destruct (Agree_compute X LX m0 g gx [] (Forall_nil _) b) as (v & G & E). destruct (E m0 (JM_start m0 g gx I0 Ix0)) as [E1 _]. destruct (E m Hm) as [E2 E3].
  unfold mbind. assert (R : right_psf m0 = v) by (unfold right_psf; now rewrite H, E1).
  destruct (compute_psf m) as [[a|e] m'] eqn:Ec; cbn [fst snd] in *; rewrite R; (split; [exact E2|]); [|exact E3].
  destruct E3 as [S I Ix P O]. destruct S as [S1 S2 S3 S4 S5 S6 S7 S8 S9 S10 S11]. constructor; auto. constructor; auto.
  cbn. now rewrite R.
Qed.
Lemma JM_otf m : JJ m -> fst (m_OTF m) = right_otf m0 /\ JJ (snd (m_OTF m)).
Proof.
  intros Hm. unfold m_OTF. pose proof (jm_otf _ _ _ _ Hm) as H. destruct (mi_otf m) as [a|] eqn:Ea; [now rewrite H|].
  destruct (JM_psf m Hm) as [E1 E2]. unfold mbind. assert (R : right_otf m0 = do a <- right_psf m0; Ok (fft_psf a)) by (unfold right_otf; now rewrite H).
  destruct (m_PSF m) as [[a|e] m'] eqn:Ec; cbn [fst snd] in *; rewrite R, <- E1; (split; [reflexivity|]); [|exact E2].
  destruct E2 as [S I Ix P O]. destruct S as [S1 S2 S3 S4 S5 S6 S7 S8 S9 S10 S11]. constructor; auto.
  - constructor; auto.
  - cbn. rewrite R, <- E1. reflexivity.
Qed.
Lemma JM_answer x m : JJ m -> answer x m = right_answer x.
Proof.
  intros Hm. destruct x; cbn [answer right_answer].
  - now rewrite (proj1 (JM_psf m Hm)).
  - now rewrite (proj1 (JM_otf m Hm)).
  - destruct (Agree_model_psf X LX m0 g gx [] (Forall_nil _) b) as (v & G & E). unfold right_model. now rewrite (proj1 (E m Hm)), (proj1 (E m0 (JM_start m0 g gx I0 Ix0))).
Qed.
Lemma MG_cut {A} (Q : res A -> Prop) he : forall j (p : qprog A) n x h s, MG Q he n x h p -> know m0 n x s -> JJ (q_m s) -> JJ (q_m (qcut j p s)).
Proof.
  induction j as [|j IH]; intros p n x h s H Hk Hs; [destruct p; exact Hs|].
  destruct p as [r|f k|l k|l k]; cbn [qcut]; auto.
  - destruct (MG_step_inv _ _ _ _ _ _ _ _ _ _ H s Hs Hk) as (W1 & W2 & n2 & x2 & W3 & W4). eapply IH; eauto.
  - inversion H; subst; eapply IH; eauto.
  - inversion H; subst; eapply IH; eauto.
Qed.
Lemma JM_cut x n s : q_m s = m0 -> JJ (q_m (qcut n (qask X b x) s)).
Proof. intros E. eapply MG_cut; [apply MG_ask|apply know0|]. rewrite E. now apply JM_start. Qed.
End One.

(** ** Which of its own arrays a read may touch *)
Inductive MTrace {A} (R : mmem -> mmem -> Prop) : qprog A -> Prop :=
| MT_done r : MTrace R (QDone r)
| MT_step f k : (forall s, R s (f s)) -> (forall s, MTrace R (k s)) -> MTrace R (QStep f k)
| MT_lock l k : MTrace R k -> MTrace R (QLock l k)
| MT_unlock l k : MTrace R k -> MTrace R (QUnlock l k).
Lemma MT_bind {A B} R (p : qprog A) (f : A -> qprog B) : MTrace R p -> (forall x, MTrace R (f x)) -> MTrace R (qbind p f).
Proof. intros H Hf. induction H as [[x|e]| | |]; cbn [qbind]; try constructor; auto. Qed.
Lemma MT_release {A} R l (p : qprog A) : MTrace R p -> MTrace R (qrelease l p).
Proof. induction 1; cbn [qrelease]; repeat constructor; auto. Qed.
Lemma MT_impl {A} (R R' : mmem -> mmem -> Prop) (p : qprog A) : (forall s s', R s s' -> R' s s') -> MTrace R p -> MTrace R' p.
Proof. intros HR H. induction H; constructor; auto. Qed.
Lemma MT_cut {A} (R : mmem -> mmem -> Prop) : (forall s, R s s) -> (forall s s' s'', R s s' -> R s' s'' -> R s s'') ->
  forall n (p : qprog A) s, MTrace R p -> R s (qcut n p s).
Proof.
  intros Hr Ht. induction n as [|n IH]; intros p m H; [destruct p; auto|]. destruct H; cbn [qcut]; auto. eapply Ht; [apply H|]. apply IH. apply H0.
Qed.
Definition hands_off (s s' : mmem) : Prop := mi_psf (q_m s') = mi_psf (q_m s) /\ mi_otf (q_m s') = mi_otf (q_m s).
Definition hands_off_otf (s s' : mmem) : Prop := mi_otf (q_m s') = mi_otf (q_m s).
Lemma MT_model {A} (p : prog numeric A) : MTrace hands_off (qmodel p).
Proof. induction p; cbn [qmodel]; constructor; auto; intros; split; reflexivity. Qed.
Lemma MT_exc {A} (p : prog numeric A) : MTrace hands_off (qexc p).
Proof. induction p; cbn [qexc]; constructor; auto; intros; split; reflexivity. Qed.
Lemma MT_look {A} (k : mmem -> qprog A) : (forall s, MTrace hands_off (k s)) -> MTrace hands_off (qlook k).
Proof. intros H. constructor; auto. intros s. split; reflexivity. Qed.
Ltac mt := repeat first [apply MT_model | apply MT_exc | (apply MT_look; intros ?) | (apply MT_bind; [|intros ?]) | apply MT_done | apply MT_release
  | match goal with |- MTrace _ (if ?b then _ else _) => destruct b | |- MTrace _ (match ?b with _ => _ end) => destruct b end].
Lemma MT_model_psf : MTrace hands_off (qmodel_psf X b).
Proof.
  unfold qmodel_psf, qconfocal, qapotome, qsim, qsim_base, qmodel_PSFi, qexc_PSFi, qmodel_OTFi, qmodel_R, qasks, qget, qret. cbv zeta. mt.
Qed.
Lemma MT_compute : MTrace hands_off (qcompute X b).
Proof. unfold qcompute. apply MT_bind; [apply MT_model_psf|intros ?]. unfold qget, qasks, qret. mt. Qed.
Lemma MT_PSF : MTrace hands_off_otf (qPSF X b).
Proof.
  assert (F : MTrace hands_off_otf (qbind (qcompute X b) (fun x => qdo (w_psf x) (qret x)))).
  { apply MT_bind; [eapply MT_impl; [|apply MT_compute]; now intros s s' [_ H]|]. intros x. constructor; [reflexivity|intros; constructor]. }
  unfold qPSF, qcached. constructor; [reflexivity|]. intros s. destruct (mi_psf (q_m s)); [constructor|]. destruct b; [|exact F].
  constructor. apply MT_release. constructor; [reflexivity|]. intros s'. destruct (mi_psf (q_m s')); [constructor|exact F].
Qed.
Lemma cut_hands_off {A} n (p : qprog A) s : MTrace hands_off p -> hands_off s (qcut n p s).
Proof. apply MT_cut; [split; reflexivity|]. intros s1 s2 s3 [A1 A2] [B1 B2]. split; congruence. Qed.
Lemma cut_hands_off_otf {A} n (p : qprog A) s : MTrace hands_off_otf p -> hands_off_otf s (qcut n p s).
Proof. apply MT_cut; [reflexivity|]. unfold hands_off_otf. intros. congruence. Qed.
Lemma qcut_done {A} n (r : res A) s : qcut n (QDone r) s = s. Proof. destruct n; reflexivity. Qed.
Lemma qcut_bind {A B} (p : qprog A) (f : A -> qprog B) : forall n s,
  qcut n (qbind p f) s = qcut n p s \/ exists k x s', qfinish p s = (Ok x, s') /\ qcut n (qbind p f) s = qcut k (f x) s'.
Proof.
  induction p as [[x|e]|g k IH|l k IH|l k IH]; intros n s; cbn [qbind qfinish].
  - right. eauto.
  - left. now destruct n.
  - destruct n as [|n]; [left; reflexivity|]. cbn [qcut]. apply IH.
  - destruct n as [|n]; [left; reflexivity|]. cbn [qcut]. apply IH.
  - destruct n as [|n]; [left; reflexivity|]. cbn [qcut]. apply IH.
Qed.
Lemma qcut_release {A} l (p : qprog A) : forall n s, exists k, qcut n (qrelease l p) s = qcut k p s.
Proof.
  induction p as [r|g k IH|l' k IH|l' k IH]; intros n s; cbn [qrelease].
  - exists 0%nat. destruct n as [|[|n]]; reflexivity.
  - destruct n as [|n]; [exists 0%nat; reflexivity|]. cbn [qcut]. destruct (IH s n (g s)) as [j Hj]. exists (S j). exact Hj.
  - destruct n as [|n]; [exists 0%nat; reflexivity|]. cbn [qcut]. destruct (IH n s) as [j Hj]. exists (S j). exact Hj.
  - destruct n as [|n]; [exists 0%nat; reflexivity|]. cbn [qcut]. destruct (IH n s) as [j Hj]. exists (S j). exact Hj.
Qed.
Lemma cut_ret {A B} (p : qprog A) (f : A -> B) n s : exists k, qcut n (qbind p (fun x => qret (f x))) s = qcut k p s.
Proof.
  revert n s. induction p as [[x|e]|g k IH|l' k IH|l' k IH]; intros n s; cbn [qbind].
  - exists 0%nat. destruct n; reflexivity.
  - exists n. now destruct n.
  - destruct n as [|n]; [exists 0%nat; reflexivity|]. cbn [qcut]. destruct (IH s n (g s)) as [j Hj]. exists (S j). exact Hj.
  - destruct n as [|n]; [exists 0%nat; reflexivity|]. cbn [qcut]. destruct (IH n s) as [j Hj]. exists (S j). exact Hj.
  - destruct n as [|n]; [exists 0%nat; reflexivity|]. cbn [qcut]. destruct (IH n s) as [j Hj]. exists (S j). exact Hj.
Qed.
Lemma cut_PSF_otf n s : mi_otf (q_m (qcut n (qPSF X b) s)) = mi_otf (q_m s).
Proof. apply cut_hands_off_otf, MT_PSF. Qed.
(** an interrupted read of OTF has stored an OTF only after a PSF *)
Lemma cut_OTF n s : mi_otf (q_m (qcut n (qOTF X b) s)) = mi_otf (q_m s) \/ mi_psf (q_m (qcut n (qOTF X b) s)) <> None.
Proof.
  unfold qOTF, qcached. set (fill := qbind (qbind (qPSF X b) _) _).
  assert (F : forall n s, mi_otf (q_m (qcut n fill s)) = mi_otf (q_m s) \/ mi_psf (q_m (qcut n fill s)) <> None).
  { intros n' s'. unfold fill. destruct (qcut_bind (qbind (qPSF X b) (fun a => qret (o_fft (amap (option_map RtoC) a)))) (fun x => qdo (w_otf x) (qret x)) n' s') as [E|(k & x & s2 & E1 & E2)].
    - rewrite E. destruct (cut_ret (qPSF X b) (fun a => o_fft (amap (option_map RtoC) a)) n' s') as [j ->]. left. apply cut_PSF_otf.
    - rewrite E2. rewrite qfinish_bind in E1. destruct (QRef_PSF X LX b s') as [P1 P2]. destruct (qfinish (qPSF X b) s') as [[y|e] s3]; [|discriminate]. cbn in E1. injection E1 as _ <-.
      assert (Hp : mi_psf (q_m s3) <> None).
      { cbn in P1, P2. rewrite P2. symmetry in P1. unfold m_PSF in P1 |- *. destruct (mi_psf (q_m s')) eqn:Ep; cbn; [congruence|]. unfold mbind in *. destruct (compute_psf (q_m s')) as [[z|e] m']; cbn in *; congruence. }
      right. destruct k as [|[|k]]; cbn; exact Hp. }
  destruct n as [|n]; [left; reflexivity|]. cbn [qlook qcut]. destruct (mi_otf (q_m s)) eqn:Eo; [left; unfold qret; now rewrite qcut_done|].
  destruct b; [|rewrite <- Eo; apply F]. destruct n as [|n]; [left; exact Eo|]. cbn [qcut]. rewrite <- Eo. match goal with |- context [qcut n (qrelease ?l ?p) s] => destruct (qcut_release l p n s) as [j ->] end.
  destruct j as [|j]; [left; reflexivity|]. cbn [qlook qcut]. rewrite Eo. rewrite <- Eo. apply F.
Qed.
End P.
