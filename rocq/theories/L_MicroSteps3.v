(** Histories of a microscope with broken reads. *)
From Verif Require Export L_MicroSteps2.
Import M_Array.
Local Open Scope R_scope.

(** the engine itself as a mixture *)
Definition no_mix : mixture numeric := mkMixture numeric (fun _ P p => e_gen_psf numeric P p) (fun _ P => e_gen_otf numeric P).
Lemma no_mix_lawful : lawful numeric no_mix. Proof. split; reflexivity. Qed.

Record SimM (q m : micro) : Prop := mkSim {
  si_alike : alike q m; si_psf : mi_psf q = mi_psf m; si_otf : mi_otf q = mi_otf m;
  si_valid : valid numeric (mi_cls m) (mi_model m); si_xvalid : mi_kind m = Confocal -> valid numeric (mi_cls m) (mi_exc m);
  si_inv : exists g, Inv numeric (mi_cls m) (mi_model q) g /\ Inv numeric (mi_cls m) (mi_model m) g;
  si_xinv : exists g, Inv numeric (mi_cls m) (mi_exc q) g /\ Inv numeric (mi_cls m) (mi_exc m) g }.
Lemma alike_refl m : alike m m. Proof. repeat split. Qed.
Lemma alike_trans m1 m2 m3 : alike m1 m2 -> alike m2 m3 -> alike m1 m3.
Proof. unfold alike. intros H1 H2. decompose [and] H1. decompose [and] H2. repeat split; congruence. Qed.
Lemma alike_sym m1 m2 : alike m1 m2 -> alike m2 m1.
Proof. unfold alike. intros H1. decompose [and] H1. repeat split; congruence. Qed.
Lemma same_alike m0 m : same_micro m0 m -> alike m m0.
Proof. intros []. repeat split; auto. Qed.
Lemma alike_same m0 m : alike m m0 -> same_micro m0 m.
Proof. unfold alike. intros H. decompose [and] H. constructor; auto. Qed.
Lemma valid_same (c : cls) (o o' : obj numeric) : o_attr o' = o_attr o -> o_zrange o' = o_zrange o -> valid numeric c o -> valid numeric c o'.
Proof. intros Ha Hz (H1 & H2 & H3). split; [|split]. intros a v; rewrite Ha; apply H1. intros a; rewrite Ha; apply H2. rewrite Hz; exact H3. Qed.
Lemma alike_valid q m : alike q m -> valid numeric (mi_cls m) (mi_model m) -> valid numeric (mi_cls m) (mi_model q).
Proof. unfold alike. intros H. decompose [and] H. apply valid_same; auto. Qed.
Lemma alike_xvalid q m : alike q m -> valid numeric (mi_cls m) (mi_exc m) -> valid numeric (mi_cls m) (mi_exc q).
Proof. unfold alike. intros H. decompose [and] H. apply valid_same; auto. Qed.
Lemma alike_cls q m : alike q m -> mi_cls q = mi_cls m. Proof. intros H. apply H. Qed.
Lemma alike_kind q m : alike q m -> mi_kind q = mi_kind m. Proof. intros H. apply H. Qed.

(** from a simulation to the invariant of the readers, and back *)
Lemma Sim_JM q m g gx : alike q m -> mi_psf q = mi_psf m -> mi_otf q = mi_otf m ->
  Inv numeric (mi_cls m) (mi_model q) g -> Inv numeric (mi_cls m) (mi_exc q) gx -> JM m g gx q.
Proof.
  intros Ha Hp Ho Hi Hx. constructor; auto.
  - now apply alike_same.
  - unfold right_psf. rewrite Hp. destruct (mi_psf m); reflexivity.
  - unfold right_otf. rewrite Ho. destruct (mi_otf m); reflexivity.
Qed.

Lemma psf_effect m : mi_otf (snd (m_PSF m)) = mi_otf m /\
  mi_psf (snd (m_PSF m)) = match fst (m_PSF m) with Ok a => Some a | Err _ => mi_psf m end.
Proof.
  unfold m_PSF. destruct (mi_psf m) as [a|] eqn:Ep; [cbn; auto|]. unfold mbind. pose proof (blind_compute m None None) as (_ & E1 & E2).
  destruct (compute_psf m) as [[a|e] m'] eqn:E; cbn [fst snd] in *; cbn; auto. split; congruence.
Qed.
Lemma otf_effect m : mi_psf (snd (m_OTF m)) = (match mi_otf m with Some _ => mi_psf m | None => mi_psf (snd (m_PSF m)) end) /\
  mi_otf (snd (m_OTF m)) = match fst (m_OTF m) with Ok a => Some a | Err _ => mi_otf m end.
Proof.
  unfold m_OTF. destruct (mi_otf m) as [f|] eqn:Ef; [cbn; auto|]. unfold mbind. destruct (psf_effect m) as [P1 P2].
  destruct (m_PSF m) as [[a|e] m'] eqn:E; cbn [fst snd] in *; cbn; auto. split; congruence.
Qed.

(** one whole event *)
Lemma Sim_read_psf q m : SimM q m -> SimM (snd (m_PSF q)) (snd (m_PSF m)) /\ fst (m_PSF q) = fst (m_PSF m).
Proof.
  intros [Ha Hp Ho Hv Hvx (g & I1 & I2) (gx & X1 & X2)].
  pose proof (Sim_JM q m g gx Ha Hp Ho I1 X1) as Jq. pose proof (JM_start m g gx I2 X2) as Jm.
  destruct (JM_psf no_mix no_mix_lawful false m g gx I2 X2 q Jq) as [Eq Sq]. destruct (JM_psf no_mix no_mix_lawful false m g gx I2 X2 m Jm) as [Em Sm].
  split; [|congruence]. destruct (psf_effect q) as [Oq Pq], (psf_effect m) as [Om Pm].
  pose proof (same_alike _ _ (jm_same _ _ _ _ Sq)) as Aq. pose proof (same_alike _ _ (jm_same _ _ _ _ Sm)) as Am.
  constructor.
  - eapply alike_trans; [exact Aq|]. now apply alike_sym.
  - rewrite Pq, Pm, Eq, Em, Hp. reflexivity.
  - congruence.
  - rewrite (alike_cls _ _ Am). now apply alike_valid.
  - rewrite (alike_kind _ _ Am), (alike_cls _ _ Am). intros K. now apply alike_xvalid; auto.
  - rewrite (alike_cls _ _ Am). exists g. split; [apply (jm_inv _ _ _ _ Sq)|apply (jm_inv _ _ _ _ Sm)].
  - rewrite (alike_cls _ _ Am). exists gx. split; [apply (jm_xinv _ _ _ _ Sq)|apply (jm_xinv _ _ _ _ Sm)].
Qed.
Lemma Sim_read_otf q m : SimM q m -> SimM (snd (m_OTF q)) (snd (m_OTF m)) /\ fst (m_OTF q) = fst (m_OTF m).
Proof.
  intros [Ha Hp Ho Hv Hvx (g & I1 & I2) (gx & X1 & X2)].
  pose proof (Sim_JM q m g gx Ha Hp Ho I1 X1) as Jq. pose proof (JM_start m g gx I2 X2) as Jm.
  destruct (JM_psf no_mix no_mix_lawful false m g gx I2 X2 q Jq) as [Epq _]. destruct (JM_psf no_mix no_mix_lawful false m g gx I2 X2 m Jm) as [Epm _].
  destruct (JM_otf no_mix no_mix_lawful false m g gx I2 X2 q Jq) as [Eq Sq]. destruct (JM_otf no_mix no_mix_lawful false m g gx I2 X2 m Jm) as [Em Sm].
  split; [|congruence]. destruct (otf_effect q) as [Pq Oq], (otf_effect m) as [Pm Om].
  pose proof (same_alike _ _ (jm_same _ _ _ _ Sq)) as Aq. pose proof (same_alike _ _ (jm_same _ _ _ _ Sm)) as Am.
  constructor.
  - eapply alike_trans; [exact Aq|]. now apply alike_sym.
  - rewrite Pq, Pm, Ho. destruct (mi_otf m); [exact Hp|]. rewrite (proj2 (psf_effect q)), (proj2 (psf_effect m)), Epq, Epm, Hp. reflexivity.
  - rewrite Oq, Om, Eq, Em, Ho. reflexivity.
  - rewrite (alike_cls _ _ Am). now apply alike_valid.
  - rewrite (alike_kind _ _ Am), (alike_cls _ _ Am). intros K. now apply alike_xvalid; auto.
  - rewrite (alike_cls _ _ Am). exists g. split; [apply (jm_inv _ _ _ _ Sq)|apply (jm_inv _ _ _ _ Sm)].
  - rewrite (alike_cls _ _ Am). exists gx. split; [apply (jm_xinv _ _ _ _ Sq)|apply (jm_xinv _ _ _ _ Sm)].
Qed.
Lemma exec_sim (c : cls) x (o o' : obj numeric) g : same_par numeric o o' -> valid numeric c o' -> Inv numeric c o g -> Inv numeric c o' g ->
  same_par numeric (snd (exec numeric c x o)) (snd (exec numeric c x o')) /\ valid numeric c (snd (exec numeric c x o')) /\
  exists g', Inv numeric c (snd (exec numeric c x o)) g' /\ Inv numeric c (snd (exec numeric c x o')) g'.
Proof.
  intros Hs Hv Hi Hi'. assert (Hv1 : valid numeric c o) by (destruct Hs as [A B]; now apply (valid_same c o' o)).
  pose proof (Sim_whole numeric no_mix no_mix_lawful false c x (mkMem o (fun _ => None)) o' g (conj Hs (conj Hv (conj Hi Hi')))) as (S1 & S2 & S3 & S4).
  pose proof (runs_ref numeric no_mix no_mix_lawful false c x (mkMem o (fun _ => None))) as Hr. cbn [m_obj] in *. apply obj_eq_eq in Hr. rewrite Hr in *. eauto.
Qed.
Lemma Sim_event x q m : SimM q m -> sensible m x -> SimM (mexec x q) (mexec x m).
Proof.
  intros HS Hx. pose proof HS as [Ha Hp Ho Hv Hvx (g & I1 & I2) (gx & X1 & X2)].
  pose proof Ha as (A1 & A2 & A3 & A4 & A5 & A6 & A7 & A8 & A9 & A10 & A11).
  destruct x as [a v|y|y|o|v|v|l| |]; cbn [mexec].
  - unfold m_set, numeric_fset. rewrite A1, A3. destruct (has_prop _ _); [|exact HS]. destruct (numeric_decide _ _ _) as [[|]|e]; [|exact HS|exact HS].
    cbn. constructor; cbn; eauto. repeat split; auto.
  - destruct (exec_sim (mi_cls m) y (mi_model q) (mi_model m) g (conj A8 A9) Hv I1 I2) as ([P1 P2] & V & g' & J1 & J2).
    rewrite A2. constructor; cbn; eauto. repeat split; auto.
  - cbn in Hx. destruct (exec_sim (mi_cls m) y (mi_exc q) (mi_exc m) gx (conj A10 A11) (Hvx Hx) X1 X2) as ([P1 P2] & V & g' & J1 & J2).
    rewrite A2. constructor; cbn; eauto. repeat split; auto.
  - cbn in Hx. destruct Hx as (k & o0 & h & Hc & ->). destruct (construct_ok numeric _ k o0 Hc) as (Hv0 & HI0 & _).
    destruct (run_inv numeric (mi_cls m) h o0 None Hv0 HI0) as [V I]. constructor; cbn; eauto. repeat split; auto.
  - constructor; cbn; eauto. repeat split; auto.
  - constructor; cbn; eauto. repeat split; auto.
  - constructor; cbn; eauto. repeat split; auto.
  - now apply Sim_read_psf.
  - now apply Sim_read_otf.
Qed.
Lemma Sim_self q m : SimM q m -> SimM m m.
Proof. intros [Ha Hp Ho Hv Hvx (g & I1 & I2) (gx & X1 & X2)]. constructor; eauto. apply alike_refl. Qed.

(** a constructed microscope *)
Definition no_exc {A} (c : MM A) : Prop := forall m, mi_exc (snd (c m)) = mi_exc m.
Lemma no_exc_bind {A B} (c : MM A) (f : A -> MM B) : no_exc c -> (forall x, no_exc (f x)) -> no_exc (mbind c f).
Proof. intros H1 H2 m. unfold mbind. specialize (H1 m). destruct (c m) as [[x|e] m']; cbn in *; [|exact H1]. now rewrite H2. Qed.
Lemma no_exc_set a v : no_exc (m_set a v).
Proof. intros m. unfold m_set, numeric_fset. destruct (has_prop _ _); [|reflexivity]. destruct (numeric_decide _ _ _) as [[|]|]; reflexivity. Qed.
Ltac nx := repeat match goal with
  | |- no_exc (mbind _ _) => apply no_exc_bind; [|intros ?] | |- no_exc (m_set _ _) => apply no_exc_set
  | |- no_exc (mret _) => intros ?; reflexivity | |- no_exc (mlift _) => intros ?; reflexivity | |- no_exc (masks _) => intros ?; reflexivity
  | |- no_exc (if ?b then _ else _) => destruct b | |- no_exc (match ?b with _ => _ end) => destruct b end.
Lemma wide_no_exc a : no_exc (wide_init a). Proof. unfold wide_init. cbv zeta. nx. intros m. reflexivity. Qed.
Lemma sim_no_exc a s : no_exc (sim_init a s). Proof. unfold sim_init. apply no_exc_bind; [apply wide_no_exc|intros _]. nx. intros m. reflexivity. Qed.
Lemma made_no_exc k i m : no_exc i -> make k i = Ok m -> mi_exc m = empty_obj numeric.
Proof. intros H E. unfold make in E. specialize (H (empty_micro k)). destruct (i (empty_micro k)) as [[u|e] m']; [|discriminate]. injection E as <-. exact H. Qed.
Lemma reached_inv c o : reached c o -> valid numeric c o /\ exists g, Inv numeric c o g.
Proof.
  intros (k & o0 & h & Hc & ->). destruct (construct_ok numeric c k o0 Hc) as (Hv & HI & _). destruct (run_inv numeric c h o0 None Hv HI). eauto.
Qed.
Lemma empty_inv c : Inv numeric c (empty_obj numeric) None.
Proof. split; [intros s x; discriminate|intros _ H; now elim H]. Qed.
Lemma built_Sim a m : built_from a m -> SimM m m.
Proof.
  intros Hb. destruct (built_sane a m Hb) as [R1 R2]. destruct (reached_inv _ _ R1) as (V & g & I).
  assert (HX : (mi_kind m = Confocal -> valid numeric (mi_cls m) (mi_exc m)) /\ exists gx, Inv numeric (mi_cls m) (mi_exc m) gx).
  { destruct Hb as [m' H|w q m' H|m' H|s m' H].
    - rewrite (made_kind _ _ _ (wide_kind a) H), (made_no_exc _ _ _ (wide_no_exc a) H). split; [discriminate|]. exists None. apply empty_inv.
    - specialize (R2 (made_kind _ _ _ (confocal_kind a w q) H)). destruct (reached_inv _ _ R2) as (V2 & g2 & I2). eauto.
    - rewrite (made_kind _ _ _ (wide_kind a) H), (made_no_exc _ _ _ (wide_no_exc a) H). split; [discriminate|]. exists None. apply empty_inv.
    - rewrite (made_kind _ _ _ (sim_kind a s) H), (made_no_exc _ _ _ (sim_no_exc a s) H). split; [discriminate|]. exists None. apply empty_inv. }
  destruct HX as [HV [gx HX]]. constructor; eauto. apply alike_refl.
Qed.
Lemma mexec_fixed x m : SimM m m -> sensible m x -> mi_cls (mexec x m) = mi_cls m /\ mi_kind (mexec x m) = mi_kind m.
Proof.
  intros HS _. pose proof HS as [_ _ _ _ _ (g & _ & I) (gx & _ & Ix)].
  destruct x as [a v|y|y|o|v|v|l| |]; cbn [mexec]; try (split; reflexivity).
  - unfold m_set, numeric_fset. destruct (has_prop _ _); [|auto]. destruct (numeric_decide _ _ _) as [[|]|e]; auto.
  - destruct (JM_psf no_mix no_mix_lawful false m g gx I Ix m (JM_start m g gx I Ix)) as [_ J]. pose proof (same_alike _ _ (jm_same _ _ _ _ J)) as A. split; apply A.
  - destruct (JM_otf no_mix no_mix_lawful false m g gx I Ix m (JM_start m g gx I Ix)) as [_ J]. pose proof (same_alike _ _ (jm_same _ _ _ _ J)) as A. split; apply A.
Qed.
Lemma sensible_same m m' x : mi_cls m' = mi_cls m -> mi_kind m' = mi_kind m -> sensible m x -> sensible m' x.
Proof. intros H1 H2. destruct x; cbn; rewrite ?H1, ?H2; auto. Qed.
Lemma run_Sim h : forall m, SimM m m -> Forall (sensible m) h -> SimM (mrun h m) (mrun h m).
Proof.
  induction h as [|x h IH]; intros m HS Hh; [exact HS|]. inversion Hh as [|? ? H1 H2]; subst. cbn [mrun]. destruct (mexec_fixed x m HS H1) as [C K].
  apply IH; [now apply Sim_event|]. eapply Forall_impl; [|exact H2]. intros y. now apply sensible_same.
Qed.
Lemma in_use_Sim m : in_use m -> SimM m m.
Proof. intros (a & m0 & h & Hb & Hh & ->). apply run_Sim; [now apply (built_Sim a)|exact Hh]. Qed.

Section B.
Context (X : mixture numeric) (LX : lawful numeric X) (b : bool).
Lemma mruns_exec x s : q_m (mruns X b x s) = mexec x (q_m s).
Proof.
  destruct x as [a v|y|y|o|v|v|l| |]; cbn [mruns mexec]; try reflexivity.
  - apply (QRef_set a v s).
  - unfold put_model. cbn. f_equal. apply obj_eq_eq. apply (runs_ref numeric X LX b (mi_cls (q_m s)) y (model_mem s)).
  - unfold put_exc. cbn. f_equal. apply obj_eq_eq. apply (runs_ref numeric X LX b (mi_cls (q_m s)) y (exc_mem s)).
  - apply (QRef_PSF X LX b s).
  - apply (QRef_OTF X LX b s).
Qed.
(** one broken read *)
Lemma Sim_broken_read x n s m : SimM (q_m s) m ->
  exists l, (l = [] \/ (l = [MReadPSF] /\ x <> AskModelPSF) \/ (l = [MReadOTF] /\ x = AskOTF)) /\ SimM (q_m (qcut n (qask X b x) s)) (mrun l m).
Proof.
  intros HS. pose proof HS as [Ha Hp Ho Hv Hvx (g & I1 & I2) (gx & X1 & X2)].
  assert (I1' : Inv numeric (mi_cls (q_m s)) (mi_model (q_m s)) g) by (rewrite (alike_cls _ _ Ha); exact I1).
  assert (X1' : Inv numeric (mi_cls (q_m s)) (mi_exc (q_m s)) gx) by (rewrite (alike_cls _ _ Ha); exact X1).
  pose proof (JM_cut X LX b (q_m s) g gx I1' X1' x n s eq_refl) as HJ.
  set (q' := qcut n (qask X b x) s) in *. destruct HJ as [Js Ji Jx Jp Jo].
  pose proof (same_alike _ _ Js) as As. pose proof (alike_trans _ _ _ As Ha) as A'. rewrite (alike_cls _ _ Ha) in Ji, Jx.
  pose proof (JM_start (q_m s) g gx I1' X1') as J0. destruct (JM_psf X LX b (q_m s) g gx I1' X1' _ J0) as [Ep _]. destruct (JM_otf X LX b (q_m s) g gx I1' X1' _ J0) as [Eo _].
  destruct (Sim_read_psf _ _ HS) as [Sp Fp]. destruct (Sim_read_otf _ _ HS) as [So Fo].
  (* the three ways it can end *)
  assert (W0 : mi_psf (q_m q') = mi_psf (q_m s) -> mi_otf (q_m q') = mi_otf (q_m s) -> SimM (q_m q') m).
  { intros H1 H2. constructor; eauto; congruence. }
  assert (W : forall m', SimM m' m' -> alike m' m -> (exists g', g' = g /\ Inv numeric (mi_cls m') (mi_model m') g') -> (exists g', g' = gx /\ Inv numeric (mi_cls m') (mi_exc m') g') ->
              mi_psf (q_m q') = mi_psf m' -> mi_otf (q_m q') = mi_otf m' -> SimM (q_m q') m').
  { intros m' Sm Am (? & -> & J1) (? & -> & J2) H1 H2. constructor; auto.
    - eapply alike_trans; [exact A'|]. now apply alike_sym.
    - apply (si_valid _ _ Sm).
    - apply (si_xvalid _ _ Sm).
    - exists g. rewrite (alike_cls _ _ Am) in *. auto.
    - exists gx. rewrite (alike_cls _ _ Am) in *. auto. }
  destruct (JM_psf X LX b m g gx I2 X2 m (JM_start m g gx I2 X2)) as [Em Jm]. destruct (JM_otf X LX b m g gx I2 X2 m (JM_start m g gx I2 X2)) as [Emo Jmo].
  pose proof (same_alike _ _ (jm_same _ _ _ _ Jm)) as Am. pose proof (same_alike _ _ (jm_same _ _ _ _ Jmo)) as Amo.
  destruct (psf_effect m) as [Em1 Em2]. destruct (otf_effect m) as [Eo1 Eo2].
  (* what the PSF cache can be *)
  assert (HP : mi_psf (q_m q') = mi_psf (q_m s) \/ (mi_psf (q_m s) = None /\ mi_psf (q_m q') = mi_psf (snd (m_PSF m)))).
  { destruct (mi_psf (q_m q')) as [a|] eqn:Ea; [|left; congruence]. destruct (mi_psf (q_m s)) as [a'|] eqn:Ea'.
    - left. unfold right_psf in Jp. rewrite Ea' in Jp. congruence.
    - right. split; [reflexivity|]. rewrite Em2, <- Fp, Ep, Jp. reflexivity. }
  assert (PSF_case : mi_otf (q_m q') = mi_otf (q_m s) -> x <> AskModelPSF ->
     exists l, (l = [] \/ (l = [MReadPSF] /\ x <> AskModelPSF) \/ (l = [MReadOTF] /\ x = AskOTF)) /\ SimM (q_m q') (mrun l m)).
  { intros Hot Hne. destruct HP as [HP|[HP1 HP2]].
    - exists []. split; [auto|]. now apply W0.
    - exists [MReadPSF]. split; [auto|]. cbn [mrun mexec]. apply W; try assumption.
      + eapply Sim_self; exact Sp.
      + exists g. rewrite (alike_cls _ _ Am). split; [reflexivity|apply (jm_inv _ _ _ _ Jm)].
      + exists gx. rewrite (alike_cls _ _ Am). split; [reflexivity|apply (jm_xinv _ _ _ _ Jm)].
      + congruence. }
  destruct x.
  - apply PSF_case; [|discriminate]. unfold q'. cbn [qask]. destruct (cut_ret (qPSF X b) SeePSF n s) as [j ->]. apply cut_PSF_otf.
  - assert (HO : mi_otf (q_m q') = mi_otf (q_m s) \/ mi_psf (q_m q') <> None).
    { unfold q'. cbn [qask]. destruct (cut_ret (qOTF X b) SeeOTF n s) as [j ->]. now apply cut_OTF. }
    destruct HO as [HO|HO]; [apply PSF_case; [exact HO|discriminate]|].
    destruct (mi_otf (q_m q')) as [f|] eqn:Ef; [|apply PSF_case; [congruence|discriminate]].
    destruct (mi_otf (q_m s)) as [f'|] eqn:Ef'; [apply PSF_case; [|discriminate]; unfold right_otf in Jo; rewrite Ef' in Jo; congruence|].
    exists [MReadOTF]. split; [auto|]. cbn [mrun mexec]. apply W; try assumption.
    + eapply Sim_self; exact So.
    + exists g. rewrite (alike_cls _ _ Amo). split; [reflexivity|apply (jm_inv _ _ _ _ Jmo)].
    + exists gx. rewrite (alike_cls _ _ Amo). split; [reflexivity|apply (jm_xinv _ _ _ _ Jmo)].
    + rewrite Eo1, <- Ho. destruct HP as [HP|[_ HP]]; [|exact HP]. rewrite HP. rewrite HP in HO. destruct (mi_psf (q_m s)) as [a|] eqn:Ea; [|now elim HO].
      rewrite Em2. rewrite <- Fp. unfold m_PSF. rewrite Ea. reflexivity.
    + rewrite Eo2, <- Fo, Eo. now rewrite Jo.
  - exists []. split; [auto|]. unfold q' in *. cbn [qask] in *. destruct (cut_ret (qmodel_psf X b) SeeModel n s) as [j Hj]. rewrite Hj in *.
    destruct (cut_hands_off j (qmodel_psf X b) s (MT_model_psf X b)). now apply W0.
Qed.
Lemma mrun_app l : forall h m, mrun (l ++ h)%list m = mrun h (mrun l m).
Proof. induction l as [|x l IH]; intros h m; [reflexivity|]. cbn. apply IH. Qed.
Lemma Sim_history h : forall s m, SimM (q_m s) m -> Forall (sensible_i m) h ->
  exists h', as_if h h' /\ SimM (q_m (mrun_broken X b h s)) (mrun h' m).
Proof.
  induction h as [|[x|x n] h IH]; intros s m HS Hh; inversion Hh as [|? ? H1 H2]; subst; cbn [mrun_broken].
  - exists []. split; [constructor|exact HS].
  - destruct (mexec_fixed x m (Sim_self _ _ HS) H1) as [C K].
    destruct (IH (mruns X b x s) (mexec x m)) as (h' & A & S).
    + rewrite mruns_exec. now apply Sim_event.
    + eapply Forall_impl; [|exact H2]. intros [y|y j]; cbn; auto. now apply sensible_same.
    + exists (x :: h'). split; [now constructor|exact S].
  - destruct (Sim_broken_read x n s m HS) as (l & Hl & S1).
    assert (CK : mi_cls (mrun l m) = mi_cls m /\ mi_kind (mrun l m) = mi_kind m).
    { pose proof (Sim_self _ _ HS) as HSm. destruct Hl as [->|[[-> _]|[-> _]]]; cbn [mrun]; [auto| |]; apply mexec_fixed; auto; exact I. }
    destruct CK as [C K]. destruct (IH _ _ S1) as (h' & A & S).
    + eapply Forall_impl; [|exact H2]. intros [y|y j]; cbn; auto. now apply sensible_same.
    + rewrite <- mrun_app in S. exists (l ++ h')%list. split; [|exact S]. destruct Hl as [->|[[-> Hx]|[-> ->]]]; now constructor.
Qed.
Lemma Sim_answer q m x : SimM q m -> answer x q = answer x m.
Proof.
  intros HS. destruct x; cbn [answer].
  - now rewrite (proj2 (Sim_read_psf _ _ HS)).
  - now rewrite (proj2 (Sim_read_otf _ _ HS)).
  - destruct HS as [Ha Hp Ho Hv Hvx (g & I1 & I2) (gx & X1 & X2)]. pose proof (Sim_JM q m g gx Ha Hp Ho I1 X1) as Jq. pose proof (JM_start m g gx I2 X2) as Jm.
    pose proof (JM_answer X LX b m g gx I2 X2 AskModelPSF q Jq) as H1. pose proof (JM_answer X LX b m g gx I2 X2 AskModelPSF m Jm) as H2. cbn [answer] in H1, H2. congruence.
Qed.
End B.
