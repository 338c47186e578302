(** C95: operations that are interrupted (KeyboardInterrupt) between any two atomic steps. *)
From Verif Require Import M_PSF S_PSF S_Steps L_PSF L_Steps L_Steps2 L_Interrupt T_PSF T_Threads.


(** Interrupted reads might as well not have happened: same parameters, and every later read gives the same. *)
Theorem C95_interrupted_reads_leave_no_trace :
  forall (E : engine) (X : mixture E) (locking : bool) (c : cls) (k : ctor) (m0 : mem E) (h : list (iop E)),
    lawful E X -> construct E c k = Ok (m_obj m0) ->
    let m := run_broken E X locking c h m0 in
    let o := run E c (whole_ops E h) (m_obj m0) in
    o_attr (m_obj m) = o_attr o /\ o_zrange (m_obj m) = o_zrange o /\
    forall s, fst (finish E (pread E X locking c s) m) = fst (read E c s o) /\
              fst (read E c s o) = scratch E c s (obj_params o) (in_force E c (whole_ops E h) (m_obj m0) None).
Proof.
  intros E X b c k m0 h LX Hc. cbn zeta. destruct (construct_ok E c k _ Hc) as (Hv & HI & _).
  assert (S0 : Sim E c m0 (m_obj m0) None) by (split; [split; reflexivity|auto]).
  destruct (Sim_run E X LX b c h m0 (m_obj m0) None S0) as ([Ha Hz] & _ & HIm & HIo).
  split; [exact Ha|]. split; [exact Hz|]. intros s. split.
  - rewrite (proj1 (Ref_read E X LX b c s _ _ (obj_eq_refl E _))).
    rewrite (proj1 (read_good E c s _ _ HIm)), (proj1 (read_good E c s _ _ HIo)). f_equal. apply same_par_params. split; auto.
  - now apply (read_good E c s).
Qed.
Print Assumptions C95_interrupted_reads_leave_no_trace.

(** An interrupted assignment leaves the old value or the new one, the other attributes as they were, and no
    array that was not there before; the parameters are still valid. *)
Theorem C95_interrupted_assignment :
  forall (E : engine) (c : cls) (k : ctor) (o0 : obj E) (h : list (op E)) (s : assignment) (n : nat) (m : mem E),
    construct E c k = Ok o0 -> m_obj m = run E c h o0 ->
    let o := m_obj m in
    let o' := m_obj (cut E n (passign E c s) m) in
    (forall a, o_attr o' a = o_attr o a \/
               exists v, s = SetNum a v /\ o_attr o' a = Some v /\ o_attr (snd (assign E c s o)) a = Some v) /\
    (forall t, o_cache o' t = o_cache o t \/ o_cache o' t = None) /\
    (o_zrange o' = o_zrange o \/ o_zrange o' = o_zrange (snd (assign E c s o))) /\
    (forall a, (a = A_dual -> c = Sheppard) -> exists v, o_attr o' a = Some v /\ valid_value a v).
Proof.
  intros E c k o0 h s n m Hc Hm. cbn zeta.
  pose proof (Trace_cut E _ (writes_refl E _ _) (writes_trans E _ _) n (passign E c s) m (T_assign E c s)) as (_ & W1 & W2).
  assert (Hfin : forall a v, target s = Some (a, v) -> o_attr (m_obj (cut E n (passign E c s) m)) a = Some v -> o_attr (snd (assign E c s (m_obj m))) a = Some v).
  { intros a v Hs Hv. destruct (Ref_assign E c s m (m_obj m) (obj_eq_refl E _)) as [_ (Ra & _ & _)]. rewrite <- Ra. rewrite (finish_later E n). rewrite cut_later in Hv.
    pose proof (Trace_finish E _ (writes_refl E _ _) (writes_trans E _ _) _ (Trace_later E _ n _ m (T_assign E c s)) (snd (later E n (passign E c s) m))) as (_ & F1 & _).
    destruct (F1 a) as [H|(v' & Hs' & Hv')]; congruence. }
  split; [|split; [exact W2|split; [|]]].
  { intros a. destruct (W1 a) as [H|(v & Hs & Hv)]; [auto|]. right. exists v. split; [|split; [exact Hv|now apply Hfin]]. destruct s as [b w|z]; cbn in Hs; congruence. }
  { destruct (Ref_assign E c s m (m_obj m) (obj_eq_refl E _)) as [_ (_ & Rz & _)]. rewrite <- Rz. apply zr_assign. }
  destruct (reachable_valid E c k o0 h Hc) as [Hw [Hcm _]]. rewrite <- Hm in Hw, Hcm.
  intros a Ha.
  assert (Hold : exists v, o_attr (m_obj m) a = Some v /\ valid_value a v).
  { destruct (o_attr (m_obj m) a) as [v|] eqn:Ea; [exists v; split; auto|]. exfalso. refine (Hcm a _ Ea). unfold needed. destruct a, c; auto. specialize (Ha eq_refl). discriminate. }
  destruct (W1 a) as [H|(v & Hs & Hv)]; [rewrite H; exact Hold|]. exists v. split; [exact Hv|].
  specialize (Hfin a v Hs Hv).
  pose proof (assign_valid E c s (m_obj m)) as Av. rewrite Hm in Av, Hfin. specialize (Av (reachable_valid E c k o0 h Hc)).
  now apply (proj1 Av).
Qed.
Print Assumptions C95_interrupted_assignment.

(** Any accepted assignment that changes something makes the object right again, whatever is in its caches. *)
Theorem C95_a_change_repairs :
  forall (E : engine) (c : cls) (o o' : obj E) (s : assignment),
    o_attr o A_zres <> None -> changes E c s o = true -> assign E c s o = (Ok tt, o') ->
    forall t, fst (read E c t o') = scratch E c t (obj_params o') None.
Proof.
  intros E c o o' s Hz Hch Ha t. destruct (assign_outcome E c s o Hz) as [[e H]|[[H _]|(_ & o2 & H & Hn)]].
  - congruence.
  - congruence.
  - assert (o2 = o') as -> by congruence. apply read_good. split; [intros q x; rewrite Hn; discriminate|congruence].
Qed.
Print Assumptions C95_a_change_repairs.

(** Repeating the interrupted assignment repairs it for the setters that always clear. *)
Theorem C95_retry :
  forall (E : engine) (c : cls) (k : ctor) (o0 : obj E) (h : list (op E)) (s : assignment) (n : nat) (m : mem E),
    construct E c k = Ok o0 -> m_obj m = run E c h o0 ->
    always_clears c s = true -> fst (assign E c s (m_obj m)) = Ok tt ->
    let once := finish E (passign E c s) m in
    let again := finish E (passign E c s) (cut E n (passign E c s) m) in
    fst again = Ok tt /\
    (forall a, o_attr (m_obj (snd again)) a = o_attr (m_obj (snd once)) a) /\
    o_zrange (m_obj (snd again)) = o_zrange (m_obj (snd once)) /\
    forall t, o_cache (m_obj (snd again)) t = None.
Proof.
  intros E c k o0 h s n m Hc Hm Hs Hok.
  destruct (reachable_valid E c k o0 h Hc) as [Hw [Hcm _]]. rewrite <- Hm in Hw, Hcm.
  pose proof (C95_interrupted_assignment E c k o0 h s n m Hc Hm) as (HA & _). cbn zeta in HA |- *.
  assert (HZ : touches_zrange c s = false -> o_zrange (m_obj (cut E n (passign E c s) m)) = o_zrange (m_obj m)).
  { apply (Trace_cut E _ (writes_refl E _ _) (writes_trans E _ _) n (passign E c s) m (T_assign E c s)). }
  set (m1 := cut E n (passign E c s) m) in *. clearbody m1. clear Hm Hc.
  assert (Hzs : o_attr (m_obj m) A_zsize <> None) by (apply Hcm; destruct c; reflexivity).
  assert (Hzr : o_attr (m_obj m) A_zres <> None) by (apply Hcm; destruct c; reflexivity). clear Hcm.
  pose proof (Ref_assign E c s m (m_obj m) (obj_eq_refl E _)) as [R1 (R2 & R3 & R4)].
  pose proof (Ref_assign E c s m1 (m_obj m1) (obj_eq_refl E _)) as [S1 (S2 & S3 & S4)].
  rewrite S1, S2, S3, R2, R3. assert (S4' : forall t, o_cache (snd (assign E c s (m_obj m1))) t = None -> o_cache (m_obj (snd (finish E (passign E c s) m1))) t = None) by (intros t; now rewrite S4).
  enough (G : fst (assign E c s (m_obj m1)) = Ok tt /\ (forall a, o_attr (snd (assign E c s (m_obj m1))) a = o_attr (snd (assign E c s (m_obj m))) a) /\
              o_zrange (snd (assign E c s (m_obj m1))) = o_zrange (snd (assign E c s (m_obj m))) /\ forall t, o_cache (snd (assign E c s (m_obj m1))) t = None).
  { destruct G as (G1 & G2 & G3 & G4). auto 10. }
  clear R1 R2 R3 R4 S1 S2 S3 S4 S4'. set (o := m_obj m) in *. set (o1 := m_obj m1) in *. clearbody o o1. clear m m1.
  (* the attributes that a check looks at are unchanged *)
  assert (Other : forall a b v, s = SetNum a v -> b <> a -> o_attr o1 b = o_attr o b).
  { intros a b v -> Hb. destruct (HA b) as [H|(v' & H & _)]; [exact H|congruence]. }
  assert (PutEq : forall a v, s = SetNum a v -> forall b, (if attr_eqb a b then Some v else o_attr o1 b) = (if attr_eqb a b then Some v else o_attr o b)).
  { intros a v Hv b. destruct (attr_eqb a b) eqn:Eb; [reflexivity|]. apply (Other a b v Hv). intros ->. destruct a; discriminate. }
  assert (Gz : forall p q : obj E, (forall a, o_attr p a = o_attr q a) -> o_attr q A_zsize <> None -> o_attr q A_zres <> None ->
            fst (ignore_attribute_error E (gen_zrange E) p) = Ok tt /\ fst (ignore_attribute_error E (gen_zrange E) q) = Ok tt /\
            (forall a, o_attr (snd (ignore_attribute_error E (gen_zrange E) p)) a = o_attr (snd (ignore_attribute_error E (gen_zrange E) q)) a) /\
            o_zrange (snd (ignore_attribute_error E (gen_zrange E) p)) = o_zrange (snd (ignore_attribute_error E (gen_zrange E) q)) /\
            forall t, o_cache (snd (ignore_attribute_error E (gen_zrange E) p)) t = None).
  { intros p q Hpq H1 H2. unfold ignore_attribute_error.
    destruct (gen_zrange_cases E q) as [(nn & d & Hn & Hd & ->)|[[H|H] _]]; try contradiction.
    destruct (gen_zrange_cases E p) as [(nn' & d' & Hn' & Hd' & ->)|[[H|H] _]]; [|rewrite Hpq in H; contradiction|rewrite Hpq in H; contradiction].
    rewrite Hpq in Hn', Hd'. rewrite Hn in Hn'. rewrite Hd in Hd'. injection Hn' as <-. injection Hd' as <-. cbn. repeat split; auto. }
  destruct s as [a v|z].
  - destruct a; cbn [always_clears] in Hs; try discriminate Hs.
    + (* res *) cbn [assign] in *. unfold res_set, bindM, lift, getattr in *.
      rewrite (Other A_res A_na v eq_refl) by discriminate.
      destruct (o_attr o A_na); [|discriminate Hok]. rewrite (Other A_res A_wl v eq_refl) by discriminate. destruct (o_attr o A_wl); [|discriminate Hok].
      destruct (fl_div _ _); [|discriminate Hok]. destruct (fl_div _ _); [|discriminate Hok]. destruct (py_ge _ _) as [[|]|]; try discriminate Hok.
      cbn. split; [reflexivity|]. split; [apply (PutEq A_res v eq_refl)|]. split; [apply HZ; now destruct c|reflexivity].
    + (* zres *) destruct c; cbn [assign] in *.
      * unfold hanser_zres_set, base_zres_set, bindM, lift in *. destruct (py_gt v (VInt 0)) as [[|]|]; cbn [negb] in *; try discriminate Hok.
        unfold setattr, attribute_changed in *. cbn [fst snd] in *.
        match goal with |- context [fst (ignore_attribute_error E (gen_zrange E) ?p) = Ok tt] => match goal with |- context [_ = o_attr (snd (ignore_attribute_error E (gen_zrange E) ?q)) _] => edestruct (Gz p q) as (G1 & _ & G2 & G3 & G4); cbn [o_attr]; [apply (PutEq A_zres v eq_refl)|cbn; exact Hzs|cbn; discriminate|] end end. auto.
      * unfold sheppard_zres_set, base_zres_set, bindM, lift, getattr in *.
        rewrite (Other A_zres A_wl v eq_refl) by discriminate.
        destruct (o_attr o A_wl); [|discriminate Hok]. rewrite (Other A_zres A_ni v eq_refl) by discriminate. destruct (o_attr o A_ni); [|discriminate Hok].
        destruct (fl_div _ _); [|discriminate Hok]. destruct (fl_div _ _); [|discriminate Hok]. destruct (py_ge _ _) as [[|]|]; try discriminate Hok.
        destruct (py_gt v (VInt 0)) as [[|]|]; cbn [negb] in *; try discriminate Hok.
        cbn. split; [reflexivity|]. split; [apply (PutEq A_zres v eq_refl)|]. split; [apply HZ; reflexivity|reflexivity].
    + (* zsize of a HanserPSF *) destruct c; [|discriminate Hs]. cbn [assign] in *. unfold hanser_zsize_set, bindM in *.
      assert (Hn : exists p q : obj E, numeric_set E A_zsize TInt v o1 = (Ok tt, p) /\ numeric_set E A_zsize TInt v o = (Ok tt, q) /\
                 (forall a, o_attr p a = o_attr q a) /\ o_attr q A_zsize <> None /\ o_attr q A_zres <> None).
      { unfold numeric_set, numeric_fset in *. destruct (numeric_decide (o_attr o A_zsize) TInt v) as [d|e] eqn:Ed; [|discriminate Hok].
        unfold numeric_decide in Ed |- *. destruct (isinstance v TInt) eqn:Ei; cbn [negb] in *; [|discriminate Ed].
        destruct (py_lt v (VInt 0)) as [[|]|] eqn:El; cbn [bind] in *; try discriminate Ed. injection Ed as <-.
        destruct (HA A_zsize) as [H1|(v' & Hv' & H1 & HF)]; rewrite H1.
        - destruct (negb _); (eexists; eexists; split; [reflexivity|]; split; [reflexivity|]); cbn [snd o_attr attribute_changed setattr].
          + split; [apply (PutEq A_zsize v eq_refl)|]. cbn. split; [discriminate|exact Hzr].
          + split; [|auto]. intros b. destruct (HA b) as [H|(w & Hw' & H & _)]; [exact H|]. assert (b = A_zsize) as -> by congruence. congruence.
        - assert (v' = v) by congruence. subst v'.
          assert (Hvv : py_eq v v = true).
          { destruct v; cbn in Ei |- *; try discriminate; unfold py_eq; cbn; apply Qeq_bool_iff; reflexivity. }
          rewrite Hvv. cbn [negb].
          destruct (o_attr o A_zsize) as [w|] eqn:Ew; [|now elim Hzs]. destruct (py_eq w v) eqn:Ewv; cbn [negb]; eexists; eexists; (split; [reflexivity|]).
          + split; [reflexivity|]. split; [|split; [rewrite Ew; discriminate|exact Hzr]].
            assert (Hwv : Some w = Some v) by (rewrite <- HF, <- Ew; unfold numeric_decide; rewrite ?Ei; cbn [negb bind]; rewrite ?El; cbn [negb bind]; rewrite ?Ew, ?Ewv; cbn [negb]; unfold ignore_attribute_error; destruct (gen_zrange_cases E o) as [(nn & d & _ & _ & ->)|[_ ->]]; cbn; rewrite ?Ew; reflexivity).
            intros b. destruct (HA b) as [H|(w' & Hw' & H & _)]; [exact H|]. assert (b = A_zsize) as -> by congruence. congruence.
          + split; [reflexivity|]. cbn [snd o_attr attribute_changed setattr]. split; [|cbn; split; [discriminate|exact Hzr]].
            intros b. rewrite <- (PutEq A_zsize v eq_refl b). destruct (attr_eqb A_zsize b) eqn:Eb; [|reflexivity]. apply attr_eqb_eq in Eb. now subst. }
      destruct Hn as (p & q & -> & -> & Hpq & H1 & H2). destruct (Gz p q Hpq H1 H2) as (G1 & _ & G2 & G3 & G4). auto.
    + (* vec_corr *) cbn [assign] in *. unfold vec_corr_set, choice_set, bindM, lift in *. destruct (in_set v _) as [[|]|]; cbn [negb] in *; try discriminate Hok.
      cbn. split; [reflexivity|]. split; [apply (PutEq A_vec_corr v eq_refl)|]. split; [apply HZ; now destruct c|reflexivity].
    + (* condition *) cbn [assign] in *. unfold condition_set, choice_set, bindM, lift in *. destruct (in_set v _) as [[|]|]; cbn [negb] in *; try discriminate Hok.
      cbn. split; [reflexivity|]. split; [apply (PutEq A_condition v eq_refl)|]. split; [apply HZ; now destruct c|reflexivity].
    + (* dual *) destruct c; [discriminate Hs|]. cbn [assign] in *. unfold dual_set in *. destruct (isinstance v TBool); cbn [negb] in *; [|discriminate Hok].
      cbn. split; [reflexivity|]. split; [apply (PutEq A_dual v eq_refl)|]. split; [apply HZ; reflexivity|reflexivity].
  - destruct c; [|discriminate Hs]. cbn. split; [reflexivity|]. split; [|split; reflexivity].
    intros b. destruct (HA b) as [H|(w & Hw' & H & _)]; [exact H|discriminate].
Qed.
Print Assumptions C95_retry.

(** ... but not for wl, na, ni and size, whose setters do nothing when the value is the current one: the first attempt has
    stored it, the second is skipped, and the arrays of the old parameters stay. *)
Theorem C95_retry_does_not_repair_refuted :
  forall a v, In (a, v) [(A_wl, VInt 600); (A_na, VInt 1); (A_ni, VInt 2); (A_size, VInt 32)] ->
  exists (n : nat) (m : mem toy), m_obj m = run toy Hanser [Read toy PSFi] (made_of toy Hanser) /\
    let once := cut toy n (passign toy Hanser (SetNum a v)) m in
    let '(r, m2) := finish toy (passign toy Hanser (SetNum a v)) once in
    r = Ok tt /\ o_attr (m_obj m2) a = Some v /\
    fst (read toy Hanser PSFi (m_obj m2)) = scratch toy Hanser PSFi (obj_params (m_obj m)) None /\
    fst (read toy Hanser PSFi (m_obj m2)) <> scratch toy Hanser PSFi (obj_params (m_obj m2)) None.
Proof.
  intros a v H. exists 2%nat, (fresh_mem toy (run toy Hanser [Read toy PSFi] (made_of toy Hanser))). split; [reflexivity|].
  destruct H as [[= <- <-]|[[= <- <-]|[[= <- <-]|[[= <- <-]|[]]]]]; vm_compute; repeat split; discriminate.
Qed.
Print Assumptions C95_retry_does_not_repair_refuted.

(** apply_pupil: when no pupil was in force, or once the old arrays are cleared (four steps), an interruption leaves a model
    that is right either without a pupil or with the new one. *)
Theorem C95_interrupted_apply_pupil :
  forall (E : engine) (X : mixture E) (locking : bool) (k : ctor) (o0 : obj E) (h : list (op E)) (p : pupil E) (n : nat) (m : mem E),
    lawful E X -> construct E Hanser k = Ok o0 -> m_obj m = run E Hanser h o0 ->
    (in_force E Hanser h o0 None = None \/ (4 <= n)%nat) ->
    let m' := cut E n (papply E X p) m in
    obj_params (m_obj m') = obj_params (m_obj m) /\
    exists g, (g = None \/ g = Some p) /\
      forall s, fst (finish E (pread E X locking Hanser s) m') = scratch E Hanser s (obj_params (m_obj m)) g.
Proof.
  intros E X b k o0 h p n m LX Hc Hm Hn. cbn zeta.
  pose proof (reached_J E Hanser k o0 h m Hc Hm) as (_ & _ & HI). set (g0 := in_force E Hanser h o0 None) in *. clearbody g0.
  set (R := fun m m' : mem E => o_attr (m_obj m') = o_attr (m_obj m) /\ o_zrange (m_obj m') = o_zrange (m_obj m) /\
               forall s, o_cache (m_obj m') s = o_cache (m_obj m) s \/ o_cache (m_obj m') s = None).
  assert (Rr : forall m, R m m) by (intros; repeat split; auto).
  assert (Rt : forall m m' m'', R m m' -> R m' m'' -> R m m'').
  { intros m1 m2 m3 (A1 & B1 & C1) (A2 & B2 & C2). split; [congruence|]. split; [congruence|]. intros s. destruct (C2 s) as [H|H]; rewrite H; auto. }
  assert (Rd : forall s m, R m (w_del E s m)).
  { intros s m1. split; [reflexivity|]. split; [reflexivity|]. intros t. cbn. destruct (slot_eqb s t); auto. }
  assert (Rc : Trace E R (pchanged E)).
  { repeat (constructor; [intros; apply Rd|intros _]). constructor. }
  assert (Rg : Trace E R (pgen_psf E X (Some p))).
  { apply Trace_bind; [exact Rc|]. intros _. assert (Kr : forall j i (q : prog E (arr E)), Trace E R q -> Trace E R (pgen_kr E j i q)).
    { induction j as [|j IH]; intros i q Hq; cbn [pgen_kr]; auto. constructor; [intros; repeat split; cbn; auto|]. intros _. now apply IH. }
    apply Kr. constructor; [auto|]. intros m1. constructor. }
  (* whatever happens, the result follows from the state of the caches *)
  assert (Fin : forall m' g, obj_params (m_obj m') = obj_params (m_obj m) -> Inv E Hanser (m_obj m') g ->
             forall s, fst (finish E (pread E X b Hanser s) m') = scratch E Hanser s (obj_params (m_obj m)) g).
  { intros m' g Hp HI' s. rewrite (proj1 (Ref_read E X LX b Hanser s m' _ (obj_eq_refl E _))). rewrite (proj1 (read_good E Hanser s g _ HI')). now rewrite Hp. }
  assert (Par : forall m', R m m' -> obj_params (m_obj m') = obj_params (m_obj m)).
  { intros m' (A1 & B1 & _). unfold obj_params. now rewrite A1, B1. }
  (* a state below m, when no pupil was in force *)
  assert (Sub : g0 = None -> forall m', R m m' -> Inv E Hanser (m_obj m') None).
  { intros -> m' HR. pose proof (Par m' HR) as Hp. destruct HR as (A1 & B1 & C1). split; [|congruence]. intros s x Hx. rewrite Hp. apply (proj1 HI).
    destruct (C1 s) as [H|H]; congruence. }
  assert (Clr : forall m1 m', (forall s, o_cache (m_obj m1) s = None) -> R m1 m' -> Inv E Hanser (m_obj m') None).
  { intros m1 m' Hn1 (A1 & B1 & C1). split; [|congruence]. intros s x Hx. destruct (C1 s) as [H|H]; rewrite ?Hn1 in H; congruence. }
  unfold papply.
  destruct (cut_bind E (fun _ : unit => pbind E (pgen_psf E X (Some p)) (fun x => pdo E (w_store E PSFa x) (pret E tt))) n (pchanged E) m)
    as [->|(n1 & u & m1 & Hf & ->)].
  - pose proof (Trace_cut E R Rr Rt n (pchanged E) m Rc) as HR. split; [now apply Par|]. exists None. split; [auto|].
    apply Fin; [now apply Par|]. destruct Hn as [Hn|Hn]; [now apply Sub|].
    apply (Clr (cut E n (pchanged E) m)); [|apply Rr]. do 4 (destruct n as [|n]; [lia|]). intros s. unfold pchanged, pdo. cbn [cut]. now destruct n, s.
  - assert (H1 : R m m1) by (pose proof (Trace_finish E R Rr Rt _ Rc m) as H; now rewrite Hf in H).
    assert (N1 : forall s, o_cache (m_obj m1) s = None).
    { intros s. pose proof (Ref_changed E m (m_obj m) (obj_eq_refl E _)) as [_ (_ & _ & H)]. rewrite Hf in H. now rewrite H. }
    destruct (cut_bind E (fun x => pdo E (w_store E PSFa x) (pret E tt)) n1 (pgen_psf E X (Some p)) m1) as [->|(n2 & x & m2 & Hf2 & ->)].
    + pose proof (Trace_cut E R Rr Rt n1 _ m1 Rg) as HR. assert (HR' : R m (cut E n1 (pgen_psf E X (Some p)) m1)) by (eapply Rt; eauto).
      split; [now apply Par|]. exists None. split; [auto|]. apply Fin; [now apply Par|]. now apply (Clr m1).
    + assert (H2 : R m1 m2) by (pose proof (Trace_finish E R Rr Rt _ Rg m1) as H; now rewrite Hf2 in H). assert (H2' : R m m2) by (eapply Rt; eauto).
      pose proof (Par m2 H2') as Hp2.
      assert (Hx : e_gen_psf E (obj_params (m_obj m)) (Some p) = Ok x).
      { pose proof (Ref_gen_psf E X LX (Some p) m1 (m_obj m1) (obj_eq_refl E _)) as [H _]. rewrite Hf2 in H. cbn [fst] in H.
        rewrite <- (Par m1 H1). cbn in H. symmetry. exact H. }
      destruct n2 as [|n2].
      * cbn [cut]. split; [exact Hp2|]. exists None. split; [auto|]. apply Fin; [exact Hp2|]. apply (Clr m1); auto.
      * unfold pdo, pret. replace (cut E (S n2) _ m2) with (w_store E PSFa x m2) by (cbn [cut]; now destruct n2).
        split; [exact Hp2|]. exists (Some p). split; [auto|]. apply Fin; [exact Hp2|]. split; [|intros; cbn; discriminate].
        intros s y Hy. change (obj_params (m_obj (w_store E PSFa x m2))) with (obj_params (m_obj m2)). rewrite Hp2. cbn in Hy.
        destruct s; cbn in Hy; [injection Hy as <-; exact Hx|..]; exfalso;
          match type of Hy with o_cache _ ?s = _ => destruct (proj2 (proj2 H2) s) as [H|H]; rewrite ?N1 in H; congruence end.
Qed.
Print Assumptions C95_interrupted_apply_pupil.

(** Replacing one pupil by another is not safe during the clearing: the arrays disagree about the pupil. *)
Theorem C95_interrupted_replacement_refuted :
  exists (n : nat) (m : mem toy), m_obj m = run toy Hanser [Apply toy 5; Read toy PSFi] (made_of toy Hanser) /\
    let m' := cut toy n (papply toy toy_mix 6) m in
    ~ exists g, forall s, fst (read toy Hanser s (m_obj m')) = scratch toy Hanser s (obj_params (m_obj m)) g.
Proof.
  exists 1%nat, (fresh_mem toy (run toy Hanser [Apply toy 5; Read toy PSFi] (made_of toy Hanser))). split; [reflexivity|].
  cbn zeta. intros [g Hg]. pose proof (Hg PSFa) as H1. pose proof (Hg PSFi) as H2. vm_compute in H1, H2. congruence.
Qed.
Print Assumptions C95_interrupted_replacement_refuted.

(** *** Cases *)
Example C95_case :
  lawful toy toy_mix /\ construct toy Sheppard (kw Sheppard) = Ok (m_obj (fresh_mem toy (made_of toy Sheppard))) /\
  (* interrupted in the middle of _gen_kr: two of the registers are written *)
  let h := [Whole toy (Read toy OTFi); Whole toy (Assign toy (SetNum A_na (VInt 1))); Broken toy PSFi 12] in
  let m := run_broken toy toy_mix false Sheppard h (fresh_mem toy (made_of toy Sheppard)) in
  m_regs m 0 <> m_regs m 6 /\ o_cache (m_obj m) OTFa = None.
Proof. split; [exact toy_lawful|]. split; [exact (kw_constructs toy Sheppard)|]. split; [vm_compute; discriminate|vm_compute; reflexivity]. Qed.
Example C95_retry_case : exists m : mem toy, m_obj m = run toy Hanser [Read toy PSFi] (made_of toy Hanser) /\
  fst (assign toy Hanser (SetNum A_zsize (VInt 9)) (m_obj m)) = Ok tt /\ always_clears Hanser (SetNum A_zsize (VInt 9)) = true /\
  (* half way the new zsize is stored but zrange still has the old length *)
  let m' := cut toy 6 (passign toy Hanser (SetNum A_zsize (VInt 9))) m in
  o_attr (m_obj m') A_zsize = Some (VInt 9) /\ option_map (@List.length fl) (o_zrange (m_obj m')) = Some 7%nat.
Proof.
  exists (fresh_mem toy (run toy Hanser [Read toy PSFi] (made_of toy Hanser))). split; [reflexivity|].
  split; [vm_compute; reflexivity|]. split; [reflexivity|]. split; vm_compute; reflexivity.
Qed.
