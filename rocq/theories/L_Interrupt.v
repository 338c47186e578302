(** Lemmas about operations that are interrupted. *)
From Verif Require Export S_Steps L_Steps2 L_PSF.

Section I.
Context (E : engine) (X : mixture E) (LX : lawful E X).
Notation obj := (obj E).
Notation mem := (mem E).

(** Setters look at the parameters only. *)
Definition same_par (o o' : obj) : Prop := o_attr o = o_attr o' /\ o_zrange o = o_zrange o'.
Definition Cong {A} (q : M E A) : Prop :=
  forall o o', same_par o o' -> fst (q o) = fst (q o') /\ same_par (snd (q o)) (snd (q o')).
Lemma Cong_bind {A B} (q : M E A) (f : A -> M E B) : Cong q -> (forall x, Cong (f x)) -> Cong (bindM E q f).
Proof.
  intros H1 H2 o o' Ho. unfold bindM. destruct (H1 o o' Ho) as [Hr Hs].
  destruct (q o) as [[x|e] o1], (q o') as [[y|e'] o1']; cbn [fst snd] in *; try discriminate; injection Hr as ->; auto. now apply H2.
Qed.
Lemma Cong_lift {A} (r : res A) : Cong (lift E r). Proof. intros o o' H. auto. Qed.
Lemma Cong_ret {A} (r : A) : Cong (ret E r). Proof. intros o o' H. auto. Qed.
Lemma Cong_raise {A} e : Cong (@raise E A e). Proof. intros o o' H. auto. Qed.
Lemma Cong_get a : Cong (getattr E a).
Proof. intros o o' [Ha Hz]. unfold getattr. rewrite <- Ha. destruct (o_attr o a); cbn; split; auto; split; auto. Qed.
Lemma Cong_put a v : Cong (bindM E (setattr E a v) (fun _ => attribute_changed E)).
Proof. intros o o' [Ha Hz]. cbn. split; auto. split; cbn; rewrite ?Ha, ?Hz; auto. Qed.
Lemma Cong_numeric a t v : Cong (numeric_set E a t v).
Proof.
  intros o o' Ho. unfold numeric_set, numeric_fset. pose proof Ho as [Ha Hz]. rewrite <- Ha.
  destruct (numeric_decide _ t v) as [[|]|e]; cbn [fst snd]; auto. split; auto. split; cbn; rewrite ?Ha, ?Hz; auto.
Qed.
Lemma Cong_zres v : Cong (base_zres_set E v).
Proof. apply Cong_bind; [apply Cong_lift|]. intros [|]; cbn [negb]; [apply Cong_put|apply Cong_raise]. Qed.
Lemma Cong_zrange z : Cong (zrange_set E z).
Proof. intros o o' [Ha Hz]. cbn. split; auto. split; cbn; rewrite ?Ha, ?Hz; auto. Qed.
Lemma Cong_ignore q : Cong q -> Cong (ignore_attribute_error E q).
Proof.
  intros H o o' Ho. unfold ignore_attribute_error. destruct (H o o' Ho) as [Hr Hs].
  destruct (q o) as [r o1], (q o') as [r' o1']; cbn [fst snd] in *. subst r'. destruct r as [[]|[]]; auto.
Qed.
Lemma Cong_gen_zrange : Cong (gen_zrange E).
Proof. unfold gen_zrange. repeat (apply Cong_bind; [apply Cong_get|intros ?]). apply Cong_zrange. Qed.
Lemma Cong_assign c s : Cong (assign E c s).
Proof.
  destruct s as [a v|z]; [|destruct c; [apply Cong_zrange|apply Cong_ret]].
  assert (Z : Cong (ignore_attribute_error E (gen_zrange E))) by apply Cong_ignore, Cong_gen_zrange.
  assert (C : forall a l, Cong (choice_set E a l v)).
  { intros a' l. apply Cong_bind; [apply Cong_lift|]. intros [|]; cbn [negb]; [apply Cong_put|apply Cong_raise]. }
  assert (R : Cong (res_set E v)).
  { unfold res_set. repeat (apply Cong_bind; [apply Cong_get || apply Cong_lift|intros ?]). destruct x3; [apply Cong_raise|apply Cong_put]. }
  destruct a; cbn [assign]; try apply Cong_numeric; try exact R; try apply C.
  - destruct c.
    + apply Cong_bind; [apply Cong_zres|auto].
    + unfold sheppard_zres_set. repeat (apply Cong_bind; [apply Cong_get || apply Cong_lift|intros ?]). destruct x3; [apply Cong_raise|apply Cong_zres].
  - destruct c; [|apply Cong_numeric]. apply Cong_bind; [apply Cong_numeric|auto].
  - destruct c; [apply Cong_ret|]. unfold dual_set. destruct (isinstance v TBool); cbn [negb]; [apply Cong_put|apply Cong_raise].
Qed.
Lemma changes_same c s (o o' : obj) : same_par o o' -> changes E c s o = changes E c s o'.
Proof. intros [Ha _]. destruct s as [a v|z]; [|reflexivity]. destruct a, c; cbn [changes]; rewrite ?Ha; reflexivity. Qed.

(** Inv and valid only depend on the object up to [obj_eq]. *)
Lemma Inv_eq c (o o' : obj) g : obj_eq E o o' -> Inv E c o g -> Inv E c o' g.
Proof.
  intros Ho [H1 H2]. pose proof (obj_eq_params E o o' Ho) as Hp. destruct Ho as (Ha & Hz & Hc). split.
  - intros s x. rewrite <- Hc, <- Hp. apply H1.
  - intros. rewrite <- Hc. auto.
Qed.

(** Two objects that will behave alike: [m] has been through interruptions, [o] has not. *)
Definition Sim (c : cls) (m : mem) (o : obj) (g : option (pupil E)) : Prop :=
  same_par (m_obj m) o /\ valid E c o /\ Inv E c (m_obj m) g /\ Inv E c o g.

Lemma Sim_valid c m o g : Sim c m o g -> valid E c (m_obj m).
Proof.
  intros ([Ha Hz] & (Hw & Hc & Hzz) & _). split; [|split].
  - intros a v. rewrite Ha. apply Hw.
  - intros a. rewrite Ha. apply Hc.
  - rewrite Hz. auto.
Qed.
Lemma same_par_eq (o o' o'' : obj) : obj_eq E o o' -> same_par o' o'' -> same_par o o''.
Proof. intros (A & B & _) [C D]. split; congruence. Qed.
Lemma runs_ref b c x m : obj_eq E (m_obj (runs E X b c x m)) (snd (exec E c x (m_obj m))).
Proof.
  destruct x as [s|s|p]; cbn [runs exec].
  - apply (Ref_assign E c s m (m_obj m)), obj_eq_refl.
  - pose proof (proj2 (Ref_read E X LX b c s m (m_obj m) (obj_eq_refl E _))) as H.
    destruct (read E c s (m_obj m)) as [[y|e] o']; exact H.
  - destruct c; [|apply obj_eq_refl]. apply (Ref_apply E X LX p m (m_obj m)), obj_eq_refl.
Qed.
Lemma exec_same c x (o o' : obj) : same_par o o' -> 
  fst (exec E c x o) = fst (exec E c x o') \/ (exists s, x = Read E s) -> same_par (snd (exec E c x o)) (snd (exec E c x o')).
Proof.
  intros Ho _. destruct x as [s|s|p]; cbn [exec].
  - now apply Cong_assign.
  - assert (R : forall o : obj, same_par o (snd (match read E c s o with (Ok _, o') => (Ok tt, o') | (Err e, o') => (Err e, o') end))).
    { intros o1. destruct (read_same E c s o1) as [H1 H2]. destruct (read E c s o1) as [[y|e] o2]; cbn [snd] in *; split; congruence. }
    destruct (R o) as [A B], (R o') as [C D], Ho as [F G]. split; congruence.
  - destruct c; [|exact Ho]. destruct Ho as [F G].
    destruct (apply_cases E p o) as [(y & _ & ->)|(e & _ & ->)], (apply_cases E p o') as [(y' & _ & ->)|(e' & _ & ->)]; split; cbn; congruence.
Qed.
Lemma same_par_params (o o' : obj) : same_par o o' -> obj_params o = obj_params o'.
Proof. intros [A B]. unfold obj_params. now rewrite A, B. Qed.
Lemma in_force_same c x (o o' : obj) g : same_par o o' -> in_force_step E c x o g = in_force_step E c x o' g.
Proof.
  intros Ho. destruct x as [s|s|p]; cbn [in_force_step exec]; auto.
  - now rewrite (changes_same c s o o' Ho), (proj1 (Cong_assign c s o o' Ho)).
  - destruct c; auto. pose proof (same_par_params o o' Ho) as Hp.
    destruct (apply_cases E p o) as [(y & Hy & ->)|(e & Hy & ->)], (apply_cases E p o') as [(y' & Hy' & ->)|(e' & Hy' & ->)]; auto; rewrite Hp in Hy; congruence.
Qed.
Lemma Sim_whole b c x m o g : Sim c m o g -> Sim c (runs E X b c x m) (snd (exec E c x o)) (in_force_step E c x o g).
Proof.
  intros HS. pose proof (Sim_valid c m o g HS) as Hv. destruct HS as (Hp & Hvo & HIm & HIo).
  pose proof (runs_ref b c x m) as Hr. split; [|split; [|split]].
  - eapply same_par_eq; [exact Hr|]. apply exec_same; auto. left. destruct x as [s|s|p]; cbn [exec].
    + now apply Cong_assign.
    + destruct (read_good E c s g (m_obj m) HIm) as (H1 & _ & _), (read_good E c s g o HIo) as (H2 & _ & _).
      rewrite (same_par_params _ _ Hp) in H1. destruct (read E c s (m_obj m)) as [[y|e] o1], (read E c s o) as [[y'|e'] o1']; cbn [fst] in *; congruence.
    + destruct c; auto. pose proof (same_par_params _ _ Hp) as Hq.
      destruct (apply_cases E p (m_obj m)) as [(y & Hy & ->)|(e & Hy & ->)], (apply_cases E p o) as [(y' & Hy' & ->)|(e' & Hy' & ->)]; cbn; auto; rewrite Hq in Hy; congruence.
  - now apply exec_valid.
  - eapply Inv_eq; [apply obj_eq_sym; exact Hr|]. rewrite <- (in_force_same c x (m_obj m) o g Hp). now apply exec_step.
  - now apply exec_step.
Qed.
Lemma Sim_broken b c s n m o g : Sim c m o g -> Sim c (cut E n (pread E X b c s) m) o g.
Proof.
  intros (Hp & Hv & HIm & HIo).
  assert (HJ : J E c (o_attr (m_obj m)) (o_zrange (m_obj m)) g (cut E n (pread E X b c s) m)).
  { eapply Good_cut; [apply (Good_read E X LX)|intros i Hi; lia|]. split; [|split]; auto. }
  destruct HJ as (H1 & H2 & H3). split; [|split; [|split]]; auto. destruct Hp as [A B]. split; congruence.
Qed.
Lemma Sim_run b c h : forall m o g, Sim c m o g ->
  Sim c (run_broken E X b c h m) (run E c (whole_ops E h) o) (in_force E c (whole_ops E h) o g).
Proof.
  induction h as [|[x|s n] h IH]; intros m o g HS; cbn [run_broken whole_ops flat_map app run in_force]; auto.
  - apply IH. now apply Sim_whole.
  - apply IH. now apply Sim_broken.
Qed.

(** *** Programs that write.  [Trace R p]: every atomic step is an [R]-step. *)
Inductive Trace {A} (R : mem -> mem -> Prop) : prog E A -> Prop :=
| T_done r : Trace R (PDone r)
| T_step f k : (forall m, R m (f m)) -> (forall m, Trace R (k m)) -> Trace R (PStep f k)
| T_lock l k : Trace R k -> Trace R (PLock l k)
| T_unlock l k : Trace R k -> Trace R (PUnlock l k).
Lemma Trace_bind {A B} R (p : prog E A) (f : A -> prog E B) : Trace R p -> (forall x, Trace R (f x)) -> Trace R (pbind E p f).
Proof. intros H Hf. induction H as [[x|e]| | |]; cbn [pbind]; try constructor; auto. Qed.
Lemma Trace_ignoring {A} R (x : A) (p : prog E A) : Trace R p -> Trace R (ignoring E x p).
Proof. induction 1 as [[y|[]]| | |]; cbn [ignoring]; constructor; auto. Qed.
Lemma Trace_cut {A} (R : mem -> mem -> Prop) : (forall m, R m m) -> (forall m m' m'', R m m' -> R m' m'' -> R m m'') ->
  forall n (p : prog E A) m, Trace R p -> R m (cut E n p m).
Proof.
  intros Hr Ht. induction n as [|n IH]; intros p m H; [destruct p; auto|]. destruct H; cbn [cut]; auto. eapply Ht; [apply H|]. apply IH. apply H0.
Qed.
Lemma Trace_finish {A} (R : mem -> mem -> Prop) : (forall m, R m m) -> (forall m m' m'', R m m' -> R m' m'' -> R m m'') ->
  forall (p : prog E A), Trace R p -> forall m, R m (snd (finish E p m)).
Proof. intros Hr Ht p H. induction H; intros m; cbn [finish]; auto. eapply Ht; [apply H|]. apply H1. Qed.
Lemma Trace_impl {A} (R R' : mem -> mem -> Prop) (p : prog E A) : (forall m m', R m m' -> R' m m') -> Trace R p -> Trace R' p.
Proof. intros HR H. induction H; constructor; auto. Qed.

(** An assignment to [a] (and zrange) of the value [v]; arrays are only ever removed. *)
Definition writes (a : option (attr * pyval)) (zr : bool) (m m' : mem) : Prop :=
  (zr = false -> o_zrange (m_obj m') = o_zrange (m_obj m)) /\
  (forall b, o_attr (m_obj m') b = o_attr (m_obj m) b \/ exists v, a = Some (b, v) /\ o_attr (m_obj m') b = Some v) /\
  (forall s, o_cache (m_obj m') s = o_cache (m_obj m) s \/ o_cache (m_obj m') s = None).
Lemma writes_refl a z m : writes a z m m. Proof. split; [|split]; auto. Qed.
Lemma writes_trans a z m m' m'' : writes a z m m' -> writes a z m' m'' -> writes a z m m''.
Proof.
  intros (Z1 & A1 & B1) (Z2 & A2 & B2). split; [|split].
  - intros H. rewrite Z2, Z1; auto.
  - intros b. destruct (A2 b) as [H|(v & H1 & H2)]; [rewrite H; auto|right; eauto].
  - intros s. destruct (B2 s) as [H|H]; rewrite H; auto.
Qed.
Lemma writes_del a z s m : writes a z m (w_del E s m).
Proof. split; [|split]; cbn; auto. intros t. destruct (slot_eqb s t); auto. Qed.
Lemma T_changed a z : Trace (writes a z) (pchanged E).
Proof. repeat (constructor; [intros; apply writes_del|intros _]). constructor. Qed.
Lemma T_get a z b : Trace (writes a z) (pget E b).
Proof. constructor; [intros; apply writes_refl|]. intros m. destruct (o_attr (m_obj m) b); constructor. Qed.
Lemma T_put a z v : Trace (writes (Some (a, v)) z) (pput E a v).
Proof.
  constructor; [|intros; apply T_changed]. intros m. split; [|split]; cbn; auto. intros b. destruct (attr_eqb a b) eqn:Eb; auto.
  apply attr_eqb_eq in Eb. subst. right. eauto.
Qed.
Lemma T_numeric a z t v : Trace (writes (Some (a, v)) z) (pnumeric E a t v).
Proof.
  constructor; [intros; apply writes_refl|]. intros m. destruct (numeric_decide _ t v) as [[|]|e]; [apply T_put|constructor|constructor].
Qed.
Lemma T_zrange a z : Trace (writes a true) (pzrange E z).
Proof. constructor; [|intros; apply T_changed]. intros m. split; [discriminate|]. split; cbn; auto. Qed.
Lemma T_gen_zrange a : Trace (writes a true) (ignoring E tt (pgen_zrange E)).
Proof. apply Trace_ignoring. repeat (apply Trace_bind; [apply T_get|intros ?]). apply T_zrange. Qed.
Lemma T_zres z v : Trace (writes (Some (A_zres, v)) z) (pzres E v).
Proof. apply Trace_bind; [constructor|]. intros [|]; cbn [negb]; [apply T_put|constructor]. Qed.
Definition touches_zrange (c : cls) (s : assignment) : bool :=
  match s, c with SetZrange _, Hanser | SetNum A_zsize _, Hanser | SetNum A_zres _, Hanser => true | _, _ => false end.
Definition target (s : assignment) := match s with SetNum a v => Some (a, v) | SetZrange _ => None end.
Lemma T_assign c s : Trace (writes (target s) (touches_zrange c s)) (passign E c s).
Proof.
  destruct s as [a v|z]; [|destruct c; [apply T_zrange|constructor]].
  assert (C : forall a l z, Trace (writes (Some (a, v)) z) (pchoice E a l v)).
  { intros a' l z. apply Trace_bind; [constructor|]. intros [|]; cbn [negb]; [apply T_put|constructor]. }
  cbn [target]. destruct a; cbn [passign]; try apply T_numeric; try apply C.
  - unfold pres. repeat (apply Trace_bind; [apply T_get || constructor|intros ?]). destruct x3; [constructor|apply T_put].
  - destruct c.
    + apply Trace_bind; [apply T_zres|]. intros _. apply T_gen_zrange.
    + unfold psheppard_zres. repeat (apply Trace_bind; [apply T_get || constructor|intros ?]). destruct x3; [constructor|apply T_zres].
  - destruct c; [|apply T_numeric]. apply Trace_bind; [apply T_numeric|]. intros _. apply T_gen_zrange.
  - destruct c; [constructor|]. unfold pdual. destruct (isinstance v TBool); cbn [negb]; [apply T_put|constructor].
Qed.

Lemma cut_bind {A B} (f : A -> prog E B) : forall n (p : prog E A) m,
  cut E n (pbind E p f) m = cut E n p m \/
  exists n' x m', finish E p m = (Ok x, m') /\ cut E n (pbind E p f) m = cut E n' (f x) m'.
Proof.
  intros n p. revert n. induction p as [[x|e]|g k IH|l k IH|l k IH]; intros n m; cbn [pbind].
  - right. exists n, x, m. auto.
  - left. now destruct n.
  - destruct n as [|n]; [left; reflexivity|]. cbn [cut finish]. apply IH.
  - destruct n as [|n]; [left; reflexivity|]. cbn [cut finish]. apply IH.
  - destruct n as [|n]; [left; reflexivity|]. cbn [cut finish]. apply IH.
Qed.
Lemma cut_ignoring {A} (x : A) : forall n (p : prog E A) m, cut E n (ignoring E x p) m = cut E n p m.
Proof. induction n as [|n IH]; intros [[y|[]]|f k|l k|l k] m; cbn [cut ignoring]; auto. Qed.
Lemma cut_later {A} : forall n (p : prog E A) m, cut E n p m = snd (later E n p m).
Proof. induction n as [|n IH]; intros [r|f k|l k|l k] m; cbn [cut later]; auto. Qed.
Lemma finish_later {A} : forall n (p : prog E A) m, finish E p m = finish E (fst (later E n p m)) (snd (later E n p m)).
Proof. induction n as [|n IH]; intros [r|f k|l k|l k] m; cbn [finish later]; auto. Qed.
Lemma Trace_later {A} R : forall n (p : prog E A) m, Trace R p -> Trace R (fst (later E n p m)).
Proof. induction n as [|n IH]; intros p m H; destruct H; cbn [later fst]; try (constructor; auto; fail); auto. Qed.

(** zrange is the old one or the final one *)
Lemma zr_zrange z n m : o_zrange (m_obj (cut E n (pzrange E z) m)) = o_zrange (m_obj m) \/
  o_zrange (m_obj (cut E n (pzrange E z) m)) = o_zrange (m_obj (snd (finish E (pzrange E z) m))).
Proof. destruct n as [|n]; [left; reflexivity|]. right. unfold pzrange, pdo. cbn [cut]. destruct n as [|[|[|[|n]]]]; cbn; try reflexivity. now destruct n. Qed.
Lemma zr_gen n m : o_zrange (m_obj (cut E n (ignoring E tt (pgen_zrange E)) m)) = o_zrange (m_obj m) \/
  o_zrange (m_obj (cut E n (ignoring E tt (pgen_zrange E)) m)) = o_zrange (m_obj (snd (finish E (ignoring E tt (pgen_zrange E)) m))).
Proof.
  rewrite cut_ignoring, finish_ignoring. unfold pgen_zrange, pget, plook. cbn [pbind].
  destruct n as [|n]; [left; reflexivity|]. cbn [cut finish]. destruct (o_attr (m_obj m) A_zsize) as [zs|]; cbn [pret pbind]; [|left; now destruct n].
  destruct n as [|n]; [left; reflexivity|]. cbn [cut finish]. destruct (o_attr (m_obj m) A_zres) as [zz|]; cbn [pret pbind]; [|left; now destruct n].
  match goal with |- context [cut E n (pzrange E ?z) m] => destruct (zr_zrange z n m) as [H|H]; [left; exact H|right; rewrite H] end.
  reflexivity.
Qed.
Lemma zr_assign c s n m : o_zrange (m_obj (cut E n (passign E c s) m)) = o_zrange (m_obj m) \/
  o_zrange (m_obj (cut E n (passign E c s) m)) = o_zrange (m_obj (snd (finish E (passign E c s) m))).
Proof.
  destruct (touches_zrange c s) eqn:Et.
  2:{ left. pose proof (Trace_cut _ (writes_refl _ _) (writes_trans _ _) n (passign E c s) m (T_assign c s)) as [H _]. now apply H. }
  assert (G : forall p : prog E unit, Trace (writes (target s) false) p ->
            o_zrange (m_obj (cut E n (pbind E p (fun _ => ignoring E tt (pgen_zrange E))) m)) = o_zrange (m_obj m) \/
            o_zrange (m_obj (cut E n (pbind E p (fun _ => ignoring E tt (pgen_zrange E))) m)) =
            o_zrange (m_obj (snd (finish E (pbind E p (fun _ => ignoring E tt (pgen_zrange E))) m)))).
  { intros p Hp. destruct (cut_bind (fun _ : unit => ignoring E tt (pgen_zrange E)) n p m) as [->|(n' & x & m' & Hf & ->)].
    - left. pose proof (Trace_cut _ (writes_refl _ _) (writes_trans _ _) n p m Hp) as [H _]. now apply H.
    - rewrite finish_bind, Hf. pose proof (Trace_finish _ (writes_refl _ _) (writes_trans _ _) p Hp m) as [H _]. rewrite Hf in H. cbn [snd] in H.
      rewrite <- (H eq_refl). apply zr_gen. }
  destruct s as [a v|z].
  - destruct a, c; try discriminate Et; apply G; [apply T_zres|apply T_numeric].
  - destruct c; [apply zr_zrange|discriminate Et].
Qed.
End I.
