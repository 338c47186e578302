(** Proofs about the PSF object state machine. *)
From Verif Require Import M_PSF S_PSF.
From Coq Require Import Lqa.
Local Open Scope Z_scope.

Section Proofs.
Context (E : engine).
Notation obj := (obj E).

Definition clear (o : obj) : obj := mkObj (o_attr o) (o_zrange o) (fun _ => None).

Definition Inv (c : cls) (o : obj) (g : option (pupil E)) : Prop :=
  (forall s x, o_cache o s = Some x -> scratch E c s (obj_params o) g = Ok x) /\
  (c = Hanser -> g <> None -> o_cache o PSFa <> None).

Definition same_attrs (o o' : obj) : Prop := o_attr o' = o_attr o /\ o_zrange o' = o_zrange o.
Lemma same_params o o' : same_attrs o o' -> obj_params o' = obj_params o.
Proof. destruct o, o'; unfold same_attrs, obj_params; simpl. intros [-> ->]. reflexivity. Qed.
Lemma same_refl o : same_attrs o o. Proof. split; reflexivity. Qed.
Lemma same_trans o o' o'' : same_attrs o o' -> same_attrs o' o'' -> same_attrs o o''.
Proof. unfold same_attrs. intros [-> ->] [-> ->]. auto. Qed.

Lemma Inv_clear_none c o : Inv c (clear o) None.
Proof. split; [discriminate|]. intros _ H. congruence. Qed.
Lemma Inv_clear_S o g : Inv Sheppard (clear o) g.
Proof. split; [discriminate|]. discriminate. Qed.

Definition good (c : cls) (s : slot) (g : option (pupil E)) (m : M E (arr E)) : Prop :=
  forall o, Inv c o g ->
    fst (m o) = scratch E c s (obj_params o) g /\ Inv c (snd (m o)) g /\ same_attrs o (snd (m o)).

(** a cached property over a computation that is right when the slot is empty *)
Lemma cached_good c s g m :
  (forall o, Inv c o g -> o_cache o s = None ->
    fst (m o) = scratch E c s (obj_params o) g /\ Inv c (snd (m o)) g /\ same_attrs o (snd (m o))) ->
  good c s g (cached E s m).
Proof.
  intros Hm o HI. unfold cached. destruct (o_cache o s) as [x|] eqn:Ec.
  - cbn [fst snd]. split; [symmetry; now apply (proj1 HI)|]. split; auto using same_refl.
  - destruct (Hm o HI Ec) as (H1 & H2 & H3). unfold bindM.
    destruct (m o) as [[x|e] o'] eqn:Em; cbn [fst snd] in *.
    + unfold set_cache, ret. cbn [fst snd]. split; auto. split.
      * destruct H2 as [C1 C2]. split.
        -- intros t y Hy. cbn [o_cache] in Hy.
           rewrite (same_params _ _ H3) in C1.
           assert (Hp : obj_params (mkObj (o_attr o') (o_zrange o') (fun t0 => if slot_eqb s t0 then Some x else o_cache o' t0)) = obj_params o).
           { rewrite <- (same_params _ _ H3). reflexivity. }
           rewrite Hp. destruct (slot_eqb s t) eqn:Est.
           ++ injection Hy as <-. destruct s, t; try discriminate; auto.
           ++ now apply C1.
        -- intros Hc Hg. cbn [o_cache]. destruct (slot_eqb s PSFa) eqn:Est; [discriminate|]. now apply C2.
      * destruct H3. split; auto.
    + split; auto.
Qed.

Lemma map_good c s t g m (f : arr E -> arr E) :
  good c t g m ->
  (forall P, scratch E c s P g = rmap f (scratch E c t P g)) ->
  forall o, Inv c o g ->
    fst (bindM E m (fun x => ret E (f x)) o) = scratch E c s (obj_params o) g /\
    Inv c (snd (bindM E m (fun x => ret E (f x)) o)) g /\
    same_attrs o (snd (bindM E m (fun x => ret E (f x)) o)).
Proof.
  intros Hm Hs o HI. destruct (Hm o HI) as (H1 & H2 & H3). rewrite Hs. unfold bindM, ret.
  destruct (m o) as [[x|e] o']; cbn [fst snd] in *; rewrite <- H1; auto.
Qed.

Lemma psfa_h_good g : good Hanser PSFa g (read_PSFa_h E).
Proof.
  apply cached_good. intros o HI Hc. unfold gen_psf, bindM, attribute_changed. cbn [fst snd].
  assert (g = None). { destruct g; auto. exfalso. apply (proj2 HI); auto. congruence. }
  subst g. split; [reflexivity|]. split; [apply Inv_clear_none|]. split; reflexivity.
Qed.

Lemma otfa_s_good g : good Sheppard OTFa g (read_OTFa_s E).
Proof.
  apply cached_good. intros o HI Hc. unfold gen_otf, bindM, attribute_changed. cbn [fst snd].
  split; [reflexivity|]. split; [apply Inv_clear_S|]. split; reflexivity.
Qed.

Lemma psfa_good c g : good c PSFa g (read_PSFa E c).
Proof.
  destruct c; cbn [read_PSFa]; [apply psfa_h_good|].
  apply cached_good. intros o HI _.
  apply (map_good Sheppard PSFa OTFa g (read_OTFa_s E) (e_ifft3 E)); auto using otfa_s_good.
Qed.
Lemma otfa_good c g : good c OTFa g (read_OTFa E c).
Proof.
  destruct c; cbn [read_OTFa]; [|apply otfa_s_good].
  apply cached_good. intros o HI _.
  apply (map_good Hanser OTFa PSFa g (read_PSFa_h E) (e_fft3 E)); auto using psfa_h_good.
Qed.
Lemma psfi_good c g : good c PSFi g (read_PSFi E c).
Proof.
  apply cached_good. intros o HI _.
  apply (map_good c PSFi PSFa g (read_PSFa E c) (e_sumsq E)); auto using psfa_good.
Qed.
Lemma otfi_good c g : good c OTFi g (read_OTFi E c).
Proof.
  apply cached_good. intros o HI _.
  apply (map_good c OTFi PSFi g (read_PSFi E c) (e_fft E)); auto using psfi_good.
Qed.
Lemma read_good c s g : good c s g (read E c s).
Proof. destruct s; [apply psfa_good|apply otfa_good|apply psfi_good|apply otfi_good]. Qed.

(** Assignments: what they do to an object. *)
Definition outcome (m : M E unit) (ch : obj -> bool) : Prop :=
  forall o, (exists e, m o = (Err e, o)) \/
            (ch o = false /\ m o = (Ok tt, o)) \/
            (ch o = true /\ exists o', m o = (Ok tt, o') /\ (forall s, o_cache o' s = None)).

Lemma numeric_outcome a t v :
  outcome (numeric_set E a t v) (fun o => differs (o_attr o a) v).
Proof.
  intros o. unfold numeric_set, numeric_fset, numeric_decide.
  destruct (isinstance v t) eqn:Ei; cbn [negb]; [|left; eauto].
  unfold py_lt. destruct (num v) as [f|] eqn:En; cbn [num bind]; [|left; eauto].
  destruct (fl_lt f _) eqn:El; [left; eauto|].
  right. unfold differs. destruct (o_attr o a) as [w|] eqn:Ew.
  - destruct (py_eq w v); cbn [negb]; [left|right]; auto. split; auto. eexists. split; [reflexivity|]. reflexivity.
  - assert (py_eq VNone v = false) as ->. { unfold py_eq. cbn [num]. rewrite En. reflexivity. }
    cbn [negb]. right. split; auto. eexists. split; [reflexivity|]. reflexivity.
Qed.

Lemma base_zres_outcome v : outcome (base_zres_set E v) (fun _ => true).
Proof.
  intros o. unfold base_zres_set, bindM, lift. destruct (py_gt v (VInt 0)) as [[|]|e]; cbn [negb].
  - right. right. split; auto. eexists. split; [reflexivity|]. reflexivity.
  - left. unfold raise. eauto.
  - left. eauto.
Qed.

Lemma res_outcome v : outcome (res_set E v) (fun _ => true).
Proof.
  intros o. unfold res_set, bindM, lift, getattr.
  destruct (o_attr o A_na); [|left; eauto]. destruct (o_attr o A_wl); [|left; eauto].
  destruct (fl_div _ _); [|left; eauto]. destruct (fl_div _ _); [|left; eauto].
  destruct (py_ge _ _) as [[|]|]; unfold raise; [left; eauto| |left; eauto].
  right. right. split; auto. eexists. split; reflexivity.
Qed.

Lemma choice_outcome a l v : outcome (choice_set E a l v) (fun _ => true).
Proof.
  intros o. unfold choice_set, bindM, lift. destruct (in_set v l) as [[|]|e]; cbn [negb]; unfold raise; eauto.
  right. right. split; auto. eexists. split; reflexivity.
Qed.

Lemma zrange_outcome z : outcome (zrange_set E z) (fun _ => true).
Proof. intros o. right. right. split; auto. eexists. split; reflexivity. Qed.

Lemma dual_outcome v : outcome (dual_set E v) (fun _ => true).
Proof.
  intros o. unfold dual_set. destruct (isinstance v TBool); cbn [negb]; unfold raise; eauto.
  right. right. split; auto. eexists. split; reflexivity.
Qed.

(** after a successful zsize / zres setter of a HanserPSF: regenerated range if possible, and no
    cached array in either case *)
Lemma gen_zrange_cases (o : obj) :
  (exists n d, o_attr o A_zsize = Some n /\ o_attr o A_zres = Some d /\
     gen_zrange E o = (Ok tt, mkObj (o_attr o) (gen_range (Some n) (Some d)) (fun _ => None))) \/
  ((o_attr o A_zsize = None \/ o_attr o A_zres = None) /\ gen_zrange E o = (Err AttributeError, o)).
Proof.
  unfold gen_zrange, bindM, getattr. destruct (o_attr o A_zsize) as [n|]; [|auto].
  destruct (o_attr o A_zres) as [d|]; [|auto]. left. exists n, d. split; auto.
Qed.

Lemma hanser_zres_outcome v : outcome (hanser_zres_set E v) (fun _ => true).
Proof.
  intros o. unfold hanser_zres_set. unfold bindM.
  destruct (base_zres_outcome v o) as [[e ->]|[[H _]|[_ (o' & -> & Hc)]]]; [left; eauto|discriminate|].
  right. right. split; auto. unfold ignore_attribute_error.
  destruct (gen_zrange_cases o') as [(n & d & _ & _ & ->)|[_ ->]]; eexists; split; try reflexivity. exact Hc.
Qed.

(** zsize may be assigned without effective change: the range is regenerated (and the arrays are
    dropped) all the same, provided the object is complete. *)
Lemma hanser_zsize_outcome v o : o_attr o A_zres <> None ->
  (exists e, hanser_zsize_set E v o = (Err e, o)) \/
  (exists o', hanser_zsize_set E v o = (Ok tt, o') /\ forall s, o_cache o' s = None).
Proof.
  intros Hz. unfold hanser_zsize_set, bindM.
  destruct (numeric_outcome A_zsize TInt v o) as [[e ->]|[[H ->]|[_ (o' & Eo & Hc)]]]; [left; eauto| |].
  - right. unfold ignore_attribute_error. unfold differs in H.
    destruct (o_attr o A_zsize) as [w|] eqn:Ew; [|discriminate].
    destruct (gen_zrange_cases o) as [(n & d & _ & _ & ->)|[[H1|H1] _]]; [|congruence..].
    eexists; split; reflexivity.
  - rewrite Eo. right. unfold ignore_attribute_error.
    destruct (gen_zrange_cases o') as [(n & d & _ & _ & ->)|[_ ->]]; eexists; split; try reflexivity. exact Hc.
Qed.

Lemma sheppard_zres_outcome v : outcome (sheppard_zres_set E v) (fun _ => true).
Proof.
  intros o. unfold sheppard_zres_set, bindM, lift, getattr.
  destruct (o_attr o A_wl); [|left; eauto]. destruct (o_attr o A_ni); [|left; eauto].
  destruct (fl_div _ _); [|left; eauto]. destruct (fl_div _ _); [|left; eauto].
  destruct (py_ge _ _) as [[|]|]; unfold raise; [left; eauto| |left; eauto].
  apply base_zres_outcome.
Qed.

Lemma assign_outcome c s o : o_attr o A_zres <> None ->
  (exists e, assign E c s o = (Err e, o)) \/
  (changes E c s o = false /\ assign E c s o = (Ok tt, o)) \/
  (changes E c s o = true /\ exists o', assign E c s o = (Ok tt, o') /\ forall t, o_cache o' t = None).
Proof.
  intros Hz. destruct s as [a v|z]; [destruct a|]; destruct c; cbn [assign changes];
    try apply numeric_outcome; try apply res_outcome; try apply choice_outcome.
  - apply hanser_zres_outcome.
  - apply sheppard_zres_outcome.
  - destruct (hanser_zsize_outcome v o Hz) as [H|H]; auto.
  - right. left. auto.
  - apply dual_outcome.
  - apply zrange_outcome.
  - right. left. auto.
Qed.

(** rejected assignments change nothing at all, even on a partly constructed object *)
Lemma assign_atomic c s o e o' : assign E c s o = (Err e, o') -> o' = o.
Proof.
  assert (OUT : forall m ch, outcome m ch -> m o = (Err e, o') -> o' = o).
  { intros m ch Hm Hx. destruct (Hm o) as [[e' H]|[[_ H]|[_ (o2 & H & _)]]]; rewrite H in Hx; congruence. }
  destruct s as [a v|z]; [destruct a|]; destruct c; cbn [assign]; intros H;
    try (eapply OUT; [apply numeric_outcome|exact H]); try (eapply OUT; [apply res_outcome|exact H]);
    try (eapply OUT; [apply choice_outcome|exact H]).
  - eapply OUT; [apply hanser_zres_outcome|exact H].
  - eapply OUT; [apply sheppard_zres_outcome|exact H].
  - unfold hanser_zsize_set, bindM in H.
    destruct (numeric_outcome A_zsize TInt v o) as [[e' Ho]|[[_ Ho]|[_ (o2 & Ho & _)]]]; rewrite Ho in H.
    + congruence.
    + unfold ignore_attribute_error in H.
      destruct (gen_zrange_cases o) as [(n & d & _ & _ & Hg)|[_ Hg]]; rewrite Hg in H; congruence.
    + unfold ignore_attribute_error in H.
      destruct (gen_zrange_cases o2) as [(n & d & _ & _ & Hg)|[_ Hg]]; rewrite Hg in H; congruence.
  - discriminate.
  - eapply OUT; [apply dual_outcome|exact H].
  - eapply OUT; [apply zrange_outcome|exact H].
  - discriminate.
Qed.

(** ** Validity *)
Definition wvalid (o : obj) : Prop := forall a v, o_attr o a = Some v -> valid_value a v.
Definition ext (o o' : obj) : Prop := forall a, o_attr o a <> None -> o_attr o' a <> None.

Lemma fl_nonneg f : fl_lt f (FFin 0) = false -> nonneg_or_nan f.
Proof.
  destruct f as [q| |[|]]; cbn; auto.
  unfold fl_lt. cbn. intros H. apply andb_false_iff in H. destruct H as [H|H].
  - assert (~ (q <= 0)%Q) by (rewrite <- Qle_bool_iff; congruence). lra.
  - apply negb_false_iff in H. apply Qeq_bool_iff in H. lra.
Qed.

Lemma fl_positive f : fl_lt (FFin 0) f = true -> positive f.
Proof.
  destruct f as [q| |[|]]; cbn; auto; try discriminate.
  unfold fl_lt. cbn. intros H. apply andb_true_iff in H. destruct H as [H1 H2].
  apply Qle_bool_iff in H1. apply negb_true_iff in H2.
  assert (~ (0 == q)%Q) by (rewrite <- Qeq_bool_iff; congruence). lra.
Qed.

Lemma attr_eqb_eq a b : attr_eqb a b = true <-> a = b.
Proof. destruct a, b; split; intros; try discriminate; auto. Qed.

(** the effect of a successful assignment on the attributes *)
Definition effect (m : M E unit) (a : attr) : Prop :=
  forall o o', m o = (Ok tt, o') ->
    (forall b, b <> a -> o_attr o' b = o_attr o b) /\
    (exists v, o_attr o' a = Some v /\ (o_attr o a = Some v \/ valid_value a v)).

Lemma set_effect a v (o : obj) :
  let o' := mkObj (fun b => if attr_eqb a b then Some v else o_attr o b) (o_zrange o) (fun _ : slot => @None (arr E)) in
  (forall b, b <> a -> o_attr o' b = o_attr o b) /\ o_attr o' a = Some v.
Proof.
  cbn. split.
  - intros b Hb. destruct (attr_eqb a b) eqn:Eb; auto. apply attr_eqb_eq in Eb. congruence.
  - now rewrite (proj2 (attr_eqb_eq a a) eq_refl).
Qed.

Lemma numeric_effect a t v :
  (forall f, isinstance v t = true -> num v = Some f -> nonneg_or_nan f -> valid_value a v) ->
  effect (numeric_set E a t v) a.
Proof.
  intros Hv o o'. unfold numeric_set, numeric_fset, numeric_decide.
  destruct (isinstance v t) eqn:Ei; cbn [negb]; [|discriminate].
  unfold py_lt. destruct (num v) as [f|] eqn:En; cbn [num bind]; [|discriminate].
  destruct (fl_lt f _) eqn:El; [discriminate|].
  destruct (negb _) eqn:Eq.
  - unfold bindM, setattr, attribute_changed. intros H. injection H as <-.
    destruct (set_effect a v o) as [S1 S2]. split; auto. exists v. split; auto. right.
    eapply Hv; eauto. now apply fl_nonneg.
  - intros H. injection H as <-. split; auto.
    destruct (o_attr o a) as [w|]; eauto.
    exfalso. apply negb_false_iff in Eq. unfold py_eq in Eq. cbn [num] in Eq. rewrite En in Eq. discriminate.
Qed.

Lemma base_zres_effect v : effect (base_zres_set E v) A_zres.
Proof.
  intros o o'. unfold base_zres_set, bindM, lift, py_gt, py_lt. cbn [num].
  destruct (num v) as [f|] eqn:En; [|discriminate].
  destruct (fl_lt _ f) eqn:El; cbn [negb]; [|discriminate].
  intros H. injection H as <-. destruct (set_effect A_zres v o) as [S1 S2]. split; auto.
  exists v. split; auto. right. exists f. split; auto. now apply fl_positive.
Qed.

Lemma res_effect v : effect (res_set E v) A_res.
Proof.
  intros o o'. unfold res_set, bindM, lift, getattr.
  destruct (o_attr o A_na); [|discriminate]. destruct (o_attr o A_wl); [|discriminate].
  destruct (fl_div _ _) as [t|]; [|discriminate]. destruct (fl_div _ t) as [ab|]; [|discriminate].
  unfold py_ge. destruct (num v) as [f|] eqn:En; cbn [num]; [|discriminate].
  destruct (fl_le _ _); [discriminate|].
  intros H. injection H as <-. destruct (set_effect A_res v o) as [S1 S2]. split; auto.
  exists v. split; auto. right. exists f. auto.
Qed.

Lemma choice_effect a l v : (forall s, In s l -> valid_value a (VStr s)) -> effect (choice_set E a l v) a.
Proof.
  intros Hl o o'. unfold choice_set, bindM, lift, in_set.
  destruct v; try discriminate.
  destruct (existsb (String.eqb s) l) eqn:Ex; [|discriminate].
  cbn [negb]. intros H. injection H as <-. destruct (set_effect a (VStr s) o) as [S1 S2]. split; auto.
  eexists. split; eauto. right. apply Hl. apply existsb_exists in Ex. destruct Ex as (x & Hx & Ex).
  apply String.eqb_eq in Ex. now subst.
Qed.

Lemma dual_effect v : effect (dual_set E v) A_dual.
Proof.
  intros o o'. unfold dual_set. destruct v; cbn [isinstance negb]; try discriminate.
  unfold bindM, setattr, attribute_changed. intros H. injection H as <-.
  destruct (set_effect A_dual (VBool b) o) as [S1 S2]. split; auto.
  eexists. split; eauto. right. exists b. auto.
Qed.

Lemma then_zrange_effect m a : effect m a ->
  effect (bindM E m (fun _ => ignore_attribute_error E (gen_zrange E))) a.
Proof.
  intros Hm o o'. unfold bindM. destruct (m o) as [[[]|e] o1] eqn:Em; [|discriminate].
  destruct (Hm o o1 Em) as [H1 H2]. unfold ignore_attribute_error.
  destruct (gen_zrange_cases o1) as [(n & d & _ & _ & Hg)|[_ Hg]]; rewrite Hg; intros H; injection H as <-; cbn [o_attr]; auto.
Qed.

Lemma assign_effect c a v : (a = A_dual -> c = Sheppard) -> effect (assign E c (SetNum a v)) a.
Proof.
  intros Hd. destruct a; cbn [assign]; try (apply numeric_effect; intros f Hi Hn Hf; cbn; eauto).
  - apply res_effect.
  - split; [exact Hi|]. destruct v; try discriminate; cbn in *.
    + injection Hn as <-. cbn in Hf. unfold Qle in Hf. cbn in Hf. lia.
    + destruct b; lia.
  - destruct c.
    + apply then_zrange_effect, base_zres_effect.
    + intros o o'. unfold sheppard_zres_set, bindM, lift, getattr.
      destruct (o_attr o A_wl); [|discriminate]. destruct (o_attr o A_ni); [|discriminate].
      destruct (fl_div _ _); [|discriminate]. destruct (fl_div _ _); [|discriminate].
      destruct (py_ge _ _) as [[|]|]; try discriminate. apply base_zres_effect.
  - assert (Hz : effect (numeric_set E A_zsize TInt v) A_zsize).
    { apply numeric_effect. intros f Hi Hn Hf. split; [exact Hi|]. destruct v; try discriminate; cbn in *.
      + injection Hn as <-. cbn in Hf. unfold Qle in Hf. cbn in Hf. lia.
      + destruct b; lia. }
    destruct c; auto. now apply then_zrange_effect.
  - apply choice_effect. intros s Hs. exists s. auto.
  - apply choice_effect. intros s Hs. exists s. auto.
  - rewrite (Hd eq_refl). apply dual_effect.
Qed.

Lemma effect_wvalid m a o o' : effect m a -> wvalid o -> m o = (Ok tt, o') -> wvalid o' /\ ext o o' /\ o_attr o' a <> None.
Proof.
  intros Hm Hw Ho. destruct (Hm o o' Ho) as [H1 (v & H2 & H3)].
  assert (Dec : forall b, {b = a} + {b <> a}) by (intros; decide equality).
  split; [|split; [|congruence]].
  - intros b w Hb. destruct (Dec b) as [->|Hne].
    + rewrite H2 in Hb. injection Hb as <-. destruct H3 as [H3|H3]; auto.
    + rewrite H1 in Hb by auto. auto.
  - intros b Hb. destruct (Dec b) as [->|Hne]; [congruence|]. now rewrite H1.
Qed.

Lemma assign_wvalid c s o o' : wvalid o -> assign E c s o = (Ok tt, o') -> wvalid o' /\ ext o o'.
Proof.
  intros Hw Ho. destruct s as [a v|z].
  - assert (D : {a = A_dual} + {a <> A_dual}) by decide equality. destruct D as [->|D].
    + destruct c; cbn [assign] in Ho.
      * unfold ret in Ho. injection Ho as <-. split; auto. intros b; auto.
      * destruct (effect_wvalid _ A_dual o o' (dual_effect v) Hw Ho); tauto.
    + destruct (effect_wvalid _ a o o' (assign_effect c a v ltac:(congruence)) Hw Ho); tauto.
  - destruct c; cbn in Ho; injection Ho as <-.
    + split; [exact Hw|]. intros b; auto.
    + split; [exact Hw|]. intros b; auto.
Qed.

(** Completed objects. *)
Definition needed (c : cls) (a : attr) : bool := match a, c with A_dual, Hanser => false | _, _ => true end.
Definition complete (c : cls) (o : obj) : Prop :=
  (forall a, needed c a = true -> o_attr o a <> None) /\ (c = Hanser -> o_zrange o <> None).
Definition valid (c : cls) (o : obj) : Prop := wvalid o /\ complete c o.

(** zrange is kept by every operation that succeeds *)
Lemma hanser_zrange_some s o o' : o_zrange o <> None -> assign E Hanser s o = (Ok tt, o') -> o_zrange o' <> None.
Proof.
  intros Hz.
  assert (K : forall m, (forall o1 o2, m o1 = (Ok tt, o2) -> o_zrange o2 = o_zrange o1) -> m o = (Ok tt, o') -> o_zrange o' <> None).
  { intros m Hm H. rewrite (Hm _ _ H). auto. }
  assert (KN : forall a t v o1 o2, numeric_set E a t v o1 = (Ok tt, o2) -> o_zrange o2 = o_zrange o1).
  { intros a t v o1 o2. unfold numeric_set, numeric_fset. destruct (numeric_decide _ _ _) as [[|]|]; intros H; try discriminate; injection H as <-; auto. }
  assert (KZ : forall v o1 o2, base_zres_set E v o1 = (Ok tt, o2) -> o_zrange o2 = o_zrange o1).
  { intros v o1 o2. unfold base_zres_set, bindM, lift. destruct (py_gt _ _) as [[|]|]; cbn [negb]; intros H; try discriminate; injection H as <-; auto. }
  assert (KG : forall o1 o2, o_zrange o1 <> None -> ignore_attribute_error E (gen_zrange E) o1 = (Ok tt, o2) -> o_zrange o2 <> None).
  { intros o1 o2 H1. unfold ignore_attribute_error.
    destruct (gen_zrange_cases o1) as [(n & d & _ & _ & Hg)|[_ Hg]]; rewrite Hg; intros H; injection H as <-; cbn; auto. discriminate. }
  destruct s as [a v|z].
  - destruct a; cbn [assign]; try (apply K; apply KN).
    + apply K. intros o1 o2. unfold res_set, bindM, lift, getattr.
      destruct (o_attr o1 A_na); [|discriminate]. destruct (o_attr o1 A_wl); [|discriminate].
      destruct (fl_div _ _); [|discriminate]. destruct (fl_div _ _); [|discriminate].
      destruct (py_ge _ _) as [[|]|]; intros H; try discriminate; injection H as <-; auto.
    + unfold hanser_zres_set, bindM. destruct (base_zres_set E v o) as [[[]|e] o1] eqn:E1; [|discriminate].
      intros H. apply KG in H; auto. rewrite (KZ _ _ _ E1). auto.
    + unfold hanser_zsize_set, bindM. destruct (numeric_set E A_zsize TInt v o) as [[[]|e] o1] eqn:E1; [|discriminate].
      intros H. apply KG in H; auto. rewrite (KN _ _ _ _ _ E1). auto.
    + apply K. intros o1 o2. unfold vec_corr_set, choice_set, bindM, lift. destruct (in_set _ _) as [[|]|]; cbn [negb]; intros H; try discriminate; injection H as <-; auto.
    + apply K. intros o1 o2. unfold condition_set, choice_set, bindM, lift. destruct (in_set _ _) as [[|]|]; cbn [negb]; intros H; try discriminate; injection H as <-; auto.
    + intros H. injection H as <-. auto.
  - cbn. intros H. injection H as <-. discriminate.
Qed.

Lemma assign_valid c s o : valid c o -> valid c (snd (assign E c s o)).
Proof.
  intros [Hw [Hc Hz]]. destruct (assign E c s o) as [[[]|e] o'] eqn:Eo; cbn [snd].
  - destruct (assign_wvalid c s o o' Hw Eo) as [Hw' Hx]. split; auto. split.
    + intros a Ha. apply Hx. auto.
    + intros ->. eapply hanser_zrange_some; eauto.
  - apply assign_atomic in Eo. subst. split; auto. split; auto.
Qed.

Lemma apply_cases p o :
  (exists x, e_gen_psf E (obj_params o) (Some p) = Ok x /\
     apply_pupil E p o = (Ok tt, mkObj (o_attr o) (o_zrange o) (fun t => if slot_eqb PSFa t then Some x else None))) \/
  (exists e, e_gen_psf E (obj_params o) (Some p) = Err e /\ apply_pupil E p o = (Err e, clear o)).
Proof.
  unfold apply_pupil, gen_psf, bindM, attribute_changed, set_cache. cbn [o_attr o_zrange].
  change (obj_params (mkObj (o_attr o) (o_zrange o) (fun _ : slot => None))) with (obj_params o).
  destruct (e_gen_psf E (obj_params o) (Some p)) as [x|e]; [left|right]; eexists; split; reflexivity.
Qed.

(** ** The main induction *)
Lemma exec_step c x o g : valid c o -> Inv c o g ->
  valid c (snd (exec E c x o)) /\ Inv c (snd (exec E c x o)) (in_force_step E c x o g).
Proof.
  intros Hv HI. destruct x as [s|s|p]; cbn [in_force_step exec].
  - split; [now apply assign_valid|].
    assert (Hz : o_attr o A_zres <> None). { destruct Hv as [_ [Hc _]]. apply Hc. destruct c; reflexivity. }
    destruct (assign_outcome c s o Hz) as [[e H]|[[Hc H]|[Hc (o' & H & Hcl)]]]; rewrite H; cbn [fst snd raised negb andb].
    + exact HI.
    + now rewrite Hc.
    + rewrite Hc. split; [intros t y Hy; rewrite Hcl in Hy; discriminate|]. intros _ Hn. congruence.
  - destruct (read_good c s g o HI) as (_ & H2 & H3).
    assert (Hs : snd (match read E c s o with (Ok _, o') => (Ok tt, o') | (Err e, o') => (Err e, o') end) = snd (read E c s o)).
    { destruct (read E c s o) as [[|]]; reflexivity. }
    rewrite Hs. split; auto. destruct Hv as [Hw [Hc Hz]]. destruct H3 as [H3 H4].
    split; [|split].
    + intros a v. rewrite H3. apply Hw.
    + intros a. rewrite H3. apply Hc.
    + rewrite H4. apply Hz.
  - destruct c; cbn [fst snd]; [|auto].
    destruct Hv as [Hw [Hc Hz]].
    destruct (apply_cases p o) as [(y & Hy & H)|(e & Hy & H)]; rewrite H; cbn [fst snd raised].
    + split; [split; [exact Hw|split; auto]|]. split.
      * intros t w Hw'. cbn [o_cache] in Hw'. destruct t; try discriminate. injection Hw' as <-. exact Hy.
      * intros _ _. cbn. discriminate.
    + split; [split; [exact Hw|split; auto]|]. apply Inv_clear_none.
Qed.

Lemma run_inv c h : forall o g, valid c o -> Inv c o g ->
  valid c (run E c h o) /\ Inv c (run E c h o) (in_force E c h o g).
Proof.
  induction h as [|x h IH]; intros o g Hv HI; cbn [run in_force]; auto.
  destruct (exec_step c x o g Hv HI). apply IH; auto.
Qed.

(** ** Construction *)
Lemma chain_step (m1 : M E unit) (m2 : M E unit) o r : bindM E m1 (fun _ => m2) o = (Ok r, snd (bindM E m1 (fun _ => m2) o)) ->
  exists o1, m1 o = (Ok tt, o1) /\ m2 o1 = (Ok r, snd (bindM E m1 (fun _ => m2) o)).
Proof.
  unfold bindM. destruct (m1 o) as [[[]|e] o1]; cbn [snd]; [|discriminate]. intros H. exists o1. split; auto.
Qed.

Lemma seq_ok (m1 m2 : M E unit) o o' : bindM E m1 (fun _ => m2) o = (Ok tt, o') ->
  exists o1, m1 o = (Ok tt, o1) /\ m2 o1 = (Ok tt, o').
Proof. unfold bindM. destruct (m1 o) as [[[]|e] o1]; [|discriminate]. eauto. Qed.

Lemma init_valid c k o : init E c k (empty_obj E) = (Ok tt, o) -> valid c o /\ forall s, o_cache o s = None.
Proof.
  unfold init, base_init. intros H.
  assert (W0 : wvalid (empty_obj E)) by (intros a v; discriminate).
  apply seq_ok in H. destruct H as (ob & Hb & Hl).
  assert (step : forall a v oa ob, a <> A_dual -> wvalid oa -> assign E c (SetNum a v) oa = (Ok tt, ob) ->
            wvalid ob /\ ext oa ob /\ o_attr ob a <> None).
  { intros a v oa ob' Ha Hw He. eapply effect_wvalid; eauto. apply assign_effect. congruence. }
  apply seq_ok in Hb. destruct Hb as (o1 & S1 & Hb). apply step in S1; [|discriminate|assumption]. destruct S1 as (W1 & X1 & N1).
  apply seq_ok in Hb. destruct Hb as (o2 & S2 & Hb). apply step in S2; [|discriminate|assumption]. destruct S2 as (W2 & X2 & N2).
  apply seq_ok in Hb. destruct Hb as (o3 & S3 & Hb). apply step in S3; [|discriminate|assumption]. destruct S3 as (W3 & X3 & N3).
  apply seq_ok in Hb. destruct Hb as (o4 & S4 & Hb). apply step in S4; [|discriminate|assumption]. destruct S4 as (W4 & X4 & N4).
  apply seq_ok in Hb. destruct Hb as (o5 & S5 & Hb). apply step in S5; [|discriminate|assumption]. destruct S5 as (W5 & X5 & N5).
  apply seq_ok in Hb. destruct Hb as (o6 & S6 & Hb). apply step in S6; [|discriminate|assumption]. destruct S6 as (W6 & X6 & N6).
  apply seq_ok in Hb. destruct Hb as (o7 & S7 & Hb). apply step in S7; [|discriminate|assumption]. destruct S7 as (W7 & X7 & N7).
  apply seq_ok in Hb. destruct Hb as (o8 & S8 & Hb). apply step in S8; [|discriminate|assumption]. destruct S8 as (W8 & X8 & N8).
  apply step in Hb; [|discriminate|assumption]. destruct Hb as (W9 & X9 & N9).
  assert (All : forall a, a <> A_dual -> o_attr ob a <> None).
  { intros a Ha. unfold ext in *. destruct a; try congruence; auto 12. }
  destruct c.
  - destruct (k_zrange k) as [z|] eqn:Ez.
    + cbn in Hl. injection Hl as <-. split; [|reflexivity]. split; [assumption|]. split.
      * intros a Ha. apply All. destruct a; discriminate.
      * discriminate.
    + destruct (gen_zrange_cases ob) as [(n & d & Hn & Hd & Hg)|[[Hn|Hn] _]].
      * rewrite Hg in Hl. injection Hl as <-. split; [|reflexivity]. split; [assumption|]. split.
        -- intros a Ha. apply All. destruct a; discriminate.
        -- discriminate.
      * exfalso. apply (All A_zsize); auto. discriminate.
      * exfalso. apply (All A_zres); auto. discriminate.
  - pose proof (effect_wvalid (dual_set E (k_dual k)) A_dual ob o (dual_effect _) ltac:(assumption) Hl) as (Hw & Hx & Hn).
    split; [split; [exact Hw|split]|].
    + intros a _. destruct a; try exact Hn; apply Hx, All; discriminate.
    + discriminate.
    + unfold dual_set in Hl. destruct (negb _); [discriminate|]. cbn in Hl. injection Hl as <-. reflexivity.
Qed.

Lemma read_same c s o : same_attrs o (snd (read E c s o)).
Proof.
  assert (G : forall st m, (forall o1, same_attrs o1 (snd (m o1))) -> forall o1, same_attrs o1 (snd (cached E st m o1))).
  { intros st m Hm o1. unfold cached. destruct (o_cache o1 st); [apply same_refl|].
    unfold bindM. specialize (Hm o1). destruct (m o1) as [[y|e] o2]; cbn [snd] in *; auto. }
  assert (B : forall (m : M E (arr E)) (f : arr E -> arr E), (forall o1, same_attrs o1 (snd (m o1))) -> forall o1, same_attrs o1 (snd (bindM E m (fun y => ret E (f y)) o1))).
  { intros m f Hm o1. unfold bindM. specialize (Hm o1). destruct (m o1) as [[y|e] o2]; cbn [snd ret] in *; auto. }
  assert (P : forall o1, same_attrs o1 (snd (read_PSFa_h E o1))) by (apply G; intros o1; split; reflexivity).
  assert (O : forall o1, same_attrs o1 (snd (read_OTFa_s E o1))) by (apply G; intros o1; split; reflexivity).
  assert (PA : forall o1, same_attrs o1 (snd (read_PSFa E c o1))) by (destruct c; [exact P|apply G; apply B; exact O]).
  assert (OA : forall o1, same_attrs o1 (snd (read_OTFa E c o1))) by (destruct c; [apply G; apply B; exact P|exact O]).
  assert (PI : forall o1, same_attrs o1 (snd (read_PSFi E c o1))) by (apply G; apply B; exact PA).
  destruct s; cbn [read]; auto. apply G; apply B; exact PI.
Qed.

Lemma exec_valid c x o : valid c o -> valid c (snd (exec E c x o)).
Proof.
  intros Hv. destruct x as [s|s|p]; cbn [exec].
  - now apply assign_valid.
  - pose proof (read_same c s o) as [H3 H4].
    assert (Hs : snd (match read E c s o with (Ok _, o') => (Ok tt, o') | (Err e, o') => (Err e, o') end) = snd (read E c s o)).
    { destruct (read E c s o) as [[|]]; reflexivity. }
    rewrite Hs. destruct Hv as [Hw [Hc Hz]]. split; [|split].
    + intros a v. rewrite H3. apply Hw.
    + intros a. rewrite H3. apply Hc.
    + rewrite H4. apply Hz.
  - destruct c; auto. destruct (apply_cases p o) as [(y & Hy & H)|(e & Hy & H)]; rewrite H; exact Hv.
Qed.

(** ** zrange *)
Definition complete_zr (o : obj) : Prop := o_attr o A_zsize <> None /\ o_attr o A_zres <> None.

Lemma hanser_zrange_exec x o : complete_zr o ->
  o_zrange (snd (exec E Hanser x o)) = zrange_step E x o (o_zrange o).
Proof.
  intros [Hn Hr].
  assert (KN : forall a t v o1, o_zrange (snd (numeric_set E a t v o1)) = o_zrange o1).
  { intros a t v o1. unfold numeric_set, numeric_fset. destruct (numeric_decide _ _ _) as [[|]|]; reflexivity. }
  destruct x as [s|s|p].
  - destruct s as [a v|z]; [destruct a|destruct z; reflexivity]; cbn [exec assign zrange_step]; try apply KN.
    + unfold res_set, bindM, lift, getattr.
      destruct (o_attr o A_na); [|reflexivity]. destruct (o_attr o A_wl); [|reflexivity].
      destruct (fl_div _ _); [|reflexivity]. destruct (fl_div _ _); [|reflexivity].
      destruct (py_ge _ _) as [[|]|]; reflexivity.
    + unfold hanser_zres_set, bindM.
      destruct (base_zres_set E v o) as [[[]|e] o1] eqn:E1.
      * destruct (base_zres_effect v o o1 E1) as [F1 (w & F2 & _)].
        unfold ignore_attribute_error.
        destruct (gen_zrange_cases o1) as [(n & d & Hn1 & Hd1 & Hg)|[[Hx|Hx] _]].
        -- rewrite Hg. cbn [snd fst raised o_attr o_zrange]. now rewrite Hn1, Hd1.
        -- rewrite F1 in Hx by discriminate. congruence.
        -- congruence.
      * destruct (base_zres_outcome v o) as [[e' H]|[[H _]|[_ (o' & H & _)]]]; try congruence.
        rewrite E1 in H. injection H as _ ->. reflexivity.
    + unfold hanser_zsize_set, bindM.
      destruct (numeric_set E A_zsize TInt v o) as [[[]|e] o1] eqn:E1.
      * assert (Ef : effect (numeric_set E A_zsize TInt v) A_zsize) by (apply (assign_effect Sheppard A_zsize v); discriminate).
        destruct (Ef o o1 E1) as [F1 (w & F2 & _)].
        unfold ignore_attribute_error.
        destruct (gen_zrange_cases o1) as [(n & d & Hn1 & Hd1 & Hg)|[[Hx|Hx] _]].
        -- rewrite Hg. cbn [snd fst raised o_attr o_zrange]. now rewrite Hn1, Hd1.
        -- congruence.
        -- rewrite F1 in Hx by discriminate. congruence.
      * pose proof (numeric_outcome A_zsize TInt v o) as Ho. destruct Ho as [[e' H]|[[_ H]|[_ (o' & H & _)]]]; try congruence.
        rewrite E1 in H. injection H as _ ->. reflexivity.
    + unfold vec_corr_set, choice_set, bindM, lift. destruct (in_set _ _) as [[|]|]; reflexivity.
    + unfold condition_set, choice_set, bindM, lift. destruct (in_set _ _) as [[|]|]; reflexivity.
    + reflexivity.
  - cbn [exec zrange_step].
    pose proof (read_same Hanser s o) as Hr'.
    destruct (read E Hanser s o) as [[y|e] o1]; cbn [snd] in *; apply Hr'.
  - cbn [exec zrange_step]. destruct (apply_cases p o) as [(y & _ & H)|(e & _ & H)]; rewrite H; reflexivity.
Qed.

Lemma run_zrange h : forall o, valid Hanser o ->
  o_zrange (run E Hanser h o) = zrange_after E h o (o_zrange o).
Proof.
  induction h as [|x h IH]; intros o Hv; cbn [run zrange_after]; auto.
  rewrite <- hanser_zrange_exec.
  - apply IH. destruct Hv as [Hw Hc].
    apply exec_valid. split; auto.
  - destruct Hv as [_ [Hc _]]. split; apply Hc; reflexivity.
Qed.

(** ** what res accepts *)
Lemma q_abbe a w : ~ (a == 0)%Q -> ~ (w == 0)%Q -> (1 / (2 * a / w) == w / (2 * a))%Q.
Proof. intros Ha Hw. field. auto. Qed.

Lemma construct_ok c k o : construct E c k = Ok o -> valid c o /\ Inv c o None /\ forall s, o_cache o s = None.
Proof.
  unfold construct. destruct (init E c k (empty_obj E)) as [[[]|e] o'] eqn:Hi; [|discriminate].
  intros H. injection H as ->. destruct (init_valid c k o Hi) as [Hv Hc].
  split; auto. split; auto. split; [intros s x Hx; rewrite Hc in Hx; discriminate|]. intros _ Hn. congruence.
Qed.

Lemma reachable_reads c k o0 h s : construct E c k = Ok o0 ->
  fst (read E c s (run E c h o0)) = scratch E c s (obj_params (run E c h o0)) (in_force E c h o0 None).
Proof.
  intros Hc. destruct (construct_ok c k o0 Hc) as (Hv & HI & _).
  destruct (run_inv c h o0 None Hv HI) as [_ HI']. now apply read_good.
Qed.

Lemma reachable_valid c k o0 h : construct E c k = Ok o0 -> valid c (run E c h o0).
Proof.
  intros Hc. destruct (construct_ok c k o0 Hc) as (Hv & HI & _). now apply run_inv with (g := None).
Qed.

Lemma fresh_read c s o : (forall t, o_cache o t = None) ->
  fst (read E c s o) = scratch E c s (obj_params o) None.
Proof.
  intros H. apply read_good. split; [intros t x Hx; rewrite H in Hx; discriminate|]. intros _ Hn. congruence.
Qed.

Lemma construct_zrange k o : construct E Hanser k = Ok o ->
  o_zrange o = match k_zrange k with
               | Some (ZScalar z) => Some [z] | Some (ZList l) => Some l
               | None => gen_range (o_attr o A_zsize) (o_attr o A_zres)
               end.
Proof.
  intros Hc. destruct (construct_ok _ _ _ Hc) as ([_ [Hall _]] & _ & _). revert Hc.
  unfold construct, init. unfold bindM at 1.
  destruct (base_init E Hanser k (empty_obj E)) as [[[]|e] ob]; [|discriminate].
  destruct (k_zrange k) as [[z|l]|].
  - cbn. intros H. injection H as <-. reflexivity.
  - cbn. intros H. injection H as <-. reflexivity.
  - destruct (gen_zrange_cases ob) as [(n & d & Hn & Hd & Hg)|[_ Hg]]; rewrite Hg; [|discriminate].
    intros H. injection H as <-. cbn [o_zrange o_attr]. now rewrite Hn, Hd.
Qed.

(** res: the Abbe limit is checked against the current wl and na *)
Lemma res_accepts c v o wl na : o_attr o A_wl = Some wl -> o_attr o A_na = Some na ->
  forall qw qn, num wl = Some (FFin qw) -> num na = Some (FFin qn) -> (0 < qw)%Q -> (0 < qn)%Q ->
  fst (assign E c (SetNum A_res v) o) =
    match num v with
    | None => Err TypeError
    | Some (FFin q) => if Qlt_le_dec q (qw / (2 * qn)) then Ok tt else Err ValueError
    | Some (FInf false) => Err ValueError
    | Some _ => Ok tt
    end.
Proof.
  intros Hw Hn qw qn Ew En Pw Pn. cbn [assign]. unfold res_set, bindM, lift, getattr. rewrite Hn, Hw.
  unfold num_or_nan. rewrite Ew, En. cbn [fl_mul].
  unfold fl_div at 1. cbn [fl_zero].
  destruct (Qeq_bool qw 0) eqn:Z1; [apply Qeq_bool_iff in Z1; lra|].
  unfold fl_div. cbn [fl_zero].
  destruct (Qeq_bool (2 * qn / qw) 0) eqn:Z2.
  { apply Qeq_bool_iff in Z2. exfalso. assert (P : (0 < 2 * qn / qw)%Q).
    { apply Qlt_shift_div_l; lra. } lra. }
  unfold py_ge. cbn [num]. destruct (num v) as [f|] eqn:Ev; [|reflexivity].
  destruct f as [q| |[|]]; cbn [fl_le]; try reflexivity.
  assert (Eab : (1 / (2 * qn / qw) == qw / (2 * qn))%Q) by (apply q_abbe; lra).
  destruct (Qle_bool (1 / (2 * qn / qw)) q) eqn:L; destruct (Qlt_le_dec q (qw / (2 * qn))) as [G|G]; auto.
  - apply Qle_bool_iff in L. rewrite Eab in L. exfalso. lra.
  - exfalso. assert (~ (1 / (2 * qn / qw) <= q)%Q) by (rewrite <- Qle_bool_iff; congruence).
    rewrite Eab in H. lra.
Qed.

(** Sheppard's zres *)
Lemma sheppard_zres_accepts v o wl ni : o_attr o A_wl = Some wl -> o_attr o A_ni = Some ni ->
  forall qw qn, num wl = Some (FFin qw) -> num ni = Some (FFin qn) -> (0 <= qw)%Q -> (0 < qn)%Q ->
  fst (assign E Sheppard (SetNum A_zres v) o) =
    match num v with
    | None => Err TypeError
    | Some (FFin q) => if Qlt_le_dec 0 q then (if Qlt_le_dec q (qw / (2 * qn)) then Ok tt else Err ValueError)
                       else Err ValueError
    | Some _ => Err ValueError
    end.
Proof.
  intros Hw Hn qw qn Ew En Pw Pn. cbn [assign]. unfold sheppard_zres_set, bindM, lift, getattr. rewrite Hw, Hn.
  unfold num_or_nan. rewrite Ew, En.
  unfold fl_div at 1. cbn [fl_zero]. change (Qeq_bool 2 0) with false. cbv iota.
  unfold fl_div. cbn [fl_zero].
  destruct (Qeq_bool qn 0) eqn:Z1; [apply Qeq_bool_iff in Z1; lra|].
  unfold py_ge, base_zres_set, bindM, lift, py_gt, py_lt. cbn [num].
  destruct (num v) as [f|] eqn:Ev; [|reflexivity].
  assert (Eab : (qw / 2 / qn == qw / (2 * qn))%Q) by (field; intros HH; rewrite HH in Pn; now apply (Qlt_irrefl 0)).
  destruct f as [q| |[|]]; cbn [fl_le]; try reflexivity.
  assert (LT : fl_lt (FFin (inject_Z 0)) (FFin q) = if Qlt_le_dec 0 q then true else false).
  { unfold fl_lt. cbn. destruct (Qlt_le_dec 0 q) as [G|G].
    - rewrite (proj2 (Qle_bool_iff _ _)) by (change (inject_Z 0) with 0%Q; lra). destruct (Qeq_bool (inject_Z 0) q) eqn:Z; auto.
      apply Qeq_bool_iff in Z. change (inject_Z 0) with 0%Q in Z. exfalso. lra.
    - destruct (Qle_bool (inject_Z 0) q) eqn:L; auto. apply Qle_bool_iff in L. change (inject_Z 0) with 0%Q in L.
      rewrite (proj2 (Qeq_bool_iff _ _)); auto. change (inject_Z 0) with 0%Q. lra. }
  destruct (Qle_bool (qw / 2 / qn) q) eqn:L.
  - apply Qle_bool_iff in L. rewrite Eab in L.
    destruct (Qlt_le_dec 0 q); destruct (Qlt_le_dec q (qw / (2 * qn))) as [G|G]; auto. exfalso; lra.
  - rewrite LT. assert (~ (qw / 2 / qn <= q)%Q) by (rewrite <- Qle_bool_iff; congruence). rewrite Eab in H.
    destruct (Qlt_le_dec 0 q); cbn [negb]; auto. destruct (Qlt_le_dec q (qw / (2 * qn))); auto. exfalso; lra.
Qed.

End Proofs.
