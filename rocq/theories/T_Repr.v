(** C63: repr. *)
From Verif Require Import S_Repr L_PSF L_Ctor T_PSF.
From Coq Require Import Lqa.
Local Open Scope string_scope.
Local Open Scope Z_scope.
Local Open Scope list_scope.

Section A.
Context (E : engine).
Lemma numeric_accepts a t v f (o : obj E) : isinstance v t = true -> M_Val.num v = Some f -> fl_lt f (FFin 0) = false -> exists o', numeric_set E a t v o = (Ok tt, o').
Proof.
  intros Hi Hn Hf. unfold numeric_set, numeric_fset, numeric_decide. rewrite Hi. cbn [negb]. unfold py_lt. rewrite Hn. cbn [M_Val.num bind]. change (inject_Z 0) with 0%Q. rewrite Hf.
  destruct (negb _); eauto.
Qed.
Lemma nonneg_lt f : nonneg_or_nan f -> fl_lt f (FFin 0) = false.
Proof.
  destruct f as [q| |[|]]; cbn; try reflexivity; try discriminate. intros H. unfold fl_lt. cbn. destruct (Qle_bool q 0) eqn:L; [|reflexivity]. apply Qle_bool_iff in L.
  rewrite (proj2 (Qeq_bool_iff _ _)) by lra. reflexivity.
Qed.
Lemma num_float v f : M_Val.num v = Some f -> isinstance v TFloatInt = true.
Proof. destruct v; cbn; congruence. Qed.
Lemma zsize_num v : isinstance v TInt = true -> 0 <= as_int v -> exists f, M_Val.num v = Some f /\ nonneg_or_nan f.
Proof. destruct v; cbn; try discriminate; intros _ H; eexists; (split; [reflexivity|]); [unfold nonneg_or_nan, Qle; cbn; lia|destruct b; cbn; unfold Qle; cbn; lia]. Qed.
Lemma ign_ok (m : M E unit) o o1 : m o = (Ok tt, o1) -> exists o', bindM E m (fun _ => ignore_attribute_error E (gen_zrange E)) o = (Ok tt, o').
Proof.
  intros H. unfold bindM. rewrite H. unfold ignore_attribute_error. destruct (gen_zrange_cases E o1) as [(n & d & _ & _ & Hg)|[_ Hg]]; rewrite Hg; eauto.
Qed.
Lemma base_zres_accepts v q (o : obj E) : M_Val.num v = Some (FFin q) -> (0 < q)%Q -> exists o', base_zres_set E v o = (Ok tt, o').
Proof.
  intros Hn Hq. unfold base_zres_set, bindM, lift, py_gt, py_lt. rewrite Hn. cbn [M_Val.num]. 
  assert (L : fl_lt (FFin (inject_Z 0)) (FFin q) = true).
  { unfold fl_lt. cbn [fl_le fl_eq]. change (inject_Z 0) with 0%Q. apply andb_true_intro. split; [apply Qle_bool_iff; lra|]. destruct (Qeq_bool 0 q) eqn:Z; [apply Qeq_bool_iff in Z; exfalso; lra|reflexivity]. }
  rewrite L. cbn [negb]. eexists. reflexivity.
Qed.
Lemma choice_accepts a l s (o : obj E) : In s l -> exists o', choice_set E a l (VStr s) o = (Ok tt, o').
Proof.
  intros H. unfold choice_set, bindM, lift, in_set. replace (existsb _ l) with true; [eexists; reflexivity|]. symmetry. apply existsb_exists. exists s. split; [assumption|apply String.eqb_refl].
Qed.
Lemma fst_ok {A} (x : res unit * A) : fst x = Ok tt -> exists y, x = (Ok tt, y).
Proof. destruct x as [[[]|] y]; cbn; [eauto|discriminate]. Qed.

(** The constructor accepts valid values within the limits ... *)
Lemma construct_cases c k qw qn qi qr qz vs cs :
  M_Val.num (k_wl k) = Some (FFin qw) -> (0 <= qw)%Q -> M_Val.num (k_na k) = Some (FFin qn) -> (0 <= qn)%Q -> M_Val.num (k_ni k) = Some (FFin qi) -> (0 <= qi)%Q ->
  M_Val.num (k_res k) = Some (FFin qr) -> isinstance (k_size k) TInt = true -> 0 <= as_int (k_size k) ->
  (exists zr, k_zres k = Some zr /\ M_Val.num zr = Some (FFin qz)) -> (0 < qz)%Q ->
  (exists zs, k_zsize k = Some zs /\ isinstance zs TInt = true /\ 0 <= as_int zs) ->
  k_vec_corr k = VStr vs -> In vs vec_corr_values -> k_condition k = VStr cs -> In cs condition_values -> (exists b, k_dual k = VBool b) ->
  let ok := ((0 < qw)%Q /\ (0 < qn)%Q /\ (qr < qw / (2 * qn))%Q /\ (c = Sheppard -> (0 < qi)%Q /\ (qz < qw / (2 * qi))%Q)) in
  (ok -> exists o, construct E c k = Ok o) /\ (~ ok -> construct E c k = Err ValueError \/ construct E c k = Err ZeroDivisionError).
Proof.
  intros Hwl Pwl Hna Pna Hni Pni Hrs Is Ps (zr & Ezr & Hzr) Pzr (zs & Ezs & Is' & Ps') Evs Ivs Ecs Ics (b & Eb) ok.
  set (e0 := empty_obj E).
  assert (N1 : forall a v f oo, In a [A_wl; A_na; A_ni] -> M_Val.num v = Some f -> nonneg_or_nan f -> exists o', assign E c (SetNum a v) oo = (Ok tt, o')).
  { intros a v f oo Ha Hf Hn. cbn in Ha. destruct Ha as [<-|[<-|[<-|[]]]]; cbn [assign]; eapply numeric_accepts; eauto using num_float, nonneg_lt. }
  destruct (N1 A_wl (k_wl k) _ e0 ltac:(cbn; tauto) Hwl Pwl) as [o1 S1]. destruct (assign_stores E c A_wl _ ltac:(discriminate) _ _ S1 eq_refl) as [V1 K1].
  destruct (N1 A_na (k_na k) _ o1 ltac:(cbn; tauto) Hna Pna) as [o2 S2]. destruct (assign_stores E c A_na _ ltac:(discriminate) _ _ S2 ltac:(rewrite K1 by discriminate; reflexivity)) as [V2 K2].
  destruct (N1 A_ni (k_ni k) _ o2 ltac:(cbn; tauto) Hni Pni) as [o3 S3]. destruct (assign_stores E c A_ni _ ltac:(discriminate) _ _ S3 ltac:(rewrite K2, K1 by discriminate; reflexivity)) as [V3 K3].
  assert (Wl3 : o_attr o3 A_wl = Some (k_wl k)) by (rewrite K3, K2 by discriminate; exact V1).
  assert (Na3 : o_attr o3 A_na = Some (k_na k)) by (rewrite K3 by discriminate; exact V2).
  unfold construct, init, base_init.
  assert (B : forall (m m2 : M E unit) o o', m o = (Ok tt, o') -> bindM E m (fun _ => m2) o = m2 o') by (intros m m2 o o' H; unfold bindM; rewrite H; reflexivity).
  assert (Bo : forall (m m2 m3 : M E unit) o o', m o = (Ok tt, o') -> bindM E (bindM E m (fun _ => m2)) (fun _ => m3) o = bindM E m2 (fun _ => m3) o') by (intros m m2 m3 o o' H; unfold bindM; rewrite H; reflexivity).
  fold e0. rewrite (Bo _ _ _ _ _ S1), (Bo _ _ _ _ _ S2), (Bo _ _ _ _ _ S3).
  destruct (Qlt_le_dec 0 qw) as [Gw|Gw]; [destruct (Qlt_le_dec 0 qn) as [Gn|Gn]|].
  2,3: split; [intros (H1 & H2 & _); lra|intros _; right].
  2,3: assert (X : assign E c (SetNum A_res (k_res k)) o3 = (Err ZeroDivisionError, o3)).
  2,4: cbn [assign]; unfold res_set, bindM, lift, getattr; rewrite Na3, Wl3; unfold num_or_nan; rewrite Hwl, Hna; unfold fl_div at 1; cbn [fl_zero fl_mul].
  2: { destruct (Qeq_bool qw 0) eqn:Z; [apply Qeq_bool_iff in Z; lra|]. unfold fl_div. cbn [fl_zero]. rewrite (proj2 (Qeq_bool_iff _ _)); [reflexivity|]. assert (E0 : (qn == 0)%Q) by lra. rewrite E0. field. lra. }
  2: { rewrite (proj2 (Qeq_bool_iff _ _)) by lra. reflexivity. }
  2,3: unfold bindM; rewrite X; reflexivity.
  pose proof (res_accepts E c (k_res k) o3 _ _ Wl3 Na3 _ _ Hwl Hna Gw Gn) as R. rewrite Hrs in R.
  destruct (Qlt_le_dec qr (qw / (2 * qn))) as [Gr|Gr].
  2: { split; [intros (_ & _ & H & _); exfalso; lra|intros _; left]. unfold bindM. destruct (assign E c (SetNum A_res (k_res k)) o3) as [r o4]. cbn in R. subst r. reflexivity. }
  destruct (fst_ok _ R) as [o4 S4]. destruct (assign_stores E c A_res _ ltac:(discriminate) _ _ S4 ltac:(rewrite K3, K2, K1 by discriminate; reflexivity)) as [V4 K4].
  rewrite (Bo _ _ _ _ _ S4).
  assert (S5 : exists o5, assign E c (SetNum A_size (k_size k)) o4 = (Ok tt, o5)).
  { destruct (zsize_num _ Is Ps) as (f & Hf & Nf). cbn [assign]. eapply numeric_accepts; eauto using nonneg_lt. }
  destruct S5 as [o5 S5]. destruct (assign_stores E c A_size _ ltac:(discriminate) _ _ S5 ltac:(rewrite K4, K3, K2, K1 by discriminate; reflexivity)) as [V5 K5].
  rewrite (Bo _ _ _ _ _ S5). rewrite Ezr, Ezs.
  assert (Wl5 : o_attr o5 A_wl = Some (k_wl k)) by (rewrite K5, K4 by discriminate; exact Wl3).
  assert (Ni5 : o_attr o5 A_ni = Some (k_ni k)) by (rewrite K5, K4 by discriminate; exact V3).
  assert (Rest : forall o6, assign E c (SetNum A_zres zr) o5 = (Ok tt, o6) -> exists o,
    bindM E (bindM E (assign E c (SetNum A_zres zr)) (fun _ => bindM E (assign E c (SetNum A_zsize zs)) (fun _ => bindM E (assign E c (SetNum A_vec_corr (k_vec_corr k))) (fun _ => assign E c (SetNum A_condition (k_condition k))))))
      (fun _ => match c with Hanser => match k_zrange k with None => gen_zrange E | Some z => zrange_set E z end | Sheppard => dual_set E (k_dual k) end) o5 = (Ok tt, o)).
  { intros o6 S6. destruct (assign_stores E c A_zres _ ltac:(discriminate) _ _ S6 ltac:(rewrite K5, K4, K3, K2, K1 by discriminate; reflexivity)) as [V6 K6]. rewrite (Bo _ _ _ _ _ S6).
    assert (S7 : exists o7, assign E c (SetNum A_zsize zs) o6 = (Ok tt, o7)).
    { destruct (zsize_num _ Is' Ps') as (f & Hf & Nf). destruct (numeric_accepts A_zsize TInt zs f o6 Is' Hf (nonneg_lt _ Nf)) as [x Hx]. destruct c; cbn [assign]; [eapply ign_ok; eassumption|eauto]. }
    destruct S7 as [o7 S7]. destruct (assign_stores E c A_zsize _ ltac:(discriminate) _ _ S7 ltac:(rewrite K6, K5, K4, K3, K2, K1 by discriminate; reflexivity)) as [V7 K7]. rewrite (Bo _ _ _ _ _ S7).
    rewrite Evs. destruct (choice_accepts A_vec_corr _ _ o7 Ivs) as [o8 S8]. rewrite (Bo _ _ _ o7 o8 S8).
    destruct (assign_stores E c A_vec_corr (VStr vs) ltac:(discriminate) _ _ S8 ltac:(rewrite K7, K6, K5, K4, K3, K2, K1 by discriminate; reflexivity)) as [V8 K8].
    rewrite Ecs. destruct (choice_accepts A_condition _ _ o8 Ics) as [o9 S9]. rewrite (B _ _ o8 o9 S9).
    destruct (assign_stores E c A_condition (VStr cs) ltac:(discriminate) _ _ S9 ltac:(rewrite K8, K7, K6, K5, K4, K3, K2, K1 by discriminate; reflexivity)) as [V9 K9].
    destruct c.
    - destruct (k_zrange k) as [z|]; [eexists; reflexivity|]. destruct (gen_zrange_cases E o9) as [(n & d & _ & _ & Hg)|[[N|N] _]].
      + eexists. exact Hg.
      + rewrite K9, K8, V7 in N by discriminate. discriminate.
      + rewrite K9, K8, K7, V6 in N by discriminate. discriminate.
    - rewrite Eb. eexists. reflexivity. }
  destruct c.
  - assert (S6 : exists o6, assign E Hanser (SetNum A_zres zr) o5 = (Ok tt, o6)).
    { cbn [assign]. destruct (base_zres_accepts zr _ o5 Hzr Pzr) as [x Hx]. eapply ign_ok; eassumption. }
    destruct S6 as [o6 S6]. destruct (Rest o6 S6) as [o Ho]. rewrite Ho. split; [eauto|]. intros H. exfalso. apply H. repeat split; auto; discriminate.
  - destruct (Qlt_le_dec 0 qi) as [Gi|Gi].
    2: { split; [intros (_ & _ & _ & H); destruct (H eq_refl); lra|intros _; right].
      assert (X : assign E Sheppard (SetNum A_zres zr) o5 = (Err ZeroDivisionError, o5)).
      { cbn [assign]. unfold sheppard_zres_set, bindM, lift, getattr. rewrite Wl5, Ni5. unfold num_or_nan. rewrite Hwl, Hni. unfold fl_div at 1. cbn [fl_zero]. change (Qeq_bool 2 0) with false. cbv iota.
        unfold fl_div. cbn [fl_zero]. rewrite (proj2 (Qeq_bool_iff _ _)) by lra. reflexivity. }
      unfold bindM. rewrite X. reflexivity. }
    pose proof (sheppard_zres_accepts E zr o5 _ _ Wl5 Ni5 _ _ Hwl Hni Pwl Gi) as Zr. rewrite Hzr in Zr. destruct (Qlt_le_dec 0 qz); [|lra].
    destruct (Qlt_le_dec qz (qw / (2 * qi))) as [Gz|Gz].
    + destruct (fst_ok _ Zr) as [o6 S6]. destruct (Rest o6 S6) as [o Ho]. rewrite Ho. split; [eauto|]. intros H. exfalso. apply H. repeat split; auto.
    + split; [intros (_ & _ & _ & H); destruct (H eq_refl); exfalso; lra|intros _; left]. unfold bindM. destruct (assign E Sheppard (SetNum A_zres zr) o5) as [r o6]. cbn in Zr. subst r. reflexivity.
Qed.
End A.

(** ** Attributes the class does not have *)
Section B.
Context (E : engine).
Definition aux (c : cls) (o : obj E) : option pyval + option (list fl) := match c with Hanser => inl (o_attr o A_dual) | Sheppard => inr (o_zrange o) end.
Definition keeps (c : cls) {A} (m : M E A) : Prop := forall o, aux c (snd (m o)) = aux c o.
Lemma keeps_bind c {A B} (m : M E A) (f : A -> M E B) : keeps c m -> (forall x, keeps c (f x)) -> keeps c (bindM E m f).
Proof. intros H1 H2 o. unfold bindM. specialize (H1 o). destruct (m o) as [[x|e] o1]; cbn [snd] in *; [rewrite H2|]; exact H1. Qed.
Lemma keeps_id c {A} (m : M E A) : (forall o, snd (m o) = o) -> keeps c m.
Proof. intros H o. now rewrite H. Qed.
Lemma keeps_set c a v : a <> A_dual -> keeps c (setattr E a v).
Proof. intros Ha o. destruct c; cbn; [|reflexivity]. destruct a; try reflexivity; congruence. Qed.
Lemma keeps_changed c : keeps c (attribute_changed E).
Proof. intros o. destruct c; reflexivity. Qed.
Lemma keeps_numeric c a t v : a <> A_dual -> keeps c (numeric_set E a t v).
Proof.
  intros Ha o. unfold numeric_set, numeric_fset. destruct (numeric_decide _ _ _) as [[|]|]; cbn [snd]; try reflexivity. rewrite keeps_changed. now apply keeps_set.
Qed.
Lemma keeps_get c a : keeps c (getattr E a).
Proof. apply keeps_id. intros o. unfold getattr. destruct (o_attr o a); reflexivity. Qed.
Lemma keeps_lift c {A} (r : res A) : keeps c (lift E r). Proof. apply keeps_id. reflexivity. Qed.
Lemma keeps_raise c {A} e : keeps c (raise E (A := A) e). Proof. apply keeps_id. reflexivity. Qed.
Lemma keeps_zrange z : keeps Hanser (zrange_set E z). Proof. intros o. reflexivity. Qed.
Lemma keeps_gen : keeps Hanser (gen_zrange E).
Proof. intros o. destruct (gen_zrange_cases E o) as [(n & d & _ & _ & Hg)|[_ Hg]]; rewrite Hg; reflexivity. Qed.
Lemma keeps_ign c m : keeps c m -> keeps c (ignore_attribute_error E m).
Proof. intros H o. unfold ignore_attribute_error. specialize (H o). destruct (m o) as [[x|[]] o1]; exact H. Qed.
Hint Resolve keeps_bind keeps_set keeps_changed keeps_numeric keeps_get keeps_lift keeps_raise keeps_zrange keeps_gen keeps_ign : keep.
Lemma keeps_dual v : keeps Sheppard (dual_set E v).
Proof. intros o. unfold dual_set. destruct (negb _); reflexivity. Qed.
Lemma keeps_assign c s : keeps c (assign E c s).
Proof.
  destruct s as [a v|z]; [destruct a|]; destruct c; cbn [assign]; try (apply keeps_numeric; discriminate); try apply keeps_dual; try (apply keeps_id; reflexivity); try apply keeps_zrange.
  all: unfold res_set, hanser_zres_set, sheppard_zres_set, base_zres_set, hanser_zsize_set, vec_corr_set, condition_set, choice_set.
  all: repeat first [apply keeps_bind; [|intros ?] | apply keeps_ign | apply keeps_gen | apply keeps_get | apply keeps_lift | apply keeps_raise | apply keeps_changed | apply keeps_set; discriminate | apply keeps_numeric; discriminate
                   | match goal with |- keeps _ (if ?b then _ else _) => destruct b end].
  all: intros o; reflexivity.
Qed.
Lemma keeps_construct c k o : construct E c k = Ok o -> aux c o = aux c (empty_obj E).
Proof.
  unfold construct. assert (K : keeps c (init E c k)).
  { unfold init, base_init. apply keeps_bind; [repeat (apply keeps_bind; [apply keeps_assign|intros _]); apply keeps_assign|intros _]. destruct c; [destruct (k_zrange k); [apply keeps_zrange|apply keeps_gen]|apply keeps_dual]. }
  specialize (K (empty_obj E)). destruct (init E c k (empty_obj E)) as [[x|e] o1]; [|discriminate]. intros [= <-]. exact K.
Qed.
Lemma keeps_exec c x o : aux c (snd (exec E c x o)) = aux c o.
Proof.
  destruct x as [s|s|p]; cbn [exec].
  - apply keeps_assign.
  - pose proof (read_same E c s o) as [H3 H4].
    assert (Hs : snd (match read E c s o with (Ok _, o') => (Ok tt, o') | (Err e, o') => (Err e, o') end) = snd (read E c s o)) by (destruct (read E c s o) as [[|]]; reflexivity).
    rewrite Hs. unfold aux. rewrite H3, H4. reflexivity.
  - destruct c; [|reflexivity]. destruct (apply_cases E p o) as [(y & Hy & H)|(e & Hy & H)]; rewrite H; reflexivity.
Qed.
Lemma keeps_run c h : forall o, aux c (run E c h o) = aux c o.
Proof. induction h as [|x h IH]; intros o; cbn [run]; [reflexivity|]. rewrite IH. apply keeps_exec. Qed.
Lemma aux_reached c k o0 h : construct E c k = Ok o0 -> aux c (run E c h o0) = aux c (empty_obj E).
Proof. intros H. rewrite keeps_run. eapply keeps_construct; eassumption. Qed.
End B.

(** ** The text and its evaluation *)
Section C.
Context (E : engine) (rd_repr rd_str : list fl -> option (list fl)).
Lemma repr_text c (o : obj E) wl na ni rs sz zr zs vc cd : o_attr o A_wl = Some wl -> o_attr o A_na = Some na -> o_attr o A_ni = Some ni -> o_attr o A_res = Some rs -> o_attr o A_size = Some sz ->
  o_attr o A_zres = Some zr -> o_attr o A_zsize = Some zs -> o_attr o A_vec_corr = Some vc -> o_attr o A_condition = Some cd ->
  forall extra, match c with Hanser => exists l, o_zrange o = Some l /\ extra = ("zrange", SeqRepr l) | Sheppard => exists d, o_attr o A_dual = Some d /\ extra = ("dual", fmt d) end ->
  psf_repr E c o = (Ok (mkCall (class_name c)
    ([("wl", fmt wl); ("na", fmt na); ("ni", fmt ni); ("res", fmt rs); ("size", fmt sz); ("zres", fmt zr); ("zsize", fmt zs); ("vec_corr", fmt_quoted vc); ("condition", fmt_quoted cd)] ++ [extra])), o).
Proof.
  intros H1 H2 H3 H4 H5 H6 H7 H8 H9 extra Hx. unfold psf_repr, bindM, getattr. rewrite H1, H2, H3, H4, H5, H6, H7, H8, H9.
  destruct c; destruct Hx as (l & Hl & ->); [unfold get_zrange|]; rewrite Hl; reflexivity.
Qed.
Lemma fmt_finite v q : M_Val.num v = Some (FFin q) -> fmt v = Lit v.
Proof. destruct v; cbn; try discriminate; try reflexivity. intros [= ->]. reflexivity. Qed.
Lemma not_none_num v f : M_Val.num v = Some f -> not_none v = Some v.
Proof. destruct v; cbn; try discriminate; reflexivity. Qed.
End C.

Theorem C63_psf_rebuilt :
  forall (E : engine) (c : cls) (k : ctor) (o0 : obj E) (hist : list (op E)) (rd_repr rd_str : list fl -> option (list fl)) (zr : option (list fl)),
    construct E c k = Ok o0 ->
    let o := run E c hist o0 in
    all_numbers_finite o ->
    match c with Hanser => exists l l', o_zrange o = Some l /\ rd_repr l = Some l' /\ zr = Some l' | Sheppard => zr = None end ->
    exists text, psf_repr E c o = (Ok text, o) /\
      (limits_hold c o -> exists o', eval_psf rd_repr rd_str E text = Evaluates (c, o') /\ same_parameters o o' zr /\ forall s, o_cache o' s = None) /\
      (~ limits_hold c o -> eval_psf rd_repr rd_str E text = Raises ValueError \/ eval_psf rd_repr rd_str E text = Raises ZeroDivisionError).
Proof.
  intros E c k o0 hist rd_repr rd_str zr Hk o Hfin Hz.
  destruct (reachable_valid E c k o0 hist Hk) as [Hw [Hc Hzr]]. fold o in Hw, Hc, Hzr.
  pose proof (aux_reached E c k o0 hist Hk) as Hax. fold o in Hax.
  assert (Q : forall a, In a [A_wl; A_na; A_ni; A_res; A_size; A_zres; A_zsize] -> exists v q, o_attr o a = Some v /\ M_Val.num v = Some (FFin q) /\ valid_value a v).
  { intros a Ha. destruct (Hfin a Ha) as (q & v & E1 & E2). exists v, q. split; [exact E1|]. split; [exact E2|]. apply (Hw a v E1). }
  destruct (Q A_wl ltac:(cbn; tauto)) as (wl & qw & Awl & Nwl & Vwl). destruct (Q A_na ltac:(cbn; tauto)) as (na & qn & Ana & Nna & Vna). destruct (Q A_ni ltac:(cbn; tauto)) as (ni & qi & Ani & Nni & Vni).
  destruct (Q A_res ltac:(cbn; tauto)) as (rs & qr & Ars & Nrs & _). destruct (Q A_size ltac:(cbn; tauto)) as (sz & qs & Asz & Nsz & Vsz).
  destruct (Q A_zres ltac:(cbn; tauto)) as (zres & qz & Azr & Nzr & Vzr). destruct (Q A_zsize ltac:(cbn; tauto)) as (zs & qzs & Azs & Nzs & Vzs). clear Q Hfin.
  destruct (o_attr o A_vec_corr) as [vc|] eqn:Avc; [|exfalso; apply (Hc A_vec_corr); [destruct c; reflexivity|exact Avc]]. destruct (Hw _ _ Avc) as (vs & -> & Ivs).
  destruct (o_attr o A_condition) as [cd|] eqn:Acd; [|exfalso; apply (Hc A_condition); [destruct c; reflexivity|exact Acd]]. destruct (Hw _ _ Acd) as (cs & -> & Ics).
  assert (Nn : forall v q, (exists f, M_Val.num v = Some f /\ nonneg_or_nan f) -> M_Val.num v = Some (FFin q) -> (0 <= q)%Q) by (intros v q (f & Hf & Nf) H; rewrite H in Hf; injection Hf as <-; exact Nf).
  assert (Pz : (0 < qz)%Q) by (destruct Vzr as (f & Hf & Pf); rewrite Nzr in Hf; injection Hf as <-; exact Pf).
  assert (X : exists x d zra, match c with Hanser => exists l, o_zrange o = Some l /\ x = ("zrange", SeqRepr l) | Sheppard => exists d, o_attr o A_dual = Some d /\ x = ("dual", fmt d) end /\
     (exists b, d = VBool b) /\ (c = Sheppard -> o_attr o A_dual = Some d) /\ (c = Hanser -> exists l', zra = Some (ZList l') /\ zr = Some l') /\
     ctor_for c ([("wl", KV wl); ("na", KV na); ("ni", KV ni); ("res", KV rs); ("size", KV sz); ("zres", KV zres); ("zsize", KV zs); ("vec_corr", KV (VStr vs)); ("condition", KV (VStr cs))] ++
        [match c with Hanser => ("zrange", match zra with Some z => KZ z | None => KV VNone end) | Sheppard => ("dual", KV d) end]) = Ok (mkCtor wl na ni rs sz (Some zres) (Some zs) (VStr vs) (VStr cs) (match c with Hanser => zra | Sheppard => None end) d) /\
     eval_text rd_repr rd_str (snd x) = Some (match c with Hanser => match zra with Some z => KZ z | None => KV VNone end | Sheppard => KV d end)).
  { destruct c.
    - destruct Hz as (l & l' & Hl & Hr & ->). exists ("zrange", SeqRepr l), (VBool false), (Some (ZList l')). repeat split; eauto; try discriminate.
      + unfold ctor_for, ctor_of. cbn. rewrite (not_none_num _ _ Nzr), (not_none_num _ _ Nzs). reflexivity.
      + cbn. now rewrite Hr.
    - destruct (o_attr o A_dual) as [d|] eqn:Ad; [|exfalso; apply (Hc A_dual); [reflexivity|exact Ad]]. destruct (Hw _ _ Ad) as (b & ->). exists ("dual", fmt (VBool b)), (VBool b), None.
      repeat split; eauto; try discriminate. unfold ctor_for, ctor_of_sheppard. cbn. rewrite (not_none_num _ _ Nzr), (not_none_num _ _ Nzs). reflexivity. }
  destruct X as (x & d & zra & Hx & Hd & HdS & HzH & Hct & Hev).
  eexists. split; [eapply repr_text; eassumption|].
  assert (Ev : eval_psf rd_repr rd_str E (mkCall (class_name c) ([("wl", fmt wl); ("na", fmt na); ("ni", fmt ni); ("res", fmt rs); ("size", fmt sz); ("zres", fmt zres); ("zsize", fmt zs); ("vec_corr", fmt_quoted (VStr vs)); ("condition", fmt_quoted (VStr cs))] ++ [x])) =
    of_res (do o <- construct E c (mkCtor wl na ni rs sz (Some zres) (Some zs) (VStr vs) (VStr cs) (match c with Hanser => zra | Sheppard => None end) d); Ok (c, o))).
  { rewrite (fmt_finite _ _ Nwl), (fmt_finite _ _ Nna), (fmt_finite _ _ Nni), (fmt_finite _ _ Nrs), (fmt_finite _ _ Nsz), (fmt_finite _ _ Nzr), (fmt_finite _ _ Nzs).
    unfold eval_psf. cbn [c_args app eval_args eval_text fmt_quoted].
    destruct x as [xn xt]. cbn [snd] in Hev. rewrite Hev. cbn [c_name].
    assert (Exn : xn = match c with Hanser => "zrange" | Sheppard => "dual" end) by (destruct c; destruct Hx as (? & _ & Hx); injection Hx as -> _; reflexivity).
    destruct c; cbn [class_name String.eqb Ascii.eqb Bool.eqb]; rewrite Exn; cbn [app] in Hct; rewrite Hct; reflexivity. }
  rewrite Ev. clear Ev.
  set (k' := mkCtor wl na ni rs sz (Some zres) (Some zs) (VStr vs) (VStr cs) (match c with Hanser => zra | Sheppard => None end) d).
  destruct (construct_cases E c k' qw qn qi qr qz vs cs Nwl (Nn _ _ Vwl Nwl) Nna (Nn _ _ Vna Nna) Nni (Nn _ _ Vni Nni) Nrs (proj1 Vsz) (proj2 Vsz) (ex_intro _ zres (conj eq_refl Nzr)) Pz
     (ex_intro _ zs (conj eq_refl Vzs)) eq_refl Ivs eq_refl Ics Hd) as [C1 C2].
  assert (Lim : limits_hold c o <-> ((0 < qw)%Q /\ (0 < qn)%Q /\ (qr < qw / (2 * qn))%Q /\ (c = Sheppard -> (0 < qi)%Q /\ (qz < qw / (2 * qi))%Q))).
  { split.
    - intros (w & n & i & r & z & (v1 & E1 & F1) & (v2 & E2 & F2) & (v3 & E3 & F3) & (v4 & E4 & F4) & (v5 & E5 & F5) & L).
      rewrite Awl in E1; injection E1 as <-; rewrite Ana in E2; injection E2 as <-; rewrite Ani in E3; injection E3 as <-; rewrite Ars in E4; injection E4 as <-; rewrite Azr in E5; injection E5 as <-.
      rewrite Nwl in F1; injection F1 as <-; rewrite Nna in F2; injection F2 as <-; rewrite Nni in F3; injection F3 as <-; rewrite Nrs in F4; injection F4 as <-; rewrite Nzr in F5; injection F5 as <-. exact L.
    - intros L. exists qw, qn, qi, qr, qz. do 5 (split; [eexists; split; eassumption|]). exact L. }
  split.
  - intros L. apply Lim in L. destruct (C1 L) as [o' Ho']. exists o'. rewrite Ho'. split; [reflexivity|]. destruct (construct_ok E c k' o' Ho') as (_ & _ & Cc). split; [|exact Cc].
    pose proof (construct_stores E c k' o' Ho') as St. pose proof (keeps_construct E c k' o' Ho') as Ka. split.
    + intros a. assert (D : {a = A_dual} + {a <> A_dual}) by decide equality. destruct D as [->|D].
      * destruct c; [unfold aux in *; congruence|]. rewrite (St A_dual) by reflexivity. rewrite HdS by reflexivity. reflexivity.
      * rewrite (St a) by congruence. destruct a; cbn [given k' k_wl k_na k_ni k_res k_size k_zres k_zsize k_vec_corr k_condition default]; congruence.
    + destruct c.
      * rewrite (construct_zrange E k' o' Ho'). destruct (HzH eq_refl) as (l' & -> & ->). reflexivity.
      * unfold aux in Ka. rewrite Hz. cbn in Ka. congruence.
  - intros L. destruct (C2 (fun H => L (proj2 Lim H))) as [->| ->]; cbn; auto.
Qed.
Print Assumptions C63_psf_rebuilt.

(** If the printed zrange reads back exactly and no pupil is in force, the rebuilt object returns the same arrays. *)
Theorem C63_psf_same_arrays :
  forall (E : engine) (c : cls) (k : ctor) (o0 : obj E) (hist : list (op E)) (rd_repr rd_str : list fl -> option (list fl)),
    construct E c k = Ok o0 ->
    let o := run E c hist o0 in
    all_numbers_finite o -> limits_hold c o -> (forall l, o_zrange o = Some l -> rd_repr l = Some l) ->
    in_force E c hist o0 None = None ->
    exists text o', psf_repr E c o = (Ok text, o) /\ eval_psf rd_repr rd_str E text = Evaluates (c, o') /\
      forall s, fst (read E c s o') = fst (read E c s o).
Proof.
  intros E c k o0 hist rd_repr rd_str Hk o Hf Hl Hrd Hp.
  destruct (reachable_valid E c k o0 hist Hk) as [_ [_ Hzr]]. fold o in Hzr.
  pose proof (aux_reached E c k o0 hist Hk) as Hax. fold o in Hax.
  assert (Hz : match c with Hanser => exists l l', o_zrange o = Some l /\ rd_repr l = Some l' /\ o_zrange o = Some l' | Sheppard => o_zrange o = None end).
  { destruct c; [|unfold aux in Hax; cbn in Hax; congruence]. destruct (o_zrange o) as [l|] eqn:El; [|exfalso; now apply Hzr]. exists l, l. auto. }
  destruct (C63_psf_rebuilt E c k o0 hist rd_repr rd_str (o_zrange o) Hk Hf Hz) as (text & Ht & Hok & _). fold o in Ht, Hok.
  destruct (Hok Hl) as (o' & Ev & [Sa Sz] & Cc). exists text, o'. split; [exact Ht|]. split; [exact Ev|]. intros s.
  rewrite (fresh_read E c s o' Cc). unfold o at 1. rewrite (reachable_reads E c k o0 hist s Hk), Hp. fold o.
  assert (P : obj_params o' = obj_params o) by (unfold obj_params; rewrite !Sa, Sz; reflexivity). now rewrite P.
Qed.
Print Assumptions C63_psf_same_arrays.

(** A NaN or infinite parameter, or a zrange that cannot be read, makes the text unreadable. *)
Theorem C63_psf_unreadable :
  forall (E : engine) (c : cls) (k : ctor) (o0 : obj E) (hist : list (op E)) (rd_repr rd_str : list fl -> option (list fl)),
    construct E c k = Ok o0 ->
    let o := run E c hist o0 in
    ~ all_numbers_finite o \/ (c = Hanser /\ exists l, o_zrange o = Some l /\ rd_repr l = None) ->
    exists text, psf_repr E c o = (Ok text, o) /\ eval_psf rd_repr rd_str E text = Unreadable.
Proof.
  intros E c k o0 hist rd_repr rd_str Hk o Hbad.
  destruct (reachable_valid E c k o0 hist Hk) as [Hw [Hc Hzr]]. fold o in Hw, Hc, Hzr.
  assert (Q : forall a, needed c a = true -> exists v, o_attr o a = Some v /\ valid_value a v).
  { intros a Ha. destruct (o_attr o a) as [v|] eqn:Ea; [|exfalso; now apply (Hc a)]. exists v. split; [reflexivity|]. now apply Hw. }
  assert (Nd : forall a, a <> A_dual -> needed c a = true) by (intros [] H; destruct c; try reflexivity; congruence).
  destruct (Q A_wl) as (wl & Awl & Vwl); [now apply Nd|]. destruct (Q A_na) as (na & Ana & Vna); [now apply Nd|]. destruct (Q A_ni) as (ni & Ani & Vni); [now apply Nd|].
  destruct (Q A_res) as (rs & Ars & Vrs); [now apply Nd|]. destruct (Q A_size) as (sz & Asz & Vsz); [now apply Nd|]. destruct (Q A_zres) as (zres & Azr & Vzr); [now apply Nd|]. destruct (Q A_zsize) as (zs & Azs & Vzs); [now apply Nd|].
  destruct (Q A_vec_corr) as (vc & Avc & _); [now apply Nd|]. destruct (Q A_condition) as (cd & Acd & _); [now apply Nd|].
  assert (X : exists x, match c with Hanser => exists l, o_zrange o = Some l /\ x = ("zrange", SeqRepr l) | Sheppard => exists d, o_attr o A_dual = Some d /\ x = ("dual", fmt d) end).
  { destruct c; [destruct (o_zrange o) as [l|]; [eauto|exfalso; now apply Hzr]|]. destruct (Q A_dual eq_refl) as (d & Hd & _). eauto. }
  destruct X as [x Hx]. eexists. split; [eapply repr_text; eassumption|].
  assert (F : forall v a, (exists f, M_Val.num v = Some f) -> o_attr o a = Some v -> (exists q, is_q o a q) \/ eval_text rd_repr rd_str (fmt v) = None).
  { intros v a (f & Hf) Ha. destruct v as [z|b|[q| |[|]]| | | |]; cbn in Hf; try discriminate; cbn; auto; left; eexists; eexists; (split; [eassumption|reflexivity]). }
  assert (Some_num : forall v, (exists f, M_Val.num v = Some f /\ nonneg_or_nan f) -> exists f, M_Val.num v = Some f) by (intros v (f & H & _); eauto).
  assert (Int_num : forall v, isinstance v TInt = true -> exists f, M_Val.num v = Some f) by (intros []; cbn; try discriminate; eauto).
  assert (B : (exists t, In t [fmt wl; fmt na; fmt ni; fmt rs; fmt sz; fmt zres; fmt zs; snd x] /\ eval_text rd_repr rd_str t = None)).
  { destruct Hbad as [N|[-> (l & Hl & Hr)]].
    - destruct (F wl A_wl (Some_num _ Vwl) Awl) as [F1|F1]; [|eexists; split; [|exact F1]; cbn; tauto].
      destruct (F na A_na (Some_num _ Vna) Ana) as [F2|F2]; [|eexists; split; [|exact F2]; cbn; tauto].
      destruct (F ni A_ni (Some_num _ Vni) Ani) as [F3|F3]; [|eexists; split; [|exact F3]; cbn; tauto].
      destruct (F rs A_res Vrs Ars) as [F4|F4]; [|eexists; split; [|exact F4]; cbn; tauto].
      destruct (F sz A_size (Int_num _ (proj1 Vsz)) Asz) as [F5|F5]; [|eexists; split; [|exact F5]; cbn; tauto].
      destruct Vzr as (fz & Hz & _). destruct (F zres A_zres (ex_intro _ fz Hz) Azr) as [F6|F6]; [|eexists; split; [|exact F6]; cbn; tauto].
      destruct (F zs A_zsize (Int_num _ (proj1 Vzs)) Azs) as [F7|F7]; [|eexists; split; [|exact F7]; cbn; tauto].
      exfalso. apply N. intros a Ha. cbn in Ha. destruct Ha as [<-|[<-|[<-|[<-|[<-|[<-|[<-|[]]]]]]]]; assumption.
    - destruct Hx as (l0 & Hl0 & ->). rewrite Hl in Hl0. injection Hl0 as <-. exists (SeqRepr l). split; [cbn; tauto|]. cbn. now rewrite Hr. }
  destruct B as (t & It & Et).
  assert (G : forall l : list (string * text), In t (map snd l) -> eval_args rd_repr rd_str l = None).
  { induction l as [|[n u] l IH]; [intros []|]. cbn [map snd In eval_args]. intros [->|I]; [now rewrite Et|]. rewrite (IH I). destruct (eval_text _ _ u); reflexivity. }
  unfold eval_psf. cbn [c_args]. rewrite G; [reflexivity|]. cbn [map snd app In] in *. cbn. cbn in It. tauto.
Qed.
Print Assumptions C63_psf_unreadable.

(** Objects whose wl, na and ni were not assigned since construction can always be rebuilt. *)
Section K.
Context (E : engine).
Lemma optics_same c x (o : obj E) : optics_kept x -> forall a, In a [A_wl; A_na; A_ni] -> o_attr (snd (exec E c x o)) a = o_attr o a.
Proof.
  intros Hx a Ha. destruct x as [s|s|p]; cbn [exec].
  - destruct (assign E c s o) as [[[]|e] o'] eqn:Ho; cbn [snd]; [|now rewrite (assign_atomic E _ _ _ _ _ Ho)].
    destruct s as [b v|z]; [|destruct c; cbn in Ho; injection Ho as <-; reflexivity].
    assert (D : {b = A_dual /\ c = Hanser} + {b = A_dual -> c = Sheppard}) by (destruct b, c; auto; right; congruence).
    destruct D as [[-> ->]|D]; [cbn in Ho; injection Ho as <-; reflexivity|].
    destruct (assign_effect E c b v D o o' Ho) as [K _]. apply K. intros <-. cbn in Ha. destruct Ha as [<-|[<-|[<-|[]]]]; exact Hx.
  - pose proof (read_same E c s o) as [H3 H4].
    assert (Hs : snd (match read E c s o with (Ok _, o') => (Ok tt, o') | (Err e, o') => (Err e, o') end) = snd (read E c s o)) by (destruct (read E c s o) as [[|]]; reflexivity).
    rewrite Hs, H3. reflexivity.
  - destruct c; [|reflexivity]. destruct (apply_cases E p o) as [(y & Hy & H)|(e & Hy & H)]; rewrite H; reflexivity.
Qed.
Definition lim (c : cls) (o : obj E) : Prop :=
  (forall wl na rs, is_q o A_wl wl -> is_q o A_na na -> is_q o A_res rs -> (0 <= wl)%Q -> (0 <= na)%Q -> (0 < wl)%Q /\ (0 < na)%Q /\ (rs < wl / (2 * na))%Q) /\
  (c = Sheppard -> forall wl ni zr, is_q o A_wl wl -> is_q o A_ni ni -> is_q o A_zres zr -> (0 <= ni)%Q -> (0 <= wl)%Q -> (0 < ni)%Q /\ (zr < wl / (2 * ni))%Q).
Lemma lim_same c (o o' : obj E) : (forall a, In a [A_wl; A_na; A_ni; A_res; A_zres] -> o_attr o' a = o_attr o a) -> lim c o -> lim c o'.
Proof.
  intros S [L1 L2]. assert (Q : forall a q, In a [A_wl; A_na; A_ni; A_res; A_zres] -> is_q o' a q -> is_q o a q) by (intros a q Ha (v & H1 & H2); exists v; rewrite <- S by exact Ha; auto).
  split.
  - intros wl na rs H1 H2 H3. apply L1; (apply Q; [cbn; tauto|assumption]).
  - intros Hc wl ni zr H1 H2 H3. apply L2; try exact Hc; (apply Q; [cbn; tauto|assumption]).
Qed.
(** an accepted res or zres is within the limits *)
Lemma res_gives c v o o' : assign E c (SetNum A_res v) o = (Ok tt, o') -> (c = Sheppard -> forall wl ni zr, is_q o' A_wl wl -> is_q o' A_ni ni -> is_q o' A_zres zr -> (0 <= ni)%Q -> (0 <= wl)%Q -> (0 < ni)%Q /\ (zr < wl / (2 * ni))%Q) -> lim c o'.
Proof.
  intros Ho L2. split; [|exact L2]. intros wl na rs (wv & W1 & W2) (nv & N1 & N2) (rv & R1 & R2) Pw Pn.
  destruct (assign_effect E c A_res v ltac:(discriminate) o o' Ho) as [K _]. rewrite K in W1, N1 by discriminate.
  assert (Ev : rv = v).
  { revert Ho. cbn [assign]. unfold res_set, bindM, lift, getattr. rewrite N1, W1. destruct (fl_div _ _) as [t|]; [|discriminate]. destruct (fl_div _ t); [|discriminate]. destruct (py_ge _ _) as [[|]|]; try discriminate.
    intros Ho. injection Ho as <-. cbn in R1. injection R1 as <-. reflexivity. }
  subst rv. destruct (Qlt_le_dec 0 wl) as [Gw|Gw]; [destruct (Qlt_le_dec 0 na) as [Gn|Gn]|].
  - split; [exact Gw|]. split; [exact Gn|]. pose proof (res_accepts E c v o _ _ W1 N1 _ _ W2 N2 Gw Gn) as X. rewrite Ho, R2 in X. cbn [fst] in X. destruct (Qlt_le_dec rs _); [assumption|discriminate].
  - exfalso. revert Ho. cbn [assign]. unfold res_set, bindM, lift, getattr. rewrite N1, W1. unfold num_or_nan. rewrite W2, N2. unfold fl_div at 1. cbn [fl_zero fl_mul]. destruct (Qeq_bool wl 0) eqn:Z; [discriminate|]. unfold fl_div. cbn [fl_zero]. rewrite (proj2 (Qeq_bool_iff _ _)); [discriminate|]. assert (E0 : (na == 0)%Q) by lra. rewrite E0. field. intros E1. lra.
  - exfalso. revert Ho. cbn [assign]. unfold res_set, bindM, lift, getattr. rewrite N1, W1. unfold num_or_nan. rewrite W2, N2. unfold fl_div at 1. cbn [fl_zero fl_mul]. rewrite (proj2 (Qeq_bool_iff _ _)) by lra. discriminate.
Qed.
Lemma zres_gives v o o' : assign E Sheppard (SetNum A_zres v) o = (Ok tt, o') -> forall wl ni zr, is_q o' A_wl wl -> is_q o' A_ni ni -> is_q o' A_zres zr -> (0 <= ni)%Q -> (0 <= wl)%Q -> (0 < ni)%Q /\ (zr < wl / (2 * ni))%Q.
Proof.
  intros Ho wl ni zr (wv & W1 & W2) (nv & N1 & N2) (rv & R1 & R2) Pn Pw.
  destruct (assign_effect E Sheppard A_zres v ltac:(discriminate) o o' Ho) as [K _]. rewrite K in W1, N1 by discriminate.
  destruct (Qlt_le_dec 0 ni) as [Gn|Gn].
  - pose proof (sheppard_zres_accepts E v o _ _ W1 N1 _ _ W2 N2 Pw Gn) as X. rewrite Ho in X. cbn [fst] in X.
    assert (Ev : rv = v).
    { revert Ho. cbn [assign]. unfold sheppard_zres_set, base_zres_set, bindM, lift, getattr. rewrite W1, N1. destruct (fl_div _ _) as [t|]; [|discriminate]. destruct (fl_div t _); [|discriminate]. destruct (py_ge _ _) as [[|]|]; try discriminate.
      destruct (py_gt _ _) as [[|]|]; cbn [negb]; try discriminate. intros Ho. injection Ho as <-. cbn in R1. injection R1 as <-. reflexivity. }
    subst rv. rewrite R2 in X. split; [exact Gn|]. destruct (Qlt_le_dec 0 zr); [|discriminate X]. destruct (Qlt_le_dec zr _); [assumption|discriminate X].
  - exfalso. revert Ho. cbn [assign]. unfold sheppard_zres_set, bindM, lift, getattr. rewrite W1, N1. unfold num_or_nan. rewrite W2, N2. unfold fl_div at 1. cbn [fl_zero]. change (Qeq_bool 2 0) with false. cbv iota.
    unfold fl_div. cbn [fl_zero]. rewrite (proj2 (Qeq_bool_iff _ _)) by lra. discriminate.
Qed.
Lemma lim_exec c x o : optics_kept x -> lim c o -> lim c (snd (exec E c x o)).
Proof.
  intros Hx L. pose proof (optics_same c x o Hx) as So.
  assert (R : forall o', (forall a, o_attr o' a = o_attr o a) -> lim c o') by (intros o' H; apply (lim_same c o); auto).
  destruct x as [s|s|p]; cbn [exec] in *.
  - destruct (assign E c s o) as [[[]|e] o'] eqn:Ho; cbn [snd] in *; [|now rewrite (assign_atomic E _ _ _ _ _ Ho)].
    destruct s as [b v|z]; [|apply R; destruct c; cbn in Ho; injection Ho as <-; reflexivity].
    assert (D : {b = A_dual /\ c = Hanser} + {b = A_dual -> c = Sheppard}) by (destruct b, c; auto; right; congruence).
    destruct D as [[-> ->]|D]; [cbn in Ho; injection Ho as <-; exact L|].
    destruct (assign_effect E c b v D o o' Ho) as [K _].
    assert (Db : {b = A_res} + {b = A_zres} + {b <> A_res /\ b <> A_zres}) by (destruct b; auto; right; split; discriminate).
    destruct Db as [[-> | ->]|[D1 D2]].
    + apply (res_gives c v o o' Ho). intros Hc wl ni zr H1 H2 H3. destruct L as [_ L2].
      assert (T : forall a q, a <> A_res -> is_q o' a q -> is_q o a q) by (intros a q Ha (w & X1 & X2); exists w; rewrite <- (K a Ha); auto).
      apply (L2 Hc); apply T; auto; discriminate.
    + destruct L as [L1 L2]. split.
      * assert (T : forall a q, a <> A_zres -> is_q o' a q -> is_q o a q) by (intros a q Ha (w & X1 & X2); exists w; rewrite <- (K a Ha); auto).
        intros wl na rs H1 H2 H3. apply L1; apply T; auto; discriminate.
      * intros ->. apply (zres_gives v o o' Ho).
    + apply (lim_same c o); [|exact L]. intros a Ha. cbn in Ha. destruct Ha as [<-|[<-|[<-|[<-|[<-|[]]]]]]; try (apply So; cbn; tauto); apply K; congruence.
  - pose proof (read_same E c s o) as [H3 H4].
    assert (Hs : snd (match read E c s o with (Ok _, o') => (Ok tt, o') | (Err e, o') => (Err e, o') end) = snd (read E c s o)) by (destruct (read E c s o) as [[|]]; reflexivity).
    apply R. intros a. rewrite Hs, H3. reflexivity.
  - apply R. intros a. destruct c; [|reflexivity]. destruct (apply_cases E p o) as [(y & Hy & H)|(e & Hy & H)]; rewrite H; reflexivity.
Qed.
Lemma lim_run c h : forall o, Forall optics_kept h -> lim c o -> lim c (run E c h o).
Proof. induction h as [|x h IH]; intros o Hf L; cbn [run]; [exact L|]. inversion Hf; subst. apply IH; [assumption|]. now apply lim_exec. Qed.
Lemma lim_empty c (o : obj E) : o_attr o A_res = None -> o_attr o A_zres = None -> lim c o.
Proof.
  intros H1 H2. split.
  - intros wl na rs _ _ (v & E1 & _). congruence.
  - intros _ wl ni zr _ _ (v & E1 & _). congruence.
Qed.
Lemma lim_construct c k o : construct E c k = Ok o -> lim c o.
Proof.
  unfold construct. destruct (init E c k (empty_obj E)) as [[[]|e] oo] eqn:H; [|discriminate]. intros [= <-]. unfold init, base_init in H.
  apply seq_ok in H. destruct H as (ob & Hb & Hl).
  assert (Lz : forall o o', (forall a, a <> A_dual -> o_attr o' a = o_attr o a) -> lim c o -> lim c o') by (intros o o' S; apply lim_same; intros a Ha; apply S; cbn in Ha; intros ->; intuition discriminate).
  assert (step0 : forall a v oa ob, In a [A_wl; A_na; A_ni] -> assign E c (SetNum a v) oa = (Ok tt, ob) -> o_attr oa A_res = None -> o_attr oa A_zres = None -> o_attr ob A_res = None /\ o_attr ob A_zres = None).
  { intros a v oa ob' Ha He N1 N2. assert (D : a = A_dual -> c = Sheppard) by (intros ->; cbn in Ha; intuition discriminate). destruct (assign_effect E c a v D oa ob' He) as [K _].
    rewrite !K by (intros <-; cbn in Ha; intuition discriminate). auto. }
  assert (step : forall a v oa ob, In a [A_res; A_size; A_zres; A_zsize; A_vec_corr; A_condition] -> lim c oa -> assign E c (SetNum a v) oa = (Ok tt, ob) -> lim c ob).
  { intros a v oa ob' Ha L He. assert (X := lim_exec c (Assign E (SetNum a v)) oa). cbn [exec] in X. rewrite He in X. cbn [snd] in X. apply X; [|exact L]. cbn in Ha. cbn. intuition (subst; exact I). }
  apply seq_ok in Hb. destruct Hb as (o1 & S1 & Hb). apply step0 in S1; [|cbn; tauto|reflexivity|reflexivity]. destruct S1 as [A1 B1].
  apply seq_ok in Hb. destruct Hb as (o2 & S2 & Hb). apply step0 in S2; [|cbn; tauto|assumption|assumption]. destruct S2 as [A2 B2].
  apply seq_ok in Hb. destruct Hb as (o3 & S3 & Hb). apply step0 in S3; [|cbn; tauto|assumption|assumption]. destruct S3 as [A3 B3].
  apply seq_ok in Hb. destruct Hb as (o4 & S4 & Hb). apply step in S4; [|cbn; tauto|now apply lim_empty].
  apply seq_ok in Hb. destruct Hb as (o5 & S5 & Hb). apply step in S5; [|cbn; tauto|assumption].
  apply seq_ok in Hb. destruct Hb as (o6 & S6 & Hb). apply step in S6; [|cbn; tauto|assumption].
  apply seq_ok in Hb. destruct Hb as (o7 & S7 & Hb). apply step in S7; [|cbn; tauto|assumption].
  apply seq_ok in Hb. destruct Hb as (o8 & S8 & Hb). apply step in S8; [|cbn; tauto|assumption].
  apply step in Hb; [|cbn; tauto|assumption].
  apply (Lz ob); [|exact Hb]. destruct c.
  - intros a _. destruct (k_zrange k) as [z|]; [cbn in Hl; injection Hl as <-; reflexivity|]. destruct (gen_zrange_cases E ob) as [(n & d & _ & _ & Hg)|[_ Hg]]; rewrite Hg in Hl; [|discriminate]. injection Hl as <-. reflexivity.
  - intros a Ha. destruct (dual_effect E (k_dual k) ob oo Hl) as [K _]. now apply K.
Qed.
End K.
Theorem C63_psf_limits_kept :
  forall (E : engine) (c : cls) (k : ctor) (o0 : obj E) (hist : list (op E)),
    construct E c k = Ok o0 -> Forall optics_kept hist -> all_numbers_finite (run E c hist o0) -> limits_hold c (run E c hist o0).
Proof.
  intros E c k o0 hist Hk Hh Hf. pose proof (lim_run E c hist o0 Hh (lim_construct E c k o0 Hk)) as [L1 L2]. set (o := run E c hist o0) in *.
  destruct (reachable_valid E c k o0 hist Hk) as [Hw _]. fold o in Hw.
  destruct (Hf A_wl ltac:(cbn; tauto)) as (wl & W). destruct (Hf A_na ltac:(cbn; tauto)) as (na & N). destruct (Hf A_ni ltac:(cbn; tauto)) as (ni & I). destruct (Hf A_res ltac:(cbn; tauto)) as (rs & Rr). destruct (Hf A_zres ltac:(cbn; tauto)) as (zr & Z).
  assert (P : forall a q, In a [A_wl; A_na; A_ni] -> is_q o a q -> (0 <= q)%Q).
  { intros a q Ha (v & V1 & V2). specialize (Hw a v V1). cbn in Ha. destruct Ha as [<-|[<-|[<-|[]]]]; destruct Hw as (f & Hf' & Nf); rewrite V2 in Hf'; injection Hf' as <-; exact Nf. }
  pose proof (P A_wl wl ltac:(cbn; tauto) W) as Pw. pose proof (P A_na na ltac:(cbn; tauto) N) as Pn. pose proof (P A_ni ni ltac:(cbn; tauto) I) as Pi.
  destruct (L1 wl na rs W N Rr Pw Pn) as (X1 & X2 & X3). exists wl, na, ni, rs, zr. do 8 (split; [assumption|]). intros Hc. apply (L2 Hc wl ni zr); assumption.
Qed.
Print Assumptions C63_psf_limits_kept.

(** Cases: the objects of T_PSF; a second one whose aperture was raised to 3 afterwards, so that its text is refused. *)
Lemma made_finite E c : all_numbers_finite (run E c [] (made_of E c)).
Proof.
  intros a Ha. cbn in Ha. destruct Ha as [<-|[<-|[<-|[<-|[<-|[<-|[<-|[]]]]]]]]; destruct c; eexists; eexists; (split; [vm_compute; reflexivity|reflexivity]).
Qed.
Example C63_psf_witness : forall E c, construct E c (kw c) = Ok (made_of E c) /\ all_numbers_finite (run E c [] (made_of E c)) /\ limits_hold c (run E c [] (made_of E c)).
Proof.
  intros E c. split; [apply kw_constructs|]. split; [apply made_finite|]. apply (C63_psf_limits_kept E c (kw c)); [apply kw_constructs|constructor|apply made_finite].
Qed.
Example C63_psf_witness_refused : forall c, exists text, psf_repr toy c (run toy c [Assign toy (SetNum A_na (VInt 3))] (made_of toy c)) = (Ok text, run toy c [Assign toy (SetNum A_na (VInt 3))] (made_of toy c)) /\
  eval_psf Some Some toy text = Raises ValueError.
Proof. intros []; eexists; (split; [vm_compute; reflexivity|vm_compute; reflexivity]). Qed.
