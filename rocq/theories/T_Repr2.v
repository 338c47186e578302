(** C63: repr of microscopes. *)
From Verif Require Import S_Repr L_PSF L_Ctor L_Micro T_PSF T_Micro2 T_Repr L_Repr L_Micro2.
Import M_Array.
Local Open Scope string_scope.
Local Open Scope list_scope.

(** ** What the text depends on *)
Definition alike (m m' : micro) : Prop :=
  mi_kind m' = mi_kind m /\ mi_cls m' = mi_cls m /\ mi_params m' = mi_params m /\ mi_pixel m' = mi_pixel m /\ mi_num m' MOs = mi_num m MOs /\
  (mi_kind m = Confocal -> mi_num m' MPinhole = mi_num m MPinhole /\ o_attr (mi_exc m') A_wl = o_attr (mi_exc m) A_wl) /\
  (mi_kind m = SIM -> mi_num m' = mi_num m /\ mi_wiener m' = mi_wiener m /\ mi_orient m' = mi_orient m).
Lemma alike_refl m : alike m m. Proof. repeat split. Qed.
Lemma alike_trans a b c : alike a b -> alike b c -> alike a c.
Proof.
  intros (A1 & A2 & A3 & A4 & A5 & A6 & A7) (B1 & B2 & B3 & B4 & B5 & B6 & B7). repeat split; try congruence.
  - rewrite (proj1 (B6 ltac:(congruence))). now apply A6.
  - rewrite (proj2 (B6 ltac:(congruence))). now apply A6.
  - rewrite (proj1 (B7 ltac:(congruence))). now apply A7.
  - rewrite (proj1 (proj2 (B7 ltac:(congruence)))). now apply A7.
  - rewrite (proj2 (proj2 (B7 ltac:(congruence)))). now apply A7.
Qed.
Definition quiet {A} (c : MM A) : Prop := forall m, alike m (snd (c m)).
Lemma quiet_bind {A B} (c : MM A) (f : A -> MM B) : quiet c -> (forall x, quiet (f x)) -> quiet (mbind c f).
Proof. intros H1 H2 m. unfold mbind. specialize (H1 m). destruct (c m) as [[x|e] m']; cbn [snd] in *; [|exact H1]. eapply alike_trans; [exact H1|apply H2]. Qed.
Lemma quiet_ret {A} (x : A) : quiet (mret x). Proof. intros m; apply alike_refl. Qed.
Lemma quiet_lift {A} (x : res A) : quiet (mlift x). Proof. intros m; apply alike_refl. Qed.
Lemma quiet_asks {A} (f : micro -> A) : quiet (masks f). Proof. intros m; apply alike_refl. Qed.
Lemma quiet_get a : quiet (m_get a). Proof. intros m; unfold m_get; destruct (mi_num m a); apply alike_refl. Qed.
Lemma quiet_model_R a : quiet (model_R a).
Proof. intros m. unfold model_R, on_model. destruct (bindM _ _ _ _); repeat split. Qed.
Lemma quiet_psfi : quiet model_PSFi. Proof. intro q; unfold model_PSFi; destruct (read _ _ _ _); repeat split. Qed.
Lemma quiet_otfi : quiet model_OTFi. Proof. intro q; unfold model_OTFi; destruct (read _ _ _ _); repeat split. Qed.
Lemma quiet_exci : quiet exc_PSFi.
Proof.
  intro q; unfold exc_PSFi. pose proof (read_same numeric (mi_cls q) PSFi (mi_exc q)) as [H _]. destruct (read _ _ _ _) as [r o]. cbn [snd] in *. repeat split. cbn. now rewrite H.
Qed.
Ltac quiet_tac := repeat match goal with
  | |- quiet (mbind _ _) => apply quiet_bind; [|intros ?] | |- quiet (mret _) => apply quiet_ret | |- quiet (mlift _) => apply quiet_lift | |- quiet (m_get _) => apply quiet_get
  | |- quiet (model_R _) => apply quiet_model_R | |- quiet model_PSFi => apply quiet_psfi | |- quiet exc_PSFi => apply quiet_exci | |- quiet model_OTFi => apply quiet_otfi
  | |- quiet (masks _) => apply quiet_asks | |- quiet (if ?b then _ else _) => destruct b | |- quiet (match ?b with _ => _ end) => destruct b end.
Lemma quiet_model_psf : quiet model_psf.
Proof.
  assert (H1 : quiet confocal_psf) by (unfold confocal_psf; quiet_tac).
  assert (H2 : quiet apotome_psf) by (unfold apotome_psf; quiet_tac).
  assert (H3 : quiet sim_psf) by (unfold sim_psf, sim_base; cbv zeta; quiet_tac).
  intros q. unfold model_psf. destruct (mi_kind q); [apply quiet_psfi|apply H1|apply H2|apply H3].
Qed.
Lemma quiet_PSF : quiet m_PSF.
Proof.
  assert (H : quiet compute_psf) by (unfold compute_psf; apply quiet_bind; [apply quiet_model_psf|intros ?]; quiet_tac).
  intros q. unfold m_PSF. destruct (mi_psf q); [apply alike_refl|]. unfold mbind. specialize (H q). destruct (compute_psf q) as [[a|e] q']; cbn in *; exact H.
Qed.
Lemma quiet_OTF : quiet m_OTF.
Proof.
  intros q. unfold m_OTF. destruct (mi_otf q); [apply alike_refl|]. unfold mbind. pose proof (quiet_PSF q) as H. destruct (m_PSF q) as [[a|e] q']; cbn in *; exact H.
Qed.
Lemma set_other k a v m b : mi_kind m = k -> a <> b -> mi_num (snd (m_set a v m)) b = mi_num m b.
Proof. intros _ H. unfold m_set, numeric_fset. destruct (has_prop _ _); [|reflexivity]. destruct (numeric_decide _ _ _) as [[|]|]; try reflexivity. cbn. destruct a, b; try reflexivity; congruence. Qed.
Lemma alike_step c x m : mi_kind m = kind_of c -> not_shown c x -> alike m (mexec x m).
Proof.
  intros Hk Hx. destruct x as [a v|y|y|o|v|v|l| |]; cbn [mexec]; try (repeat split; fail); try contradiction; try apply quiet_PSF; try apply quiet_OTF.
  - assert (S : forall m', m' = snd (m_set a v m) -> mi_kind m' = mi_kind m /\ mi_cls m' = mi_cls m /\ mi_params m' = mi_params m /\ mi_pixel m' = mi_pixel m /\ mi_exc m' = mi_exc m).
    { intros m' ->. unfold m_set, numeric_fset. destruct (has_prop _ _); [|auto]. destruct (numeric_decide _ _ _) as [[|]|]; cbn; auto. }
    destruct (S _ eq_refl) as (S1 & S2 & S3 & S4 & S5). do 4 (split; [assumption|]). rewrite S5.
    assert (Ha : a <> MOs) by (intros ->; exact Hx). split; [now apply (set_other (mi_kind m))|]. split.
    + intros K. split; [|reflexivity]. apply (set_other (mi_kind m)); [reflexivity|]. intros Ea. rewrite Ea in Hx. assert (Ec : c = ConfocalC) by (destruct c; cbn in Hk; congruence). rewrite Ec in Hx. exact (Hx eq_refl).
    + intros K. assert (Ea : a = MPinhole) by (destruct c; cbn in Hk; try congruence; destruct a; cbn in Hx; try contradiction; reflexivity).
      subst a. unfold m_set. rewrite K. cbn. auto.
  - assert (O : mi_kind m = Confocal -> o_attr (snd (exec numeric (mi_cls m) y (mi_exc m))) A_wl = o_attr (mi_exc m) A_wl).
    2: { do 5 (split; [reflexivity|]). split; [|intros; repeat split]. intros K. split; [reflexivity|exact (O K)]. }
    intros K. apply optics_same; [|cbn; tauto]. apply Hx. destruct c; cbn in Hk; congruence.
  - destruct c; try contradiction; cbn in Hk; repeat split; exfalso; congruence.
  - destruct c; try contradiction; cbn in Hk; repeat split; exfalso; congruence.
Qed.
Lemma alike_run c h : forall m, mi_kind m = kind_of c -> Forall (not_shown c) h -> alike m (mrun h m).
Proof.
  induction h as [|x h IH]; intros m Hk Hf; [apply alike_refl|]. cbn [mrun]. inversion Hf; subst. pose proof (alike_step c x m Hk H1) as A. eapply alike_trans; [exact A|].
  apply IH; [|assumption]. destruct A as [A _]. congruence.
Qed.
Lemma upd_exc_same m : upd_exc (mi_exc m) m = m. Proof. destruct m; reflexivity. Qed.
Lemma exc_get a v m : o_attr (mi_exc m) a = Some v -> on_exc (getattr numeric a) m = (Ok v, m).
Proof. intros H. unfold on_exc, getattr. rewrite H. now rewrite upd_exc_same. Qed.
Lemma num_get a v m : mi_num m a = Some v -> m_get a m = (Ok v, m). Proof. intros H. unfold m_get. now rewrite H. Qed.
Lemma wide_args_eq m os : mi_num m MOs = Some os -> wide_args m = (Ok ([("model", Quoted (short_name (mi_cls m)))] ++ map (fun kv => (fst kv, fmt_k (snd kv))) (dpop (mi_params m) "res") ++
        [("pixel_size", fmt (mi_pixel m)); ("oversample_factor", fmt os)]), m).
Proof. intros H. unfold wide_args, mbind, masks. rewrite (num_get _ _ _ H). reflexivity. Qed.
(** what is printed of the excitation settings *)
Definition exc_args (c : mclass) (m : micro) (l : list (string * pyval)) : Prop :=
  match kind_of c with
  | Widefield | Apotome => l = []
  | Confocal => exists w p, o_attr (mi_exc m) A_wl = Some w /\ mi_num m MPinhole = Some p /\ l = [("wl_exc", w); ("pinhole_size", p)]
  | SIM => exists na wl co dc ds, mi_num m MNaExc = Some na /\ mi_num m MWlExc = Some wl /\ mi_num m MCoherent = Some co /\ mi_num m MDc = Some dc /\ mi_num m MDcSup = Some ds /\
      l = [("na_exc", na); ("wl_exc", wl); ("wiener", mi_wiener m); ("coherent", co); ("dc", dc); ("dc_suppress", ds)]
  end.
Definition full_text (c : mclass) (m : micro) (os : pyval) (l : list (string * pyval)) : mcall :=
  mkMcall c (([("model", Quoted (short_name (mi_cls m)))] ++ map (fun kv => (fst kv, fmt_k (snd kv))) (dpop (mi_params m) "res") ++ [("pixel_size", fmt (mi_pixel m)); ("oversample_factor", fmt os)]) ++
     map (fun kv => (fst kv, fmt (snd kv))) l) (match kind_of c with SIM => Some (mi_orient m) | _ => None end).
Lemma repr_eq c m os l : mi_num m MOs = Some os -> exc_args c m l -> micro_repr c m = (Ok (full_text c m os l), m).
Proof.
  intros Ho Hl. unfold micro_repr, full_text. unfold mbind at 1. rewrite (wide_args_eq m os Ho). unfold exc_args in Hl. destruct (kind_of c).
  - subst l. cbn [map]. rewrite app_nil_r. reflexivity.
  - destruct Hl as (w & p & H1 & H2 & ->). unfold mbind. rewrite (exc_get _ _ _ H1), (num_get _ _ _ H2). reflexivity.
  - subst l. cbn [map]. rewrite app_nil_r. reflexivity.
  - destruct Hl as (na & wl & co & dc & ds & H1 & H2 & H3 & H4 & H5 & ->). unfold mbind, masks. rewrite (num_get _ _ _ H1), (num_get _ _ _ H2), (num_get _ _ _ H3), (num_get _ _ _ H4), (num_get _ _ _ H5). reflexivity.
Qed.
Lemma text_alike c m m' os l : alike m m' -> mi_kind m = kind_of c -> mi_num m MOs = Some os -> exc_args c m l ->
  micro_repr c m' = (Ok (full_text c m os l), m').
Proof.
  intros (A1 & A2 & A3 & A4 & A5 & A6 & A7) Hk Ho Hl. rewrite (repr_eq c m' os l).
  - unfold full_text. rewrite A2, A3, A4. destruct (kind_of c) eqn:K; try reflexivity. rewrite (proj2 (proj2 (A7 Hk))). reflexivity.
  - congruence.
  - unfold exc_args in *. destruct (kind_of c) eqn:K; auto.
    + destruct (A6 Hk) as [B1 B2]. rewrite B1, B2. exact Hl.
    + destruct (A7 Hk) as (B1 & B2 & B3). rewrite B1, B2. exact Hl.
Qed.

(** ** Evaluating the text of a built microscope *)
Lemma kw_known a m : kwargs_ok a -> built_from a m -> forall k, In k (map fst (w_kwargs a)) -> In k (model_keywords (mi_cls m)).
Proof.
  intros Hk Hb. destruct (built_wide_result a m Hb) as (k & f & p & c & kk & o & _ & _ & _ & _ & _ & _ & Ek & _ & Hc & _). rewrite Hc.
  apply Classical_Prop.NNPP. intros N. rewrite ctor_for_bad in Ek by exact N. discriminate.
Qed.
Lemma take_mid k v pre post : ~ In k (map fst pre) -> ~ In k (map fst post) -> take (pre ++ (k, KV v) :: post) k = Ok (v, pre ++ post).
Proof.
  intros H1 H2. unfold take, required. rewrite dget_app, dget_none by exact H1. cbn [dget]. rewrite String.eqb_refl. cbn [bind as_val]. rewrite dpop_app. cbn [dpop filter fst]. rewrite String.eqb_refl. cbn [negb].
  rewrite (dpop_none pre) by exact H1. f_equal. f_equal. f_equal. now apply dpop_none.
Qed.
Definition exc_keys := ["wl_exc"; "pinhole_size"; "na_exc"; "wiener"; "coherent"; "dc"; "dc_suppress"; "orientations"].
Lemma exc_key_free c a sz os : (forall k, In k (map fst (w_kwargs a)) -> In k (model_keywords c)) -> forall k, In k exc_keys -> ~ In k (map fst (wide_dict c a sz os)).
Proof.
  intros H k Hk I. unfold wide_dict in I. rewrite !map_app, !in_app_iff in I. destruct I as [I|[[I|[I|I]]|I]].
  3: { apply others_keys in I. destruct I as [I _]. apply H in I. destruct c; cbn in I, Hk; intuition (subst; discriminate). }
  all: cbn in I, Hk; intuition (subst; discriminate).
Qed.
Section Build.
Context (rd_repr rd_str : list fl -> option (list fl)) (rd_orient : list R -> option (list R)).
Lemma eval_full c m a sz rs l : kwargs_ok a -> dget (w_kwargs a) "res" = None ->
  mi_params m = dset (dset (psf_params0 a) "size" (KV sz)) "res" (KV rs) -> mi_pixel m = w_pixel a ->
  (forall v, In v ([w_na a; w_ni a; w_wl a; w_size a; w_pixel a; sz; w_os a] ++ map snd l) -> reads_back rd_str (KV v)) -> (forall k v, In (k, v) (w_kwargs a) -> reads_back rd_str v) ->
  eval_args rd_repr rd_str (mc_args (full_text c m (w_os a) l)) = Some (wide_dict (mi_cls m) a sz (w_os a) ++ map (fun kv => (fst kv, KV (snd kv))) l).
Proof.
  intros Hk Hr Hp Hx Hv Hw. cbn [mc_args full_text]. rewrite Hp, Hx. apply eval_args_app.
  - apply eval_wide; try assumption. intros v I. apply Hv. rewrite in_app_iff. now left.
  - assert (E : map (fun kv => (fst kv, fmt (snd kv))) l = map (fun kv => (fst kv, fmt_k (snd kv))) (map (fun kv : string * pyval => (fst kv, KV (snd kv))) l)) by (rewrite map_map; reflexivity).
    rewrite E. apply eval_args_dict. intros k v I. apply in_map_iff in I. destruct I as ([k' v'] & [= <- <-] & I). apply Hv. rewrite in_app_iff. right. apply in_map_iff. exists (k', v'). auto.
Qed.
(** what the evaluation amounts to *)
Lemma eval_text_eq c m a sz rs l : kwargs_ok a -> dget (w_kwargs a) "res" = None -> (forall k, In k (map fst (w_kwargs a)) -> In k (model_keywords (mi_cls m))) ->
  mi_params m = dset (dset (psf_params0 a) "size" (KV sz)) "res" (KV rs) -> mi_pixel m = w_pixel a ->
  (forall v, In v ([w_na a; w_ni a; w_wl a; w_size a; w_pixel a; sz; w_os a] ++ map snd l) -> reads_back rd_str (KV v)) -> (forall k v, In (k, v) (w_kwargs a) -> reads_back rd_str v) ->
  rd_orient (mi_orient m) = Some (mi_orient m) -> exc_args c m l ->
  eval_micro rd_repr rd_str rd_orient (full_text c m (w_os a) l) =
  let a' := again (mi_cls m) a sz (w_os a) in
  match c, map snd l with
  | WidefieldC, [] => of_res (WidefieldMicroscope a')
  | ApotomeC, [] => of_res (ApotomeMicroscope a')
  | ConfocalC, [w; p] => of_res (ConfocalMicroscope a' w p)
  | BaseSIMC, [na; wl; wi; co; dc; ds] => of_res (BaseSIMMicroscope a' (mkSargs na wl wi co dc ds (mi_orient m)))
  | _, _ => Raises TypeError
  end.
Proof.
  intros Hk Hr Hkw Hp Hx Hv Hw Ho Hl. unfold eval_micro. rewrite (eval_full c m a sz rs l) by assumption. cbn [mc_class full_text mc_orient].
  pose proof (exc_key_free (mi_cls m) a sz (w_os a) Hkw) as Hf. pose proof (bind_wide_dict (mi_cls m) a sz (w_os a) Hk) as Hb. set (D := wide_dict _ _ _ _) in *. clearbody D.
  destruct c; unfold exc_args in Hl; cbn [kind_of] in *.
  - subst l. cbn [map]. rewrite app_nil_r, Hb. reflexivity.
  - destruct Hl as (w & p & _ & _ & ->). cbn [map fst snd]. unfold bind_confocal.
    rewrite (take_mid "wl_exc" w D); [|apply Hf; cbn; tauto|cbn; intuition discriminate]. cbn [bind].
    rewrite (take_mid "pinhole_size" p D []); [|apply Hf; cbn; tauto|intros []]. cbn [bind]. rewrite app_nil_r, Hb. reflexivity.
  - subst l. cbn [map]. rewrite app_nil_r, Hb. reflexivity.
  - destruct Hl as (na & wl & co & dc & ds & _ & _ & _ & _ & _ & ->). cbn [map fst snd]. rewrite Ho. cbn [option_map passed_inside existsb]. unfold bind_sim.
    rewrite (take_mid "na_exc" na D); [|apply Hf; cbn; tauto|cbn; intuition discriminate]. cbn [bind].
    rewrite (take_mid "wl_exc" wl D); [|apply Hf; cbn; tauto|cbn; intuition discriminate]. cbn [bind].
    rewrite (take_mid "wiener" (mi_wiener m) D); [|apply Hf; cbn; tauto|cbn; intuition discriminate]. cbn [bind].
    rewrite (take_mid "coherent" co D); [|apply Hf; cbn; tauto|cbn; intuition discriminate]. cbn [bind].
    rewrite (take_mid "dc" dc D); [|apply Hf; cbn; tauto|cbn; intuition discriminate]. cbn [bind].
    rewrite (take_mid "dc_suppress" ds D []); [|apply Hf; cbn; tauto|intros []]. cbn [bind]. rewrite app_nil_r, Hb. reflexivity.
  - destruct Hl as (na & wl & co & dc & ds & _ & _ & _ & _ & _ & ->). cbn [map fst snd]. rewrite Ho. cbn [option_map passed_inside existsb]. unfold has_key at 1. rewrite dget_app, dget_none by (apply Hf; cbn; tauto). reflexivity.
  - destruct Hl as (na & wl & co & dc & ds & _ & _ & _ & _ & _ & ->). cbn [map fst snd]. rewrite Ho. cbn [option_map passed_inside existsb]. unfold has_key at 1. rewrite dget_app, dget_none by (apply Hf; cbn; tauto). reflexivity.
  - destruct Hl as (na & wl & co & dc & ds & _ & _ & _ & _ & _ & ->). cbn [map fst snd]. rewrite Ho. cbn [option_map passed_inside existsb]. unfold has_key at 1. rewrite dget_app, dget_none by (apply Hf; cbn; tauto). reflexivity.
Qed.
End Build.

(** ** The excitation settings of a built microscope *)
Lemma wide_unset a k u m b : wide_init a (empty_micro k) = (Ok u, m) -> b <> MOs -> mi_num m b = None /\ mi_kind m = k.
Proof.
  intros H Hb. rewrite wide_eq in H. destruct (int_value (w_os a)); [|discriminate]. destruct (_ <? 0)%Z; [discriminate|]. cbv zeta in H. destruct (Z.even _); [discriminate|].
  destruct (do p <- fine_pair a z; _) as [m'|] eqn:E; [|discriminate]. injection H as _ <-. destruct (fine_pair a z) as [p|]; cbn [bind] in E; [|discriminate]. destruct (choose_model _) as [c|]; cbn [bind] in E; [|discriminate].
  destruct (ctor_for _ _) as [kk|]; cbn [bind] in E; [|discriminate]. destruct (construct _ _ _) as [o|]; cbn [bind] in E; [|discriminate]. injection E as <-. cbn. split; [|reflexivity]. destruct b; try reflexivity. congruence.
Qed.
Lemma wl_again (E : engine) c w o o1 v q : assign E c (SetNum A_wl w) o = (Ok tt, o1) -> o_attr o A_wl = Some v -> M_Val.num v = Some (FFin q) -> (0 <= q)%Q ->
  exists w', o_attr o1 A_wl = Some w' /\ assign E c (SetNum A_wl w') o = (Ok tt, o1) /\ (w' = w \/ w' = v).
Proof.
  intros H Hv Hq Pq. cbn [assign] in *. unfold numeric_set, numeric_fset in *. destruct (numeric_decide (o_attr o A_wl) TFloatInt w) as [[|]|e] eqn:D; [| |discriminate].
  - injection H as <-. exists w. split; [reflexivity|]. rewrite D. auto.
  - injection H as <-. exists v. split; [exact Hv|]. split; [|now right]. rewrite Hv. unfold numeric_decide. rewrite (num_float v _ Hq). cbn [negb]. unfold py_lt. rewrite Hq. change (M_Val.num (VInt 0)) with (Some (FFin 0)). cbn [bind].
    rewrite (nonneg_lt (FFin q) Pq). unfold py_eq. rewrite Hq.
    assert (Q : fl_eq (FFin q) (FFin q) = true) by (apply Qeq_bool_iff; reflexivity).
    first [rewrite Q | idtac]. cbn. cbn in Q. rewrite ?Q. reflexivity.
Qed.
Lemma readable_number rd v f : M_Val.num v = Some f -> reads_back rd (KV v) -> exists q, f = FFin q.
Proof. destruct v as [z|b|[q| |[|]]| | | |]; cbn; try discriminate; try tauto; intros [= <-] _; eauto. Qed.
Lemma built_wl a m : kwargs_ok a -> built_from a m -> o_attr (mi_model m) A_wl = Some (w_wl a) /\ exists f, M_Val.num (w_wl a) = Some f /\ nonneg_or_nan f.
Proof.
  intros Hk Hb. destruct (C54_geometry a m Hk Hb) as (f & n & _ & _ & _ & _ & _ & _ & _ & W & _). split; [exact W|].
  destruct (built_wide_result a m Hb) as (k & f' & p & c & kk & o & _ & _ & _ & _ & _ & _ & _ & Eo & _ & _ & _ & Hm & _). destruct (construct_ok numeric c kk o Eo) as [[V _] _]. rewrite Hm in W. exact (V A_wl _ W).
Qed.
Lemma sets_through (a : mattr) v m1 m2 : mi_num m1 a = None -> has_prop (mi_kind m1) a = true -> m_set a v m1 = (Ok tt, m2) -> m2 = set_to a v m1.
Proof.
  intros Hn Hp H. rewrite (set_unset (isinstance v (mtype a)) a (mtype a) v m1 Hp eq_refl Hn eq_refl) in H. destruct (isinstance v (mtype a)); [|discriminate]. destruct (M_Val.num v); [|discriminate]. destruct (fl_lt _ _); [discriminate|]. injection H as <-. reflexivity.
Qed.
Lemma make_ok k i m : make k i = Ok m -> i (empty_micro k) = (Ok tt, m).
Proof. unfold make. destruct (i (empty_micro k)) as [[[]|e] m']; [|discriminate]. intros [= ->]. reflexivity. Qed.
Lemma confocal_exc a rd wl p m : kwargs_ok a -> ConfocalMicroscope a wl p = Ok m -> reads_back rd (KV (w_wl a)) -> reads_back rd (KV wl) -> reads_back rd (KV p) ->
  exists w', exc_args ConfocalC m [("wl_exc", w'); ("pinhole_size", p)] /\ reads_back rd (KV w') /\ mi_kind m = Confocal /\ mi_orient m = [] /\
    forall i m1, i (empty_micro Confocal) = (Ok tt, m1) -> wide_init a (empty_micro Confocal) = (Ok tt, m1) ->
      (let! _ := i in let! _ := m_set MPinhole p in let! o := masks mi_model in fun m => on_exc (assign numeric (mi_cls m) (SetNum A_wl w')) (upd_exc o m)) (empty_micro Confocal) = (Ok tt, m).
Proof.
  intros Hk H Rw R1 R2. pose proof (built_wl a m Hk (built_confocal a wl p m H)) as [Wm (fw & Nw & Pw)]. destruct (readable_number rd _ _ Nw Rw) as [q ->].
  apply make_ok in H. unfold confocal_init, mbind at 1 in H.
  destruct (wide_init a (empty_micro Confocal)) as [[[]|e] m1] eqn:E1; [|discriminate]. destruct (wide_unset a Confocal tt m1 MPinhole E1 ltac:(discriminate)) as [N1 K1].
  unfold mbind at 1 in H. destruct (m_set MPinhole p m1) as [[[]|e] m2] eqn:E2; [|discriminate]. pose proof (sets_through MPinhole p m1 m2 N1 ltac:(rewrite K1; reflexivity) E2) as S2.
  unfold mbind, masks in H. unfold on_exc in H. cbn [upd_exc mi_exc mi_cls] in H.
  destruct (assign numeric (mi_cls m2) (SetNum A_wl wl) (mi_model m2)) as [r o1] eqn:Ea. injection H as -> <-.
  cbn [upd_exc mi_model mi_kind mi_orient] in *.
  destruct (wl_again numeric _ _ _ _ _ q Ea Wm Nw Pw) as (w' & O1 & A1 & D1). exists w'.
  assert (Or : mi_orient m1 = []).
  { clear - E1. rewrite wide_eq in E1. destruct (int_value (w_os a)); [|discriminate]. destruct (_ <? 0)%Z; [discriminate|]. cbv zeta in E1. destruct (Z.even _); [discriminate|].
    destruct (do p <- fine_pair a z; _) as [m'|] eqn:E; [|discriminate]. injection E1 as <-. destruct (fine_pair a z) as [p|]; cbn [bind] in E; [|discriminate]. destruct (choose_model _) as [c|]; cbn [bind] in E; [|discriminate].
    destruct (ctor_for _ _) as [kk|]; cbn [bind] in E; [|discriminate]. destruct (construct _ _ _) as [o|]; cbn [bind] in E; [|discriminate]. injection E as <-. reflexivity. }
  split. { exists w', p. cbn [mi_exc upd_exc mi_num]. split; [exact O1|]. split; [|reflexivity]. rewrite S2. reflexivity. }
  split. { destruct D1 as [->| ->]; assumption. }
  split. { rewrite S2. exact K1. } split. { rewrite S2. exact Or. }
  intros i m1' Hi Hm1. injection Hm1 as <-. unfold mbind at 1. rewrite Hi. unfold mbind at 1. rewrite E2. unfold mbind, masks, on_exc. cbn [upd_exc mi_exc mi_cls]. rewrite A1. reflexivity.
Qed.
Lemma sim_exc a s m : kwargs_ok a -> BaseSIMMicroscope a s = Ok m ->
  let na := instead_of_none (s_na_exc s) (w_na a) in let wl := instead_of_none (s_wl_exc s) (w_wl a) in
  (forall c, kind_of c = SIM -> exc_args c m [("na_exc", na); ("wl_exc", wl); ("wiener", s_wiener s); ("coherent", s_coherent s); ("dc", s_dc s); ("dc_suppress", s_dcsup s)]) /\ mi_kind m = SIM /\ mi_orient m = s_orient s /\
  forall a', (forall x, wide_init a' x = wide_init a x) -> BaseSIMMicroscope a' (mkSargs na wl (s_wiener s) (s_coherent s) (s_dc s) (s_dcsup s) (s_orient s)) = Ok m.
Proof.
  intros Hk H na wl.
  assert (H0 : exists m0, make SIM (wide_init a) = Ok m0).
  { unfold BaseSIMMicroscope in H. apply make_ok in H. unfold sim_init, mbind at 1 in H. unfold make. destruct (wide_init a (empty_micro SIM)) as [[[]|e] m1]; [eauto|discriminate]. }
  destruct H0 as [m0 H0]. pose proof (C61_sim_constructor a s m0 Hk H0) as C. cbv zeta in C. fold na wl in C.
  destruct (first_error _) as [e|] eqn:Fe; [congruence|]. destruct C as (m' & C & C1 & C2 & C3 & C4 & C5 & _ & C6 & C7 & _). rewrite H in C. injection C as <-.
  split. { intros c Hc. unfold exc_args. rewrite Hc. exists na, wl, (s_coherent s), (s_dc s), (s_dcsup s). rewrite C6. auto 10. }
  split. { exact (made_kind SIM (sim_init a s) m (sim_kind a s) H). }
  split; [exact C7|]. intros a' Ha'. unfold BaseSIMMicroscope, make in H |- *. unfold sim_init in H |- *. unfold mbind at 1 in H. unfold mbind at 1. rewrite Ha'.
  destruct (wide_init a (empty_micro SIM)) as [[[]|e] m1] eqn:E1; [|discriminate]. assert (E0 : m1 = m0) by (unfold make in H0; rewrite E1 in H0; congruence).
  unfold mbind at 1, masks at 1 in H. unfold mbind at 1, masks at 1. unfold mbind at 1, mlift at 1 in H. unfold mbind at 1, mlift at 1.
  assert (Par : forall key v, (key = "na" /\ v = w_na a) \/ (key = "wl" /\ v = w_wl a) -> par_val (mi_params m1) key = Ok v).
  { intros key v Hkv. assert (W := E1). rewrite wide_eq in W. destruct (int_value (w_os a)) as [f|]; [|discriminate]. destruct (f <? 0)%Z; [discriminate|]. cbv zeta in W. destruct (Z.even f); [discriminate|].
    destruct (fine_pair a f) as [p|]; cbn [bind] in W; [|discriminate]. destruct (choose_model _) as [c|]; cbn [bind] in W; [|discriminate]. destruct (ctor_for _ _) as [kk|]; cbn [bind] in W; [|discriminate].
    destruct (construct _ _ _) as [o|]; cbn [bind] in W; [|discriminate]. injection W as <-. unfold par_val. cbn [wide_result mi_params]. rewrite params_get by apply Hk. unfold params_spec.
    destruct Hkv as [[-> ->]|[-> ->]]; cbn [String.eqb Ascii.eqb Bool.eqb]; rewrite (proj2 Hk) by (cbn; tauto); reflexivity. }
  assert (N1 : (match s_na_exc s with VNone => par_val (mi_params m1) "na" | v => Ok v end) = Ok na) by (unfold na; destruct (s_na_exc s); cbn; auto).
  assert (N2 : (match s_wl_exc s with VNone => par_val (mi_params m1) "wl" | v => Ok v end) = Ok wl) by (unfold wl; destruct (s_wl_exc s); cbn; auto).
  rewrite N1, N2 in H.
  assert (Nn : na <> VNone /\ wl <> VNone).
  { cbn [first_error] in Fe. destruct (float_error na) eqn:F1; [discriminate|]. destruct (float_error wl) eqn:F2; [discriminate|]. split; intros Z; rewrite Z in *; discriminate. }
  clearbody na wl. cbn [s_na_exc s_wl_exc s_coherent s_dc s_dcsup s_orient s_wiener].
  clear - H Nn. destruct Nn as [Nn1 Nn2]. destruct na; try contradiction; destruct wl; try contradiction; exact H.
Qed.
(** Everything about a constructor call that the text needs. *)
Lemma made_built a c ex os m : made_by a c ex os m -> built_from a m.
Proof.
  intros H. destruct H; try (eapply built_sim; eassumption).
  - now apply built_wide.
  - now apply built_apotome.
  - eapply built_confocal; eassumption.
Qed.
Lemma made_facts a c ex os m rd ro : kwargs_ok a -> made_by a c ex os m -> readable_call rd ro a ex os ->
  exists l, exc_args c m l /\ (forall v, In v (map snd l) -> reads_back rd (KV v)) /\ mi_kind m = kind_of c /\ mi_orient m = os /\
    forall a', (forall x, wide_init a' x = wide_init a x) ->
      match c, map snd l with
      | WidefieldC, [] => WidefieldMicroscope a' = Ok m
      | ApotomeC, [] => ApotomeMicroscope a' = Ok m
      | ConfocalC, [w; p] => ConfocalMicroscope a' w p = Ok m
      | BaseSIMC, [na; wl; wi; co; dc; ds] => BaseSIMMicroscope a' (mkSargs na wl wi co dc ds (mi_orient m)) = Ok m
      | (SIM2DC | SIM3DC | LatticeC), _ => True
      | _, _ => False
      end.
Proof.
  intros Hk Hm (R1 & R2 & R3 & R4).
  assert (Or : forall k m1, wide_init a (empty_micro k) = (Ok tt, m1) -> mi_orient m1 = []).
  { clear. intros k m1 E1. rewrite wide_eq in E1. destruct (int_value (w_os a)); [|discriminate]. destruct (_ <? 0)%Z; [discriminate|]. cbv zeta in E1. destruct (Z.even _); [discriminate|].
    destruct (do p <- fine_pair a z; _) as [m'|] eqn:E; [|discriminate]. injection E1 as <-. destruct (fine_pair a z) as [p|]; cbn [bind] in E; [|discriminate]. destruct (choose_model _) as [c|]; cbn [bind] in E; [|discriminate].
    destruct (ctor_for _ _) as [kk|]; cbn [bind] in E; [|discriminate]. destruct (construct _ _ _) as [o|]; cbn [bind] in E; [|discriminate]. injection E as <-. reflexivity. }
  assert (Rs : forall v, In v ex -> reads_back rd (KV v)) by (intros v I; apply R1; rewrite in_app_iff; now right).
  assert (Rn : forall v w, reads_back rd (KV v) -> reads_back rd (KV w) -> reads_back rd (KV (instead_of_none v w))) by (intros [] w; cbn; auto).
  assert (Rb : forall s, BaseSIMMicroscope a s = Ok m -> forall v, v = s_coherent s \/ v = s_dc s -> reads_back rd (KV v)).
  { intros s H. assert (H0 : exists m0, make SIM (wide_init a) = Ok m0).
    { unfold BaseSIMMicroscope in H. apply make_ok in H. unfold sim_init, mbind at 1 in H. unfold make. destruct (wide_init a (empty_micro SIM)) as [[[]|e] m1]; [eauto|discriminate]. }
    destruct H0 as [m0 H0]. pose proof (C61_sim_constructor a s m0 Hk H0) as C. cbv zeta in C. destruct (first_error _) as [e|] eqn:Fe; [congruence|]. clear C. cbn [first_error] in Fe.
    destruct (float_error _); [discriminate|]. destruct (float_error _); [discriminate|]. destruct (bool_error (s_coherent s)) eqn:B1; [discriminate|]. destruct (bool_error (s_dc s)) eqn:B2; [discriminate|].
    intros v [-> | ->]; [destruct (s_coherent s)|destruct (s_dc s)]; try discriminate; exact I. }
  assert (SimC : forall cc s, kind_of cc = SIM -> BaseSIMMicroscope a s = Ok m -> s_orient s = os -> (forall v, v = s_na_exc s \/ v = s_wl_exc s \/ v = s_wiener s \/ v = s_dcsup s -> reads_back rd (KV v)) ->
     exists l, exc_args cc m l /\ (forall v, In v (map snd l) -> reads_back rd (KV v)) /\ mi_kind m = kind_of cc /\ mi_orient m = os /\
       map snd l = [instead_of_none (s_na_exc s) (w_na a); instead_of_none (s_wl_exc s) (w_wl a); s_wiener s; s_coherent s; s_dc s; s_dcsup s]).
  { intros cc s Hc Hs Ho Rv. destruct (sim_exc a s m Hk Hs) as (X1 & X2 & X3 & _). eexists. split; [now apply X1|]. cbn [map snd]. split.
    - intros v I. cbn in I. destruct I as [<-|[<-|[<-|[<-|[<-|[<-|[]]]]]]]; try (apply Rv; tauto); try (apply (Rb s Hs); tauto); apply Rn; try (apply Rv; tauto); apply R1; cbn; tauto.
    - split; [congruence|]. split; [congruence|reflexivity]. }
  destruct Hm as [m H|m H|w p m H|na wl wi co dc ds os m H|na wl wi ds os m H|na wl wi ds os m H|na wl wi ds m H].
  - exists []. split; [reflexivity|]. split; [intros v []|]. split; [exact (made_kind _ _ _ (wide_kind a) H)|]. split; [apply (Or Widefield); now apply make_ok|]. intros a' Ha. cbn. unfold WidefieldMicroscope, make. rewrite Ha. exact H.
  - exists []. split; [reflexivity|]. split; [intros v []|]. split; [exact (made_kind _ _ _ (wide_kind a) H)|]. split; [apply (Or Apotome); now apply make_ok|]. intros a' Ha. cbn. unfold ApotomeMicroscope, make. rewrite Ha. exact H.
  - destruct (confocal_exc a rd w p m Hk H) as (w' & X1 & X2 & X3 & X4 & X5); try (apply Rs; cbn; tauto); [apply R1; cbn; tauto|].
    exists [("wl_exc", w'); ("pinhole_size", p)]. split; [exact X1|]. split; [intros v I; cbn in I; destruct I as [<-|[<-|[]]]; [exact X2|apply Rs; cbn; tauto]|]. split; [exact X3|]. split; [exact X4|].
    intros a' Ha. cbn [map snd]. assert (E1 : exists m1, wide_init a (empty_micro Confocal) = (Ok tt, m1)).
    { apply make_ok in H. unfold confocal_init, mbind at 1 in H. destruct (wide_init a (empty_micro Confocal)) as [[[]|e] m1]; [eauto|discriminate]. }
    destruct E1 as [m1 E1]. unfold ConfocalMicroscope, make, confocal_init. rewrite (X5 (wide_init a') m1); [reflexivity| |exact E1]. now rewrite Ha.
  - destruct (SimC BaseSIMC _ eq_refl H eq_refl) as (l & L1 & L2 & L3 & L4 & L5). { intros v Hv. apply Rs. cbn in Hv |- *. intuition. }
    exists l. split; [exact L1|]. split; [exact L2|]. split; [exact L3|]. split; [exact L4|]. intros a' Ha. rewrite L5, L4. destruct (sim_exc a _ m Hk H) as (_ & _ & _ & X). apply (X a' Ha).
  - destruct (SimC SIM2DC _ eq_refl H eq_refl) as (l & L1 & L2 & L3 & L4 & L5). { intros v Hv. apply Rs. cbn in Hv |- *. intuition. } exists l. auto 10.
  - destruct (SimC SIM3DC _ eq_refl H eq_refl) as (l & L1 & L2 & L3 & L4 & L5). { intros v Hv. apply Rs. cbn in Hv |- *. intuition. } exists l. auto 10.
  - destruct (SimC LatticeC _ eq_refl H eq_refl) as (l & L1 & L2 & L3 & L4 & L5). { intros v Hv. apply Rs. cbn in Hv |- *. intuition. } exists l. auto 10.
Qed.

(** Without oversampling: whatever was done to m.model (or replaced it) and however often PSF and OTF were read, the text evaluates
    to the microscope as it was constructed. *)
Theorem C63_microscope_rebuilt :
  forall (rd_repr rd_str : list fl -> option (list fl)) (rd_orient : list R -> option (list R)) (a : wargs) (c : mclass) (extra : list pyval) (os : list R) (m : micro) (h : list mevent),
    kwargs_ok a -> made_by a c extra os m -> readable_call rd_str rd_orient a extra os ->
    int_value (w_os a) = Some 1%Z -> Forall (not_shown c) h ->
    exists text, micro_repr c (mrun h m) = (Ok text, mrun h m) /\
      match c with
      | WidefieldC | ConfocalC | ApotomeC | BaseSIMC => eval_micro rd_repr rd_str rd_orient text = Evaluates m
      | SIM2DC | SIM3DC | LatticeC => eval_micro rd_repr rd_str rd_orient text = Raises TypeError
      end.
Proof.
  intros rr rs ro a c ex os m h Hk Hm Hr H1 Hh. destruct (made_facts a c ex os m rs ro Hk Hm Hr) as (l & L1 & L2 & L3 & L4 & L5).
  pose proof (made_built a c ex os m Hm) as Hb. destruct (built_wide_result a m Hb) as (k & f & p & cl & kk & o & _ & Hf & _ & _ & Ep & Ec & _ & _ & Hc & Hp & Hx & _ & Ho).
  rewrite H1 in Hf. injection Hf as <-. cbn in Ep. injection Ep as <-. cbn [fst snd] in Hp. destruct Hr as (R1 & R2 & R3 & R4).
  eexists. split; [exact (text_alike c m (mrun h m) (w_os a) l (alike_run c h m L3 Hh) L3 Ho L1)|].
  assert (Ev := eval_text_eq rr rs ro c m a (w_size a) (w_pixel a) l Hk R4 (kw_known a m Hk Hb) Hp Hx).
  rewrite Ev; clear Ev; [| |exact R2|rewrite L4; exact R3|exact L1].
  2: { intros v I. rewrite in_app_iff in I. destruct I as [I|I]; [|now apply L2]. apply R1. rewrite in_app_iff. left. cbn in I |- *. tauto. }
  cbv zeta. specialize (L5 (again (mi_cls m) a (w_size a) (w_os a))). rewrite Hc in L5 |- *. specialize (L5 (wide_init_again cl a Hk Ec)).
  destruct c; try reflexivity; destruct (map snd l) as [|v1 [|v2 [|v3 [|v4 [|v5 [|v6 [|]]]]]]]; try contradiction; rewrite L5; reflexivity.
Qed.
Print Assumptions C63_microscope_rebuilt.

(** ** With oversampling *)
Definition with_size (k : ctor) (s : pyval) : ctor := mkCtor (k_wl k) (k_na k) (k_ni k) (k_res k) s (k_zres k) (k_zsize k) (k_vec_corr k) (k_condition k) (k_zrange k) (k_dual k).
Definition explicit (k : ctor) : ctor :=
  mkCtor (k_wl k) (k_na k) (k_ni k) (k_res k) (k_size k) (Some (match k_zres k with Some v => v | None => k_res k end)) (Some (match k_zsize k with Some v => v | None => k_size k end)) (k_vec_corr k) (k_condition k) (k_zrange k) (k_dual k).
Lemma construct_explicit E c k : construct E c (explicit k) = construct E c k.
Proof. destruct k as [? ? ? ? ? [?|] [?|] ? ? ? ?]; reflexivity. Qed.
Lemma construct_resized E c k o s' : construct E c k = Ok o ->
  (forall v f, In v [k_wl k; k_na k; k_ni k; k_res k; match k_zres k with Some v => v | None => k_res k end] -> M_Val.num v = Some f -> exists q, f = FFin q) ->
  (exists b, k_dual k = VBool b) -> isinstance s' TInt = true -> (0 <= as_int s')%Z ->
  exists o', construct E c (with_size k s') = Ok o'.
Proof.
  intros H Hf Hd Is Ps. destruct (C74_constructor_arguments E c k o H) as (A1 & A2 & A3 & A4 & A5 & A6 & A7 & A8 & A9 & _). destruct (construct_ok E c k o H) as [[V _] _].
  destruct (V _ _ A1) as (f1 & N1 & P1). destruct (V _ _ A2) as (f2 & N2 & P2). destruct (V _ _ A3) as (f3 & N3 & P3). destruct (V _ _ A4) as (f4 & N4). pose proof (V _ _ A5) as V5. destruct (V _ _ A6) as (f6 & N6 & P6).
  pose proof (V _ _ A7) as V7. destruct (V _ _ A8) as (vs & Evs & Ivs). destruct (V _ _ A9) as (cs & Ecs & Ics).
  destruct (Hf (k_wl k) f1 ltac:(cbn; tauto) N1) as [q1 ->]. destruct (Hf (k_na k) f2 ltac:(cbn; tauto) N2) as [q2 ->]. destruct (Hf (k_ni k) f3 ltac:(cbn; tauto) N3) as [q3 ->]. destruct (Hf (k_res k) f4 ltac:(cbn; tauto) N4) as [q4 ->]. destruct (Hf (match k_zres k with Some v => v | None => k_res k end) f6 ltac:(cbn; tauto) N6) as [q6 ->].
  rewrite <- construct_explicit in H. rewrite <- construct_explicit.
  destruct (construct_cases E c (explicit k) q1 q2 q3 q4 q6 vs cs N1 P1 N2 P2 N3 P3 N4 (proj1 V5) (proj2 V5) (ex_intro _ _ (conj eq_refl N6)) P6 (ex_intro _ _ (conj eq_refl V7)) Evs Ivs Ecs Ics Hd) as [C1 C2].
  assert (Ok : (0 < q1)%Q /\ (0 < q2)%Q /\ (q4 < q1 / (2 * q2))%Q /\ (c = Sheppard -> (0 < q3)%Q /\ (q6 < q1 / (2 * q3))%Q)).
  { apply Classical_Prop.NNPP. intros N. destruct (C2 N) as [X|X]; congruence. }
  refine (proj1 (construct_cases E c (explicit (with_size k s')) q1 q2 q3 q4 q6 vs cs N1 P1 N2 P2 N3 P3 N4 Is Ps (ex_intro _ _ (conj eq_refl N6)) P6 (ex_intro _ _ (conj eq_refl _)) Evs Ivs Ecs Ics Hd) Ok).
  cbn [with_size k_zsize k_size]. destruct (k_zsize k); [exact V7|auto].
Qed.
Lemma resized_wide k a m rd sz f p : kwargs_ok a -> built_from a m -> (forall v, In v [w_na a; w_ni a; w_wl a; w_pixel a] -> reads_back rd (KV v)) -> (forall key v, In (key, v) (w_kwargs a) -> reads_back rd v) ->
  int_value (w_os a) = Some f -> fine_pair a f = Ok p -> int_value sz = int_value (fst p) ->
  exists m0, make k (wide_init (again (mi_cls m) a sz (w_os a))) = Ok m0.
Proof.
  intros Hk Hb Hr Hw Hf Hp Hsz. destruct (built_wide_result a m Hb) as (k0 & f' & p' & c & kk & o & _ & Hf' & P & He & Hp' & Hc & Ek & Eo & Hcl & _). rewrite Hf in Hf'. injection Hf' as <-. rewrite Hp in Hp'. injection Hp' as <-.
  rewrite Hcl. assert (Kw : forall k, In k (map fst (w_kwargs a)) -> In k (model_keywords c)) by (rewrite <- Hcl; now apply kw_known).
  rewrite ctor_for_eq in Ek by assumption. destruct (match c with Hanser => zrange_kw (w_kwargs a) | Sheppard => Ok None end) as [z|e] eqn:Ez; [|discriminate]. cbn [bind] in Ek. injection Ek as <-.
  destruct (C74_constructor_arguments _ _ _ _ Eo) as (_ & _ & _ & A4 & A5 & A6 & _ & _ & _ & A10 & _). destruct (construct_ok _ _ _ _ Eo) as [[V _] _].
  pose proof (V _ _ A5) as [V5 V5']. destruct (V _ _ A4) as (fr & Nr). destruct (V _ _ A6) as (fz & Nz & _). cbn [model_ctor k_size k_res k_zres] in V5, V5', Nr, Nz.
  assert (Isz : exists n, int_value sz = Some n /\ (0 <= n)%Z).
  { rewrite Hsz. destruct (fst p) as [z1|b| | | | |]; try discriminate; cbn in V5' |- *; eauto. }
  destruct Isz as (n & Hn & Pn).
  (* the second fine pair *)
  assert (F2 : exists sz', fine_pair (again c a sz (w_os a)) f = Ok (sz', snd p) /\ int_value sz' = Some (n * f)%Z).
  { unfold fine_pair in *. cbn [again w_size w_pixel]. destruct (Z.eqb_spec f 1) as [->|N1].
    - injection Hp as <-. exists sz. rewrite Z.mul_1_r. auto.
    - destruct (py_mul_int (w_size a) f); cbn [bind] in Hp; [|discriminate]. destruct (py_div_int (w_pixel a) f) as [r|]; cbn [bind] in Hp; [|discriminate]. injection Hp as <-. cbn [snd].
      destruct sz as [z1|b| | | | |]; cbn in Hn; try discriminate; injection Hn as <-; cbn; eauto. }
  destruct F2 as (sz' & F2 & Hsz').
  unfold make. rewrite wide_eq. cbn [again w_os]. fold (again c a sz (w_os a)). rewrite Hf, (proj2 (Z.ltb_ge f 0)) by lia. cbv zeta. rewrite He, F2. cbn [bind fst snd].
  assert (Cm : choose_model (w_model (again c a sz (w_os a))) = Ok c) by apply choose_short. rewrite Cm. cbn [bind].
  rewrite (proj2 (again_params c a sz (w_os a) Hk)), ctor_for_eq by assumption. rewrite Ez. cbn [bind].
  assert (Res : exists o', construct numeric c (with_size (model_ctor c a (fst p) (snd p) z) sz') = Ok o').
  { apply (construct_resized numeric c _ o sz' Eo).
    - cbn [model_ctor k_wl k_na k_ni k_res k_zres].
      assert (Rr : exists q, fr = FFin q).
      { unfold fine_pair in Hp. destruct (Z.eqb_spec f 1) as [->|N1]; [injection Hp as <-; cbn [snd] in Nr; apply (readable_number rd _ _ Nr); apply Hr; cbn; tauto|].
        assert (Rp := Hr (w_pixel a) ltac:(cbn; tauto)). destruct (py_mul_int (w_size a) f); cbn [bind] in Hp; [|discriminate]. unfold py_div_int in Hp.
        assert (Zf : Qeq_bool (inject_Z f) 0 = false) by (apply not_true_iff_false; rewrite Qeq_bool_iff; unfold Qeq; cbn; lia).
        destruct (w_pixel a) as [zp|bp|[qp| |[|]]| | | |]; cbn in Rp; try contradiction; cbn [M_Val.num] in Hp; try discriminate Hp; unfold fl_div in Hp; cbn [fl_zero] in Hp; rewrite Zf in Hp; cbn [bind] in Hp; injection Hp as <-; cbn in Nr; injection Nr as <-; eauto. }
      intros v g I Hg. cbn in I. destruct I as [<-|[<-|[<-|[<-|[<-|[]]]]]]; try (apply (readable_number rd _ _ Hg); apply Hr; cbn; tauto).
      + rewrite Nr in Hg. injection Hg as <-. exact Rr.
      + rewrite Nz in Hg. injection Hg as <-. destruct (not_none (given_or a "zres" (w_pixel a))) as [w|] eqn:Ew; [|rewrite Nr in Nz; injection Nz as <-; exact Rr].
        apply (readable_number rd _ _ Nz). assert (Eg : given_or a "zres" (w_pixel a) = w) by (destruct (given_or a "zres" (w_pixel a)); cbn in Ew; congruence). rewrite <- Eg. unfold given_or.
        destruct (dget (w_kwargs a) "zres") as [v'|] eqn:Ed; [|apply Hr; cbn; tauto].
        assert (Rv := axial_reads rd (w_kwargs a) "zres" (KV VNone) Hw I). unfold axial in Rv. rewrite Ed in Rv. destruct v' as [v'|zz]; [exact Rv|]. unfold given_or in Eg. rewrite Ed in Eg. cbn in Eg. subst w. discriminate Nz.
    - cbn [model_ctor k_dual]. destruct c; [eauto|]. specialize (A10 eq_refl). destruct (V _ _ A10) as [b Hb']. exists b. exact Hb'.
    - destruct (int_value_as _ _ Hsz') as (_ & X & _). exact X.
    - destruct (int_value_as _ _ Hsz') as (X & _). rewrite X. nia. }
  destruct Res as [o' Ho']. assert (Ew : with_size (model_ctor c a (fst p) (snd p) z) sz' = model_ctor c a sz' (snd p) z) by reflexivity. rewrite Ew in Ho'. rewrite Ho'. cbn [bind]. eauto.
Qed.
Lemma resized_confocal a a' m w p m0 : ConfocalMicroscope a w p = Ok m -> kwargs_ok a -> kwargs_ok a' -> w_wl a' = w_wl a -> make Confocal (wide_init a') = Ok m0 -> exists m', ConfocalMicroscope a' w p = Ok m'.
Proof.
  intros H Hk Hk' Hw H0. pose proof (built_wl a m Hk (built_confocal a w p m H)) as [Wm _].
  apply make_ok in H. unfold confocal_init, mbind at 1 in H. destruct (wide_init a (empty_micro Confocal)) as [[[]|e] m1] eqn:E1; [|discriminate]. destruct (wide_unset a Confocal tt m1 MPinhole E1 ltac:(discriminate)) as [N1 K1].
  unfold mbind at 1 in H. destruct (m_set MPinhole p m1) as [[[]|e] m2] eqn:E2; [|discriminate].
  unfold mbind, masks in H. unfold on_exc in H. cbn [upd_exc mi_exc mi_cls] in H. destruct (assign numeric (mi_cls m2) (SetNum A_wl w) (mi_model m2)) as [r o1] eqn:Ea. injection H as -> <-. cbn [upd_exc mi_model] in Wm.
  assert (B0 : exists k f q c kk o, o = mi_model m0 /\ construct numeric c kk = Ok o /\ k_wl kk = w_wl a' /\ int_value f = q /\ k = Confocal).
  { pose proof (make_ok _ _ _ H0) as G. rewrite wide_eq in G. destruct (int_value (w_os a')) as [f|] eqn:Ef; [|discriminate]. destruct (f <? 0)%Z; [discriminate|]. cbv zeta in G. destruct (Z.even f); [discriminate|].
    destruct (fine_pair a' f) as [q|]; cbn [bind] in G; [|discriminate]. destruct (choose_model _) as [c|]; cbn [bind] in G; [|discriminate]. destruct (ctor_for c _) as [kk|] eqn:Ek; cbn [bind] in G; [|discriminate].
    destruct (construct _ _ _) as [o|] eqn:Eo; cbn [bind] in G; [|discriminate]. injection G as <-. cbn [wide_result mi_model].
    assert (Kw : forall kw, In kw (map fst (w_kwargs a')) -> In kw (model_keywords c)) by (apply Classical_Prop.NNPP; intros N; rewrite ctor_for_bad in Ek by exact N; discriminate).
    rewrite ctor_for_eq in Ek by assumption. destruct (match c with Hanser => _ | Sheppard => _ end); [|discriminate]. cbn [bind] in Ek. injection Ek as <-.
    exists Confocal, (w_os a'), (Some f), c. eexists. exists o. split; [reflexivity|]. split; [exact Eo|]. cbn. auto. }
  destruct B0 as (_ & _ & _ & c0 & kk & o & -> & Eo & Ekw & _). destruct (C74_constructor_arguments _ _ _ _ Eo) as (W0 & _). rewrite Ekw, Hw in W0.
  apply make_ok in H0. unfold ConfocalMicroscope, make, confocal_init. unfold mbind at 1. rewrite H0.
  destruct (wide_unset a' Confocal tt m0 MPinhole H0 ltac:(discriminate)) as [N0 K0].
  rewrite (set_unset (isinstance p TFloatInt) MPinhole TFloatInt p m1) in E2 by (try assumption; try reflexivity; rewrite K1; reflexivity).
  unfold mbind at 1. rewrite (set_unset (isinstance p TFloatInt) MPinhole TFloatInt p m0) by (try assumption; try reflexivity; rewrite K0; reflexivity).
  destruct (isinstance p TFloatInt); [|discriminate]. destruct (M_Val.num p) as [g|]; [|discriminate]. destruct (fl_lt g (FFin 0)); [discriminate|].
  unfold mbind, masks, on_exc. cbn [upd_exc mi_exc mi_cls m_changed upd_num upd_cache mi_model].
  cbn [assign] in Ea |- *. unfold numeric_set, numeric_fset in Ea |- *. rewrite Wm in Ea. rewrite W0. destruct (numeric_decide (Some (w_wl a)) TFloatInt w) as [[|]|e]; [| |discriminate]; eauto.
Qed.

(** With oversampling the text shows the oversampled size, so the evaluated microscope is oversampled twice. *)
Theorem C63_microscope_oversampled :
  forall (rd_repr rd_str : list fl -> option (list fl)) (rd_orient : list R -> option (list R)) (a : wargs) (c : mclass) (extra : list pyval) (os : list R) (m : micro) (h : list mevent) (n f : Z),
    kwargs_ok a -> made_by a c extra os m -> readable_call rd_str rd_orient a extra os ->
    int_value (w_os a) = Some f -> int_value (w_size a) = Some n -> Forall (not_shown c) h ->
    exists text, micro_repr c (mrun h m) = (Ok text, mrun h m) /\
      match c with
      | WidefieldC | ConfocalC | ApotomeC | BaseSIMC =>
          exists m', eval_micro rd_repr rd_str rd_orient text = Evaluates m' /\ mi_kind m' = mi_kind m /\ mi_cls m' = mi_cls m /\
            (exists v, o_attr (mi_model m) A_size = Some v /\ int_value v = Some (n * f)%Z) /\
            (exists v, o_attr (mi_model m') A_size = Some v /\ int_value v = Some (n * f * f)%Z) /\
            (forall x, In x [A_wl; A_na; A_ni] -> o_attr (mi_model m') x = o_attr (mi_model m) x)
      | SIM2DC | SIM3DC | LatticeC => eval_micro rd_repr rd_str rd_orient text = Raises TypeError
      end.
Proof.
  intros rr rs ro a c ex os m h n f Hk Hm Hr Hf Hn Hh. destruct (made_facts a c ex os m rs ro Hk Hm Hr) as (l & L1 & L2 & L3 & L4 & L5).
  pose proof (made_built a c ex os m Hm) as Hb. destruct (built_wide_result a m Hb) as (k & f' & p & cl & kk & o & _ & Hf' & P & He & Ep & Ec & _ & _ & Hc & Hp & Hx & _ & Ho).
  rewrite Hf in Hf'. injection Hf' as <-. destruct Hr as (R1 & R2 & R3 & R4).
  assert (Sz : int_value (fst p) = Some (n * f)%Z) by (destruct (fine_pair_ok a f p P Ep) as [F1 _]; now apply F1).
  eexists. split; [exact (text_alike c m (mrun h m) (w_os a) l (alike_run c h m L3 Hh) L3 Ho L1)|].
  assert (Ev := eval_text_eq rr rs ro c m a (fst p) (snd p) l Hk R4 (kw_known a m Hk Hb) Hp Hx).
  rewrite Ev; clear Ev; [| |exact R2|rewrite L4; exact R3|exact L1].
  2: { intros v I. rewrite in_app_iff in I. destruct I as [I|I]; [|now apply L2]. cbn in I. destruct I as [<-|[<-|[<-|[<-|[<-|[<-|[<-|[]]]]]]]]; try (apply R1; cbn; tauto). destruct (fst p); cbn in Sz; try discriminate; exact I. }
  cbv zeta. set (a' := again (mi_cls m) a (fst p) (w_os a)) in *.
  assert (Ka : kwargs_ok a') by apply (again_params _ _ _ _ Hk).
  assert (Mk : forall kd, exists m0, make kd (wide_init a') = Ok m0).
  { intros kd. apply (resized_wide kd a m rs (fst p) f p Hk Hb); try assumption; [|reflexivity]. intros v I. apply R1. cbn in I |- *. tauto. }
  assert (Fin : forall m', built_from a' m' -> mi_kind m' = mi_kind m -> mi_kind m' = mi_kind m /\ mi_cls m' = mi_cls m /\
            (exists v, o_attr (mi_model m) A_size = Some v /\ int_value v = Some (n * f)%Z) /\
            (exists v, o_attr (mi_model m') A_size = Some v /\ int_value v = Some (n * f * f)%Z) /\
            (forall x, In x [A_wl; A_na; A_ni] -> o_attr (mi_model m') x = o_attr (mi_model m) x)).
  { intros m' Hb' Kd. split; [exact Kd|]. destruct (C54_geometry a m Hk Hb) as (f1 & n1 & G1 & _ & _ & G2 & _ & G3 & _ & G4 & G5 & G6 & _). rewrite Hf in G1. rewrite Hn in G2. injection G1 as <-. injection G2 as <-.
    destruct (C54_geometry a' m' Ka Hb') as (f1 & n1 & I1 & _ & _ & I2 & (s & Is & Ic) & I3 & _ & I4 & I5 & I6 & _). cbn [a' again w_os w_size] in I1, I2. rewrite Hf in I1. rewrite Sz in I2. injection I1 as <-. injection I2 as <-.
    split. { cbn [a' again w_model] in Is. injection Is as <-. destruct (mi_cls m), (mi_cls m'); try reflexivity; discriminate Ic. }
    split; [exact G3|]. split; [exact I3|]. intros x I. cbn in I. destruct I as [<-|[<-|[<-|[]]]]; [rewrite I4, G4|rewrite I5, G5|rewrite I6, G6]; reflexivity. }
  specialize (L5 a). destruct c; try reflexivity; specialize (L5 (fun x => eq_refl)); destruct (map snd l) as [|v1 [|v2 [|v3 [|v4 [|v5 [|v6 [|]]]]]]]; try contradiction.
  - destruct (Mk Widefield) as [m0 H0]. exists m0. unfold WidefieldMicroscope. rewrite H0. split; [reflexivity|]. apply Fin; [now apply built_wide|]. rewrite L3. exact (made_kind _ _ _ (wide_kind a') H0).
  - destruct (Mk Confocal) as [m0 H0]. destruct (resized_confocal a a' m v1 v2 m0 L5 Hk Ka eq_refl H0) as [m' H']. exists m'. rewrite H'. split; [reflexivity|]. apply Fin; [eapply built_confocal; exact H'|]. rewrite L3. exact (made_kind _ _ _ (confocal_kind a' _ _) H').
  - destruct (Mk Apotome) as [m0 H0]. exists m0. unfold ApotomeMicroscope. rewrite H0. split; [reflexivity|]. apply Fin; [now apply built_apotome|]. rewrite L3. exact (made_kind _ _ _ (wide_kind a') H0).
  - destruct (Mk SIM) as [m0 H0]. assert (H1 : exists m1, make SIM (wide_init a) = Ok m1).
    { unfold BaseSIMMicroscope in L5. apply make_ok in L5. unfold sim_init, mbind at 1 in L5. unfold make. destruct (wide_init a (empty_micro SIM)) as [[[]|e] m1]; [eauto|discriminate]. }
    destruct H1 as [m1 H1]. pose proof (C61_sim_constructor a (mkSargs v1 v2 v3 v4 v5 v6 (mi_orient m)) m1 Hk H1) as C. cbv zeta in C.
    pose proof (C61_sim_constructor a' (mkSargs v1 v2 v3 v4 v5 v6 (mi_orient m)) m0 Ka H0) as C'. cbv zeta in C'. cbn [s_na_exc s_wl_exc s_wiener s_coherent s_dc s_dcsup] in C, C'.
    change (w_na a') with (w_na a) in C'. change (w_wl a') with (w_wl a) in C'. destruct (first_error _) as [e|]; [congruence|]. destruct C' as (m' & C' & _). exists m'. rewrite C'. split; [reflexivity|].
    apply Fin; [eapply built_sim; exact C'|]. rewrite L3. exact (made_kind _ _ _ (sim_kind a' _) C').
Qed.
Print Assumptions C63_microscope_oversampled.

(** ** Unreadable texts *)
Lemma exc_exists a c ex os m : kwargs_ok a -> made_by a c ex os m -> (exists l, exc_args c m l) /\ mi_kind m = kind_of c.
Proof.
  intros Hk Hm. pose proof (made_built a c ex os m Hm) as Hb. destruct Hm as [m H|m H|w p m H|na wl wi co dc ds os m H|na wl wi ds os m H|na wl wi ds os m H|na wl wi ds m H].
  - split; [exists []; reflexivity|exact (made_kind _ _ _ (wide_kind a) H)].
  - split; [exists []; reflexivity|exact (made_kind _ _ _ (wide_kind a) H)].
  - assert (K := made_kind _ _ _ (confocal_kind a _ _) H). split; [|exact K]. destruct (built_sane a m Hb) as [_ Sx]. destruct (Sx K) as (k & o0 & h & E1 & E2).
    destruct (reachable_valid numeric _ k o0 h E1) as [_ [Hc _]]. rewrite <- E2 in Hc.
    destruct (o_attr (mi_exc m) A_wl) as [w'|] eqn:Ew; [|exfalso; apply (Hc A_wl); [destruct (mi_cls m); reflexivity|exact Ew]].
    assert (Ph : mi_num m MPinhole = Some p).
    { apply make_ok in H. unfold confocal_init, mbind at 1 in H. destruct (wide_init a (empty_micro Confocal)) as [[[]|e] m1] eqn:X1; [|discriminate]. destruct (wide_unset a Confocal tt m1 MPinhole X1 ltac:(discriminate)) as [N1 K1].
      unfold mbind at 1 in H. destruct (m_set MPinhole p m1) as [[[]|e] m2] eqn:X2; [|discriminate]. pose proof (sets_through MPinhole p m1 m2 N1 ltac:(rewrite K1; reflexivity) X2) as S2.
      unfold mbind, masks in H. unfold on_exc in H. destruct (assign numeric _ _ _) as [r o1]. injection H as -> <-. cbn. rewrite S2. reflexivity. }
    eexists. exists w', p. auto.
  - destruct (sim_exc a _ m Hk H) as (X1 & X2 & _). split; [eexists; apply (X1 BaseSIMC eq_refl)|exact X2].
  - destruct (sim_exc a _ m Hk H) as (X1 & X2 & _). split; [eexists; apply (X1 SIM2DC eq_refl)|exact X2].
  - destruct (sim_exc a _ m Hk H) as (X1 & X2 & _). split; [eexists; apply (X1 SIM3DC eq_refl)|exact X2].
  - destruct (sim_exc a _ m Hk H) as (X1 & X2 & _). split; [eexists; apply (X1 LatticeC eq_refl)|exact X2].
Qed.
Lemma dget_in d k v : dget d k = Some v -> In (k, v) d.
Proof. induction d as [|[k' w] d IH]; [discriminate|]. cbn [dget]. destruct (String.eqb_spec k k') as [->|]; [intros [= ->]; now left|]. intros H. right. auto. Qed.
Lemma in_dget d k v : NoDup (map fst d) -> In (k, v) d -> dget d k = Some v.
Proof.
  induction d as [|[k' w] d IH]; [intros _ []|]. cbn [map fst dget In]. intros Hn [[= <- <-]|I]; [now rewrite String.eqb_refl|]. inversion Hn; subst. destruct (String.eqb_spec k k') as [->|]; [|auto].
  exfalso. apply H1. apply in_map_iff. exists (k', v). auto.
Qed.
(** A string among the extra keyword arguments (vec_corr="x", condition="none") is printed without quotes, so the text cannot be
    evaluated; nor can "nan" and "inf". *)
Theorem C63_microscope_unreadable :
  forall (rd_repr rd_str : list fl -> option (list fl)) (rd_orient : list R -> option (list R)) (a : wargs) (c : mclass) (extra : list pyval) (os : list R) (m : micro) (h : list mevent) (key : string) (v : kval),
    kwargs_ok a -> made_by a c extra os m -> In (key, v) (w_kwargs a) -> key <> "res" -> unreadable v -> Forall (not_shown c) h ->
    exists text, micro_repr c (mrun h m) = (Ok text, mrun h m) /\ eval_micro rd_repr rd_str rd_orient text = Unreadable.
Proof.
  intros rr rs ro a c ex os m h key v Hk Hm Hi Hkey Hu Hh. destruct (exc_exists a c ex os m Hk Hm) as [[l L1] L3]. pose proof (made_built a c ex os m Hm) as Hb.
  destruct (built_wide_result a m Hb) as (k & f & p & cl & kk & o & _ & _ & _ & _ & _ & _ & _ & _ & _ & Hp & _ & _ & Ho).
  eexists. split; [exact (text_alike c m (mrun h m) (w_os a) l (alike_run c h m L3 Hh) L3 Ho L1)|].
  pose proof (in_dget _ _ _ (proj1 Hk) Hi) as Hd.
  assert (G : dget (mi_params m) key = Some v).
  { rewrite Hp. rewrite params_get by apply Hk. unfold params_spec.
    destruct (String.eqb_spec key "res") as [->|_]; [congruence|]. destruct (String.eqb_spec key "size") as [->|_]; [exfalso; rewrite (proj2 Hk) in Hd by (cbn; tauto); discriminate|]. now rewrite Hd. }
  assert (It : In (key, fmt_k v) (mc_args (full_text c m (w_os a) l))).
  { cbn [mc_args full_text]. rewrite !in_app_iff. left. right. left. apply in_map_iff. exists (key, v). split; [reflexivity|]. apply filter_In. split; [now apply dget_in|]. cbn [fst]. apply negb_true_iff. now apply String.eqb_neq. }
  assert (En : eval_text rr rs (fmt_k v) = None) by (destruct v as [[| |[| |[|]]| | | |]|]; cbn in Hu |- *; try contradiction; reflexivity).
  unfold eval_micro. assert (N : eval_args rr rs (mc_args (full_text c m (w_os a) l)) = None).
  { revert It. generalize (mc_args (full_text c m (w_os a) l)) as L. induction L as [|[k' t] L IH]; [intros []|]. cbn [In eval_args]. intros [[= -> ->]|I]; [now rewrite En|]. rewrite (IH I). destruct (eval_text rr rs t); reflexivity. }
  rewrite N. reflexivity.
Qed.
Print Assumptions C63_microscope_unreadable.

(** Cases: a widefield microscope without oversampling whose model was changed afterwards; a SIM microscope with oversampling; one with vec_corr = "x". *)
Definition a1 : wargs := mkWargs (VStr "Hanser") (qv 6 5) (qv 4 3) (qv 52 100) (VInt 64) (qv 1 10) (VInt 1) [("zsize", KV (VInt 16))].
Definition a2 : wargs := mkWargs (VStr "hanser") (qv 6 5) (qv 4 3) (qv 52 100) (VInt 64) (qv 1 10) (VInt 1) [("vec_corr", KV (VStr "x"))].
Lemma a1_kwargs : kwargs_ok a1. Proof. apply a0_kwargs. Qed.
Lemma a2_kwargs : kwargs_ok a2.
Proof. split; [repeat constructor; intros []|]. intros k H. cbn in H |- *. destruct (String.eqb_spec k "vec_corr") as [->|]; [|reflexivity]. repeat (destruct H as [H|H]; [discriminate|]). destruct H. Qed.
Lemma a1_model (E : engine) : exists o, construct E Hanser (model_ctor Hanser a1 (VInt 64) (qv 1 10) None) = Ok o.
Proof. eexists. vm_compute. reflexivity. Qed.
Lemma a2_model (E : engine) : exists o, construct E Hanser (model_ctor Hanser a2 (VInt 64) (qv 1 10) None) = Ok o.
Proof. eexists. vm_compute. reflexivity. Qed.
Lemma a1_built : exists m, WidefieldMicroscope a1 = Ok m.
Proof.
  destruct (a1_model numeric) as [o Ho]. unfold WidefieldMicroscope, make. rewrite wide_eq. cbn [a1 w_os int_value]. change (1 <? 0)%Z with false. change (Z.even 1) with false. cbv zeta iota.
  change (fine_pair a1 1) with (@Ok (pyval * pyval) (VInt 64, qv 1 10)). cbn [bind]. change (choose_model (w_model a1)) with (@Ok cls Hanser). cbn [bind fst snd].
  rewrite ctor_for_eq; [|apply a1_kwargs|intros k [<-|[]]; cbn; tauto]. change (zrange_kw (w_kwargs a1)) with (@Ok (option zrange_arg) None). cbn [bind]. rewrite Ho. cbn [bind]. eauto.
Qed.
Lemma a2_built : exists m, WidefieldMicroscope a2 = Ok m.
Proof.
  destruct (a2_model numeric) as [o Ho]. unfold WidefieldMicroscope, make. rewrite wide_eq. cbn [a2 w_os int_value]. change (1 <? 0)%Z with false. change (Z.even 1) with false. cbv zeta iota.
  change (fine_pair a2 1) with (@Ok (pyval * pyval) (VInt 64, qv 1 10)). cbn [bind]. change (choose_model (w_model a2)) with (@Ok cls Hanser). cbn [bind fst snd].
  rewrite ctor_for_eq; [|apply a2_kwargs|intros k [<-|[]]; cbn; tauto]. change (zrange_kw (w_kwargs a2)) with (@Ok (option zrange_arg) None). cbn [bind]. rewrite Ho. cbn [bind]. eauto.
Qed.
Example C63_microscope_witness : exists m, made_by a1 WidefieldC [] [] m /\ readable_call Some Some a1 [] [] /\ int_value (w_os a1) = Some 1%Z /\
  Forall (not_shown WidefieldC) [MReadPSF; MModelOp (Assign numeric (SetNum A_na (VFloat (FFin 1))))].
Proof.
  destruct a1_built as [m Hm]. exists m. split; [now apply by_widefield|]. split; [|split; [reflexivity|repeat constructor]].
  split; [|split; [|split; reflexivity]].
  - intros v I. cbn in I. destruct I as [<-|[<-|[<-|[<-|[<-|[<-|[]]]]]]]; exact Logic.I.
  - intros k v [[= <- <-]|[]]. exact Logic.I.
Qed.
Example C63_oversampled_witness : exists m, made_by a0 SIM3DC [VFloat (FFin 1); VNone; VFloat (FFin (1 # 100)); VBool true] [0%R; PI] m /\ readable_call Some Some a0 [VFloat (FFin 1); VNone; VFloat (FFin (1 # 100)); VBool true] [0%R; PI] /\
  exists m2, made_by a0 WidefieldC [] [] m2 /\ readable_call Some Some a0 [] [] /\ int_value (w_os a0) = Some 3%Z /\ int_value (w_size a0) = Some 64%Z.
Proof.
  destruct C61_witness as (m & Hm & _). exists m. split; [now apply by_sim3d|].
  assert (R : forall ex os, (forall v, In v ex -> reads_back Some (KV v)) -> readable_call Some Some a0 ex os).
  { intros ex os H. split; [|split; [|split; reflexivity]].
    - intros v I. cbn in I. destruct I as [<-|[<-|[<-|[<-|[<-|[<-|I]]]]]]; try exact Logic.I. now apply H.
    - intros k v [[= <- <-]|[]]. exact Logic.I. }
  split; [apply R; intros v I; cbn in I; destruct I as [<-|[<-|[<-|[<-|[]]]]]; exact Logic.I|].
  destruct C54_witness as (m2 & Hm2 & _). exists m2. split; [now apply by_widefield|]. split; [apply R; intros v []|]. split; reflexivity.
Qed.
Example C63_unreadable_witness : exists m, made_by a2 WidefieldC [] [] m /\ In ("vec_corr", KV (VStr "x")) (w_kwargs a2) /\ unreadable (KV (VStr "x")).
Proof. destruct a2_built as [m Hm]. exists m. split; [now apply by_widefield|]. split; [left; reflexivity|exact Logic.I]. Qed.
