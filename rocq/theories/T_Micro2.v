(** C54, C61: what the microscope constructors build and refuse. *)
From Verif Require Import S_Micro L_PSF L_Ctor L_Phase5 L_Micro T_PSF.
Import M_Array.
Local Open Scope string_scope.

(** ** C54 *)
(** Refusals, in the order in which the constructor meets them; for every kind of microscope the same constructor runs first. *)
Theorem C54_refused : forall k a,
  (int_value (w_os a) = None -> make k (wide_init a) = Err TypeError) /\
  (forall f, int_value (w_os a) = Some f ->
    ((f < 0)%Z -> make k (wide_init a) = Err ValueError) /\
    ((0 <= f)%Z -> Z.even f = true -> make k (wide_init a) = Err AssertionError) /\
    ((0 < f)%Z -> Z.even f = false -> forall n q, int_value (w_size a) = Some n -> M_Val.num (w_pixel a) = Some (FFin q) ->
      ((forall s, w_model a <> VStr s) -> make k (wide_init a) = Err AttributeError) /\
      (forall s, w_model a = VStr s -> (forall c, lower s <> model_name c) -> make k (wide_init a) = Err ValueError) /\
      (forall s c, w_model a = VStr s -> lower s = model_name c -> ~ (forall kw, In kw (map fst (w_kwargs a)) -> In kw (model_keywords c)) ->
        make k (wide_init a) = Err TypeError))).
Proof.
  intros k a. unfold make. rewrite wide_eq. split; [intros ->; reflexivity|]. intros f Hf. rewrite Hf. split; [|split].
  - intros H. apply Z.ltb_lt in H. now rewrite H.
  - intros H He. apply Z.ltb_ge in H. now rewrite H, He.
  - intros Hp He n q Hn Hq. rewrite (proj2 (Z.ltb_ge f 0)) by lia. cbv zeta. rewrite He. destruct (fine_pair_total a f n q Hp Hn Hq) as [p ->]. cbn [bind]. split; [|split].
    + intros H. unfold choose_model. destruct (w_model a) as [| | |s| | |]; try reflexivity. destruct (H s eq_refl).
    + intros s Hs N. rewrite Hs. unfold choose_model.
      destruct (String.eqb_spec (lower s) "hanser") as [E|_]; [destruct (N Hanser E)|]. destruct (String.eqb_spec (lower s) "sheppard") as [E|_]; [destruct (N Sheppard E)|]. reflexivity.
    + intros s c Hs Hc Hk. rewrite Hs. unfold choose_model. rewrite Hc.
      destruct c; cbn [model_name String.eqb Ascii.eqb Bool.eqb bind]; rewrite ctor_for_bad by exact Hk; reflexivity.
Qed.
Print Assumptions C54_refused.

(** In all other cases the microscope is exactly the named model class, called with the oversampled lateral and the plain axial
    arguments: it succeeds when that succeeds, and fails with the same error. *)
Theorem C54_model : forall k a f n q s c zr, kwargs_ok a ->
  int_value (w_os a) = Some f -> (0 < f)%Z -> Z.even f = false ->
  int_value (w_size a) = Some n -> M_Val.num (w_pixel a) = Some (FFin q) ->
  w_model a = VStr s -> lower s = model_name c ->
  (forall kw, In kw (map fst (w_kwargs a)) -> In kw (model_keywords c)) ->
  (match c with Hanser => zrange_kw (w_kwargs a) = Ok zr | Sheppard => True end) ->
  exists size res, int_value size = Some (n * f)%Z /\ (exists q', M_Val.num res = Some (FFin q') /\ (q' == q / inject_Z f)%Q) /\
    match construct numeric c (model_ctor c a size res zr) with
    | Ok o => exists m, make k (wide_init a) = Ok m /\ mi_cls m = c /\ mi_model m = o /\ mi_pixel m = w_pixel a
    | Err e => make k (wide_init a) = Err e
    end.
Proof.
  intros k a f n q s c zr Hk Hf Hp He Hn Hq Hs Hc Hkw Hz. destruct (fine_pair_total a f n q Hp Hn Hq) as [[sz rs] Ep]. destruct (fine_pair_ok a f _ Hp Ep) as [F1 F2]. cbn [fst snd] in *.
  exists sz, rs. split; [now apply F1|]. split; [now apply F2|]. unfold make. rewrite wide_eq, Hf, (proj2 (Z.ltb_ge f 0)) by lia. cbv zeta. rewrite He, Ep. cbn [bind fst snd].
  assert (Ec : choose_model (w_model a) = Ok c) by (rewrite Hs; unfold choose_model; rewrite Hc; destruct c; reflexivity). rewrite Ec. cbn [bind]. rewrite ctor_for_eq by assumption.
  assert (Ez : (match c with Hanser => zrange_kw (w_kwargs a) | Sheppard => Ok None end) = Ok (match c with Hanser => zr | Sheppard => None end)) by (destruct c; auto). rewrite Ez. cbn [bind].
  assert (Em : model_ctor c a sz rs (match c with Hanser => zr | Sheppard => None end) = model_ctor c a sz rs zr) by (destruct c; reflexivity). rewrite Em.
  destruct (construct numeric c (model_ctor c a sz rs zr)) as [o|e]; cbn [bind]; [|reflexivity]. eexists. split; [reflexivity|]. cbn. auto.
Qed.
Print Assumptions C54_model.

(** The attributes of the model of every microscope that was built, whichever of the constructors was used. *)
Theorem C54_geometry : forall a m, kwargs_ok a -> built_from a m ->
  let attr := o_attr (mi_model m) in
  exists f n, int_value (w_os a) = Some f /\ (0 < f)%Z /\ Z.even f = false /\ int_value (w_size a) = Some n /\
    (exists s, w_model a = VStr s /\ lower s = model_name (mi_cls m)) /\
    (exists v, attr A_size = Some v /\ int_value v = Some (n * f)%Z) /\
    (forall q, M_Val.num (w_pixel a) = Some (FFin q) -> exists v q', attr A_res = Some v /\ M_Val.num v = Some (FFin q') /\ (q' == q / inject_Z f)%Q) /\
    attr A_wl = Some (w_wl a) /\ attr A_na = Some (w_na a) /\ attr A_ni = Some (w_ni a) /\
    (dget (w_kwargs a) "zsize" = None -> attr A_zsize = Some (w_size a)) /\
    (forall v, passed (w_kwargs a) "zsize" = Some v -> attr A_zsize = Some v) /\
    (dget (w_kwargs a) "zsize" = Some (KV VNone) -> attr A_zsize = attr A_size) /\
    (dget (w_kwargs a) "zres" = None -> attr A_zres = Some (w_pixel a)) /\
    (forall v, passed (w_kwargs a) "zres" = Some v -> attr A_zres = Some v) /\
    (dget (w_kwargs a) "zres" = Some (KV VNone) -> attr A_zres = attr A_res).
Proof.
  intros a m Hk Hb. cbv zeta. destruct (built_wide_result a m Hb) as (k & f & p & c & kk & o & _ & Hf & Hp & He & Ep & Ec & Ek & Eo & Hc & _ & _ & Hm & _).
  destruct (fine_pair_ok a f p Hp Ep) as [F1 F2]. rewrite Hm, Hc.
  assert (Kw : forall kw, In kw (map fst (w_kwargs a)) -> In kw (model_keywords c)).
  { apply Classical_Prop.NNPP. intros N. rewrite ctor_for_bad in Ek by exact N. discriminate. }
  rewrite ctor_for_eq in Ek by assumption. destruct (match c with Hanser => _ | Sheppard => _ end) as [z|e]; cbn [bind] in Ek; [|discriminate]. injection Ek as <-.
  destruct (C74_constructor_arguments _ _ _ _ Eo) as (A1 & A2 & A3 & A4 & A5 & A6 & A7 & _). cbn [model_ctor k_wl k_na k_ni k_res k_size k_zres k_zsize] in *.
  assert (V : isinstance (fst p) TInt = true). { destruct (construct_ok numeric c _ o Eo) as [[V _] _]. apply (V A_size _ A5). }
  assert (Sn : exists n, int_value (w_size a) = Some n).
  { unfold fine_pair in Ep. destruct (f =? 1)%Z; [injection Ep as <-; cbn in V; destruct (w_size a); try discriminate; cbn; eauto|].
    destruct (py_mul_int (w_size a) f) eqn:Es; cbn [bind] in Ep; [|discriminate]. destruct (py_div_int _ _); cbn [bind] in Ep; [|discriminate]. injection Ep as <-. cbn in V.
    destruct (w_size a); cbn in Es; try discriminate; try (injection Es as <-; discriminate V); cbn; eauto. }
  destruct Sn as [n Hn]. exists f, n. split; [exact Hf|]. split; [exact Hp|]. split; [exact He|]. split; [exact Hn|].
  split. { unfold choose_model in Ec. destruct (w_model a) as [| | |s| | |]; try discriminate. exists s. split; [reflexivity|]. destruct (String.eqb_spec (lower s) "hanser") as [E|_]; [injection Ec as <-; exact E|]. destruct (String.eqb_spec (lower s) "sheppard") as [E|_]; [injection Ec as <-; exact E|discriminate]. }
  split. { exists (fst p). split; [exact A5|]. now apply F1. }
  split. { intros q Hq. destruct (F2 q Hq) as (q' & Q1 & Q2). exists (snd p), q'. auto. }
  split; [exact A1|]. split; [exact A2|]. split; [exact A3|].
  assert (NN : forall v w, not_none v = Some w -> v = w) by (intros [] w; cbn; congruence).
  assert (SZ : not_none (w_size a) = Some (w_size a)) by (destruct (w_size a); cbn in *; congruence).
  assert (PX : not_none (w_pixel a) = Some (w_pixel a)).
  { destruct (w_pixel a) eqn:Epx; try reflexivity. unfold fine_pair in Ep. destruct (f =? 1)%Z.
    - injection Ep as <-. destruct (construct_ok numeric c _ o Eo) as [[V' _] _]. destruct (V' A_res _ A4) as (g & Hg). cbn [snd] in Hg. rewrite ?Epx in Hg. discriminate Hg.
    - destruct (py_mul_int (w_size a) f); cbn [bind] in Ep; [|discriminate]. rewrite ?Epx in Ep. discriminate Ep. }
  unfold given_or in *. repeat split.
  - intros E. rewrite E in A7. rewrite SZ in A7. exact A7.
  - intros v. unfold passed. destruct (dget (w_kwargs a) "zsize") as [w|]; [|discriminate]. intros E. rewrite E in A7. exact A7.
  - intros E. rewrite E in A7. cbn in A7. congruence.
  - intros E. rewrite E in A6. rewrite PX in A6. exact A6.
  - intros v. unfold passed. destruct (dget (w_kwargs a) "zres") as [w|]; [|discriminate]. intros E. rewrite E in A6. exact A6.
  - intros E. rewrite E in A6. cbn in A6. congruence.
Qed.
Print Assumptions C54_geometry.

(** ** C61 *)
Lemma set_unset k a t v m : has_prop (mi_kind m) a = true -> mtype a = t -> mi_num m a = None -> k = (isinstance v t) ->
  m_set a v m = if k then match M_Val.num v with
                          | None => (Err TypeError, m)
                          | Some f => if fl_lt f (FFin 0) then (Err ValueError, m)
                                      else (Ok tt, m_changed (upd_num (fun b => if mattr_eqb a b then Some v else mi_num m b) m)) end
                else (Err TypeError, m).
Proof.
  intros Hp Ht Hn ->. unfold m_set. rewrite Hp. unfold numeric_fset, numeric_decide. rewrite Ht. destruct (isinstance v t) eqn:Ei; cbn [negb]; [|reflexivity]. unfold py_lt.
  destruct (M_Val.num v) as [f|] eqn:En; cbn [bind]; [|reflexivity]. change (M_Val.num (VInt 0)) with (Some (FFin 0)). cbn [bind]. destruct (fl_lt f (FFin 0)); [reflexivity|]. rewrite Hn.
  assert (Q : py_eq VNone v = false) by (unfold py_eq; cbn [M_Val.num]; rewrite En; reflexivity). rewrite Q. reflexivity.
Qed.
Definition set_to (a : mattr) (v : pyval) (m : micro) : micro := m_changed (upd_num (fun b => if mattr_eqb a b then Some v else mi_num m b) m).
Lemma set_float a v m : has_prop (mi_kind m) a = true -> mtype a = TFloat -> mi_num m a = None ->
  m_set a v m = match float_error v with Some e => (Err e, m) | None => (Ok tt, set_to a v m) end.
Proof. intros Hp Ht Hn. rewrite (set_unset _ a TFloat v m Hp Ht Hn eq_refl). destruct v as [| |f| | | |]; try reflexivity. cbn. destruct (fl_lt f (FFin 0)); reflexivity. Qed.
Lemma set_bool a v m : has_prop (mi_kind m) a = true -> mtype a = TBool -> mi_num m a = None ->
  m_set a v m = match bool_error v with Some e => (Err e, m) | None => (Ok tt, set_to a v m) end.
Proof. intros Hp Ht Hn. rewrite (set_unset _ a TBool v m Hp Ht Hn eq_refl). destruct v as [|[|]| | | | |]; reflexivity. Qed.

(** The outcome of the SIM constructors once the underlying microscope can be built: the first complaint in order, or a microscope
    with the requested settings; na_exc = None and wl_exc = None take na and wl as they are, so integers there are refused too. *)
Theorem C61_sim_constructor : forall a s m0, kwargs_ok a -> make SIM (wide_init a) = Ok m0 ->
  let na := instead_of_none (s_na_exc s) (w_na a) in let wl := instead_of_none (s_wl_exc s) (w_wl a) in
  match first_error [float_error na; float_error wl; bool_error (s_coherent s); bool_error (s_dc s); bool_error (s_dcsup s); wiener_error (s_wiener s)] with
  | Some e => BaseSIMMicroscope a s = Err e
  | None => exists m, BaseSIMMicroscope a s = Ok m /\ mi_num m MNaExc = Some na /\ mi_num m MWlExc = Some wl /\
      mi_num m MCoherent = Some (s_coherent s) /\ mi_num m MDc = Some (s_dc s) /\ mi_num m MDcSup = Some (s_dcsup s) /\
      mi_num m MOs = Some (w_os a) /\ mi_wiener m = s_wiener s /\ mi_orient m = s_orient s /\ mi_model m = mi_model m0 /\ mi_params m = mi_params m0 /\ mi_cls m = mi_cls m0
  end.
Proof.
  intros a s m0 Hk H0. cbv zeta. unfold BaseSIMMicroscope, make in *. destruct (wide_init a (empty_micro SIM)) as [[[]|e] m1] eqn:E; [|discriminate]. injection H0 as ->.
  assert (W := E). rewrite wide_eq in W. destruct (int_value (w_os a)) as [f|]; [|discriminate]. destruct (f <? 0)%Z; [discriminate|]. cbv zeta in W. destruct (Z.even f); [discriminate|].
  destruct (fine_pair a f) as [p|]; cbn [bind] in W; [|discriminate]. destruct (choose_model _) as [c|]; cbn [bind] in W; [|discriminate]. destruct (ctor_for _ _) as [kk|]; cbn [bind] in W; [|discriminate].
  destruct (construct _ _ _) as [o|]; cbn [bind] in W; [|discriminate]. injection W as <-. set (m0 := wide_result SIM c a (fst p) (snd p) o) in *.
  assert (Pna : par_val (mi_params m0) "na" = Ok (w_na a)).
  { unfold par_val. cbn [m0 wide_result mi_params]. rewrite params_get by apply Hk. unfold params_spec. cbn [String.eqb Ascii.eqb Bool.eqb]. rewrite (proj2 Hk) by (cbn; tauto). reflexivity. }
  assert (Pwl : par_val (mi_params m0) "wl" = Ok (w_wl a)).
  { unfold par_val. cbn [m0 wide_result mi_params]. rewrite params_get by apply Hk. unfold params_spec. cbn [String.eqb Ascii.eqb Bool.eqb]. rewrite (proj2 Hk) by (cbn; tauto). reflexivity. }
  set (na := instead_of_none (s_na_exc s) (w_na a)). set (wl := instead_of_none (s_wl_exc s) (w_wl a)).
  set (mf := upd_wiener (s_wiener s) (upd_orient (s_orient s) (set_to MDcSup (s_dcsup s) (set_to MDc (s_dc s) (set_to MCoherent (s_coherent s) (set_to MWlExc wl (set_to MNaExc na m0))))))).
  assert (R : (let (r, m) := sim_init a s (empty_micro SIM) in match r with Ok _ => Ok m | Err e => Err e end) =
    match first_error [float_error na; float_error wl; bool_error (s_coherent s); bool_error (s_dc s); bool_error (s_dcsup s); wiener_error (s_wiener s)] with Some e => Err e | None => Ok mf end).
  2:{ rewrite R. destruct (first_error _); [reflexivity|]. exists mf. split; [reflexivity|]. cbn. auto 15. }
  unfold sim_init. unfold mbind at 1. rewrite E. unfold mbind at 1, masks at 1. unfold mbind at 1, mlift at 1.
  assert (N1 : (match s_na_exc s with VNone => par_val (mi_params m0) "na" | v => Ok v end) = Ok na) by (unfold na; destruct (s_na_exc s); cbn; auto).
  rewrite N1. unfold mbind at 1. rewrite set_float by reflexivity. cbn [first_error]. destruct (float_error na) as [e|]; [reflexivity|].
  unfold mbind at 1, mlift at 1.
  assert (N2 : (match s_wl_exc s with VNone => par_val (mi_params m0) "wl" | v => Ok v end) = Ok wl) by (unfold wl; destruct (s_wl_exc s); cbn; auto).
  rewrite N2. unfold mbind at 1. rewrite set_float by reflexivity. destruct (float_error wl) as [e|]; [reflexivity|].
  unfold mbind at 1. rewrite set_bool by reflexivity. destruct (bool_error (s_coherent s)) as [e|]; [reflexivity|].
  unfold mbind at 1. rewrite set_bool by reflexivity. destruct (bool_error (s_dc s)) as [e|]; [reflexivity|].
  unfold mbind at 1. rewrite set_bool by reflexivity. destruct (bool_error (s_dcsup s)) as [e|]; [reflexivity|].
  unfold mbind, mlift, py_lt, wiener_error. destruct (M_Val.num (s_wiener s)) as [g|]; [|reflexivity]. cbn [M_Val.num]. change (FFin (inject_Z 0)) with (FFin 0). cbv iota beta.
  destruct (fl_lt g (FFin 0)); reflexivity.
Qed.
Print Assumptions C61_sim_constructor.
(** In particular wiener = None, documented as "no deconvolution", can never be constructed. *)
Corollary C61_wiener_none_refuted : forall a s, s_wiener s = VNone -> forall m, BaseSIMMicroscope a s <> Ok m.
Proof.
  intros a s Hw m H. unfold BaseSIMMicroscope, make in H. destruct (sim_init a s _) as [[u|e] m1] eqn:E; [|discriminate]. unfold sim_init, mbind, masks, mlift in E.
  destruct (wide_init a _) as [[?|?] ?]; [|discriminate]. destruct (match s_na_exc s with VNone => _ | _ => _ end) as [?|?]; [|discriminate].
  destruct (m_set MNaExc _ _) as [[?|?] ?]; [|discriminate]. destruct (match s_wl_exc s with VNone => _ | _ => _ end) as [?|?]; [|discriminate].
  destruct (m_set MWlExc _ _) as [[?|?] ?]; [|discriminate]. destruct (m_set MCoherent _ _) as [[?|?] ?]; [|discriminate].
  destruct (m_set MDc _ _) as [[?|?] ?]; [|discriminate]. destruct (m_set MDcSup _ _) as [[?|?] ?]; [|discriminate]. rewrite Hw in E. discriminate.
Qed.
Print Assumptions C61_wiener_none_refuted.

(** ** A microscope that is built *)
Definition qv (a : Z) (b : positive) : pyval := VFloat (FFin (a # b)).
Definition a0 : wargs := mkWargs (VStr "Hanser") (qv 6 5) (qv 4 3) (qv 52 100) (VInt 64) (qv 1 10) (VInt 3) [("zsize", KV (VInt 16))].
Lemma a0_kwargs : kwargs_ok a0.
Proof. split; [repeat constructor; intros []|]. intros k H. cbn in H |- *. destruct (String.eqb_spec k "zsize") as [->|]; [|reflexivity]. repeat (destruct H as [H|H]; [discriminate|]). destruct H. Qed.
Lemma a0_model (E : engine) : exists o, construct E Hanser (model_ctor Hanser a0 (VInt 192) (VFloat (FFin ((1 # 10) / inject_Z 3)%Q)) None) = Ok o.
Proof. eexists. vm_compute. reflexivity. Qed.
Example C54_witness : exists m, WidefieldMicroscope a0 = Ok m /\ mi_cls m = Hanser /\
  (exists v, o_attr (mi_model m) A_size = Some v /\ int_value v = Some 192%Z) /\ o_attr (mi_model m) A_zsize = Some (VInt 16) /\ o_attr (mi_model m) A_zres = Some (qv 1 10).
Proof.
  destruct (a0_model numeric) as [o Ho].
  assert (H : exists m, make Widefield (wide_init a0) = Ok m).
  { unfold make. rewrite wide_eq. cbn [a0 w_os int_value]. change (3 <? 0)%Z with false. change (Z.even 3) with false. cbv zeta iota.
    change (fine_pair a0 3) with (@Ok (pyval * pyval) (VInt 192, VFloat (FFin ((1 # 10) / inject_Z 3)%Q))). cbn [bind]. change (choose_model (w_model a0)) with (@Ok cls Hanser). cbn [bind fst snd].
    rewrite ctor_for_eq; [|apply a0_kwargs|intros k [<-|[]]; cbn; tauto]. change (zrange_kw (w_kwargs a0)) with (@Ok (option zrange_arg) None). cbn [bind]. rewrite Ho. cbn [bind]. eauto. }
  destruct H as [m Hm]. exists m. split; [exact Hm|]. destruct (C54_geometry a0 m a0_kwargs (built_wide a0 m Hm)) as (f & n & Hf & _ & _ & Hn & (s & Hs & Hc) & Hsz & _ & _ & _ & _ & _ & Z1 & _ & Z2 & _).
  cbn in Hf, Hn, Hs. injection Hf as <-. injection Hn as <-. injection Hs as <-. split; [destruct (mi_cls m); [reflexivity|discriminate Hc]|]. split; [exact Hsz|]. split; [now apply Z1|]. now apply Z2.
Qed.
Example C61_witness : exists m, SIM3DMicroscope a0 (VFloat (FFin 1)) VNone (VFloat (FFin (1 # 100))) (VBool true) [0%R; PI] = Ok m /\ mi_num m MWlExc = Some (qv 52 100) /\ mi_num m MDc = Some (VBool true).
Proof.
  destruct C54_witness as (m & Hm & _). unfold WidefieldMicroscope, make in Hm.
  assert (H : exists m0, make SIM (wide_init a0) = Ok m0).
  { unfold make in *. rewrite wide_eq in *. destruct (int_value (w_os a0)) as [f|]; [|discriminate]. destruct (f <? 0)%Z; [discriminate|]. cbv zeta in *. destruct (Z.even f); [discriminate|].
    destruct (fine_pair a0 f) as [p|]; cbn [bind] in *; [|discriminate]. destruct (choose_model _) as [c|]; cbn [bind] in *; [|discriminate]. destruct (ctor_for _ _) as [kk|]; cbn [bind] in *; [|discriminate].
    destruct (construct _ _ _) as [o|]; cbn [bind] in *; [|discriminate]. eauto. }
  destruct H as [m0 H0]. pose proof (C61_sim_constructor a0 (mkSargs (VFloat (FFin 1)) VNone (VFloat (FFin (1 # 100))) (VBool false) (VBool true) (VBool true) [0%R; PI]) m0 a0_kwargs H0) as H.
  cbn in H. destruct H as (m' & H1 & _ & H2 & _ & H3 & _). exists m'. auto.
Qed.
