(** C59 for confocal microscopes as constructed on the Hanser model. *)
From Verif Require Import S_FFT S_Hanser S_Micro S_Confocal S_Bin L_Sum L_Bin L_PSF L_Ctor L_Phase5 L_Micro T_PSF T_Bin L_Array L_FFT L_FFT2 L_Phase2 L_Polar T_Hanser T_Object T_Micro T_Micro2 T_Micro3 L_Micro2 T_Micro4 T_Micro5 T_Confocal.
Import M_Array.
Local Open Scope R_scope.

Lemma val_R_finite v : 0 < val_R v -> finite_number v (val_R v).
Proof. destruct v as [w|]; cbn; [|lra]. unfold num_or_nan. destruct (M_Val.num w) as [[q| |b]|] eqn:E; cbn; try lra. intros _. exists w, q. auto. Qed.
Lemma set_pinhole p m u m' : m_set MPinhole p m = (Ok u, m') -> mi_kind m = Confocal -> mi_num m MPinhole = None ->
  mi_num m' MPinhole = Some p /\ mi_model m' = mi_model m /\ mi_cls m' = mi_cls m /\ mi_num m' MOs = mi_num m MOs /\ mi_params m' = mi_params m.
Proof.
  intros H K N. unfold m_set in H. rewrite K in H. cbn [has_prop] in H. unfold numeric_fset, numeric_decide in H. destruct (isinstance p _); cbn [negb] in H; [|discriminate]. unfold py_lt in H.
  destruct (M_Val.num p) as [f|] eqn:En; cbn [M_Val.num bind] in H; [|discriminate]. destruct (fl_lt f _); [discriminate|]. rewrite N in H.
  assert (Q : py_eq VNone p = false) by (unfold py_eq; cbn [M_Val.num]; rewrite En; reflexivity). rewrite Q in H. cbn [negb] in H. injection H as _ <-. cbn. auto.
Qed.
(** model_exc is a copy of the model with another wavelength; the pinhole is stored *)
Lemma confocal_parts a w p m : ConfocalMicroscope a w p = Ok m ->
  mi_kind m = Confocal /\ mi_num m MPinhole = Some p /\ mi_exc m = snd (exec numeric (mi_cls m) (Assign numeric (SetNum A_wl w)) (mi_model m)) /\
  (forall b, b <> A_wl -> o_attr (mi_exc m) b = o_attr (mi_model m) b) /\ o_zrange (mi_exc m) = o_zrange (mi_model m) /\
  exists v, o_attr (mi_exc m) A_wl = Some v /\ (v = w \/ py_eq v w = true).
Proof.
  intros H. split; [exact (made_kind _ _ _ (confocal_kind a w p) H)|]. destruct (C57_confocal_wl_exc a w p m H) as [_ HW].
  pose proof H as H0. unfold ConfocalMicroscope, make in H. destruct (confocal_init a w p (empty_micro Confocal)) as [[u|e] m'] eqn:E; [|discriminate]. injection H as ->.
  unfold confocal_init, mbind in E. destruct (wide_init a (empty_micro Confocal)) as [[?|?] m1] eqn:E1; [|discriminate]. destruct (m_set MPinhole p m1) as [[u2|?] m2] eqn:E2; [|discriminate]. cbn [masks] in E.
  unfold on_exc in E. cbn [upd_exc mi_exc] in E. destruct (assign numeric (mi_cls m2) (SetNum A_wl w) (mi_model m2)) as [r o] eqn:Ea. injection E as -> <-.
  assert (K1 : mi_kind m1 = Confocal) by (pose proof (wide_kind a (empty_micro Confocal)) as K; rewrite E1 in K; exact K).
  assert (N1 : mi_num m1 MPinhole = None) by (pose proof (keeps_wide MPinhole a ltac:(discriminate) (empty_micro Confocal)) as K; rewrite E1 in K; exact K).
  destruct (set_pinhole p m1 u2 m2 E2 K1 N1) as (P1 & _). cbn [mi_num mi_exc mi_model mi_cls upd_exc] in *. split; [exact P1|]. split; [cbn [exec]; rewrite Ea; reflexivity|].
  cbn [assign] in Ea. unfold numeric_set, numeric_fset in Ea. destruct (numeric_decide _ _ _) as [[|]|]; try discriminate.
  - injection Ea as _ <-. split; [|split; [reflexivity|exact HW]]. intros b Hb. cbn. destruct b; try reflexivity. congruence.
  - injection Ea as _ <-. split; [auto|split; [reflexivity|exact HW]].
Qed.
Definition with_wl (h : hpar) (wl : R) : hpar := mkHpar wl (h_na h) (h_ni h) (h_res h) (h_size h) (h_zrange h) (h_vec h) (h_cond h).
Lemma exc_hpar a w p m qx : ConfocalMicroscope a w p = Ok m -> M_Val.num w = Some (FFin qx) ->
  hpar_of (obj_params (mi_exc m)) = with_wl (hpar_of (obj_params (mi_model m))) (Q2R qx).
Proof.
  intros H Hq. destruct (confocal_parts a w p m H) as (_ & _ & _ & A1 & A2 & (v & V1 & V2)). unfold hpar_of, with_wl, obj_params. cbn [p_wl p_na p_ni p_res p_size p_zrange p_vec_corr p_condition h_na h_ni h_res h_size h_zrange h_vec h_cond].
  rewrite V1, A2, !A1 by discriminate. f_equal. cbn [val_R]. unfold num_or_nan. destruct V2 as [-> |V2]; [rewrite Hq; reflexivity|]. unfold py_eq in V2. rewrite Hq in V2. destruct (M_Val.num v) as [[q| |b]|]; try discriminate. cbn in V2 |- *. apply Qreals.Qeq_eqR. now apply Qeq_bool_eq.
Qed.
Lemma image_of o A : shows o A -> shows_image Hanser o (sumsq A).
Proof. intros (_ & S & _). eexists. split; [exact S|]. split; [unfold finite_all; apply forallb_forall; reflexivity|]. split; [reflexivity|]. reflexivity. Qed.
Lemma centre_pos h A z0 : physical h -> 0 < h_na h -> h_vec h = VecNone -> M_Hanser.gen_psf h None = Ok A -> nth (Z.to_nat z0) (h_zrange h) 0 = 0 ->
  0 < get (sumsq A) [z0; h_size h / 2; h_size h / 2]%Z.
Proof.
  intros Hp Hna Hv HA Hz. apply Rnot_le_lt. intros L.
  pose proof (C31_light h A z0 Hp Hna ltac:(congruence) HA) as P. unfold plane_sum in P.
  enough (Rsum (zseq (h_size h)) (fun y => Rsum (zseq (h_size h)) (fun x => get (sumsq A) [z0; y; x])) <= 0) by lra.
  rewrite <- (Rsum_zero (zseq (h_size h)) (fun _ => 0)) by auto. apply Rsum_le. intros y Hy. rewrite <- (Rsum_zero (zseq (h_size h)) (fun _ => 0)) by auto. apply Rsum_le. intros x Hx. apply in_zseq in Hy, Hx.
  eapply Rle_trans; [|exact L]. now apply C33_ideal_maximum.
Qed.
Lemma shown_after_wl a w p m qx A : ConfocalMicroscope a w p = Ok m -> mi_cls m = Hanser -> M_Val.num w = Some (FFin qx) ->
  M_Hanser.gen_psf (with_wl (hpar_of (obj_params (mi_model m))) (Q2R qx)) None = Ok A -> shows (mi_exc m) A.
Proof.
  intros H Hc Hq HA. destruct (confocal_parts a w p m H) as (_ & _ & Ex & _).
  destruct (built_wide_result a m (built_confocal a w p m H)) as (k & f0 & pp & c & kk & o & _ & _ & _ & _ & _ & _ & _ & Eo & Hc' & _ & _ & Hmod & _). rewrite Hc in Hc'. subst c. rewrite <- Hmod in Eo.
  rewrite Hc in Ex. rewrite <- (exc_hpar a w p m qx H Hq) in HA. rewrite Ex in HA |- *.
  apply (C73_hanser_objects kk (mi_model m) [Assign numeric (SetNum A_wl w)] A Eo). cbn [run].
  replace (in_force numeric Hanser [Assign numeric (SetNum A_wl w)] (mi_model m) None) with (@None (pupil numeric)); [exact HA|]. cbn [in_force in_force_step]. destruct (_ && _); reflexivity.
Qed.
Theorem C59_hanser : forall a w p m qx qp,
  kwargs_ok a -> ConfocalMicroscope a w p = Ok m -> mi_cls m = Hanser ->
  M_Val.num w = Some (FFin qx) -> M_Val.num p = Some (FFin qp) ->
  let h := hpar_of (obj_params (mi_model m)) in
  physical h -> 0 < h_na h -> 0 < Q2R qx ->
  exists A X n f q, M_Hanser.gen_psf h None = Ok A /\ M_Hanser.gen_psf (with_wl h (Q2R qx)) None = Ok X /\
    int_value (w_size a) = Some n /\ int_value (w_os a) = Some f /\ h_size h = (n * f)%Z /\ fst (model_psf m) = Ok (q, true) /\
    let nz := Z.of_nat (List.length (h_zrange h)) in let r := pinhole_radius (Q2R qp) (h_wl h) (h_na h) (h_res h) in
    shape q = [nz; n * f; n * f]%Z /\
    (forall z y x, inb [nz; n * f; n * f]%Z [z; y; x] ->
      (r <= 3 / 2 -> get q [z; y; x] = get (sumsq A) [z; y; x] * get (sumsq X) [z; y; x]) /\
      (3 / 2 < r -> forall l, disk r l -> get q [z; y; x] = through_pinhole r (List.length l) (sumsq A) (n * f) z y x * get (sumsq X) [z; y; x])) /\
    let light := Rsum (all_ix [nz; n * f; n * f]%Z) (get q) in
    (h_vec h = VecNone -> In 0 (h_zrange h) -> 0 < light) /\
    (light <> 0 -> exists img, fst (m_PSF m) = Ok img /\ shape img = [nz; n; n] /\ image_sum img = 1 /\ nonneg_image img /\
       forall z y x, inb [nz; n; n] [z; y; x] -> get img [z; y; x] = Some (collected q n f z y x / light)).
Proof.
  intros a w p m qx qp Hk Hm Hc Hqx Hqp h Hp Hna Hwx. pose proof (built_confocal a w p m Hm) as Hb.
  assert (Hpx : physical (with_wl h (Q2R qx))) by (destruct Hp as (? & ? & ? & ? & ?); unfold physical; cbn [with_wl h_wl h_na h_ni h_res h_size]; auto).
  destruct (proj1 (C30_computes h Hp)) as [A HA]. destruct (proj1 (C30_computes _ Hpx)) as [X HX].
  destruct (confocal_parts a w p m Hm) as (Kd & Pn & _ & _ & _ & _).
  destruct (C54_geometry a m Hk Hb) as (f & n & Hf & Pf & Ef & Hn & _ & (vs & Sv & Iv) & _).
  destruct (built_wide_result a m Hb) as (k & f' & pp & c & kk & o & _ & Hf' & _ & _ & Ep & _ & _ & Eo & Hc' & Hpar & _ & Hmod & Hos). rewrite Hc in Hc'. subst c. assert (f' = f) by congruence. subst f'. rewrite <- Hmod in Eo.
  assert (SA : shows (mi_model m) A) by (apply (C73_hanser_objects kk (mi_model m) [] A Eo); exact HA).
  assert (SX : shows (mi_exc m) X) by (apply (shown_after_wl a w p m qx X Hm Hc Hqx HX)).
  assert (Hsz : h_size h = (n * f)%Z) by (unfold h; cbn [hpar_of h_size obj_params p_size]; rewrite Sv; cbn [val_Z]; now apply int_value_as).
  set (nz := Z.of_nat (List.length (h_zrange h))).
  destruct (C30_shape_sign h None A Hp ltac:(discriminate) HA) as (_ & ShA & NA). destruct (C30_shape_sign _ None X Hpx ltac:(discriminate) HX) as (_ & ShX & NX). cbn [with_wl h_zrange h_size] in ShX, NX. fold nz in ShA, ShX, NA, NX. rewrite Hsz in ShA, ShX, NA, NX.
  destruct (C59_confocal m (h_wl h) (h_na h) (h_res h) (Q2R qp) (sumsq A) (sumsq X) nz (n * f) Kd) as (q & Eq & Sq & Gq).
  - apply val_R_finite. apply Hp.
  - apply val_R_finite. exact Hna.
  - apply val_R_finite. apply Hp.
  - rewrite Pn. exists p, qp. auto.
  - lra.
  - destruct Hp as (_ & _ & _ & ? & _). lra.
  - rewrite Hc. now apply image_of.
  - rewrite Hc. now apply image_of.
  - exact ShA.
  - exact ShX.
  - exists A, X, n, f, q. cbv zeta. fold nz. split; [exact HA|]. split; [exact HX|]. split; [exact Hn|]. split; [exact Hf|]. split; [exact Hsz|]. split; [exact Eq|]. split; [exact Sq|]. split; [exact Gq|].
    assert (Nq : nonneg q) by (apply (model_psf_nonneg m q (built_sane a m Hb)); [rewrite Kd; discriminate|exact Eq]).
    split.
    + intros Hv H0. destruct (In_nth _ _ 0 H0) as (i & Hi & Ei). set (z0 := Z.of_nat i). assert (Hz0 : nth (Z.to_nat z0) (h_zrange h) 0 = 0) by (unfold z0; rewrite Nat2Z.id; exact Ei).
      pose proof (centre_pos h A z0 Hp Hna Hv HA Hz0) as CA. pose proof (centre_pos (with_wl h (Q2R qx)) X z0 Hpx Hna Hv HX Hz0) as CX. cbn [with_wl h_size] in CX. rewrite Hsz in CA, CX. set (cc := (n * f / 2)%Z) in *.
      assert (Hs0 : (0 < n * f)%Z) by (rewrite <- Hsz; apply Hp). assert (Hcc : (0 <= cc < n * f)%Z) by (unfold cc; split; [apply Z.div_pos; lia|apply Z.div_lt; lia]).
      assert (I0 : inb [nz; n * f; n * f]%Z [z0; cc; cc]) by (apply inb3; [unfold nz, z0; lia|exact Hcc|exact Hcc]).
      apply (Rsum_pos _ _ [z0; cc; cc]); [intros; apply Nq|now apply in_all_ix|]. destruct (Gq z0 cc cc I0) as [G1 G2]. destruct (Rle_dec (pinhole_radius (Q2R qp) (h_wl h) (h_na h) (h_res h)) (3 / 2)) as [L|L].
      * rewrite G1 by exact L. now apply Rmult_lt_0_compat.
      * apply Rnot_le_lt in L. set (r := pinhole_radius _ _ _ _) in *. rewrite (G2 L (disk_list r)) by (apply disk_list_ok; lra). apply Rmult_lt_0_compat; [|exact CX].
        unfold through_pinhole. apply Rmult_lt_0_compat; [apply Rinv_0_lt_compat, (disk_nonempty r); [lra|apply disk_list_ok; lra]|].
        assert (T : forall y x, In y (zseq (n * f)) -> In x (zseq (n * f)) -> 0 <= (if near_dec r (cc - y) (cc - x) then get (sumsq A) [z0; y; x] else 0)).
        { intros y x Hy Hx. apply in_zseq in Hy, Hx. destruct (near_dec _ _ _); [|lra]. apply NA. apply inb3; [unfold nz, z0; lia|exact Hy|exact Hx]. }
        apply (Rsum_pos _ _ cc); [intros y Hy; apply Rsum_nonneg; intros x Hx; now apply T|now apply in_zseq|]. apply (Rsum_pos _ _ cc); [intros x Hx; apply T; [now apply in_zseq|exact Hx]|now apply in_zseq|].
        destruct (near_dec r _ _) as [|N]; [exact CA|]. exfalso. apply N. unfold near. rewrite !Z.sub_diag. cbn. nra.
    + intros Hl. assert (Pn0 : (0 < n)%Z) by (assert (0 < n * f)%Z by (rewrite <- Hsz; apply Hp); nia).
      assert (St : stored_size m (n * f)).
      { exists (fst pp). split; [|now apply (fine_pair_ok a f pp Pf Ep)]. rewrite Hpar, params_get by apply Hk. reflexivity. }
      destruct (C55_psf m q nz n f Eq Sq ltac:(unfold nz; lia) Pn0 (ex_intro _ _ (conj Hos Hf)) Pf Ef St Hl) as (img & E1 & E2 & E3 & E4).
      assert (EP : fst (m_PSF m) = Ok img) by (rewrite <- E1; destruct (C57_snapshot m [] (ex_intro _ a Hb)) as [E _]; exact E).
      exists img. split; [exact EP|]. split; [exact E2|]. split; [exact E4|]. split; [|exact E3]. apply (C56_nonnegative a m [] img Hb); [rewrite Kd; discriminate|intros ? []|exact EP].
Qed.
Print Assumptions C59_hanser.

(** ** Witness: the microscope of C55 as a confocal one, excitation 0.488, pinhole 1 Airy unit (radius 9.5 pixels of the model). *)
Lemma a0_confocal p qp : M_Val.num p = Some (FFin qp) -> (0 <= qp)%Q -> isinstance p TFloatInt = true ->
  exists m, ConfocalMicroscope a0 (qv 488 1000) p = Ok m /\ mi_cls m = Hanser /\ obj_params (mi_model m) = a0_params.
Proof.
  intros Hp Hq Ht. destruct (a0_made numeric) as (o & Ho & Po).
  assert (W : wide_init a0 (empty_micro Confocal) = (Ok tt, wide_result Confocal Hanser a0 (VInt 192) (VFloat (FFin ((1 # 10) / inject_Z 3)%Q)) o)).
  { rewrite wide_eq. cbn [a0 w_os int_value]. change (3 <? 0)%Z with false. change (Z.even 3) with false. cbv zeta iota.
    change (fine_pair a0 3) with (@Ok (pyval * pyval) (VInt 192, VFloat (FFin ((1 # 10) / inject_Z 3)%Q))). cbn [bind]. change (choose_model (w_model a0)) with (@Ok cls Hanser). cbn [bind fst snd].
    rewrite ctor_for_eq; [|apply a0_kwargs|intros k [<-|[]]; cbn; tauto]. change (zrange_kw (w_kwargs a0)) with (@Ok (option zrange_arg) None). cbn [bind]. unfold a0_ctor in Ho. rewrite Ho. reflexivity. }
  unfold ConfocalMicroscope, make, confocal_init, mbind. rewrite W. set (m1 := wide_result _ _ _ _ _ _).
  assert (S : exists m2, m_set MPinhole p m1 = (Ok tt, m2) /\ mi_model m2 = o /\ mi_cls m2 = Hanser).
  { unfold m_set. cbn [m1 wide_result mi_kind has_prop]. unfold numeric_fset, numeric_decide. cbn [mtype]. rewrite Ht. cbn [negb]. unfold py_lt. rewrite Hp. cbn [M_Val.num bind].
    assert (L : fl_lt (FFin qp) (FFin (inject_Z 0)) = false).
    { unfold fl_lt. cbn [fl_le fl_eq]. destruct (Qle_bool qp (inject_Z 0)) eqn:E; [|reflexivity]. apply Qle_bool_iff in E. assert (Q : (qp == inject_Z 0)%Q) by (apply Qle_antisym; [exact E|exact Hq]). apply Qeq_bool_iff in Q. rewrite Q. reflexivity. }
    rewrite L. replace (mi_num m1 MPinhole) with (@None pyval) by reflexivity. assert (Q : py_eq VNone p = false) by (unfold py_eq; cbn [M_Val.num]; rewrite Hp; reflexivity). rewrite Q. cbn [negb]. eexists. split; [reflexivity|]. split; reflexivity. }
  destruct S as (m2 & -> & M1 & M2). cbn [masks]. unfold on_exc. cbn [upd_exc mi_exc]. rewrite M1, M2.
  assert (V : exists o2, assign numeric Hanser (SetNum A_wl (qv 488 1000)) o = (Ok tt, o2)).
  { cbn [assign]. unfold numeric_set, numeric_fset. assert (Wl : o_attr o A_wl = Some (qv 52 100)) by (assert (X : p_wl (obj_params o) = p_wl a0_params) by (rewrite Po; reflexivity); exact X). rewrite Wl.
    change (numeric_decide (Some (qv 52 100)) TFloatInt (qv 488 1000)) with (@Ok bool true). eexists. reflexivity. }
  destruct V as (o2 & ->). eexists. split; [reflexivity|]. cbn [mi_cls mi_model upd_exc]. rewrite M1, M2. split; [reflexivity|exact Po].
Qed.
Example C59_witness : exists m q img, ConfocalMicroscope a0 (qv 488 1000) (VInt 1) = Ok m /\ fst (model_psf m) = Ok (q, true) /\ shape q = [16; 192; 192]%Z /\
  3 / 2 < pinhole_radius 1 (h_wl (hpar_of a0_params)) (h_na (hpar_of a0_params)) (h_res (hpar_of a0_params)) /\
  fst (m_PSF m) = Ok img /\ shape img = [16; 64; 64]%Z /\ image_sum img = 1 /\ nonneg_image img.
Proof.
  destruct (a0_confocal (VInt 1) 1 eq_refl ltac:(discriminate) eq_refl) as (m & Hm & Hc & Hp). destruct a0_physical as (P1 & P2 & P3 & P4).
  pose proof (C59_hanser a0 (qv 488 1000) (VInt 1) m (488 # 1000) (inject_Z 1) a0_kwargs Hm Hc eq_refl eq_refl) as X. cbv zeta in X. rewrite Hp in X. set (h := hpar_of a0_params) in *.
  destruct (X P1 P2 ltac:(unfold Q2R; cbn; lra)) as (A & Xx & n & f & q & _ & _ & Hn & Hf & _ & Eq & Sq & _ & L & G). rewrite P4 in *. cbn in Hn, Hf. injection Hn as <-. injection Hf as <-.
  assert (L' : 0 < Rsum (all_ix [Z.of_nat 16; 64 * 3; 64 * 3]%Z) (get q)).
  { apply L; [exact P3|]. cbn. unfold Q2R. cbn. do 8 right. left. lra. }
  destruct (G ltac:(lra)) as (img & E1 & E2 & E3 & E4 & _). exists m, q, img. split; [exact Hm|]. split; [exact Eq|]. split; [exact Sq|]. split; [|auto]. unfold pinhole_radius, h. cbn. unfold Q2R. cbn. lra.
Qed.
