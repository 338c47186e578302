(** C60 and C62 for SIM microscopes as constructed on the Hanser model. *)
From Verif Require Import S_FFT S_Hanser S_Micro S_Wiener S_Bin L_Sum L_Bin L_PSF L_Ctor L_Phase5 L_Micro T_PSF T_Bin L_Array L_FFT L_FFT2 L_Phase2 L_Polar T_Hanser T_Object T_Micro T_Micro2 T_Micro3 L_Micro2 T_Micro4 T_Micro5 T_Confocal T_Confocal2 T_SIM T_Wiener.
Import M_Array.
Local Open Scope R_scope.

Lemma sim_wide a s m : BaseSIMMicroscope a s = Ok m -> exists m0, make SIM (wide_init a) = Ok m0.
Proof. unfold BaseSIMMicroscope, make, sim_init, mbind. destruct (wide_init a (empty_micro SIM)) as [[u|e] m1]; [eauto|discriminate]. Qed.
Lemma sim_fields a s m : kwargs_ok a -> BaseSIMMicroscope a s = Ok m ->
  mi_num m MNaExc = Some (instead_of_none (s_na_exc s) (w_na a)) /\ mi_num m MWlExc = Some (instead_of_none (s_wl_exc s) (w_wl a)) /\
  mi_num m MCoherent = Some (s_coherent s) /\ mi_num m MDc = Some (s_dc s) /\ mi_num m MDcSup = Some (s_dcsup s) /\ mi_wiener m = s_wiener s /\ mi_orient m = s_orient s /\
  (exists c d e, s_coherent s = VBool c /\ s_dc s = VBool d /\ s_dcsup s = VBool e) /\ wiener_error (s_wiener s) = None /\ float_error (instead_of_none (s_na_exc s) (w_na a)) = None.
Proof.
  intros Hk H. destruct (sim_wide a s m H) as [m0 H0]. pose proof (C61_sim_constructor a s m0 Hk H0) as X. cbv zeta in X.
  destruct (first_error _) as [e|] eqn:F; [congruence|]. destruct X as (m' & H' & X1 & X2 & X3 & X4 & X5 & _ & X7 & X8 & _). assert (m' = m) by congruence. subst m'.
  cbn [first_error] in F. destruct (float_error (instead_of_none (s_na_exc s) (w_na a))); [discriminate|]. destruct (float_error _); [discriminate|].
  destruct (bool_error (s_coherent s)) eqn:E1; [discriminate|]. destruct (bool_error (s_dc s)) eqn:E2; [discriminate|]. destruct (bool_error (s_dcsup s)) eqn:E3; [discriminate|]. destruct (wiener_error _); [discriminate|].
  repeat (split; [assumption|]). split; [|auto]. destruct (s_coherent s), (s_dc s), (s_dcsup s); try discriminate. eauto 10.
Qed.
Lemma fl_lt_0 q : fl_lt (FFin q) (FFin 0) = false -> 0 <= Q2R q.
Proof.
  unfold fl_lt. cbn [fl_le fl_eq]. intros H. destruct (Qle_bool q 0) eqn:E; cbn in H.
  - apply Bool.negb_false_iff in H. apply Qeq_bool_eq in H. rewrite (Qreals.Qeq_eqR _ _ H), RMicromega.Q2R_0. lra.
  - assert (L : (0 < q)%Q) by (apply Qnot_le_lt; intros N; apply Qle_bool_iff in N; congruence). apply Qreals.Qlt_Rlt in L. rewrite RMicromega.Q2R_0 in L. lra.
Qed.
Theorem C60_hanser : forall a s m n nz f qx qz qi qn qe qw coh dc sup,
  kwargs_ok a -> BaseSIMMicroscope a s = Ok m -> mi_cls m = Hanser ->
  int_value (w_size a) = Some n -> int_value (given_or a "zsize" (w_size a)) = Some nz -> int_value (w_os a) = Some f ->
  M_Val.num (w_pixel a) = Some (FFin qx) -> M_Val.num (given_or a "zres" (w_pixel a)) = Some (FFin qz) -> M_Val.num (w_ni a) = Some (FFin qi) ->
  M_Val.num (instead_of_none (s_na_exc s) (w_na a)) = Some (FFin qn) -> M_Val.num (instead_of_none (s_wl_exc s) (w_wl a)) = Some (FFin qe) ->
  M_Val.num (s_wiener s) = Some (FFin qw) -> s_coherent s = VBool coh -> s_dc s = VBool dc -> s_dcsup s = VBool sup ->
  let h := hpar_of (obj_params (mi_model m)) in
  physical h -> 0 < h_na h -> h_vec h <> VecZ -> Z.of_nat (List.length (h_zrange h)) = nz -> (0 < nz)%Z ->
  Q2R qn <= Q2R qi -> Q2R qe <> 0 ->
  let B := mkBeams (n * f)%Z nz (Q2R qx / IZR f) (Q2R qz) (Q2R qi) (Q2R qe) (Q2R qn) in
  exists A p, M_Hanser.gen_psf h None = Ok A /\ shape (sumsq A) = [nz; n * f; n * f]%Z /\ deconvolved (Q2R qw) (sumsq A) p /\
    (coh = true -> s_orient s = [] -> fst (model_psf m) = Err UnboundLocalError) /\
    (coh = false \/ s_orient s <> [] -> exists img, fst (model_psf m) = Ok (img, true) /\ shape img = [nz; n * f; n * f]%Z /\
      (forall z y x, inb [nz; n * f; n * f]%Z [z; y; x] -> get img [z; y; x] = get p [z; y; x] * illumination B coh dc sup (s_orient s) z y x) /\
      let light := Rsum (all_ix [nz; n * f; n * f]%Z) (get img) in
      (light <> 0 -> exists r, fst (m_PSF m) = Ok r /\ shape r = [nz; n; n] /\ image_sum r = 1 /\
         forall z y x, inb [nz; n; n] [z; y; x] -> get r [z; y; x] = Some (collected img n f z y x / light))).
Proof.
  intros a s m n nz f qx qz qi qn qe qw coh dc sup Hk Hm Hc Hn Hnz Hf Hqx Hqz Hqi Hqn Hqe Hqw Hcoh Hdc Hsup h Hp Hna Hv Hlen Pnz Hle Hwl B.
  pose proof (built_sim a s m Hm) as Hb. destruct (proj1 (C30_computes h Hp)) as [A HA].
  destruct (sim_fields a s m Hk Hm) as (F1 & F2 & F3 & F4 & F5 & F6 & F7 & _ & Fw & Fn).
  destruct (C54_geometry a m Hk Hb) as (f' & n' & Hf' & Pf & Ef & Hn' & _ & (vs & Sv & Iv) & _ & _ & _ & _ & _). assert (f' = f) by congruence. assert (n' = n) by congruence. subst f' n'.
  destruct (built_wide_result a m Hb) as (k & f' & pp & c & kk & o & _ & Hf2 & _ & _ & Ep & _ & _ & Eo & Hc' & Hpar & _ & Hmod & Hos). rewrite Hc in Hc'. subst c. assert (f' = f) by congruence. subst f'. rewrite <- Hmod in Eo.
  destruct (fine_pair_ok a f pp Pf Ep) as [P1 P2]. specialize (P1 n Hn). destruct (P2 qx Hqx) as (qf & Q1 & Q2).
  assert (SA : shows (mi_model m) A) by (apply (C73_hanser_objects kk (mi_model m) [] A Eo); exact HA).
  assert (Hsz : h_size h = (n * f)%Z) by (unfold h; cbn [hpar_of h_size obj_params p_size]; rewrite Sv; cbn [val_Z]; now apply int_value_as).
  destruct (C30_shape_sign h None A Hp ltac:(discriminate) HA) as (_ & ShA & NA). rewrite Hlen, Hsz in ShA.
  assert (Ps : (0 < n * f)%Z) by (rewrite <- Hsz; apply Hp). assert (Pn : (0 < n)%Z) by nia.
  assert (St : settings B m).
  { unfold settings. rewrite Hpar, !params_get by apply Hk. unfold params_spec. cbn [String.eqb Ascii.eqb Bool.eqb].
    assert (Kni : dget (w_kwargs a) "ni" = None) by (apply Hk; cbn; tauto). rewrite Kni. cbn [option_map as_val b_n b_nz b_dx b_dz b_ni b_wl b_na B].
    split; [exists (fst pp); auto|]. split.
    { unfold given_or in Hnz. destruct (dget (w_kwargs a) "zsize") as [v|]; eexists; (split; [reflexivity|exact Hnz]). }
    split. { exists (snd pp), qf. split; [reflexivity|]. split; [exact Q1|]. rewrite (Qreals.Qeq_eqR _ _ Q2). unfold Qdiv. rewrite Qreals.Q2R_mult, Qreals.Q2R_inv; [|intros N; unfold Qeq in N; cbn in N; lia]. unfold Rdiv. do 2 f_equal. unfold Q2R, inject_Z. cbn. field. }
    split. { unfold given_or in Hqz. destruct (dget (w_kwargs a) "zres") as [v|]; cbn [option_map as_val]; eexists; exists qz; (split; [reflexivity|auto]). }
    split. { exists (w_ni a), qi. auto. } split; [exists (instead_of_none (s_wl_exc s) (w_wl a)), qe; auto|exists (instead_of_none (s_na_exc s) (w_na a)), qn; auto]. }
  assert (Sw : switches m coh dc sup) by (unfold switches; rewrite F3, F4, F5, Hcoh, Hdc, Hsup; auto).
  assert (Wq : (0 <= qw)%Q). { unfold wiener_error in Fw. rewrite Hqw in Fw. destruct (fl_lt (FFin qw) (FFin 0)) eqn:E; [discriminate|]. apply fl_lt_0 in E. apply Qreals.Rle_Qle. rewrite RMicromega.Q2R_0. exact E. }
  assert (Nq : 0 <= Q2R qn). { destruct (instead_of_none (s_na_exc s) (w_na a)) as [|b|g| | | |] eqn:En; try discriminate. cbn in Hqn. injection Hqn as ->. unfold float_error in Fn. destruct (fl_lt (FFin qn) (FFin 0)) eqn:E; [discriminate|]. now apply fl_lt_0. }
  assert (Ni : 0 < Q2R qi).
  { destruct Hp as (_ & _ & Hni & _). destruct (C54_geometry a m Hk Hb) as (_ & _ & _ & _ & _ & _ & _ & _ & _ & _ & _ & Ani & _). unfold h in Hni. cbn [hpar_of h_ni h_na h_wl obj_params p_ni] in Hni. rewrite Ani in Hni. cbn [val_R] in Hni. unfold num_or_nan in Hni. rewrite Hqi in Hni. cbn in Hni. lra. }
  assert (NB : not_black (sumsq A)).
  { apply Classical_Prop.NNPP. intros N. pose proof (C31_light h A 0 Hp Hna Hv HA) as L. unfold plane_sum in L. rewrite Hsz in L.
    rewrite Rsum_zero in L; [lra|]. intros y Hy. apply Rsum_zero. intros x Hx. apply in_zseq in Hy, Hx. destruct (Req_dec (get (sumsq A) [0%Z; y; x]) 0) as [E|E]; [exact E|]. exfalso. apply N. exists [0%Z; y; x]. split; [|exact E]. rewrite ShA. apply inb3; lia. }
  assert (R : reached (mi_cls m) (mi_model m)) by (exists kk, (mi_model m), []; rewrite Hc; auto).
  assert (SI : shows_image (mi_cls m) (mi_model m) (sumsq A)) by (rewrite Hc; now apply image_of).
  destruct (C62_wiener m (sumsq A) R SI ltac:(rewrite ShA; repeat constructor; lia) qw ltac:(rewrite F6; exact Hqw) Wq ltac:(right; exact NB)) as (p & Eb & Dp).
  assert (Kd : mi_kind m = SIM) by (exact (made_kind _ _ _ (sim_kind a s) Hm)).
  assert (Sp : shape p = [nz; n * f; n * f]%Z) by (destruct Dp as [-> _]; exact ShA).
  exists A, p. split; [exact HA|]. split; [exact ShA|]. split; [exact Dp|].
  assert (Out : forall img, fst (model_psf m) = Ok (img, true) -> shape img = [nz; n * f; n * f]%Z -> Rsum (all_ix [nz; n * f; n * f]%Z) (get img) <> 0 ->
    exists r, fst (m_PSF m) = Ok r /\ shape r = [nz; n; n] /\ image_sum r = 1 /\ forall z y x, inb [nz; n; n] [z; y; x] -> get r [z; y; x] = Some (collected img n f z y x / Rsum (all_ix [nz; n * f; n * f]%Z) (get img))).
  { intros img E S L.
    assert (Ss : stored_size m (n * f)) by (exists (fst pp); split; [rewrite Hpar, params_get by apply Hk; reflexivity|exact P1]).
    destruct (C55_psf m img nz n f E S ltac:(lia) Pn (ex_intro _ _ (conj Hos Hf)) Pf Ef Ss L) as (r & E1 & E2 & E3 & E4).
    exists r. split; [rewrite <- E1; destruct (C57_snapshot m [] (ex_intro _ a Hb)) as [E5 _]; exact E5|]. auto. }
  destruct coh.
  - destruct (C60_coherent m B p true Kd St Ni ltac:(cbn; lra) Hwl Eb Sp dc sup Sw) as [G1 G2]. rewrite F7 in G1, G2. split; [auto|]. intros [Q|Q]; [discriminate|]. destruct (G2 Q) as (img & E1 & E2 & E3). exists img. split; [exact E1|]. split; [exact E2|]. split; [exact E3|]. cbv zeta. now apply Out.
  - split; [discriminate|]. intros _. destruct (incoherent_pattern m B p true Kd St Ni ltac:(cbn; lra) Hwl Eb Sp dc sup Sw) as (img & E1 & E2 & E3). rewrite F7 in E3. exists img. split; [exact E1|]. split; [exact E2|]. split; [exact E3|]. cbv zeta. now apply Out.
Qed.
Print Assumptions C60_hanser.

(** The zero of the pattern's coordinate is pixel (n + 1) // 2; the response's centre (C33) is pixel n // 2.  On grids of odd size the
    pattern is one pixel off in every axis. *)
Theorem C60_centre : forall B os y x, (0 < b_n B)%Z -> b_dx B <> 0 ->
  let c := ((b_n B + 1) / 2)%Z in
  (forall o, across B o c c = 0) /\ illumination B false false false os 0 c c = 4 * count os /\
  illumination B false false false os 0 y x <= 4 * count os /\
  (c = b_n B / 2 <-> Z.even (b_n B) = true)%Z /\
  (Z.even (b_n B) = false -> across B 0 (b_n B / 2) (b_n B / 2) = - (2 * PI * b_na B / b_wl B * b_dx B)).
Proof.
  intros B os y x Hn Hd c.
  assert (A0 : forall o, across B o c c = 0) by (intros o; unfold across, coord; fold c; rewrite Z.sub_diag; ring).
  split; [exact A0|]. split.
  { unfold illumination. rewrite Rplus_0_r. rewrite (Rsum_ext os _ (fun _ => 2)); [rewrite Rsum_const; unfold count; ring|]. intros o _. rewrite A0, Rmult_0_r, cos_0. ring. }
  split.
  { unfold illumination. rewrite Rplus_0_r. assert (L : Rsum os (fun o => 0 + 2 * cos (2 * across B o y x)) <= Rsum os (fun _ => 2)) by (apply Rsum_le; intros o _; pose proof (COS_bound (2 * across B o y x)); lra). rewrite Rsum_const in L. unfold count in *. lra. }
  pose proof (Zmod_even (b_n B)) as E. pose proof (Z.div_mod (b_n B) 2 ltac:(lia)) as D. unfold c. split.
  - destruct (Z.even (b_n B)).
    + split; [reflexivity|]. intros _. rewrite E, Z.add_0_r in D. rewrite D at 1. rewrite Z.mul_comm, Z.div_add_l by lia. cbn. lia.
    + split; [|discriminate]. intros H. exfalso. rewrite E in D. assert ((b_n B + 1) / 2 = b_n B / 2 + 1)%Z; [|lia]. replace (b_n B + 1)%Z with ((b_n B / 2 + 1) * 2)%Z by lia. apply Z.div_mul. lia.
  - intros Ev. rewrite Ev in E. rewrite E in D. unfold across, coord. rewrite cos_0, sin_0. assert (Q : ((b_n B + 1) / 2 = b_n B / 2 + 1)%Z) by (replace (b_n B + 1)%Z with ((b_n B / 2 + 1) * 2)%Z by lia; apply Z.div_mul; lia).
    rewrite Q. replace (b_n B / 2 - (b_n B / 2 + 1))%Z with (-1)%Z by lia. ring.
Qed.
Print Assumptions C60_centre.
(** Illumination is never negative before the zero order is suppressed; suppressing it is a subtraction of 2N - 1. *)
Theorem C60_signs : forall B coh dc os z y x,
  0 <= illumination B coh dc false os z y x /\
  illumination B false dc true os z y x = illumination B false dc false os z y x - (2 * count os - 1) /\
  illumination B true dc true os z y x = illumination B true dc false os z y x.
Proof.
  intros B coh dc os z y x.
  assert (S : forall a t, 0 <= 1 + 2 * a * cos t + a ^ 2) by (intros a t; pose proof (sin2_cos2 t) as H; unfold Rsqr in H; assert (E : 1 + 2 * a * cos t + a ^ 2 = (a + cos t) ^ 2 + sin t ^ 2) by (rewrite <- H at 1; ring); rewrite E; apply Rplus_le_le_0_compat; apply pow2_ge_0).
  assert (P : 0 <= illumination B coh dc false os z y x).
  { unfold illumination. cbv zeta. destruct coh.
    - set (A := Rsum os _). destruct dc; [|nra]. apply S.
    - assert (N : Rsum os (fun o => 2 + (if dc then 1 else 0) + ((if dc then 4 * cos (across B o y x) * cos (along B z) else 0) + 2 * cos (2 * across B o y x))) =
        2 * count os + (if dc then count os else 0) + Rsum os (fun o => (if dc then 4 * cos (across B o y x) * cos (along B z) else 0) + 2 * cos (2 * across B o y x))).
      { rewrite Rsum_plus, Rsum_const. unfold count. destruct dc; ring. }
      rewrite <- N. apply Rsum_nonneg. intros o _. rewrite cos_2a_cos. set (u := across B o y x). specialize (S (2 * cos u) (along B z)). destruct dc; nra. }
  split; [exact P|]. unfold illumination. cbv zeta. split; [ring|reflexivity].
Qed.
Print Assumptions C60_signs.

(** ** Witness *)
Lemma a0_any m : built_from a0 m -> mi_cls m = Hanser /\ obj_params (mi_model m) = a0_params.
Proof.
  intros Hb. destruct (built_wide_result a0 m Hb) as (k & f & p & c & kk & o & _ & Hf & _ & _ & Ep & Ec & Ek & Eo & Hc & _ & _ & Hm & _). cbn in Hf. injection Hf as <-.
  change (fine_pair a0 3) with (@Ok (pyval * pyval) (VInt 192, VFloat (FFin ((1 # 10) / inject_Z 3)%Q))) in Ep. injection Ep as <-. change (choose_model (w_model a0)) with (@Ok cls Hanser) in Ec. injection Ec as <-.
  split; [exact Hc|]. cbn [fst snd] in Ek. rewrite ctor_for_eq in Ek; [|apply a0_kwargs|intros kw [<-|[]]; cbn; tauto]. change (zrange_kw (w_kwargs a0)) with (@Ok (option zrange_arg) None) in Ek. cbn [bind] in Ek. injection Ek as <-.
  destruct (a0_made numeric) as (o' & Ho & Po). unfold a0_ctor in Ho. rewrite Ho in Eo. injection Eo as <-. rewrite Hm. exact Po.
Qed.
(** 3D SIM with na_exc = 1, the emission wavelength, a Wiener parameter of 1% and two orientations *)
Definition s0 : sargs := mkSargs (VFloat (FFin 1)) VNone (VFloat (FFin (1 # 100))) (VBool false) (VBool true) (VBool true) [0%R; PI / 3].
Lemma sim3d_eq a n w q d os : SIM3DMicroscope a n w q d os = BaseSIMMicroscope a (mkSargs n w q (VBool false) (VBool true) d os).
Proof. reflexivity. Qed.
Lemma a0_sim : exists m, BaseSIMMicroscope a0 s0 = Ok m.
Proof.
  destruct C61_witness as (m & Hm & _). rewrite sim3d_eq in Hm. destruct (sim_wide a0 _ m Hm) as [m0 H0]. pose proof (C61_sim_constructor a0 s0 m0 a0_kwargs H0) as H. cbv zeta in H. destruct (first_error _) eqn:F in H; [vm_compute in F; discriminate F|]. destruct H as (m' & H & _). eauto.
Qed.
Lemma a0_sim_image m : BaseSIMMicroscope a0 s0 = Ok m -> exists img p, fst (model_psf m) = Ok (img, true) /\ shape img = [16; 64 * 3; 64 * 3]%Z /\ shape p = [16; 64 * 3; 64 * 3]%Z /\
  forall z y x, inb [16; 64 * 3; 64 * 3]%Z [z; y; x] -> get img [z; y; x] = get p [z; y; x] *
    illumination (mkBeams (64 * 3) 16 (Q2R (1 # 10) / IZR 3) (Q2R (1 # 10)) (Q2R (4 # 3)) (Q2R (52 # 100)) (Q2R 1)) false true true (s_orient s0) z y x.
Proof.
  intros Hm. destruct (a0_any m (built_sim a0 s0 m Hm)) as [Hc Hpar]. destruct a0_physical as (P1 & P2 & P3 & P4).
  pose proof (C60_hanser a0 s0 m 64 16 3 (1 # 10) (1 # 10) (4 # 3) 1 (52 # 100) (1 # 100) false true true a0_kwargs Hm Hc eq_refl eq_refl eq_refl eq_refl eq_refl eq_refl eq_refl eq_refl eq_refl eq_refl eq_refl eq_refl) as X.
  cbv zeta in X. rewrite Hpar in X. set (h := hpar_of a0_params) in *.
  assert (V : h_vec h <> VecZ) by (rewrite P3; discriminate). assert (L : Z.of_nat (List.length (h_zrange h)) = 16%Z) by (rewrite P4; reflexivity).
  assert (C1 : Q2R 1 <= Q2R (4 # 3)) by (unfold Q2R; cbn; lra). assert (C2 : Q2R (52 # 100) <> 0) by (unfold Q2R; cbn; lra).
  destruct (X P1 P2 V L eq_refl C1 C2) as (A & p & _ & SA & (Sp & _) & _ & Y). clear X.
  destruct (Y (or_introl eq_refl)) as (img & E1 & E2 & E3 & _). exists img, p. split; [exact E1|]. split; [exact E2|]. split; [rewrite Sp; exact SA|]. exact E3.
Qed.
(** 3D SIM with na_exc = 1, the emission wavelength, a Wiener parameter of 1% and two orientations *)
Example C60_witness : exists m img p, SIM3DMicroscope a0 (VFloat (FFin 1)) VNone (VFloat (FFin (1 # 100))) (VBool true) [0%R; PI / 3] = Ok m /\
  fst (model_psf m) = Ok (img, true) /\ shape img = [16; 192; 192]%Z /\ shape p = [16; 192; 192]%Z /\
  forall z y x, inb [16; 192; 192]%Z [z; y; x] -> get img [z; y; x] = get p [z; y; x] *
    illumination (mkBeams 192 16 (Q2R (1 # 10) / 3) (Q2R (1 # 10)) (Q2R (4 # 3)) (Q2R (52 # 100)) (Q2R 1)) false true true [0%R; PI / 3] z y x.
Proof.
  destruct a0_sim as [m Hm]. destruct (a0_sim_image m Hm) as (img & p & H). exists m, img, p. split; [rewrite sim3d_eq; exact Hm|]. exact H.
Qed.
