(** C60 for the named classes: SIM2DMicroscope, SIM3DMicroscope, LatticeSIMMicroscope (pyotf/microscope.py:403-424). *)
From Verif Require Import S_FFT S_Hanser S_Micro S_Wiener S_Bin L_Sum L_Array T_Confocal2 T_Micro5 T_Micro T_Micro2 T_Micro4 T_SIM T_Wiener T_SIM2.
Import M_Array.
Local Open Scope R_scope.

(** Which beams each class uses, whatever the PSF model: 2D SIM a pair of beams per orientation, 3D SIM the axial beam as well, lattice SIM all
    beams at once, two orientations at a right angle. *)
Theorem C60_class_switches : forall a na_exc wl_exc wiener dc_suppress os m, kwargs_ok a ->
  (SIM2DMicroscope a na_exc wl_exc wiener dc_suppress os = Ok m -> exists sup, dc_suppress = VBool sup /\ switches m false false sup /\ mi_orient m = os) /\
  (SIM3DMicroscope a na_exc wl_exc wiener dc_suppress os = Ok m -> exists sup, dc_suppress = VBool sup /\ switches m false true sup /\ mi_orient m = os) /\
  (LatticeSIMMicroscope a na_exc wl_exc wiener dc_suppress = Ok m -> exists sup, dc_suppress = VBool sup /\ switches m true true sup /\ mi_orient m = [0; PI / 2]).
Proof.
  intros a n w q d os m Hk. repeat split; intro H;
    destruct (sim_fields _ _ _ Hk H) as (_ & _ & F3 & F4 & F5 & _ & F7 & (c & e & g & _ & _ & Hg) & _); cbn in F3, F4, F5, F7, Hg; subst; exists g; repeat split; auto.
Qed.
Print Assumptions C60_class_switches.

(** The numbers among the arguments of a SIM microscope. *)
Record sim_numbers (a : wargs) (na_exc wl_exc wiener : pyval) (n nz f : Z) (qx qz qi qn qe qw : Q) : Prop := {
  sn_size : int_value (w_size a) = Some n;
  sn_zsize : int_value (given_or a "zsize" (w_size a)) = Some nz;
  sn_over : int_value (w_os a) = Some f;
  sn_pixel : M_Val.num (w_pixel a) = Some (FFin qx);
  sn_zres : M_Val.num (given_or a "zres" (w_pixel a)) = Some (FFin qz);
  sn_ni : M_Val.num (w_ni a) = Some (FFin qi);
  sn_na : M_Val.num (instead_of_none na_exc (w_na a)) = Some (FFin qn);
  sn_wl : M_Val.num (instead_of_none wl_exc (w_wl a)) = Some (FFin qe);
  sn_wiener : M_Val.num wiener = Some (FFin qw);
  sn_nz : (0 < nz)%Z;
  sn_tilt : Q2R qn <= Q2R qi;
  sn_wl0 : Q2R qe <> 0 }.
(** The image each class computes on the Hanser model, at pixel (y, x) of plane z; k and kz are the lateral and axial frequencies of the tilted
    beams, r_o the distance along orientation o. *)
Theorem C60_classes : forall a na_exc wl_exc wiener sup os m n nz f qx qz qi qn qe qw,
  kwargs_ok a -> sim_numbers a na_exc wl_exc wiener n nz f qx qz qi qn qe qw -> mi_cls m = Hanser ->
  let h := hpar_of (obj_params (mi_model m)) in
  physical h -> 0 < h_na h -> h_vec h <> VecZ -> Z.of_nat (List.length (h_zrange h)) = nz ->
  let X (x : Z) := IZR (x - (n * f + 1) / 2) * (Q2R qx / IZR f) in
  let Zc (z : Z) := IZR (z - (nz + 1) / 2) * Q2R qz in
  let k := 2 * PI * Q2R qn / Q2R qe in
  let kz := 2 * PI * (Q2R qi - sqrt (Q2R qi ^ 2 - Q2R qn ^ 2)) / Q2R qe in
  let r (o : R) (y x : Z) := X x * cos o + X y * sin o in
  let sh := [nz; n * f; n * f]%Z in
  let N := INR (List.length os) in
  let shows_pattern (pattern : Z -> Z -> Z -> R) :=
    exists A p img, M_Hanser.gen_psf h None = Ok A /\ shape (sumsq A) = sh /\ deconvolved (Q2R qw) (sumsq A) p /\
      fst (model_psf m) = Ok (img, true) /\ shape img = sh /\
      forall z y x, inb sh [z; y; x] -> get img [z; y; x] = get p [z; y; x] * pattern z y x in
  (SIM2DMicroscope a na_exc wl_exc wiener (VBool sup) os = Ok m ->
     shows_pattern (fun z y x => (if sup then 1 else 2 * N) + 2 * Rsum os (fun o => cos (2 * k * r o y x)))) /\
  (SIM3DMicroscope a na_exc wl_exc wiener (VBool sup) os = Ok m ->
     shows_pattern (fun z y x => (if sup then 1 + N else 3 * N) + Rsum os (fun o => 4 * cos (k * r o y x) * cos (kz * Zc z) + 2 * cos (2 * k * r o y x)))) /\
  (LatticeSIMMicroscope a na_exc wl_exc wiener (VBool sup) = Ok m ->
     shows_pattern (fun z y x => let A := 2 * cos (k * X x) + 2 * cos (k * X y) in 1 + 2 * A * cos (kz * Zc z) + A ^ 2)).
Proof.
  intros a na_exc wl_exc wiener sup os m n nz f qx qz qi qn qe qw Hk [S1 S2 S3 S4 S5 S6 S7 S8 S9 S10 S11 S12] Hc h Hp Hna Hv Hl X Zc k kz r sh N shows_pattern.
  assert (G : forall coh dc os', BaseSIMMicroscope a (mkSargs na_exc wl_exc wiener (VBool coh) (VBool dc) (VBool sup) os') = Ok m -> coh = false \/ os' <> [] ->
    shows_pattern (illumination (mkBeams (n * f)%Z nz (Q2R qx / IZR f) (Q2R qz) (Q2R qi) (Q2R qe) (Q2R qn)) coh dc sup os')).
  { intros coh dc os' Hm Ho.
    destruct (C60_hanser a (mkSargs na_exc wl_exc wiener (VBool coh) (VBool dc) (VBool sup) os') m n nz f qx qz qi qn qe qw coh dc sup Hk Hm Hc S1 S2 S3 S4 S5 S6 S7 S8 S9 eq_refl eq_refl eq_refl Hp Hna Hv Hl S10 S11 S12)
      as (A & p & E1 & E2 & E3 & _ & E4).
    destruct (E4 Ho) as (img & F1 & F2 & F3 & _). exists A, p, img. repeat split; auto. all: try apply E3. }
  assert (T : forall pat pat', (forall z y x, pat z y x = pat' z y x) -> shows_pattern pat -> shows_pattern pat').
  { intros pat pat' E (A & p & img & E1 & E2 & E3 & E4 & E5 & E6). exists A, p, img. split; [exact E1 |]. split; [exact E2 |]. split; [exact E3 |].
    split; [exact E4 |]. split; [exact E5 |]. intros z y x Hi. rewrite <- E. now apply E6. }
  set (B := mkBeams (n * f)%Z nz (Q2R qx / IZR f) (Q2R qz) (Q2R qi) (Q2R qe) (Q2R qn)) in *.
  assert (Ea : forall o y x, across B o y x = k * r o y x) by reflexivity.
  assert (Eb : forall z, along B z = kz * Zc z) by (intro z; unfold along, kz, Zc, coord, Rdiv; cbn; ring).
  split; [| split]; intro Hm.
  - apply (T (illumination B false false sup os)); [| apply G; auto]. intros z y x. unfold illumination. fold N. unfold count. rewrite Rplus_0_r. f_equal.
    rewrite <- Rsum_scal_l. apply Rsum_ext. intros o _. rewrite Ea, Rplus_0_l, <- Rmult_assoc. reflexivity.
  - apply (T (illumination B false true sup os)); [| apply G; auto]. intros z y x. unfold illumination, count. fold N. f_equal; [destruct sup; ring |].
    apply Rsum_ext. intros o _. rewrite Ea, Eb, <- Rmult_assoc. reflexivity.
  - apply (T (illumination B true true sup [0; PI / 2])); [| apply G; auto; right; discriminate]. intros z y x. unfold illumination. cbn [Rsum].
    rewrite !Ea, Eb. unfold r. rewrite cos_0, sin_0, cos_PI2, sin_PI2.
    replace (X x * 1 + X y * 0) with (X x) by ring. replace (X x * 0 + X y * 1) with (X y) by ring. cbv zeta. rewrite !Rplus_0_r. reflexivity.
Qed.
Print Assumptions C60_classes.
(** A lattice SIM microscope that meets the conditions. *)
Example C60_lattice_case : exists m img p, LatticeSIMMicroscope a0 (VFloat (FFin 1)) VNone (VFloat (FFin (1 # 100))) (VBool true) = Ok m /\
  fst (model_psf m) = Ok (img, true) /\ shape img = [16; 192; 192]%Z /\
  forall z y x, inb [16; 192; 192]%Z [z; y; x] -> get img [z; y; x] = get p [z; y; x] *
    (let k := 2 * PI * Q2R 1 / Q2R (52 # 100) in let X i := IZR (i - 96) * (Q2R (1 # 10) / IZR 3) in
     let A := 2 * cos (k * X x) + 2 * cos (k * X y) in
     1 + 2 * A * cos (2 * PI * (Q2R (4 # 3) - sqrt (Q2R (4 # 3) ^ 2 - Q2R 1 ^ 2)) / Q2R (52 # 100) * (IZR (z - 8) * Q2R (1 # 10))) + A ^ 2).
Proof.
  destruct C61_witness as (m1 & Hm1 & _). rewrite sim3d_eq in Hm1. destruct (sim_wide a0 _ m1 Hm1) as [m0 H0].
  pose proof (C61_sim_constructor a0 (mkSargs (VFloat (FFin 1)) VNone (VFloat (FFin (1 # 100))) (VBool true) (VBool true) (VBool true) [0; PI / 2]) m0 a0_kwargs H0) as H.
  cbv zeta in H. destruct (first_error _) eqn:F in H; [vm_compute in F; discriminate F|]. destruct H as (m & Hm & _).
  destruct (a0_any m (built_sim a0 _ m Hm)) as [Hc Hpar]. destruct a0_physical as (P1 & P2 & P3 & P4).
  destruct (C60_classes a0 (VFloat (FFin 1)) VNone (VFloat (FFin (1 # 100))) true [0] m 64 16 3 (1 # 10) (1 # 10) (4 # 3) 1 (52 # 100) (1 # 100) a0_kwargs) as (_ & _ & G); auto.
  - constructor; try reflexivity; unfold Q2R; cbn; lra.
  - rewrite Hpar. exact P1.
  - rewrite Hpar. exact P2.
  - rewrite Hpar, P3. discriminate.
  - rewrite Hpar, P4. reflexivity.
  - destruct (G Hm) as (A & p & img & _ & _ & _ & E1 & E2 & E3). exists m, img, p. split; [exact Hm |]. split; [exact E1 |]. split; [exact E2 |]. exact E3.
Qed.
