(** C93: units do not matter for objects, microscopes and phase retrieval as a whole.  The constructors are part of it: arguments
    given in other units are accepted or refused alike, and everything computed afterwards is the same. *)
From Coq Require Import FunctionalExtensionality.
From Verif Require Import S_Unit S_PSF S_Hanser S_Micro L_PSF L_Phase5 L_Micro T_PSF T_Object T_Micro2 T_SIM2 T_Scale L_Unit L_Unit2 S_Phase T_Phase2.
Import M_Array.
Local Open Scope R_scope.

(** ** PSF objects *)
(** the call HanserPSF( ** d) or SheppardPSF( ** d) *)
Definition psf_object (c : cls) (d : pdict) : res (obj numeric) := do k <- ctor_for c d; construct numeric c k.
(** The factor of each attribute, and operations in other units: assignments of scaled values, the same reads, the same pupils. *)
Definition attr_factor (al be : Q) (a : attr) : option Q :=
  match a with A_wl => Some (al * be)%Q | A_na | A_ni => Some be | A_res | A_zres => Some al | _ => None end.
Definition op_units (al be : Q) (x x' : op numeric) : Prop :=
  match x, x' with
  | Assign (SetNum a v), Assign (SetNum a' v') => a' = a /\ match attr_factor al be a with Some q => times q v v' | None => v' = v end
  | Assign (SetZrange z), Assign (SetZrange z') => ztimes al z z'
  | Read s, Read s' => s' = s
  | Apply p, Apply p' => p' = p
  | _, _ => False
  end.
(** what the operations of a history returned or raised *)
Fixpoint outcomes (c : cls) (h : list (op numeric)) (o : obj numeric) : list (res unit) :=
  match h with [] => [] | x :: h' => fst (exec numeric c x o) :: outcomes c h' (snd (exec numeric c x o)) end.
Lemma exec_units al be (Hal : (0 < al)%Q) (Hbe : (0 < be)%Q) c x x' o o' : op_units al be x x' -> osim al be o o' ->
  fst (exec numeric c x' o') = fst (exec numeric c x o) /\ osim al be (snd (exec numeric c x o)) (snd (exec numeric c x' o')).
Proof.
  intros Hx Ho. destruct x as [s|s|p], x' as [s'|s'|p']; try (destruct s; contradiction); try contradiction; cbn [exec].
  - assert (Hs : asg_units al be s s') by (destruct s, s'; exact Hx). destruct (csim_assign al be Hal Hbe c s s' Hs o o' Ho) as [R S]. apply rrel_eq in R. auto.
  - cbn in Hx. subst s'. destruct (csim_read al be Hal Hbe c s o o' Ho) as [R S]. destruct (read numeric c s o) as [[a|e] q], (read numeric c s o') as [[a'|e'] q']; cbn in *; try contradiction; split; congruence || auto.
  - cbn in Hx. subst p'. destruct c; [|auto]. destruct (csim_apply al be Hal Hbe p o o' Ho) as [R S]. apply rrel_eq in R. auto.
Qed.
Theorem C93_objects :
  forall (al be : Q) (c : cls) (d d' : pdict) (h h' : list (op numeric)), (0 < al)%Q -> (0 < be)%Q -> in_units al be d d' -> Forall2 (op_units al be) h h' ->
  match psf_object c d, psf_object c d' with
  | Ok o, Ok o' => outcomes c h' o' = outcomes c h o /\ forall s, fst (read numeric c s (run numeric c h' o')) = fst (read numeric c s (run numeric c h o))
  | Err e, Err e' => e' = e
  | _, _ => False
  end.
Proof.
  intros al be c d d' h h' Hal Hbe Hd Hh.
  assert (K : rrel (osim al be) (psf_object c d) (psf_object c d')).
  { unfold psf_object. apply (rrel_bind _ _ _ _ _ _ (ctor_for_units al be c d d' Hd)). intros k k' Hk. now apply construct_units. }
  destruct (psf_object c d) as [o|e], (psf_object c d') as [o'|e']; try exact K. cbn in K. revert o o' K. induction Hh as [|x x' h h' Hx Hh IH]; intros o o' Ho; cbn [outcomes run].
  - split; [reflexivity|]. intros s. destruct (csim_read al be Hal Hbe c s o o' Ho) as [R _]. now apply rrel_eq in R.
  - destruct (exec_units al be Hal Hbe c x x' o o' Hx Ho) as [E S]. destruct (IH _ _ S) as [I1 I2]. split; [congruence|exact I2].
Qed.
Print Assumptions C93_objects.

(** ** Microscopes *)
Definition same_images (r r' : res micro) : Prop :=
  match r, r' with
  | Ok m, Ok m' => fst (m_PSF m') = fst (m_PSF m) /\ fst (m_OTF m') = fst (m_OTF m)
  | Err e, Err e' => e' = e
  | _, _ => False
  end.
Lemma images_of al be (Hal : (0 < al)%Q) (Hbe : (0 < be)%Q) r r' : rrel (msim al be) r r' -> same_images r r'.
Proof.
  destruct r as [m|], r' as [m'|]; cbn; auto. intros Hm. destruct (ksim_PSF al be Hal Hbe m m' Hm) as [R1 _]. destruct (ksim_OTF al be Hal Hbe m m' Hm) as [R2 _]. apply rrel_eq in R1. apply rrel_eq in R2. auto.
Qed.
Theorem C93_microscopes :
  forall (al be : Q) (a a' : wargs), (0 < al)%Q -> (0 < be)%Q -> wide_units al be a a' ->
    same_images (WidefieldMicroscope a) (WidefieldMicroscope a') /\
    same_images (ApotomeMicroscope a) (ApotomeMicroscope a') /\
    (forall wl_exc wl_exc' pinhole, times (al * be) wl_exc wl_exc' -> same_images (ConfocalMicroscope a wl_exc pinhole) (ConfocalMicroscope a' wl_exc' pinhole)).
Proof.
  intros al be a a' Hal Hbe W. split; [|split].
  - apply (images_of al be Hal Hbe), make_units. now apply ksim_wide.
  - apply (images_of al be Hal Hbe), make_units. now apply ksim_wide.
  - intros w w' ph Hw. apply (images_of al be Hal Hbe), make_units. now apply ksim_confocal_init.
Qed.
Print Assumptions C93_microscopes.
(** [na] and [wl] are named parameters of __init__, so they are never among the remaining keyword arguments. *)
Definition no_named (kw : pdict) : Prop := dget kw "na" = None /\ dget kw "wl" = None.
Theorem C93_sim :
  forall (al be : Q) (a a' : wargs) (s s' : sargs), (0 < al)%Q -> (0 < be)%Q -> wide_units al be a a' -> sim_units al be s s' ->
    same_type (w_na a) (w_na a') -> same_type (w_wl a) (w_wl a') -> same_type (s_na_exc s) (s_na_exc s') -> same_type (s_wl_exc s) (s_wl_exc s') ->
    no_named (w_kwargs a) -> no_named (w_kwargs a') ->
    same_images (BaseSIMMicroscope a s) (BaseSIMMicroscope a' s').
Proof.
  intros al be a a' s s' Hal Hbe W Hs T1 T2 T3 T4 [K1 K2] [K3 K4]. apply (images_of al be Hal Hbe), make_units. now apply ksim_sim_init.
Qed.
Print Assumptions C93_sim.

(** ** Phase retrieval *)
(** A result in other units: the same pupil, errors and angles; the radial coordinates are frequencies. *)
Definition result_units (al be : Q) (r r' : result) : Prop :=
  r_mag r' = r_mag r /\ r_phase r' = r_phase r /\ r_mse r' = r_mse r /\ r_pupil_diff r' = r_pupil_diff r /\ r_mse_diff r' = r_mse_diff r /\
  r_theta r' = r_theta r /\ r_r r' = amap (fun k => / Q2R al * k) (r_r r) /\ r_na r' = Q2R be * r_na r /\ r_wl r' = Q2R al * Q2R be * r_wl r.
Section PR.
Context (al be : Q) (Hal : (0 < al)%Q) (Hbe : (0 < be)%Q).
Let Ral : 0 < Q2R al := Q2R_pos al Hal.
Let Rbe : 0 < Q2R be := Q2R_pos be Hbe.
Lemma defocus_units h h' : rescaled (Q2R al) (Q2R be) h h' -> calc_defocus h' = calc_defocus h.
Proof.
  intros Hr. unfold calc_defocus. pose proof Hr as (_ & _ & _ & _ & R5 & R6 & _). rewrite R5, R6, map_length. f_equal. apply functional_extensionality. intros [|z [|y [|x [|]]]]; try reflexivity. apply (defocus_scale (Q2R al) (Q2R be) h h' Ral Rbe Hr).
Qed.
Lemma kr_pupil_units h h' : rescaled (Q2R al) (Q2R be) h h' -> gen_kr_pupil h' = gen_kr_pupil h.
Proof.
  intros Hr. unfold gen_kr_pupil. rewrite (pupil_scale (Q2R al) (Q2R be) h h' Ral Rbe Hr). pose proof Hr as (R1 & _ & _ & R4 & R5 & _). rewrite R1, R4, R5. replace (IZR (h_size h) * (Q2R al * h_res h)) with (Q2R al * (IZR (h_size h) * h_res h)) by ring. rewrite (zero_scale (Q2R al) (IZR (h_size h) * h_res h)), (zero_scale (Q2R al * Q2R be) (h_wl h)) by nra. reflexivity.
Qed.
Lemma loop_units data mag mask pt mt po fuel : forall old np acc, csim al be same (pr_loop data mag mask pt mt po fuel old np acc) (pr_loop data mag mask pt mt po fuel old np acc).
Proof.
  induction fuel as [|fuel IH]; intros old np acc; cbn [pr_loop]; [now apply csim_ret|].
  apply (csim_bind al be same); [now apply csim_apply|]. intros _ _ _. apply (csim_bind al be same); [now apply csim_read|]. intros p p' ->. apply (csim_bind al be same); [apply csim_lift, rrel_refl|]. intros e e' ->. apply (csim_bind al be same); [apply csim_lift, rrel_refl|]. intros l l' ->.
  destruct (converged _ _ _); [now apply csim_ret|]. apply (csim_bind al be same); [now apply csim_read|]. intros q q' ->. apply (csim_bind al be same); [|intros n n' ->; apply IH].
  intros o o' Ho. cbn [fst snd]. split; [|exact Ho]. apply rrel_eq. destruct (params_units al be o o' Ho) as (_ & _ & Hr & _). unfold next_pupil. now rewrite (defocus_units _ _ Hr).
Qed.
Lemma result_of mag phase lines o o' : osim al be o o' -> result_units al be (mk_result mag phase lines o) (mk_result mag phase lines o').
Proof.
  intros Ho. destruct (params_units al be o o' Ho) as (_ & _ & Hr & _). pose proof Hr as (R1 & R2 & _ & _ & R5 & _). unfold result_units, mk_result. cbn [r_mag r_phase r_mse r_pupil_diff r_mse_diff r_theta r_r r_na r_wl]. do 5 (split; [reflexivity|]). split; [|split; [|auto]].
  - unfold h_t. rewrite R5. do 2 f_equal. apply functional_extensionality. intros [|y [|x [|]]]; try reflexivity. apply (phi_scale_h (Q2R al) (Q2R be) _ _ Ral Hr).
  - rewrite R5. unfold fftshift, amap. cbn [shape get]. f_equal. apply functional_extensionality. intros ix. destruct (shift_ix _ _ _ _) as [|y [|x [|]]]; try ring. apply (kr_scale_h (Q2R al) (Q2R be) _ _ Ral Hr).
Qed.
Lemma retrieve_units unwrap data params params' iters pt mt po : in_units al be params params' ->
  rrel (fun r r' => result_units al be r r' /\ osim al be (r_model r) (r_model r')) (fst (retrieve_phase unwrap data params iters pt mt po)) (fst (retrieve_phase unwrap data params' iters pt mt po)) /\
  in_units al be (snd (retrieve_phase unwrap data params iters pt mt po)) (snd (retrieve_phase unwrap data params' iters pt mt po)).
Proof.
  intros Hd. unfold retrieve_phase. destruct (negb _); [split; [reflexivity|exact Hd]|]. destruct (shape data) as [|nz [|ny [|nx rest]]]; try (split; [reflexivity|exact Hd]). destruct (negb _); [split; [reflexivity|exact Hd]|]. destruct rest; [|split; [reflexivity|exact Hd]].
  assert (F : in_units al be (forced nz nx params) (forced nz nx params')) by (unfold forced; repeat (apply dset_units; [|reflexivity]); exact Hd).
  cbv zeta. cbn [fst snd]. split; [|exact F]. change ctor_of with (ctor_for Hanser). apply (rrel_bind _ _ _ _ _ _ (ctor_for_units al be Hanser _ _ F)). intros k k' Hk. apply (rrel_bind _ _ _ _ _ _ (construct_units al be Hal Hbe Hanser k k' Hk)). intros o o' Ho.
  destruct (params_units al be o o' Ho) as (_ & _ & Hr & _). rewrite (kr_pupil_units _ _ Hr). destruct (gen_kr_pupil (hpar_of (obj_params o))) as [pu|]; [|reflexivity]. cbn [bind].
  destruct (loop_units data (amap psqrt data) (amap Re pu) pt mt po (Z.to_nat iters) None pu [] o o' Ho) as [R S]. destruct (pr_loop _ _ _ _ _ _ _ _ _ _ o) as [[[np lines]|e] o1], (pr_loop _ _ _ _ _ _ _ _ _ _ o') as [[[np' lines']|e'] o1']; cbn in R; try contradiction; [|exact R].
  cbn [snd] in S. injection R as -> ->. destruct (bop Rmult (unwrap _) _) as [ph|]; [|reflexivity]. cbn [bind]. destruct (bop Rmult (fftshift axes2 (amap Cmod np)) _) as [mg|]; [|reflexivity]. cbn [bind rrel]. split; [now apply result_of|exact S].
Qed.
Lemma generate_units pu size zs z z' o o' : match z, z' with Some z, Some z' => ztimes al z z' | None, None => True | _, _ => False end -> osim al be o o' -> generate pu size zs z' o' = generate pu size zs z o.
Proof.
  intros Hz Ho. unfold generate.
  match goal with |- (do psf <- fst (?c' o'); _) = (do psf <- fst (?c o); _) => assert (X : csim al be same c c') end.
  { apply (csim_bind al be same); [destruct zs; [apply (csim_assign al be Hal Hbe); split; reflexivity|now apply csim_ret]|]. intros _ _ _. apply (csim_bind al be same); [destruct z, z'; try contradiction; [now apply (csim_assign al be Hal Hbe)|now apply csim_ret]|]. intros _ _ _.
    apply (csim_bind al be same); [now apply csim_apply|]. intros _ _ _. apply (csim_read al be Hal Hbe Hanser PSFi). }
  destruct (X o o' Ho) as [R _]. apply rrel_eq in R. now rewrite R.
Qed.
Lemma fit_units lstsq r r' n : result_units al be r r' -> fit_to_zernikes lstsq r' n = fit_to_zernikes lstsq r n.
Proof.
  intros (E1 & E2 & _ & _ & _ & E6 & E7 & E8 & E9). unfold fit_to_zernikes. rewrite E1, E2, E6, E7, E8, E9.
  replace (amap (fun k => k / (Q2R be * r_na r / (Q2R al * Q2R be * r_wl r))) (amap (fun k => / Q2R al * k) (r_r r))) with (amap (fun k => k / (r_na r / r_wl r)) (r_r r)); [reflexivity|].
  unfold amap. cbn [shape get]. f_equal. apply functional_extensionality. intros ix. rewrite div_scale by lra. symmetry. apply ratio_scale. apply Rinv_neq_0_compat. lra.
Qed.
End PR.
(** Phase retrieval with the parameters in other units: the same exception, or the same pupil, errors and Zernike coefficients; PSFs
    generated from the result are the same (planes asked for in the new unit). *)
Theorem C93_phase_retrieval :
  forall (al be : Q) (unwrap : array R -> array R) (data : array R) (params params' : pdict) (max_iters : Z) (pupil_tol mse_tol : tol) (phase_only : bool),
    (0 < al)%Q -> (0 < be)%Q -> in_units al be params params' ->
    let run p := retrieve_phase unwrap data p max_iters pupil_tol mse_tol phase_only in
    in_units al be (snd (run params)) (snd (run params')) /\
    match fst (run params), fst (run params') with
    | Ok r, Ok r' =>
        result_units al be r r' /\
        (forall lstsq num_zerns, fit_to_zernikes lstsq r' num_zerns = fit_to_zernikes lstsq r num_zerns) /\
        (forall size zsize, generate_psf r' size zsize None = generate_psf r size zsize None) /\
        (forall size zsize z z', ztimes al z z' -> generate_psf r' size zsize (Some z') = generate_psf r size zsize (Some z)) /\
        (forall d sphase size zsize z z', ztimes al z z' -> generate_zd_psf r' d sphase size zsize (Some z') = generate_zd_psf r d sphase size zsize (Some z))
    | Err e, Err e' => e' = e
    | _, _ => False
    end.
Proof.
  intros al be unwrap data params params' iters pt mt po Hal Hbe Hd run0. unfold run0. destruct (retrieve_units al be Hal Hbe unwrap data params params' iters pt mt po Hd) as [R S]. split; [exact S|].
  destruct (fst (retrieve_phase unwrap data params iters pt mt po)) as [r|e], (fst (retrieve_phase unwrap data params' iters pt mt po)) as [r'|e']; try exact R. cbn in R. destruct R as [U O]. split; [exact U|]. split; [intros; now apply (fit_units al be Hal Hbe)|].
  pose proof U as (E1 & E2 & _). split; [|split].
  - intros size zsize. unfold generate_psf. rewrite E1, E2. destruct (complex_pupil _ _); [|reflexivity]. cbn [bind]. now apply (generate_units al be Hal Hbe).
  - intros size zsize z z' Hz. unfold generate_psf. rewrite E1, E2. destruct (complex_pupil _ _); [|reflexivity]. cbn [bind]. now apply (generate_units al be Hal Hbe).
  - intros d sphase size zsize z z' Hz. unfold generate_zd_psf. destruct (zd_complex_pupil _ _ _); [|reflexivity]. cbn [bind]. now apply (generate_units al be Hal Hbe).
Qed.
Print Assumptions C93_phase_retrieval.

(** ** Cases *)
(** micrometres to nanometres: the SIM microscope of T_SIM2.v *)
Definition a0_nm : wargs := mkWargs (VStr "Hanser") (qv 6 5) (qv 4 3) (qv 520 1) (VInt 64) (qv 100 1) (VInt 3) [("zsize"%string, KV (VInt 16))].
Example C93_case : wide_units 1000 1 a0 a0_nm /\ (exists m m', BaseSIMMicroscope a0 s0 = Ok m /\ BaseSIMMicroscope a0_nm s0 = Ok m' /\ fst (m_PSF m') = fst (m_PSF m) /\ exists img, fst (model_psf m) = Ok (img, true) /\ shape img = [16; 192; 192]%Z).
Proof.
  assert (W : wide_units 1000 1 a0 a0_nm). { unfold wide_units, a0, a0_nm, qv, times, ftimes, in_units. cbn [w_model w_na w_ni w_wl w_size w_pixel w_os w_kwargs M_Val.num]. repeat split; try (unfold Qeq; reflexivity). constructor; [split; reflexivity|constructor]. }
  split; [exact W|]. destruct a0_sim as [m Hm].
  assert (X : same_images (BaseSIMMicroscope a0 s0) (BaseSIMMicroscope a0_nm s0)).
  { apply (C93_sim 1000 1); try reflexivity; try (split; reflexivity); [exact W|]. unfold sim_units, s0, times, ftimes. cbn [s_na_exc s_wl_exc M_Val.num]. repeat split; unfold Qeq; reflexivity. }
  rewrite Hm in X. destruct (BaseSIMMicroscope a0_nm s0) as [m'|] eqn:E; [|contradiction]. exists m, m'. split; [exact Hm|]. split; [reflexivity|]. split; [apply X|]. destruct (a0_sim_image m Hm) as (img & p & E1 & E2 & _). exists img. auto.
Qed.
(** nanometres as ints to micrometres as floats, and twice the refractive index, aperture and wavelength: phase retrieval on [wdict] *)
Definition wdict_um : pdict :=
  [("wl", KV (qf 104 100)); ("na", KV (qf 12 5)); ("ni", KV (VInt 3)); ("res", KV (qf 9 100)); ("zres", KV (qf 1 10)); ("size", KV (VInt 5))]%string.
Example C93_phase_case : in_units (1 # 1000) 2 wdict wdict_um /\ usable wdata wdict 7 64 (wmade numeric).
Proof.
  split; [|exact usable_witness]. unfold in_units, wdict, wdict_um. repeat (constructor; [split; [reflexivity|]; cbn [fst snd factor String.eqb Ascii.eqb Bool.eqb ktimes]; try reflexivity|]). constructor.
Qed.
