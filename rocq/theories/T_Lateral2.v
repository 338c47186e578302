(** C111: SheppardPSF's images have a lateral cut-off as well: twice the reach of the imaging cap of its shell.  Its light is the energy of the OTF. *)
From Verif Require Import S_FFT S_Hanser S_Shell S_Micro S_Confocal S_Bin L_Sum L_Bin L_PSF L_Ctor L_Phase5 L_Micro T_PSF T_PSF2 T_Bin L_Array L_FFT L_FFT2 T_FFT L_Phase2 L_Polar T_Hanser T_Object T_Micro T_Micro2 T_Micro3 L_Micro2 T_Micro4 T_Micro5 L_Hanser L_Hanser2 L_Sheppard L_Sheppard2 L_Sheppard3 T_Sheppard L_Band L_Lateral L_ShellCap T_Lateral.
Import M_Array.
Local Open Scope R_scope.

Lemma na_below p A : s_physical p -> M_Sheppard.gen_otf p = Ok A -> s_na p <= s_ni p.
Proof. intros Hp HA. destruct (Rle_lt_dec (s_na p) (s_ni p)) as [|N]; [assumption|]. rewrite (proj1 (C39_rejection p Hp) N) in HA. discriminate. Qed.

(** The amplitudes vanish from the reach on ... *)
Theorem C111_amplitudes : forall (p : spar) (A : array (option C)) (c kz ky kx : Z),
  s_physical p -> M_Sheppard.gen_otf p = Ok A -> on_ix p kz ky kx ->
  cap_reach p <= lateral (s_size p) ky kx (s_res p) -> get A [c; kz; ky; kx] = Some (RtoC 0).
Proof.
  intros p A c kz ky kx Hp HA (Hz & Hy & Hx) HL. pose proof (na_below p A Hp HA) as Ha. rewrite (gen_otf_inv p Hp A HA).
  destruct (shell_zero p Hp c kz ky kx Ha Hz Hy Hx) as [E|E]; [exact E|]. exfalso.
  change (sqrt (cap2 p) <= sqrt (sfl p ky ^ 2 + sfl p kx ^ 2)) in HL. apply sqrt_le_0 in HL; [lra|now apply cap2_ge0|nra].
Qed.
Print Assumptions C111_amplitudes.
(** ... and the reach is na/wl up to the pixel of the frequency grid. *)
Theorem C111_reach : forall (p : spar), s_physical p -> s_na p <= s_ni p ->
  s_na p / s_wl p <= cap_reach p <= s_na p / s_wl p + sqrt (2 * Rmax (pl p) (pz p) * (s_ni p / s_wl p)).
Proof.
  intros p Hp Ha. destruct (cone_square p Hp Ha) as [_ [C0 C1]]. pose proof (pl_pos p Hp) as P1. pose proof (Rmax_l (pl p) (pz p)) as P2.
  assert (Q : 0 <= s_na p / s_wl p). { destruct Hp as (Pw & Pa & _). unfold Rdiv. pose proof (Rinv_0_lt_compat _ Pw). nra. }
  unfold cap_reach. set (q := s_na p / s_wl p) in *. set (k := s_ni p / s_wl p) in *. set (M := Rmax (pl p) (pz p)) in *.
  assert (T0 : 0 <= 2 * M * (k - cone p)) by nra. assert (T1 : 2 * M * (k - cone p) <= 2 * M * k) by nra. split.
  - rewrite <- (sqrt_pow2 q) at 1 by exact Q. apply sqrt_le_1_alt. lra.
  - set (t := sqrt (2 * M * k)). assert (Ht : 0 <= t) by apply sqrt_pos. assert (Et : t ^ 2 = 2 * M * k) by (apply pow2_sqrt; lra).
    rewrite <- (sqrt_pow2 (q + t)) by lra. apply sqrt_le_1_alt. nra.
Qed.
Print Assumptions C111_reach.

(** The light of the PSF is the energy of the OTF over the number of points of the grid; for the scalar model, the number of points in the band. *)
Theorem C111_light : forall (p : spar) (A : array (option C)), s_physical p -> M_Sheppard.gen_otf p = Ok A -> all_numbers A ->
  psf_light p A = otf_energy A / IZR (s_zsize p * (s_size p * s_size p)) /\
  (forall c kz ky kx, (0 <= c < components (s_vec p))%Z -> on_ix p kz ky kx -> get A [c; kz; ky; kx] <> Some (RtoC 0) -> 0 < psf_light p A).
Proof.
  intros p A Hp HA Hf. pose proof (shell_energy p Hp A HA Hf) as E. split; [exact E|]. intros c kz ky kx Hc (Hz & Hy & Hx) N. rewrite E.
  destruct (sizes_pos p Hp) as [Hn Hnz]. apply Rdiv_lt_0_compat; [|apply IZR_lt; nia]. unfold otf_energy.
  destruct (C30_sheppard_shape_sign p A Hp HA) as (HS & _).
  assert (Hi : inb (shape A) [c; kz; ky; kx]) by (rewrite HS; apply inb_cons; split; [exact Hc|now apply inb3]).
  apply (Rsum_pos _ _ [c; kz; ky; kx]); [|now apply in_all_ix|].
  - intros ix _. destruct (get A ix); [apply pow2_ge_0|lra].
  - specialize (Hf _ Hi). destruct (get A [c; kz; ky; kx]) as [v|]; [|congruence]. apply pow_lt. apply Cmod_gt_0. intros ->. congruence.
Qed.
Print Assumptions C111_light.

(** ** cut-off of transforms of plane-wise band-limited images *)
Lemma cut_off_planes r nz n px L : (0 < n)%Z -> 0 < px -> shape r = [nz; n; n] ->
  (forall z y x, inb [nz; n; n] [z; y; x] -> get r [z; y; x] <> None) ->
  (forall z, (0 <= z < nz)%Z -> BL n (L * (IZR n * px)) (fun y x => RtoC (Re (cval (option_map RtoC (get r [z; y; x])))))) ->
  cut_off (o_fft (amap (option_map RtoC) r)) nz n px L.
Proof.
  intros Hn Px Hs Hv HB kz ky kx Hi HL. destruct (inb3_inv _ _ _ _ Hi) as (a & b & c & [= <- <- <-] & Qz & Qy & Qx).
  assert (Pf : 0 < IZR n * px) by (apply Rmult_lt_0_compat; [now apply IZR_lt|exact Px]).
  set (B := amap (option_map RtoC) r). assert (Fin : finite_all B = true).
  { unfold finite_all. apply forallb_forall. intros ix Hix. apply in_all_ix in Hix. unfold B in *. cbn [amap get shape] in *. rewrite Hs in Hix. destruct (inb3_inv _ _ _ _ Hix) as (z & y & x & -> & _). specialize (Hv z y x Hix). destruct (get r [z; y; x]); [reflexivity|congruence]. }
  unfold o_fft. cbn [get]. rewrite Fin. f_equal. assert (Sh : shape (amap cval B) = [nz; n; n]) by exact Hs.
  rewrite easy_fft_mop; rewrite Sh; [|exact Hi]. cbn [axes_mask List.length repeat]. rewrite mop3. apply Csum_zero. intros z Hz. apply in_zseq in Hz.
  rewrite (mop_ext _ _ _ _ (fun ix => match ix with [y; x] => RtoC (Re (cval (option_map RtoC (get r [z; y; x])))) | _ => RtoC 0 end)); [|now apply inb2|].
  2:{ intros ix H2. destruct (inb2_inv _ _ _ H2) as (y & x & -> & Hy & Hx). unfold B. cbn [amap get]. destruct (get r [z; y; x]); reflexivity. }
  rewrite (BL_zero n (L * (IZR n * px)) (fun y x => RtoC (Re (cval (option_map RtoC (get r [z; y; x])))))); [ring|exact Hn|now apply HB|exact Qy|exact Qx|].
  rewrite <- (lateral_mod n ky kx px) by exact Pf. apply Rmult_le_compat_r; lra.
Qed.

(** A SheppardPSF object, whatever was done to it before: its OTFi is zero from twice the reach on. *)
Theorem C111_objects : forall (k : ctor) (o0 : obj numeric) (hist : list (op numeric)) (A : array (option C)),
  construct numeric Sheppard k = Ok o0 ->
  let o := run numeric Sheppard hist o0 in
  let p := spar_of (obj_params o) in
  s_physical p -> M_Sheppard.gen_otf p = Ok A -> all_numbers A ->
  exists otf, fst (read numeric Sheppard OTFi o) = Ok otf /\ shape otf = [s_zsize p; s_size p; s_size p] /\
    cut_off otf (s_zsize p) (s_size p) (s_res p) (2 * cap_reach p).
Proof.
  intros k o0 hist A Hk o p Hp HA Hf. destruct (C73_sheppard_objects k o0 hist A Hk HA) as (_ & _ & _ & E). fold o in E.
  destruct (C30_sheppard_shape_sign p A Hp HA) as (_ & _ & S & _). eexists. split; [exact E|]. split; [exact S|].
  destruct (sizes_pos p Hp) as [Hn _]. apply (cut_off_planes (s_psfi (s_psfa A))); [exact Hn|apply Hp|exact S| |].
  - intros z y x Hi. pose proof (gen_otf_inv p Hp A HA) as EA. pose proof (otf_shape p) as HS. rewrite <- EA in HS. pose proof Hf as Hf'. unfold all_numbers in Hf'. rewrite HS in Hf'.
    rewrite (proj2 (psf_finite p A HS Hf')) by exact Hi. discriminate.
  - intros z Hz. apply (BL_shell_intensity p Hp A z HA); [now apply (na_below p A)|exact Hz|exact Hf].
Qed.
Print Assumptions C111_objects.

(** The widefield microscope of a Sheppard model. *)
Theorem C111_widefield : forall a m px A,
  kwargs_ok a -> WidefieldMicroscope a = Ok m -> mi_cls m = Sheppard -> finite_number (Some (w_pixel a)) px ->
  let p := spar_of (obj_params (mi_model m)) in
  s_physical p -> M_Sheppard.gen_otf p = Ok A -> all_numbers A ->
  (exists c kz ky kx, (0 <= c < components (s_vec p))%Z /\ on_ix p kz ky kx /\ get A [c; kz; ky; kx] <> Some (RtoC 0)) ->
  exists n otf, int_value (w_size a) = Some n /\ fst (m_OTF m) = Ok otf /\ shape otf = [s_zsize p; n; n] /\
    cut_off otf (s_zsize p) n px (2 * cap_reach p).
Proof.
  intros a m px A Hk Hm Hc Fp p Hp HA Hf (c & kz & ky & kx & Qc & Qk & N). pose proof (built_wide a m Hm) as Hb.
  destruct (built_wide_result a m Hb) as (k & f0 & q0 & c0 & kk & o & _ & _ & _ & _ & _ & _ & _ & Eo & Hc' & _ & _ & Hmod & _). rewrite Hc in Hc'. subst c0.
  destruct (C73_sheppard_objects kk o [] A Eo) as (_ & _ & E & _). { cbn [run]. rewrite <- Hmod. exact HA. } cbn [run] in E. rewrite <- Hmod, <- Hc in E.
  destruct (C30_sheppard_shape_sign p A Hp HA) as (_ & _ & S & _). destruct (sizes_pos p Hp) as [Hn0 Hnz].
  pose proof (gen_otf_inv p Hp A HA) as EA. pose proof (otf_shape p) as HS. rewrite <- EA in HS. pose proof Hf as Hf'. unfold all_numbers in Hf'. rewrite HS in Hf'. pose proof (proj2 (psf_finite p A HS Hf')) as V. clear Hf'.
  set (B := amap ocplx (s_psfi (s_psfa A))) in *.
  assert (Fin : finite_all B = true).
  { unfold finite_all. apply forallb_forall. intros ix Hix. apply in_all_ix in Hix. unfold B in *. cbn [amap get shape] in *. rewrite S in Hix. rewrite V by exact Hix. reflexivity. }
  destruct (C55_widefield a m B Hk Hm E Fin) as (nz' & n & f & Hn & Hf1 & HSB & _ & X). cbv zeta in X.
  unfold B in HSB. cbn [amap shape] in HSB. rewrite S in HSB. injection HSB as Z1' Z2' _. assert (Z1 : s_zsize p = nz') by exact Z1'. assert (Z2 : s_size p = (n * f)%Z) by exact Z2'. clear Z1' Z2'. subst nz'.
  assert (SB : shape B = [s_zsize p; n * f; n * f]%Z) by (unfold B; cbn [amap shape]; rewrite S, Z2; reflexivity).
  assert (Li : Rsum (all_ix (shape B)) (get (amap (fun v => Re (cval v)) B)) = psf_light p A).
  { unfold psf_light. rewrite SB, Z2. apply Rsum_ext. intros ix _. unfold B. cbn [amap get]. destruct (get (s_psfi (s_psfa A)) ix); reflexivity. }
  rewrite Li in X. destruct X as (r & EP & Sr & Gr & _).
  { apply Rgt_not_eq. exact (proj2 (C111_light p A Hp HA Hf) c kz ky kx Qc Qk N). }
  exists n, (o_fft (amap (option_map RtoC) r)). split; [exact Hn|]. split.
  { destruct (C57_snapshot m [] (ex_intro _ a Hb)) as [E1 E2]. cbn [mrun snapshot] in E1, E2. rewrite E2, <- E1, EP. reflexivity. }
  split; [exact Sr|]. destruct (C54_geometry a m Hk Hb) as (f' & n' & Hf2 & Pf & _ & _ & _ & _ & Rs & _).
  assert (f' = f) by congruence. subst f'.
  assert (Er : s_res p * IZR f = px).
  { destruct Fp as (v1 & q1 & E1 & N1 & R1). injection E1 as <-. destruct (Rs q1 N1) as (v & q' & Ev & Nv & Qv). unfold p, spar_of, obj_params. cbn [s_res p_res]. rewrite Ev. cbn [val_R]. unfold num_or_nan. rewrite Nv. cbn.
    rewrite R1. apply Qreals.Qeq_eqR in Qv. rewrite Qv. assert (Nf : ~ (inject_Z f == 0)%Q) by (intros Z; unfold Qeq in Z; cbn in Z; lia).
    unfold Qdiv. rewrite Qreals.Q2R_mult, Qreals.Q2R_inv by exact Nf. assert (If : Q2R (inject_Z f) = IZR f) by (unfold Q2R, inject_Z; cbn; lra). rewrite If. field. apply not_0_IZR. lia. }
  assert (Pr : 0 < s_res p) by apply Hp.
  apply (cut_off_fine (amap (fun v => Re (cval v)) B) r (s_zsize p) n f _ px _) with (4 := Sr) (6 := Gr); [nia|exact Pf| |].
  - rewrite <- Er. apply Rmult_lt_0_compat; [exact Pr|now apply IZR_lt].
  - intros z Hz. rewrite <- (field_eq n f _ _ Er), <- Z2. apply (BL_ext (s_size p) _ (fun y x => RtoC (Re (cval (option_map RtoC (get (s_psfi (s_psfa A)) [z; y; x])))))); [reflexivity|].
    apply (BL_shell_intensity p Hp A z HA); [now apply (na_below p A)|exact Hz|exact Hf].
Qed.
Print Assumptions C111_widefield.

(** ** Witness: the 4 x 4 x 32 grid of 100 nm, na 1, ni 4/3, wl 500; two lateral pixels of the corner lie beyond the cut-off. *)
Local Open Scope string_scope.
Local Open Scope R_scope.
Definition a1 : wargs := mkWargs (VStr "Sheppard") (VInt 1) (qv 4 3) (VInt 500) (VInt 4) (VInt 100) (VInt 1) [("zsize", KV (VInt 32))].
Lemma a1_kwargs : kwargs_ok a1.
Proof. split; [repeat constructor; intros []|]. intros k H. cbn in H |- *. destruct (String.eqb_spec k "zsize") as [->|]; [|reflexivity]. repeat (destruct H as [H|H]; [discriminate|]). destruct H. Qed.
Definition a1_ctor : ctor := model_ctor Sheppard a1 (VInt 4) (VInt 100) None.
Definition a1_params : params := Eval vm_compute in match construct toy Sheppard a1_ctor with Ok o => obj_params o | Err _ => obj_params (empty_obj toy) end.
Lemma a1_made (E : engine) : exists o, construct E Sheppard a1_ctor = Ok o /\ obj_params o = a1_params.
Proof. eexists. split; vm_compute; reflexivity. Qed.
Lemma a1_built : exists m, WidefieldMicroscope a1 = Ok m /\ mi_cls m = Sheppard /\ obj_params (mi_model m) = a1_params.
Proof.
  destruct (a1_made numeric) as (o & Ho & Po). unfold WidefieldMicroscope, make. rewrite wide_eq. cbn [a1 w_os int_value]. change (1 <? 0)%Z with false. change (Z.even 1) with false. cbv zeta iota.
  change (fine_pair a1 1) with (@Ok (pyval * pyval) (VInt 4, VInt 100)). cbn [bind]. change (choose_model (w_model a1)) with (@Ok cls Sheppard). cbn [bind fst snd].
  rewrite ctor_for_eq; [|apply a1_kwargs|intros k [<-|[]]; cbn; tauto]. cbn [bind]. change (model_ctor Sheppard a1 (VInt 4) (VInt 100) None) with a1_ctor. rewrite Ho. cbn [bind].
  eexists. split; [reflexivity|]. split; [reflexivity|exact Po].
Qed.
Lemma a1_spar : exists c, spar_of a1_params = sdemo VecNone c false.
Proof.
  eexists. unfold sdemo, spar_of. cbn [a1_params p_wl p_na p_ni p_res p_size p_zres p_zsize p_vec_corr p_condition p_dual]. f_equal; try (cbn; unfold Q2R; cbn; lra); reflexivity.
Qed.
Lemma sdemo_reach c : cap_reach (sdemo VecNone c false) <= 3 / 1000.
Proof.
  set (p := sdemo VecNone c false). assert (C0 : 17 / 10000 <= cone p).
  { unfold cone, p, sdemo. cbn [s_ni s_wl s_na]. rewrite <- (sqrt_pow2 (17 / 10000)) by lra. apply sqrt_le_1_alt. lra. }
  assert (P1 : pl p = 1 / 400) by (unfold pl, pitch, p; cbn; lra). assert (P2 : pz p = 1 / 3200) by (unfold pz, pitch, p; cbn; lra).
  unfold cap_reach. rewrite P1, P2. assert (Hm : Rmax (1 / 400) (1 / 3200) = 1 / 400) by (apply Rmax_left; lra). rewrite Hm.
  change (s_na p) with 1. change (s_wl p) with 500. change (s_ni p) with (4 / 3). rewrite <- (sqrt_pow2 (3 / 1000)) by lra. apply sqrt_le_1_alt. lra.
Qed.
Example C111_witness : exists m otf, WidefieldMicroscope a1 = Ok m /\ fst (m_OTF m) = Ok otf /\ shape otf = [32; 4; 4]%Z /\ get otf [3; 0; 0]%Z = Some (RtoC 0).
Proof.
  destruct a1_built as (m & Hm & Hc & Hp). destruct a1_spar as (c & Hs). pose proof (sdemo_physical VecNone c false) as Ph.
  destruct (C39_rejection _ Ph) as [_ H]. destruct H as [A HA]; [cbn; lra|].
  assert (N3 : finite_number (Some (w_pixel a1)) 100) by (eexists; exists 100%Q; split; [reflexivity|split; [reflexivity|unfold Q2R; cbn; lra]]).
  assert (F : all_numbers A) by exact (proj1 (C38_single_shell_finite _ A Ph HA eq_refl)).
  pose proof (C111_widefield a1 m 100 A a1_kwargs Hm Hc N3) as X. cbv zeta in X. rewrite Hp, Hs in X.
  destruct (X Ph HA F) as (n & otf & Hn & E & S & K).
  - exists 0%Z, 24%Z, 2%Z, 2%Z. split; [cbn; lia|]. split; [unfold on_ix; cbn; lia|].
    rewrite (gen_otf_inv _ Ph A HA), otf_get. change (un _ 24) with 8%Z. change (un _ 2) with 0%Z. destruct (sdemo_valid VecNone c false) as [-> _].
    cbn. intros Q. injection Q as Q. lra.
  - cbn in Hn. injection Hn as <-. exists m, otf. split; [exact Hm|]. split; [exact E|]. split; [exact S|]. apply K; [cbn [s_zsize sdemo]; apply inb3; lia|].
    pose proof (sdemo_reach c). apply Rle_trans with (6 / 1000); [lra|]. unfold lateral. rewrite <- (sqrt_pow2 (6 / 1000)) by lra. apply sqrt_le_1_alt. change (0 - 4 / 2)%Z with (-2)%Z. field_simplify. lra.
Qed.
Example C111_objects_case : exists o0 A otf, construct numeric Sheppard a1_ctor = Ok o0 /\
  M_Sheppard.gen_otf (spar_of (obj_params o0)) = Ok A /\ all_numbers A /\ psf_light (spar_of (obj_params o0)) A = otf_energy A / 512 /\ 0 < otf_energy A /\
  fst (read numeric Sheppard OTFi o0) = Ok otf /\ get otf [3; 0; 0]%Z = Some (RtoC 0).
Proof.
  destruct (a1_made numeric) as (o0 & Ho & Po). destruct a1_spar as (c & Hs). pose proof (sdemo_physical VecNone c false) as Ph.
  destruct (C39_rejection _ Ph) as [_ H]. destruct H as [A HA]; [cbn; lra|].
  assert (F : all_numbers A) by exact (proj1 (C38_single_shell_finite _ A Ph HA eq_refl)).
  pose proof (C111_objects a1_ctor o0 [] A Ho) as X. cbv zeta in X. cbn [run] in X. rewrite Po, Hs in X. destruct (X Ph HA F) as (otf & E & S & K).
  exists o0, A, otf. rewrite Po, Hs. destruct (C111_light _ A Ph HA F) as [L1 L2].
  assert (D : 0 < psf_light (sdemo VecNone c false) A).
  { apply (L2 0%Z 24%Z 2%Z 2%Z); [cbn; lia|unfold on_ix; cbn; lia|]. rewrite (gen_otf_inv _ Ph A HA), otf_get. change (un _ 24) with 8%Z. change (un _ 2) with 0%Z. destruct (sdemo_valid VecNone c false) as [-> _].
    cbn. intros Q. injection Q as Q. lra. }
  change (s_zsize _ * (s_size _ * s_size _))%Z with 512%Z in L1. split; [exact Ho|]. split; [exact HA|]. split; [exact F|]. split; [exact L1|]. split; [rewrite L1 in D; lra|].
  split; [exact E|]. apply K; [cbn [s_zsize sdemo]; apply inb3; cbn; lia|].
  pose proof (sdemo_reach c). apply Rle_trans with (6 / 1000); [lra|]. change (s_size _) with 4%Z. change (s_res _) with 100. unfold lateral. rewrite <- (sqrt_pow2 (6 / 1000)) by lra. apply sqrt_le_1_alt. change (0 - 4 / 2)%Z with (-2)%Z. field_simplify. lra.
Qed.
