(** C113, the missing cone of widefield microscopes with a Sheppard model. *)
From Verif Require Import S_FFT S_Hanser S_Shell S_Micro S_Confocal S_Bin S_AxialBand S_Pixel L_Sum L_Bin L_PSF L_Ctor L_Phase5 L_Micro T_PSF T_PSF2 T_Bin L_Array L_FFT L_FFT2 T_FFT L_Phase2 L_Polar T_Hanser T_Object T_Micro T_Micro2 T_Micro3 L_Micro2 T_Micro4 T_Micro5 T_Confocal T_Confocal2 L_Hanser L_Hanser2 L_Hanser3 L_Sheppard L_Sheppard2 L_Sheppard3 T_Sheppard L_Band L_Lateral L_ShellCap L_Pixel T_Lateral T_Lateral2 T_Pixel L_AxialBand L_Auto3 T_Auto T_AxialBand T_AxialBand2.
Import M_Array.
Local Open Scope R_scope.

(** the pixel's transfer function vanishes at the aliases of the centre *)
Lemma transfer_alias n f j : (0 < n)%Z -> (0 < f)%Z -> (j mod f <> 0)%Z -> pixel_transfer f (n * f) (j * n) = 0.
Proof.
  intros Hn Hf Hj. pose proof (cen_sum f Hf j) as E. destruct (Z.eqb_spec (j mod f) 0) as [|_]; [contradiction|].
  apply (f_equal Re) in E. rewrite Csum_Re in E. unfold pixel_transfer, offsets. rewrite Rsum_map. etransitivity; [|exact E]. apply Rsum_ext. intros y _.
  unfold root, cis. cbn [Re fst]. f_equal. f_equal. rewrite !mult_IZR. field. split; apply not_0_IZR; lia.
Qed.
Lemma centre_alias n f K : (0 < n)%Z -> (0 < f)%Z -> In K (aliases n f (n / 2)) -> K <> (n * f / 2)%Z -> pixel_transfer f (n * f) (K - n * f / 2) = 0.
Proof.
  intros Hn Hf HK NK. destruct (C110_aliases n f (n / 2) Hn Hf) as (_ & _ & D & _). apply D in HK as [HK [j Hj]]. rewrite Z.sub_diag, Z.add_0_l in Hj. rewrite Hj.
  apply transfer_alias; [exact Hn|exact Hf|]. intros E. apply Z.mod_divide in E as [t ->]; [|lia].
  assert (t = 0)%Z. { assert (P : (0 < n * f)%Z) by nia. pose proof (Z.div_mod (n * f) 2 ltac:(lia)). pose proof (Z.mod_pos_bound (n * f) 2 ltac:(lia)). set (N := (n * f)%Z) in *. replace (t * f * n)%Z with (t * N)%Z in Hj by (unfold N; ring). nia. }
  subst t. lia.
Qed.
(** the lateral centre of a binned image's spectrum is that of the fine image's *)
Lemma centre_binned (r : array (option R)) (q : array R) nz n f light kz : (0 < n)%Z -> (0 < f)%Z -> Z.even f = false ->
  shape r = [nz; n; n] -> shape q = [nz; n * f; n * f]%Z ->
  (forall z y x, inb [nz; n; n] [z; y; x] -> get r [z; y; x] = Some (collected q n f z y x / light)) -> (0 <= kz < nz)%Z -> light <> 0 ->
  get (o_fft (amap (option_map RtoC) r)) [kz; n / 2; n / 2]%Z = Some (RtoC (/ light) *c get (otfi_of q) [kz; n * f / 2; n * f / 2]%Z).
Proof.
  intros Hn Hf Ho Hs Hq Hv Hz Hl. assert (Cn : (0 <= n / 2 < n)%Z) by (split; [apply Z.div_pos; lia|apply Z.div_lt; lia]).
  rewrite (otf_binned r q nz n f light Hn Hf Ho Hs Hq Hv kz (n / 2) (n / 2)) by (now apply inb3). cbv zeta. f_equal.
  destruct (C110_aliases n f (n / 2) Hn Hf) as (ND & _ & _ & C0). pose proof (C0 Cn) as C1. rewrite Z.sub_diag, Z.add_0_r in C1.
  assert (T0 : pixel_transfer f (n * f) (n * f / 2 - n * f / 2) = IZR f) by (rewrite Z.sub_diag; apply (C110_pixel_transfer f (n * f) 0 Hf)).
  rewrite (Csum_single _ _ (n * f / 2)%Z ND C1).
  - rewrite (Csum_single _ _ (n * f / 2)%Z ND C1).
    + rewrite T0, Cmult_assoc, <- RtoC_mult. f_equal. f_equal. field. split; [exact Hl|apply not_0_IZR; lia].
    + intros K HK NK. rewrite (centre_alias n f K Hn Hf HK NK), Rmult_0_r. ring.
  - intros K HK NK. apply Csum_zero. intros K' _. rewrite (centre_alias n f K Hn Hf HK NK), Rmult_0_l. ring.
Qed.

(** On the optical axis of the spectrum the widefield OTF is the model's, whatever the oversampling; with one cap it is exactly zero at every
    axial frequency but those within the shell's own thickness of 0: nothing there distinguishes one plane of a stack from another. *)
Theorem C113_missing_cone : forall a m A,
  kwargs_ok a -> WidefieldMicroscope a = Ok m -> mi_cls m = Sheppard ->
  let p := spar_of (obj_params (mi_model m)) in
  s_physical p -> M_Sheppard.gen_otf p = Ok A -> all_numbers A -> (exists l, lit_plane p A l) ->
  exists n otf, int_value (w_size a) = Some n /\ fst (m_OTF m) = Ok otf /\ shape otf = [s_zsize p; n; n] /\
    (forall kz, (0 <= kz < s_zsize p)%Z -> forall v, get (o_fft (amap ocplx (s_psfi (s_psfa A)))) [kz; s_size p / 2; s_size p / 2]%Z = Some v ->
      get otf [kz; n / 2; n / 2]%Z = Some (RtoC (/ psf_light p A) *c v)) /\
    (s_dual p = false -> s_na p < s_ni p -> forall kz, (0 <= kz < s_zsize p)%Z ->
      2 * Rmax (pl p) (pz p) * (s_ni p / s_wl p + Rmax (pl p) (pz p)) / cone p <= Rabs (sfz p kz) -> get otf [kz; n / 2; n / 2]%Z = Some (RtoC 0)).
Proof.
  intros a m A Hk Hm Hc p Hp HA Hf (l0 & Qz & c & ky & kx & Qc & Qk & N). pose proof (built_wide a m Hm) as Hb.
  destruct (built_wide_result a m Hb) as (k & f0 & q0 & c0 & kk & o & _ & _ & _ & _ & _ & _ & _ & Eo & Hc' & _ & _ & Hmod & _). rewrite Hc in Hc'. subst c0.
  destruct (C73_sheppard_objects kk o [] A Eo) as (_ & _ & E & _). { cbn [run]. rewrite <- Hmod. exact HA. } cbn [run] in E. rewrite <- Hmod, <- Hc in E.
  destruct (C30_sheppard_shape_sign p A Hp HA) as (_ & _ & S & _). destruct (sizes_pos p Hp) as [Hn0 Hnz].
  pose proof (gen_otf_inv p Hp A HA) as EA. pose proof (otf_shape p) as HS. rewrite <- EA in HS. pose proof Hf as Hf'. unfold all_numbers in Hf'. rewrite HS in Hf'. pose proof (proj2 (psf_finite p A HS Hf')) as V. clear Hf'.
  set (B := amap ocplx (s_psfi (s_psfa A))) in *.
  assert (Fin : finite_all B = true).
  { unfold finite_all. apply forallb_forall. intros ix Hix. apply in_all_ix in Hix. unfold B in *. cbn [amap get shape] in *. rewrite S in Hix. rewrite V by exact Hix. reflexivity. }
  destruct (C55_widefield a m B Hk Hm E Fin) as (nz' & n & f & Hn & Hf1 & HSB & _ & X). cbv zeta in X.
  unfold B in HSB. cbn [amap shape] in HSB. rewrite S in HSB. injection HSB as Z1' Z2' _. assert (Z1 : s_zsize p = nz') by exact Z1'. assert (Z2 : s_size p = (n * f)%Z) by exact Z2'. clear Z1' Z2'. subst nz'.
  assert (SB : shape B = [s_zsize p; n * f; n * f]%Z) by (unfold B; cbn [amap shape]; rewrite S, Z2; reflexivity).
  set (fine := amap (fun v => Re (cval v)) B) in *.
  assert (Li : Rsum (all_ix (shape B)) (get fine) = psf_light p A).
  { unfold psf_light. rewrite SB, Z2. apply Rsum_ext. intros ix _. unfold fine, B. cbn [amap get]. destruct (get (s_psfi (s_psfa A)) ix); reflexivity. }
  pose proof (proj2 (C111_light p A Hp HA Hf) c l0 ky kx Qc Qk N) as Pl.
  rewrite Li in X. destruct X as (r & EP & Sr & Gr & _); [lra|].
  assert (Eotf : fst (m_OTF m) = Ok (o_fft (amap (option_map RtoC) r))).
  { destruct (C57_snapshot m [] (ex_intro _ a Hb)) as [E1 E2]. cbn [mrun snapshot] in E1, E2. rewrite E2, <- E1, EP. reflexivity. }
  destruct (C54_geometry a m Hk Hb) as (f' & n' & Hf2 & Pf & Of & _). assert (f' = f) by congruence. subst f'.
  assert (G : forall kz, (0 <= kz < s_zsize p)%Z -> forall v, get (o_fft B) [kz; s_size p / 2; s_size p / 2]%Z = Some v -> get (o_fft (amap (option_map RtoC) r)) [kz; n / 2; n / 2]%Z = Some (RtoC (/ psf_light p A) *c v)).
  { intros kz Hz v Ev. rewrite (centre_binned r fine (s_zsize p) n f (psf_light p A) kz); [|nia|exact Pf|exact Of|exact Sr|exact SB|exact Gr|exact Hz|lra]. f_equal. f_equal.
    unfold o_fft in Ev. rewrite Fin in Ev. cbn [get] in Ev. apply (f_equal cval) in Ev. cbn [cval] in Ev. rewrite <- Ev. rewrite ?Z2. unfold otfi_of, complexify.
    assert (HN : (0 < n * f)%Z) by lia. assert (Ic : inb (shape (amap cval B)) [kz; n * f / 2; n * f / 2]%Z).
    { cbn [amap shape]. rewrite SB. apply inb3; [exact Hz|split; [apply Z.div_pos; lia|apply Z.div_lt; lia]..]. }
    rewrite !easy_fft_mop by exact Ic. cbn [amap shape get]. apply mop_ext; [exact Ic|]. intros ix Hix. unfold fine. cbn [amap shape get] in *. rewrite SB, <- Z2 in Hix. unfold B. cbn [amap get]. rewrite V by exact Hix. reflexivity. }
  exists n, (o_fft (amap (option_map RtoC) r)). split; [exact Hn|]. split; [exact Eotf|]. split; [exact Sr|]. split; [exact G|].
  intros Hd Hni kz Hz HB. rewrite (G kz Hz (RtoC 0)); [f_equal; ring|]. exact (C112_missing_cone p A kz Hp Hd Hni HA Hf Hz HB).
Qed.
Print Assumptions C113_missing_cone.

(** ** Witness: 128 x 128 x 128 voxels of 100 nm; four axial pixels from the centre lie in the missing cone, well inside the axial cut-off. *)
Local Open Scope string_scope.
Local Open Scope R_scope.
Definition a3 : wargs := mkWargs (VStr "Sheppard") (VInt 1) (qv 4 3) (VInt 500) (VInt 128) (VInt 100) (VInt 1) [("zsize", KV (VInt 128))].
Lemma a3_kwargs : kwargs_ok a3.
Proof. split; [repeat constructor; intros []|]. intros k H. cbn in H |- *. destruct (String.eqb_spec k "zsize") as [->|]; [|reflexivity]. repeat (destruct H as [H|H]; [discriminate|]). destruct H. Qed.
Definition a3_ctor : ctor := model_ctor Sheppard a3 (VInt 128) (VInt 100) None.
Definition a3_params : params := Eval vm_compute in match construct toy Sheppard a3_ctor with Ok o => obj_params o | Err _ => obj_params (empty_obj toy) end.
Lemma a3_made (E : engine) : exists o, construct E Sheppard a3_ctor = Ok o /\ obj_params o = a3_params.
Proof. eexists. split; vm_compute; reflexivity. Qed.
Lemma a3_built : exists m, WidefieldMicroscope a3 = Ok m /\ mi_cls m = Sheppard /\ obj_params (mi_model m) = a3_params.
Proof.
  destruct (a3_made numeric) as (o & Ho & Po). unfold WidefieldMicroscope, make. rewrite wide_eq. cbn [a3 w_os int_value]. change (1 <? 0)%Z with false. change (Z.even 1) with false. cbv zeta iota.
  change (fine_pair a3 1) with (@Ok (pyval * pyval) (VInt 128, VInt 100)). cbn [bind]. change (choose_model (w_model a3)) with (@Ok cls Sheppard). cbn [bind fst snd].
  rewrite ctor_for_eq; [|apply a3_kwargs|intros k [<-|[]]; cbn; tauto]. cbn [bind]. change (model_ctor Sheppard a3 (VInt 128) (VInt 100) None) with a3_ctor. rewrite Ho. cbn [bind].
  eexists. split; [reflexivity|]. split; [reflexivity|exact Po].
Qed.
Lemma a3_spar : exists c, spar_of a3_params = mkSpar 500 1 (4 / 3) 100 128 100 128 VecNone c false.
Proof. eexists. unfold spar_of. cbn [a3_params p_wl p_na p_ni p_res p_size p_zres p_zsize p_vec_corr p_condition p_dual]. f_equal; try (cbn; unfold Q2R; cbn; lra); reflexivity. Qed.
Lemma a3_lit c A : let p := mkSpar 500 1 (4 / 3) 100 128 100 128 VecNone c false in s_physical p -> M_Sheppard.gen_otf p = Ok A -> lit_plane p A 98.
Proof.
  intros p Ph HA. split; [cbn; lia|]. exists 0%Z, 64%Z, 64%Z. split; [cbn; lia|]. split; [unfold on_ix; cbn; lia|].
  rewrite (gen_otf_inv _ Ph A HA), otf_get. change (un _ 98) with 34%Z. change (un _ 64) with 0%Z.
  assert (Ek0 : sk p 0 = 0) by (unfold sk, fftfreq, p, fftfreq_ix; cbn; field). assert (Ek1 : sk p 1 = 1 / 12800) by (unfold sk, fftfreq, p, fftfreq_ix; cbn; field).
  assert (Ez0 : skz p 0 = 0) by (unfold skz, fftfreq, p, fftfreq_ix; cbn; field). assert (Ez1 : skz p 1 = 1 / 12800) by (unfold skz, fftfreq, p, fftfreq_ix; cbn; field).
  assert (Ez : skz p 34 = 34 / 12800) by (unfold skz, fftfreq, p, fftfreq_ix; cbn; field).
  assert (Km : s_kmag p = 4 / 1500) by (unfold s_kmag, p; cbn; field).
  assert (Cn : s_kz_min p <= 18 / 10000) by (unfold s_kz_min; rewrite Km; unfold p; cbn [s_wl s_na]; rewrite <- (sqrt_pow2 (18 / 10000)) by lra; apply sqrt_le_1_alt; lra).
  assert (Ev : s_valid p 34 0 0 = true).
  { apply valid_iff. unfold s_kr, s_dkr, s_dk, s_dkz. rewrite Ek0, Ek1, Ez0, Ez1, Ez. destruct (Req_EM_T _ _) as [_|E]; [|lra].
    replace (sqrt ((34 / 12800) ^ 2 + 0 ^ 2 + 0 ^ 2)) with (34 / 12800) by (replace ((34 / 12800) ^ 2 + 0 ^ 2 + 0 ^ 2) with ((34 / 12800) ^ 2) by ring; symmetry; apply sqrt_pow2; lra).
    rewrite Km. unfold s_kzz. rewrite Ez. split; [apply Rabs_def1; lra|]. change (s_dual p) with false. cbv iota. lra. }
  rewrite Ev. cbn. intros Q. injection Q as Q. lra.
Qed.
Example C113_missing_cone_case : exists m otf, WidefieldMicroscope a3 = Ok m /\ fst (m_OTF m) = Ok otf /\ shape otf = [128; 128; 128]%Z /\ get otf [68; 64; 64]%Z = Some (RtoC 0).
Proof.
  destruct a3_built as (m & Hm & Hc & Hp). destruct a3_spar as (c & Hs). set (p := mkSpar 500 1 (4 / 3) 100 128 100 128 VecNone c false) in *.
  assert (Ph : s_physical p) by (unfold s_physical, p; cbn; repeat split; try lra; lia).
  destruct (C39_rejection _ Ph) as [_ H]. destruct H as [A HA]; [cbn; lra|].
  assert (F : all_numbers A) by exact (proj1 (C38_single_shell_finite _ A Ph HA eq_refl)).
  pose proof (C113_missing_cone a3 m A a3_kwargs Hm Hc) as X. cbv zeta in X. rewrite Hp, Hs in X.
  destruct (X Ph HA F) as (n & otf & Hn & E & S & _ & K); [exists 98%Z; now apply (a3_lit c)|].
  cbn in Hn. injection Hn as <-. exists m, otf. split; [exact Hm|]. split; [exact E|]. split; [exact S|]. apply (K eq_refl ltac:(unfold p; cbn; lra) 68%Z ltac:(unfold p; cbn; lia)).
  assert (C0 : 17 / 10000 <= cone p) by (unfold cone, p; cbn [s_ni s_wl s_na]; rewrite <- (sqrt_pow2 (17 / 10000)) by lra; apply sqrt_le_1_alt; lra).
  assert (P1 : pl p = 1 / 12800) by (unfold pl, pitch, p; cbn; lra). assert (P2 : pz p = 1 / 12800) by (unfold pz, pitch, p; cbn; lra).
  assert (S4 : Rabs (sfz p 68) = 4 / 12800) by (unfold sfz, S_Sheppard.cfreq, p; cbn [s_zsize s_zres]; change (68 - 128 / 2)%Z with 4%Z; rewrite Rabs_pos_eq by lra; lra).
  rewrite P1, P2, S4, (Rmax_right (1 / 12800) (1 / 12800)) by lra. change (s_ni p / s_wl p) with (4 / 3 / 500).
  apply Rmult_le_reg_r with (cone p); [lra|]. unfold Rdiv at 1. rewrite Rmult_assoc, Rinv_l, Rmult_1_r by lra. lra.
Qed.
