(** C76, continued: the Apotome on a Hanser model. *)
From Verif Require Import S_FFT S_Hanser S_Micro S_Apotome S_Bin L_Sum L_Bin L_PSF L_Ctor L_Phase5 L_Micro T_PSF T_PSF2 T_Bin L_Array L_FFT L_FFT2 T_FFT L_Phase2 L_Polar L_Radial T_Radial T_Hanser T_Object T_Micro T_Micro2 T_Micro3 L_Micro2 T_Micro4 T_Micro5 T_Confocal T_Confocal2 T_SIM T_Wiener T_SIM2 L_Hanser T_Apotome.
From Flocq Require Import Core.
From Coq Require Import Permutation.
Import M_Array.
Local Open Scope R_scope.

(** the ring of half the cut-off lies inside the spectrum when res is below wl / (2 na) *)
Lemma cutoff_in n L res wl na : (0 < n)%Z -> (0 <= L)%Z -> rings n L -> 0 < res -> 0 < wl -> 0 < na -> res < wl / (2 * na) ->
  (0 <= half_cutoff (IZR n) res wl na <= n / 2)%Z /\ (n / 2 < L)%Z.
Proof.
  intros Pn PL HL Pr Pw Pa Hs. unfold half_cutoff. set (x := 2 * na / wl * (IZR n * res)).
  assert (Pn' : 0 < IZR n) by now apply IZR_lt.
  assert (X1 : x <= IZR n). { unfold x. apply Rmult_lt_compat_r with (r := 2 * na / wl) in Hs; [|apply Rdiv_lt_0_compat; lra]. replace (wl / (2 * na) * (2 * na / wl)) with 1 in Hs by (field; split; lra). nra. }
  assert (X0 : 0 <= x) by (unfold x; apply Rmult_le_pos; [apply Rlt_le, Rdiv_lt_0_compat; lra|nra]).
  assert (Z1 : (ZnearestE x <= n)%Z) by (eapply Z.le_trans; [apply Znearest_le_ceil|]; apply Zceil_glb; exact X1).
  assert (Z0 : (0 <= ZnearestE x)%Z) by (eapply Z.le_trans; [|apply Znearest_ge_floor]; apply Zfloor_lub; exact X0).
  split; [split; [apply Z.div_pos; lia|apply Z.div_le_mono; lia]|].
  assert (H2 : (0 <= n / 2 < n)%Z) by (Z.div_mod_to_equations; lia). enough (0 <= n / 2 < L)%Z by lia. apply HL. split; [lia|]. exists [(n / 2)%Z; 0%Z], (n / 2)%Z.
  split; [apply Forall2_cons; [lia|]; apply Forall2_cons; [lia|]; apply Forall2_nil|]. split; [lia|]. unfold in_bin. cbn [dist2].
  replace ((IZR (n / 2) - IZR (n / 2)) * (IZR (n / 2) - IZR (n / 2)) + ((0 - IZR (n / 2)) * (0 - IZR (n / 2)) + 0)) with (IZR (n / 2) * IZR (n / 2)) by ring.
  rewrite sqrt_square by (apply IZR_le; lia). replace (IZR (n / 2) / 1 - IZR (n / 2)) with 0 by (field). rewrite Rabs_R0. split; [lra|]. intros. exfalso. lra.
Qed.
Lemma all_ix2 n (F : list Z -> R) : Rsum (all_ix [n; n]) F = plane_sum n (fun y x => F [y; x]).
Proof.
  unfold plane_sum. cbn [all_ix]. rewrite Rsum_flat_map. apply Rsum_ext. intros y _. rewrite Rsum_map, Rsum_flat_map. apply Rsum_ext. intros x _. cbn. ring.
Qed.
Theorem C76_hanser : forall a m l,
  kwargs_ok a -> ApotomeMicroscope a = Ok m -> mi_cls m = Hanser ->
  let h := hpar_of (obj_params (mi_model m)) in
  physical h -> 0 < h_na h -> h_vec h <> VecZ -> h_zrange h <> [] ->
  let N := h_size h in let nz := Z.of_nat (List.length (h_zrange h)) in
  let k := half_cutoff (IZR N) (h_res h) (h_wl h) (h_na h) in
  ring N k l ->
  exists A n f img P, M_Hanser.gen_psf h None = Ok A /\ int_value (w_size a) = Some n /\ int_value (w_os a) = Some f /\ N = (n * f)%Z /\
    (0 <= k <= N / 2)%Z /\ l <> [] /\ 0 < P /\ (forall z, (0 <= z < nz)%Z -> plane_light (sumsq A) z = P) /\
    fst (model_psf m) = Ok (img, true) /\ shape img = [nz; N; N] /\
    let ring_mean z := Cmod (mean_over l (plane_spectrum (sumsq A) z)) in
    (forall z y x, inb [nz; N; N] [z; y; x] -> get img [z; y; x] = ring_mean z / P * get (sumsq A) [z; y; x]) /\
    (forall z, (0 <= z < nz)%Z -> 0 <= ring_mean z <= P) /\
    let light := Rsum (zseq nz) ring_mean in
    Rsum (all_ix [nz; N; N]) (get img) = light /\
    (light <> 0 -> exists r, fst (m_PSF m) = Ok r /\ shape r = [nz; n; n] /\ image_sum r = 1 /\ nonneg_image r /\
       forall z y x, inb [nz; n; n] [z; y; x] -> get r [z; y; x] = Some (collected img n f z y x / light)).
Proof.
  intros a m l Hk Hm Hc h Hp Hna Hv Hz N nz k Hl. assert (Hb : built_from a m) by now apply built_apotome.
  destruct (proj1 (C30_computes h Hp)) as [A HA].
  destruct (C54_geometry a m Hk Hb) as (f & n & Hf & Pf & Ef & Hn & _ & (vs & Sv & Iv) & _).
  destruct (built_wide_result a m Hb) as (kd & f' & pp & c & kk & o & _ & Hf' & _ & _ & Ep & _ & Ek & Eo & Hc' & Hpar & _ & Hmod & Hos). rewrite Hc in Hc'. subst c. assert (f' = f) by congruence. subst f'. rewrite <- Hmod in Eo.
  assert (Kw : forall kw, In kw (map fst (w_kwargs a)) -> In kw (model_keywords Hanser)) by (apply Classical_Prop.NNPP; intros X; rewrite ctor_for_bad in Ek by exact X; discriminate).
  rewrite ctor_for_eq in Ek by assumption. destruct (zrange_kw (w_kwargs a)) as [zr|e]; cbn [bind] in Ek; [|discriminate]. injection Ek as <-.
  destruct (C74_constructor_arguments _ _ _ _ Eo) as (A1 & A2 & _ & A4 & A5 & _). cbn [model_ctor k_wl k_na k_ni k_res k_size k_zres k_zsize] in A1, A2, A4, A5.
  assert (SA : shows (mi_model m) A) by (apply (C73_hanser_objects _ (mi_model m) [] A Eo); exact HA).
  assert (Hsz : N = (n * f)%Z) by (unfold N, h; cbn [hpar_of h_size obj_params p_size]; rewrite Sv; cbn [val_Z]; now apply int_value_as).
  destruct (C30_shape_sign h None A Hp ltac:(discriminate) HA) as (_ & ShA & NA). fold N nz in ShA, NA.
  destruct (fine_pair_ok a f pp Pf Ep) as [P1 P2]. specialize (P1 n Hn).
  pose proof Hp as (Pw & _ & Pni & Pr & Ps). fold N in Ps.
  assert (Fr : finite_number (Some (snd pp)) (h_res h)). { rewrite <- A4. apply (val_R_finite (o_attr (mi_model m) A_res)). exact Pr. }
  assert (Fw : finite_number (Some (w_wl a)) (h_wl h)). { rewrite <- A1. apply (val_R_finite (o_attr (mi_model m) A_wl)). exact Pw. }
  assert (Fn : finite_number (Some (w_na a)) (h_na h)). { rewrite <- A2. apply (val_R_finite (o_attr (mi_model m) A_na)). exact Hna. }
  assert (Fs : finite_number (Some (fst pp)) (IZR N)). { rewrite Hsz. destruct (fst pp) as [i|[|]| | | | |] eqn:Ei; cbn in P1; try discriminate; injection P1 as P1; eexists; eexists; (split; [reflexivity|]); cbn; (split; [reflexivity|]); rewrite <- P1; unfold Q2R; cbn; try field; lra. }
  assert (Ssm : h_res h < h_wl h / (2 * h_na h)).
  { destruct Fr as (v1 & q1 & [= <-] & N1 & E1). destruct Fw as (v2 & q2 & [= <-] & N2 & E2). destruct Fn as (v3 & q3 & [= <-] & N3 & E3). rewrite E1, E2, E3 in *.
    assert (Q2 : (0 < q2)%Q) by (apply Qreals.Rlt_Qlt; rewrite RMicromega.Q2R_0; exact Pw). assert (Q3 : (0 < q3)%Q) by (apply Qreals.Rlt_Qlt; rewrite RMicromega.Q2R_0; exact Hna).
    destruct (C26_constructed_within_limits numeric Hanser _ _ q2 q3 Eo N2 Q2) as [X _]. specialize (X N3 Q3 q1 N1). apply Qreals.Qlt_Rlt in X. unfold Qdiv in X. assert (Nz : ~ (2 * q3 == 0)%Q) by (clear -Q3; intros Z; unfold Qeq in Z; unfold Qlt in Q3; cbn [Qmult Qnum Qden] in *; lia). rewrite Qreals.Q2R_mult, (Qreals.Q2R_inv _ Nz), Qreals.Q2R_mult in X.
    replace (Q2R 2) with 2 in X by (unfold Q2R; cbn; lra). exact X. }
  set (L := rp_len [N; N] (rp_bin [IZR (N / 2); IZR (N / 2)] 1)).
  assert (PL : (0 <= L)%Z) by apply rp_len_nonneg. pose proof (rings_L N) as HL. fold L in HL.
  destruct (cutoff_in N L _ _ _ Ps PL HL Pr Pw Hna Ssm) as [Rk RL]. fold k in Rk.
  assert (Pnz : (0 < nz)%Z) by (unfold nz; destruct (h_zrange h); [contradiction|cbn [List.length]; lia]).
  assert (Lt : forall z, plane_light (sumsq A) z = plane_sum N (fun y x => get (sumsq A) [z; y; x])) by (intros z; unfold plane_light; rewrite ShA; cbn [tl]; now rewrite all_ix2).
  set (P := plane_light (sumsq A) 0).
  assert (PP : 0 < P) by (unfold P; rewrite Lt; apply (C31_light h A 0 Hp Hna Hv HA)).
  assert (Same : forall z, plane_light (sumsq A) z = P) by (intros z; unfold P; rewrite !Lt; apply (C31_same_in_every_plane h None A z 0 Hp ltac:(discriminate) HA)).
  assert (HM : largest nz (plane_light (sumsq A)) P) by (split; [exists 0%Z; split; [lia|apply Same]|intros z _; rewrite Same; lra]).
  assert (Kd : mi_kind m = Apotome) by (exact (made_kind _ _ _ (wide_kind a) Hm)).
  assert (Pg : forall ix, inb [nz; N; N] ix -> 0 <= get (sumsq A) ix) by (intros ix Hi; destruct (inb3_inv _ _ _ _ Hi) as (z & y & x & -> & Q); apply NA; exact Hi).
  assert (Kna : dget (w_kwargs a) "na" = None) by (apply Hk; cbn; tauto). assert (Kwl : dget (w_kwargs a) "wl" = None) by (apply Hk; cbn; tauto).
  destruct (C76_apotome m (sumsq A) N nz (IZR N) (h_res h) (h_wl h) (h_na h) L P l Kd) as [_ G]; auto; try lra;
    try (rewrite Hpar, params_get by apply Hk; unfold params_spec; cbn [String.eqb Ascii.eqb Bool.eqb]; rewrite ?Kna, ?Kwl; cbn [option_map as_val]; assumption).
  { rewrite Hc. now apply image_of. }
  { fold k. destruct (Z.ltb_spec k 0); [lia|exact Hl]. }
  fold k in G. destruct (Z.ltb_spec k 0); [lia|]. destruct (G ltac:(lia)) as (img & fin & E & S & _ & G2). destruct (G2 ltac:(lra)) as (-> & Ne & G3). clear G G2.
  exists A, n, f, img, P. split; [exact HA|]. split; [exact Hn|]. split; [exact Hf|]. split; [exact Hsz|]. split; [exact Rk|]. split; [exact Ne|]. split; [exact PP|]. split; [intros; apply Same|]. split; [exact E|]. split; [exact S|].
  intros ring_mean. assert (Gv : forall z y x, inb [nz; N; N] [z; y; x] -> get img [z; y; x] = ring_mean z / P * get (sumsq A) [z; y; x]).
  { intros z y x Hi. destruct (inb3_inv _ _ _ _ Hi) as (z' & y' & x' & [= <- <- <-] & Q & _). now apply (G3 z Q). }
  split; [exact Gv|]. split.
  { intros z Q. destruct (G3 z Q) as [[B1 B2] _]. unfold ring_mean. split; [apply Cmod_ge_0|]. apply Rmult_le_compat_r with (r := P) in B2; [|lra]. unfold Rdiv in B2. rewrite Rmult_assoc, Rinv_l in B2 by lra. lra. }
  intros light. assert (El : Rsum (all_ix [nz; N; N]) (get img) = light).
  { cbn [all_ix]. rewrite Rsum_flat_map. unfold light. apply Rsum_ext. intros z Q. apply in_zseq in Q. rewrite Rsum_map. change (flat_map (fun i => map (cons i) (flat_map (fun i0 => map (cons i0) [[]]) (zseq N))) (zseq N)) with (all_ix [N; N]).
    rewrite (Rsum_ext _ _ (fun ix => ring_mean z / P * get (sumsq A) (z :: ix))); [|intros ix Hi; apply in_all_ix in Hi; destruct (inb_cons_inv _ _ _ Hi) as (y & r & -> & Hy & Hr); destruct (inb_cons_inv _ _ _ Hr) as (x & r' & -> & Hx & Hr'); destruct r'; [|inversion Hr']; apply Gv; apply inb3; auto].
    rewrite Rsum_scal_l. pose proof (Same z) as Sz. unfold plane_light in Sz. rewrite ShA in Sz. cbn [tl] in Sz. rewrite Sz. field. lra. }
  split; [exact El|]. intros Nl.
  assert (Ss : stored_size m (n * f)) by (exists (fst pp); split; [rewrite Hpar, params_get by apply Hk; reflexivity|exact P1]).
  assert (Pn : (0 < n)%Z) by nia. rewrite Hsz in S.
  destruct (C55_psf m img nz n f E S ltac:(lia) Pn (ex_intro _ _ (conj Hos Hf)) Pf Ef Ss ltac:(rewrite <- Hsz, El; exact Nl)) as (r & E1 & E2 & E3 & E4).
  assert (Er : fst (m_PSF m) = Ok r) by (rewrite <- E1; destruct (C57_snapshot m [] (ex_intro _ a Hb)) as [E5 _]; exact E5).
  exists r. split; [exact Er|]. split; [exact E2|]. split; [exact E4|]. split.
  - apply (C56_nonnegative a m [] r Hb); [rewrite Kd; discriminate|intros ? []|exact Er].
  - intros z y x Hi. rewrite (E3 z y x Hi). rewrite <- El, Hsz. reflexivity.
Qed.
Print Assumptions C76_hanser.

(** ** When the image is not black *)
From Verif Require Import L_Hanser2 L_Hanser3 L_Hanser4 L_Band.
Section Focus.
Context (h : hpar) (Hph : physical h) (Hv : h_vec h = VecNone) (A : array C) (HA : M_Hanser.gen_psf h None = Ok A) (z0 : Z) (Hz : nth (Z.to_nat z0) (h_zrange h) 0 = 0).
Let n := h_size h.
Let G (ix : list Z) : R := match ix with [y; x] => (if Rlt_dec (k2 h y x) ((h_na h / h_wl h) ^ 2) then 1 else 0) * apod h y x | _ => 0 end.
Let S2 (ks : list Z) : R := Rsum (all_ix [n; n]) (fun js => Rsum (all_ix [n; n]) (fun js' => if shifted n ks js js' then G js * G js' else 0)).
Lemma G_nonneg ix : 0 <= G ix.
Proof. unfold G. destruct ix as [|y [|x [|? ?]]]; try lra. pose proof (apod_pos h Hph y x). destruct (Rlt_dec _ _); lra. Qed.
Lemma G_pos y x : in_aperture h y x -> 0 < G [y; x].
Proof. unfold G, in_aperture. intros H. pose proof (apod_pos h Hph y x). destruct (Rlt_dec _ _); [lra|contradiction]. Qed.
Lemma focus_pup js : inb [n; n] js -> pupf h (used_pupil h None) 0 z0 js = RtoC (G js).
Proof.
  intros Hi. destruct (inb2_inv _ _ _ Hi) as (y & x & -> & Hy & Hx). unfold G, pupf, pup, used_pupil, defocus. rewrite Hv, Hz, Rmult_0_r, cis_0. cbn [plist nth Z.to_nat]. rewrite RtoC_mult. ring.
Qed.
Lemma focus_spectrum ks nz : shape (sumsq A) = [nz; n; n] -> inb [n; n] ks -> get (plane_spectrum (sumsq A) z0) ks = RtoC (/ IZR (n * n) * S2 ks).
Proof.
  intros Sh Hk. pose proof (n_pos h Hph) as Hn. fold n in Hn. pose proof (n2_pos h Hph) as H2. fold n in H2. unfold plane_spectrum. rewrite Sh. cbn [tl]. rewrite easy_fft_mop by exact Hk. cbn [shape get List.length axes_mask repeat].
  rewrite (mop_ext _ _ _ _ (fun ix => Cmult (RtoC (/ IZR (n * n) * / IZR (n * n))) (RtoC (Cnorm2 (mop kpsf [true; true] [n; n] (pupf h (used_pupil h None) 0 z0) ix))))); [|exact Hk|].
  - rewrite mop_scal, autocorrelation by auto. rewrite (Csum_ext _ _ (fun js => RtoC (Rsum (all_ix [n; n]) (fun js' => if shifted n ks js js' then G js * G js' else 0)))).
    + rewrite <- Csum_RtoC. fold (S2 ks). rewrite <- !RtoC_mult. f_equal. field. lra.
    + intros js Hj. apply in_all_ix in Hj. rewrite Csum_RtoC. apply Csum_ext. intros js' Hj'. apply in_all_ix in Hj'. destruct (shifted n ks js js'); [|reflexivity]. rewrite !focus_pup by assumption. rewrite Cconj_RtoC, RtoC_mult. reflexivity.
  - intros ix Hi. destruct (inb2_inv _ _ _ Hi) as (y & x & -> & Hy & Hx). rewrite (psfi_val h Hph None) by (auto; discriminate). rewrite Hv. cbn [components]. change (zseq 1) with [0%Z]. cbn [Rsum]. fold n. rewrite Rplus_0_r, RtoC_mult. reflexivity.
Qed.
Lemma term_nonneg ks js js' : 0 <= (if shifted n ks js js' then G js * G js' else 0).
Proof. destruct (shifted n ks js js'); [apply Rmult_le_pos; apply G_nonneg|lra]. Qed.
Lemma S2_nonneg ks : 0 <= S2 ks.
Proof. apply Rsum_nonneg. intros js _. apply Rsum_nonneg. intros js' _. apply term_nonneg. Qed.
Lemma S2_pos ks js js' : inb [n; n] js -> inb [n; n] js' -> shifted n ks js js' = true -> 0 < G js -> 0 < G js' -> 0 < S2 ks.
Proof.
  intros H1 H2 Sf P1 P2. apply (Rsum_pos _ _ js); [|now apply in_all_ix|].
  - intros ix _. apply Rsum_nonneg. intros ix' _. apply term_nonneg.
  - apply (Rsum_pos _ _ js'); [intros ix' _; apply term_nonneg|now apply in_all_ix|rewrite Sf; now apply Rmult_lt_0_compat].
Qed.
(** the pixel of signed frequency s on the axis *)
Lemma axis_aperture s : (- (n / 2) <= s < n - n / 2)%Z -> Rabs (IZR s) < h_na h / h_wl h * (IZR n * h_res h) -> in_aperture h 0 (s mod n).
Proof.
  intros Hs Hr. pose proof Hph as (Pw & Pa & _ & Pr & Pn). fold n in Pn. assert (Pn' : 0 < IZR n) by now apply IZR_lt.
  unfold in_aperture, k2, sfreq. fold n. assert (H2 : (0 <= n / 2 < n)%Z) by (Z.div_mod_to_equations; lia).
  replace ((0 + n / 2) mod n - n / 2)%Z with 0%Z by (rewrite Z.add_0_l, Z.mod_small; lia).
  replace ((s mod n + n / 2) mod n - n / 2)%Z with s by (rewrite Zplus_mod_idemp_l, Z.mod_small; lia).
  set (T := IZR n * h_res h) in *. assert (PT : 0 < T) by (unfold T; now apply Rmult_lt_0_compat).
  replace (0 / T * (0 / T) + IZR s / T * (IZR s / T)) with ((Rabs (IZR s) / T) ^ 2) by (rewrite <- (Rsqr_abs (IZR s)) || idtac; unfold Rdiv; pose proof (Rsqr_abs (IZR s)) as Q; unfold Rsqr in Q; transitivity (Rabs (IZR s) * Rabs (IZR s) * (/ T * / T)); [ring|rewrite <- Q; ring]).
  assert (B : Rabs (IZR s) / T < h_na h / h_wl h) by (apply Rmult_lt_reg_r with T; [exact PT|]; unfold Rdiv at 1; rewrite Rmult_assoc, Rinv_l, Rmult_1_r by lra; exact Hr).
  assert (0 <= Rabs (IZR s) / T) by (apply Rmult_le_pos; [apply Rabs_pos|apply Rlt_le, Rinv_0_lt_compat, PT]). nra.
Qed.
Lemma focus_ring_mean nz l : shape (sumsq A) = [nz; n; n] -> 0 < h_na h -> 1 < h_na h / h_wl h * (IZR n * h_res h) ->
  let k := half_cutoff (IZR n) (h_res h) (h_wl h) (h_na h) in (0 <= k <= n / 2)%Z -> ring n k l -> 0 < Cmod (mean_over l (plane_spectrum (sumsq A) z0)).
Proof.
  intros Sh Hna HR k Hk Hl. pose proof Hph as (Pw & Pa & _ & Pr & Pn). fold n in Pn. set (R0 := h_na h / h_wl h * (IZR n * h_res h)) in *.
  assert (H2 : (0 <= n / 2 < n)%Z) by (Z.div_mod_to_equations; lia).
  assert (Kb : IZR k <= R0 + / 4).
  { unfold k, half_cutoff. replace (2 * h_na h / h_wl h * (IZR n * h_res h)) with (2 * R0) by (unfold R0; field; lra). pose proof (Znearest_half (fun x => negb (Z.even x)) (2 * R0)) as Q. apply Rabs_def2b in Q || idtac.
    assert (Q' : IZR (ZnearestE (2 * R0)) <= 2 * R0 + / 2) by (unfold Rabs in Q; destruct (Rcase_abs _) in Q; lra). assert (D : (2 * (ZnearestE (2 * R0) / 2) <= ZnearestE (2 * R0))%Z) by (Z.div_mod_to_equations; lia). apply IZR_le in D. rewrite mult_IZR in D. lra. }
  set (s := (- (k - k / 2))%Z). set (s' := (k / 2)%Z).
  assert (K2 : (0 <= k / 2)%Z /\ (2 * (k - k / 2) <= k + 1)%Z /\ (k / 2 <= k - k / 2)%Z) by (Z.div_mod_to_equations; lia). destruct K2 as (K2 & K3 & K4).
  assert (Bd : IZR (k - k / 2) < R0).
  { destruct (Z_le_gt_dec k 2) as [C|C]; [assert (Q : (k - k / 2 <= 1)%Z) by lia; apply IZR_le in Q; lra|]. assert (Q : (3 <= k)%Z) by lia. apply IZR_le in Q. apply IZR_le in K3. rewrite mult_IZR, plus_IZR in K3. lra. }
  assert (Bs : Rabs (IZR s) < R0) by (unfold s; rewrite opp_IZR, Rabs_Ropp, Rabs_pos_eq; [exact Bd|apply IZR_le; lia]).
  assert (Bs' : Rabs (IZR s') < R0) by (unfold s'; rewrite Rabs_pos_eq by (apply IZR_le; lia); apply IZR_le in K4; lra).
  assert (I1 : in_aperture h 0 (s mod n)) by (apply axis_aperture; [unfold s; Z.div_mod_to_equations; lia|exact Bs]).
  assert (I2 : in_aperture h 0 (s' mod n)) by (apply axis_aperture; [unfold s'; Z.div_mod_to_equations; lia|exact Bs']).
  set (ks := [(n / 2)%Z; (n / 2 - k)%Z]). assert (Hks : inb [n; n] ks) by (apply Forall2_cons; [lia|]; apply Forall2_cons; [lia|]; apply Forall2_nil).
  assert (J1 : inb [n; n] [0%Z; (s mod n)%Z]) by (apply Forall2_cons; [lia|]; apply Forall2_cons; [apply Z.mod_pos_bound; lia|]; apply Forall2_nil).
  assert (J2 : inb [n; n] [0%Z; (s' mod n)%Z]) by (apply Forall2_cons; [lia|]; apply Forall2_cons; [apply Z.mod_pos_bound; lia|]; apply Forall2_nil).
  assert (Sf : shifted n ks [0%Z; (s mod n)%Z] [0%Z; (s' mod n)%Z] = true).
  { unfold shifted, ks. apply andb_true_iff. split; apply Z.eqb_eq; [replace (0 - 0 - (n / 2 - n / 2))%Z with 0%Z by lia; apply Zmod_0_l|].
    assert (E0 : (s - s' + k = 0)%Z) by (unfold s, s'; lia). rewrite (Z.mod_eq s n), (Z.mod_eq s' n) by lia.
    replace (s - n * (s / n) - (s' - n * (s' / n)) - (n / 2 - k - n / 2))%Z with ((s - s' + k) + (s' / n - s / n) * n)%Z by ring. rewrite E0, Z.add_0_l. apply Z_mod_mult. }
  assert (Pk : 0 < S2 ks) by (apply (S2_pos ks _ _ J1 J2 Sf); now apply G_pos).
  assert (Inl : In ks l).
  { apply Hl. split; [exact Hks|]. unfold in_bin, ks. cbn [dist2]. rewrite minus_IZR.
    replace ((IZR (n / 2) - IZR (n / 2)) * (IZR (n / 2) - IZR (n / 2)) + ((IZR (n / 2) - IZR k - IZR (n / 2)) * (IZR (n / 2) - IZR k - IZR (n / 2)) + 0)) with (IZR k * IZR k) by ring.
    rewrite sqrt_square by (apply IZR_le; lia). replace (IZR k / 1 - IZR k) with 0 by field. rewrite Rabs_R0. split; [lra|]. intros. exfalso. lra. }
  pose proof (n2_pos h Hph) as N2. fold n in N2. assert (Ni : 0 < / IZR (n * n)) by now apply Rinv_0_lt_compat.
  assert (Ne : l <> []) by (intros ->; contradiction).
  rewrite mean_over_Csum by exact Ne. rewrite (Csum_ext l _ (fun ix => RtoC (/ IZR (n * n) * S2 ix))) by (intros ix Hi; apply Hl in Hi; apply (focus_spectrum ix nz Sh); apply Hi).
  rewrite <- Csum_RtoC, <- RtoC_mult, Cmod_R. apply Rabs_pos_lt, Rgt_not_eq, Rlt_gt, Rmult_lt_0_compat.
  - apply Rinv_0_lt_compat. destruct l; [contradiction|]. apply (lt_INR 0). cbn [List.length]. lia.
  - apply (Rsum_pos _ _ ks); [intros; apply Rmult_le_pos; [lra|apply S2_nonneg]|exact Inl|]. now apply Rmult_lt_0_compat.
Qed.
End Focus.
(** With a scalar model that has a plane in focus, and an aperture of more than one pixel, the image carries light. *)
Theorem C76_light : forall h A l z0, physical h -> h_vec h = VecNone -> M_Hanser.gen_psf h None = Ok A -> 0 < h_na h ->
  (0 <= z0 < Z.of_nat (List.length (h_zrange h)))%Z -> nth (Z.to_nat z0) (h_zrange h) 0 = 0 ->
  1 < h_na h / h_wl h * (IZR (h_size h) * h_res h) ->
  let k := half_cutoff (IZR (h_size h)) (h_res h) (h_wl h) (h_na h) in (0 <= k <= h_size h / 2)%Z -> ring (h_size h) k l ->
  0 < Rsum (zseq (Z.of_nat (List.length (h_zrange h)))) (fun z => Cmod (mean_over l (plane_spectrum (sumsq A) z))).
Proof.
  intros h A l z0 Hp Hv HA Hna Hz Hf HR k Hk Hl. destruct (C30_shape_sign h None A Hp ltac:(discriminate) HA) as (_ & ShA & _).
  apply (Rsum_pos _ _ z0); [intros; apply Cmod_ge_0|now apply in_zseq|]. now apply (focus_ring_mean h Hp Hv A HA z0 Hf _ l ShA).
Qed.
Print Assumptions C76_light.
(** ** Witness: an Apotome with the settings of a0 *)
Lemma a0_apotome : exists m, ApotomeMicroscope a0 = Ok m.
Proof. destruct a0_built as (m & Hm & _). unfold WidefieldMicroscope, make in Hm. unfold ApotomeMicroscope, make. rewrite wide_eq in *. destruct (int_value (w_os a0)) as [f|] in *; [|discriminate]. destruct (f <? 0)%Z in *; [discriminate|]. cbv zeta in *. destruct (Z.even f) in *; [discriminate|]. destruct (fine_pair a0 f) as [p|e] in *; cbn [bind] in *; [|discriminate]. destruct (choose_model (w_model a0)) as [c|e] in *; cbn [bind] in *; [|discriminate]. destruct (ctor_for c _) as [kk|e] in *; cbn [bind] in *; [|discriminate]. destruct (construct numeric c kk) as [o|e] in *; cbn [bind] in *; [|discriminate]. eexists. reflexivity. Qed.
Example C76_witness : exists m img r, ApotomeMicroscope a0 = Ok m /\ fst (model_psf m) = Ok (img, true) /\ shape img = [16; 192; 192]%Z /\
  fst (m_PSF m) = Ok r /\ shape r = [16; 64; 64]%Z /\ image_sum r = 1 /\ nonneg_image r.
Proof.
  destruct a0_apotome as [m Hm]. assert (Hb : built_from a0 m) by now apply built_apotome. destruct (a0_any m Hb) as [Hc Hp]. destruct a0_physical as (P1 & P2 & P3 & P4).
  pose proof (fun l => C76_hanser a0 m l a0_kwargs Hm Hc) as X. cbv zeta in X. rewrite Hp in X. set (h := hpar_of a0_params) in *.
  assert (Nv : h_vec h <> VecZ) by (rewrite P3; discriminate). assert (Nz : h_zrange h <> []) by (intros E; rewrite E in P4; discriminate P4).
  set (k := half_cutoff (IZR (h_size h)) (h_res h) (h_wl h) (h_na h)) in *.
  specialize (X (pix [h_size h; h_size h] [IZR (h_size h / 2); IZR (h_size h / 2)] 1 k) P1 P2 Nv Nz (pix_spec _ _ _ _)).
  destruct X as (A & n & f & img & P & HA & Hn & Hf & HN & Hk & _ & _ & _ & E & S & _ & _ & _ & G). cbn in Hn, Hf. injection Hn as <-. injection Hf as <-. rewrite P4 in *.
  assert (Z8 : nth (Z.to_nat 8) (h_zrange h) 0 = 0) by (change (Z.to_nat 8) with 8%nat; cbn; unfold Q2R; cbn; lra).
  assert (R1 : 1 < h_na h / h_wl h * (IZR (h_size h) * h_res h)) by (cbn; unfold Q2R; cbn; replace (6 * / 5 / (52 * / 100) * (192 * (1 * / 30))) with (192 * 6 * 100 / (5 * 52 * 30)) by field; lra).
  pose proof (C76_light h A _ 8 P1 P3 HA P2 ltac:(rewrite P4; lia) Z8 R1 Hk (pix_spec _ _ _ _)) as Lp. rewrite P4 in Lp. fold k in Lp. destruct (G ltac:(lra)) as (r & E1 & E2 & E3 & E4 & _).
  exists m, img, r. split; [exact Hm|]. split; [exact E|]. split; [rewrite S, HN; reflexivity|]. auto.
Qed.
