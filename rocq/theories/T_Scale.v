(** C85: the unit of length and the scale of the refractive index do not matter.  C86: planes are independent of each other. *)
From Coq Require Import FunctionalExtensionality.
From Verif Require Import M_Hanser M_Sheppard S_Hanser S_Sheppard S_Object L_Array L_Sum L_FFT L_FFT2 L_Polar L_Hanser L_Hanser2 L_Hanser3 L_Hanser4 T_Hanser T_Sheppard T_PSF L_PSF L_Ctor T_Object2 T_Object.
Import M_Array.
Local Open Scope R_scope.

(** Lengths (wl, res, zres, z positions) in another unit: times [a]; na, ni and wl multiplied by [b]. *)
Definition rescaled (a b : R) (h h' : hpar) : Prop :=
  h_wl h' = a * b * h_wl h /\ h_na h' = b * h_na h /\ h_ni h' = b * h_ni h /\ h_res h' = a * h_res h /\ h_size h' = h_size h /\
  h_zrange h' = map (fun z => a * z) (h_zrange h) /\ h_vec h' = h_vec h /\ h_cond h' = h_cond h.
Definition s_rescaled (a b : R) (p p' : spar) : Prop :=
  s_wl p' = a * b * s_wl p /\ s_na p' = b * s_na p /\ s_ni p' = b * s_ni p /\ s_res p' = a * s_res p /\ s_size p' = s_size p /\
  s_zres p' = a * s_zres p /\ s_zsize p' = s_zsize p /\ s_vec p' = s_vec p /\ s_cond p' = s_cond p /\ s_dual p' = s_dual p.

Lemma sqrt_scale k x : 0 <= k -> sqrt (k ^ 2 * x) = k * sqrt x.
Proof.
  intros Hk. rewrite sqrt_mult_alt by apply pow2_ge_0. now rewrite sqrt_pow2.
Qed.
Lemma Rlt_dec_iff {A} p q p' q' (u v : A) : (p < q <-> p' < q') -> (if Rlt_dec p q then u else v) = (if Rlt_dec p' q' then u else v).
Proof. intros H. destruct (Rlt_dec p q), (Rlt_dec p' q'); tauto. Qed.

Lemma inv_scale k x : k <> 0 -> / (k * x) = / k * / x.
Proof.
  intros Hk. destruct (Req_dec x 0) as [->|Hx]; [now rewrite Rmult_0_r, Rinv_0, Rmult_0_r|]. now rewrite Rinv_mult.
Qed.
Lemma div_scale a b u w : a <> 0 -> b <> 0 -> (b * u) / (a * b * w) = / a * (u / w).
Proof. intros Ha Hb. unfold Rdiv. rewrite Rmult_assoc, !inv_scale by auto. generalize (/ w). intros i. field. auto. Qed.
Lemma scaled_fftfreq a m d i : a <> 0 -> fftfreq m (a * d) i = / a * fftfreq m d i.
Proof. intros Ha. unfold fftfreq, Rdiv. replace (IZR m * (a * d)) with (a * (IZR m * d)) by ring. rewrite inv_scale by auto. ring. Qed.
Lemma ratio_scale k u w : k <> 0 -> (k * u) / (k * w) = u / w.
Proof. intros Hk. unfold Rdiv. rewrite inv_scale by auto. generalize (/ w). intros i. field. auto. Qed.
Lemma zero_scale {A} k x (u v : A) : k <> 0 -> (if Req_EM_T (k * x) 0 then u else v) = (if Req_EM_T x 0 then u else v).
Proof. intros Hk. destruct (Req_EM_T (k * x) 0) as [E|E], (Req_EM_T x 0) as [F|F]; try reflexivity; exfalso; [apply Rmult_integral in E; tauto|apply E; rewrite F; ring]. Qed.
Section H.
Context (a b : R) (h h' : hpar) (Ha : 0 < a) (Hb : 0 < b) (Hr : rescaled a b h h').
Let ai : 0 < / a := Rinv_0_lt_compat a Ha.
Lemma hk_scale i : hk h' i = / a * hk h i.
Proof. destruct Hr as (_ & _ & _ & R4 & R5 & _). unfold hk. rewrite R4, R5. apply scaled_fftfreq. lra. Qed.
Lemma pos_lt u v : / a * u < / a * v <-> u < v.
Proof. split; intros H'; [now apply Rmult_lt_reg_l in H'|now apply Rmult_lt_compat_l]. Qed.
Lemma pos_0lt u : 0 < / a * u <-> 0 < u.
Proof. pose proof (pos_lt 0 u) as H. now rewrite Rmult_0_r in H. Qed.
Lemma pos_lt0 u : / a * u < 0 <-> u < 0.
Proof. pose proof (pos_lt u 0) as H. now rewrite Rmult_0_r in H. Qed.
Lemma atan2_scale y x : atan2 (/ a * y) (/ a * x) = atan2 y x.
Proof.
  unfold atan2. rewrite ratio_scale by lra. rewrite (Rlt_dec_iff _ _ _ _ _ _ (pos_0lt x)). destruct (Rlt_dec 0 x); [reflexivity|]. rewrite (Rlt_dec_iff _ _ _ _ _ _ (pos_lt0 x)).
  assert (L : (if Rle_dec 0 (/ a * y) then atan (y / x) + PI else atan (y / x) - PI) = (if Rle_dec 0 y then atan (y / x) + PI else atan (y / x) - PI)).
  { pose proof (pos_lt0 y) as [Q1 Q2]. destruct (Rle_dec 0 (/ a * y)), (Rle_dec 0 y); try reflexivity; exfalso; lra. }
  rewrite L. rewrite (Rlt_dec_iff _ _ _ _ _ _ (pos_0lt y)). rewrite (Rlt_dec_iff _ _ _ _ _ _ (pos_lt0 y)). reflexivity.
Qed.
Lemma kr_scale_h y x : h_kr h' y x = / a * h_kr h y x.
Proof. unfold h_kr, cart2pol, hypot. cbn [fst]. rewrite !hk_scale, <- sqrt_scale by lra. f_equal. ring. Qed.
Lemma phi_scale_h y x : h_phi h' y x = h_phi h y x.
Proof. unfold h_phi, cart2pol. cbn [snd]. rewrite !hk_scale. apply atan2_scale. Qed.
Lemma kmag_scale_h : h_kmag h' = / a * h_kmag h.
Proof. destruct Hr as (R1 & _ & R3 & _). unfold h_kmag. rewrite R1, R3. apply div_scale; lra. Qed.
Lemma na_scale_h : h_na h' / h_wl h' = / a * (h_na h / h_wl h).
Proof. destruct Hr as (R1 & R2 & _). rewrite R1, R2. apply div_scale; lra. Qed.
Lemma kz_scale_h y x : h_kz h' y x = / a * h_kz h y x.
Proof.
  unfold h_kz, psqrt. rewrite kmag_scale_h, kr_scale_h. rewrite <- sqrt_scale by lra. f_equal.
  replace ((/ a * h_kmag h) ^ 2 - (/ a * h_kr h y x) ^ 2) with ((/ a) ^ 2 * (h_kmag h ^ 2 - h_kr h y x ^ 2)) by ring. rewrite <- RmaxRmult by (apply pow_le; lra). f_equal. ring.
Qed.
Lemma defocus_scale z y x : defocus h' z y x = defocus h z y x.
Proof.
  unfold defocus. rewrite kz_scale_h. destruct Hr as (_ & _ & _ & _ & _ & R6 & _). rewrite R6. f_equal.
  replace (nth (Z.to_nat z) (map (fun z0 => a * z0) (h_zrange h)) 0) with (a * nth (Z.to_nat z) (h_zrange h) 0).
  - field. lra.
  - rewrite <- (map_nth (fun z => a * z)). now rewrite Rmult_0_r.
Qed.
Lemma theta_scale y x : h_theta h' y x = h_theta h y x.
Proof.
  unfold h_theta. rewrite kr_scale_h, kmag_scale_h. f_equal. rewrite (Rlt_dec_iff _ _ _ _ _ _ (pos_lt (h_kr h y x) (h_kmag h))).
  destruct (Rlt_dec _ _); [apply ratio_scale; lra|]. replace 0 with (/ a * 0) at 1 by ring. apply ratio_scale; lra.
Qed.
Lemma apod_scale y x : apod h' y x = apod h y x.
Proof. unfold apod. rewrite theta_scale. destruct Hr as (_ & _ & _ & _ & _ & _ & _ & ->). reflexivity. Qed.
Lemma pupil_scale : gen_pupil h' = gen_pupil h.
Proof.
  unfold gen_pupil, ideal_pupil. pose proof Hr as (_ & _ & _ & _ & -> & _). f_equal. apply functional_extensionality. intros [|y [|x [|]]]; try reflexivity.
  rewrite kr_scale_h, na_scale_h. f_equal. apply Rlt_dec_iff, pos_lt.
Qed.
Lemma pupils_scale P ny nx : pupils h' P ny nx = pupils h P ny nx.
Proof.
  unfold pupils. pose proof Hr as (_ & _ & _ & _ & R5 & R6 & R7 & _). rewrite R5, R6, R7, map_length. f_equal. apply functional_extensionality. intros [|c [|z [|y [|x [|]]]]]; try reflexivity.
  now rewrite defocus_scale, apod_scale, theta_scale, phi_scale_h.
Qed.
End H.

(** HanserPSF: the same amplitudes (or the same exception), hence the same intensities and transforms. *)
Theorem C85_hanser :
  forall (a b : R) (h h' : hpar) (base : option (array C)), 0 < a -> 0 < b -> rescaled a b h h' -> gen_psf h' base = gen_psf h base.
Proof.
  intros a b h h' base Ha Hb Hr. unfold gen_psf. rewrite (pupil_scale a b h h' Ha Hb Hr). pose proof Hr as (R1 & _ & _ & R4 & R5 & _). rewrite R1, R4, R5.
  assert (Hab : 0 < a * b) by now apply Rmult_lt_0_compat.
  replace (IZR (h_size h) * (a * h_res h)) with (a * (IZR (h_size h) * h_res h)) by ring. rewrite !(zero_scale a), !(zero_scale (a * b)) by lra.
  destruct base as [P|]; [|now rewrite (pupils_scale a b h h' Ha Hb Hr)]. destruct (shape P) as [|py [|px [|]]]; try reflexivity. destruct (bdim py (h_size h)); [|reflexivity]. cbn [bind]. destruct (bdim px (h_size h)); [|reflexivity]. cbn [bind].
  now rewrite (pupils_scale a b h h' Ha Hb Hr).
Qed.
Print Assumptions C85_hanser.

Section S.
Context (a b : R) (p p' : spar) (Ha : 0 < a) (Hb : 0 < b) (Hr : s_rescaled a b p p').
Let ai_pos : 0 < / a := Rinv_0_lt_compat a Ha.
Lemma sk_scale i : sk p' i = / a * sk p i.
Proof. destruct Hr as (_ & _ & _ & R4 & R5 & _). unfold sk. rewrite R4, R5. apply scaled_fftfreq. lra. Qed.
Lemma skz_scale i : skz p' i = / a * skz p i.
Proof. destruct Hr as (_ & _ & _ & _ & _ & R6 & R7 & _). unfold skz. rewrite R6, R7. apply scaled_fftfreq. lra. Qed.
Lemma kr_scale z y x : s_kr p' z y x = / a * s_kr p z y x.
Proof.
  unfold s_kr. rewrite skz_scale, !sk_scale. rewrite <- sqrt_scale by lra. f_equal. ring.
Qed.
Lemma kmag_scale : s_kmag p' = / a * s_kmag p.
Proof. destruct Hr as (R1 & _ & R3 & _). unfold s_kmag. rewrite R1, R3. apply div_scale; lra. Qed.
Lemma nawl_scale : s_na p' / s_wl p' = / a * (s_na p / s_wl p).
Proof. destruct Hr as (R1 & R2 & _). rewrite R1, R2. apply div_scale; lra. Qed.
Lemma kzmin_scale : s_kz_min p' = / a * s_kz_min p.
Proof. unfold s_kz_min. rewrite kmag_scale, nawl_scale. rewrite <- sqrt_scale by lra. f_equal. ring. Qed.
Lemma dk_scale : s_dk p' = / a * s_dk p /\ s_dkz p' = / a * s_dkz p.
Proof. unfold s_dk, s_dkz. rewrite !sk_scale, !skz_scale. split; ring. Qed.
Lemma dkr_scale z y x : s_dkr p' z y x = / a * s_dkr p z y x.
Proof.
  unfold s_dkr. destruct dk_scale as [-> ->]. destruct (Req_EM_T (/ a * s_dk p) (/ a * s_dkz p)) as [E|E], (Req_EM_T (s_dk p) (s_dkz p)) as [F|F]; auto.
  - elim F. apply (Rmult_eq_reg_l (/ a)); auto. lra.
  - elim E. now rewrite F.
  - destruct (_ && _ && _)%bool; [ring|]. rewrite kr_scale, skz_scale, !sk_scale.
    replace ((/ a * skz p z * (/ a * s_dkz p)) ^ 2 + (/ a * sk p y * (/ a * s_dk p)) ^ 2 + (/ a * sk p x * (/ a * s_dk p)) ^ 2)
      with ((/ a * / a) ^ 2 * ((skz p z * s_dkz p) ^ 2 + (sk p y * s_dk p) ^ 2 + (sk p x * s_dk p) ^ 2)) by ring.
    rewrite sqrt_scale by (apply Rmult_le_pos; lra). destruct (Req_EM_T (s_kr p z y x) 0) as [E0|E0].
    + rewrite E0. unfold Rdiv. rewrite Rmult_0_r, Rinv_0. ring.
    + field. split; lra.
Qed.
Lemma kzz_scale z : s_kzz p' z = / a * s_kzz p z.
Proof. destruct Hr as (_ & _ & _ & _ & _ & _ & _ & _ & _ & R10). unfold s_kzz. rewrite R10, skz_scale. destruct (s_dual p); [|reflexivity]. rewrite Rabs_mult, (Rabs_pos_eq (/ a)) by lra. reflexivity. Qed.
Lemma scale_lt u v : / a * u < / a * v <-> u < v.
Proof. split; intros H; [now apply Rmult_lt_reg_l in H|now apply Rmult_lt_compat_l]. Qed.
Lemma valid_scale z y x : s_valid p' z y x = s_valid p z y x.
Proof.
  unfold s_valid. rewrite kr_scale, kmag_scale, dkr_scale, kzmin_scale, kzz_scale. f_equal; apply Rlt_dec_iff.
  - rewrite <- Rmult_minus_distr_l, Rabs_mult, (Rabs_pos_eq (/ a)) by lra. apply scale_lt.
  - rewrite <- Rmult_plus_distr_l. apply scale_lt.
Qed.
Lemma dcos_scale c z y x : dcos p' (/ a * c) z y x = dcos p c z y x.
Proof.
  unfold dcos, odiv. rewrite kr_scale. destruct (Req_EM_T (/ a * s_kr p z y x) 0) as [E|E], (Req_EM_T (s_kr p z y x) 0) as [F|F]; auto.
  - apply Rmult_integral in E. lra.
  - elim E. rewrite F. ring.
  - f_equal. field. split; lra.
Qed.
Lemma value_scale c z y x : s_value p' c z y x = s_value p c z y x.
Proof.
  unfold s_value. rewrite !sk_scale, skz_scale, !dcos_scale. unfold s_plist, s_apod. destruct Hr as (_ & _ & _ & _ & _ & _ & _ & R8 & R9 & _). now rewrite R8, R9.
Qed.
Lemma otf_scale : s_otf p' = s_otf p.
Proof.
  unfold s_otf, s_ncomp. pose proof Hr as (_ & _ & _ & _ & R5 & _ & R7 & R8 & _). rewrite R5, R7, R8. f_equal. apply functional_extensionality. intros ix.
  destruct ix as [|c [|z [|y [|x [|]]]]]; try reflexivity. now rewrite valid_scale, value_scale.
Qed.
End S.

(** SheppardPSF: the same OTF (or the same exception), hence the same PSFs. *)
Theorem C85_sheppard :
  forall (a b : R) (p p' : spar), 0 < a -> 0 < b -> s_rescaled a b p p' -> gen_otf p' = gen_otf p.
Proof.
  intros a b p p' Ha Hb Hr. assert (Hai : 0 < / a) by now apply Rinv_0_lt_compat. unfold gen_otf. rewrite (otf_scale a b p p' Ha Hb Hr), (kmag_scale a b p p' Ha Hb Hr), (nawl_scale a b p p' Ha Hb Hr).
  destruct Hr as (R1 & R2 & R3 & R4 & R5 & R6 & R7 & _). rewrite R1, R4, R5, R6, R7.
  assert (Hab : 0 < a * b) by now apply Rmult_lt_0_compat.
  replace (IZR (s_size p) * (a * s_res p)) with (a * (IZR (s_size p) * s_res p)) by ring. replace (IZR (s_zsize p) * (a * s_zres p)) with (a * (IZR (s_zsize p) * s_zres p)) by ring. rewrite !(zero_scale a), !(zero_scale (a * b)) by lra.
  destruct (Req_EM_T _ _); [reflexivity|]. destruct (Req_EM_T _ _); [reflexivity|]. destruct (Req_EM_T _ _); [reflexivity|].
  destruct (orb _ _); [reflexivity|]. apply Rlt_dec_iff. rewrite !Rpow_mult_distr, <- Rmult_minus_distr_l. assert (0 < (/ a) ^ 2) by now apply pow_lt.
  set (q := (/ a) ^ 2) in *. clearbody q. split; intros H'; [apply (Rmult_lt_reg_l q); [assumption|now rewrite Rmult_0_r]|rewrite <- (Rmult_0_r q); now apply Rmult_lt_compat_l].
Qed.
Print Assumptions C85_sheppard.

(** Of the objects: whatever their histories, two HanserPSFs (SheppardPSFs) whose attributes are rescaled versions of each other, with
    the same pupil in force, show the same four arrays (or raise the same exception). *)
Lemma constructed_ready c k o0 hist : construct numeric c k = Ok o0 -> let o := run numeric c hist o0 in match c with Hanser => h_ready (obj_params o) = true | Sheppard => s_ready (obj_params o) = true end.
Proof.
  intros Hk o. assert (S : forall a, (a = A_dual -> c = Sheppard) -> exists v, o_attr o a = Some v) by (intros a Ha; destruct (C26_parameters_valid numeric c k o0 hist a Hk Ha) as (v & Hv & _); eauto).
  destruct (S A_wl ltac:(discriminate)) as [? E1]. destruct (S A_na ltac:(discriminate)) as [? E2]. destruct (S A_ni ltac:(discriminate)) as [? E3]. destruct (S A_res ltac:(discriminate)) as [? E4]. destruct (S A_size ltac:(discriminate)) as [? E5].
  destruct (S A_vec_corr ltac:(discriminate)) as [? E6]. destruct (S A_condition ltac:(discriminate)) as [? E7]. destruct (S A_zres ltac:(discriminate)) as [? E8]. destruct (S A_zsize ltac:(discriminate)) as [? E9].
  destruct c.
  - unfold h_ready, all_set, obj_params. cbn [p_wl p_na p_ni p_res p_size p_vec_corr p_condition p_zrange forallb]. rewrite E1, E2, E3, E4, E5, E6, E7. cbn. destruct (o_zrange o) eqn:Ez; [reflexivity|]. exfalso. pose proof (reachable_valid numeric Hanser k o0 hist Hk) as V. apply V; auto.
  - destruct (S A_dual ltac:(reflexivity)) as [? E10]. unfold s_ready, all_set, obj_params. cbn [p_wl p_na p_ni p_res p_size p_zres p_zsize p_vec_corr p_condition p_dual forallb]. now rewrite E1, E2, E3, E4, E5, E6, E7, E8, E9, E10.
Qed.
Theorem C85_hanser_objects :
  forall (a b : R) (k k' : ctor) (o0 o0' : obj numeric) (hist hist' : list (op numeric)) (h h' : hpar),
    construct numeric Hanser k = Ok o0 -> construct numeric Hanser k' = Ok o0' ->
    let o := run numeric Hanser hist o0 in let o' := run numeric Hanser hist' o0' in
    in_force numeric Hanser hist' o0' None = in_force numeric Hanser hist o0 None ->
    h_describes h o -> h_describes h' o' -> 0 < a -> 0 < b -> rescaled a b h h' ->
    forall s, fst (read numeric Hanser s o') = fst (read numeric Hanser s o).
Proof.
  intros a b k k' o0 o0' hist hist' h h' Hk Hk' o o' Hf Hd Hd' Ha Hb Hr s. unfold o, o'. rewrite (C24_reads_are_fresh numeric Hanser k o0 hist s Hk), (C24_reads_are_fresh numeric Hanser k' o0' hist' s Hk'), Hf.
  assert (E : forall g, e_gen_psf numeric (obj_params o') g = e_gen_psf numeric (obj_params o) g).
  { intros g. cbn [numeric e_gen_psf]. unfold o, o'. rewrite (constructed_ready Hanser k o0 hist Hk), (constructed_ready Hanser k' o0' hist' Hk'). fold o o'. rewrite (h_described _ _ Hd), (h_described _ _ Hd'). now rewrite (C85_hanser a b h h' g Ha Hb Hr). }
  fold o o'. destruct s; cbn [scratch scratch_PSFa]; now rewrite E.
Qed.
Print Assumptions C85_hanser_objects.
Theorem C85_sheppard_objects :
  forall (a b : R) (k k' : ctor) (o0 o0' : obj numeric) (hist hist' : list (op numeric)) (p p' : spar),
    construct numeric Sheppard k = Ok o0 -> construct numeric Sheppard k' = Ok o0' ->
    let o := run numeric Sheppard hist o0 in let o' := run numeric Sheppard hist' o0' in
    s_describes p o -> s_describes p' o' -> 0 < a -> 0 < b -> s_rescaled a b p p' ->
    forall s, fst (read numeric Sheppard s o') = fst (read numeric Sheppard s o).
Proof.
  intros a b k k' o0 o0' hist hist' p p' Hk Hk' o o' Hd Hd' Ha Hb Hr s. unfold o, o'. rewrite (C24_reads_are_fresh numeric Sheppard k o0 hist s Hk), (C24_reads_are_fresh numeric Sheppard k' o0' hist' s Hk').
  assert (E : e_gen_otf numeric (obj_params o') = e_gen_otf numeric (obj_params o)).
  { cbn [numeric e_gen_otf]. unfold o, o'. rewrite (constructed_ready Sheppard k o0 hist Hk), (constructed_ready Sheppard k' o0' hist' Hk'). fold o o'. rewrite (s_described _ _ Hd), (s_described _ _ Hd'). exact (C85_sheppard a b p p' Ha Hb Hr). }
  fold o o'. destruct s; cbn [scratch scratch_PSFa]; now rewrite E.
Qed.
Print Assumptions C85_sheppard_objects.

(** ** C86 *)
(** Two HanserPSFs that differ in their z positions only: planes at the same height are equal, whatever the other planes are. *)
Definition same_but_planes (h h' : hpar) : Prop :=
  h_wl h' = h_wl h /\ h_na h' = h_na h /\ h_ni h' = h_ni h /\ h_res h' = h_res h /\ h_size h' = h_size h /\ h_vec h' = h_vec h /\ h_cond h' = h_cond h.
Theorem C86_planes :
  forall (h h' : hpar) (base : option (array C)) (A A' : array C) (z z' : nat),
    physical h -> same_but_planes h h' -> (forall P, base = Some P -> on_grid h P) ->
    gen_psf h base = Ok A -> gen_psf h' base = Ok A' ->
    (z < List.length (h_zrange h))%nat -> (z' < List.length (h_zrange h'))%nat -> nth z' (h_zrange h') 0 = nth z (h_zrange h) 0 ->
    forall c y x, (0 <= c < components (h_vec h))%Z -> (0 <= y < h_size h)%Z -> (0 <= x < h_size h)%Z ->
      get A' [c; Z.of_nat z'; y; x] = get A [c; Z.of_nat z; y; x] /\
      get (sumsq A') [Z.of_nat z'; y; x] = get (sumsq A) [Z.of_nat z; y; x].
Proof.
  intros h h' base A A' z z' Hph Hsb Hg HA HA' Hz Hz' E c y x Hc Hy Hx.
  assert (Hph' : physical h') by (destruct Hsb as (R1 & R2 & R3 & R4 & R5 & _); unfold physical; rewrite R1, R2, R3, R4, R5; exact Hph).
  assert (Hg' : forall P, base = Some P -> on_grid h' P) by (intros P EP; unfold on_grid; destruct Hsb as (_ & _ & _ & _ & -> & _); exact (Hg P EP)).
  assert (Hh : h' = mkHpar (h_wl h) (h_na h) (h_ni h) (h_res h) (h_size h) (h_zrange h') (h_vec h) (h_cond h)) by (destruct Hsb as (<- & <- & <- & <- & <- & <- & <-); now destruct h').
  destruct (gen_psf_val h Hph _ _ HA Hg) as [S V]. destruct (gen_psf_val h' Hph' _ _ HA' Hg') as [S' V'].
  assert (G : forall c, get A' [c; Z.of_nat z'; y; x] = get A [c; Z.of_nat z; y; x]).
  { intros d. rewrite V by auto. rewrite V' by (destruct Hsb as (_ & _ & _ & _ & -> & _); auto). clear -Hh E. revert Hh E. generalize (h_zrange h'). intros l -> E. cbn [h_zrange] in E.
    cbn [h_size]. f_equal. cbn [mop]. apply Csum_ext. intros j _. f_equal. apply Csum_ext. intros i _. f_equal.
    unfold pup. cbn [h_vec]. f_equal. f_equal. f_equal. unfold defocus. cbn [h_zrange]. rewrite !Nat2Z.id, E. reflexivity. }
  split; [apply G|]. cbn [sumsq get]. rewrite S, S'. cbn [hd]. destruct Hsb as (_ & _ & _ & _ & _ & -> & _). apply Rsum_ext. intros d _. now rewrite G.
Qed.
Print Assumptions C86_planes.
Theorem C86_objects :
  forall (k k' : ctor) (o0 o0' : obj numeric) (hist hist' : list (op numeric)) (h h' : hpar) (z z' : nat),
    construct numeric Hanser k = Ok o0 -> construct numeric Hanser k' = Ok o0' ->
    let o := run numeric Hanser hist o0 in let o' := run numeric Hanser hist' o0' in
    let base := in_force numeric Hanser hist o0 None in
    in_force numeric Hanser hist' o0' None = base -> (forall P, base = Some P -> shape P = [h_size h; h_size h]) ->
    h_describes h o -> h_describes h' o' -> physical h -> same_but_planes h h' ->
    (z < List.length (h_zrange h))%nat -> (z' < List.length (h_zrange h'))%nat -> nth z' (h_zrange h') 0 = nth z (h_zrange h) 0 ->
    exists v v', fst (read numeric Hanser PSFi o) = Ok v /\ fst (read numeric Hanser PSFi o') = Ok v' /\
      forall y x, (0 <= y < h_size h)%Z -> (0 <= x < h_size h)%Z -> get v' [Z.of_nat z'; y; x] = get v [Z.of_nat z; y; x].
Proof.
  intros k k' o0 o0' hist hist' h h' z z' Hk Hk' o o' base Hf' Hg Hd Hd' Hph Hsb Hz Hz' E.
  assert (Hph' : physical h') by (destruct Hsb as (R1 & R2 & R3 & R4 & R5 & _); unfold physical; rewrite R1, R2, R3, R4, R5; exact Hph).
  destruct (gen_psf_ok h Hph base Hg) as [A HA]. assert (Hg' : forall P, base = Some P -> on_grid h' P) by (intros P EP; unfold on_grid; destruct Hsb as (_ & _ & _ & _ & -> & _); exact (Hg P EP)).
  destruct (gen_psf_ok h' Hph' base Hg') as [A' HA'].
  assert (G : gen_psf (hpar_of (obj_params o)) (in_force numeric Hanser hist o0 None) = Ok A) by (rewrite (h_described _ _ Hd); exact HA).
  assert (G' : gen_psf (hpar_of (obj_params o')) (in_force numeric Hanser hist' o0' None) = Ok A') by (rewrite Hf', (h_described _ _ Hd'); exact HA').
  destruct (C73_hanser_objects k o0 hist A Hk G) as (_ & Ei & _). destruct (C73_hanser_objects k' o0' hist' A' Hk' G') as (_ & Ei' & _).
  eexists _, _. split; [exact Ei|]. split; [exact Ei'|]. intros y x Hy Hx. cbn [amap get]. do 2 f_equal.
  apply (C86_planes h h' base A A' z z' Hph Hsb Hg HA HA' Hz Hz' E 0%Z y x); auto. destruct (h_vec h); cbn; lia.
Qed.
Print Assumptions C86_objects.

(** ** The hypotheses can be met *)
(** nanometres to micrometres, and all indices tripled *)
Example C85_case : exists h', rescaled (/ 1000) 3 (demo VecTotal CondSine) h' /\ 0 < / 1000 /\ physical (demo VecTotal CondSine).
Proof.
  exists (mkHpar (/ 1000 * 3 * 500) (3 * 1) (3 * (4 / 3)) (/ 1000 * 100) 4 (map (fun z => / 1000 * z) [-200; 0; 200]) VecTotal CondSine).
  split; [repeat split|]. split; [lra|apply demo_physical].
Qed.
Example C85_sheppard_case : exists p p', s_physical p /\ s_na p <= s_ni p /\ s_rescaled 2 1 p p'.
Proof.
  exists (mkSpar 520 1 (3 / 2) 90 64 100 7 VecTotal CondSine false), (mkSpar (2 * 1 * 520) (1 * 1) (1 * (3 / 2)) (2 * 90) 64 (2 * 100) 7 VecTotal CondSine false).
  split; [|split; [cbn; lra|repeat split]]. unfold s_physical. cbn. repeat split; lra || lia.
Qed.
Example C86_case : exists h', same_but_planes (demo VecTotal CondSine) h' /\ nth 1 (h_zrange h') 0 = nth 2 (h_zrange (demo VecTotal CondSine)) 0 /\ List.length (h_zrange h') = 2%nat.
Proof. exists (mkHpar 500 1 (4 / 3) 100 4 [17; 200] VecTotal CondSine). repeat split. Qed.
