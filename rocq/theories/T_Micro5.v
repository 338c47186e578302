(** Microscopes on the Hanser model: there is light, so the PSF exists; and witnesses for C55 - C57. *)
From Verif Require Import S_FFT S_Hanser S_Micro S_Bin L_Sum L_Bin L_PSF L_Ctor L_Phase5 L_Micro T_PSF T_Bin L_Array L_FFT L_FFT2 L_Phase2 L_Polar T_Hanser T_Object T_Micro T_Micro2 T_Micro3 L_Micro2 T_Micro4.
Import M_Array.
Local Open Scope R_scope.

(** ** Light *)
Lemma sfreq0 n d : (0 < n)%Z -> sfreq n d 0 = 0.
Proof.
  intros H. unfold sfreq. rewrite Z.mod_small.
  - replace (0 + n / 2 - n / 2)%Z with 0%Z by lia. unfold Rdiv. ring.
  - pose proof (Z.div_pos n 2 ltac:(lia) ltac:(lia)). split; [lia|]. enough (n / 2 < n)%Z by lia. apply Z.div_lt; lia.
Qed.
Lemma k2_ge0 h y x : 0 <= S_Hanser.k2 h y x.
Proof. unfold S_Hanser.k2. nra. Qed.
Lemma k2_00 h : (0 < h_size h)%Z -> S_Hanser.k2 h 0 0 = 0.
Proof. intros H. unfold S_Hanser.k2. rewrite sfreq0 by exact H. ring. Qed.
Lemma quot_sq a b : 0 < a -> 0 < b -> (a / b) ^ 2 * (b / a) ^ 2 = 1.
Proof. intros. field. lra. Qed.
Lemma sin2_range h y x : physical h -> 0 <= S_Hanser.sin2 h y x < 1.
Proof.
  intros (H1 & _ & H2 & _). unfold S_Hanser.sin2. pose proof (k2_ge0 h y x). pose proof (quot_sq _ _ H2 H1).
  assert (P : 0 < (h_wl h / h_ni h) ^ 2) by (apply pow_lt, Rdiv_lt_0_compat; auto).
  destruct (Rlt_dec _ _) as [L|]; [|lra]. split; [nra|]. rewrite <- H0. apply Rmult_lt_compat_r; auto.
Qed.
Lemma dir_sum h y x : dirx2 h y x + diry2 h y x = S_Hanser.sin2 h y x.
Proof. unfold dirx2, diry2, S_Hanser.sin2, S_Hanser.k2. destruct (Rlt_dec _ _); ring. Qed.
Lemma dirs_ge0 h y x : 0 <= dirx2 h y x /\ 0 <= diry2 h y x.
Proof. unfold dirx2, diry2. destruct (Rlt_dec _ _); split; try lra; apply pow2_ge_0. Qed.
Lemma cond_pos h y x : physical h -> 0 < cond_weight h y x.
Proof.
  intros H. pose proof (sin2_range h y x H). unfold cond_weight. destruct (h_cond h); [lra| |].
  - apply Rdiv_lt_0_compat; [lra|]. apply sqrt_lt_R0. lra.
  - apply Rdiv_lt_0_compat; lra.
Qed.
Lemma pol_ge0 h v y x : physical h -> 0 <= pol_weight h v y x.
Proof. intros H. pose proof (sin2_range h y x H). pose proof (dir_sum h y x). pose proof (dirs_ge0 h y x). destruct v; cbn; lra. Qed.
Lemma pol_00 h v : physical h -> v <> VecZ -> 0 < pol_weight h v 0 0.
Proof.
  intros H N. destruct H as (H1 & _ & H2 & H3 & H4).
  assert (X : dirx2 h 0 0 = 0 /\ diry2 h 0 0 = 0) by (unfold dirx2, diry2; rewrite sfreq0 by exact H4; destruct (Rlt_dec _ _); split; ring). destruct v; cbn; try lra. congruence.
Qed.
(** Every plane of the ideal model gets light, except when only the z-polarised field is kept. *)
Theorem C31_light : forall h A z, physical h -> 0 < h_na h -> h_vec h <> VecZ -> M_Hanser.gen_psf h None = Ok A ->
  0 < plane_sum (h_size h) (fun y x => get (sumsq A) [z; y; x]).
Proof.
  intros h A z Hp Hna Hv HA. rewrite (C31_plane_energy h None A z Hp ltac:(discriminate) HA). pose proof Hp as (H1 & _ & H2 & H3 & H4).
  apply Rmult_lt_0_compat; [apply Rinv_0_lt_compat, IZR_lt; nia|]. unfold plane_sum.
  assert (T : forall y x, 0 <= Cmod (used_pupil h None y x) ^ 2 * cond_weight h y x * pol_weight h (h_vec h) y x).
  { intros y x. apply Rmult_le_pos; [apply Rmult_le_pos; [apply pow2_ge_0|apply Rlt_le; now apply cond_pos]|now apply pol_ge0]. }
  apply (Rsum_pos _ _ 0%Z); [intros; apply Rsum_nonneg; auto|apply in_zseq; lia|]. apply (Rsum_pos _ _ 0%Z); [auto|apply in_zseq; lia|].
  cbn [used_pupil]. rewrite k2_00 by exact H4. destruct (Rlt_dec 0 _) as [|N]; [|exfalso; apply N, pow_lt, Rdiv_lt_0_compat; auto].
  rewrite Cmod_R, Rabs_R1. replace (1 ^ 2) with 1 by ring. rewrite Rmult_1_l. apply Rmult_lt_0_compat; [now apply cond_pos|now apply pol_00].
Qed.
Print Assumptions C31_light.

(** ** C55 for Hanser models: nothing about the computed image is assumed. *)
Theorem C55_hanser : forall a m, kwargs_ok a -> WidefieldMicroscope a = Ok m -> mi_cls m = Hanser ->
  let h := hpar_of (obj_params (mi_model m)) in
  physical h -> 0 < h_na h -> h_vec h <> VecZ -> h_zrange h <> [] ->
  exists A n f r, M_Hanser.gen_psf h None = Ok A /\ int_value (w_size a) = Some n /\ int_value (w_os a) = Some f /\
    h_size h = (n * f)%Z /\ fst (m_PSF m) = Ok r /\
    let nz := Z.of_nat (List.length (h_zrange h)) in
    shape r = [nz; n; n] /\ 0 < Rsum (all_ix [nz; n * f; n * f]%Z) (get (sumsq A)) /\
    (forall z y x, inb [nz; n; n] [z; y; x] ->
      get r [z; y; x] = Some (collected (sumsq A) n f z y x / Rsum (all_ix [nz; n * f; n * f]%Z) (get (sumsq A)))) /\
    image_sum r = 1.
Proof.
  intros a m Hk Hm Hc h Hp Hna Hv Hz. destruct (proj1 (C30_computes h Hp)) as [A HA].
  destruct (built_wide_result a m (built_wide a m Hm)) as (k & f0 & p & c & kk & o & _ & _ & _ & _ & _ & _ & _ & Eo & Hc' & _ & _ & Hmod & _). rewrite Hc in Hc'. subst c.
  assert (Sh : shows (mi_model m) A).
  { rewrite Hmod. apply (C73_hanser_objects kk o [] A Eo). cbn [run in_force]. unfold h in HA. rewrite Hmod in HA. exact HA. }
  destruct Sh as (_ & S2 & _). set (B := amap (fun r => Some (RtoC r)) (sumsq A)) in *.
  assert (Fin : finite_all B = true) by (unfold finite_all; apply forallb_forall; reflexivity).
  rewrite <- Hc in S2. destruct (C55_widefield a m B Hk Hm S2 Fin) as (nz & n & f & Hn & Hf & HS & _ & X). cbv zeta in X.
  destruct (C30_shape_sign h None A Hp ltac:(discriminate) HA) as (_ & SS & NN). cbn [B amap shape] in HS. rewrite SS in HS. injection HS as Z1' Z2' _. assert (Z1 : Z.of_nat (List.length (h_zrange h)) = nz) by exact Z1'. assert (Z2 : h_size h = (n * f)%Z) by exact Z2'. clear Z1' Z2'.
  assert (Pos : 0 < Rsum (all_ix [nz; n * f; n * f]%Z) (get (sumsq A))).
  { rewrite <- Z1, <- Z2. rewrite Rsum_all3. assert (L0 : (0 < Z.of_nat (List.length (h_zrange h)))%Z) by (destruct (h_zrange h); [congruence|cbn [List.length]; lia]).
    apply (Rsum_pos _ _ 0%Z); [|apply in_zseq; exact (conj (Z.le_refl 0) L0)|].
    - intros z _. exact (Rlt_le _ _ (C31_light h A z Hp Hna Hv HA)).
    - exact (C31_light h A 0 Hp Hna Hv HA). }
  assert (SB : shape B = [nz; n * f; n * f]%Z) by (unfold B; cbn [amap shape]; rewrite SS, Z1, Z2; reflexivity).
  assert (L1 : Rsum (all_ix (shape B)) (get (amap (fun v => Re (cval v)) B)) = Rsum (all_ix [nz; n * f; n * f]%Z) (get (sumsq A))) by (rewrite SB; reflexivity).
  rewrite L1 in X. destruct (X ltac:(lra)) as (r & E1 & E2 & E3 & E4).
  exists A, n, f, r. split; [exact HA|]. split; [exact Hn|]. split; [exact Hf|]. split; [exact Z2|]. split; [exact E1|]. rewrite Z1. split; [exact E2|]. split; [exact Pos|]. split; [exact E3|exact E4].
Qed.
Print Assumptions C55_hanser.

(** ** Witnesses: the microscope [a0] (Hanser, na 1.2, ni 4/3, wl 0.52, 64 pixels of 0.1, oversampling 3, 16 planes). *)
Definition a0_ctor : ctor := model_ctor Hanser a0 (VInt 192) (VFloat (FFin ((1 # 10) / inject_Z 3)%Q)) None.
Definition a0_params : params := Eval vm_compute in match construct toy Hanser a0_ctor with Ok o => obj_params o | Err _ => obj_params (empty_obj toy) end.
Lemma a0_made (E : engine) : exists o, construct E Hanser a0_ctor = Ok o /\ obj_params o = a0_params.
Proof. eexists. split; vm_compute; reflexivity. Qed.
Lemma a0_built : exists m, WidefieldMicroscope a0 = Ok m /\ mi_cls m = Hanser /\ obj_params (mi_model m) = a0_params.
Proof.
  destruct C54_witness as (m & Hm & Hc & _). exists m. split; [exact Hm|]. split; [exact Hc|].
  destruct (a0_made numeric) as (o & Ho & Po). unfold WidefieldMicroscope, make in Hm. rewrite wide_eq in Hm. cbn [a0 w_os int_value] in Hm. change (3 <? 0)%Z with false in Hm. change (Z.even 3) with false in Hm. cbv zeta iota in Hm.
  change (fine_pair a0 3) with (@Ok (pyval * pyval) (VInt 192, VFloat (FFin ((1 # 10) / inject_Z 3)%Q))) in Hm. cbn [bind] in Hm. change (choose_model (w_model a0)) with (@Ok cls Hanser) in Hm. cbn [bind fst snd] in Hm.
  rewrite ctor_for_eq in Hm; [|apply a0_kwargs|intros k [<-|[]]; cbn; tauto]. change (zrange_kw (w_kwargs a0)) with (@Ok (option zrange_arg) None) in Hm. cbn [bind] in Hm. unfold a0_ctor in Ho. rewrite Ho in Hm. cbn [bind] in Hm. injection Hm as <-. exact Po.
Qed.
Lemma a0_physical : let h := hpar_of a0_params in physical h /\ 0 < h_na h /\ h_vec h = VecNone /\ List.length (h_zrange h) = 16%nat.
Proof. cbn. unfold physical. cbn. unfold Q2R. cbn. repeat split; try lra; lia. Qed.
Example C55_witness : exists m r, WidefieldMicroscope a0 = Ok m /\ fst (m_PSF m) = Ok r /\ shape r = [16; 64; 64]%Z /\ image_sum r = 1 /\ nonneg_image r.
Proof.
  destruct a0_built as (m & Hm & Hc & Hp). destruct a0_physical as (P1 & P2 & P3 & P4).
  pose proof (C55_hanser a0 m a0_kwargs Hm Hc) as X. cbv zeta in X. rewrite Hp in X. set (h := hpar_of a0_params) in *.
  assert (Nv : h_vec h <> VecZ) by (rewrite P3; discriminate). assert (Nz : h_zrange h <> []) by (intros E; rewrite E in P4; discriminate P4).
  destruct (X P1 P2 Nv Nz) as (A & n & f & r & _ & Hn & _ & _ & Er & Sr & _ & _ & Sm). exists m, r. rewrite P4 in Sr. cbn in Hn. injection Hn as <-.
  split; [exact Hm|]. split; [exact Er|]. split; [exact Sr|]. split; [exact Sm|].
  apply (C56_nonnegative a0 m [] r (built_wide a0 m Hm)); [|intros o []|exact Er]. rewrite (made_kind _ _ _ (wide_kind a0) Hm). discriminate.
Qed.
Example C56_witness : exists m r, built m /\ fresh m = Ok r /\ shape r = [16; 64; 64]%Z /\ (forall ix, inb (shape r) ix -> get r ix <> None) /\ image_sum r = 1.
Proof.
  destruct a0_built as (m & Hm & Hc & Hp). destruct a0_physical as (P1 & P2 & P3 & P4). pose proof (built_wide a0 m Hm) as Hb.
  pose proof (C55_hanser a0 m a0_kwargs Hm Hc) as X. cbv zeta in X. rewrite Hp in X. set (h := hpar_of a0_params) in *.
  assert (Nv : h_vec h <> VecZ) by (rewrite P3; discriminate). assert (Nz : h_zrange h <> []) by (intros E; rewrite E in P4; discriminate P4).
  destruct (X P1 P2 Nv Nz) as (A & n & f & r & _ & Hn & _ & _ & Er & Sr & _ & Vr & Sm). exists m, r. rewrite P4 in Sr, Vr. cbn in Hn. injection Hn as <-.
  split; [now exists a0|]. split; [|split; [exact Sr|split; [|exact Sm]]].
  - destruct (C57_snapshot m [] (ex_intro _ a0 Hb)) as [E _]. cbn [mrun snapshot] in E. congruence.
  - rewrite Sr. intros ix Hix. pose proof (inb_length _ _ Hix) as Hl. destruct ix as [|z [|y [|x [|? ?]]]]; try discriminate Hl. rewrite (Vr z y x) by exact Hix. discriminate.
Qed.
(** assigning the oversampling factor 5 recomputes; assigning 3 again, or anything on m.model, does not *)
Example C57_witness : exists m, built m /\ m_effective (mrun [MReadPSF] m) (MSet MOs (VInt 5)) = true /\ m_effective (mrun [MReadPSF] m) (MSet MOs (VInt 3)) = false /\
  is_ok (fst (m_PSF (mrun [] m))) = true.
Proof.
  destruct C55_witness as (m & r & Hm & Hr & _). exists m. split; [exists a0; now apply built_wide|].
  destruct (built_wide_result a0 m (built_wide a0 m Hm)) as (k & f & p & c & kk & o & _ & _ & _ & _ & _ & _ & _ & _ & _ & _ & _ & _ & Hos).
  assert (N : mi_num (mrun [MReadPSF] m) MOs = Some (VInt 3)).
  { cbn [mrun mexec]. unfold m_PSF. destruct (mi_psf m); [exact Hos|]. unfold mbind at 1. assert (H : mi_num (snd (compute_psf m)) = mi_num m) by (assert (ST : stable compute_psf) by (unfold compute_psf; apply stable_bind; [apply stable_model_psf|intros ?; stable_tac]); apply ST). destruct (compute_psf m) as [[x|e] q]; cbn [snd upd_cache mi_num] in *; rewrite H; exact Hos. }
  unfold m_effective. rewrite N. split; [reflexivity|]. split; [reflexivity|]. cbn [mrun]. rewrite Hr. reflexivity.
Qed.
