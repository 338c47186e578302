(** SheppardPSF numerics (pyotf/otf.py:491-586).  [None] is a number that is not finite (NaN or inf). *)
From Verif Require Import M_Sheppard S_Sheppard S_Hanser S_FFT L_Array L_Sum L_FFT L_FFT2 L_Polar L_Hanser L_Hanser2 L_Sheppard L_Sheppard2 L_Sheppard3 L_Sheppard4 T_Hanser.
Local Open Scope R_scope.

(** 500 nm, NA 1, n = 4/3, 4 x 4 pixels of 100 nm, 32 planes 100 nm apart. *)
Definition sdemo (v : vec) (c : cond) (dual : bool) : spar := mkSpar 500 1 (4 / 3) 100 4 100 32 v c dual.
Example sdemo_physical v c d : s_physical (sdemo v c d).
Proof. unfold s_physical, sdemo; cbn. repeat split; try lra; lia. Qed.

(** ** C39: rejection of impossible apertures. *)
Theorem C39_rejection :
  forall (p : spar), s_physical p ->
    (s_ni p < s_na p -> gen_otf p = Err AssertionError) /\
    (s_na p <= s_ni p -> exists A, gen_otf p = Ok A).
Proof.
  intros p Hp. rewrite (gen_otf_cases p Hp). destruct (Rlt_dec _ _); split; intros; auto; try lra. eauto.
Qed.
Print Assumptions C39_rejection.
(** A single plane or a single pixel cannot be computed: the code reads k[1]. *)
Theorem C39_single_sample :
  forall (p : spar), 0 < s_wl p -> 0 < s_res p -> 0 < s_zres p -> (0 < s_size p)%Z -> (0 < s_zsize p)%Z ->
    (s_size p = 1 \/ s_zsize p = 1)%Z -> gen_otf p = Err IndexError.
Proof.
  intros p Hw Hr Hz Hs Hzs H1. unfold gen_otf.
  destruct (Req_EM_T _ _) as [E|_]. { apply Rmult_integral in E. destruct E as [E|E]; [apply eq_IZR in E; lia|lra]. }
  destruct (Req_EM_T _ _) as [E|_]. { apply Rmult_integral in E. destruct E as [E|E]; [apply eq_IZR in E; lia|lra]. }
  destruct (Req_EM_T _ _) as [E|_]; [lra|].
  assert (E : ((s_size p <? 2) || (s_zsize p <? 2))%Z = true) by lia. now rewrite E.
Qed.
Print Assumptions C39_single_sample.
(** HanserPSF computes with any na, in particular na > ni. *)
Theorem C39_hanser_accepts :
  forall (h : hpar), physical h -> h_ni h < h_na h -> exists A, gen_psf h None = Ok A.
Proof. intros h Hh _. apply C30_computes, Hh. Qed.
Print Assumptions C39_hanser_accepts.
Example C39_hanser_case : physical (mkHpar 500 2 1 100 4 [0] VecNone CondNone) /\ (1 < 2)%R.
Proof. unfold physical; cbn. repeat split; try lra; lia. Qed.

(** Support: zero off the shell, zero at and below the aperture cone. *)
Theorem C39_support :
  forall (p : spar) (A : array (option C)) (c kz ky kx : Z),
    s_physical p -> gen_otf p = Ok A -> on_ix p kz ky kx ->
    ( Rmax (pl p) (pz p) <= Rabs (kabs p kz ky kx - s_ni p / s_wl p) \/ height p kz <= cone p ) ->
    get A [c; kz; ky; kx] = Some (RtoC 0).
Proof.
  intros p A c kz ky kx Hp HA (Hz & Hy & Hx) H. rewrite (gen_otf_inv p Hp A HA).
  rewrite otf_get. destruct (s_valid p (un (s_zsize p) kz) (un (s_size p) ky) (un (s_size p) kx)) eqn:Ev; auto.
  exfalso. destruct (valid_kz p _ _ _ Ev) as (Hd & _). apply valid_iff in Ev. destruct Ev as [E1 E2].
  rewrite (kr_un p Hp) in E1 by auto. rewrite (kzz_un p Hp) in E2 by auto. pose proof (dkr_upper p Hp (un (s_zsize p) kz) (un (s_size p) ky) (un (s_size p) kx)).
  unfold s_kmag in E1. change (s_kz_min p) with (cone p) in E2. destruct H; lra.
Qed.
Print Assumptions C39_support.
(** ... and the scalar OTF is 1 on the part of the shell well inside the aperture. *)
Theorem C39_inside :
  forall (p : spar) (A : array (option C)) (kz ky kx : Z),
    s_physical p -> s_vec p = VecNone -> (2 < s_size p)%Z -> (2 < s_zsize p)%Z -> gen_otf p = Ok A -> on_ix p kz ky kx ->
    Rabs (kabs p kz ky kx - s_ni p / s_wl p) < Rmin (pl p) (pz p) -> cone p + Rmax (pl p) (pz p) < height p kz ->
    get A [0%Z; kz; ky; kx] = Some (RtoC 1).
Proof. intros p A kz ky kx Hp Hv H2 H2z HA (Hz & Hy & Hx) H1 Hc. rewrite (gen_otf_inv p Hp A HA). now apply (inside p Hp). Qed.
Print Assumptions C39_inside.
(** every value of the scalar OTF is 0 or 1 *)
Theorem C39_zero_one :
  forall (p : spar) (A : array (option C)) (kz ky kx : Z),
    s_physical p -> s_vec p = VecNone -> gen_otf p = Ok A ->
    get A [0%Z; kz; ky; kx] = Some (RtoC 0) \/ get A [0%Z; kz; ky; kx] = Some (RtoC 1).
Proof.
  intros p A kz ky kx Hp Hv HA. rewrite (gen_otf_inv p Hp A HA), otf_get. destruct (s_valid p _ _ _); auto. unfold s_value. rewrite Hv. now right.
Qed.
Print Assumptions C39_zero_one.

(** the demo geometry has an on-axis point in the band *)
Lemma sdemo_valid v c d : s_valid (sdemo v c d) 8 0 0 = true /\ s_valid (sdemo v c true) 24 0 0 = true.
Proof.
  assert (Hc : s_kz_min (sdemo v c d) < 18 / 10000).
  { unfold s_kz_min, s_kmag, sdemo. cbn [s_ni s_wl s_na]. rewrite <- (sqrt_pow2 (18 / 10000)) by lra. apply sqrt_lt_1_alt. lra. }
  assert (Ek0 : forall d, sk (sdemo v c d) 0 = 0) by (intros; unfold sk, fftfreq, sdemo, fftfreq_ix; cbn; field).
  assert (Ek1 : forall d, sk (sdemo v c d) 1 = 1 / 400) by (intros; unfold sk, fftfreq, sdemo, fftfreq_ix; cbn; field).
  assert (Ez0 : forall d, skz (sdemo v c d) 0 = 0) by (intros; unfold skz, fftfreq, sdemo, fftfreq_ix; cbn; field).
  assert (Ez1 : forall d, skz (sdemo v c d) 1 = 1 / 3200) by (intros; unfold skz, fftfreq, sdemo, fftfreq_ix; cbn; field).
  assert (Ez8 : forall d, skz (sdemo v c d) 8 = 1 / 400) by (intros; unfold skz, fftfreq, sdemo, fftfreq_ix; cbn; field).
  assert (Ez24 : forall d, skz (sdemo v c d) 24 = - (1 / 400)) by (intros; unfold skz, fftfreq, sdemo, fftfreq_ix; cbn; field).
  assert (Es : sqrt ((1 / 400) ^ 2 + 0 ^ 2 + 0 ^ 2) = 1 / 400).
  { replace ((1 / 400) ^ 2 + 0 ^ 2 + 0 ^ 2) with ((1 / 400) ^ 2) by ring. apply sqrt_pow2. lra. }
  assert (Es' : sqrt ((- (1 / 400)) ^ 2 + 0 ^ 2 + 0 ^ 2) = 1 / 400).
  { replace ((- (1 / 400)) ^ 2 + 0 ^ 2 + 0 ^ 2) with ((1 / 400) ^ 2) by ring. apply sqrt_pow2. lra. }
  assert (Er : forall w, (w = 1 / 400 \/ w = - (1 / 400)) -> sqrt ((w * (1 / 3200 - 0)) ^ 2 + (0 * (1 / 400 - 0)) ^ 2 + (0 * (1 / 400 - 0)) ^ 2) / (1 / 400) = 1 / 3200).
  { intros w Hw. replace ((w * (1 / 3200 - 0)) ^ 2 + (0 * (1 / 400 - 0)) ^ 2 + (0 * (1 / 400 - 0)) ^ 2) with ((1 / 400 * (1 / 3200)) ^ 2) by (destruct Hw as [->| ->]; field).
    rewrite sqrt_pow2 by lra. lra. }
  assert (Hdk : 1 / 400 - 0 <> 1 / 3200 - 0) by lra.
  assert (Km : forall d, s_kmag (sdemo v c d) = 4 / 1500) by (intros; unfold s_kmag, sdemo; cbn; field).
  split; apply valid_iff; unfold s_kr, s_dkr, s_dk, s_dkz; rewrite ?Ek0, ?Ek1, ?Ez0, ?Ez1, ?Ez8, ?Ez24, ?Es, ?Es'.
  - destruct (Req_EM_T _ _) as [E|_]; [lra|]. cbn [Z.eqb andb]. unfold s_kr. rewrite ?Ek0, ?Ez8, ?Es. rewrite Er by auto.
    rewrite Km. unfold s_kzz. rewrite ?Ez8. split; [apply Rabs_def1; lra|].
    destruct (s_dual _); [rewrite Rabs_pos_eq by lra|]; lra.
  - change (s_kz_min (sdemo v c true)) with (s_kz_min (sdemo v c d)).
    destruct (Req_EM_T _ _) as [E|_]; [lra|]. cbn [Z.eqb andb]. unfold s_kr. rewrite ?Ek0, ?Ez24, ?Es'. rewrite Er by auto.
    rewrite Km. unfold s_kzz. rewrite ?Ez24. cbn [s_dual sdemo]. split; [apply Rabs_def1; lra|].
    rewrite Rabs_left by lra. lra.
Qed.
Example C39_case : exists A, gen_otf (sdemo VecNone CondNone false) = Ok A /\ get A [0; 24; 2; 2]%Z = Some (RtoC 1) /\ get A [0; 16; 2; 2]%Z = Some (RtoC 0).
Proof.
  destruct (C39_rejection _ (sdemo_physical VecNone CondNone false)) as [_ H]. destruct H as [A HA]; [cbn; lra|]. exists A. split; auto.
  split.
  - rewrite (gen_otf_inv _ (sdemo_physical VecNone CondNone false) A HA), otf_get. change (un _ 24) with 8%Z. change (un _ 2) with 0%Z.
    destruct (sdemo_valid VecNone CondNone false) as [-> _]. reflexivity.
  - apply (C39_support (sdemo VecNone CondNone false)); auto using sdemo_physical; [unfold on_ix; cbn; lia|].
    right. unfold height, cone. cbn [s_dual sdemo]. unfold sfz, cfreq. cbn. unfold Rdiv. rewrite Rmult_0_l. apply sqrt_pos.
Qed.

(** ** C30 for SheppardPSF *)
Theorem C30_sheppard_shape_sign :
  forall (p : spar) (A : array (option C)),
    s_physical p -> gen_otf p = Ok A ->
    let n := s_size p in let nz := s_zsize p in
    shape A = [components (s_vec p); nz; n; n] /\ shape (s_psfa A) = [components (s_vec p); nz; n; n] /\
    shape (s_psfi (s_psfa A)) = [nz; n; n] /\
    forall ix v, inb [nz; n; n] ix -> get (s_psfi (s_psfa A)) ix = Some v ->
      0 <= v /\ (forall c, (0 <= c < components (s_vec p))%Z -> exists a, get (s_psfa A) (c :: ix) = Some a) /\
      v = Rsum (zseq (components (s_vec p))) (fun c => Cmod (cval (get (s_psfa A) (c :: ix))) ^ 2).
Proof.
  intros p A Hp HA n nz. pose proof (gen_otf_inv p Hp A HA) as E. pose proof (otf_shape p) as HS. rewrite <- E in HS. fold n nz in HS.
  split; auto. split; auto. split; [unfold s_psfi, s_psfa; cbn [shape]; now rewrite HS|].
  intros ix v Hi H. unfold s_psfi in H. cbn [get] in H. change (shape (s_psfa A)) with (shape A) in H. rewrite HS in H. cbn [hd] in H.
  destruct (forallb _ _) eqn:Ef; [|discriminate]. injection H as <-. split; [apply Rsum_nonneg; intros; apply Cnorm2_ge_0|]. split.
  - intros c Hc. rewrite forallb_forall in Ef. specialize (Ef c (proj2 (in_zseq_iff _ _) Hc)). destruct (get (s_psfa A) (c :: ix)); [eauto|discriminate].
  - apply Rsum_ext. intros c _. rewrite Cnorm2_Cmod. cbn [pow]. now rewrite Rmult_1_r.
Qed.
Print Assumptions C30_sheppard_shape_sign.

(** ** C38 *)
Theorem C38_none_ignores_condition :
  forall (p : spar) (c : cond), s_vec p = VecNone -> gen_otf (s_with_cond p c) = gen_otf p.
Proof. intros [wl na ni res size zres zsize v c0 d] c Hv. cbn in Hv. subst v. reflexivity. Qed.
Print Assumptions C38_none_ignores_condition.

(** Exactly which amplitudes are not finite. *)
Theorem C38_nonfinite_iff :
  forall (p : spar) (A A0 : array (option C)) (c kz ky kx : Z),
    s_physical p -> gen_otf p = Ok A -> gen_otf (s_with_vec p VecNone) = Ok A0 -> on_ix p kz ky kx -> (0 <= c < components (s_vec p))%Z ->
    ( get A [c; kz; ky; kx] = None <->
      in_band A0 kz ky kx /\ s_vec p <> VecNone /\ sfz p kz < 0 /\
      (s_cond p = CondSine \/ divides (s_vec p) c = true /\ ky = (s_size p / 2)%Z /\ kx = (s_size p / 2)%Z) ).
Proof.
  intros p A A0 c kz ky kx Hp HA HA0 (Hz & Hy & Hx) Hc. rewrite (gen_otf_inv p Hp A HA), (elem_none p Hp) by auto.
  rewrite (in_band_valid p Hp A0) by auto. rewrite !(axis_ix p Hp) by auto. reflexivity.
Qed.
Print Assumptions C38_nonfinite_iff.

Theorem C38_single_shell_finite :
  forall (p : spar) (A : array (option C)),
    s_physical p -> gen_otf p = Ok A -> s_dual p = false ->
    (forall ix, inb (shape A) ix -> get A ix <> None) /\
    (forall ix, inb (shape A) ix -> get (s_psfa A) ix <> None) /\
    (forall ix, inb (tl (shape A)) ix -> get (s_psfi (s_psfa A)) ix <> None).
Proof.
  intros p A Hp HA Hd. pose proof (gen_otf_inv p Hp A HA) as E. pose proof (otf_shape p) as HS. rewrite <- E in HS. rewrite HS. cbn [tl].
  assert (Hf : forall ix, inb [components (s_vec p); s_zsize p; s_size p; s_size p] ix -> get A ix <> None).
  { intros ix Hi. destruct (inb4_inv _ _ _ _ _ Hi) as (c & i & j & k & -> & Hc & H1 & H2 & H3). rewrite E. now apply (single_finite p Hp). }
  split; auto. destruct (psf_finite p A HS Hf) as [H1 H2]. split; intros ix Hi; [rewrite H1 by auto|rewrite H2 by auto]; discriminate.
Qed.
Print Assumptions C38_single_shell_finite.

(** When the intensity is lost altogether. *)
Definition poisoned (p : spar) (A0 : array (option C)) : Prop :=
  s_dual p = true /\
  ( s_vec p <> VecNone /\ s_cond p = CondSine /\ (exists kz ky kx, on_ix p kz ky kx /\ in_band A0 kz ky kx)
    \/ (s_vec p = VecX \/ s_vec p = VecY \/ s_vec p = VecTotal) /\
       (exists kz, (0 <= kz < s_zsize p)%Z /\ in_band A0 kz (s_size p / 2) (s_size p / 2)) ).
Theorem C38_dual_nan :
  forall (p : spar) (A A0 : array (option C)),
    s_physical p -> gen_otf p = Ok A -> gen_otf (s_with_vec p VecNone) = Ok A0 ->
    (poisoned p A0 -> forall ix, get (s_psfi (s_psfa A)) ix = None) /\
    (~ poisoned p A0 -> forall ix, inb (tl (shape A)) ix -> get (s_psfi (s_psfa A)) ix <> None).
Proof.
  intros p A A0 Hp HA HA0. pose proof (gen_otf_inv p Hp A HA) as E. destruct (sizes_pos p Hp) as [Hn Hnz].
  assert (Hlow : forall kz ky kx, s_dual p = true -> on_ix p kz ky kx -> in_band A0 kz ky kx ->
            exists kz', on_ix p kz' ky kx /\ in_band A0 kz' ky kx /\ sfz p kz' < 0).
  { intros kz ky kx Hd (Hz & Hy & Hx) Hb. rewrite (in_band_valid p Hp A0) in Hb by auto.
    destruct (lower_shell p Hp _ _ _ (un_in _ kz Hnz) Hd Hb) as (z' & Hz' & Hv & Hneg).
    destruct (un_inv _ z' Hnz Hz') as (k & Hk & <-). exists k. split; [unfold on_ix; tauto|]. rewrite (in_band_valid p Hp A0) by auto. split; auto.
    unfold un in Hneg. rewrite (skz_shift p Hp) in Hneg by auto. exact Hneg. }
  split.
  - intros [Hd [(Hv & Hc & kz & ky & kx & Hon & Hb)|(Hv & kz & Hz & Hb)]] ix.
    + destruct (Hlow _ _ _ Hd Hon Hb) as (k & Hon' & Hb' & Hneg). pose proof Hon' as (H1 & H2 & H3).
      apply (psfi_none p 0 k ky kx A E); auto; [destruct (s_vec p); cbn; lia|].
      apply (proj2 (C38_nonfinite_iff p A A0 0 k ky kx Hp HA HA0 Hon' ltac:(destruct (s_vec p); cbn; lia))). auto.
    + assert (Hh : (0 <= s_size p / 2 < s_size p)%Z) by lia.
      destruct (Hlow kz _ _ Hd (conj Hz (conj Hh Hh)) Hb) as (k & Hon' & Hb' & Hneg). pose proof Hon' as (H1 & H2 & H3).
      assert (Hcc : exists c, (0 <= c < components (s_vec p))%Z /\ divides (s_vec p) c = true).
      { destruct Hv as [->|[->| ->]]; [exists 0%Z|exists 0%Z|exists 2%Z]; cbn; split; auto; lia. }
      destruct Hcc as (c & Hc & Hdv). apply (psfi_none p c k _ _ A E Hc H1 H2 H3).
      apply (proj2 (C38_nonfinite_iff p A A0 c k _ _ Hp HA HA0 Hon' Hc)). split; auto. split; [destruct Hv as [->|[->| ->]]; discriminate|]. split; auto.
  - intros Hnp. pose proof (otf_shape p) as HS. rewrite <- E in HS. rewrite HS. cbn [tl].
    assert (Hf : forall ix, inb [components (s_vec p); s_zsize p; s_size p; s_size p] ix -> get A ix <> None).
    { intros ix Hi. destruct (inb4_inv _ _ _ _ _ Hi) as (c & i & j & k & -> & Hc & H1 & H2 & H3). intros Hno.
      apply (C38_nonfinite_iff p A A0 c i j k Hp HA HA0 ltac:(unfold on_ix; tauto) Hc) in Hno. destruct Hno as (Hb & Hv & Hneg & Hor).
      apply Hnp. unfold poisoned. split.
      - destruct (s_dual p) eqn:Ed; auto. exfalso. rewrite (in_band_valid p Hp A0) in Hb by auto. destruct (valid_kz p _ _ _ Hb) as (_ & _ & _ & Hpos).
        specialize (Hpos Ed). unfold un in Hpos. rewrite (skz_shift p Hp) in Hpos by auto. lra.
      - destruct Hor as [Hs|(Hdv & -> & ->)].
        + left. split; auto. split; auto. exists i, j, k. split; [unfold on_ix; auto|exact Hb].
        + right. split; [|exists i; auto]. destruct (s_vec p); auto; discriminate. }
    destruct (psf_finite p A HS Hf) as [_ H2]. intros ix Hi. rewrite H2 by auto. discriminate.
Qed.
Print Assumptions C38_dual_nan.
(** The advertised default (dual=True with the default sine condition and vec_corr='total') is unusable. *)
Theorem C38_dual_total_refuted :
  exists p A, s_physical p /\ s_dual p = true /\ s_vec p = VecTotal /\ s_cond p = CondSine /\ gen_otf p = Ok A /\
    forall ix, get (s_psfi (s_psfa A)) ix = None.
Proof.
  set (p := sdemo VecTotal CondSine true). assert (Hp : s_physical p) by apply sdemo_physical.
  destruct (C39_rejection p Hp) as [_ [A HA]]; [cbn; lra|].
  destruct (C39_rejection (s_with_vec p VecNone) Hp) as [_ [A0 HA0]]; [cbn; lra|].
  exists p, A. do 4 (split; [auto; fail|]). split; auto.
  apply (C38_dual_nan p A A0 Hp HA HA0). split; auto. left. split; [discriminate|]. split; auto.
  exists 24%Z, 2%Z, 2%Z. split; [unfold on_ix; cbn; lia|]. rewrite (in_band_valid p Hp A0) by auto. change (un _ 24) with 8%Z. change (un _ 2) with 0%Z.
  apply sdemo_valid.
Qed.
Print Assumptions C38_dual_total_refuted.

(** ** C37: polarisation factors *)
Theorem C37_factors_agree :
  forall (p : spar) (theta phi : R) (c : Z),
    s_vec p <> VecNone -> -1 < cos theta -> (0 <= c < components (s_vec p))%Z ->
    nth (Z.to_nat c) (s_plist p (Some (sin theta * cos phi)) (Some (sin theta * sin phi)) (Some (cos theta))) (Some 0) =
    Some (zsign (s_vec p) c * nth (Z.to_nat c) (plist (s_vec p) theta phi) 0).
Proof. intros. apply s_plist_trig; auto. lra. Qed.
Print Assumptions C37_factors_agree.
Theorem C37_squares_sum_to_two :
  forall (p : spar) (theta phi : R), s_vec p = VecTotal -> -1 < cos theta ->
    Rsum (plist VecTotal theta phi) (fun q => q * q) = 2 /\
    exists l, s_plist p (Some (sin theta * cos phi)) (Some (sin theta * sin phi)) (Some (cos theta)) = map Some l /\ Rsum l (fun q => q * q) = 2.
Proof.
  intros p t f Hv Ht. split; [apply (plist_sq VecTotal)|].
  exists (map (fun c => zsign VecTotal c * nth (Z.to_nat c) (plist VecTotal t f) 0) (zseq 6)). split.
  - assert (Hl : length (s_plist p (Some (sin t * cos f)) (Some (sin t * sin f)) (Some (cos t))) = 6%nat) by (unfold s_plist; rewrite Hv; reflexivity).
    apply (nth_ext _ _ (Some 0) (Some 0)); [now rewrite !map_length|]. intros i Hi. rewrite Hl in Hi.
    pose proof (s_plist_trig p t f (Z.of_nat i) ltac:(rewrite Hv; discriminate) ltac:(lra) ltac:(rewrite Hv; cbn; lia)) as E.
    rewrite Nat2Z.id, Hv in E. rewrite E. rewrite map_map. symmetry.
    rewrite (nth_indep _ (Some 0) ((fun c => Some (zsign VecTotal c * nth (Z.to_nat c) (plist VecTotal t f) 0)) 0%Z)) by (rewrite map_length, zseq_length; auto).
    rewrite (map_nth (fun c => Some (zsign VecTotal c * nth (Z.to_nat c) (plist VecTotal t f) 0))).
    replace (nth i (zseq 6) 0%Z) with (Z.of_nat i) by (rewrite <- (Nat2Z.id i) at 2; rewrite nth_zseq; lia). now rewrite Nat2Z.id.
  - rewrite Rsum_map. rewrite <- (plist_sq VecTotal t f). change (zseq 6) with [0; 1; 2; 3; 4; 5]%Z. cbn [Rsum zsign Z.ltb Z.compare Pos.compare Pos.compare_cont].
    change (Z.to_nat 0) with 0%nat; change (Z.to_nat 1) with 1%nat; change (Z.to_nat 2) with 2%nat; change (Z.to_nat 3) with 3%nat; change (Z.to_nat 4) with 4%nat; change (Z.to_nat 5) with 5%nat.
    cbn [plist vec_x vec_y vec_z app nth Rsum]. ring.
Qed.
Print Assumptions C37_squares_sum_to_two.
(** On the arrays: the vectorial amplitude OTF is the scalar one times the polarisation factor HanserPSF
    uses (up to the sign of z) times the amplitude of the condition, at the direction (theta, phi) of the grid point. *)
Theorem C37_otf_arrays :
  forall (p : spar) (A A0 : array (option C)) (c kz ky kx : Z) (theta phi : R),
    s_physical p -> s_dual p = false -> s_vec p <> VecNone ->
    gen_otf p = Ok A -> gen_otf (s_with_vec p VecNone) = Ok A0 -> on_ix p kz ky kx -> (0 <= c < components (s_vec p))%Z ->
    sfl p kx = kabs p kz ky kx * (sin theta * cos phi) ->
    sfl p ky = kabs p kz ky kx * (sin theta * sin phi) ->
    sfz p kz = kabs p kz ky kx * cos theta ->
    exists v0, get A0 [0%Z; kz; ky; kx] = Some (RtoC v0) /\
      get A [c; kz; ky; kx] =
      Some (RtoC (v0 * (zsign (s_vec p) c * nth (Z.to_nat c) (plist (s_vec p) theta phi) 0 * cond_amp (s_cond p) theta))).
Proof.
  intros p A A0 c kz ky kx t f Hp Hd Hv HA HA0 (Hz & Hy & Hx) Hc E1 E2 E3.
  rewrite (gen_otf_inv p Hp A HA). replace A0 with (fftshift axes123 (s_otf (p0 p))) by (symmetry; apply (gen_otf_inv (p0 p) Hp A0 HA0)).
  rewrite (scalar_get p). eexists. split; [reflexivity|]. rewrite otf_get.
  destruct (s_valid p (un (s_zsize p) kz) (un (s_size p) ky) (un (s_size p) kx)) eqn:Ev; [|now rewrite Rmult_0_l].
  destruct (valid_kz p _ _ _ Ev) as (_ & _ & Hk & Hpos). specialize (Hpos Hd). 
  assert (Kz : skz p (un (s_zsize p) kz) = sfz p kz) by now apply (skz_shift p Hp).
  assert (Ky : sk p (un (s_size p) ky) = sfl p ky) by now apply (sk_shift p Hp).
  assert (Kx : sk p (un (s_size p) kx) = sfl p kx) by now apply (sk_shift p Hp).
  assert (Kr : s_kr p (un (s_zsize p) kz) (un (s_size p) ky) (un (s_size p) kx) = kabs p kz ky kx) by now apply (kr_un p Hp).
  rewrite Kr in Hk. rewrite Kz in Hpos.
  assert (Hcos : 0 < cos t) by (rewrite E3 in Hpos; nra).
  unfold s_value. destruct (s_vec p) eqn:Evec; [congruence|..];
  (rewrite !dcos_some by (rewrite Kr; auto); rewrite Kr, Kz, Ky, Kx, E1, E2, E3;
  replace (kabs p kz ky kx * (sin t * cos f) / kabs p kz ky kx) with (sin t * cos f) by (field; lra);
  replace (kabs p kz ky kx * (sin t * sin f) / kabs p kz ky kx) with (sin t * sin f) by (field; lra);
  replace (kabs p kz ky kx * cos t / kabs p kz ky kx) with (cos t) by (field; lra);
  rewrite <- Evec in Hc;
  rewrite (s_plist_trig p t f c) by (auto; try (rewrite Evec; discriminate); lra); rewrite Evec;
  assert (Ha : s_apod p (Some (cos t)) = Some (cond_amp (s_cond p) t)) by
    (unfold s_apod, cond_amp; destruct (s_cond p); cbn [osqrt odiv]; auto;
      [destruct (Rlt_dec (cos t) 0); [lra|]; destruct (Req_EM_T _ _) as [Eq|_]; [pose proof (sqrt_lt_R0 _ Hcos); lra|reflexivity]
      |destruct (Req_EM_T _ _); [lra|reflexivity]]);
  rewrite Ha; cbn [olift2 ocplx]; do 2 f_equal; ring).
Qed.
Print Assumptions C37_otf_arrays.
Example C37_case : let p := sdemo VecTotal CondSine false in
  sfl p 2 = kabs p 24 2 2 * (sin 0 * cos 0) /\ sfz p 24 = kabs p 24 2 2 * cos 0 /\ 0 < sfz p 24.
Proof.
  cbn zeta. unfold kabs. set (p := sdemo _ _ _). assert (E1 : sfl p 2 = 0) by (unfold sfl, cfreq; cbn; field). assert (E2 : sfz p 24 = 1 / 400) by (unfold sfz, cfreq; cbn; field).
  rewrite E1, E2, sin_0, cos_0. replace ((1 / 400) ^ 2 + 0 ^ 2 + 0 ^ 2) with ((1 / 400) ^ 2) by ring. rewrite sqrt_pow2 by lra. lra.
Qed.

(** ** C69: where the focus of the scalar SheppardPSF is. *)
Theorem C69_focus_pixel :
  forall (p : spar) (A : array (option C)) (ix : list Z),
    s_physical p -> s_vec p = VecNone -> gen_otf p = Ok A -> inb [s_zsize p; s_size p; s_size p] ix ->
    let focus := [s_zsize p - s_zsize p / 2; s_size p - s_size p / 2; s_size p - s_size p / 2]%Z in
    inb [s_zsize p; s_size p; s_size p] focus /\
    exists v w, get (s_psfi (s_psfa A)) ix = Some v /\ get (s_psfi (s_psfa A)) focus = Some w /\ v <= w.
Proof. intros p A ix Hp Hv HA Hi focus. split; [exact (top_in p Hp)|]. apply (peak_psf p Hp A Hv); auto. now apply gen_otf_inv. Qed.
Print Assumptions C69_focus_pixel.
Corollary C69_even_centred : forall n, (n mod 2 = 0 -> n - n / 2 = n / 2)%Z /\ (n mod 2 = 1 -> n - n / 2 = n / 2 + 1)%Z.
Proof. intros n. split; lia. Qed.
Print Assumptions C69_even_centred.

(** For odd sizes the pixel size//2 is strictly darker than the focus as soon as the band contains two
    directions that differ in ky + kx. *)
Theorem C69_odd_centre_darker :
  forall (p : spar) (A : array (option C)) (kz ky kx kz' ky' kx' : Z),
    s_physical p -> s_vec p = VecNone -> gen_otf p = Ok A -> (s_size p mod 2 = 1)%Z ->
    on_ix p kz ky kx -> on_ix p kz' ky' kx' -> in_band A kz ky kx -> in_band A kz' ky' kx' ->
    ((ky + kx - (ky' + kx')) mod s_size p <> 0)%Z ->
    let n := s_size p in let nz := s_zsize p in
    exists v w, get (s_psfi (s_psfa A)) [nz - nz / 2; n / 2; n / 2]%Z = Some v /\
      get (s_psfi (s_psfa A)) [nz - nz / 2; n / 2 + 1; n / 2 + 1]%Z = Some w /\ v < w.
Proof.
  intros p A kz ky kx kz' ky' kx' Hp Hv HA Hodd H1 H2 Hb1 Hb2 Hne n nz.
  destruct (centre_strict p Hp A kz ky kx kz' ky' kx' Hv (gen_otf_inv p Hp A HA) Hodd H1 H2 Hb1 Hb2 Hne) as (v & w & E1 & E2 & Hlt).
  exists v, w. split; auto. split; auto. unfold top in E2. replace (n / 2 + 1)%Z with (n - n / 2)%Z by (unfold n; lia). exact E2.
Qed.
Print Assumptions C69_odd_centre_darker.
(** 9 x 9 pixels, NA 1.3: the on-axis direction and its neighbour are both in the band. *)
Definition odemo : spar := mkSpar 500 (13 / 10) (4 / 3) 100 9 100 32 VecNone CondNone false.
Example odemo_physical : s_physical odemo.
Proof. unfold s_physical, odemo; cbn. repeat split; try lra; lia. Qed.
Lemma odemo_valid : s_valid odemo 8 0 0 = true /\ s_valid odemo 8 0 1 = true.
Proof.
  assert (Hc : s_kz_min odemo < 6 / 10000).
  { unfold s_kz_min, s_kmag, odemo. cbn [s_ni s_wl s_na]. rewrite <- (sqrt_pow2 (6 / 10000)) by lra. apply sqrt_lt_1_alt. lra. }
  assert (Ek0 : sk odemo 0 = 0) by (unfold sk, fftfreq, odemo, fftfreq_ix; cbn; field).
  assert (Ek1 : sk odemo 1 = 1 / 900) by (unfold sk, fftfreq, odemo, fftfreq_ix; cbn; field).
  assert (Ez0 : skz odemo 0 = 0) by (unfold skz, fftfreq, odemo, fftfreq_ix; cbn; field).
  assert (Ez1 : skz odemo 1 = 1 / 3200) by (unfold skz, fftfreq, odemo, fftfreq_ix; cbn; field).
  assert (Ez8 : skz odemo 8 = 1 / 400) by (unfold skz, fftfreq, odemo, fftfreq_ix; cbn; field).
  assert (Km : s_kmag odemo = 4 / 1500) by (unfold s_kmag, odemo; cbn; field).
  assert (B : forall a lo hi, 0 <= lo -> 0 <= hi -> lo ^ 2 < a < hi ^ 2 -> lo < sqrt a < hi).
  { intros a lo hi Hlo Hhi [H1 H2]. split.
    - rewrite <- (sqrt_pow2 lo) by auto. apply sqrt_lt_1_alt. split; auto. apply pow2_ge_0.
    - rewrite <- (sqrt_pow2 hi) by auto. apply sqrt_lt_1_alt. split; auto. pose proof (pow2_ge_0 lo). lra. }
  assert (Rk : forall a b lo hi, 0 < b -> 0 <= lo -> lo * b < a < hi * b -> lo < a / b < hi).
  { intros a b lo hi Hb _ [H1 H2]. split; [apply (Rmult_lt_reg_r b)|apply (Rmult_lt_reg_r b)]; auto; unfold Rdiv; rewrite Rmult_assoc, Rinv_l by lra; lra. }
  split; apply valid_iff; unfold s_kr, s_dkr, s_dk, s_dkz, s_kzz; rewrite ?Ek0, ?Ek1, ?Ez0, ?Ez1, ?Ez8, ?Km;
    (destruct (Req_EM_T _ _) as [E|_]; [lra|]); cbn [Z.eqb andb s_dual odemo]; unfold s_kr; rewrite ?Ek0, ?Ek1, ?Ez8.
  - pose proof (B ((1 / 400) ^ 2 + 0 ^ 2 + 0 ^ 2) (2499 / 1000000) (2501 / 1000000) ltac:(lra) ltac:(lra) ltac:(lra)) as Hs.
    set (s := sqrt ((1 / 400) ^ 2 + 0 ^ 2 + 0 ^ 2)) in *.
    pose proof (B ((1 / 400 * (1 / 3200 - 0)) ^ 2 + (0 * (1 / 900 - 0)) ^ 2 + (0 * (1 / 900 - 0)) ^ 2) (78 / 100000000) (79 / 100000000) ltac:(lra) ltac:(lra) ltac:(lra)) as Ht.
    match goal with |- context [sqrt ?x / s] => set (t := sqrt x) in * end.
    pose proof (Rk t s (3 / 10000) (4 / 10000) ltac:(lra) ltac:(lra) ltac:(lra)) as Hq.
    split; [apply Rabs_def1; lra|lra].
  - pose proof (B ((1 / 400) ^ 2 + 0 ^ 2 + (1 / 900) ^ 2) (2730 / 1000000) (2740 / 1000000) ltac:(lra) ltac:(lra) ltac:(lra)) as Hs.
    set (s := sqrt ((1 / 400) ^ 2 + 0 ^ 2 + (1 / 900) ^ 2)) in *.
    pose proof (B ((1 / 400 * (1 / 3200 - 0)) ^ 2 + (0 * (1 / 900 - 0)) ^ 2 + (1 / 900 * (1 / 900 - 0)) ^ 2) (145 / 100000000) (147 / 100000000) ltac:(lra) ltac:(lra) ltac:(lra)) as Ht.
    match goal with |- context [sqrt ?x / s] => set (t := sqrt x) in * end.
    pose proof (Rk t s (5 / 10000) (6 / 10000) ltac:(lra) ltac:(lra) ltac:(lra)) as Hq.
    split; [apply Rabs_def1; lra|lra].
Qed.
Example C69_odd_case : exists A, gen_otf odemo = Ok A /\ in_band A 24 4 4 /\ in_band A 24 4 5 /\ on_ix odemo 24 4 4 /\ on_ix odemo 24 4 5.
Proof.
  destruct (C39_rejection _ odemo_physical) as [_ H]. destruct H as [A HA]; [cbn; lra|]. exists A. split; auto.
  pose proof (gen_otf_inv _ odemo_physical A HA) as E. destruct odemo_valid as [V1 V2].
  split; [|split; [|unfold on_ix; cbn; lia]].
  - unfold in_band. rewrite E, otf_get. change (un _ 24) with 8%Z. change (un _ 4) with 0%Z. now rewrite V1.
  - unfold in_band. rewrite E, otf_get. change (un _ 24) with 8%Z. change (un _ 4) with 0%Z. change (un _ 5) with 1%Z. now rewrite V2.
Qed.
