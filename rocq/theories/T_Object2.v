(** From the attributes of a PSF object to its arrays, written out: C77. *)
From Coq Require Import String FunctionalExtensionality.
From Verif Require Import S_Object L_Array L_Sum L_FFT L_FFT2 T_FFT L_PSF T_PSF L_Hanser L_Hanser2 L_Hanser3 L_Hanser4 T_Hanser L_Sheppard L_Sheppard2 L_Sheppard3 T_Sheppard T_Object.
Import M_Array.
Local Open Scope R_scope.
Local Notation "a *c b" := (Cmult a b) (at level 40, left associativity).

(** ** reading the attributes *)
Lemma real_val v r : is_real v r -> val_R v = r.
Proof. intros (w & q & -> & Hn & ->). unfold val_R, num_or_nan. now rewrite Hn. Qed.
Lemma whole_val v n : is_whole v n -> val_Z v = n.
Proof. intros [->|(b & -> & ->)]; [reflexivity|]. destruct b; reflexivity. Qed.
Lemma vec_val v x : says_vec v x -> val_vec v = x.
Proof. intros (s & -> & H). cbn [In] in H. repeat destruct H as [[= <- <-]|H]; reflexivity || destruct H. Qed.
Lemma cond_val v x : says_cond v x -> val_cond v = x.
Proof. intros (s & -> & H). cbn [In] in H. repeat destruct H as [[= <- <-]|H]; reflexivity || destruct H. Qed.
Lemma h_described h o : h_describes h o -> hpar_of (obj_params o) = h.
Proof.
  intros (H1 & H2 & H3 & H4 & H5 & H6 & H7 & l & H8 & H9). unfold hpar_of, obj_params. cbn.
  rewrite (real_val _ _ H1), (real_val _ _ H2), (real_val _ _ H3), (real_val _ _ H4), (whole_val _ _ H5), (vec_val _ _ H6), (cond_val _ _ H7), H8.
  destruct h as [a b c d e zs f g]. cbn in *. f_equal. clear -H9. induction H9 as [|x y l m (q & -> & ->) H IH]; cbn; [reflexivity|]. now rewrite IH.
Qed.
Lemma s_described p o : s_describes p o -> spar_of (obj_params o) = p.
Proof.
  intros (H1 & H2 & H3 & H4 & H5 & H6 & H7 & H8 & H9 & H10). unfold spar_of, obj_params. cbn.
  rewrite (real_val _ _ H1), (real_val _ _ H2), (real_val _ _ H3), (real_val _ _ H4), (whole_val _ _ H5), (real_val _ _ H6), (whole_val _ _ H7), (vec_val _ _ H8), (cond_val _ _ H9), H10.
  now destruct p.
Qed.

(** ** polarisation *)
Lemma lens_plist v t f c : nth c (plist v t f) 0 = if (Z.of_nat c <? components v)%Z then polarisation v (lens (- t) f) (Z.of_nat c) else 0.
Proof.
  assert (S1 : sin f ^ 2 + cos f ^ 2 = 1) by (rewrite <- !Rsqr_pow2; apply sin2_cos2).
  unfold polarisation. rewrite Nat2Z.id.
  destruct v; (do 7 (destruct c as [|c]; [cbn [plist vec_x vec_y vec_z app nth component_list components Z.of_nat Z.ltb Z.compare Pos.of_succ_nat Pos.succ Pos.compare Pos.compare_cont];
     try reflexivity; unfold lens, mat_mul, rot_z, rot_y; rewrite ?cos_neg, ?sin_neg; try ring; try nra|])).
  all: replace (Z.of_nat _ <? _)%Z with false by (symmetry; apply Z.ltb_ge; cbn [components]; lia); cbn; destruct c; reflexivity.
Qed.
Lemma plist_same v t t' f f' c : sin t = sin t' -> cos t = cos t' -> (sin t = 0 /\ cos t = 1) \/ (sin f = sin f' /\ cos f = cos f') ->
  nth c (plist v t f) 0 = nth c (plist v t' f') 0.
Proof.
  intros E1 E2 H. assert (S1 : sin f ^ 2 + cos f ^ 2 = 1) by (rewrite <- !Rsqr_pow2; apply sin2_cos2). assert (S2 : sin f' ^ 2 + cos f' ^ 2 = 1) by (rewrite <- !Rsqr_pow2; apply sin2_cos2).
  destruct H as [[Z1 Z2]|[F1 F2]].
  - rewrite E1 in Z1. rewrite E2 in Z2. destruct v; do 7 (destruct c as [|c]; [cbn [plist vec_x vec_y vec_z app nth]; rewrite ?E1, ?E2, ?Z1, ?Z2; try ring; try nra|]); cbn; destruct c; reflexivity.
  - destruct v; do 7 (destruct c as [|c]; [cbn [plist vec_x vec_y vec_z app nth]; rewrite ?E1, ?E2, ?F1, ?F2; ring|]); cbn; destruct c; reflexivity.
Qed.
Section H.
Context (h : hpar) (Hph : physical h).
Let n := h_size h.
Lemma ray_plist theta phi c j i : ray_angles h theta phi -> (0 <= c < components (h_vec h))%Z -> (0 <= j < n)%Z -> (0 <= i < n)%Z ->
  nth (Z.to_nat c) (plist (h_vec h) (h_theta h j i) (h_phi h j i)) 0 = polarisation (h_vec h) (lens (- theta j i) (phi j i)) c.
Proof.
  intros HR Hc Hj Hi. destruct (HR j i Hj Hi) as (R1 & R2 & R3 & R4).
  pose proof (sin2_theta h Hph j i Hj Hi) as S2. pose proof (cos_theta h Hph j i Hj Hi) as C2. pose proof (cos_theta_pos h Hph j i) as Cp.
  pose proof (sin2_range h Hph j i Hj Hi) as Rg.
  assert (Es : sin (h_theta h j i) = sin (theta j i)).
  { rewrite R1, <- S2. rewrite sqrt_pow2; [reflexivity|]. rewrite (sin_theta h Hph). apply (sin_theta_bound h Hph). }
  assert (Ec : cos (h_theta h j i) = cos (theta j i)).
  { assert (Q : cos (h_theta h j i) ^ 2 = cos (theta j i) ^ 2).
    { pose proof (sin2_cos2 (theta j i)) as Q1. pose proof (sin2_cos2 (h_theta h j i)) as Q2. unfold Rsqr in *. rewrite Es in Q2. lra. }
    rewrite <- (sqrt_pow2 (cos (theta j i))) by exact R2. rewrite <- Q. rewrite sqrt_pow2; lra. }
  rewrite (plist_same _ _ (theta j i) _ (phi j i)); auto.
  - rewrite lens_plist. rewrite Z2Nat.id by lia. now replace (c <? components (h_vec h))%Z with true by lia.
  - destruct (phi_polar h Hph j i Hj Hi) as [P1 P2]. rewrite (kr_sqrt h Hph) in P1, P2 by auto. fold n in P1, P2, R3, R4.
    destruct (Req_EM_T (sqrt (k2 h j i)) 0) as [E|E].
    + left. assert (Z0 : sin (h_theta h j i) = 0).
      { rewrite (sin_theta h Hph). rewrite (kr_sqrt h Hph) by auto. rewrite E. destruct (Rlt_dec _ _); unfold Rdiv; ring. }
      split; [exact Z0|]. pose proof (sin2_cos2 (h_theta h j i)) as Q. unfold Rsqr in Q. rewrite Z0 in Q. nra.
    + right. rewrite P1 in R3. rewrite P2 in R4. apply Rmult_eq_reg_l in R3; auto. apply Rmult_eq_reg_l in R4; auto.
Qed.
Lemma gen_psf_waves base A theta phi c z y x : gen_psf h base = Ok A -> (forall P, base = Some P -> on_grid h P) -> ray_angles h theta phi ->
  (0 <= c < components (h_vec h))%Z -> (0 <= y < n)%Z -> (0 <= x < n)%Z ->
  get A [c; z; y; x] = plane_waves h (used_pupil h base) theta phi c z y x.
Proof.
  intros HA Hg HR Hc Hy Hx. destruct (gen_psf_val h Hph _ _ HA Hg) as [_ Hval]. rewrite Hval by auto. unfold plane_waves. f_equal. cbn [mop]. fold n.
  apply Csum_ext. intros j Hj%in_zseq_iff. rewrite <- Csum_scal_l. apply Csum_ext. intros i Hi%in_zseq_iff.
  unfold kpsf, pup, defocus. rewrite (ray_plist theta phi c j i HR Hc Hj Hi). pose proof (root_freq h Hph) as RF. fold n in RF. rewrite !RF, (kz_spec h Hph), (apod_sqrt h Hph) by auto.
  rewrite !Rmult_plus_distr_l, !cis_add, RtoC_mult.
  replace (2 * PI * sqrt (Rmax 0 ((h_ni h / h_wl h) ^ 2 - k2 h j i)) * nth (Z.to_nat z) (h_zrange h) 0)
    with (2 * PI * (sqrt (Rmax 0 ((h_ni h / h_wl h) ^ 2 - k2 h j i)) * nth (Z.to_nat z) (h_zrange h) 0)) by ring. ring.
Qed.
(** every pixel's ray has angles *)
Lemma rays_exist : exists theta phi, ray_angles h theta phi.
Proof.
  exists (h_theta h), (h_phi h). intros y x Hy Hx. split; [|split; [|rewrite <- (kr_sqrt h Hph) by auto; apply (phi_polar h Hph); auto]].
  - rewrite <- (sin2_theta h Hph y x Hy Hx). rewrite sqrt_pow2; [reflexivity|]. rewrite (sin_theta h Hph). apply (sin_theta_bound h Hph).
  - left. apply (cos_theta_pos h Hph).
Qed.
End H.

(** ** C77: HanserPSF *)
Theorem C77_hanser :
  forall (k : ctor) (o0 : obj numeric) (hist : list (op numeric)) (h : hpar) (theta phi : Z -> Z -> R),
    construct numeric Hanser k = Ok o0 ->
    let o := run numeric Hanser hist o0 in
    let base := in_force numeric Hanser hist o0 None in
    h_describes h o -> physical h -> ray_angles h theta phi ->
    (forall P, base = Some P -> shape P = [h_size h; h_size h]) ->
    let n := h_size h in let nz := Z.of_nat (List.length (h_zrange h)) in let nc := components (h_vec h) in
    exists a i ta ti,
      fst (read numeric Hanser PSFa o) = Ok a /\ fst (read numeric Hanser PSFi o) = Ok i /\
      fst (read numeric Hanser OTFa o) = Ok ta /\ fst (read numeric Hanser OTFi o) = Ok ti /\
      shape a = [nc; nz; n; n] /\ shape i = [nz; n; n] /\ shape ta = [nc; nz; n; n] /\ shape ti = [nz; n; n] /\
      forall z y x, (0 <= z < nz)%Z -> (0 <= y < n)%Z -> (0 <= x < n)%Z ->
        (forall c, (0 <= c < nc)%Z -> get a [c; z; y; x] = Some (plane_waves h (used_pupil h base) theta phi c z y x)) /\
        get i [z; y; x] = Some (RtoC (Rsum (zseq nc) (fun c => Cmod (plane_waves h (used_pupil h base) theta phi c z y x) ^ 2))) /\
        (forall c, (0 <= c < nc)%Z ->
           get ta [c; z; y; x] = Some (fourier_sum [false; true; true; true] [nc; nz; n; n] (fun ix => cval (get a ix)) [c; z; y; x])) /\
        get ti [z; y; x] = Some (fourier_sum [true; true; true] [nz; n; n] (fun ix => cval (get i ix)) [z; y; x]).
Proof.
  intros k o0 hist h theta phi Hk o base Hd Hph HR Hb n nz nc.
  destruct (gen_psf_ok h Hph base Hb) as [A HA]. pose proof HA as HA'. rewrite <- (h_described h o Hd) in HA'.
  destruct (C73_hanser_objects k o0 hist A Hk HA') as (E1 & E2 & E3 & B & E4 & E5 & E6). fold o in E1, E2, E3, E4.
  destruct (gen_psf_val h Hph _ _ HA Hb) as [SA _]. fold n nz nc in SA.
  exists (amap Some A), (amap (fun r => Some (RtoC r)) (sumsq A)), B, (amap Some (otfi_of (sumsq A))).
  do 4 (split; [assumption|]). split; [exact SA|]. split; [cbn; now rewrite SA|]. split; [rewrite E5; exact SA|]. split; [cbn; now rewrite SA|].
  intros z y x Hz Hy Hx.
  assert (W : forall c z y x, (0 <= c < nc)%Z -> (0 <= y < n)%Z -> (0 <= x < n)%Z -> get A [c; z; y; x] = plane_waves h (used_pupil h base) theta phi c z y x) by (intros; now apply gen_psf_waves).
  assert (I3 : inb [nz; n; n] [z; y; x]) by (repeat (apply inb_cons; split; [assumption|]); constructor).
  split; [intros c Hc; cbn [amap get]; now rewrite W|]. split; [|split].
  - cbn [amap get sumsq]. rewrite SA. cbn [hd]. do 2 f_equal. apply Rsum_ext. intros c Hc%in_zseq_iff. rewrite W by auto. rewrite Cnorm2_Cmod. ring.
  - intros c Hc. assert (I4 : inb [nc; nz; n; n] [c; z; y; x]) by (apply inb_cons; split; assumption).
    rewrite E6 by (rewrite E5; cbn; rewrite SA; exact I4). unfold otfa_of. cbn [amap get]. f_equal.
    pose proof (centred_transform (Some [1; 2; 3]%nat) A [c; z; y; x]) as T. rewrite SA in T. destruct (T I4) as [_ T']. exact T'.
  - unfold otfi_of. cbn [amap get]. f_equal. pose proof (centred_transform None (complexify (sumsq A)) [z; y; x]) as T. cbn [complexify amap shape sumsq] in T. rewrite SA in T. destruct (T I3) as [_ T']. exact T'.
Qed.
Print Assumptions C77_hanser.

(** ** SheppardPSF *)
Lemma zsign_lens v t f c : (0 <= c < components v)%Z -> v <> VecNone -> zsign v c * nth (Z.to_nat c) (plist v t f) 0 = polarisation v (lens t f) c.
Proof.
  intros Hc Hv. rewrite lens_plist, Z2Nat.id by lia. replace (c <? components v)%Z with true by lia. unfold polarisation. destruct v; try congruence; cbn [components] in Hc;
    (assert (Hcs : (c = 0 \/ c = 1 \/ c = 2 \/ c = 3 \/ c = 4 \/ c = 5)%Z) by lia);
    destruct Hcs as [->|[->|[->|[->|[->| ->]]]]]; try lia;
    try change (Z.to_nat 0) with 0%nat; try change (Z.to_nat 1) with 1%nat; try change (Z.to_nat 2) with 2%nat;
    try change (Z.to_nat 3) with 3%nat; try change (Z.to_nat 4) with 4%nat; try change (Z.to_nat 5) with 5%nat;
    cbn [nth zsign component_list Z.ltb Z.compare Pos.compare Pos.compare_cont]; unfold lens, mat_mul, rot_z, rot_y; repeat rewrite cos_neg; repeat rewrite sin_neg; ring.
Qed.
Section P.
Context (p : spar) (Hp : s_physical p).
Let n := s_size p.
Let nz := s_zsize p.
Lemma thickness_dkr kz ky kx : (0 <= kz < nz)%Z -> (0 <= ky < n)%Z -> (0 <= kx < n)%Z -> s_dkr p (un nz kz) (un n ky) (un n kx) = thickness p kz ky kx.
Proof.
  intros Hz Hy Hx. destruct (sizes_pos p Hp) as [Hn Hnz]. fold n in Hn. fold nz in Hnz. unfold s_dkr, thickness.
  rewrite (dk_val p Hp), (dkz_val p Hp). change (if (s_size p =? 2)%Z then - pl p else pl p) with (along_xy p). change (if (s_zsize p =? 2)%Z then - pz p else pz p) with (along_z p).
  destruct (Req_EM_T (along_xy p) (along_z p)); [reflexivity|].
  pose proof (kr_un p Hp kz ky kx Hz Hy Hx) as K. fold n nz in K. rewrite K.
  assert (Kz : skz p (un nz kz) = sfz p kz) by now apply (skz_shift p Hp). assert (Ky : sk p (un n ky) = sfl p ky) by now apply (sk_shift p Hp). assert (Kx : sk p (un n kx) = sfl p kx) by now apply (sk_shift p Hp).
  rewrite Kz, Ky, Kx.
  assert (U : forall m k, (0 < m)%Z -> (0 <= k < m)%Z -> (un m k = 0 <-> k = m / 2)%Z).
  { intros m k Hm Hk. pose proof (Z.div_pos m 2 ltac:(lia) ltac:(lia)). pose proof (Z.div_lt m 2 ltac:(lia) ltac:(lia)). unfold un. split; intros E.
    - destruct (Z_lt_le_dec k (m / 2)).
      + replace (k + -1 * (m / 2))%Z with (k - m / 2 + m + (-1) * m)%Z in E by ring. rewrite Z_mod_plus_full, Z.mod_small in E by lia. lia.
      + rewrite Z.mod_small in E by lia. lia.
    - subst k. replace (m / 2 + -1 * (m / 2))%Z with 0%Z by ring. now apply Z.mod_0_l; lia. }
  assert (F : forall m d k, (0 < m)%Z -> 0 < d -> (0 <= k < m)%Z -> (cfreq m d k = 0 <-> k = (m / 2)%Z)).
  { intros m d k Hm Hd Hk. assert (0 < IZR m) by now apply (IZR_lt 0). unfold cfreq. split; intros E.
    - assert (IZR (k - m / 2) = 0). { apply (Rmult_eq_reg_r (/ (IZR m * d))). 2:{ apply Rinv_neq_0_compat. nra. } unfold Rdiv in E. rewrite E. ring. } apply eq_IZR in H0. lia.
    - subst k. rewrite Z.sub_diag. unfold Rdiv. ring. }
  destruct Hp as (_ & _ & _ & Hr & Hzr & _ & _).
  assert (Hh : forall m, (0 < m)%Z -> (0 <= m / 2 < m)%Z) by (intros m Hm; split; [apply Z.div_pos|apply Z.div_lt]; lia).
  assert (Q : (un nz kz =? 0)%Z && (un n ky =? 0)%Z && (un n kx =? 0)%Z = true <-> kabs p kz ky kx = 0).
  { rewrite !andb_true_iff, !Z.eqb_eq, !U by auto. unfold kabs. split.
    - intros [[-> ->] ->]. assert (Z1 : sfz p (nz / 2) = 0) by (apply F; auto). assert (Z2 : sfl p (n / 2) = 0) by (apply F; auto). rewrite Z1, Z2.
      replace (0 ^ 2 + 0 ^ 2 + 0 ^ 2) with 0 by ring. apply sqrt_0.
    - intros E. pose proof (pow2_ge_0 (sfz p kz)). pose proof (pow2_ge_0 (sfl p ky)). pose proof (pow2_ge_0 (sfl p kx)). apply sqrt_eq_0 in E; [|lra].
      assert (SQ : forall r, r ^ 2 = 0 -> r = 0) by (intros r Hr0; replace (r ^ 2) with (r * r) in Hr0 by ring; apply Rmult_integral in Hr0; tauto).
      assert (Z1 : sfz p kz = 0) by (apply SQ; lra). assert (Z2 : sfl p ky = 0) by (apply SQ; lra). assert (Z3 : sfl p kx = 0) by (apply SQ; lra).
      split; [split|]; [apply (F nz (s_zres p))|apply (F n (s_res p))|apply (F n (s_res p))]; auto. }
  destruct ((un nz kz =? 0)%Z && (un n ky =? 0)%Z && (un n kx =? 0)%Z) eqn:Eb; destruct (Req_EM_T (kabs p kz ky kx) 0) as [E|E]; auto.
  - exfalso. apply E, Q. reflexivity.
  - exfalso. apply Q in E. discriminate.
Qed.
Lemma shell_valid kz ky kx : (0 <= kz < nz)%Z -> (0 <= ky < n)%Z -> (0 <= kx < n)%Z -> (s_valid p (un nz kz) (un n ky) (un n kx) = true <-> on_shell p kz ky kx).
Proof.
  intros Hz Hy Hx. rewrite valid_iff. pose proof (kr_un p Hp kz ky kx Hz Hy Hx) as K. pose proof (kzz_un p Hp kz Hz) as K'. fold n nz in K, K'. rewrite K, K', thickness_dkr by auto. reflexivity.
Qed.
End P.
Section Q.
Context (p : spar) (Hp : s_physical p) (A : array (option C)) (HA : gen_otf p = Ok A).
Let n := s_size p.
Let nz := s_zsize p.
Lemma otf_off kz ky kx c : (0 <= kz < nz)%Z -> (0 <= ky < n)%Z -> (0 <= kx < n)%Z -> ~ on_shell p kz ky kx -> get A [c; kz; ky; kx] = Some (RtoC 0).
Proof.
  intros Hz Hy Hx H. rewrite (gen_otf_inv p Hp A HA), otf_get. fold n nz. destruct (s_valid p _ _ _) eqn:E; [|reflexivity]. exfalso. apply H. now apply (shell_valid p Hp).
Qed.
Lemma otf_scalar kz ky kx : s_vec p = VecNone -> (0 <= kz < nz)%Z -> (0 <= ky < n)%Z -> (0 <= kx < n)%Z -> on_shell p kz ky kx -> get A [0%Z; kz; ky; kx] = Some (RtoC 1).
Proof.
  intros Hv Hz Hy Hx H. rewrite (gen_otf_inv p Hp A HA), otf_get. fold n nz. apply (shell_valid p Hp) in H; auto. fold n nz in H. rewrite H. unfold s_value. rewrite Hv. reflexivity.
Qed.
Lemma otf_vector kz ky kx c t f : s_vec p <> VecNone -> (0 <= c < components (s_vec p))%Z -> (0 <= kz < nz)%Z -> (0 <= ky < n)%Z -> (0 <= kx < n)%Z -> on_shell p kz ky kx ->
  sfl p kx = kabs p kz ky kx * (sin t * cos f) -> sfl p ky = kabs p kz ky kx * (sin t * sin f) -> sfz p kz = kabs p kz ky kx * cos t ->
  -1 < cos t -> cos t <> 0 -> (0 < cos t \/ s_cond p <> CondSine) ->
  get A [c; kz; ky; kx] = Some (RtoC (polarisation (s_vec p) (lens t f) c * cond_amp (s_cond p) t)).
Proof.
  intros Hv Hc Hz Hy Hx H E1 E2 E3 C1 C2 C3. rewrite (gen_otf_inv p Hp A HA), otf_get. fold n nz. apply (shell_valid p Hp) in H; auto. fold n nz in H. rewrite H.
  destruct (valid_kz p _ _ _ H) as (_ & _ & Hk & _).
  assert (Kz : skz p (un nz kz) = sfz p kz) by now apply (skz_shift p Hp).
  assert (Ky : sk p (un n ky) = sfl p ky) by now apply (sk_shift p Hp).
  assert (Kx : sk p (un n kx) = sfl p kx) by now apply (sk_shift p Hp).
  assert (Kr : s_kr p (un nz kz) (un n ky) (un n kx) = kabs p kz ky kx) by now apply (kr_un p Hp).
  rewrite Kr in Hk.
  assert (Ha : s_apod p (Some (cos t)) = Some (cond_amp (s_cond p) t)).
  { unfold s_apod, cond_amp. destruct (s_cond p); cbn [osqrt odiv]; auto.
    - destruct C3 as [C3|C3]; [|congruence]. destruct (Rlt_dec (cos t) 0); [lra|]. destruct (Req_EM_T _ _) as [Eq|_]; [pose proof (sqrt_lt_R0 _ C3); lra|reflexivity].
    - destruct (Req_EM_T _ _); [lra|reflexivity]. }
  pose proof (zsign_lens (s_vec p) t f c Hc Hv) as ZL. pose proof (s_plist_trig p t f c Hv ltac:(lra) Hc) as TR.
  unfold s_value. destruct (s_vec p) eqn:Evec; [congruence|..];
  (rewrite !dcos_some by (rewrite Kr; auto); rewrite Kr, Kz, Ky, Kx, E1, E2, E3;
  replace (kabs p kz ky kx * (sin t * cos f) / kabs p kz ky kx) with (sin t * cos f) by (field; lra);
  replace (kabs p kz ky kx * (sin t * sin f) / kabs p kz ky kx) with (sin t * sin f) by (field; lra);
  replace (kabs p kz ky kx * cos t / kabs p kz ky kx) with (cos t) by (field; lra);
  rewrite TR, Ha, ZL; reflexivity).
Qed.
Lemma psfa_value c : (0 <= c < components (s_vec p))%Z -> (forall kz ky kx, on_ix p kz ky kx -> get A [c; kz; ky; kx] <> None) ->
  forall z y x, (0 <= z < nz)%Z -> (0 <= y < n)%Z -> (0 <= x < n)%Z ->
  get (s_psfa A) [c; z; y; x] = Some (inverse_sum nz n (fun kz ky kx => cval (get A [c; kz; ky; kx])) z y x).
Proof.
  intros Hc Hf z y x Hz Hy Hx. pose proof (gen_otf_inv p Hp A HA) as EA. pose proof (otf_shape p) as HS. rewrite <- EA in HS. fold n nz in HS.
  unfold s_psfa. cbn [get]. rewrite HS. cbn [tl].
  replace (forallb _ _) with true.
  2:{ symmetry. apply forallb_forall. intros r Hr. apply in_all_ix in Hr. destruct (inb3_inv _ _ _ _ Hr) as (a & b & d & -> & Ha & Hb & Hd). specialize (Hf a b d (conj Ha (conj Hb Hd))). destruct (get A _); [reflexivity|congruence]. }
  f_equal. assert (I4 : inb [components (s_vec p); nz; n; n] [c; z; y; x]) by (repeat (apply inb_cons; split; [assumption|]); constructor).
  rewrite easy_ifft_mop by (cbn [amap shape]; rewrite HS; exact I4). cbn [amap shape]. rewrite HS. cbn [List.length axes_mask map seq existsb Nat.eqb orb masked_size].
  unfold inverse_sum. destruct (sizes_pos p Hp) as [Hn Hnz]. fold n in Hn. fold nz in Hnz.
  f_equal; [f_equal; f_equal; f_equal; ring|]. cbn [mop]. apply Csum_ext. intros kz Hkz%in_zseq_iff. rewrite <- Csum_scal_l. apply Csum_ext. intros ky Hky%in_zseq_iff.
  rewrite <- Csum_scal_l, <- Csum_scal_l. apply Csum_ext. intros kx Hkx%in_zseq_iff. cbn [get]. unfold kicen, root. rewrite !Cmult_assoc, <- !cis_add. f_equal. f_equal. ring.
Qed.
End Q.
(** ** C77: SheppardPSF *)
Theorem C77_sheppard :
  forall (k : ctor) (o0 : obj numeric) (hist : list (op numeric)) (p : spar),
    construct numeric Sheppard k = Ok o0 ->
    let o := run numeric Sheppard hist o0 in
    s_describes p o -> s_physical p -> s_na p <= s_ni p ->
    let n := s_size p in let nz := s_zsize p in let nc := components (s_vec p) in
    exists t a i ti,
      fst (read numeric Sheppard OTFa o) = Ok t /\ fst (read numeric Sheppard PSFa o) = Ok a /\ fst (read numeric Sheppard PSFi o) = Ok i /\
      fst (read numeric Sheppard OTFi o) = Ok ti /\
      shape t = [nc; nz; n; n] /\ shape a = [nc; nz; n; n] /\ shape i = [nz; n; n] /\ shape ti = [nz; n; n] /\
      (forall c kz ky kx, (0 <= c < nc)%Z -> on_ix p kz ky kx ->
         (~ on_shell p kz ky kx -> get t [c; kz; ky; kx] = Some (RtoC 0)) /\
         (on_shell p kz ky kx -> s_vec p = VecNone -> get t [c; kz; ky; kx] = Some (RtoC 1)) /\
         (on_shell p kz ky kx -> s_vec p <> VecNone -> forall theta phi,
            sfl p kx = kabs p kz ky kx * (sin theta * cos phi) -> sfl p ky = kabs p kz ky kx * (sin theta * sin phi) ->
            sfz p kz = kabs p kz ky kx * cos theta -> -1 < cos theta -> cos theta <> 0 -> (0 < cos theta \/ s_cond p <> CondSine) ->
            get t [c; kz; ky; kx] = Some (RtoC (polarisation (s_vec p) (lens theta phi) c * cond_amp (s_cond p) theta)))) /\
      (forall c z y x, (0 <= c < nc)%Z -> on_ix p z y x -> (forall kz ky kx, on_ix p kz ky kx -> get t [c; kz; ky; kx] <> None) ->
         get a [c; z; y; x] = Some (inverse_sum nz n (fun kz ky kx => cval (get t [c; kz; ky; kx])) z y x)) /\
      (forall z y x, on_ix p z y x -> (forall c, (0 <= c < nc)%Z -> get a [c; z; y; x] <> None) ->
         get i [z; y; x] = Some (RtoC (Rsum (zseq nc) (fun c => Cmod (cval (get a [c; z; y; x])) ^ 2)))) /\
      (forall z y x, on_ix p z y x ->
         ((forall z' y' x', on_ix p z' y' x' -> get i [z'; y'; x'] <> None) ->
          get ti [z; y; x] = Some (fourier_sum [true; true; true] [nz; n; n] (fun ix => cval (get i ix)) [z; y; x])) /\
         ((exists z' y' x', on_ix p z' y' x' /\ get i [z'; y'; x'] = None) -> get ti [z; y; x] = None)).
Proof.
  intros k o0 hist p Hk o Hd Hp Hna n nz nc. destruct (C39_rejection p Hp) as [_ [A HA]]; [exact Hna|]. pose proof HA as HA'. rewrite <- (s_described p o Hd) in HA'.
  destruct (C73_sheppard_objects k o0 hist A Hk HA') as (E1 & E2 & E3 & E4). fold o in E1, E2, E3, E4.
  destruct (C30_sheppard_shape_sign p A Hp HA) as (S1 & S2 & S3 & _). fold n nz nc in S1, S2, S3.
  exists A, (s_psfa A), (amap ocplx (s_psfi (s_psfa A))), (o_fft (amap ocplx (s_psfi (s_psfa A)))). do 8 (split; [assumption|]). split; [|split; [|split]].
  - intros c kz ky kx Hc (Hz & Hy & Hx). split; [intros; now apply (otf_off p Hp)|]. split.
    + intros Hs Hv. assert (c = 0%Z) as -> by (unfold nc in Hc; rewrite Hv in Hc; cbn in Hc; lia). now apply (otf_scalar p Hp).
    + intros. now apply (otf_vector p Hp).
  - intros c z y x Hc (Hz & Hy & Hx) Hf. now apply (psfa_value p Hp).
  - intros z y x Ho Hf. unfold s_psfi. cbn [amap get]. rewrite S2. cbn [hd]. replace (forallb _ _) with true.
    2:{ symmetry. apply forallb_forall. intros c Hc%in_zseq_iff. specialize (Hf c Hc). destruct (get (s_psfa A) _); [reflexivity|congruence]. }
    cbn [ocplx]. do 2 f_equal. apply Rsum_ext. intros c Hc. rewrite Cnorm2_Cmod. ring.
  - intros z y x (Hz & Hy & Hx). set (i := amap ocplx (s_psfi (s_psfa A))) in *.
    assert (S3' : shape i = [nz; n; n]) by exact S3. unfold o_fft. cbn [get]. split.
    + intros Hf. replace (finite_all i) with true.
      2:{ symmetry. unfold finite_all. apply forallb_forall. intros r Hr. apply in_all_ix in Hr. rewrite S3' in Hr.
          destruct (inb3_inv _ _ _ _ Hr) as (a & b & d & -> & Ha & Hb & Hd'). specialize (Hf a b d (conj Ha (conj Hb Hd'))). destruct (get i _); [reflexivity|congruence]. }
      f_equal. pose proof (centred_transform None (amap cval i) [z; y; x]) as T. cbn [amap shape] in T. rewrite S3' in T.
      destruct T as [_ T']; [repeat (apply inb_cons; split; [assumption|]); constructor|]. exact T'.
    + intros (a & b & d & (Ha & Hb & Hd') & E). destruct (finite_all i) eqn:F; [|reflexivity]. exfalso. unfold finite_all in F. rewrite forallb_forall in F.
      specialize (F [a; b; d]). rewrite E in F. discriminate F. apply in_all_ix. rewrite S3'. repeat (apply inb_cons; split; [assumption|]); constructor.
Qed.
Print Assumptions C77_sheppard.
(** The hypotheses hold for a model of each class with all components: HanserPSF(520, 1.2, 1.5, 90, 64, zres=100, zsize=7)
    after vec_corr = "total", and the SheppardPSF with the same arguments. *)
Definition set_total (E : engine) : list (op E) := [Assign E (SetNum A_vec_corr (VStr "total"))].
Lemma total_attrs (E : engine) c : let o := run E c (set_total E) (made_of E c) in
  o_attr o A_wl = Some (VInt 520) /\ o_attr o A_na = Some (qf 6 5) /\ o_attr o A_ni = Some (qf 3 2) /\ o_attr o A_res = Some (VInt 90) /\
  o_attr o A_size = Some (VInt 64) /\ o_attr o A_zres = Some (VInt 100) /\ o_attr o A_zsize = Some (VInt 7) /\
  o_attr o A_vec_corr = Some (VStr "total") /\ o_attr o A_condition = Some (VStr "sine") /\
  match c with Hanser => exists l, o_zrange o = Some l /\ List.length l = 7%nat /\ Forall (fun f => exists q, f = FFin q) l | Sheppard => o_attr o A_dual = Some (VBool false) end.
Proof. destruct c; cbv zeta; repeat (split; [vm_compute; reflexivity|]); [|vm_compute; reflexivity]. eexists. split; [vm_compute; reflexivity|]. split; [reflexivity|]. repeat constructor; eexists; reflexivity. Qed.
Example C77_witness_hanser : exists h, h_describes h (run numeric Hanser (set_total numeric) (made_of numeric Hanser)) /\ physical h /\ h_vec h = VecTotal /\
  in_force numeric Hanser (set_total numeric) (made_of numeric Hanser) None = None /\ exists theta phi, ray_angles h theta phi.
Proof.
  destruct (total_attrs numeric Hanser) as (E1 & E2 & E3 & E4 & E5 & _ & _ & E8 & E9 & l & E10 & E11 & E12).
  exists (mkHpar (Q2R 520) (Q2R (6 # 5)) (Q2R (3 # 2)) (Q2R 90) 64 (map fl_R l) VecTotal CondSine).
  assert (P : physical (mkHpar (Q2R 520) (Q2R (6 # 5)) (Q2R (3 # 2)) (Q2R 90) 64 (map fl_R l) VecTotal CondSine)) by (unfold physical, Q2R; cbn; repeat split; lra || lia).
  split; [|split; [exact P|]; split; [reflexivity|]; split; [cbn [in_force set_total in_force_step]; destruct (negb _ && _); reflexivity|apply rays_exist; exact P]].
  unfold h_describes. rewrite E1, E2, E3, E4, E5, E8, E9, E10. cbn [h_wl h_na h_ni h_res h_size h_vec h_cond h_zrange].
  repeat (split; [first [do 2 eexists; split; [reflexivity|]; split; reflexivity | left; reflexivity | eexists; split; [reflexivity|]; cbn; tauto]|]).
  exists l. split; [reflexivity|]. clear -E12. induction E12 as [|x l (q & ->) H IH]; cbn; constructor; auto. exists q. split; reflexivity.
Qed.
Example C77_witness_sheppard : exists p, s_describes p (run numeric Sheppard (set_total numeric) (made_of numeric Sheppard)) /\ s_physical p /\ s_na p <= s_ni p /\ s_vec p = VecTotal.
Proof.
  destruct (total_attrs numeric Sheppard) as (E1 & E2 & E3 & E4 & E5 & E6 & E7 & E8 & E9 & E10).
  exists (mkSpar (Q2R 520) (Q2R (6 # 5)) (Q2R (3 # 2)) (Q2R 90) 64 (Q2R 100) 7 VecTotal CondSine false). split.
  - unfold s_describes. rewrite E1, E2, E3, E4, E5, E6, E7, E8, E9, E10. cbn [s_wl s_na s_ni s_res s_size s_vec s_cond s_zres s_zsize s_dual].
    repeat (split; [first [do 2 eexists; split; [reflexivity|]; split; reflexivity | left; reflexivity | eexists; split; [reflexivity|]; cbn; tauto]|]). reflexivity.
  - unfold s_physical, Q2R. cbn. repeat split; lra || lia.
Qed.
