(** C109: no microscope that multiplies or bins Hanser images passes a lateral frequency beyond its optical cut-off. *)
From Verif Require Import S_FFT S_Hanser S_Micro S_Confocal S_Apotome S_Bin L_Sum L_Bin L_PSF L_Ctor L_Phase5 L_Micro T_PSF T_PSF2 T_Bin L_Array L_FFT L_FFT2 T_FFT L_Phase2 L_Polar L_Radial T_Radial T_Hanser T_Object T_Micro T_Micro2 T_Micro3 L_Micro2 T_Micro4 T_Micro5 T_Confocal T_Confocal2 T_SIM T_Wiener T_SIM2 T_Apotome T_Apotome2 L_Hanser L_Hanser2 L_Hanser3 L_Band L_Lateral.
Import M_Array.
Local Open Scope R_scope.

(** the lateral frequency of entry (ky, kx) of the centred n x n spectrum of pixels of size px *)
Definition lateral (n ky kx : Z) (px : R) : R := sqrt ((IZR (ky - n / 2) / (IZR n * px)) ^ 2 + (IZR (kx - n / 2) / (IZR n * px)) ^ 2).
(** [o] has no lateral frequency of [limit] or more *)
Definition cut_off (o : array (option C)) (nz n : Z) (px limit : R) : Prop :=
  forall kz ky kx, inb [nz; n; n] [kz; ky; kx] -> limit <= lateral n ky kx px -> get o [kz; ky; kx] = Some (RtoC 0).

Lemma lateral_mod n ky kx px : 0 < IZR n * px -> lateral n ky kx px * (IZR n * px) = Cmod (IZR (ky - n / 2), IZR (kx - n / 2)).
Proof.
  intros P. unfold lateral, Cmod. cbn [fst snd]. rewrite <- (sqrt_pow2 (IZR n * px)) at 3 by lra. rewrite <- sqrt_mult_alt by nra. f_equal. field. split; intros E; rewrite E in P; lra.
Qed.
Lemma cut_off_fine q r nz n f light px L :
  (0 < n)%Z -> (0 < f)%Z -> 0 < px -> shape r = [nz; n; n] ->
  (forall z, (0 <= z < nz)%Z -> BL (n * f) (L * (IZR n * px)) (fun y x => RtoC (get q [z; y; x]))) ->
  (forall z y x, inb [nz; n; n] [z; y; x] -> get r [z; y; x] = Some (collected q n f z y x / light)) ->
  cut_off (o_fft (amap (option_map RtoC) r)) nz n px L.
Proof.
  intros Hn Hf Px Hs HB Hv kz ky kx Hi HL. destruct (inb3_inv _ _ _ _ Hi) as (a & b & c & [= <- <- <-] & Qz & Qy & Qx).
  assert (Pf : 0 < IZR n * px) by (apply Rmult_lt_0_compat; [now apply IZR_lt|exact Px]).
  set (B := amap (option_map RtoC) r). assert (Fin : finite_all B = true).
  { unfold finite_all. apply forallb_forall. intros ix Hix. apply in_all_ix in Hix. unfold B in *. cbn [amap get shape] in *. rewrite Hs in Hix. destruct (inb3_inv _ _ _ _ Hix) as (z & y & x & -> & _). rewrite Hv by exact Hix. reflexivity. }
  unfold o_fft. cbn [get]. rewrite Fin. f_equal. assert (Sh : shape (amap cval B) = [nz; n; n]) by exact Hs.
  rewrite easy_fft_mop; rewrite Sh; [|exact Hi]. cbn [axes_mask List.length repeat]. rewrite mop3. apply Csum_zero. intros z Hz. apply in_zseq in Hz.
  rewrite (mop_ext _ _ _ _ (fun ix => match ix with [y; x] => RtoC (/ light) *c RtoC (collected q n f z y x) | _ => RtoC 0 end)); [|now apply inb2|].
  2:{ intros ix H2. destruct (inb2_inv _ _ _ H2) as (y & x & -> & Hy & Hx). unfold B. cbn [amap get]. rewrite Hv by (now apply inb3). cbn [option_map cval]. unfold Rdiv. rewrite Rmult_comm. apply RtoC_mult. }
  rewrite (BL_zero n (L * (IZR n * px))); [ring|exact Hn| |exact Qy|exact Qx|].
  - apply BL_scal. unfold collected. set (N := (n * f)%Z).
    apply (BL_ext n _ (fun y x => Csum (offsets f) (fun j => Csum (offsets f) (fun i => RtoC (get q [z; ((N / 2 - n / 2 * f + j) + y * f) mod N; ((N / 2 - n / 2 * f + i) + x * f) mod N]%Z))))).
    { intros y x _ _. rewrite Csum_RtoC. apply Csum_ext. intros j _. rewrite Csum_RtoC. apply Csum_ext. intros i _. do 4 f_equal; [|f_equal]; f_equal; ring. }
    apply BL_sum. intros j _. apply BL_sum. intros i _.
    apply (BL_sample n f _ (fun y x => RtoC (get q [z; y; x])) (N / 2 - n / 2 * f + j) (N / 2 - n / 2 * f + i) Hn Hf). now apply HB.
  - rewrite <- (lateral_mod n ky kx px) by exact Pf. apply Rmult_le_compat_r; lra.
Qed.

(** ** the three microscopes *)
Lemma parts a m wl na px : kwargs_ok a -> built_from a m -> finite_number (Some (w_wl a)) wl -> finite_number (Some (w_na a)) na -> finite_number (Some (w_pixel a)) px ->
  exists f n, int_value (w_os a) = Some f /\ (0 < f)%Z /\ int_value (w_size a) = Some n /\
    let h := hpar_of (obj_params (mi_model m)) in h_wl h = wl /\ h_na h = na /\ h_size h = (n * f)%Z /\ h_res h * IZR f = px.
Proof.
  intros Hk Hb (v1 & q1 & E1 & N1 & R1) (v2 & q2 & E2 & N2 & R2) (v3 & q3 & E3 & N3 & R3). injection E1 as <-. injection E2 as <-. injection E3 as <-.
  destruct (C54_geometry a m Hk Hb) as (f & n & Hf & Pf & _ & Hn & _ & (vs & Sv & Iv) & Rs & Wl & Na & _).
  exists f, n. split; [exact Hf|]. split; [exact Pf|]. split; [exact Hn|]. cbv zeta. unfold hpar_of, obj_params. cbn [h_wl h_na h_size h_res p_wl p_na p_size p_res].
  rewrite Wl, Na, Sv. destruct (Rs q3 N3) as (v & q' & -> & Nv & Qv). cbn [val_R val_Z]. unfold num_or_nan. rewrite N1, N2, Nv. cbn.
  split; [now rewrite R1|]. split; [now rewrite R2|]. split; [now apply int_value_as|]. rewrite R3. apply Qreals.Qeq_eqR in Qv. rewrite Qv.
  assert (Nf : ~ (inject_Z f == 0)%Q) by (intros Z; unfold Qeq in Z; cbn in Z; lia).
  unfold Qdiv. rewrite Qreals.Q2R_mult, Qreals.Q2R_inv by exact Nf. assert (If : Q2R (inject_Z f) = IZR f) by (unfold Q2R, inject_Z; cbn; lra). rewrite If. field. apply not_0_IZR. lia.
Qed.
Lemma field_eq n f res px : res * IZR f = px -> IZR (n * f) * res = IZR n * px.
Proof. intros <-. rewrite mult_IZR. ring. Qed.

(** the widefield image of a Hanser model that is not black (any vec_corr) *)
Lemma wide_image a m : kwargs_ok a -> WidefieldMicroscope a = Ok m -> mi_cls m = Hanser ->
  let h := hpar_of (obj_params (mi_model m)) in physical h ->
  let nz := Z.of_nat (List.length (h_zrange h)) in
  exists A n f, M_Hanser.gen_psf h None = Ok A /\ int_value (w_size a) = Some n /\ int_value (w_os a) = Some f /\ h_size h = (n * f)%Z /\
    (Rsum (all_ix [nz; h_size h; h_size h]) (get (sumsq A)) <> 0 -> exists r, fst (m_PSF m) = Ok r /\ shape r = [nz; n; n] /\
      forall z y x, inb [nz; n; n] [z; y; x] -> get r [z; y; x] = Some (collected (sumsq A) n f z y x / Rsum (all_ix [nz; n * f; n * f]%Z) (get (sumsq A)))).
Proof.
  intros Hk Hm Hc h Hp nz. destruct (proj1 (C30_computes h Hp)) as [A HA].
  destruct (built_wide_result a m (built_wide a m Hm)) as (k & f0 & p & c & kk & o & _ & _ & _ & _ & _ & _ & _ & Eo & Hc' & _ & _ & Hmod & _). rewrite Hc in Hc'. subst c.
  assert (Sh : shows (mi_model m) A).
  { rewrite Hmod. apply (C73_hanser_objects kk o [] A Eo). cbn [run in_force]. unfold h in HA. rewrite Hmod in HA. exact HA. }
  destruct Sh as (_ & S2 & _). set (B := amap (fun r => Some (RtoC r)) (sumsq A)) in *.
  assert (Fin : finite_all B = true) by (unfold finite_all; apply forallb_forall; reflexivity).
  rewrite <- Hc in S2. destruct (C55_widefield a m B Hk Hm S2 Fin) as (nz' & n & f & Hn & Hf & HS & _ & X). cbv zeta in X.
  destruct (C30_shape_sign h None A Hp ltac:(discriminate) HA) as (_ & SS & _). cbn [B amap shape] in HS. rewrite SS in HS. injection HS as Z1' Z2' _.
  assert (Z1 : nz = nz') by exact Z1'. assert (Z2 : h_size h = (n * f)%Z) by exact Z2'. clear Z1' Z2'.
  exists A, n, f. split; [exact HA|]. split; [exact Hn|]. split; [exact Hf|]. split; [exact Z2|]. rewrite Z2. intros Hl.
  assert (SB : shape B = [nz; n * f; n * f]%Z) by (unfold B; cbn [amap shape]; rewrite SS, Z2; reflexivity).
  assert (L1 : Rsum (all_ix (shape B)) (get (amap (fun v => Re (cval v)) B)) = Rsum (all_ix [nz; n * f; n * f]%Z) (get (sumsq A))) by (rewrite SB; reflexivity).
  rewrite L1 in X. destruct (X Hl) as (r & E1 & E2 & E3 & _). exists r. split; [exact E1|]. rewrite Z1 at 1. split; [exact E2|]. intros z y x Hi. apply E3. rewrite <- Z1. exact Hi.
Qed.
(** the model's image is not black *)
Definition not_black (h : hpar) : Prop := forall A, M_Hanser.gen_psf h None = Ok A ->
  Rsum (all_ix [Z.of_nat (List.length (h_zrange h)); h_size h; h_size h]) (get (sumsq A)) <> 0.
(** ... as it never is with a positive aperture, at least one plane and a vec_corr other than "z" *)
Theorem C109_when_not_black : forall h, physical h -> 0 < h_na h -> h_vec h <> VecZ -> h_zrange h <> [] -> not_black h.
Proof.
  intros h Hp Hna Hv Hz A HA. apply Rgt_not_eq. rewrite Rsum_all3. assert (L0 : (0 < Z.of_nat (List.length (h_zrange h)))%Z) by (destruct (h_zrange h); [congruence|cbn [List.length]; lia]).
  apply (Rsum_pos _ _ 0%Z); [|apply in_zseq; exact (conj (Z.le_refl 0) L0)|].
  - intros z _. exact (Rlt_le _ _ (C31_light h A z Hp Hna Hv HA)).
  - exact (C31_light h A 0 Hp Hna Hv HA).
Qed.
Print Assumptions C109_when_not_black.

(** Widefield: nothing at or beyond 2 na / wl. *)
Theorem C109_widefield : forall a m wl na px,
  kwargs_ok a -> WidefieldMicroscope a = Ok m -> mi_cls m = Hanser ->
  finite_number (Some (w_wl a)) wl -> finite_number (Some (w_na a)) na -> finite_number (Some (w_pixel a)) px ->
  let h := hpar_of (obj_params (mi_model m)) in
  physical h -> not_black h ->
  let nz := Z.of_nat (List.length (h_zrange h)) in
  exists n otf, int_value (w_size a) = Some n /\ fst (m_OTF m) = Ok otf /\ shape otf = [nz; n; n] /\ cut_off otf nz n px (2 * na / wl).
Proof.
  intros a m wl na px Hk Hm Hc Fw Fn Fp h Hp Hb0 nz. pose proof (built_wide a m Hm) as Hb.
  destruct (parts a m wl na px Hk Hb Fw Fn Fp) as (f & n & Hf & Pf & Hn & Ew & En & Es & Er). fold h in Ew, En, Es, Er.
  destruct (wide_image a m Hk Hm Hc Hp) as (A & n' & f' & HA & Hn' & Hf' & _ & X). fold h nz in HA, X. destruct (X (Hb0 A HA)) as (r & EP & Sr & Gr). clear X.
  assert (n' = n) by congruence. assert (f' = f) by congruence. subst n' f'.
  exists n, (o_fft (amap (option_map RtoC) r)). split; [exact Hn|]. split.
  { destruct (C57_snapshot m [] (ex_intro _ a Hb)) as [E1 E2]. cbn [mrun snapshot] in E1, E2. rewrite E2, <- E1, EP. reflexivity. }
  split; [exact Sr|]. pose proof Hp as (_ & _ & _ & Pr & Ps). rewrite Es in Ps.
  apply (cut_off_fine (sumsq A) r nz n f _ px (2 * na / wl)) with (4 := Sr) (6 := Gr); [nia|exact Pf| |].
  - rewrite <- Er. apply Rmult_lt_0_compat; [exact Pr|now apply IZR_lt].
  - intros z _. rewrite <- Es, <- Ew, <- En, <- (field_eq n f _ _ Er), <- Es. apply (BL_intensity h Hp None A z HA); [discriminate|].
    intros j i _ _ Ha. now apply C36_ideal_support.
Qed.
Print Assumptions C109_widefield.

(** Confocal without a resolved pinhole: the limits of detection and excitation add up. *)
Theorem C109_confocal : forall a w p m wl na px wx,  forall qp, 
  kwargs_ok a -> ConfocalMicroscope a w p = Ok m -> mi_cls m = Hanser ->
  finite_number (Some (w_wl a)) wl -> finite_number (Some (w_na a)) na -> finite_number (Some (w_pixel a)) px ->
  finite_number (Some w) wx -> M_Val.num p = Some (FFin qp) ->
  let h := hpar_of (obj_params (mi_model m)) in
  physical h -> 0 < na -> 0 < wx -> pinhole_radius (Q2R qp) wl na (h_res h) <= 3 / 2 ->
  (forall q b, fst (model_psf m) = Ok (q, b) -> Rsum (all_ix (shape q)) (get q) <> 0) ->
  let nz := Z.of_nat (List.length (h_zrange h)) in
  exists n otf, int_value (w_size a) = Some n /\ fst (m_OTF m) = Ok otf /\ shape otf = [nz; n; n] /\ cut_off otf nz n px (2 * na / wl + 2 * na / wx).
Proof.
  intros a w p m wl na px wx qp Hk Hm Hc Fw Fn Fp Fx Hqp h Hp Hna Hwx Hr Hl nz. pose proof (built_confocal a w p m Hm) as Hb.
  destruct (parts a m wl na px Hk Hb Fw Fn Fp) as (f & n & Hf & Pf & Hn & Ew & En & Es & Er). fold h in Ew, En, Es, Er.
  destruct Fx as (v & qx & E & Nx & Rx). injection E as <-. 
  destruct (C59_hanser a w p m qx qp Hk Hm Hc Nx Hqp Hp ltac:(fold h; lra) ltac:(lra)) as (A & X & n' & f' & q & HA & HX & Hn' & Hf' & _ & Eq & Sq & Gq & _ & G). fold h nz in HA, HX, Sq, Gq, G.
  assert (n' = n) by congruence. assert (f' = f) by congruence. subst n' f'.
  pose proof (Hl q true Eq) as Lq. rewrite Sq in Lq. destruct (G Lq) as (r & EP & Sr & _ & _ & Gr). clear G.
  exists n, (o_fft (amap (option_map RtoC) r)). split; [exact Hn|]. split.
  { destruct (C57_snapshot m [] (ex_intro _ a Hb)) as [E1 E2]. cbn [mrun snapshot] in E1, E2. rewrite E2, <- E1, EP. reflexivity. }
  split; [exact Sr|]. pose proof Hp as (_ & _ & _ & Pr & Ps). rewrite Es in Ps.
  assert (Hpx : physical (with_wl h (Q2R qx))) by (destruct Hp as (? & ? & ? & ? & ?); unfold physical; cbn [with_wl h_wl h_na h_ni h_res h_size]; repeat split; auto; lra).
  apply (cut_off_fine q r nz n f _ px _) with (4 := Sr) (6 := Gr); [nia|exact Pf| |].
  - rewrite <- Er. apply Rmult_lt_0_compat; [exact Pr|now apply IZR_lt].
  - intros z Qz. apply (BL_ext (n * f) _ (fun y x => RtoC (get (sumsq A) [z; y; x]) *c RtoC (get (sumsq X) [z; y; x]))).
    { intros y x Hy Hx. destruct (Gq z y x ltac:(now apply inb3)) as [G1 _]. rewrite G1; [symmetry; apply RtoC_mult|]. rewrite Ew, En. exact Hr. }
    rewrite Rmult_plus_distr_r. rewrite <- (field_eq n f _ _ Er), <- Es, <- Ew, <- En, Rx. apply BL_mult.
    + apply (BL_intensity h Hp None A z HA); [discriminate|]. intros j i _ _ Ha. now apply C36_ideal_support.
    + apply (BL_intensity (with_wl h (Q2R qx)) Hpx None X z HX); [discriminate|]. intros j i _ _ Ha. now apply C36_ideal_support.
Qed.
Print Assumptions C109_confocal.

(** Apotome: the axial factors leave the lateral limit of the widefield image. *)
Theorem C109_apotome : forall a m wl na px,
  kwargs_ok a -> ApotomeMicroscope a = Ok m -> mi_cls m = Hanser ->
  finite_number (Some (w_wl a)) wl -> finite_number (Some (w_na a)) na -> finite_number (Some (w_pixel a)) px ->
  let h := hpar_of (obj_params (mi_model m)) in
  physical h -> 0 < na -> h_vec h <> VecZ -> h_zrange h <> [] ->
  (forall q b, fst (model_psf m) = Ok (q, b) -> Rsum (all_ix (shape q)) (get q) <> 0) ->
  let nz := Z.of_nat (List.length (h_zrange h)) in
  exists n otf, int_value (w_size a) = Some n /\ fst (m_OTF m) = Ok otf /\ shape otf = [nz; n; n] /\ cut_off otf nz n px (2 * na / wl).
Proof.
  intros a m wl na px Hk Hm Hc Fw Fn Fp h Hp Hna Hv Hz Hl nz. pose proof (built_apotome a m Hm) as Hb.
  destruct (parts a m wl na px Hk Hb Fw Fn Fp) as (f & n & Hf & Pf & Hn & Ew & En & Es & Er). fold h in Ew, En, Es, Er.
  set (l := pix [h_size h; h_size h] [IZR (h_size h / 2); IZR (h_size h / 2)] 1 (half_cutoff (IZR (h_size h)) (h_res h) (h_wl h) (h_na h))).
  assert (Hring : ring (h_size h) (half_cutoff (IZR (h_size h)) (h_res h) (h_wl h) (h_na h)) l) by apply pix_spec.
  destruct (C76_hanser a m l Hk Hm Hc Hp ltac:(fold h; lra) Hv Hz Hring) as (A & n' & f' & img & P & HA & Hn' & Hf' & _ & _ & _ & _ & _ & Eq & Sq & Gq & _ & El & G). fold h nz in HA, Sq, Gq, G, El. cbv zeta in Gq, G, El.
  assert (n' = n) by congruence. assert (f' = f) by congruence. subst n' f'.
  pose proof (Hl img true Eq) as Lq. rewrite Sq in Lq. rewrite El in Lq. destruct (G Lq) as (r & EP & Sr & _ & _ & Gr). clear G.
  exists n, (o_fft (amap (option_map RtoC) r)). split; [exact Hn|]. split.
  { destruct (C57_snapshot m [] (ex_intro _ a Hb)) as [E1 E2]. cbn [mrun snapshot] in E1, E2. rewrite E2, <- E1, EP. reflexivity. }
  split; [exact Sr|]. pose proof Hp as (_ & _ & _ & Pr & Ps). rewrite Es in Ps.
  apply (cut_off_fine img r nz n f _ px _) with (4 := Sr) (6 := Gr); [nia|exact Pf| |].
  - rewrite <- Er. apply Rmult_lt_0_compat; [exact Pr|now apply IZR_lt].
  - intros z Qz. rewrite <- Es.
    eapply BL_ext; [intros y x Hy Hx; symmetry; rewrite Gq by (now apply inb3); apply RtoC_mult|]. apply BL_scal.
    rewrite Es, <- (field_eq n f _ _ Er), <- Es, <- Ew, <- En. apply (BL_intensity h Hp None A z HA); [discriminate|]. intros j i _ _ Ha. now apply C36_ideal_support.
Qed.
Print Assumptions C109_apotome.

(** ** Witnesses: 64 pixels of 0.1, na 1.2, wavelength 0.52 (widefield and Apotome: 4.6 cycles per unit; the corner of the
    spectrum is at 7.07); confocal: excitation at 1.2 and no pinhole, 6.6 cycles per unit. *)
Lemma a0_numbers : finite_number (Some (w_wl a0)) (Q2R (52 # 100)) /\ finite_number (Some (w_na a0)) (Q2R (6 # 5)) /\ finite_number (Some (w_pixel a0)) (Q2R (1 # 10)).
Proof. repeat split; eexists; eexists; (split; [reflexivity|split; reflexivity]). Qed.
Lemma a0_corner limit : limit <= 7 -> limit <= lateral 64 0 0 (Q2R (1 # 10)).
Proof.
  intros H. eapply Rle_trans; [exact H|]. unfold lateral, Q2R. cbn [Qnum Qden]. change (0 - 64 / 2)%Z with (-32)%Z.
  rewrite <- (sqrt_pow2 7) by lra. apply sqrt_le_1_alt. field_simplify. lra.
Qed.
Example C109_witness_widefield : exists m otf, WidefieldMicroscope a0 = Ok m /\ fst (m_OTF m) = Ok otf /\ shape otf = [16; 64; 64]%Z /\ get otf [3; 0; 0]%Z = Some (RtoC 0).
Proof.
  destruct a0_built as (m & Hm & Hc & Hp). destruct a0_physical as (P1 & P2 & P3 & P4). destruct a0_numbers as (N1 & N2 & N3).
  pose proof (C109_widefield a0 m _ _ _ a0_kwargs Hm Hc N1 N2 N3) as X. cbv zeta in X. rewrite Hp in X. set (h := hpar_of a0_params) in *.
  destruct (X P1 (C109_when_not_black h P1 P2 ltac:(rewrite P3; discriminate) ltac:(intros E; rewrite E in P4; discriminate P4))) as (n & otf & Hn & E & S & K).
  rewrite P4 in *. cbn in Hn. injection Hn as <-. exists m, otf. split; [exact Hm|]. split; [exact E|]. split; [exact S|]. apply K; [apply inb3; lia|]. apply a0_corner. unfold Q2R. cbn. lra.
Qed.
Lemma a0_confocal2 : exists m, ConfocalMicroscope a0 (qv 12 10) (VInt 0) = Ok m /\ mi_cls m = Hanser /\ obj_params (mi_model m) = a0_params.
Proof.
  destruct (a0_made numeric) as (o & Ho & Po).
  assert (W : wide_init a0 (empty_micro Confocal) = (Ok tt, wide_result Confocal Hanser a0 (VInt 192) (VFloat (FFin ((1 # 10) / inject_Z 3)%Q)) o)).
  { rewrite wide_eq. cbn [a0 w_os int_value]. change (3 <? 0)%Z with false. change (Z.even 3) with false. cbv zeta iota.
    change (fine_pair a0 3) with (@Ok (pyval * pyval) (VInt 192, VFloat (FFin ((1 # 10) / inject_Z 3)%Q))). cbn [bind]. change (choose_model (w_model a0)) with (@Ok cls Hanser). cbn [bind fst snd].
    rewrite ctor_for_eq; [|apply a0_kwargs|intros k [<-|[]]; cbn; tauto]. change (zrange_kw (w_kwargs a0)) with (@Ok (option zrange_arg) None). cbn [bind]. unfold a0_ctor in Ho. rewrite Ho. reflexivity. }
  unfold ConfocalMicroscope, make, confocal_init, mbind. rewrite W. set (m1 := wide_result _ _ _ _ _ _).
  assert (S : exists m2, m_set MPinhole (VInt 0) m1 = (Ok tt, m2) /\ mi_model m2 = o /\ mi_cls m2 = Hanser).
  { unfold m_set. cbn [m1 wide_result mi_kind has_prop]. unfold numeric_fset, numeric_decide. cbn [mtype]. change (isinstance (VInt 0) TFloatInt) with true. cbn [negb]. unfold py_lt. cbn [M_Val.num bind].
    change (fl_lt (FFin (inject_Z 0)) (FFin (inject_Z 0))) with false. replace (mi_num m1 MPinhole) with (@None pyval) by reflexivity. change (py_eq VNone (VInt 0)) with false. cbn [negb]. eexists. split; [reflexivity|]. split; reflexivity. }
  destruct S as (m2 & -> & M1 & M2). cbn [masks]. unfold on_exc. cbn [upd_exc mi_exc]. rewrite M1, M2.
  assert (V : exists o2, assign numeric Hanser (SetNum A_wl (qv 12 10)) o = (Ok tt, o2)).
  { cbn [assign]. unfold numeric_set, numeric_fset. assert (Wl : o_attr o A_wl = Some (qv 52 100)) by (assert (X : p_wl (obj_params o) = p_wl a0_params) by (rewrite Po; reflexivity); exact X). rewrite Wl.
    change (numeric_decide (Some (qv 52 100)) TFloatInt (qv 12 10)) with (@Ok bool true). eexists. reflexivity. }
  destruct V as (o2 & ->). eexists. split; [reflexivity|]. cbn [mi_cls mi_model upd_exc]. rewrite M1, M2. split; [reflexivity|exact Po].
Qed.
Example C109_witness_confocal : exists m otf, ConfocalMicroscope a0 (qv 12 10) (VInt 0) = Ok m /\ fst (m_OTF m) = Ok otf /\ shape otf = [16; 64; 64]%Z /\ get otf [3; 0; 0]%Z = Some (RtoC 0).
Proof.
  destruct a0_confocal2 as (m & Hm & Hc & Hp). destruct a0_physical as (P1 & P2 & P3 & P4). destruct a0_numbers as (N1 & N2 & N3).
  assert (N4 : finite_number (Some (qv 12 10)) (Q2R (12 # 10))) by (eexists; eexists; (split; [reflexivity|split; reflexivity])).
  pose proof (C59_hanser a0 (qv 12 10) (VInt 0) m (12 # 10) (inject_Z 0) a0_kwargs Hm Hc eq_refl eq_refl) as Y. cbv zeta in Y. rewrite Hp in Y.
  pose proof (C109_confocal a0 (qv 12 10) (VInt 0) m _ _ _ _ (inject_Z 0) a0_kwargs Hm Hc N1 N2 N3 N4 eq_refl) as X. cbv zeta in X. rewrite Hp in X. set (h := hpar_of a0_params) in *.
  destruct (Y P1 P2 ltac:(unfold Q2R; cbn; lra)) as (A & Xx & n' & f & q & _ & _ & Hn' & Hf & _ & Eq & Sq & _ & L & _). clear Y.
  destruct (X P1 ltac:(unfold Q2R; cbn; lra) ltac:(unfold Q2R; cbn; lra)) as (n & otf & Hn & E & S & K).
  - unfold pinhole_radius. unfold Q2R at 1. cbn [Qnum Qden inject_Z]. unfold Rdiv. rewrite !Rmult_0_l. lra.
  - intros q' b Eq'. rewrite Eq in Eq'. injection Eq' as <- <-. rewrite Sq. apply Rgt_not_eq. apply L; [exact P3|]. cbn. unfold Q2R. cbn. do 8 right. left. lra.
  - rewrite P4 in *. cbn in Hn. injection Hn as <-. exists m, otf. split; [exact Hm|]. split; [exact E|]. split; [exact S|]. apply K; [apply inb3; lia|]. apply a0_corner. unfold Q2R. cbn. lra.
Qed.
Example C109_witness_apotome : exists m otf, ApotomeMicroscope a0 = Ok m /\ fst (m_OTF m) = Ok otf /\ shape otf = [16; 64; 64]%Z /\ get otf [3; 0; 0]%Z = Some (RtoC 0).
Proof.
  destruct a0_apotome as [m Hm]. assert (Hb : built_from a0 m) by now apply built_apotome. destruct (a0_any m Hb) as [Hc Hp]. destruct a0_physical as (P1 & P2 & P3 & P4). destruct a0_numbers as (N1 & N2 & N3).
  pose proof (fun l => C76_hanser a0 m l a0_kwargs Hm Hc) as Y. cbv zeta in Y. rewrite Hp in Y.
  pose proof (C109_apotome a0 m _ _ _ a0_kwargs Hm Hc N1 N2 N3) as X. cbv zeta in X. rewrite Hp in X. set (h := hpar_of a0_params) in *.
  assert (Nv : h_vec h <> VecZ) by (rewrite P3; discriminate). assert (Nz : h_zrange h <> []) by (intros E; rewrite E in P4; discriminate P4).
  set (k := half_cutoff (IZR (h_size h)) (h_res h) (h_wl h) (h_na h)) in *.
  specialize (Y (pix [h_size h; h_size h] [IZR (h_size h / 2); IZR (h_size h / 2)] 1 k) P1 P2 Nv Nz (pix_spec _ _ _ _)).
  destruct Y as (A & n' & f & img & P & HA & Hn' & Hf & HN & Hk & _ & _ & _ & E1 & S1 & _ & _ & El & _).
  assert (Z8 : nth (Z.to_nat 8) (h_zrange h) 0 = 0) by (change (Z.to_nat 8) with 8%nat; cbn; unfold Q2R; cbn; lra).
  assert (R1 : 1 < h_na h / h_wl h * (IZR (h_size h) * h_res h)) by (cbn; unfold Q2R; cbn; replace (6 * / 5 / (52 * / 100) * (192 * (1 * / 30))) with (192 * 6 * 100 / (5 * 52 * 30)) by field; lra).
  pose proof (C76_light h A _ 8 P1 P3 HA P2 ltac:(rewrite P4; lia) Z8 R1 Hk (pix_spec _ _ _ _)) as Lp.
  destruct (X P1 ltac:(unfold Q2R; cbn; lra) Nv Nz) as (n & otf & Hn & E & S & K).
  - intros q b Eq. rewrite E1 in Eq. injection Eq as <- <-. rewrite S1. rewrite El. apply Rgt_not_eq. exact Lp.
  - rewrite P4 in *. cbn in Hn. injection Hn as <-. exists m, otf. split; [exact Hm|]. split; [exact E|]. split; [exact S|]. apply K; [apply inb3; lia|]. apply a0_corner. unfold Q2R. cbn. lra.
Qed.
