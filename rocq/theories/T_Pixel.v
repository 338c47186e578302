(** C110: binning in frequency space. *)
From Verif Require Import S_FFT S_Hanser S_Micro S_Confocal S_Bin S_Pixel L_Sum L_Bin L_PSF L_Ctor L_Phase5 L_Micro T_PSF T_PSF2 T_Bin L_Array L_FFT L_FFT2 T_FFT L_Phase2 L_Polar T_Hanser T_Object T_Micro T_Micro2 T_Micro3 L_Micro2 T_Micro4 T_Micro5 T_Confocal T_Confocal2 L_Hanser L_Hanser2 L_Hanser3 L_Band L_Lateral L_Pixel T_Lateral.
Import M_Array.
Local Open Scope R_scope.

Lemma plane_binned n f (q : array R) z ky kx : (0 < n)%Z -> (0 < f)%Z -> Z.even f = false ->
  let N := (n * f)%Z in
  mop (kcen (-1)) [true; true] [n; n] (fun ix => match ix with [y; x] => RtoC (collected q n f z y x) | _ => RtoC 0 end) [ky; kx] =
  RtoC (/ (IZR f * IZR f)) *c Csum (aliases n f ky) (fun Ky => Csum (aliases n f kx) (fun Kx =>
    RtoC (pixel_transfer f N (Ky - N / 2) * pixel_transfer f N (Kx - N / 2)) *c mop (kcen (-1)) [true; true] [N; N] (fun ix => RtoC (get q (z :: ix))) [Ky; Kx])).
Proof.
  intros Hn Hf Ho N.
  set (u := fun Y X => RtoC (get q [z; Y; X])).
  transitivity (binned_spectrum n f (fun Y => binned_spectrum n f (u Y) kx) ky).
  - cbn [mop]. unfold binned_spectrum at 1. apply Csum_ext. intros y _. f_equal. unfold binned_spectrum.
    transitivity (Csum (zseq n) (fun x => Csum (offsets f) (fun j => kcen (-1) n kx x *c Csum (offsets f) (fun i => u ((N / 2 + (y - n / 2) * f + j) mod N) ((N / 2 + (x - n / 2) * f + i) mod N))%Z))).
    + apply Csum_ext. intros x _. rewrite Csum_scal_l. f_equal. unfold collected. fold N. rewrite Csum_RtoC. apply Csum_ext. intros j _. rewrite Csum_RtoC. reflexivity.
    + rewrite Csum_swap. reflexivity.
  - rewrite binning_line by assumption. fold N.
    transitivity (RtoC (/ IZR f) *c Csum (aliases n f ky) (fun K => RtoC (/ IZR f) *c Csum (aliases n f kx) (fun Kx => RtoC (pixel_transfer f N (K - N / 2) * pixel_transfer f N (Kx - N / 2)) *c mop (kcen (-1)) [true; true] [N; N] (fun ix => RtoC (get q (z :: ix))) [K; Kx]))).
    + f_equal. apply Csum_ext. intros K _. unfold line_spectrum. fold N.
      transitivity (RtoC (pixel_transfer f N (K - N / 2)) *c Csum (zseq N) (fun Y => RtoC (/ IZR f) *c Csum (aliases n f kx) (fun Kx => RtoC (pixel_transfer f N (Kx - N / 2)) *c (kcen (-1) N K Y *c line_spectrum n f (u Y) Kx)))).
      { f_equal. apply Csum_ext. intros Y _. rewrite binning_line by assumption. fold N. rewrite (Csum_ext (aliases n f kx) (fun Kx => RtoC (pixel_transfer f N (Kx - N / 2)) *c (kcen (-1) N K Y *c line_spectrum n f (u Y) Kx)) (fun Kx => kcen (-1) N K Y *c (RtoC (pixel_transfer f N (Kx - N / 2)) *c line_spectrum n f (u Y) Kx))) by (intros; ring). rewrite Csum_scal_l. ring. }
      rewrite Csum_scal_l, Csum_swap, Cmult_assoc, (Cmult_comm (RtoC (pixel_transfer f N (K - N / 2)))), <- Cmult_assoc. f_equal. rewrite <- Csum_scal_l. apply Csum_ext. intros Kx _. rewrite Csum_scal_l. cbn [mop]. rewrite RtoC_mult, Cmult_assoc. reflexivity.
    + rewrite Csum_scal_l, Cmult_assoc. f_equal. rewrite <- RtoC_mult. f_equal. field. apply not_0_IZR. lia.
Qed.

(** A binned image's OTF: the spectrum of the fine image, through the pixel's transfer function, with its aliases added up. *)
Lemma otf_binned (r : array (option R)) (q : array R) nz n f light : (0 < n)%Z -> (0 < f)%Z -> Z.even f = false ->
  shape r = [nz; n; n] -> shape q = [nz; n * f; n * f]%Z ->
  (forall z y x, inb [nz; n; n] [z; y; x] -> get r [z; y; x] = Some (collected q n f z y x / light)) ->
  forall kz ky kx, inb [nz; n; n] [kz; ky; kx] -> let N := (n * f)%Z in
    get (o_fft (amap (option_map RtoC) r)) [kz; ky; kx] = Some (RtoC (/ (IZR f * IZR f * light)) *c
      Csum (aliases n f ky) (fun Ky => Csum (aliases n f kx) (fun Kx =>
        RtoC (pixel_transfer f N (Ky - N / 2) * pixel_transfer f N (Kx - N / 2)) *c get (otfi_of q) [kz; Ky; Kx]))).
Proof.
  intros Hn Hf Ho Hs Hq Hv kz ky kx Hi N. destruct (inb3_inv _ _ _ _ Hi) as (a & b & c & [= <- <- <-] & Qz & Qy & Qx).
  set (B := amap (option_map RtoC) r). assert (Fin : finite_all B = true).
  { unfold finite_all. apply forallb_forall. intros ix Hix. apply in_all_ix in Hix. unfold B in *. cbn [amap get shape] in *. rewrite Hs in Hix. destruct (inb3_inv _ _ _ _ Hix) as (z & y & x & -> & _). rewrite Hv by exact Hix. reflexivity. }
  unfold o_fft. cbn [get]. rewrite Fin. f_equal. assert (Sh : shape (amap cval B) = [nz; n; n]) by exact Hs.
  rewrite easy_fft_mop; rewrite Sh; [|exact Hi]. cbn [axes_mask List.length repeat]. rewrite mop3.
  transitivity (Csum (zseq nz) (fun z => kcen (-1) nz kz z *c (RtoC (/ light) *c (RtoC (/ (IZR f * IZR f)) *c Csum (aliases n f ky) (fun Ky => Csum (aliases n f kx) (fun Kx =>
    RtoC (pixel_transfer f N (Ky - N / 2) * pixel_transfer f N (Kx - N / 2)) *c mop (kcen (-1)) [true; true] [N; N] (fun ix => RtoC (get q (z :: ix))) [Ky; Kx])))))).
  - apply Csum_ext. intros z Hz. apply in_zseq in Hz. f_equal. unfold N. rewrite <- plane_binned by assumption. rewrite <- mop_scal.
    apply mop_ext; [now apply inb2|]. intros ix H2. destruct (inb2_inv _ _ _ H2) as (y & x & -> & Hy & Hx). unfold B. cbn [amap get]. rewrite Hv by (now apply inb3). cbn [option_map cval]. unfold Rdiv. rewrite Rmult_comm. apply RtoC_mult.
  - replace (RtoC (/ (IZR f * IZR f * light))) with (RtoC (/ light) *c RtoC (/ (IZR f * IZR f))) by (rewrite <- RtoC_mult; f_equal; rewrite (Rinv_mult (IZR f * IZR f)); ring).
    rewrite (Csum_ext (zseq nz) _ (fun z => (RtoC (/ light) *c RtoC (/ (IZR f * IZR f))) *c (kcen (-1) nz kz z *c Csum (aliases n f ky) (fun Ky => Csum (aliases n f kx) (fun Kx =>
    RtoC (pixel_transfer f N (Ky - N / 2) * pixel_transfer f N (Kx - N / 2)) *c mop (kcen (-1)) [true; true] [N; N] (fun ix => RtoC (get q (z :: ix))) [Ky; Kx]))))) by (intros; ring).
    rewrite Csum_scal_l. f_equal. rewrite (Csum_ext (zseq nz) _ (fun z => Csum (aliases n f ky) (fun Ky => kcen (-1) nz kz z *c Csum (aliases n f kx) (fun Kx =>
    RtoC (pixel_transfer f N (Ky - N / 2) * pixel_transfer f N (Kx - N / 2)) *c mop (kcen (-1)) [true; true] [N; N] (fun ix => RtoC (get q (z :: ix))) [Ky; Kx])))) by (intros; now rewrite Csum_scal_l).
    rewrite Csum_swap. apply Csum_ext. intros Ky HKy.
    rewrite (Csum_ext (zseq nz) _ (fun z => Csum (aliases n f kx) (fun Kx => kcen (-1) nz kz z *c (RtoC (pixel_transfer f N (Ky - N / 2) * pixel_transfer f N (Kx - N / 2)) *c mop (kcen (-1)) [true; true] [N; N] (fun ix => RtoC (get q (z :: ix))) [Ky; Kx])))) by (intros; now rewrite Csum_scal_l).
    rewrite Csum_swap. apply Csum_ext. intros Kx HKx. unfold aliases in HKy, HKx. apply filter_In in HKy as [HKy _], HKx as [HKx _]. apply in_zseq in HKy, HKx. fold N in HKy, HKx.
    rewrite (Csum_ext (zseq nz) _ (fun z => RtoC (pixel_transfer f N (Ky - N / 2) * pixel_transfer f N (Kx - N / 2)) *c (kcen (-1) nz kz z *c mop (kcen (-1)) [true; true] [N; N] (fun ix => RtoC (get q (z :: ix))) [Ky; Kx]))) by (intros; ring).
    rewrite Csum_scal_l. f_equal. unfold otfi_of. assert (Sq : shape (complexify q) = [nz; N; N]) by exact Hq. rewrite easy_fft_mop; rewrite Sq; [|now apply inb3]. cbn [axes_mask List.length repeat]. rewrite mop3. reflexivity.
Qed.

Theorem C110_binning_in_frequency : forall m q nz n f, fst (model_psf m) = Ok (q, true) -> shape q = [nz; n * f; n * f]%Z -> (0 <= nz)%Z -> (0 < n)%Z ->
  factor_is m f -> (0 < f)%Z -> Z.even f = false -> stored_size m (n * f) ->
  let N := (n * f)%Z in let light := Rsum (all_ix [nz; N; N]) (get q) in light <> 0 ->
  exists o, fst (m_OTF (m_changed m)) = Ok o /\ shape o = [nz; n; n] /\
    forall kz ky kx, inb [nz; n; n] [kz; ky; kx] ->
      get o [kz; ky; kx] = Some (RtoC (/ (IZR f * IZR f * light)) *c
        Csum (aliases n f ky) (fun Ky => Csum (aliases n f kx) (fun Kx =>
          RtoC (pixel_transfer f N (Ky - N / 2) * pixel_transfer f N (Kx - N / 2)) *c get (otfi_of q) [kz; Ky; Kx]))).
Proof.
  intros m q nz n f Hp Hs Hz Hn Hf Pf Ho Hst N light Hl.
  destruct (C55_psf m q nz n f Hp Hs Hz Hn Hf Pf Ho Hst Hl) as (a & Ha & Sa & Ga & _).
  exists (o_fft (amap (option_map RtoC) a)). split.
  { unfold m_OTF. cbn [m_changed upd_cache mi_otf]. unfold fresh in Ha. unfold mbind. destruct (m_PSF (m_changed m)) as [[b|e] m'] eqn:EP; cbn [fst] in *; [|discriminate]. congruence. }
  split; [exact Sa|]. now apply otf_binned.
Qed.
Print Assumptions C110_binning_in_frequency.

(** The parts of the formula: rows of the fine spectrum that fall on row k, and the transfer function. *)
Theorem C110_aliases : forall n f k, (0 < n)%Z -> (0 < f)%Z ->
  NoDup (aliases n f k) /\ List.length (aliases n f k) = Z.to_nat f /\
  (forall K, In K (aliases n f k) <-> (0 <= K < n * f)%Z /\ exists j, (K - (n * f) / 2 = k - n / 2 + j * n)%Z) /\
  ((0 <= k < n)%Z -> In ((n * f) / 2 + (k - n / 2))%Z (aliases n f k)).
Proof.
  intros n f k Hn Hf. assert (HN : (0 < n * f)%Z) by nia.
  assert (D : forall K, In K (aliases n f k) <-> (0 <= K < n * f)%Z /\ exists j, (K - (n * f) / 2 = k - n / 2 + j * n)%Z).
  { intros K. unfold aliases. rewrite filter_In, in_zseq. split; intros [H1 H2]; (split; [exact H1|]).
    - apply Z.eqb_eq, Z.mod_divide in H2; [|lia]. destruct H2 as [j Hj]. exists j. lia.
    - destruct H2 as [j Hj]. apply Z.eqb_eq. replace (K - n * f / 2 - (k - n / 2))%Z with (j * n)%Z by lia. apply Z_mod_mult. }
  split; [apply NoDup_filter, NoDup_zseq|]. split; [|split; [exact D|]].
  - pose proof (alias_sum n f Hn Hf k (fun _ => RtoC 1) ltac:(reflexivity)) as E. rewrite !Csum_const, zseq_length in E. rewrite !Cmult_1_r in E.
    apply (f_equal fst) in E. cbn [fst RtoC] in E. now apply INR_eq.
  - intros Hk. apply D. split; [|exists 0%Z; lia]. pose proof (Z.div_mod n 2 ltac:(lia)). pose proof (Z.mod_pos_bound n 2 ltac:(lia)). pose proof (Z.div_mod (n * f) 2 ltac:(lia)). pose proof (Z.mod_pos_bound (n * f) 2 ltac:(lia)).
    destruct (Z.eq_dec f 1) as [->|]; [rewrite !Z.mul_1_r in *; lia|]. assert (2 * n <= n * f)%Z by nia. lia.
Qed.
Print Assumptions C110_aliases.
Theorem C110_pixel_transfer : forall f N p, (0 < f)%Z ->
  pixel_transfer f N 0 = IZR f /\ Rabs (pixel_transfer f N p) <= IZR f /\ pixel_transfer 1 N p = 1.
Proof.
  intros f N p Hf. assert (L : Rsum (offsets f) (fun _ => 1) = IZR f).
  { unfold offsets. rewrite Rsum_map, Rsum_const, zseq_length, Rmult_1_r, INR_IZR_INZ, Z2Nat.id by lia. reflexivity. }
  split; [|split].
  - rewrite <- L. unfold pixel_transfer. apply Rsum_ext. intros j _. rewrite Z.mul_0_l. unfold Rdiv. rewrite Rmult_0_l, Rmult_0_r. apply cos_0.
  - rewrite <- L. unfold pixel_transfer. eapply Rle_trans; [apply L_Sum.Rsum_abs|]. apply Rsum_le. intros j _. apply Rabs_le. apply COS_bound.
  - unfold pixel_transfer, offsets. change (zseq 1) with [0%Z]. cbn [map Rsum]. change (0 - 1 / 2)%Z with 0%Z. rewrite Z.mul_0_r. unfold Rdiv. rewrite Rmult_0_l, Rmult_0_r, cos_0. ring.
Qed.
Print Assumptions C110_pixel_transfer.

(** A Hanser widefield microscope whose pixels resolve the cut-off (pixel <= wl / (4 na)): nothing is aliased, and the OTF is the
    model's OTFi, cut to the coarse spectrum, times the transfer functions of the pixel, normalised by its centre. *)
Theorem C110_widefield : forall a m wl na px,
  kwargs_ok a -> WidefieldMicroscope a = Ok m -> mi_cls m = Hanser ->
  finite_number (Some (w_wl a)) wl -> finite_number (Some (w_na a)) na -> finite_number (Some (w_pixel a)) px ->
  let h := hpar_of (obj_params (mi_model m)) in
  physical h -> 0 < na -> not_black h ->
  let nz := Z.of_nat (List.length (h_zrange h)) in
  exists n f A otf, int_value (w_size a) = Some n /\ int_value (w_os a) = Some f /\ M_Hanser.gen_psf h None = Ok A /\ fst (m_OTF m) = Ok otf /\ shape otf = [nz; n; n] /\
    let N := (n * f)%Z in
    let model kz Ky Kx := get (otfi_of (sumsq A)) [kz; Ky; Kx] in
    let T k := pixel_transfer f N k / IZR f in
    0 < Re (model (nz / 2) (N / 2) (N / 2))%Z /\
    (forall kz ky kx, inb [nz; n; n] [kz; ky; kx] -> get otf [kz; ky; kx] = Some (RtoC (/ Re (model (nz / 2) (N / 2) (N / 2))%Z) *c
       Csum (aliases n f ky) (fun Ky => Csum (aliases n f kx) (fun Kx => RtoC (T (Ky - N / 2)%Z * T (Kx - N / 2)%Z) *c model kz Ky Kx)))) /\
    (px <= wl / (4 * na) -> forall kz ky kx, inb [nz; n; n] [kz; ky; kx] ->
       get otf [kz; ky; kx] = Some (RtoC (T (ky - n / 2)%Z * T (kx - n / 2)%Z / Re (model (nz / 2) (N / 2) (N / 2))%Z) *c model kz (N / 2 + (ky - n / 2))%Z (N / 2 + (kx - n / 2))%Z)).
Proof.
  intros a m wl na px Hk Hm Hc Fw Fn Fp h Hp Hna Hb0 nz. pose proof (built_wide a m Hm) as Hb.
  destruct (parts a m wl na px Hk Hb Fw Fn Fp) as (f & n & Hf & Pf & Hn & Ew & En & Es & Er). fold h in Ew, En, Es, Er.
  destruct (C54_geometry a m Hk Hb) as (f0 & _ & Hf0 & _ & Ho & _). assert (f0 = f) by congruence. subst f0.
  destruct (wide_image a m Hk Hm Hc Hp) as (A & n' & f' & HA & Hn' & Hf' & _ & X). fold h nz in HA, X. pose proof (Hb0 A HA) as Nb. fold nz in Nb. destruct (X Nb) as (r & EP & Sr & Gr). clear X. rewrite Es in Nb.
  assert (n' = n) by congruence. assert (f' = f) by congruence. subst n' f'.
  destruct (C30_shape_sign h None A Hp ltac:(discriminate) HA) as (_ & SA & NA). fold nz in SA, NA. rewrite Es in SA, NA.
  pose proof Hp as (Pw & _ & _ & Pr & Ps). rewrite Es in Ps. rewrite Ew in Pw. assert (Pn : (0 < n)%Z) by nia.
  set (light := Rsum (all_ix [nz; (n * f)%Z; (n * f)%Z]) (get (sumsq A))) in *.
  assert (Pz : (0 < nz)%Z). { destruct (Z.lt_ge_cases 0 nz) as [|Q]; [assumption|]. exfalso. apply Nb. unfold light. rewrite Rsum_all_ix_cons. assert (E0 : zseq nz = []) by (unfold zseq; replace (Z.to_nat nz) with 0%nat by lia; reflexivity). rewrite E0. reflexivity. }
  assert (Pl : 0 < light). { enough (0 <= light) by lra. apply Rsum_nonneg. intros ix Hi. apply in_all_ix in Hi. apply NA. exact Hi. }
  assert (Ct : get (otfi_of (sumsq A)) [nz / 2; (n * f) / 2; (n * f) / 2]%Z = RtoC light).
  { pose proof (C35_otf_of_intensity (sumsq A) nz (n * f) (n * f) 0 0 0 SA (fun ix Hi => proj1 (NA ix Hi)) ltac:(apply inb3; lia)) as (_ & H & _). exact H. }
  assert (If : IZR f <> 0) by (apply not_0_IZR; lia).
  exists n, f, A, (o_fft (amap (option_map RtoC) r)). split; [exact Hn|]. split; [exact Hf|]. split; [exact HA|]. split.
  { destruct (C57_snapshot m [] (ex_intro _ a Hb)) as [E1 E2]. cbn [mrun snapshot] in E1, E2. rewrite E2, <- E1, EP. reflexivity. }
  split; [exact Sr|]. cbv zeta beta. rewrite Ct. cbn [Re RtoC fst]. split; [exact Pl|].
  assert (G : forall kz ky kx, inb [nz; n; n] [kz; ky; kx] -> get (o_fft (amap (option_map RtoC) r)) [kz; ky; kx] = Some (RtoC (/ light) *c
       Csum (aliases n f ky) (fun Ky => Csum (aliases n f kx) (fun Kx => RtoC (pixel_transfer f (n * f) (Ky - n * f / 2) / IZR f * (pixel_transfer f (n * f) (Kx - n * f / 2) / IZR f)) *c get (otfi_of (sumsq A)) [kz; Ky; Kx])))).
  { intros kz ky kx Hi. rewrite (otf_binned r (sumsq A) nz n f light Pn Pf Ho Sr SA Gr kz ky kx Hi). cbv zeta. f_equal.
    replace (RtoC (/ (IZR f * IZR f * light))) with (RtoC (/ light) *c RtoC (/ (IZR f * IZR f))) by (rewrite <- RtoC_mult; f_equal; rewrite (Rinv_mult (IZR f * IZR f)); ring).
    rewrite <- Cmult_assoc. f_equal. rewrite <- Csum_scal_l. apply Csum_ext. intros Ky _. rewrite <- Csum_scal_l. apply Csum_ext. intros Kx _. rewrite Cmult_assoc, <- RtoC_mult. f_equal. f_equal. field. exact If. }
  split; [exact G|]. intros Hpx kz ky kx Hi. destruct (inb3_inv _ _ _ _ Hi) as (z & y & x & [= <- <- <-] & Qz & Qy & Qx).
  rewrite G by exact Hi. f_equal.
  assert (Field : IZR (n * f) * h_res h = IZR n * px) by now apply field_eq.
  assert (Pp : 0 < px) by (rewrite <- Er; apply Rmult_lt_0_compat; [exact Pr|now apply IZR_lt]).
  assert (Pfd : 0 < IZR n * px) by (apply Rmult_lt_0_compat; [now apply IZR_lt|exact Pp]).
  (* an alias other than the frequency itself is at half a period or more *)
  assert (Far : forall k K, (0 <= k < n)%Z -> In K (aliases n f k) -> K <> (n * f / 2 + (k - n / 2))%Z -> IZR n / 2 <= Rabs (IZR (K - n * f / 2))).
  { intros k K Hk' HK NK. destruct (C110_aliases n f k Pn Pf) as (_ & _ & D & _). apply D in HK as [_ [j Hj]]. rewrite Hj. rewrite <- abs_IZR.
    assert (j <> 0)%Z by (intros ->; apply NK; lia). apply (Rmult_le_reg_r 2); [lra|]. replace (IZR n / 2 * 2) with (IZR n) by field. rewrite <- mult_IZR. apply IZR_le.
    pose proof (Z.div_mod n 2 ltac:(lia)). pose proof (Z.mod_pos_bound n 2 ltac:(lia)). destruct (Z.lt_total j 0) as [L|[L|L]]; [|contradiction|]; nia. }
  assert (Zero : forall Ky Kx, In Ky (aliases n f ky) -> In Kx (aliases n f kx) -> IZR n / 2 <= Rabs (IZR (Ky - n * f / 2)) \/ IZR n / 2 <= Rabs (IZR (Kx - n * f / 2)) -> get (otfi_of (sumsq A)) [kz; Ky; Kx] = RtoC 0).
  { intros Ky Kx Iy Ix Fr. destruct (C110_aliases n f ky Pn Pf) as (_ & _ & Dy & _). destruct (C110_aliases n f kx Pn Pf) as (_ & _ & Dx & _). apply Dy in Iy as [Ry _]. apply Dx in Ix as [Rx _].
    apply (C36_band_limit h None A kz Ky Kx Hp ltac:(discriminate) HA); try (rewrite Es; assumption); [intros; now apply C36_ideal_support|exact Qz|].
    rewrite Es, Field, Ew, En. set (dy := IZR (Ky - n * f / 2)) in *. set (dx := IZR (Kx - n * f / 2)) in *.
    assert (B : 2 * na / wl * (IZR n * px) <= IZR n / 2).
    { assert (Q : 4 * na / wl * px <= 1). { apply Rmult_le_compat_l with (r := 4 * na / wl) in Hpx; [|apply Rlt_le, Rdiv_lt_0_compat; lra]. replace (4 * na / wl * (wl / (4 * na))) with 1 in Hpx by (field; lra). exact Hpx. }
      replace (2 * na / wl * (IZR n * px)) with (IZR n / 2 * (4 * na / wl * px)) by (field; lra). assert (0 < IZR n) by now apply IZR_lt. nra. }
    assert (P0 : 0 <= 2 * na / wl) by (apply Rlt_le, Rdiv_lt_0_compat; lra).
    rewrite <- (sqrt_pow2 (2 * na / wl)) by exact P0. apply sqrt_le_1_alt.
    apply (Rmult_le_reg_r ((IZR n * px) ^ 2)); [nra|]. replace (((dy / (IZR n * px)) ^ 2 + (dx / (IZR n * px)) ^ 2) * (IZR n * px) ^ 2) with (dy ^ 2 + dx ^ 2) by (field; assert (0 < IZR n) by (now apply IZR_lt); split; lra).
    rewrite <- Rpow_mult_distr. assert (P1 : 0 <= 2 * na / wl * (IZR n * px)) by nra.
    rewrite <- (pow2_abs dy), <- (pow2_abs dx). pose proof (Rabs_pos dy). pose proof (Rabs_pos dx). destruct Fr; nra. }
  destruct (C110_aliases n f ky Pn Pf) as (NDy & _ & _ & Iy). destruct (C110_aliases n f kx Pn Pf) as (NDx & _ & _ & Ix). specialize (Iy Qy). specialize (Ix Qx).
  rewrite (Csum_single _ _ (n * f / 2 + (ky - n / 2))%Z NDy Iy).
  - rewrite (Csum_single _ _ (n * f / 2 + (kx - n / 2))%Z NDx Ix).
    + rewrite Cmult_assoc, <- RtoC_mult. f_equal. f_equal. replace (n * f / 2 + (ky - n / 2) - n * f / 2)%Z with (ky - n / 2)%Z by ring. replace (n * f / 2 + (kx - n / 2) - n * f / 2)%Z with (kx - n / 2)%Z by ring. unfold Rdiv. ring.
    + intros Kx HKx NKx. rewrite Zero by (auto; right; now apply (Far kx)). apply Cmult_0_r.
  - intros Ky HKy NKy. apply Csum_zero. intros Kx HKx. rewrite Zero by (auto; left; now apply (Far ky)). apply Cmult_0_r.
Qed.
Print Assumptions C110_widefield.

(** ** Witnesses: a0 (64 pixels of 0.1, oversampling 3, cut-off at 0.52 / 4.8 > 0.1). *)
Example C110_witness_aliases : aliases 4 3 1 = [1; 5; 9]%Z /\ aliases 5 3 0 = [0; 5; 10]%Z /\ aliases 4 1 2 = [2]%Z.
Proof. repeat split; vm_compute; reflexivity. Qed.
Example C110_witness : exists m A otf, WidefieldMicroscope a0 = Ok m /\ M_Hanser.gen_psf (hpar_of (obj_params (mi_model m))) None = Ok A /\ fst (m_OTF m) = Ok otf /\ shape otf = [16; 64; 64]%Z /\
  get otf [3; 40; 20]%Z = Some (RtoC (pixel_transfer 3 192 8 / 3 * (pixel_transfer 3 192 (-12) / 3) / Re (get (otfi_of (sumsq A)) [8; 96; 96]%Z)) *c get (otfi_of (sumsq A)) [3; 104; 84]%Z).
Proof.
  destruct a0_built as (m & Hm & Hc & Hp). destruct a0_physical as (P1 & P2 & P3 & P4). destruct a0_numbers as (N1 & N2 & N3).
  pose proof (C110_widefield a0 m _ _ _ a0_kwargs Hm Hc N1 N2 N3) as X. cbv zeta in X. rewrite <- Hp in P1, P2, P3, P4. set (h := hpar_of (obj_params (mi_model m))) in *.
  destruct (X P1 ltac:(unfold Q2R; cbn; lra) (C109_when_not_black h P1 P2 ltac:(rewrite P3; discriminate) ltac:(intros E; rewrite E in P4; discriminate P4))) as (n & f & A & otf & Hn & Hf & HA & E & S & _ & _ & G).
  rewrite P4 in *. cbn in Hn, Hf. injection Hn as <-. injection Hf as <-. exists m, A, otf. split; [exact Hm|]. split; [exact HA|]. split; [exact E|]. split; [exact S|].
  apply (G ltac:(unfold Q2R; cbn; lra) 3 40 20)%Z. apply inb3; lia.
Qed.
