(** C62: Wiener deconvolution in the SIM microscopes. *)
From Verif Require Import S_FFT S_FFT2 S_Hanser S_Micro S_Wiener S_Bin L_Sum L_Bin L_PSF L_Ctor L_Phase5 L_Micro T_PSF T_Bin L_Array L_FFT L_FFT2 T_FFT T_FFT2 L_Phase2 L_Polar T_Hanser T_Object T_Micro T_Micro2 T_Micro3 L_Micro2 T_Micro4 T_Micro5 T_Confocal T_Confocal2 T_SIM.
Import M_Array.
Local Open Scope R_scope.

(** ** The gain *)
Theorem C62_gain : forall q M v, 0 <= q -> 0 <= v <= M -> 0 < M ->
  0 <= gain q M v <= 1 /\
  (0 < q -> gain q M v <= 1 / (1 + q ^ 2) /\ gain q M M = 1 / (1 + q ^ 2) /\ (gain q M v = 0 <-> v = 0)) /\
  (forall v', v <= v' <= M -> gain q M v <= gain q M v') /\
  (forall q', 0 < q <= q' -> gain q' M v <= gain q M v).
Proof.
  intros q M v Hq Hv HM. unfold gain.
  assert (D : forall q v, 0 < q -> 0 <= v -> 0 < v + M * q ^ 2) by (intros q0 v0 Hq0 Hv0; pose proof (pow_lt q0 2 Hq0); nra).
  assert (MQ : forall q, 0 < q -> 0 < M * q ^ 2) by (intros q0 Hq0; pose proof (pow_lt q0 2 Hq0); nra).
  assert (Mono : forall q v v', 0 < q -> 0 <= v <= v' -> v / (v + M * q ^ 2) <= v' / (v' + M * q ^ 2)).
  { intros q0 v0 v' Hq0 Hv0. pose proof (D q0 v0 Hq0 ltac:(lra)) as D1. pose proof (D q0 v' Hq0 ltac:(lra)) as D2. pose proof (MQ q0 Hq0).
    apply Rmult_le_reg_r with (v0 + M * q0 ^ 2); [exact D1|]. apply Rmult_le_reg_r with (v' + M * q0 ^ 2); [exact D2|].
    replace (v0 / (v0 + M * q0 ^ 2) * (v0 + M * q0 ^ 2) * (v' + M * q0 ^ 2)) with (v0 * (v' + M * q0 ^ 2)) by (field; lra).
    replace (v' / (v' + M * q0 ^ 2) * (v0 + M * q0 ^ 2) * (v' + M * q0 ^ 2)) with (v' * (v0 + M * q0 ^ 2)) by (field; lra). nra. }
  assert (Top : forall q, 0 < q -> M / (M + M * q ^ 2) = 1 / (1 + q ^ 2)) by (intros q0 Hq0; pose proof (pow_lt q0 2 Hq0); field; cbn in *; split; nra).
  split; [|split; [|split]].
  - destruct (Req_EM_T q 0) as [E|E]; [destruct (Rlt_dec _ _); lra|]. assert (P : 0 < q) by lra. split.
    + apply Rdiv_nonneg; [lra|specialize (D q v P ltac:(lra)); lra|specialize (D q v P ltac:(lra)); lra].
    + eapply Rle_trans; [apply (Mono q v M P ltac:(lra))|]. rewrite Top by exact P. pose proof (pow_lt q 2 P). apply Rmult_le_reg_r with (1 + q ^ 2); [lra|]. unfold Rdiv. rewrite Rmult_assoc, Rinv_l by lra. lra.
  - intros P. destruct (Req_EM_T q 0); [lra|]. rewrite <- (Top q P). split; [apply Mono; lra|]. split; [reflexivity|]. specialize (D q v P ltac:(lra)). split.
    + intros E. apply Rmult_eq_reg_r with (/ (v + M * q ^ 2)); [rewrite Rmult_0_l; exact E|]. apply Rinv_neq_0_compat. lra.
    + intros ->. unfold Rdiv. ring.
  - intros v' Hv'. destruct (Req_EM_T q 0) as [E|E]; [destruct (Rlt_dec _ v), (Rlt_dec _ v'); lra|]. apply Mono; lra.
  - intros q' [P Hq']. destruct (Req_EM_T q 0); [lra|]. destruct (Req_EM_T q' 0); [lra|]. pose proof (D q v P ltac:(lra)) as D1. pose proof (D q' v ltac:(lra) ltac:(lra)) as D2.
    unfold Rdiv. apply Rmult_le_compat_l; [lra|]. apply Rinv_le_contravar; [exact D1|]. assert (q ^ 2 <= q' ^ 2) by (cbn; nra). nra.
Qed.
Print Assumptions C62_gain.

(** ** The arrays the program reads *)
Lemma otfi_read c o d : reached c o -> shows_image c o d -> exists B, fst (read numeric c OTFi o) = Ok B /\ finite_all B = true /\ shape B = shape d /\
  forall k, inb (shape d) k -> get (complexes B) k = get (easy_fft None (amap RtoC d)) k.
Proof.
  intros (kk & o0 & h & H1 & ->) (A & RA & FA & SA & GA). pose proof (C24_reads_are_fresh numeric c kk o0 h PSFi H1) as FP. pose proof (C24_reads_are_fresh numeric c kk o0 h OTFi H1) as FO. cbv zeta in FP, FO. rewrite FO. rewrite FP in RA. cbn [scratch] in *.
  destruct (rmap (e_sumsq numeric) _) as [A'|]; cbn [rmap]; [|discriminate]. injection RA as ->. exists (o_fft A). split; [reflexivity|]. split; [|split; [symmetry; exact SA|]].
  - unfold finite_all. apply forallb_forall. intros ix _. unfold o_fft. cbn [get]. rewrite FA. reflexivity.
  - intros k Hk. unfold complexes, o_fft. cbn [amap get]. rewrite FA. cbn [cval]. rewrite !easy_fft_mop by (cbn [amap shape]; congruence). cbn [amap shape]. rewrite <- SA. apply mop_ext; [exact Hk|]. intros js Hj. cbn [amap get]. rewrite GA by (rewrite <- SA; exact Hj). reflexivity.
Qed.
Lemma model_otfi m d : reached (mi_cls m) (mi_model m) -> shows_image (mi_cls m) (mi_model m) d ->
  exists B m', model_OTFi m = (Ok (complexes B, true), m') /\ shape B = shape d /\ forall k, inb (shape d) k -> get (complexes B) k = get (easy_fft None (amap RtoC d)) k.
Proof.
  intros Hr Hd. destruct (otfi_read _ _ _ Hr Hd) as (B & RB & FB & SB & GB). unfold model_OTFi. destruct (read numeric (mi_cls m) OTFi (mi_model m)) as [r o]. cbn [fst] in RB. subst r. cbn [bind]. rewrite FB. exists B. eexists. split; [reflexivity|]. split; [exact SB|exact GB].
Qed.
Lemma max_le l : forall v, (forall x, In x (v :: l) -> x <= fold_left Rmax l v) /\ In (fold_left Rmax l v) (v :: l).
Proof.
  induction l as [|a l IH]; intros v; cbn [fold_left].
  - split; [intros x [<-|[]]; lra|now left].
  - destruct (IH (Rmax v a)) as [H1 H2]. split.
    + intros x [<-|[<-|Hx]]; [|  |apply H1; now right]; (eapply Rle_trans; [|apply H1; now left]); [apply Rmax_l|apply Rmax_r].
    + destruct H2 as [E|H2]; [|right; now right]. rewrite <- E. destruct (Rle_dec a v) as [L|L]; [left; rewrite Rmax_left; lra|right; left; rewrite Rmax_right; lra].
Qed.
Lemma r_max_spec a : (exists ix, inb (shape a) ix) -> exists M, r_max a = Ok M /\ (exists k, inb (shape a) k /\ get a k = M) /\ forall k, inb (shape a) k -> get a k <= M.
Proof.
  intros (ix & Hix). unfold r_max. destruct (map (get a) (all_ix (shape a))) as [|v l] eqn:E.
  - exfalso. apply in_all_ix in Hix. apply (in_map (get a)) in Hix. rewrite E in Hix. destruct Hix.
  - exists (fold_left Rmax l v). split; [reflexivity|]. destruct (max_le l v) as [H1 H2]. rewrite <- E in *. split.
    + apply in_map_iff in H2. destruct H2 as (k & Hk & Hin). exists k. split; [now apply in_all_ix|exact Hk].
    + intros k Hk. apply H1. apply in_map. now apply in_all_ix.
Qed.
Lemma brightest_unique d M M' : brightest d M -> brightest d M' -> M = M'.
Proof. intros [(k & H1 & H2) H3] [(k' & H1' & H2') H3']. specialize (H3 k' H1'). specialize (H3' k H1). lra. Qed.
Lemma energy_nonneg d k : 0 <= energy d k.
Proof. unfold energy. apply pow_le, Cmod_ge_0. Qed.
Lemma shape_inb sh : Forall (fun n => 0 < n)%Z sh -> exists ix, inb sh ix.
Proof. intros H. induction H as [|n sh Hn Hs [ix IH]]; [exists []; constructor|]. exists (0 :: ix)%Z. apply inb_cons. split; [lia|exact IH]. Qed.
Lemma brightest_exists d : Forall (fun n => 0 < n)%Z (shape d) -> exists M, brightest d M /\ 0 <= M.
Proof.
  intros H. destruct (r_max_spec (mkArr (shape d) (energy d))) as (M & _ & H1 & H2); [apply shape_inb, H|]. exists M. cbn [shape get] in *. split; [split; assumption|]. destruct H1 as (k & _ & <-). apply energy_nonneg.
Qed.
(** Parseval: an image that is not black has some power. *)
Lemma brightest_pos d M : brightest d M -> not_black d -> 0 < M.
Proof.
  intros [_ HM] (ix & Hix & Hn). apply Rnot_le_lt. intros L.
  assert (P : Forall (fun n => 0 < n)%Z (shape d)) by (apply (inb_pos _ _ Hix)).
  pose proof (energy_sum None (amap RtoC d) P) as E. change (shape (amap RtoC d)) with (shape d) in E.
  rewrite (Rsum_zero (all_ix (shape d)) (fun ks => Cnorm2 (get (easy_fft None (amap RtoC d)) ks))) in E.
  2:{ intros k Hk. apply in_all_ix in Hk. rewrite <- Cmod2. specialize (HM k Hk). pose proof (energy_nonneg d k). unfold energy in *. lra. }
  symmetry in E. apply Rmult_integral in E. destruct E as [E|E].
  - apply eq_IZR in E. rewrite <- masked_points in E. pose proof (masked_size_pos (axes_mask (length (shape d)) None) (shape d) P). lia.
  - assert (0 < Rsum (all_ix (shape d)) (fun ks => Cnorm2 (get (amap RtoC d) ks))); [|lra].
    apply (Rsum_pos _ _ ix); [intros; unfold Cnorm2; nra|now apply in_all_ix|]. cbn [get amap]. unfold Cnorm2, RtoC, Re, Im. cbn [fst snd]. nra.
Qed.

(** ** C62 *)
Lemma ifft_ext a b : shape a = shape b -> (forall k, inb (shape a) k -> get a k = get b k) -> forall ix, inb (shape a) ix -> get (easy_ifft None a) ix = get (easy_ifft None b) ix.
Proof. intros Hs Hg ix Hi. rewrite !easy_ifft_mop by congruence. rewrite Hs. f_equal. apply mop_ext; [congruence|]. intros js Hj. apply Hg. congruence. Qed.
Lemma Q2R_0 q : Qeq_bool q 0 = true <-> Q2R q = 0.
Proof. rewrite Qeq_bool_iff. split; intros H; [rewrite (Qreals.Qeq_eqR _ _ H); apply RMicromega.Q2R_0|]. apply Qreals.eqR_Qeq. rewrite H. symmetry. apply RMicromega.Q2R_0. Qed.
Section Wiener.
Context (m : micro) (d : array R) (Hr : reached (mi_cls m) (mi_model m)) (Hd : shows_image (mi_cls m) (mi_model m) d) (Hpos : Forall (fun n => 0 < n)%Z (shape d)).
Context (q : Q) (Hw : M_Val.num (mi_wiener m) = Some (FFin q)) (Hq : (0 <= q)%Q).
Lemma base_eq : exists B, shape B = shape d /\ (forall k, inb (shape d) k -> get (complexes B) k = get (easy_fft None (amap RtoC d)) k) /\
  fst (sim_base m) = (if Qeq_bool q 0 then Ok (ifft_real (support (power (complexes B))), true)
    else do mx <- r_max (power (complexes B)); let w2 := mx * Q2R q ^ 2 in
      Ok (ifft_real (amap (wiener_factor w2) (power (complexes B))), forallb (fun ix => if Req_EM_T (get (power (complexes B)) ix + w2) 0 then false else true) (all_ix (shape (power (complexes B)))))).
Proof.
  destruct (model_otfi m d Hr Hd) as (B & m' & E & SB & GB). exists B. split; [exact SB|]. split; [exact GB|]. unfold sim_base. unfold mbind at 1, masks at 1.
  assert (Ge : py_ge (mi_wiener m) (VInt 0) = Ok true).
  { unfold py_ge. rewrite Hw. cbn [M_Val.num fl_le]. f_equal. apply Qle_bool_iff. exact Hq. }
  assert (Eq : py_eq (mi_wiener m) (VInt 0) = Qeq_bool q 0) by (unfold py_eq; rewrite Hw; reflexivity).
  destruct (mi_wiener m) as [| | | | | |] eqn:Ew; try discriminate Hw; (unfold mbind at 1, mlift at 1; rewrite Ge; unfold mbind at 1; rewrite E; cbn [fst snd]; rewrite Eq; destruct (Qeq_bool q 0); [reflexivity|]; rewrite Hw; unfold mbind, mlift; destruct (r_max _); reflexivity).
Qed.
(** The response left by the filter; dark models only matter when q > 0. *)
Theorem C62_wiener : Q2R q = 0 \/ not_black d -> exists p, fst (sim_base m) = Ok (p, true) /\ deconvolved (Q2R q) d p.
Proof.
  intros Hb. destruct base_eq as (B & SB & GB & ->). set (P := power (complexes B)).
  assert (SP : shape P = shape d) by exact SB. assert (GP : forall k, inb (shape d) k -> get P k = energy d k) by (intros k Hk; unfold energy; rewrite <- (GB k Hk); reflexivity).
  destruct (r_max_spec P) as (M & EM & (k0 & Hk0 & EM0) & HM); [rewrite SP; apply shape_inb, Hpos|].
  assert (BM : brightest d M) by (split; [exists k0; rewrite SP in Hk0; split; [exact Hk0|]; rewrite <- GP by exact Hk0; exact EM0|intros k Hk; rewrite <- GP by exact Hk; apply HM; rewrite SP; exact Hk]).
  destruct (Qeq_bool q 0) eqn:E0.
  - apply Q2R_0 in E0. eexists. split; [reflexivity|]. split; [exact SB|]. exists M. split; [exact BM|]. intros ix Hi. unfold ifft_real. cbn [amap get]. f_equal.
    apply ifft_ext; [exact SB|intros k Hk|cbn [amap shape support]; rewrite SP; exact Hi]. cbn [amap shape support] in Hk. rewrite SP in Hk. cbn [amap get support filtered]. f_equal. rewrite GP by exact Hk. unfold gain.
    destruct (Req_EM_T (Q2R q) 0); [|contradiction]. replace (/ 10 ^ 16) with (1 / 10 ^ 16) by (unfold Rdiv; ring). reflexivity.
  - assert (N0 : Q2R q <> 0) by (intros H; apply Q2R_0 in H; congruence). rewrite EM. cbn [bind]. cbv zeta.
    destruct Hb as [Hb|Hb]; [contradiction|]. pose proof (brightest_pos d M BM Hb) as PM.
    assert (Fl : forallb (fun ix => if Req_EM_T (get P ix + M * Q2R q ^ 2) 0 then false else true) (all_ix (shape P)) = true).
    { apply forallb_forall. intros ix Hix. apply in_all_ix in Hix. rewrite SP in Hix. rewrite GP by exact Hix. pose proof (energy_nonneg d ix). assert (0 < Q2R q ^ 2) by (cbn; rewrite Rmult_1_r; nra). destruct (Req_EM_T _ _); [nra|reflexivity]. }
    rewrite Fl. eexists. split; [reflexivity|]. split; [exact SB|]. exists M. split; [exact BM|]. intros ix Hi. unfold ifft_real. cbn [amap get]. f_equal.
    apply ifft_ext; [exact SB|intros k Hk|cbn [amap shape]; rewrite SP; exact Hi]. cbn [amap shape] in Hk. rewrite SP in Hk. cbn [amap get filtered]. f_equal. rewrite GP by exact Hk. unfold gain, wiener_factor.
    destruct (Req_EM_T (Q2R q) 0); [contradiction|reflexivity].
Qed.
(** A black model with q > 0: the division 0/0 everywhere. *)
Theorem C62_black : Q2R q <> 0 -> ~ not_black d -> exists p, fst (sim_base m) = Ok (p, false).
Proof.
  intros N0 Hb. destruct base_eq as (B & SB & GB & ->). set (P := power (complexes B)).
  assert (SP : shape P = shape d) by exact SB. assert (GP : forall k, inb (shape d) k -> get P k = energy d k) by (intros k Hk; unfold energy; rewrite <- (GB k Hk); reflexivity).
  assert (Z : forall k, inb (shape d) k -> energy d k = 0).
  { intros k Hk. unfold energy. rewrite easy_fft_mop by exact Hk. cbn [amap shape].
    rewrite (mop_ext _ _ _ _ (fun _ => RtoC 0) k Hk). 2:{ intros js Hj. cbn [amap get]. destruct (Req_dec (get d js) 0) as [->|N]; [reflexivity|]. exfalso. apply Hb. exists js. auto. }
    assert (E : mop (kcen (-1)) (axes_mask (List.length (shape d)) None) (shape d) (fun _ => RtoC 0) k = RtoC 0).
    { rewrite (mop_ext' _ _ _ _ (fun js => Cmult (RtoC 0) (RtoC 0))) by (intros; ring). rewrite mop_scal. ring. }
    rewrite E, Cmod_0. ring. }
  destruct (Qeq_bool q 0) eqn:E0; [apply Q2R_0 in E0; contradiction|].
  destruct (r_max_spec P) as (M & -> & (k0 & Hk0 & EM0) & HM); [rewrite SP; apply shape_inb, Hpos|]. cbn [bind]. cbv zeta. rewrite SP in Hk0.
  assert (Fl : forallb (fun ix => if Req_EM_T (get P ix + M * Q2R q ^ 2) 0 then false else true) (all_ix (shape P)) = false).
  { apply Bool.not_true_is_false. intros H. rewrite forallb_forall in H. specialize (H k0 ltac:(apply in_all_ix; rewrite SP; exact Hk0)). cbv beta in H. rewrite <- EM0, GP, Z in H by exact Hk0. destruct (Req_EM_T _ _) as [|N]; [discriminate|]. apply N. ring. }
  rewrite Fl. eauto.
Qed.
End Wiener.
Print Assumptions C62_wiener.
Print Assumptions C62_black.
(** wiener = None (only assignable after construction) means no deconvolution; negative numbers and NaN are refused. *)
Theorem C62_other_settings : forall m,
  (mi_wiener m = VNone -> fst (sim_base m) = fst (model_PSFi m)) /\
  (forall q, M_Val.num (mi_wiener m) = Some (FFin q) -> (q < 0)%Q -> fst (sim_base m) = Err ValueError) /\
  (M_Val.num (mi_wiener m) = Some FNaN -> fst (sim_base m) = Err ValueError).
Proof.
  intros m. unfold sim_base. unfold mbind at 1, masks at 1. split; [intros ->; reflexivity|]. split.
  - intros q Hw Hq. unfold mbind at 1, mlift at 1, masks at 1. assert (G : py_ge (mi_wiener m) (VInt 0) = Ok false).
    { unfold py_ge. rewrite Hw. cbn [M_Val.num fl_le]. f_equal. apply Bool.not_true_is_false. intros H. apply Qle_bool_iff in H. change (inject_Z 0) with 0%Q in H. apply Qlt_not_le in Hq. contradiction. }
    destruct (mi_wiener m); try discriminate Hw; unfold mbind at 1, mlift at 1; rewrite G; reflexivity.
  - intros Hw. unfold mbind at 1, mlift at 1, masks at 1. assert (G : py_ge (mi_wiener m) (VInt 0) = Ok false) by (unfold py_ge; rewrite Hw; reflexivity).
    destruct (mi_wiener m); try discriminate Hw; unfold mbind at 1, mlift at 1; rewrite G; reflexivity.
Qed.
Print Assumptions C62_other_settings.

(** ** What the deconvolved response is, in frequency space *)
Lemma energy_mirror d k : inb (shape d) k -> energy d (mirror (repeat true (List.length (shape d))) (shape d) k) = energy d k.
Proof.
  intros Hk. unfold energy. pose proof (hermitian_mask None (amap RtoC d) k Hk) as H. cbv zeta in H. cbn [axes_mask] in H. change (shape (amap RtoC d)) with (shape d) in H. rewrite H; [|intros; reflexivity]. rewrite !Cmod2. unfold Cnorm2, Cconj, Re, Im. cbn [fst snd]. ring.
Qed.
Lemma mirror_mirror mask : forall sh k, inb sh k -> mirror mask sh (mirror mask sh k) = k.
Proof.
  induction mask as [|b mask IH]; intros sh k Hk; [reflexivity|]. destruct sh as [|n sh]; [destruct k; reflexivity|]. destruct (inb_cons_inv _ _ _ Hk) as (k0 & r & -> & Hn & Hr). cbn [mirror]. rewrite IH by exact Hr. f_equal. destruct b; [|reflexivity].
  rewrite Zminus_mod_idemp_r. replace (2 * (n / 2) - (2 * (n / 2) - k0))%Z with k0 by lia. now apply Z.mod_small.
Qed.
(** On even grids the transfer function of the deconvolved response is exactly the gain. *)
Theorem C62_transfer : forall q d p M, deconvolved q d p -> brightest d M -> Forall (fun n => Z.even n = true) (shape d) ->
  forall k, inb (shape d) k -> get (easy_fft None (amap RtoC p)) k = RtoC (gain q M (energy d k)).
Proof.
  intros q d p M (Sp & M' & BM' & Gp) BM He k Hk. rewrite (brightest_unique d M' M BM' BM) in Gp. clear BM'. set (F := filtered q M d) in *. set (P := easy_ifft None F) in *.
  assert (Inv : forall k, inb (shape d) k -> get (easy_fft None P) k = RtoC (gain q M (energy d k))).
  { intros j Hj. destruct (even_axes_other None F) as [_ G].
    - intros i n Hi _. rewrite Forall_forall in He. apply He. eapply nth_error_In. exact Hi.
    - fold P in G. rewrite G by exact Hj. reflexivity. }
  assert (Cj : get (easy_fft None (amap Cconj P)) k = RtoC (gain q M (energy d k))).
  { set (mk := repeat true (List.length (shape d))). pose proof (inb_mirror mk (shape d) k Hk) as Hm. pose proof (Inv _ Hm) as I. unfold mk in I at 2. rewrite energy_mirror in I by exact Hk.
    assert (I2 : Cconj (get (easy_fft None P) (mirror mk (shape d) k)) = RtoC (gain q M (energy d k))) by (rewrite I; apply Cconj_RtoC). rewrite <- I2.
    rewrite easy_fft_mop by exact Hk. rewrite easy_fft_mop by exact Hm. change (shape (amap Cconj P)) with (shape d). change (shape P) with (shape d). cbn [axes_mask]. fold mk.
    rewrite mop_mirror by exact Hk. rewrite (mop_conj (kcen 1) (kcen (-1)) (fun x => x)); [reflexivity|]. intros n a b. unfold kcen. rewrite root_conj. f_equal. ring. }
  specialize (Inv k Hk). rewrite easy_fft_mop in * by (try exact Hk; cbn [amap shape]; rewrite Sp; exact Hk). change (shape (amap RtoC p)) with (shape p). rewrite Sp. change (shape P) with (shape d) in *. change (shape (amap Cconj P)) with (shape d) in *.
  set (mk := axes_mask _ _) in *. rewrite (mop_ext _ mk (shape d) _ (fun js => Cplus (Cmult (RtoC (/ 2)) (get P js)) (Cmult (RtoC (/ 2)) (get (amap Cconj P) js))) k Hk).
  - rewrite mop_plus, !mop_scal, Inv, Cj. rewrite <- RtoC_mult, <- RtoC_plus. f_equal. field.
  - intros js Hj. cbn [amap get]. rewrite Gp by exact Hj. destruct (get P js) as [a b]. unfold RtoC, Cplus, Cmult, Cconj, Re, Im. cbn [fst snd]. f_equal; field.
Qed.
Print Assumptions C62_transfer.
(** Its sum, on any grid: the gain at the zero frequency, but on odd axes at the frequency next to it. *)
Theorem C62_sum : forall q d p M, deconvolved q d p -> brightest d M -> Forall (fun n => 0 < n)%Z (shape d) ->
  Rsum (all_ix (shape d)) (get p) = gain q M (energy d (zero_frequency (shape d))).
Proof.
  intros q d p M (Sp & M' & BM' & Gp) BM Hp. rewrite (brightest_unique d M' M BM' BM) in Gp. pose proof (C06_ifft_sum (filtered q M d) Hp) as H. cbn [filtered shape get] in H.
  rewrite (Rsum_ext _ _ (fun ix => Re (get (easy_ifft None (filtered q M d)) ix))) by (intros ix Hi; apply Gp; now apply in_all_ix).
  assert (RS : forall (l : list (list Z)) (f : list Z -> C), Rsum l (fun ix => Re (f ix)) = Re (Csum l f)) by (intros l f; induction l as [|a l IH]; [reflexivity|]; cbn [Rsum Csum]; rewrite IH; reflexivity).
  rewrite RS, H. reflexivity.
Qed.
Print Assumptions C62_sum.
