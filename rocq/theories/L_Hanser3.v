From Verif Require Import M_Hanser S_Hanser L_Array L_Sum L_FFT L_FFT2 L_Polar L_Hanser L_Hanser2.
Local Open Scope R_scope.

Section H.
Context (h : hpar) (Hph : physical h).
Let n := h_size h.
Notation neg := (neg h).

(** in a sampled model the aperture excludes the Nyquist row and column *)
Lemma aperture_nyquist i : 0 < h_na h -> sampled h ->
  sfreq n (h_res h) i * sfreq n (h_res h) i < (h_na h / h_wl h) ^ 2 -> (2 * six h i <> - n)%Z.
Proof.
  intros Hna Hs Hi E. destruct Hph as (Hw & _ & _ & Hr & Hn). unfold sampled in Hs.
  assert (H2 : IZR (six h i) = - IZR n / 2). { assert (IZR (2 * six h i) = IZR (- n)) by now rewrite E. rewrite mult_IZR, opp_IZR in H. lra. }
  unfold n in Hi. rewrite sfreq_six, H2 in Hi. fold n in Hi.
  assert (HnR : 0 < IZR n) by (apply IZR_lt; auto).
  assert (E1 : - IZR n / 2 / (IZR n * h_res h) = - (1 / (2 * h_res h))) by (field; lra).
  rewrite E1 in Hi.
  assert (E2 : h_na h / h_wl h < 1 / (2 * h_res h)).
  { apply (Rmult_lt_reg_r (h_wl h * (2 * h_res h))); [nra|].
    replace (h_na h / h_wl h * (h_wl h * (2 * h_res h))) with (2 * h_na h * h_res h) by (field; lra).
    replace (1 / (2 * h_res h) * (h_wl h * (2 * h_res h))) with (h_wl h) by (field; lra).
    apply (Rmult_lt_compat_r (2 * h_na h)) in Hs; [|lra].
    replace (1 / (2 * h_na h / h_wl h) * (2 * h_na h)) with (h_wl h) in Hs by (field; lra). lra. }
  assert (0 <= h_na h / h_wl h) by (apply Rmult_le_pos; [lra|left; now apply Rinv_0_lt_compat]).
  assert (0 < 1 / (2 * h_res h)) by (apply Rdiv_lt_0_compat; lra). nra.
Qed.
Lemma sfreq_neg i : (2 * six h i <> - n)%Z -> sfreq n (h_res h) (neg i) = - sfreq n (h_res h) i.
Proof.
  intros E. unfold n. rewrite !sfreq_six. destruct (six_neg h Hph i) as [->|[_ H]]; [|contradiction].
  rewrite opp_IZR. unfold Rdiv. ring.
Qed.

(** the azimuth at the opposite pixel *)
Lemma phi_polar y x : (0 <= y < n)%Z -> (0 <= x < n)%Z ->
  sfreq n (h_res h) x = h_kr h y x * cos (h_phi h y x) /\ sfreq n (h_res h) y = h_kr h y x * sin (h_phi h y x).
Proof.
  intros Hy Hx. destruct (polar (hk h y) (hk h x)) as [E1 E2].
  unfold h_kr, h_phi, cart2pol. cbn [fst snd]. rewrite !(hk_spec h Hph) in * by auto. auto.
Qed.
Lemma phi_neg y x : (0 <= y < n)%Z -> (0 <= x < n)%Z ->
  sfreq n (h_res h) (neg y) = - sfreq n (h_res h) y -> sfreq n (h_res h) (neg x) = - sfreq n (h_res h) x ->
  h_kr h y x <> 0 ->
  cos (h_phi h (neg y) (neg x)) = - cos (h_phi h y x) /\ sin (h_phi h (neg y) (neg x)) = - sin (h_phi h y x).
Proof.
  intros Hy Hx Ey Ex Hk. pose proof (neg_in h Hph y) as Hy'. pose proof (neg_in h Hph x) as Hx'.
  destruct (phi_polar y x Hy Hx) as [A1 A2]. destruct (phi_polar (neg y) (neg x) Hy' Hx') as [B1 B2].
  assert (Ek : h_kr h (neg y) (neg x) = h_kr h y x).
  { apply (radial h Hph); auto. now rewrite k2_neg_y, k2_neg_x. }
  rewrite Ek, Ex, A1 in B1. rewrite Ek, Ey, A2 in B2. split; apply (Rmult_eq_reg_l (h_kr h y x)); auto; lra.
Qed.

Definition csgn (v : vec) (c : nat) : R :=
  match v, c with VecZ, _ | VecTotal, O | VecTotal, S O => -1 | _, _ => 1 end.
Lemma plist_neg v t p p' c : cos p' = - cos p -> sin p' = - sin p -> nth c (plist v t p') 0 = csgn v c * nth c (plist v t p) 0.
Proof.
  intros E1 E2. destruct v; do 7 (destruct c as [|c]; cbn [plist vec_x vec_y vec_z app nth csgn]; rewrite ?E1, ?E2; try ring).
Qed.
Lemma plist_axis v p p' c : nth c (plist v 0 p') 0 = csgn v c * nth c (plist v 0 p) 0.
Proof.
  pose proof (sin2_cos2 p) as Ep. pose proof (sin2_cos2 p') as Ep'. unfold Rsqr in *.
  destruct v; do 7 (destruct c as [|c]; cbn [plist vec_x vec_y vec_z app nth csgn]; rewrite ?sin_0, ?cos_0; try ring; try nra).
Qed.

(** the ideal pupil, propagated, at the opposite pixel and the opposite plane *)
Lemma pup_neg c z z' y x : (0 <= y < n)%Z -> (0 <= x < n)%Z ->
  (h_vec h = VecNone \/ 0 < h_na h /\ sampled h) ->
  nth (Z.to_nat z') (h_zrange h) 0 = - nth (Z.to_nat z) (h_zrange h) 0 ->
  pup h (used_pupil h None) c z' y x =
  Cmult (RtoC (csgn (h_vec h) (Z.to_nat c))) (Cconj (pup h (used_pupil h None) c z (neg y) (neg x))).
Proof.
  intros Hy Hx Hv Hz. pose proof (neg_in h Hph y) as Hy'. pose proof (neg_in h Hph x) as Hx'.
  assert (Ek : k2 h y x = k2 h (neg y) (neg x)) by now rewrite k2_neg_y, k2_neg_x.
  destruct (radial h Hph y x (neg y) (neg x) Hy Hx Hy' Hx' Ek) as (Er & Ekz & Et & Ea).
  unfold pup, used_pupil. rewrite <- Ek. destruct (Rlt_dec (k2 h y x) _) as [Hin|Hout].
  2:{ rewrite !Cmult_0_l. replace (Cconj (RtoC 0)) with (RtoC 0) by (unfold Cconj, RtoC; cbn; f_equal; ring). ring. }
  assert (Ep : nth (Z.to_nat c) (plist (h_vec h) (h_theta h y x) (h_phi h y x)) 0 =
     csgn (h_vec h) (Z.to_nat c) * nth (Z.to_nat c) (plist (h_vec h) (h_theta h (neg y) (neg x)) (h_phi h (neg y) (neg x))) 0).
  { rewrite <- Et. destruct Hv as [Hv|[Hna Hs]].
    - rewrite Hv. destruct (Z.to_nat c) as [|k]; cbn; [|destruct k]; ring.
    - assert (Ny : (2 * six h y <> - n)%Z).
      { apply aperture_nyquist; auto. unfold k2 in Hin. fold n in Hin. pose proof (Rle_0_sqr (sfreq n (h_res h) x)) as Q. unfold Rsqr in Q. lra. }
      assert (Nx : (2 * six h x <> - n)%Z).
      { apply aperture_nyquist; auto. unfold k2 in Hin. fold n in Hin. pose proof (Rle_0_sqr (sfreq n (h_res h) y)) as Q. unfold Rsqr in Q. lra. }
      assert (Hsq : csgn (h_vec h) (Z.to_nat c) * csgn (h_vec h) (Z.to_nat c) = 1).
      { destruct (h_vec h), (Z.to_nat c) as [|[|?]]; cbn; ring. }
      destruct (Req_EM_T (h_kr h y x) 0) as [E0|E0].
      + assert (Et0 : h_theta h y x = 0).
        { unfold h_theta. rewrite E0. destruct (Rlt_dec _ _); unfold Rdiv; rewrite Rmult_0_l; apply asin_0. }
        rewrite Et0. rewrite (plist_axis _ (h_phi h y x) (h_phi h (neg y) (neg x))). rewrite <- Rmult_assoc, Hsq. ring.
      + destruct (phi_neg y x Hy Hx (sfreq_neg y Ny) (sfreq_neg x Nx) E0) as [Ec Es].
        rewrite (plist_neg _ _ (h_phi h y x) (h_phi h (neg y) (neg x))) by auto. rewrite <- Rmult_assoc, Hsq. ring. }
  rewrite Ep. unfold defocus. rewrite Hz, <- Ekz, <- Ea. rewrite !Cconj_mult, !Cconj_RtoC, cis_conj.
  rewrite RtoC_mult. replace (2 * PI * h_kz h y x * - nth (Z.to_nat z) (h_zrange h) 0) with (- (2 * PI * h_kz h y x * nth (Z.to_nat z) (h_zrange h) 0)) by ring. ring.
Qed.

Lemma csgn_sq v c : csgn v c * csgn v c = 1.
Proof. destruct v, c as [|[|?]]; cbn; ring. Qed.
Lemma Cnorm2_conj' z : Cnorm2 (Cconj z) = Cnorm2 z.
Proof. unfold Cnorm2, Cconj, Re, Im; cbn. ring. Qed.

Lemma axial_mirror A z z' y x : gen_psf h None = Ok A -> (0 <= y < n)%Z -> (0 <= x < n)%Z ->
  (h_vec h = VecNone \/ 0 < h_na h /\ sampled h) ->
  nth (Z.to_nat z') (h_zrange h) 0 = - nth (Z.to_nat z) (h_zrange h) 0 ->
  get (sumsq A) [z'; y; x] = get (sumsq A) [z; y; x].
Proof.
  intros HA Hy Hx Hv Hz. rewrite !(psfi_val h Hph None) by (auto; discriminate). apply Rsum_ext. intros c _. f_equal.
  rewrite (mop_conj_neg h Hph (pupf h (used_pupil h None) c z) _ (RtoC (csgn (h_vec h) (Z.to_nat c)))).
  - rewrite Cnorm2_mult, Cnorm2_RtoC, csgn_sq, Cnorm2_conj'. apply Rmult_1_l.
  - intros j i Hj Hi. unfold pupf. now apply pup_neg.
Qed.

(** ** lateral symmetries of the scalar model *)
Lemma kpsf_mirror k j : (0 <= k < n)%Z -> kpsf n ((2 * (n / 2) - k) mod n) j = kpsf n k (neg j).
Proof.
  intros Hk. unfold kpsf. rewrite (root_neg_l h Hph). apply root_cong; [apply (n_pos h Hph)|].
  replace (- (j * (k - n / 2)))%Z with (j * (- (k - n / 2)))%Z by ring.
  apply mulmod_cong; [apply (n_pos h Hph)|now rewrite Z.sub_diag, Zmod_0_l|].
  replace ((2 * (n / 2) - k) mod n - n / 2 - - (k - n / 2))%Z with ((2 * (n / 2) - k) mod n - (2 * (n / 2) - k))%Z by ring.
  apply mod_self_cong, (n_pos h Hph).
Qed.
Lemma neg_neg i : (0 <= i < n)%Z -> neg (neg i) = i.
Proof.
  intros Hi. unfold L_Hanser2.neg. fold n. rewrite Zminus_mod_idemp_r. replace (0 - (0 - i))%Z with i by ring. now apply Z.mod_small.
Qed.
Lemma mop_mirror_y f y x : (0 <= y < n)%Z ->
  (forall j i, (0 <= j < n)%Z -> (0 <= i < n)%Z -> f [neg j; i] = f [j; i]) ->
  mop kpsf [true; true] [n; n] f [((2 * (n / 2) - y) mod n)%Z; x] = mop kpsf [true; true] [n; n] f [y; x].
Proof.
  intros Hy Hf. cbn [mop].
  rewrite <- (Csum_reflect n 0 (fun j => Cmult (kpsf n y j) (Csum (zseq n) (fun i => Cmult (kpsf n x i) (f [j; i]))))).
  apply Csum_ext. intros j Hj%in_zseq_iff. rewrite kpsf_mirror by auto. f_equal. apply Csum_ext. intros i Hi%in_zseq_iff.
  f_equal. symmetry. now apply (Hf j i).
Qed.
Lemma mop_mirror_x f y x : (0 <= x < n)%Z ->
  (forall j i, (0 <= j < n)%Z -> (0 <= i < n)%Z -> f [j; neg i] = f [j; i]) ->
  mop kpsf [true; true] [n; n] f [y; ((2 * (n / 2) - x) mod n)%Z] = mop kpsf [true; true] [n; n] f [y; x].
Proof.
  intros Hx Hf. cbn [mop]. apply Csum_ext. intros j Hj%in_zseq_iff. f_equal.
  rewrite <- (Csum_reflect n 0 (fun i => Cmult (kpsf n x i) (f [j; i]))).
  apply Csum_ext. intros i Hi%in_zseq_iff. rewrite kpsf_mirror by auto. f_equal. symmetry. now apply (Hf j i).
Qed.
Lemma mop_swap f y x : (forall j i, (0 <= j < n)%Z -> (0 <= i < n)%Z -> f [i; j] = f [j; i]) ->
  mop kpsf [true; true] [n; n] f [x; y] = mop kpsf [true; true] [n; n] f [y; x].
Proof.
  intros Hf. cbn [mop].
  transitivity (Csum (zseq n) (fun i => Csum (zseq n) (fun j => Cmult (kpsf n x i) (Cmult (kpsf n y j) (f [j; i]))))).
  - apply Csum_ext. intros i Hi%in_zseq_iff. rewrite <- Csum_scal_l. apply Csum_ext. intros j Hj%in_zseq_iff. now rewrite (Hf j i).
  - rewrite Csum_swap. apply Csum_ext. intros j Hj%in_zseq_iff. rewrite <- Csum_scal_l. apply Csum_ext. intros i Hi%in_zseq_iff. ring.
Qed.
Lemma pup_radial c z y x y' x' : h_vec h = VecNone -> (0 <= y < n)%Z -> (0 <= x < n)%Z -> (0 <= y' < n)%Z -> (0 <= x' < n)%Z ->
  k2 h y x = k2 h y' x' -> pup h (used_pupil h None) c z y x = pup h (used_pupil h None) c z y' x'.
Proof.
  intros Hv Hy Hx Hy' Hx' E. destruct (radial h Hph y x y' x' Hy Hx Hy' Hx' E) as (Er & Ekz & Et & Ea).
  unfold pup, used_pupil, defocus. now rewrite Hv, E, Ekz, Ea.
Qed.
Lemma lateral A z y x : gen_psf h None = Ok A -> h_vec h = VecNone -> (0 <= y < n)%Z -> (0 <= x < n)%Z ->
  get (sumsq A) [z; ((2 * (n / 2) - y) mod n)%Z; x] = get (sumsq A) [z; y; x] /\
  get (sumsq A) [z; y; ((2 * (n / 2) - x) mod n)%Z] = get (sumsq A) [z; y; x] /\
  get (sumsq A) [z; x; y] = get (sumsq A) [z; y; x].
Proof.
  intros HA Hv Hy Hx. assert (Hm : forall k, (0 <= (2 * (n / 2) - k) mod n < n)%Z) by (intros; apply Z.mod_pos_bound, (n_pos h Hph)).
  rewrite !(psfi_val h Hph None) by (auto; discriminate).
  repeat split; apply Rsum_ext; intros c _; f_equal; f_equal.
  - apply mop_mirror_y; auto. intros j i Hj Hi. unfold pupf. apply pup_radial; auto; [apply (neg_in h Hph)|]. apply k2_neg_y, Hph.
  - apply mop_mirror_x; auto. intros j i Hj Hi. unfold pupf. apply pup_radial; auto; [apply (neg_in h Hph)|]. apply k2_neg_x, Hph.
  - apply mop_swap; auto. intros j i Hj Hi. unfold pupf. apply pup_radial; auto. apply k2_swap.
Qed.
End H.
