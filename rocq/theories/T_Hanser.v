(** HanserPSF numerics (pyotf/otf.py:329-437). *)
From Verif Require Import M_Hanser S_Hanser S_FFT L_Array L_Sum L_FFT L_FFT2 L_Polar L_Hanser L_Hanser2 L_Hanser3 L_Band L_Hanser4.
Local Open Scope R_scope.
Notation "a *c b" := (Cmult a b) (at level 40, left associativity).

(** A concrete model used to show that hypotheses can be met: 500 nm, NA 1, n = 4/3, 100 nm pixels. *)
Definition demo (v : vec) (c : cond) : hpar := mkHpar 500 1 (4 / 3) 100 4 [-200; 0; 200] v c.
Example demo_physical v c : physical (demo v c).
Proof. unfold physical, demo; cbn. repeat split; try lra; lia. Qed.
Example demo_sampled v c : sampled (demo v c).
Proof. unfold sampled, demo; cbn. lra. Qed.

(** ** C30: shape, component count, sign. *)
Theorem C30_shape_sign :
  forall (h : hpar) (base : option (array C)) (A : array C),
    physical h -> (forall P, base = Some P -> shape P = [h_size h; h_size h]) -> gen_psf h base = Ok A ->
    let nz := Z.of_nat (length (h_zrange h)) in let n := h_size h in
    shape A = [components (h_vec h); nz; n; n] /\
    shape (sumsq A) = [nz; n; n] /\
    forall ix, inb [nz; n; n] ix ->
      0 <= get (sumsq A) ix /\
      get (sumsq A) ix = Rsum (zseq (components (h_vec h))) (fun c => Cmod (get A (c :: ix)) ^ 2).
Proof.
  intros h base A Hph Hg HA nz n. destruct (gen_psf_val h Hph _ _ HA Hg) as [Hs _].
  split; [exact Hs|]. split; [unfold sumsq; cbn; now rewrite Hs|]. intros ix Hi. unfold sumsq. cbn [get]. rewrite Hs. cbn [hd].
  split; [apply Rsum_nonneg; intros; apply Cnorm2_ge_0|]. apply Rsum_ext. intros c _. rewrite Cnorm2_Cmod. ring.
Qed.
Print Assumptions C30_shape_sign.

(** Which calls succeed: every physical model with the ideal pupil or a pupil on its grid; a pupil that is
    not 2-d is refused. *)
Theorem C30_computes :
  forall (h : hpar), physical h ->
    (exists A, gen_psf h None = Ok A) /\
    (forall P, shape P = [h_size h; h_size h] -> exists A, gen_psf h (Some P) = Ok A) /\
    (forall P, length (shape P) <> 2%nat -> gen_psf h (Some P) = Err AssertionError).
Proof.
  intros h Hph. split; [apply gen_psf_ok; auto; discriminate|]. split.
  - intros P HP. apply gen_psf_ok; auto. intros P' E. injection E as <-. exact HP.
  - intros P HP. destruct (physical_nz h Hph) as [H1 H2]. unfold gen_psf.
    destruct (Req_EM_T _ _); [contradiction|]. destruct (Req_EM_T _ _); [contradiction|].
    destruct (shape P) as [|a [|b [|? ?]]]; auto. cbn in HP. congruence.
Qed.
Print Assumptions C30_computes.
Example C30_case : exists A, gen_psf (demo VecTotal CondSine) None = Ok A.
Proof. apply C30_computes, demo_physical. Qed.

(** ** C31: the light in a plane does not depend on the plane. *)
Theorem C31_plane_energy :
  forall (h : hpar) (base : option (array C)) (A : array C) (z : Z),
    physical h -> (forall P, base = Some P -> shape P = [h_size h; h_size h]) -> gen_psf h base = Ok A ->
    let n := h_size h in
    plane_sum n (fun y x => get (sumsq A) [z; y; x]) =
    / IZR (n * n) * plane_sum n (fun y x =>
        Cmod (used_pupil h base y x) ^ 2 * cond_weight h y x * pol_weight h (h_vec h) y x).
Proof.
  intros h base A z Hph Hg HA n. unfold n. rewrite (plane_energy h Hph base) by auto. f_equal. apply plane_ext. intros y x _ _.
  rewrite Cnorm2_Cmod. ring.
Qed.
Print Assumptions C31_plane_energy.

Theorem C31_same_in_every_plane :
  forall (h : hpar) (base : option (array C)) (A : array C) (z z' : Z),
    physical h -> (forall P, base = Some P -> shape P = [h_size h; h_size h]) -> gen_psf h base = Ok A ->
    plane_sum (h_size h) (fun y x => get (sumsq A) [z; y; x]) = plane_sum (h_size h) (fun y x => get (sumsq A) [z'; y; x]).
Proof. intros. rewrite !(plane_energy h H base) by auto. reflexivity. Qed.
Print Assumptions C31_same_in_every_plane.

(** ** C32 *)
Theorem C32_total_is_sum :
  forall (h : hpar) (base : option (array C)) (At Ax Ay Az : array C) (z y x : Z),
    physical h -> (forall P, base = Some P -> shape P = [h_size h; h_size h]) ->
    gen_psf (with_vec h VecTotal) base = Ok At -> gen_psf (with_vec h VecX) base = Ok Ax ->
    gen_psf (with_vec h VecY) base = Ok Ay -> gen_psf (with_vec h VecZ) base = Ok Az ->
    (0 <= y < h_size h)%Z -> (0 <= x < h_size h)%Z ->
    get (sumsq At) [z; y; x] = get (sumsq Ax) [z; y; x] + get (sumsq Ay) [z; y; x] + get (sumsq Az) [z; y; x].
Proof. intros. now apply (vec_total h H base). Qed.
Print Assumptions C32_total_is_sum.

Theorem C32_total_energy :
  forall (h : hpar) (base : option (array C)) (At An : array C) (z : Z),
    physical h -> (forall P, base = Some P -> shape P = [h_size h; h_size h]) ->
    gen_psf (with_vec h VecTotal) base = Ok At -> gen_psf (with_vec h VecNone) base = Ok An ->
    plane_sum (h_size h) (fun y x => get (sumsq At) [z; y; x]) =
    2 * plane_sum (h_size h) (fun y x => get (sumsq An) [z; y; x]).
Proof.
  intros h base At An z Hph Hg Ht Hn.
  pose proof (plane_energy _ (physical_vec h Hph VecTotal) base At z Ht Hg) as E1.
  pose proof (plane_energy _ (physical_vec h Hph VecNone) base An z Hn Hg) as E2.
  cbn [h_size with_vec h_vec pol_weight] in E1, E2. rewrite E1, E2.
  rewrite (plane_ext (h_size h) _ (fun y x => 2 * (Cnorm2 (used_pupil h base y x) * cond_weight h y x * 1))).
  - rewrite plane_scal. change (used_pupil (with_vec h VecNone) base) with (used_pupil h base).
    change (cond_weight (with_vec h VecNone)) with (cond_weight h). ring.
  - intros y x _ _. change (used_pupil (with_vec h VecTotal) base) with (used_pupil h base).
    change (cond_weight (with_vec h VecTotal)) with (cond_weight h). ring.
Qed.
Print Assumptions C32_total_energy.
Example C32_case : exists At Ax Ay Az, gen_psf (with_vec (demo VecNone CondSine) VecTotal) None = Ok At /\
  gen_psf (with_vec (demo VecNone CondSine) VecX) None = Ok Ax /\ gen_psf (with_vec (demo VecNone CondSine) VecY) None = Ok Ay /\
  gen_psf (with_vec (demo VecNone CondSine) VecZ) None = Ok Az.
Proof.
  assert (H : forall v, exists A, gen_psf (with_vec (demo VecNone CondSine) v) None = Ok A).
  { intros v. apply C30_computes. exact (demo_physical v CondSine). }
  destruct (H VecTotal) as [At ?], (H VecX) as [Ax ?], (H VecY) as [Ay ?], (H VecZ) as [Az ?]. now exists At, Ax, Ay, Az.
Qed.

(** ** C33: the in-focus centre of the unaberrated scalar model is the brightest voxel, also among all
    phase (and absorption) aberrated versions of it. *)
Theorem C33_strehl :
  forall (h : hpar) (A : array C) (P : array C) (A' : array C) (z0 z y x : Z),
    physical h -> h_vec h = VecNone -> gen_psf h None = Ok A ->
    nth (Z.to_nat z0) (h_zrange h) 0 = 0 ->
    shape P = [h_size h; h_size h] -> gen_psf h (Some P) = Ok A' ->
    (forall j i, (0 <= j < h_size h)%Z -> (0 <= i < h_size h)%Z ->
       (in_aperture h j i -> Cmod (get P [j; i]) <= 1) /\ (~ in_aperture h j i -> get P [j; i] = RtoC 0)) ->
    (0 <= y < h_size h)%Z -> (0 <= x < h_size h)%Z ->
    get (sumsq A') [z; y; x] <= get (sumsq A) [z0; h_size h / 2; h_size h / 2]%Z.
Proof.
  intros h A P A' z0 z y x Hph Hv HA Hz HP HA' HQ Hy Hx. rewrite (peak_value h Hph A z0) by auto.
  apply (peak_bound h Hph (Some P)); auto.
  - intros P' E. injection E as <-. exact HP.
  - intros j i Hj Hi. cbn [used_pupil]. destruct (HQ j i Hj Hi) as [H1 H2]. unfold in_aperture in *.
    destruct (Rlt_dec _ _) as [H|H]; auto. rewrite (H2 H), Cmod_0. lra.
Qed.
Print Assumptions C33_strehl.

Theorem C33_ideal_maximum :
  forall (h : hpar) (A : array C) (z0 z y x : Z),
    physical h -> h_vec h = VecNone -> gen_psf h None = Ok A ->
    nth (Z.to_nat z0) (h_zrange h) 0 = 0 ->
    (0 <= y < h_size h)%Z -> (0 <= x < h_size h)%Z ->
    get (sumsq A) [z; y; x] <= get (sumsq A) [z0; h_size h / 2; h_size h / 2]%Z.
Proof.
  intros h A z0 z y x Hph Hv HA Hz Hy Hx. rewrite (peak_value h Hph A z0) by auto.
  apply (peak_bound h Hph None); auto; try discriminate.
  intros j i Hj Hi. unfold used_pupil. destruct (Rlt_dec _ _); rewrite Cmod_R, ?Rabs_R1, ?Rabs_R0; lra.
Qed.
Print Assumptions C33_ideal_maximum.
Example C33_case : nth (Z.to_nat 1) (h_zrange (demo VecNone CondSine)) 0 = 0.
Proof. reflexivity. Qed.

(** ** C34: symmetries of the ideal pupil's PSF. *)
Theorem C34_axial_mirror :
  forall (h : hpar) (A : array C) (z z' y x : Z),
    physical h -> gen_psf h None = Ok A ->
    (h_vec h = VecNone \/ 0 < h_na h /\ sampled h) ->
    nth (Z.to_nat z') (h_zrange h) 0 = - nth (Z.to_nat z) (h_zrange h) 0 ->
    (0 <= y < h_size h)%Z -> (0 <= x < h_size h)%Z ->
    get (sumsq A) [z'; y; x] = get (sumsq A) [z; y; x].
Proof. intros. now apply (axial_mirror h). Qed.
Print Assumptions C34_axial_mirror.

Theorem C34_lateral_symmetry :
  forall (h : hpar) (A : array C) (z y x : Z),
    physical h -> gen_psf h None = Ok A -> h_vec h = VecNone ->
    (0 <= y < h_size h)%Z -> (0 <= x < h_size h)%Z ->
    let n := h_size h in
    get (sumsq A) [z; ((2 * (n / 2) - y) mod n)%Z; x] = get (sumsq A) [z; y; x] /\
    get (sumsq A) [z; y; ((2 * (n / 2) - x) mod n)%Z] = get (sumsq A) [z; y; x] /\
    get (sumsq A) [z; x; y] = get (sumsq A) [z; y; x].
Proof. intros. now apply lateral. Qed.
Print Assumptions C34_lateral_symmetry.
Example C34_case : (0 < h_na (demo VecTotal CondSine) /\ sampled (demo VecTotal CondSine)) /\
  nth (Z.to_nat 0) (h_zrange (demo VecTotal CondSine)) 0 = - nth (Z.to_nat 2) (h_zrange (demo VecTotal CondSine)) 0.
Proof.
  split; [split; [cbn; lra|apply demo_sampled]|]. change (-200 = - 200). lra.
Qed.

(** ** C35: the intensity OTF of any non-negative 3-d intensity. *)
Theorem C35_otf_of_intensity :
  forall (I : array R) (nz ny nx kz ky kx : Z),
    shape I = [nz; ny; nx] -> (forall ix, inb [nz; ny; nx] ix -> 0 <= get I ix) ->
    inb [nz; ny; nx] [kz; ky; kx] ->
    let total := Rsum (all_ix [nz; ny; nx]) (get I) in
    shape (otfi_of I) = [nz; ny; nx] /\
    get (otfi_of I) [nz / 2; ny / 2; nx / 2]%Z = RtoC total /\
    Cmod (get (otfi_of I) [kz; ky; kx]) <= total /\
    get (otfi_of I) [((2 * (nz / 2) - kz) mod nz)%Z; ((2 * (ny / 2) - ky) mod ny)%Z; ((2 * (nx / 2) - kx) mod nx)%Z] =
      Cconj (get (otfi_of I) [kz; ky; kx]).
Proof.
  intros I nz ny nx kz ky kx Hs Hp Hk total. unfold otfi_of.
  assert (Hsh : shape (complexify I) = [nz; ny; nx]) by exact Hs.
  assert (Hm : axes_mask (length (shape (complexify I))) None = repeat true (length [nz; ny; nx])) by now rewrite Hsh.
  assert (Hbox : box (repeat true (length [nz; ny; nx])) [nz; ny; nx] [kz; ky; kx] = all_ix [nz; ny; nx]) by now apply box_all.
  split; [exact Hs|]. split; [|split].
  - pose proof (mop_centre (repeat true 3) [nz; ny; nx] (get (complexify I)) [kz; ky; kx] Hk) as Hc.
    rewrite easy_fft_mop; rewrite Hsh.
    2:{ apply (inb_at_centre (repeat true 3) [nz; ny; nx] [kz; ky; kx] Hk). }
    etransitivity; [exact Hc|]. change 3%nat with (length [nz; ny; nx]). rewrite Hbox. unfold total. rewrite Csum_RtoC. reflexivity.
  - rewrite easy_fft_mop; rewrite Hsh; [|auto]. eapply Rle_trans; [apply mop_bound; intros; unfold kcen; rewrite root_mod1; lra|].
    cbn [axes_mask]. rewrite Hbox. unfold total. apply Rsum_le. intros ix Hi. apply in_all_ix in Hi.
    unfold complexify, amap. cbn [get]. rewrite Cmod_R, Rabs_pos_eq; [lra|auto].
  - assert (Hmm := inb_mirror (repeat true 3) [nz; ny; nx] [kz; ky; kx] Hk).
    rewrite !easy_fft_mop by (rewrite Hsh; auto). rewrite Hsh. cbn [axes_mask length].
    etransitivity; [exact (mop_mirror (repeat true 3) [nz; ny; nx] (get (complexify I)) [kz; ky; kx] Hk)|].
    rewrite (mop_conj (kcen (-1)) (kcen 1) (fun x => x)).
    + apply mop_ext; auto. intros js _. unfold complexify, amap. cbn [get]. now rewrite Cconj_RtoC.
    + intros n k j. unfold kcen. rewrite root_conj. f_equal. ring.
Qed.
Print Assumptions C35_otf_of_intensity.

Theorem C35_hanser :
  forall (h : hpar) (base : option (array C)) (A : array C) (kz ky kx : Z),
    physical h -> (forall P, base = Some P -> shape P = [h_size h; h_size h]) -> gen_psf h base = Ok A ->
    let nz := Z.of_nat (length (h_zrange h)) in let n := h_size h in
    inb [nz; n; n] [kz; ky; kx] ->
    let total := Rsum (all_ix [nz; n; n]) (get (sumsq A)) in
    get (otfi_of (sumsq A)) [nz / 2; n / 2; n / 2]%Z = RtoC total /\
    Cmod (get (otfi_of (sumsq A)) [kz; ky; kx]) <= total /\
    get (otfi_of (sumsq A)) [((2 * (nz / 2) - kz) mod nz)%Z; ((2 * (n / 2) - ky) mod n)%Z; ((2 * (n / 2) - kx) mod n)%Z] =
      Cconj (get (otfi_of (sumsq A)) [kz; ky; kx]).
Proof.
  intros h base A kz ky kx Hph Hg HA nz n Hk. destruct (C30_shape_sign h base A Hph Hg HA) as (_ & Hs & Hp). fold nz n in Hs, Hp.
  destruct (C35_otf_of_intensity (sumsq A) nz n n kz ky kx Hs (fun ix Hi => proj1 (Hp ix Hi)) Hk) as (_ & H). exact H.
Qed.
Print Assumptions C35_hanser.

(** ** C36: band limit. *)
Theorem C36_autocorrelation_support :
  forall (h : hpar) (base : option (array C)) (A : array C) (kz ky kx : Z),
    physical h -> (forall P, base = Some P -> shape P = [h_size h; h_size h]) -> gen_psf h base = Ok A ->
    let n := h_size h in
    (0 <= kz < Z.of_nat (length (h_zrange h)))%Z -> (0 <= ky < n)%Z -> (0 <= kx < n)%Z ->
    (forall j i j' i', (0 <= j < n)%Z -> (0 <= i < n)%Z -> (0 <= j' < n)%Z -> (0 <= i' < n)%Z ->
       ((j - j' - (ky - n / 2)) mod n = 0)%Z -> ((i - i' - (kx - n / 2)) mod n = 0)%Z ->
       used_pupil h base j i = RtoC 0 \/ used_pupil h base j' i' = RtoC 0) ->
    get (otfi_of (sumsq A)) [kz; ky; kx] = RtoC 0.
Proof. intros. now apply (otfi_zero h H base). Qed.
Print Assumptions C36_autocorrelation_support.

Theorem C36_band_limit :
  forall (h : hpar) (base : option (array C)) (A : array C) (kz ky kx : Z),
    physical h -> (forall P, base = Some P -> shape P = [h_size h; h_size h]) -> gen_psf h base = Ok A ->
    let n := h_size h in
    (forall j i, (0 <= j < n)%Z -> (0 <= i < n)%Z -> ~ in_aperture h j i -> used_pupil h base j i = RtoC 0) ->
    (0 <= kz < Z.of_nat (length (h_zrange h)))%Z -> (0 <= ky < n)%Z -> (0 <= kx < n)%Z ->
    let fy := IZR (ky - n / 2) / (IZR n * h_res h) in let fx := IZR (kx - n / 2) / (IZR n * h_res h) in
    2 * h_na h / h_wl h <= sqrt (fy ^ 2 + fx ^ 2) ->
    get (otfi_of (sumsq A)) [kz; ky; kx] = RtoC 0.
Proof.
  intros h base A kz ky kx Hph Hg HA n Hsup Hz Hy Hx fy fx Hr. apply (otfi_zero h Hph base); auto. fold n.
  intros j i j' i' Hj Hi Hj' Hi' Ey Ex.
  destruct (Rlt_dec (k2 h j i) ((h_na h / h_wl h) ^ 2)) as [H1|H1]; [|left; now apply Hsup].
  destruct (Rlt_dec (k2 h j' i') ((h_na h / h_wl h) ^ 2)) as [H2|H2]; [|right; now apply Hsup].
  exfalso. pose proof (radius h Hph j i j' i' ky kx Hy Hx Ey Ex H1 H2) as Hlt. fold n in Hlt. fold fy fx in Hlt.
  assert (Hs : 0 <= fy ^ 2 + fx ^ 2) by (pose proof (pow2_ge_0 fy); pose proof (pow2_ge_0 fx); lra).
  pose proof (sqrt_sqrt _ Hs) as Hq. pose proof (na_wl_ge_0 h Hph).
  assert (0 <= 2 * h_na h / h_wl h) by (replace (2 * h_na h / h_wl h) with (2 * (h_na h / h_wl h)) by (unfold Rdiv; ring); lra). nra.
Qed.
Print Assumptions C36_band_limit.
(** the ideal pupil always satisfies the support hypothesis *)
Example C36_ideal_support (h : hpar) : forall j i, ~ in_aperture h j i -> used_pupil h None j i = RtoC 0.
Proof. intros j i H. unfold used_pupil. destruct (Rlt_dec _ _); [contradiction|reflexivity]. Qed.

(** ** C68: the scalar amplitude is the angular spectrum sum. *)
Theorem C68_angular_spectrum :
  forall (h : hpar) (base : option (array C)) (A : array C) (z y x : Z),
    physical h -> (forall P, base = Some P -> shape P = [h_size h; h_size h]) -> gen_psf h base = Ok A ->
    h_vec h = VecNone -> (0 <= y < h_size h)%Z -> (0 <= x < h_size h)%Z ->
    let n := h_size h in
    get A [0%Z; z; y; x] =
    RtoC (/ IZR (n * n)) *c
    Csum (zseq n) (fun j => Csum (zseq n) (fun i =>
      (used_pupil h base j i *c RtoC (sqrt (cond_weight h j i))) *c
      cis (2 * PI * (sqrt (Rmax 0 ((h_ni h / h_wl h) ^ 2 - k2 h j i)) * nth (Z.to_nat z) (h_zrange h) 0 +
                     sfreq n (h_res h) j * (IZR (y - n / 2) * h_res h) +
                     sfreq n (h_res h) i * (IZR (x - n / 2) * h_res h))))).
Proof. intros. now apply (angular h H base). Qed.
Print Assumptions C68_angular_spectrum.
