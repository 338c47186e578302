(** C84: lateral symmetries of PSFs with polarisation. *)
From Verif Require Import M_Hanser S_Hanser S_Object L_Array L_Sum L_FFT L_FFT2 L_Polar L_Hanser L_Hanser2 L_Hanser3 L_Hanser4 T_Hanser T_PSF T_PSF2 T_Object2 T_Object.
Import M_Array.
Local Open Scope R_scope.

(** Pixel at the opposite side of pixel n//2 (on the periodic grid), and of frequency 0 in the pupil array. *)
Definition opposite (n y : Z) : Z := ((2 * (n / 2) - y) mod n)%Z.
Definition opposite_k (n j : Z) : Z := ((- j) mod n)%Z.
(** Exchanging the x and y axes exchanges these components. *)
Definition exchanged (v : vec) : vec := match v with VecX => VecY | VecY => VecX | v => v end.
(** The pupil is zero outside the aperture (the ideal one always is). *)
Definition in_aperture_only (h : hpar) (base : option (array C)) : Prop :=
  forall j i, (0 <= j < h_size h)%Z -> (0 <= i < h_size h)%Z -> used_pupil h base j i <> RtoC 0 -> in_aperture h j i.

(** ** components under reflections *)
Definition sgn_y (v : vec) (c : nat) : R :=
  match v, c with VecX, 1%nat | VecY, 0%nat | VecZ, 1%nat | VecTotal, (1%nat | 2%nat | 5%nat) => -1 | _, _ => 1 end.
Definition sgn_x (v : vec) (c : nat) : R :=
  match v, c with VecX, 1%nat | VecY, 0%nat | VecZ, 0%nat | VecTotal, (0%nat | 2%nat | 5%nat) => -1 | _, _ => 1 end.
Definition perm (v : vec) (c : Z) : Z := match v with VecNone => c | VecTotal => nth (Z.to_nat c) [1; 0; 5; 4; 3; 2]%Z 0%Z | _ => (1 - c)%Z end.
Lemma sgn_y_sq v c : sgn_y v c * sgn_y v c = 1.
Proof. destruct v; do 6 (destruct c as [|c]; cbn; try ring). Qed.
Lemma sgn_x_sq v c : sgn_x v c * sgn_x v c = 1.
Proof. destruct v; do 6 (destruct c as [|c]; cbn; try ring). Qed.
Lemma plist_mirror_y v t p p' c : (sin t = 0 /\ cos t = 1) \/ (cos p' = cos p /\ sin p' = - sin p) -> nth c (plist v t p') 0 = sgn_y v c * nth c (plist v t p) 0.
Proof.
  pose proof (sin2_cos2 p) as Ep. pose proof (sin2_cos2 p') as Ep'. unfold Rsqr in *.
  intros [[E1 E2]|[E1 E2]]; destruct v; do 7 (destruct c as [|c]; cbn [plist vec_x vec_y vec_z app nth sgn_y]; rewrite ?E1, ?E2; try ring; try nra).
Qed.
Lemma plist_mirror_x v t p p' c : (sin t = 0 /\ cos t = 1) \/ (cos p' = - cos p /\ sin p' = sin p) -> nth c (plist v t p') 0 = sgn_x v c * nth c (plist v t p) 0.
Proof.
  pose proof (sin2_cos2 p) as Ep. pose proof (sin2_cos2 p') as Ep'. unfold Rsqr in *.
  intros [[E1 E2]|[E1 E2]]; destruct v; do 7 (destruct c as [|c]; cbn [plist vec_x vec_y vec_z app nth sgn_x]; rewrite ?E1, ?E2; try ring; try nra).
Qed.
Lemma plist_swap v t p p' c : (sin t = 0 /\ cos t = 1) \/ (cos p' = sin p /\ sin p' = cos p) -> (0 <= c < components v)%Z ->
  nth (Z.to_nat (perm v c)) (plist (exchanged v) t p') 0 = nth (Z.to_nat c) (plist v t p) 0.
Proof.
  pose proof (sin2_cos2 p) as Ep. pose proof (sin2_cos2 p') as Ep'. unfold Rsqr in *.
  intros H Hc. assert (Hcs : (c = 0 \/ c = 1 \/ c = 2 \/ c = 3 \/ c = 4 \/ c = 5)%Z) by (destruct v; cbn in Hc; lia).
  destruct H as [[E1 E2]|[E1 E2]]; destruct v; cbn in Hc; destruct Hcs as [->|[->|[->|[->|[->| ->]]]]]; try lia;
    repeat match goal with |- context [Z.to_nat ?e] => let k := eval vm_compute in (Z.to_nat e) in change (Z.to_nat e) with k end;
    cbn [exchanged nth plist vec_x vec_y vec_z app]; rewrite ?E1, ?E2; first [ring | nra | idtac].
Qed.

Section H.
Context (h : hpar) (Hph : physical h).
Let n := h_size h.
Notation neg := (neg h).
Lemma neg_opp j : neg j = opposite_k n j.
Proof. reflexivity. Qed.
Lemma mop_sign_y f s y x : (0 <= y < n)%Z -> (forall j i, (0 <= j < n)%Z -> (0 <= i < n)%Z -> f [neg j; i] = Cmult s (f [j; i])) ->
  mop kpsf [true; true] [n; n] f [((2 * (n / 2) - y) mod n)%Z; x] = Cmult s (mop kpsf [true; true] [n; n] f [y; x]).
Proof.
  intros Hy Hf. cbn [mop]. rewrite <- Csum_scal_l.
  rewrite <- (Csum_reflect n 0 (fun j => Cmult (kpsf n ((2 * (n / 2) - y) mod n) j) (Csum (zseq n) (fun i => Cmult (kpsf n x i) (f [j; i]))))).
  apply Csum_ext. intros j Hj%in_zseq_iff. fold n. change ((0 - j) mod n)%Z with (neg j). rewrite (kpsf_mirror h Hph) by auto.
  rewrite (neg_neg h) by auto. match goal with |- ?a = Cmult s (Cmult ?k ?v) => transitivity (Cmult k (Cmult s v)); [|ring] end. f_equal. rewrite <- Csum_scal_l. apply Csum_ext. intros i Hi%in_zseq_iff.
  rewrite (Hf j i) by auto. ring.
Qed.
Lemma mop_sign_x f s y x : (0 <= x < n)%Z -> (forall j i, (0 <= j < n)%Z -> (0 <= i < n)%Z -> f [j; neg i] = Cmult s (f [j; i])) ->
  mop kpsf [true; true] [n; n] f [y; ((2 * (n / 2) - x) mod n)%Z] = Cmult s (mop kpsf [true; true] [n; n] f [y; x]).
Proof.
  intros Hx Hf. cbn [mop]. rewrite <- Csum_scal_l. apply Csum_ext. intros j Hj%in_zseq_iff.
  match goal with |- ?a = Cmult s (Cmult ?k ?v) => transitivity (Cmult k (Cmult s v)); [|ring] end. f_equal. rewrite <- Csum_scal_l.
  rewrite <- (Csum_reflect n 0 (fun i => Cmult (kpsf n ((2 * (n / 2) - x) mod n) i) (f [j; i]))).
  apply Csum_ext. intros i Hi%in_zseq_iff. change ((0 - i) mod n)%Z with (neg i). rewrite (kpsf_mirror h Hph) by auto. rewrite (neg_neg h) by auto.
  rewrite (Hf j i) by auto. fold n. ring.
Qed.
Lemma mop_swap' f f' y x : (forall j i, (0 <= j < n)%Z -> (0 <= i < n)%Z -> f' [i; j] = f [j; i]) ->
  mop kpsf [true; true] [n; n] f' [x; y] = mop kpsf [true; true] [n; n] f [y; x].
Proof.
  intros Hf. cbn [mop].
  transitivity (Csum (zseq n) (fun i => Csum (zseq n) (fun j => Cmult (kpsf n x i) (Cmult (kpsf n y j) (f [j; i]))))).
  - apply Csum_ext. intros i Hi%in_zseq_iff. rewrite <- Csum_scal_l. apply Csum_ext. intros j Hj%in_zseq_iff. now rewrite (Hf j i).
  - rewrite Csum_swap. apply Csum_ext. intros j Hj%in_zseq_iff. rewrite <- Csum_scal_l. apply Csum_ext. intros i Hi%in_zseq_iff. ring.
Qed.
Lemma axis_theta y x : h_kr h y x = 0 -> sin (h_theta h y x) = 0 /\ cos (h_theta h y x) = 1.
Proof.
  intros E. assert (T : h_theta h y x = 0) by (unfold h_theta; rewrite E; destruct (Rlt_dec _ _); unfold Rdiv; rewrite Rmult_0_l; apply asin_0).
  rewrite T. split; [apply sin_0|apply cos_0].
Qed.
Section P.
Context (base : option (array C)) (Hna : 0 < h_na h) (Hs : sampled h) (Hsup : in_aperture_only h base).
Lemma nyquist_y y x : (0 <= y < n)%Z -> (0 <= x < n)%Z -> used_pupil h base y x <> RtoC 0 -> (2 * six h y <> - n)%Z.
Proof.
  intros Hy Hx Hu. apply aperture_nyquist; auto. pose proof (Hsup y x Hy Hx Hu) as Hin. unfold in_aperture, k2 in Hin. fold n in Hin.
  pose proof (Rle_0_sqr (sfreq n (h_res h) x)) as Q. unfold Rsqr in Q. fold n. lra.
Qed.
Lemma nyquist_x y x : (0 <= y < n)%Z -> (0 <= x < n)%Z -> used_pupil h base y x <> RtoC 0 -> (2 * six h x <> - n)%Z.
Proof.
  intros Hy Hx Hu. apply aperture_nyquist; auto. pose proof (Hsup y x Hy Hx Hu) as Hin. unfold in_aperture, k2 in Hin. fold n in Hin.
  pose proof (Rle_0_sqr (sfreq n (h_res h) y)) as Q. unfold Rsqr in Q. fold n. lra.
Qed.
Lemma Ceq_dec0 (c : C) : c = RtoC 0 \/ c <> RtoC 0.
Proof. destruct (Req_EM_T (fst c) 0), (Req_EM_T (snd c) 0); [left|right|right|right]; destruct c; cbn in *; unfold RtoC; congruence. Qed.
Lemma pup_mirror_y c z y x : (forall j i, (0 <= j < n)%Z -> (0 <= i < n)%Z -> used_pupil h base (neg j) i = used_pupil h base j i) -> (0 <= y < n)%Z -> (0 <= x < n)%Z ->
  pup h (used_pupil h base) c z (neg y) x = Cmult (RtoC (sgn_y (h_vec h) (Z.to_nat c))) (pup h (used_pupil h base) c z y x).
Proof.
  intros HQ Hy Hx. pose proof (neg_in h Hph y) as Hy'. fold n in Hy'. unfold pup. rewrite (HQ y x Hy Hx).
  destruct (Ceq_dec0 (used_pupil h base y x)) as [E|E]; [rewrite E; ring|].
  destruct (radial h Hph (neg y) x y x Hy' Hx Hy Hx (k2_neg_y h Hph y x)) as (Er & Ekz & Et & Ea).
  unfold defocus. rewrite Ekz, Et, Ea. rewrite (plist_mirror_y (h_vec h) (h_theta h y x) (h_phi h y x) (h_phi h (neg y) x) (Z.to_nat c)); [rewrite RtoC_mult; ring|].
  destruct (Req_EM_T (h_kr h y x) 0) as [E0|E0]; [left; now apply axis_theta|right].
  destruct (phi_polar h Hph y x Hy Hx) as [A1 A2]. destruct (phi_polar h Hph (neg y) x Hy' Hx) as [B1 B2]. fold n in A1, A2, B1, B2.
  pose proof (sfreq_neg h Hph y (nyquist_y y x Hy Hx E)) as N. fold n in N. rewrite N, Er in B2. rewrite Er in B1. split; apply (Rmult_eq_reg_l (h_kr h y x)); auto; lra.
Qed.
Lemma pup_mirror_x c z y x : (forall j i, (0 <= j < n)%Z -> (0 <= i < n)%Z -> used_pupil h base j (neg i) = used_pupil h base j i) -> (0 <= y < n)%Z -> (0 <= x < n)%Z ->
  pup h (used_pupil h base) c z y (neg x) = Cmult (RtoC (sgn_x (h_vec h) (Z.to_nat c))) (pup h (used_pupil h base) c z y x).
Proof.
  intros HQ Hy Hx. pose proof (neg_in h Hph x) as Hx'. fold n in Hx'. unfold pup. rewrite (HQ y x Hy Hx).
  destruct (Ceq_dec0 (used_pupil h base y x)) as [E|E]; [rewrite E; ring|].
  destruct (radial h Hph y (neg x) y x Hy Hx' Hy Hx (k2_neg_x h Hph y x)) as (Er & Ekz & Et & Ea).
  unfold defocus. rewrite Ekz, Et, Ea. rewrite (plist_mirror_x (h_vec h) (h_theta h y x) (h_phi h y x) (h_phi h y (neg x)) (Z.to_nat c)); [rewrite RtoC_mult; ring|].
  destruct (Req_EM_T (h_kr h y x) 0) as [E0|E0]; [left; now apply axis_theta|right].
  destruct (phi_polar h Hph y x Hy Hx) as [A1 A2]. destruct (phi_polar h Hph y (neg x) Hy Hx') as [B1 B2]. fold n in A1, A2, B1, B2.
  pose proof (sfreq_neg h Hph x (nyquist_x y x Hy Hx E)) as N. fold n in N. rewrite N, Er in B1. rewrite Er in B2. split; apply (Rmult_eq_reg_l (h_kr h y x)); auto; lra.
Qed.
End P.
Lemma pup_swap Q Q' c z y x : (0 <= c < components (h_vec h))%Z -> (0 <= y < n)%Z -> (0 <= x < n)%Z -> Q' x y = Q y x ->
  pup (with_vec h (exchanged (h_vec h))) Q' (perm (h_vec h) c) z x y = pup h Q c z y x.
Proof.
  intros Hc Hy Hx E. unfold pup. rewrite E.
  destruct (radial h Hph x y y x Hx Hy Hy Hx (k2_swap h x y)) as (Er & Ekz & Et & Ea).
  assert (P : nth (Z.to_nat (perm (h_vec h) c)) (plist (h_vec (with_vec h (exchanged (h_vec h)))) (h_theta (with_vec h (exchanged (h_vec h))) x y) (h_phi (with_vec h (exchanged (h_vec h))) x y)) 0 =
    nth (Z.to_nat c) (plist (h_vec h) (h_theta h y x) (h_phi h y x)) 0).
  { change (nth (Z.to_nat (perm (h_vec h) c)) (plist (exchanged (h_vec h)) (h_theta h x y) (h_phi h x y)) 0 = nth (Z.to_nat c) (plist (h_vec h) (h_theta h y x) (h_phi h y x)) 0).
    rewrite Et. apply plist_swap; auto. destruct (Req_EM_T (h_kr h y x) 0) as [E0|E0]; [left; now apply axis_theta|right].
    destruct (phi_polar h Hph y x Hy Hx) as [A1 A2]. destruct (phi_polar h Hph x y Hx Hy) as [B1 B2]. rewrite Er, A2 in B1. rewrite Er, A1 in B2.
    split; apply (Rmult_eq_reg_l (h_kr h y x)); auto; lra. }
  rewrite P. change (defocus (with_vec h (exchanged (h_vec h))) z x y) with (defocus h z x y). change (apod (with_vec h (exchanged (h_vec h))) x y) with (apod h x y).
  unfold defocus. now rewrite Ekz, Ea.
Qed.
Lemma Rsum_perm_c v F : Rsum (zseq (components (exchanged v))) F = Rsum (zseq (components v)) (fun c => F (perm v c)).
Proof.
  destruct v; cbn [components exchanged]; change (zseq 1) with [0%Z]; change (zseq 2) with [0; 1]%Z; change (zseq 6) with [0; 1; 2; 3; 4; 5]%Z; cbn [Rsum];
    repeat match goal with |- context [perm ?v ?c] => let k := eval vm_compute in (perm v c) in change (perm v c) with k end; ring.
Qed.
End H.

(** A pupil symmetric in ky (in kx) and empty outside the aperture gives a PSF symmetric in y (in x), whatever vec_corr and condition. *)
Theorem C84_mirror_y :
  forall (h : hpar) (base : option (array C)) (A : array C) (z y x : Z),
    physical h -> 0 < h_na h -> sampled h -> gen_psf h base = Ok A -> (forall P, base = Some P -> on_grid h P) -> in_aperture_only h base ->
    (forall j i, (0 <= j < h_size h)%Z -> (0 <= i < h_size h)%Z -> used_pupil h base (opposite_k (h_size h) j) i = used_pupil h base j i) ->
    (0 <= y < h_size h)%Z -> (0 <= x < h_size h)%Z ->
    get (sumsq A) [z; opposite (h_size h) y; x] = get (sumsq A) [z; y; x].
Proof.
  intros h base A z y x Hph Hna Hs HA Hg Hsup HQ Hy Hx. assert (Hm : (0 <= opposite (h_size h) y < h_size h)%Z) by (apply Z.mod_pos_bound, (n_pos h Hph)).
  rewrite !(psfi_val h Hph base) by auto. apply Rsum_ext. intros c _. f_equal. unfold opposite.
  rewrite (mop_sign_y h Hph _ (RtoC (sgn_y (h_vec h) (Z.to_nat c)))) by (auto; intros j i Hj Hi; unfold pupf; now apply pup_mirror_y).
  rewrite Cnorm2_mult, Cnorm2_RtoC, sgn_y_sq. ring.
Qed.
Print Assumptions C84_mirror_y.
Theorem C84_mirror_x :
  forall (h : hpar) (base : option (array C)) (A : array C) (z y x : Z),
    physical h -> 0 < h_na h -> sampled h -> gen_psf h base = Ok A -> (forall P, base = Some P -> on_grid h P) -> in_aperture_only h base ->
    (forall j i, (0 <= j < h_size h)%Z -> (0 <= i < h_size h)%Z -> used_pupil h base j (opposite_k (h_size h) i) = used_pupil h base j i) ->
    (0 <= y < h_size h)%Z -> (0 <= x < h_size h)%Z ->
    get (sumsq A) [z; y; opposite (h_size h) x] = get (sumsq A) [z; y; x].
Proof.
  intros h base A z y x Hph Hna Hs HA Hg Hsup HQ Hy Hx. assert (Hm : (0 <= opposite (h_size h) x < h_size h)%Z) by (apply Z.mod_pos_bound, (n_pos h Hph)).
  rewrite !(psfi_val h Hph base) by auto. apply Rsum_ext. intros c _. f_equal. unfold opposite.
  rewrite (mop_sign_x h Hph _ (RtoC (sgn_x (h_vec h) (Z.to_nat c)))) by (auto; intros j i Hj Hi; unfold pupf; now apply pup_mirror_x).
  rewrite Cnorm2_mult, Cnorm2_RtoC, sgn_x_sq. ring.
Qed.
Print Assumptions C84_mirror_x.

(** Transposing any pupil transposes the PSF, with the settings 'x' and 'y' exchanged and the others unchanged. *)
Theorem C84_exchange :
  forall (h : hpar) (base base' : option (array C)) (A A' : array C) (z y x : Z),
    let h' := with_vec h (exchanged (h_vec h)) in
    physical h -> gen_psf h base = Ok A -> gen_psf h' base' = Ok A' ->
    (forall P, base = Some P -> on_grid h P) -> (forall P, base' = Some P -> on_grid h P) ->
    (forall j i, (0 <= j < h_size h)%Z -> (0 <= i < h_size h)%Z -> used_pupil h' base' i j = used_pupil h base j i) ->
    (0 <= y < h_size h)%Z -> (0 <= x < h_size h)%Z ->
    get (sumsq A') [z; x; y] = get (sumsq A) [z; y; x].
Proof.
  intros h base base' A A' z y x h' Hph HA HA' Hg Hg' HQ Hy Hx. assert (Hph' : physical h') by exact Hph.
  rewrite (psfi_val h Hph base A z y x HA Hg Hy Hx), (psfi_val h' Hph' base' A' z x y HA' Hg' Hx Hy). change (h_vec h') with (exchanged (h_vec h)). rewrite Rsum_perm_c. change (h_size h') with (h_size h).
  apply Rsum_ext. intros c Hc%in_zseq_iff. f_equal. f_equal. apply mop_swap'. intros j i Hj Hi. unfold pupf. now apply pup_swap; auto.
Qed.
Print Assumptions C84_exchange.

(** The ideal pupil has all these symmetries. *)
Theorem C84_ideal :
  forall (h : hpar) (A A' : array C) (z y x : Z),
    physical h -> 0 < h_na h -> sampled h -> gen_psf h None = Ok A -> gen_psf (with_vec h (exchanged (h_vec h))) None = Ok A' ->
    (0 <= y < h_size h)%Z -> (0 <= x < h_size h)%Z ->
    get (sumsq A) [z; opposite (h_size h) y; x] = get (sumsq A) [z; y; x] /\
    get (sumsq A) [z; y; opposite (h_size h) x] = get (sumsq A) [z; y; x] /\
    get (sumsq A') [z; x; y] = get (sumsq A) [z; y; x].
Proof.
  intros h A A' z y x Hph Hna Hs HA HA' Hy Hx.
  assert (S : in_aperture_only h None).
  { intros j i Hj Hi Hu. cbn [used_pupil] in Hu. destruct (Rlt_dec _ _) as [H|H]; [exact H|]. now elim Hu. }
  split; [|split].
  - apply (C84_mirror_y h None); auto; [discriminate|]. intros j i Hj Hi. cbn [used_pupil]. change (opposite_k (h_size h) j) with (neg h j). now rewrite (k2_neg_y h Hph).
  - apply (C84_mirror_x h None); auto; [discriminate|]. intros j i Hj Hi. cbn [used_pupil]. change (opposite_k (h_size h) i) with (neg h i). now rewrite (k2_neg_x h Hph).
  - apply (C84_exchange h None None); auto; try discriminate. intros j i Hj Hi. cbn [used_pupil]. change (k2 (with_vec h (exchanged (h_vec h))) i j) with (k2 h i j). now rewrite (k2_swap h i j).
Qed.
Print Assumptions C84_ideal.

(** The same of the arrays read from objects: [o] and [o'] are reached by any histories, have the same attributes except that
    vec_corr is exchanged, and no pupil is in force. *)
Theorem C84_objects :
  forall (k k' : ctor) (o0 o0' : obj numeric) (hist hist' : list (op numeric)) (h : hpar),
    construct numeric Hanser k = Ok o0 -> construct numeric Hanser k' = Ok o0' ->
    let o := run numeric Hanser hist o0 in let o' := run numeric Hanser hist' o0' in
    in_force numeric Hanser hist o0 None = None -> in_force numeric Hanser hist' o0' None = None ->
    h_describes h o -> h_describes (with_vec h (exchanged (h_vec h))) o' -> physical h -> 0 < h_na h -> sampled h ->
    exists a a', fst (read numeric Hanser PSFi o) = Ok a /\ fst (read numeric Hanser PSFi o') = Ok a' /\
      forall z y x, (0 <= z < Z.of_nat (List.length (h_zrange h)))%Z -> (0 <= y < h_size h)%Z -> (0 <= x < h_size h)%Z ->
        get a [z; opposite (h_size h) y; x] = get a [z; y; x] /\ get a [z; y; opposite (h_size h) x] = get a [z; y; x] /\
        get a' [z; x; y] = get a [z; y; x].
Proof.
  intros k k' o0 o0' hist hist' h Hk Hk' o o' Hf Hf' Hd Hd' Hph Hna Hs.
  destruct (gen_psf_ok h Hph None) as [A HA]; [discriminate|]. assert (Hph' : physical (with_vec h (exchanged (h_vec h)))) by exact Hph.
  destruct (gen_psf_ok _ Hph' None) as [A' HA']; [discriminate|].
  assert (G : gen_psf (hpar_of (obj_params o)) (in_force numeric Hanser hist o0 None) = Ok A) by (rewrite Hf, (h_described _ _ Hd); exact HA).
  assert (G' : gen_psf (hpar_of (obj_params o')) (in_force numeric Hanser hist' o0' None) = Ok A') by (rewrite Hf', (h_described _ _ Hd'); exact HA').
  destruct (C73_hanser_objects k o0 hist A Hk G) as (_ & E & _). destruct (C73_hanser_objects k' o0' hist' A' Hk' G') as (_ & E' & _).
  eexists _, _. split; [exact E|]. split; [exact E'|]. intros z y x Hz Hy Hx.
  destruct (C84_ideal h A A' z y x Hph Hna Hs HA HA' Hy Hx) as (E1 & E2 & E3). cbn [amap get]. now rewrite E1, E2, E3.
Qed.
Print Assumptions C84_objects.

(** ** The hypotheses can be met *)
Example C84_case : physical (demo VecX CondSine) /\ 0 < h_na (demo VecX CondSine) /\ sampled (demo VecX CondSine) /\ exchanged (h_vec (demo VecX CondSine)) = VecY.
Proof. split; [apply demo_physical|]. split; [cbn; lra|]. split; [apply demo_sampled|reflexivity]. Qed.
Example C84_objects_case : exists h, h_describes h (run numeric Hanser (set_total numeric) (made_of numeric Hanser)) /\
  h_describes (with_vec h (exchanged (h_vec h))) (run numeric Hanser (set_total numeric) (made_of numeric Hanser)) /\
  physical h /\ 0 < h_na h /\ sampled h /\ in_force numeric Hanser (set_total numeric) (made_of numeric Hanser) None = None.
Proof.
  destruct C77_witness_hanser as (h & Hd & Hph & Hv & Hf & _). exists h. split; [exact Hd|].
  assert (E : with_vec h (exchanged (h_vec h)) = h) by (rewrite Hv; destruct h; cbn in *; now subst). split; [now rewrite E|]. split; [exact Hph|].
  destruct (total_attrs numeric Hanser) as (E1 & E2 & _ & E4 & _). destruct Hd as ((w1 & q1 & H1 & N1 & R1) & (w2 & q2 & H2 & N2 & R2) & _ & (w4 & q4 & H4 & N4 & R4) & _).
  rewrite E1 in H1. injection H1 as <-. rewrite E2 in H2. injection H2 as <-. rewrite E4 in H4. injection H4 as <-.
  cbn in N1, N2, N4. injection N1 as <-. injection N2 as <-. injection N4 as <-. unfold sampled. rewrite R1, R2, R4. unfold Q2R. cbn. split; [lra|]. split; [|exact Hf].
  apply (Rmult_lt_reg_r (2 * (6 * / 5) / (520 * / 1))); [lra|]. field_simplify; lra.
Qed.
