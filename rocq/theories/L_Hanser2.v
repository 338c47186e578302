From Verif Require Import M_Hanser S_Hanser L_Array L_Sum L_FFT L_FFT2 L_Polar L_Hanser.
Local Open Scope R_scope.

Lemma inb2 n m y x : (0 <= y < n)%Z -> (0 <= x < m)%Z -> inb [n; m] [y; x].
Proof. intros. repeat constructor; lia. Qed.
Lemma inb2_inv n m ix : inb [n; m] ix -> exists y x, ix = [y; x] /\ (0 <= y < n)%Z /\ (0 <= x < m)%Z.
Proof.
  intros H. destruct (inb_cons_inv _ _ _ H) as (y & r & -> & Hy & Hr). destruct (inb_cons_inv _ _ _ Hr) as (x & r' & -> & Hx & H').
  rewrite (inb_nil _ H'). eauto.
Qed.
Lemma in_zseq_iff n i : In i (zseq n) <-> (0 <= i < n)%Z.
Proof. unfold zseq. rewrite in_map_iff. split; [intros (k & <- & H%in_seq); lia|]. intros H. exists (Z.to_nat i). split; [lia|]. apply in_seq. lia. Qed.
Lemma plane_all n (F : list Z -> R) : plane_sum n (fun y x => F [y; x]) = Rsum (all_ix [n; n]) F.
Proof.
  unfold plane_sum. rewrite Rsum_all_ix_cons. apply Rsum_ext. intros y _. rewrite Rsum_all_ix_cons. apply Rsum_ext. intros x _. cbn. ring.
Qed.
Lemma plane_ext n F G : (forall y x, (0 <= y < n)%Z -> (0 <= x < n)%Z -> F y x = G y x) -> plane_sum n F = plane_sum n G.
Proof. intros H. apply Rsum_ext. intros y Hy%in_zseq_iff. apply Rsum_ext. intros x Hx%in_zseq_iff. auto. Qed.
Lemma plane_scal n c F : plane_sum n (fun y x => c * F y x) = c * plane_sum n F.
Proof. unfold plane_sum. rewrite <- Rsum_scal_l. apply Rsum_ext. intros y _. now rewrite Rsum_scal_l. Qed.
Lemma plane_swap {X} n (l : list X) F : plane_sum n (fun y x => Rsum l (fun c => F c y x)) = Rsum l (fun c => plane_sum n (F c)).
Proof.
  unfold plane_sum. transitivity (Rsum (zseq n) (fun y => Rsum l (fun c => Rsum (zseq n) (F c y)))); [|apply Rsum_swap].
  apply Rsum_ext. intros y _. apply Rsum_swap.
Qed.
Lemma plane_le n F G : (forall y x, (0 <= y < n)%Z -> (0 <= x < n)%Z -> F y x <= G y x) -> plane_sum n F <= plane_sum n G.
Proof. intros H. apply Rsum_le. intros y Hy%in_zseq_iff. apply Rsum_le. intros x Hx%in_zseq_iff. auto. Qed.

Section H.
Context (h : hpar) (Hph : physical h).
Let n := h_size h.
Lemma n_pos : (0 < n)%Z.
Proof. apply Hph. Qed.
Lemma n2_pos : 0 < IZR (n * n).
Proof. pose proof n_pos. apply IZR_lt. lia. Qed.

Definition pupf Q c z : list Z -> C := fun ix => match ix with [j; i] => pup h Q c z j i | _ => RtoC 0 end.
Lemma Cnorm2_pup Q c z y x : (0 <= y < n)%Z -> (0 <= x < n)%Z ->
  Cnorm2 (pup h Q c z y x) = Cnorm2 (Q y x) * cond_weight h y x *
    (let q := nth (Z.to_nat c) (plist (h_vec h) (h_theta h y x) (h_phi h y x)) 0 in q * q).
Proof.
  intros Hy Hx. unfold pup, defocus. rewrite !Cnorm2_mult, Cnorm2_cis, !Cnorm2_RtoC, (apod2 h Hph) by auto. cbn zeta. ring.
Qed.

(** values of PSFi *)
Lemma psfi_val base A z y x : gen_psf h base = Ok A -> (forall P, base = Some P -> on_grid h P) -> (0 <= y < n)%Z -> (0 <= x < n)%Z ->
  get (sumsq A) [z; y; x] =
  Rsum (zseq (components (h_vec h))) (fun c =>
    (/ IZR (n * n)) * (/ IZR (n * n)) * Cnorm2 (mop kpsf [true; true] [n; n] (pupf (used_pupil h base) c z) [y; x])).
Proof.
  intros HA Hg Hy Hx. destruct (gen_psf_val h Hph _ _ HA Hg) as [Hs Hv]. unfold sumsq. cbn [get]. rewrite Hs. cbn [hd].
  apply Rsum_ext. intros c _. rewrite Hv by auto. rewrite Cnorm2_mult, Cnorm2_RtoC. reflexivity.
Qed.

Lemma plane_energy base A z : gen_psf h base = Ok A -> (forall P, base = Some P -> on_grid h P) ->
  plane_sum n (fun y x => get (sumsq A) [z; y; x]) =
  / IZR (n * n) * plane_sum n (fun y x => Cnorm2 (used_pupil h base y x) * cond_weight h y x * pol_weight h (h_vec h) y x).
Proof.
  intros HA Hg. pose proof n2_pos as Hn.
  rewrite (plane_ext n _ _ (fun y x Hy Hx => psfi_val base A z y x HA Hg Hy Hx)).
  rewrite plane_swap.
  rewrite (Rsum_ext _ _ (fun c => / IZR (n * n) * plane_sum n (fun y x => Cnorm2 (pup h (used_pupil h base) c z y x)))).
  - rewrite Rsum_scal_l, <- plane_swap. f_equal. apply plane_ext. intros y x Hy Hx.
    rewrite <- (pol_sum h Hph) by auto. rewrite <- Rsum_scal_l. apply Rsum_ext. intros c _. now rewrite Cnorm2_pup.
  - intros c _. rewrite plane_scal.
    rewrite (plane_all n (fun ix => Cnorm2 (mop kpsf [true; true] [n; n] (pupf (used_pupil h base) c z) ix))).
    rewrite (mop_energy kpsf).
    + rewrite <- plane_all. cbn [pupf masked_size]. rewrite Z.mul_1_r. rewrite <- Rmult_assoc. f_equal. field. lra.
    + repeat constructor; apply n_pos.
    + intros. now apply kpsf_unitary.
Qed.

(** bounds *)
Lemma psfa_bound Q c z y x : (0 <= y < n)%Z -> (0 <= x < n)%Z ->
  Cmod (mop kpsf [true; true] [n; n] (pupf Q c z) [y; x]) <= plane_sum n (fun j i => Cmod (pup h Q c z j i)).
Proof.
  intros Hy Hx. eapply Rle_trans; [apply mop_bound|].
  - intros. unfold kpsf. rewrite root_mod1. lra.
  - change [true; true] with (repeat true (length [n; n])). rewrite box_all by now apply inb2.
    rewrite <- (plane_all n (fun ix => Cmod (pupf Q c z ix))). apply Rle_refl.
Qed.
Lemma mop_kpsf_centre f : mop kpsf [true; true] [n; n] f [n / 2; n / 2]%Z = Csum (all_ix [n; n]) f.
Proof.
  rewrite Csum_all_ix_cons. cbn [mop]. apply Csum_ext. intros j _. unfold kpsf. rewrite Z.sub_diag, !Z.mul_0_r, root_0, Cmult_1_l.
  rewrite Csum_all_ix_cons. apply Csum_ext. intros i _. rewrite Z.mul_0_r, root_0. cbn. ring.
Qed.

(** mirror *)
Definition neg (i : Z) : Z := ((0 - i) mod n)%Z.
Lemma neg_in i : (0 <= neg i < n)%Z.
Proof. apply Z.mod_pos_bound. apply n_pos. Qed.
Lemma root_neg_l i k : root n (neg i * k) = root n (- (i * k)).
Proof.
  apply root_cong; [apply n_pos|]. replace (- (i * k))%Z with ((0 - i) * k)%Z by ring.
  apply mulmod_cong; [apply n_pos|apply mod_self_cong, n_pos|]. now rewrite Z.sub_diag, Zmod_0_l.
Qed.
Lemma kpsf_neg y j : Cconj (kpsf n y (neg j)) = kpsf n y j.
Proof. unfold kpsf. rewrite root_neg_l, root_conj. f_equal. ring. Qed.
Lemma mop_conj_neg f f' s y x :
  (forall j i, (0 <= j < n)%Z -> (0 <= i < n)%Z -> f' [j; i] = Cmult s (Cconj (f [neg j; neg i]))) ->
  mop kpsf [true; true] [n; n] f' [y; x] = Cmult s (Cconj (mop kpsf [true; true] [n; n] f [y; x])).
Proof.
  intros H. cbn [mop].
  rewrite <- (Csum_reflect n 0 (fun j => Cmult (kpsf n y j) (Csum (zseq n) (fun i => Cmult (kpsf n x i) (f [j; i]))))). rewrite Csum_conj, <- Csum_scal_l.
  apply Csum_ext. intros j Hj%in_zseq_iff. fold (neg j). rewrite Cconj_mult, kpsf_neg.
  rewrite <- (Csum_reflect n 0 (fun i => Cmult (kpsf n x i) (f [neg j; i]))). rewrite Csum_conj.
  transitivity (Cmult (kpsf n y j) (Cmult s (Csum (zseq n) (fun i => Cconj (Cmult (kpsf n x (neg i)) (f [neg j; neg i])))))); [|unfold neg; ring].
  f_equal. rewrite <- Csum_scal_l. apply Csum_ext. intros i Hi%in_zseq_iff.
  rewrite Cconj_mult, kpsf_neg, H by auto. ring.
Qed.

(** frequencies under index negation *)
Definition six (i : Z) : Z := ((i + n / 2) mod n - n / 2)%Z.
Lemma six_range i : (- (n / 2) <= six i < n - n / 2)%Z.
Proof. unfold six. pose proof (Z.mod_pos_bound (i + n / 2) n n_pos). lia. Qed.
Lemma six_cong i : ((six i - i) mod n = 0)%Z.
Proof.
  unfold six. replace ((i + n / 2) mod n - n / 2 - i)%Z with ((i + n / 2) mod n - (i + n / 2))%Z by ring. apply mod_self_cong, n_pos.
Qed.
Lemma six_unique i s : (- (n / 2) <= s < n - n / 2)%Z -> ((s - i) mod n = 0)%Z -> s = six i.
Proof.
  intros Hs Hc. pose proof (six_range i) as Hr. pose proof (six_cong i) as Hc'.
  assert (E : (s + n / 2 = six i + n / 2)%Z); [|lia].
  apply (mod_inj n); try lia. apply Z.mod_divide in Hc, Hc'; try (pose proof n_pos; lia).
  destruct Hc as [p Hp], Hc' as [q Hq]. replace (s + n / 2 - (six i + n / 2))%Z with ((p - q) * n)%Z by lia. apply Z_mod_mult.
Qed.
Lemma six_neg i : (six (neg i) = - six i \/ six (neg i) = six i /\ 2 * six i = - n)%Z.
Proof.
  pose proof n_pos as Hn. pose proof (six_range i) as Hr. pose proof (six_cong i) as Hc.
  assert (Hc2 : ((- six i - neg i) mod n = 0)%Z).
  { unfold neg. pose proof (mod_self_cong n (0 - i) Hn) as Hm. apply Z.mod_divide in Hc, Hm; try lia. destruct Hc as [p Hp], Hm as [q Hq].
    replace (- six i - (0 - i) mod n)%Z with ((- p - q) * n)%Z by lia. apply Z_mod_mult. }
  pose proof (Z.div_mod n 2 ltac:(lia)) as Hd. pose proof (Z.mod_pos_bound n 2 ltac:(lia)) as Hb.
  destruct (Z.eq_dec (2 * six i) (- n)) as [E|E].
  - right. split; auto. symmetry. apply six_unique; [lia|].
    apply Z.mod_divide in Hc2; try lia. destruct Hc2 as [p Hp]. replace (six i - neg i)%Z with ((p - 1) * n)%Z by lia. apply Z_mod_mult.
  - left. symmetry. apply six_unique; [lia|auto].
Qed.
Lemma sfreq_six i : sfreq n (h_res h) i = IZR (six i) / (IZR n * h_res h).
Proof. reflexivity. Qed.
Lemma sfreq_neg2 i : sfreq n (h_res h) (neg i) * sfreq n (h_res h) (neg i) = sfreq n (h_res h) i * sfreq n (h_res h) i.
Proof.
  rewrite !sfreq_six. destruct (six_neg i) as [->|[-> _]]; auto. rewrite opp_IZR. unfold Rdiv. ring.
Qed.
Lemma k2_neg_y y x : k2 h (neg y) x = k2 h y x.
Proof. unfold k2. fold n. now rewrite sfreq_neg2. Qed.
Lemma k2_neg_x y x : k2 h y (neg x) = k2 h y x.
Proof. unfold k2. fold n. now rewrite (sfreq_neg2 x). Qed.
Lemma k2_swap y x : k2 h y x = k2 h x y.
Proof. unfold k2. ring. Qed.

(** quantities that depend on the pixel through |k| only *)
Lemma kr_sqrt y x : (0 <= y < n)%Z -> (0 <= x < n)%Z -> h_kr h y x = sqrt (k2 h y x).
Proof. intros Hy Hx. rewrite <- (kr2 h Hph) by auto. rewrite sqrt_square; auto. apply kr_ge_0. Qed.
Lemma radial y x y' x' : (0 <= y < n)%Z -> (0 <= x < n)%Z -> (0 <= y' < n)%Z -> (0 <= x' < n)%Z -> k2 h y x = k2 h y' x' ->
  h_kr h y x = h_kr h y' x' /\ h_kz h y x = h_kz h y' x' /\ h_theta h y x = h_theta h y' x' /\ apod h y x = apod h y' x'.
Proof.
  intros Hy Hx Hy' Hx' E. assert (Ek : h_kr h y x = h_kr h y' x') by (rewrite !kr_sqrt by auto; now rewrite E).
  assert (Et : h_theta h y x = h_theta h y' x') by (unfold h_theta; now rewrite Ek).
  repeat split; auto.
  - unfold h_kz. now rewrite Ek.
  - unfold apod. now rewrite Et.
Qed.
End H.
