(** easy_fft and easy_ifft: explicit formula, inversion, energy, symmetry. *)
From Verif Require Import M_FFT S_FFT L_Array L_Sum L_FFT.
Local Open Scope Z_scope.
Local Notation "a *c b" := (Cmult a b) (at level 40, left associativity).
Local Notation "a +c b" := (Cplus a b) (at level 50, left associativity).

Lemma inb_in_pos sh ks n : inb sh ks -> In n sh -> 0 < n.
Proof. intros H. apply inb_pos in H. rewrite Forall_forall in H. apply H. Qed.

Lemma easy_fft_mop axes a ks : inb (shape a) ks ->
  get (easy_fft axes a) ks = mop (kcen (-1)) (axes_mask (length (shape a)) axes) (shape a) (get a) ks.
Proof.
  intros Hk. unfold easy_fft. set (m := axes_mask _ _). unfold fftshift, fftn, ifftshift. cbn [shape get].
  rewrite dft_mop. rewrite <- (mop_shift (-1) m (shape a) (fun js => mop (kdft (-1)) m (shape a) _ js)) by auto.
  transitivity (mop (kshift (-1)) m (shape a) (mop (kdft (-1)) m (shape a) (mop (kshift 1) m (shape a) (get a))) ks).
  - apply mop_ext; auto. intros js Hjs. apply mop_ext; auto. intros is His. symmetry. now apply mop_shift.
  - rewrite (mop_ext' (kshift (-1)) m (shape a) _ _ ks (mop_comp (kdft (-1)) (kshift 1) m (shape a) (get a))).
    rewrite mop_comp. apply mop_kernel; auto. intros n k j Hn _ Hj. apply kernel_easy_fft; auto. now apply (inb_in_pos (shape a) ks).
Qed.
Lemma easy_ifft_mop axes a ks : inb (shape a) ks ->
  get (easy_ifft axes a) ks =
  RtoC (/ IZR (masked_size (axes_mask (length (shape a)) axes) (shape a))) *c
    mop kicen (axes_mask (length (shape a)) axes) (shape a) (get a) ks.
Proof.
  intros Hk. unfold easy_ifft. set (m := axes_mask _ _). unfold fftshift, ifftn, ifftshift. cbn [shape get].
  rewrite dft_mop. f_equal. rewrite <- (mop_shift 1 m (shape a) (fun js => mop (kdft 1) m (shape a) _ js)) by auto.
  transitivity (mop (kshift 1) m (shape a) (mop (kdft 1) m (shape a) (mop (kshift (-1)) m (shape a) (get a))) ks).
  - apply mop_ext; auto. intros js Hjs. apply mop_ext; auto. intros is His. symmetry. now apply mop_shift.
  - rewrite (mop_ext' (kshift 1) m (shape a) _ _ ks (mop_comp (kdft 1) (kshift (-1)) m (shape a) (get a))).
    rewrite mop_comp. apply mop_kernel; auto. intros n k j Hn _ Hj. apply kernel_easy_ifft; auto. now apply (inb_in_pos (shape a) ks).
Qed.

(** explicit sum *)
Lemma mop_fourier mask : forall sh f ks, inb sh ks -> mop (kcen (-1)) mask sh f ks = fourier_sum mask sh f ks.
Proof.
  assert (Hcis : forall x, cis (- (2 * PI * (0 + x))) = cis (- (2 * PI * x))) by (intros; f_equal; ring).
  unfold fourier_sum. induction mask as [|b mask IH]; intros sh f ks Hk; cbn [mop box turns].
  - cbn [Csum]. rewrite Rmult_0_r, Ropp_0, cis_0. ring.
  - destruct sh as [|n sh]; [cbn [Csum]; rewrite Rmult_0_r, Ropp_0, cis_0; ring|].
    destruct (inb_cons_inv _ _ _ Hk) as (k & r & -> & Hn & Hr). rewrite Csum_flat_map. destruct b.
    + apply Csum_ext. intros j _. rewrite Csum_map, IH by auto. rewrite <- Csum_scal_l. apply Csum_ext. intros js _.
      rewrite Cmult_assoc. f_equal. unfold kcen, root. rewrite <- cis_add. f_equal.
      rewrite mult_IZR. unfold Rdiv. ring.
    + cbn [Csum]. rewrite Csum_map, Cplus_0_r, IH by auto. apply Csum_ext. intros js _. now rewrite Hcis.
Qed.

(** monomial kernels *)
Lemma mop_trip mask : forall sh f ks, inb sh ks ->
  mop (fun n k i => if Z.odd n then root n (- (k + n / 2)) *c delta ((k - 1) mod n) i else delta k i) mask sh f ks =
  cis (- (2 * PI * trip_turns mask sh ks)) *c f (trip_index mask sh ks).
Proof.
  induction mask as [|b mask IH]; intros sh f ks Hk; cbn [mop trip_turns trip_index].
  - rewrite Rmult_0_r, Ropp_0, cis_0. ring.
  - destruct sh as [|n sh]; [destruct ks; rewrite Rmult_0_r, Ropp_0, cis_0; ring|].
    destruct (inb_cons_inv _ _ _ Hk) as (k & r & -> & Hn & Hr).
    destruct b; cbn [andb].
    + destruct (Z.odd n).
      * rewrite (Csum_ext _ _ (fun j => root n (- (k + n / 2)) *c (delta ((k - 1) mod n) j *c mop _ mask sh (fun js => f (j :: js)) r)))
          by (intros; apply eq_sym, Cmult_assoc).
        rewrite Csum_scal_l, (Csum_delta n ((k - 1) mod n) (fun j => mop _ mask sh (fun js => f (j :: js)) r)) by (apply Z.mod_pos_bound; lia).
        rewrite (IH sh (fun js => f (_ :: js))) by auto. rewrite Cmult_assoc. f_equal.
        unfold root. rewrite <- cis_add. f_equal. rewrite opp_IZR. unfold Rdiv. ring.
      * rewrite (Csum_delta n k (fun j => mop _ mask sh (fun js => f (j :: js)) r)) by auto.
        rewrite (IH sh (fun js => f (k :: js))) by auto. f_equal. f_equal. ring.
    + rewrite (IH sh (fun js => f (k :: js))) by auto. f_equal. f_equal. ring.
Qed.
Lemma mop_kscaleN K mask : forall sh f ks, inb sh ks ->
  mop (fun n k j => RtoC (IZR n) *c K n k j) mask sh f ks = RtoC (IZR (masked_size mask sh)) *c mop K mask sh f ks.
Proof.
  induction mask as [|b mask IH]; intros sh f ks Hk; cbn [mop masked_size]; [ring|].
  destruct sh as [|n sh]; [ring|]. destruct (inb_cons_inv _ _ _ Hk) as (k & r & -> & Hn & Hr).
  rewrite mult_IZR, RtoC_mult. destruct b.
  - rewrite <- Csum_scal_l. apply Csum_ext. intros j _. rewrite IH by auto. ring.
  - rewrite IH by auto. ring.
Qed.
Lemma masked_size_pos mask : forall sh, Forall (fun n => 0 < n) sh -> 0 < masked_size mask sh.
Proof.
  induction mask as [|b mask IH]; intros sh H; cbn [masked_size]; [lia|]. destruct H as [|n sh Hn Hs]; [lia|].
  apply IH in Hs. destruct b; lia.
Qed.
Lemma masked_points mask : forall sh, masked_size mask sh = points mask sh.
Proof.
  induction mask as [|b mask IH]; intros sh; cbn [masked_size points]; auto. destruct sh as [|n sh]; [now destruct b|].
  rewrite IH. destruct b; lia.
Qed.

Lemma kround_val n k i : 0 < n -> 0 <= k < n -> 0 <= i < n ->
  root n (n / 2 * (k + i)) *c delta ((k + 2 * (n / 2)) mod n) i =
  if Z.odd n then root n (- (k + n / 2)) *c delta ((k - 1) mod n) i else delta k i.
Proof.
  intros Hn Hk Hi. pose proof (Zmod_odd n) as Ho. destruct (Z.odd n).
  - assert (E : (k + 2 * (n / 2)) mod n = (k - 1) mod n).
    { replace (k + 2 * (n / 2)) with (k - 1 + 1 * n) by lia. apply Z_mod_plus_full. }
    rewrite E. unfold delta. destruct (Z.eqb_spec ((k - 1) mod n) i) as [E'|E']; [|ring].
    f_equal. subst i. apply root_cong; auto.
    pose proof (mod_self_cong n (k - 1) Hn) as H. apply Z.mod_divide in H; [|lia]. destruct H as [q Hq].
    replace ((k - 1) mod n) with (k - 1 + q * n) by lia.
    set (h := n / 2) in *. replace n with (2 * h + 1) by lia.
    replace (h * (k + (k - 1 + q * (2 * h + 1))) - - (k + h)) with ((k + h * q) * (2 * h + 1)) by ring.
    apply Z_mod_mult.
  - assert (E : (k + 2 * (n / 2)) mod n = k).
    { replace (k + 2 * (n / 2)) with (k + 1 * n) by lia. rewrite Z_mod_plus_full. now apply Z.mod_small. }
    rewrite E. unfold delta. destruct (Z.eqb_spec k i) as [->|E']; [|ring].
    replace (n / 2 * (i + i)) with (0 + i * n) by lia. rewrite root_period, root_0 by auto. ring.
Qed.

Lemma round_trip axes a ks : inb (shape a) ks ->
  get (easy_ifft axes (easy_fft axes a)) ks =
  let m := axes_mask (length (shape a)) axes in
  cis (- (2 * PI * trip_turns m (shape a) ks)) *c get a (trip_index m (shape a) ks).
Proof.
  intros Hk. cbn zeta. rewrite easy_ifft_mop by auto. cbn [shape easy_fft fftshift fftn ifftshift].
  set (m := axes_mask _ _). set (sh := shape a) in *.
  rewrite (mop_ext kicen m sh _ (mop (kcen (-1)) m sh (get a)) ks Hk).
  2:{ intros js Hjs. exact (easy_fft_mop axes a js Hjs). }
  rewrite mop_comp.
  rewrite (mop_kernel _ (fun n k i => RtoC (IZR n) *c (if Z.odd n then root n (- (k + n / 2)) *c delta ((k - 1) mod n) i else delta k i)) m sh).
  - rewrite mop_kscaleN, mop_trip by auto. rewrite Cmult_assoc, <- RtoC_mult, Rinv_l, Cmult_1_l; auto.
    apply not_0_IZR. pose proof (masked_size_pos m sh (inb_pos _ _ Hk)). lia.
  - auto.
  - intros n k i Hn H1 H2. assert (0 < n) by (apply (inb_in_pos sh ks); auto).
    rewrite kernel_round by auto. f_equal. now apply kround_val.
Qed.

(** energy *)
Lemma mop_inner K mask : forall sh f g, Forall (fun n => 0 < n) sh ->
  (forall n i j, 0 < n -> 0 <= i < n -> 0 <= j < n ->
     Csum (zseq n) (fun k => K n k i *c Cconj (K n k j)) = RtoC (IZR n) *c delta i j) ->
  Csum (all_ix sh) (fun ks => mop K mask sh f ks *c Cconj (mop K mask sh g ks)) =
  RtoC (IZR (masked_size mask sh)) *c Csum (all_ix sh) (fun ks => f ks *c Cconj (g ks)).
Proof.
  intros sh f g Hs HK. revert sh Hs f g. induction mask as [|b mask IH]; intros sh Hs f g; cbn [mop masked_size]; [ring|].
  destruct Hs as [|n sh Hn Hs]; [ring|]. rewrite !Csum_all_ix_cons, mult_IZR, RtoC_mult. destruct b.
  - rewrite (Csum_ext (zseq n) _ (fun k => Csum (zseq n) (fun i => Csum (zseq n) (fun j =>
       (K n k i *c Cconj (K n k j)) *c Csum (all_ix sh) (fun r => mop K mask sh (fun is => f (i :: is)) r *c Cconj (mop K mask sh (fun is => g (j :: is)) r)))))).
    2:{ intros k _. transitivity (Csum (all_ix sh) (fun r => Csum (zseq n) (fun i => Csum (zseq n) (fun j =>
          (K n k i *c Cconj (K n k j)) *c (mop K mask sh (fun is => f (i :: is)) r *c Cconj (mop K mask sh (fun is => g (j :: is)) r)))))).
        - apply Csum_ext. intros r _. rewrite Csum_conj, Csum_prod. apply Csum_ext. intros i _. apply Csum_ext. intros j _.
          rewrite Cconj_mult. ring.
        - rewrite Csum_swap. apply Csum_ext. intros i _. rewrite Csum_swap. apply Csum_ext. intros j _. apply Csum_scal_l. }
    rewrite Csum_swap. rewrite <- Csum_scal_l. apply Csum_ext. intros i Hi. apply in_zseq in Hi.
    rewrite Csum_swap.
    rewrite (Csum_ext (zseq n) _ (fun j => delta i j *c (RtoC (IZR n) *c Csum (all_ix sh) (fun r => mop K mask sh (fun is => f (i :: is)) r *c Cconj (mop K mask sh (fun is => g (j :: is)) r))))).
    2:{ intros j Hj. apply in_zseq in Hj. rewrite Csum_scal_r, HK by auto. ring. }
    rewrite (Csum_delta n i (fun j => RtoC (IZR n) *c Csum (all_ix sh) (fun r => mop K mask sh (fun is => f (i :: is)) r *c Cconj (mop K mask sh (fun is => g (j :: is)) r)))) by auto.
    rewrite (IH sh Hs (fun is => f (i :: is)) (fun is => g (i :: is))). ring.
  - rewrite <- Csum_scal_l. apply Csum_ext. intros k _.
    rewrite (IH sh Hs (fun is => f (k :: is)) (fun is => g (k :: is))). ring.
Qed.
Lemma mop_energy K mask sh f : Forall (fun n => 0 < n) sh ->
  (forall n i j, 0 < n -> 0 <= i < n -> 0 <= j < n ->
     Csum (zseq n) (fun k => K n k i *c Cconj (K n k j)) = RtoC (IZR n) *c delta i j) ->
  Rsum (all_ix sh) (fun ks => Cnorm2 (mop K mask sh f ks)) =
  (IZR (masked_size mask sh) * Rsum (all_ix sh) (fun ks => Cnorm2 (f ks)))%R.
Proof.
  intros Hs HK. apply RtoC_inj. rewrite RtoC_mult, !Csum_RtoC.
  rewrite (Csum_ext _ _ (fun ks => mop K mask sh f ks *c Cconj (mop K mask sh f ks))) by (intros; apply Cnorm2_conj).
  rewrite mop_inner by auto. f_equal. apply Csum_ext. intros ks _. symmetry. apply Cnorm2_conj.
Qed.
Lemma kcen_unitary s n i j : (s = 1 \/ s = -1) -> 0 < n -> 0 <= i < n -> 0 <= j < n ->
  Csum (zseq n) (fun k => kcen s n k i *c Cconj (kcen s n k j)) = RtoC (IZR n) *c delta i j.
Proof.
  intros Hs Hn Hi Hj.
  rewrite (Csum_ext _ _ (fun k => root n (- (s * (n / 2) * (i - j))) *c root n (k * (s * i - s * j)))).
  - rewrite Csum_scal_l, root_sum by auto. unfold delta.
    destruct (Z.eqb_spec ((s * i - s * j) mod n) 0) as [E|E]; destruct (Z.eqb_spec i j) as [E'|E']; try ring.
    + subst. rewrite Z.sub_diag, Z.mul_0_r, Z.opp_0, root_0. ring.
    + exfalso. apply E'. destruct Hs as [->| ->].
      * apply (mod_inj n); auto. now replace (i - j) with (1 * i - 1 * j) by lia.
      * symmetry. apply (mod_inj n); auto. now replace (j - i) with (-1 * i - -1 * j) by lia.
    + subst. rewrite Z.sub_diag, Zmod_0_l in E. lia.
  - intros k _. unfold kcen. rewrite root_conj, <- !root_add. f_equal. ring.
Qed.
Lemma kdft_unitary s n i j : (s = 1 \/ s = -1) -> 0 < n -> 0 <= i < n -> 0 <= j < n ->
  Csum (zseq n) (fun k => kdft s n k i *c Cconj (kdft s n k j)) = RtoC (IZR n) *c delta i j.
Proof.
  intros Hs Hn Hi Hj.
  rewrite (Csum_ext _ _ (fun k => root n (k * (s * i - s * j)))).
  - rewrite root_sum by auto. unfold delta.
    destruct (Z.eqb_spec ((s * i - s * j) mod n) 0) as [E|E]; destruct (Z.eqb_spec i j) as [E'|E']; try ring.
    + exfalso. apply E'. destruct Hs as [->| ->].
      * apply (mod_inj n); auto. now replace (i - j) with (1 * i - 1 * j) by lia.
      * symmetry. apply (mod_inj n); auto. now replace (j - i) with (-1 * i - -1 * j) by lia.
    + subst. rewrite Z.sub_diag, Zmod_0_l in E. lia.
  - intros k _. unfold kdft. rewrite root_conj, <- !root_add. f_equal. ring.
Qed.

(** conjugation *)
Lemma mop_conj K K' (rho : list Z -> list Z) mask : forall sh f ks,
  (forall n k j, Cconj (K n k j) = K' n k j) ->
  Cconj (mop K mask sh f ks) = mop K' mask sh (fun js => Cconj (f js)) ks.
Proof.
  induction mask as [|b mask IH]; intros sh f ks H; cbn [mop]; auto.
  destruct sh as [|n sh]; auto. destruct ks as [|k ks]; auto. destruct b; [|now apply IH].
  rewrite Csum_conj. apply Csum_ext. intros j _. rewrite Cconj_mult, H. f_equal. now apply IH.
Qed.
Lemma mop_mirror mask : forall sh f ks, inb sh ks ->
  mop (kcen (-1)) mask sh f (mirror mask sh ks) = mop (kcen 1) mask sh f ks.
Proof.
  induction mask as [|b mask IH]; intros sh f ks Hk; cbn [mop mirror]; auto.
  destruct sh as [|n sh]; [destruct ks; auto|]. destruct (inb_cons_inv _ _ _ Hk) as (k & r & -> & Hn & Hr).
  cbn [mop]. destruct b; [|now apply (IH sh (fun js => f (k :: js)))].
  apply Csum_ext. intros j _. rewrite (IH sh (fun js => f (j :: js))) by auto. f_equal.
  unfold kcen. apply root_cong; [lia|].
  pose proof (mod_self_cong n (2 * (n / 2) - k) ltac:(lia)) as H. apply Z.mod_divide in H; [|lia]. destruct H as [q Hq].
  replace ((2 * (n / 2) - k) mod n) with (2 * (n / 2) - k + q * n) by lia.
  replace (-1 * ((j - n / 2) * (2 * (n / 2) - k + q * n - n / 2)) - 1 * ((j - n / 2) * (k - n / 2)))
    with ((- (j - n / 2) * q) * n) by ring. apply Z_mod_mult.
Qed.
Lemma mop_bound K mask : forall sh f ks, (forall n k j, Cmod (K n k j) <= 1)%R ->
  (Cmod (mop K mask sh f ks) <= Rsum (box mask sh ks) (fun js => Cmod (f js)))%R.
Proof.
  induction mask as [|b mask IH]; intros sh f ks HK; cbn [mop box]; [cbn; lra|].
  destruct sh as [|n sh]; [cbn; lra|]. destruct ks as [|k ks]; [cbn; lra|]. rewrite Rsum_flat_map. destruct b.
  - eapply Rle_trans; [apply Csum_Cmod|]. apply Rsum_le. intros j _. rewrite Rsum_map, Cmod_mult.
    specialize (IH sh (fun js => f (j :: js)) ks HK). specialize (HK n k j).
    pose proof (Cmod_ge_0 (K n k j)). pose proof (Cmod_ge_0 (mop K mask sh (fun js => f (j :: js)) ks)). nra.
  - cbn [Rsum]. rewrite Rsum_map, Rplus_0_r. now apply IH.
Qed.
Lemma mop_centre mask : forall sh f ks, inb sh ks ->
  mop (kcen (-1)) mask sh f (at_centre mask sh ks) = Csum (box mask sh ks) f.
Proof.
  induction mask as [|b mask IH]; intros sh f ks Hk; cbn [mop at_centre box]; [cbn; ring|].
  destruct sh as [|n sh]; [destruct ks; cbn; ring|]. destruct (inb_cons_inv _ _ _ Hk) as (k & r & -> & Hn & Hr).
  cbn [mop]. rewrite Csum_flat_map. destruct b.
  - apply Csum_ext. intros j _. rewrite (IH sh (fun js => f (j :: js))) by auto. rewrite Csum_map.
    unfold kcen. replace (-1 * ((j - n / 2) * (n / 2 - n / 2))) with 0 by ring. rewrite root_0. ring.
  - rewrite (IH sh (fun js => f (k :: js))) by auto. cbn [Csum]. rewrite Csum_map. ring.
Qed.
Lemma box_mirror mask : forall sh ks, inb sh ks -> box mask sh (at_centre mask sh ks) = box mask sh ks.
Proof.
  induction mask as [|b mask IH]; intros sh ks Hk; cbn [at_centre box]; auto.
  destruct sh as [|n sh]; [destruct ks; auto|]. destruct (inb_cons_inv _ _ _ Hk) as (k & r & -> & Hn & Hr).
  cbn [box]. rewrite IH by auto. now destruct b.
Qed.
Lemma inb_mirror mask : forall sh ks, inb sh ks -> inb sh (mirror mask sh ks).
Proof.
  induction mask as [|b mask IH]; intros sh ks Hk; cbn [mirror]; auto.
  destruct sh as [|n sh]; [destruct ks; auto|]. destruct (inb_cons_inv _ _ _ Hk) as (k & r & -> & Hn & Hr).
  apply inb_cons. split; [|now apply IH]. destruct b; auto. apply Z.mod_pos_bound; lia.
Qed.
Lemma inb_at_centre mask : forall sh ks, inb sh ks -> inb sh (at_centre mask sh ks).
Proof.
  induction mask as [|b mask IH]; intros sh ks Hk; cbn [at_centre]; auto.
  destruct sh as [|n sh]; [destruct ks; auto|]. destruct (inb_cons_inv _ _ _ Hk) as (k & r & -> & Hn & Hr).
  apply inb_cons. split; [|now apply IH]. destruct b; lia.
Qed.
Lemma box_all sh : forall ks, inb sh ks -> box (repeat true (length sh)) sh ks = all_ix sh.
Proof.
  induction sh as [|n sh IH]; intros ks Hk; cbn [length repeat box all_ix].
  - now rewrite (inb_nil _ Hk).
  - destruct (inb_cons_inv _ _ _ Hk) as (k & r & -> & Hn & Hr). now rewrite IH.
Qed.
