From Verif Require Import M_Sheppard S_Sheppard L_Array L_Sum L_FFT L_FFT2 L_Polar L_Hanser L_Hanser2 L_Sheppard.
Local Open Scope R_scope.

Lemma inb4_inv a b c d ix : inb [a; b; c; d] ix -> exists i j k l, ix = [i; j; k; l] /\ (0 <= i < a)%Z /\ (0 <= j < b)%Z /\ (0 <= k < c)%Z /\ (0 <= l < d)%Z.
Proof.
  intros H. destruct (inb_cons_inv _ _ _ H) as (i & r & -> & Hi & Hr). destruct (inb_cons_inv _ _ _ Hr) as (j & r' & -> & Hj & Hr').
  destruct (inb2_inv _ _ _ Hr') as (k & l & -> & Hk & Hl). now exists i, j, k, l.
Qed.
Lemma inb3_inv b c d ix : inb [b; c; d] ix -> exists j k l, ix = [j; k; l] /\ (0 <= j < b)%Z /\ (0 <= k < c)%Z /\ (0 <= l < d)%Z.
Proof.
  intros H. destruct (inb_cons_inv _ _ _ H) as (j & r' & -> & Hj & Hr').
  destruct (inb2_inv _ _ _ Hr') as (k & l & -> & Hk & Hl). now exists j, k, l.
Qed.

Section P.
Context (p : spar) (Hp : s_physical p).
Let n := s_size p.
Let nz := s_zsize p.
Definition un (m k : Z) : Z := ((k + -1 * (m / 2)) mod m)%Z.
Lemma un_in m k : (0 < m)%Z -> (0 <= un m k < m)%Z.
Proof. intros H. unfold un. now apply Z.mod_pos_bound. Qed.
Lemma un_inv m z : (0 < m)%Z -> (0 <= z < m)%Z -> exists k, (0 <= k < m)%Z /\ un m k = z.
Proof.
  intros Hm Hz. exists ((z + m / 2) mod m)%Z. split; [now apply Z.mod_pos_bound|]. unfold un. rewrite Zplus_mod_idemp_l.
  replace (z + m / 2 + -1 * (m / 2))%Z with z by ring. now apply Z.mod_small.
Qed.
Lemma ncomp_val : s_ncomp p = components (s_vec p).
Proof. unfold s_ncomp. now destruct (s_vec p). Qed.

Lemma otf_get c kz ky kx : get (fftshift axes123 (s_otf p)) [c; kz; ky; kx] =
  if s_valid p (un nz kz) (un n ky) (un n kx) then ocplx (s_value p c (un nz kz) (un n ky) (un n kx)) else Some (RtoC 0).
Proof. reflexivity. Qed.
Lemma otf_shape : shape (fftshift axes123 (s_otf p)) = [components (s_vec p); nz; n; n].
Proof. unfold fftshift, s_otf. cbn [shape]. now rewrite ncomp_val. Qed.

Lemma sizes_pos : (0 < n)%Z /\ (0 < nz)%Z.
Proof. destruct Hp as (_ & _ & _ & _ & _ & H1 & H2). unfold n, nz. lia. Qed.
Lemma kr_un kz ky kx : (0 <= kz < nz)%Z -> (0 <= ky < n)%Z -> (0 <= kx < n)%Z -> s_kr p (un nz kz) (un n ky) (un n kx) = kabs p kz ky kx.
Proof. intros. unfold s_kr, kabs, un. now rewrite (skz_shift p Hp), !(sk_shift p Hp). Qed.
Lemma kzz_un kz : (0 <= kz < nz)%Z -> s_kzz p (un nz kz) = height p kz.
Proof. intros. unfold s_kzz, height, un. now rewrite (skz_shift p Hp). Qed.

Lemma support c kz ky kx : (0 <= kz < nz)%Z -> (0 <= ky < n)%Z -> (0 <= kx < n)%Z ->
  get (fftshift axes123 (s_otf p)) [c; kz; ky; kx] <> Some (RtoC 0) ->
  Rabs (kabs p kz ky kx - s_ni p / s_wl p) < Rmax (pl p) (pz p) /\ cone p < height p kz.
Proof.
  intros Hz Hy Hx H. rewrite otf_get in H. destruct (s_valid p _ _ _) eqn:Ev; [|congruence]. 
  destruct (valid_kz p _ _ _ Ev) as (Hd & _). apply valid_iff in Ev. destruct Ev as [E1 E2].
  rewrite kr_un in E1 by auto. rewrite kzz_un in E2 by auto. pose proof (dkr_upper p Hp (un nz kz) (un n ky) (un n kx)).
  unfold s_kmag in E1. change (s_kz_min p) with (cone p) in E2. split; lra.
Qed.
Lemma inside c kz ky kx : s_vec p = VecNone -> (2 < n)%Z -> (2 < nz)%Z -> (0 <= kz < nz)%Z -> (0 <= ky < n)%Z -> (0 <= kx < n)%Z ->
  Rabs (kabs p kz ky kx - s_ni p / s_wl p) < Rmin (pl p) (pz p) -> cone p + Rmax (pl p) (pz p) < height p kz ->
  get (fftshift axes123 (s_otf p)) [c; kz; ky; kx] = Some (RtoC 1).
Proof.
  intros Hv Hn2 Hnz2 Hz Hy Hx H1 H2. rewrite otf_get. pose proof (dkr_upper p Hp (un nz kz) (un n ky) (un n kx)) as Hu.
  pose proof (sqrt_pos ((s_ni p / s_wl p) ^ 2 - (s_na p / s_wl p) ^ 2)) as Hc0. fold (cone p) in Hc0.
  pose proof (pl_pos p Hp). pose proof (Rmax_l (pl p) (pz p)).
  assert (Hnz : skz p (un nz kz) <> 0). { intros E. rewrite <- kzz_un in H2 by auto. unfold s_kzz in H2. rewrite E in H2. destruct (s_dual p); rewrite ?Rabs_R0 in H2; lra. }
  assert (Hk : 0 < s_kr p (un nz kz) (un n ky) (un n kx)).
  { unfold s_kr. apply sqrt_lt_R0. pose proof (pow2_ge_0 (sk p (un n ky))). pose proof (pow2_ge_0 (sk p (un n kx))). assert (0 < skz p (un nz kz) ^ 2) by nra. lra. }
  assert (Hn0 : ((un nz kz =? 0) && (un n ky =? 0) && (un n kx =? 0))%Z = false).
  { destruct (Z.eqb_spec (un nz kz) 0) as [E|]; auto. exfalso. apply Hnz. rewrite E. destruct Hp as (_ & _ & _ & _ & _ & _ & H2z). apply fftfreq_0. auto. }
  pose proof (dkr_lower p Hp _ _ _ Hn2 Hnz2 Hn0 Hk) as Hl.
  assert (Ev : s_valid p (un nz kz) (un n ky) (un n kx) = true).
  { apply valid_iff. rewrite kr_un, kzz_un by auto. unfold s_kmag. change (s_kz_min p) with (cone p). split; lra. }
  rewrite Ev. unfold s_value. now rewrite Hv.
Qed.

(** finiteness of single elements *)
Lemma elem_none c kz ky kx : (0 <= c < components (s_vec p))%Z -> (0 <= kz < nz)%Z -> (0 <= ky < n)%Z -> (0 <= kx < n)%Z ->
  (get (fftshift axes123 (s_otf p)) [c; kz; ky; kx] = None <->
   s_valid p (un nz kz) (un n ky) (un n kx) = true /\ s_vec p <> VecNone /\ sfz p kz < 0 /\
   (s_cond p = CondSine \/ divides (s_vec p) c = true /\ sfl p ky = 0 /\ sfl p kx = 0)).
Proof.
  intros Hc Hz Hy Hx. rewrite otf_get. destruct (s_valid p _ _ _) eqn:Ev.
  - pose proof (value_none p c _ _ _ Ev Hc) as E.
    replace (skz p (un nz kz)) with (sfz p kz) in E by (symmetry; now apply (skz_shift p Hp)).
    replace (sk p (un n ky)) with (sfl p ky) in E by (symmetry; now apply (sk_shift p Hp)).
    replace (sk p (un n kx)) with (sfl p kx) in E by (symmetry; now apply (sk_shift p Hp)).
    destruct (s_value p c _ _ _) eqn:Es; cbn [ocplx].
    + split; [discriminate|]. intros [_ H]. apply E in H. discriminate.
    + split; auto. intros _. split; auto. now apply E.
  - split; [discriminate|intros [H _]; discriminate].
Qed.

(** the lower shell mirrors the upper one *)
Definition dummy : hpar := mkHpar 1 0 1 (s_zres p) nz [] VecNone CondNone.
Lemma dummy_physical : physical dummy.
Proof. destruct Hp as (_ & _ & _ & _ & Hr & _ & Hs). unfold physical, dummy, nz; cbn. repeat split; try lra; lia. Qed.
Lemma skz_six z : (0 <= z < nz)%Z -> skz p z = IZR (six dummy z) / (IZR nz * s_zres p).
Proof.
  intros Hz. destruct Hp as (_ & _ & _ & _ & Hr & _ & Hs). unfold skz. fold nz. rewrite fftfreq_spec by (auto; try lia; lra).
  change (sfreq nz (s_zres p)) with (sfreq (h_size dummy) (h_res dummy)). now rewrite sfreq_six.
Qed.
Lemma skz_neg z : (0 <= z < nz)%Z -> 0 < skz p z -> skz p (neg dummy z) = - skz p z.
Proof.
  intros Hz H. pose proof sizes_pos as [_ Hnz]. assert (Hr : 0 < s_zres p) by apply Hp. pose proof (neg_in dummy dummy_physical z) as Hn.
  assert (Hd : 0 < IZR nz * s_zres p) by (apply Rmult_lt_0_compat; auto; apply IZR_lt; auto).
  rewrite !skz_six in * by auto.
  assert (H6 : (0 < six dummy z)%Z). { apply lt_IZR. unfold Rdiv in H. assert (0 < / (IZR nz * s_zres p)) by now apply Rinv_0_lt_compat. nra. }
  destruct (six_neg dummy dummy_physical z) as [->|[_ E]]; [rewrite opp_IZR; unfold Rdiv; ring|]. cbn [h_size dummy] in E. lia.
Qed.
Lemma lower_shell z y x : (0 <= z < nz)%Z -> s_dual p = true -> s_valid p z y x = true ->
  exists z', (0 <= z' < nz)%Z /\ s_valid p z' y x = true /\ skz p z' < 0.
Proof.
  intros Hz Hd Hv. destruct (valid_kz p _ _ _ Hv) as (_ & Hz0 & _). destruct (Rlt_dec (skz p z) 0) as [H|H]; [now exists z|].
  assert (Hpos : 0 < skz p z) by lra. exists (neg dummy z). pose proof (neg_in dummy dummy_physical z) as Hn. cbn [h_size dummy] in Hn. fold nz in Hn. split; auto.
  pose proof (skz_neg z Hz Hpos) as E. split; [|lra].
  assert (E0 : forall w, (0 <= w < nz)%Z -> skz p w <> 0 -> (w =? 0)%Z = false).
  { intros w Hw H0. destruct (Z.eqb_spec w 0) as [->|]; auto. exfalso. apply H0. destruct Hp as (_ & _ & _ & _ & _ & _ & H2). apply fftfreq_0. auto. }
  apply valid_iff in Hv. apply valid_iff.
  assert (Ek : s_kr p (neg dummy z) y x = s_kr p z y x) by (unfold s_kr; rewrite E; f_equal; ring).
  assert (Ed : s_dkr p (neg dummy z) y x = s_dkr p z y x).
  { unfold s_dkr. rewrite Ek, E. rewrite (E0 (neg dummy z)), (E0 z) by (auto; lra). cbn [andb].
    replace ((- skz p z * s_dkz p) ^ 2) with ((skz p z * s_dkz p) ^ 2) by ring. reflexivity. }
  rewrite Ek, Ed. unfold s_kzz in *. rewrite Hd in *. rewrite E, Rabs_Ropp. exact Hv.
Qed.

(** one non-finite element spoils its component and hence the whole intensity *)
Lemma psfi_none c kz ky kx A : A = fftshift axes123 (s_otf p) -> (0 <= c < components (s_vec p))%Z -> (0 <= kz < nz)%Z -> (0 <= ky < n)%Z -> (0 <= kx < n)%Z ->
  get A [c; kz; ky; kx] = None -> forall ix, get (s_psfi (s_psfa A)) ix = None.
Proof.
  intros HA Hc Hz Hy Hx H ix. unfold s_psfi, s_psfa. cbn [get shape]. rewrite HA, otf_shape. cbn [hd tl].
  destruct (forallb _ (zseq _)) eqn:E; auto. exfalso. rewrite forallb_forall in E. specialize (E c (proj2 (in_zseq_iff _ _) Hc)). cbn beta in E.
  destruct (forallb _ (all_ix _)) eqn:E'; [|discriminate]. rewrite forallb_forall in E'.
  assert (Hin : In [kz; ky; kx] (all_ix [nz; n; n])) by (apply in_all_ix; repeat constructor; lia).
  specialize (E' _ Hin). rewrite <- HA, H in E'. discriminate.
Qed.
Lemma psf_finite A : shape A = [components (s_vec p); nz; n; n] -> (forall ix, inb [components (s_vec p); nz; n; n] ix -> get A ix <> None) ->
  (forall ix, inb [components (s_vec p); nz; n; n] ix -> get (s_psfa A) ix = Some (get (easy_ifft (Some [1%nat; 2%nat; 3%nat]) (amap cval A)) ix)) /\
  (forall ix, inb [nz; n; n] ix -> get (s_psfi (s_psfa A)) ix =
     Some (Rsum (zseq (components (s_vec p))) (fun c => Cnorm2 (get (easy_ifft (Some [1%nat; 2%nat; 3%nat]) (amap cval A)) (c :: ix))))).
Proof.
  intros HA Hf.
  assert (Hc : forall c ix, (0 <= c < components (s_vec p))%Z -> get (s_psfa A) (c :: ix) = Some (get (easy_ifft (Some [1%nat; 2%nat; 3%nat]) (amap cval A)) (c :: ix))).
  { intros c ix Hc. unfold s_psfa. cbn [get]. rewrite HA. cbn [tl].
    assert (E : forallb (fun r => is_some (get A (c :: r))) (all_ix [nz; n; n]) = true).
    { apply forallb_forall. intros r Hr. apply in_all_ix in Hr. specialize (Hf (c :: r)). destruct (get A (c :: r)); auto. exfalso. apply Hf; auto. apply inb_cons. auto. }
    now rewrite E. }
  split.
  - intros ix Hi. destruct (inb_cons_inv _ _ _ Hi) as (c & r & -> & Hc' & _). now apply Hc.
  - intros ix Hi. unfold s_psfi. cbn [get shape]. change (shape (s_psfa A)) with (shape A). rewrite HA. cbn [hd].
    assert (E : forallb (fun c => is_some (get (s_psfa A) (c :: ix))) (zseq (components (s_vec p))) = true).
    { apply forallb_forall. intros c Hc'%in_zseq_iff. now rewrite Hc. }
    rewrite E. f_equal. apply Rsum_ext. intros c Hc'%in_zseq_iff. now rewrite Hc.
Qed.
Lemma single_finite c kz ky kx : s_dual p = false -> (0 <= c < components (s_vec p))%Z -> (0 <= kz < nz)%Z -> (0 <= ky < n)%Z -> (0 <= kx < n)%Z ->
  get (fftshift axes123 (s_otf p)) [c; kz; ky; kx] <> None.
Proof.
  intros Hd Hc Hz Hy Hx H. apply elem_none in H; auto. destruct H as (Hv & _ & Hn & _).
  destruct (valid_kz p _ _ _ Hv) as (_ & _ & _ & Hpos). specialize (Hpos Hd). unfold un in Hpos. rewrite (skz_shift p Hp) in Hpos by auto. lra.
Qed.

(** ** centre of the scalar PSF *)
Lemma kicen_top m j : (0 < m)%Z -> kicen m (m - m / 2) j = RtoC 1.
Proof.
  intros Hm. unfold kicen. replace ((j + m / 2) * (m - m / 2 + m / 2))%Z with (0 + (j + m / 2) * m)%Z by ring.
  rewrite root_period by auto. apply root_0.
Qed.
Lemma mop_kicen_top a b (f : list Z -> C) c : (0 < a)%Z -> (0 < b)%Z ->
  mop kicen [false; true; true; true] [1%Z; a; b; b] f [c; a - a / 2; b - b / 2; b - b / 2]%Z = Csum (all_ix [a; b; b]) (fun r => f (c :: r)).
Proof.
  intros Ha Hb. cbn [mop]. rewrite Csum_all_ix_cons. apply Csum_ext. intros j _. rewrite kicen_top, Cmult_1_l by auto.
  rewrite Csum_all_ix_cons. apply Csum_ext. intros i _. rewrite kicen_top, Cmult_1_l by auto.
  rewrite Csum_all_ix_cons. apply Csum_ext. intros l _. rewrite kicen_top, Cmult_1_l by auto. cbn. ring.
Qed.
End P.

(** ** polarisation factors *)
Lemma s_plist_trig p t f c : s_vec p <> VecNone -> 1 + cos t <> 0 -> (0 <= c < components (s_vec p))%Z ->
  nth (Z.to_nat c) (s_plist p (Some (sin t * cos f)) (Some (sin t * sin f)) (Some (cos t))) (Some 0) =
  Some (zsign (s_vec p) c * nth (Z.to_nat c) (plist (s_vec p) t f) 0).
Proof.
  intros Hv Ht Hc. pose proof (sin2_cos2 t) as Et. pose proof (sin2_cos2 f) as Ef. unfold Rsqr in *.
  assert (Es : (sin t * sin t) / (1 + cos t) = 1 - cos t). { replace (sin t * sin t) with ((1 - cos t) * (1 + cos t)) by lra. field. auto. }
  assert (Exy : - (sin t * sin f) * (sin t * cos f) / (1 + cos t) = (cos t - 1) * sin f * cos f).
  { transitivity (- (sin f * cos f) * ((sin t * sin t) / (1 + cos t))); [field; auto|]. rewrite Es. ring. }
  assert (Eyx : - (sin t * cos f) * (sin t * sin f) / (1 + cos t) = (cos t - 1) * sin f * cos f).
  { rewrite <- Exy. field. auto. }
  assert (Eyy : 1 - sin t * sin f * (sin t * sin f) / (1 + cos t) = cos t * sin f ^ 2 + cos f ^ 2).
  { transitivity (1 - (sin f * sin f) * ((sin t * sin t) / (1 + cos t))); [field; auto|]. rewrite Es. replace (cos f ^ 2) with (1 - sin f * sin f) by (cbn; lra). ring. }
  assert (Exx : 1 - sin t * cos f * (sin t * cos f) / (1 + cos t) = cos t * cos f ^ 2 + sin f ^ 2).
  { transitivity (1 - (cos f * cos f) * ((sin t * sin t) / (1 + cos t))); [field; auto|]. rewrite Es. replace (sin f ^ 2) with (1 - cos f * cos f) by (cbn; lra). ring. }
  unfold s_plist. destruct (s_vec p); try congruence; cbn [vec_x vec_y vec_z app plist oneg olift2 odiv components] in *;
    destruct (Req_EM_T (1 + cos t) 0); try contradiction; rewrite ?Exy, ?Eyx, ?Eyy, ?Exx;
    (assert (Hcs : (c = 0 \/ c = 1 \/ c = 2 \/ c = 3 \/ c = 4 \/ c = 5)%Z) by lia);
    destruct Hcs as [->|[->|[->|[->|[->| ->]]]]]; try lia; try change (Z.to_nat 0) with 0%nat; try change (Z.to_nat 1) with 1%nat; try change (Z.to_nat 2) with 2%nat;
    try change (Z.to_nat 3) with 3%nat; try change (Z.to_nat 4) with 4%nat; try change (Z.to_nat 5) with 5%nat;
    cbn [nth zsign Z.ltb Z.compare Pos.compare Pos.compare_cont]; f_equal; ring.
Qed.
