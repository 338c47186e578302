From Verif Require Import M_Hanser S_Hanser L_Array L_Sum L_FFT L_FFT2 L_Polar.
Local Open Scope R_scope.
Notation "a *c b" := (Cmult a b) (at level 40, left associativity).

(** ** frequencies *)
Lemma fftfreq_ix_spec n k : (0 < n -> 0 <= k < n -> fftfreq_ix n k = (k + n / 2) mod n - n / 2)%Z.
Proof.
  intros Hn Hk. unfold fftfreq_ix.
  assert (H2 : (n / 2 + ((n - 1) / 2 + 1) = n)%Z).
  { pose proof (Z.div_mod n 2 ltac:(lia)). pose proof (Z.div_mod (n - 1) 2 ltac:(lia)).
    pose proof (Z.mod_pos_bound n 2 ltac:(lia)). pose proof (Z.mod_pos_bound (n - 1) 2 ltac:(lia)). lia. }
  set (N := ((n - 1) / 2 + 1)%Z) in *. destruct (Z.ltb_spec k N).
  - rewrite Z.mod_small; lia.
  - rewrite <- (Z_mod_plus_full _ (-1)). rewrite Z.mod_small; lia.
Qed.
Lemma fftfreq_spec n d k : (0 < n)%Z -> (0 <= k < n)%Z -> d <> 0 -> fftfreq n d k = sfreq n d k.
Proof.
  intros Hn Hk Hd. unfold fftfreq, sfreq. rewrite fftfreq_ix_spec by auto.
  assert (IZR n <> 0) by (apply not_0_IZR; lia). field. auto.
Qed.

(** ** PSFa as a 2-d transform *)
Definition kpsf : Z -> Z -> Z -> C := fun n k j => root n (j * (k - n / 2)).
Lemma kpsf_unitary n i j : (0 < n -> 0 <= i < n -> 0 <= j < n ->
  Csum (zseq n) (fun k => kpsf n k i *c Cconj (kpsf n k j)) = RtoC (IZR n) *c delta i j)%Z.
Proof.
  intros Hn Hi Hj. unfold kpsf.
  rewrite (Csum_ext _ _ (fun k => root n (- (n / 2 * (i - j))) *c root n (k * (i - j)))).
  - rewrite Csum_scal_l, root_orth by auto. unfold delta.
    destruct (Z.eqb_spec i j) as [->|E]; [|ring]. rewrite Z.sub_diag, Z.mul_0_r. cbn. rewrite root_0. ring.
  - intros k _. rewrite root_conj, <- !root_add. f_equal. ring.
Qed.
Lemma psfa_sum A nc nz ny nx c z y x : shape A = [nc; nz; ny; nx] -> inb [ny; nx] [y; x] ->
  get (psfa_of A) [c; z; y; x] =
  RtoC (/ IZR (ny * nx)) *c mop kpsf [true; true] [ny; nx] (fun ix => get A (c :: z :: ix)) [y; x].
Proof.
  intros Hs Hi. destruct (inb_cons_inv _ _ _ Hi) as (y' & r & E & Hy & Hr). injection E as <- <-.
  destruct (inb_cons_inv _ _ _ Hr) as (x' & r & E & Hx & _). injection E as <- <-.
  unfold psfa_of, fftshift, ifftn. cbn [get shape]. rewrite Hs. cbn [masked_size axes23 axes_mask seq map existsb Nat.eqb orb shift_ix dft mop].
  assert (Em : (1 * (1 * (ny * (nx * 1))) = ny * nx)%Z) by ring. rewrite Em. f_equal.
  apply Csum_ext. intros j _. f_equal.
  - unfold kpsf. apply root_cong; [lia|]. rewrite Z.mul_1_l. apply mulmod_cong; try lia; [now rewrite Z.sub_diag, Zmod_0_l|].
    replace (y - ny / 2)%Z with (y + -1 * (ny / 2))%Z by lia. apply mod_self_cong; lia.
  - apply Csum_ext. intros i _. f_equal. unfold kpsf. apply root_cong; [lia|]. rewrite Z.mul_1_l. apply mulmod_cong; try lia; [now rewrite Z.sub_diag, Zmod_0_l|].
    replace (x - nx / 2)%Z with (x + -1 * (nx / 2))%Z by lia. apply mod_self_cong; lia.
Qed.

(** ** what gen_psf returns *)
Lemma shape_psfa A : shape (psfa_of A) = shape A.
Proof. reflexivity. Qed.
Lemma length_plist v t p : Z.of_nat (length (plist v t p)) = components v.
Proof. now destruct v. Qed.

Definition pup (h : hpar) (Q : Z -> Z -> C) (c z y x : Z) : C :=
  Q y x *c defocus h z y x *c RtoC (apod h y x) *c
  RtoC (nth (Z.to_nat c) (plist (h_vec h) (h_theta h y x) (h_phi h y x)) 0).

Lemma bdim_same n : bdim n n = Ok n.
Proof. unfold bdim. now rewrite Z.eqb_refl. Qed.
Lemma bix_in n i : (0 <= i < n)%Z -> bix n i = i.
Proof. unfold bix. destruct (Z.eqb_spec n 1); lia. Qed.

(** squared-frequency forms *)
Section H.
Context (h : hpar) (Hph : physical h).
Let n := h_size h.
Lemma hk_spec i : (0 <= i < n)%Z -> hk h i = sfreq n (h_res h) i.
Proof. intros Hi. destruct Hph as (_ & _ & _ & Hr & Hn). apply fftfreq_spec; auto. lra. Qed.
Lemma kr2 y x : (0 <= y < n)%Z -> (0 <= x < n)%Z -> h_kr h y x * h_kr h y x = k2 h y x.
Proof. intros Hy Hx. unfold h_kr, cart2pol. cbn [fst]. rewrite hypot_sqr, !hk_spec by auto. reflexivity. Qed.
Lemma kr_ge_0 y x : 0 <= h_kr h y x.
Proof. apply hypot_ge_0. Qed.
Lemma kr_lt y x a : (0 <= y < n)%Z -> (0 <= x < n)%Z -> 0 <= a -> (h_kr h y x < a <-> k2 h y x < a ^ 2).
Proof.
  intros Hy Hx Ha. pose proof (kr2 y x Hy Hx) as E. pose proof (kr_ge_0 y x). split; nra.
Qed.
Lemma kmag_pos : 0 < h_kmag h.
Proof. destruct Hph as (Hw & _ & Hni & _). unfold h_kmag. now apply Rdiv_lt_0_compat. Qed.
Lemma na_wl_ge_0 : 0 <= h_na h / h_wl h.
Proof. destruct Hph as (Hw & Hna & _). apply Rmult_le_pos; auto. left. now apply Rinv_0_lt_compat. Qed.
Lemma ideal_spec y x : (0 <= y < n)%Z -> (0 <= x < n)%Z ->
  ideal_pupil h y x = if Rlt_dec (k2 h y x) ((h_na h / h_wl h) ^ 2) then 1 else 0.
Proof.
  intros Hy Hx. unfold ideal_pupil. pose proof (kr_lt y x _ Hy Hx na_wl_ge_0) as E.
  destruct (Rlt_dec _ _), (Rlt_dec _ _); tauto.
Qed.

(** the angle *)
Lemma sin_theta_bound y x : 0 <= (if Rlt_dec (h_kr h y x) (h_kmag h) then h_kr h y x else 0) / h_kmag h < 1.
Proof.
  pose proof kmag_pos as Hk. pose proof (kr_ge_0 y x). destruct (Rlt_dec _ _) as [H1|H1].
  - split; [apply Rmult_le_pos; auto; left; now apply Rinv_0_lt_compat|].
    apply (Rmult_lt_reg_r (h_kmag h)); auto. unfold Rdiv. rewrite Rmult_assoc, Rinv_l by lra. lra.
  - unfold Rdiv. rewrite Rmult_0_l. lra.
Qed.
Lemma sin_theta y x : sin (h_theta h y x) = (if Rlt_dec (h_kr h y x) (h_kmag h) then h_kr h y x else 0) / h_kmag h.
Proof. unfold h_theta. apply sin_asin. pose proof (sin_theta_bound y x). lra. Qed.
Lemma sin2_theta y x : (0 <= y < n)%Z -> (0 <= x < n)%Z -> sin (h_theta h y x) ^ 2 = sin2 h y x.
Proof.
  intros Hy Hx. rewrite sin_theta. unfold sin2. pose proof kmag_pos as Hk. unfold h_kmag in *.
  destruct Hph as (Hw & _ & Hni & _).
  pose proof (kr_lt y x _ Hy Hx (Rlt_le _ _ Hk)) as E. destruct (Rlt_dec (h_kr h y x) _), (Rlt_dec (k2 h y x) _); try tauto.
  - rewrite <- kr2 by auto. field. split; lra.
  - unfold Rdiv. ring.
Qed.
Lemma cos_theta_pos y x : 0 < cos (h_theta h y x).
Proof.
  pose proof (sin_theta_bound y x) as [H1 H2]. unfold h_theta. rewrite cos_asin by lra.
  apply sqrt_lt_R0. unfold Rsqr. nra.
Qed.
Lemma sin2_range y x : (0 <= y < n)%Z -> (0 <= x < n)%Z -> 0 <= sin2 h y x < 1.
Proof.
  intros Hy Hx. rewrite <- sin2_theta by auto. pose proof (cos_theta_pos y x) as Hc.
  pose proof (sin2_cos2 (h_theta h y x)) as E. unfold Rsqr in E. nra.
Qed.
Lemma cos_theta y x : (0 <= y < n)%Z -> (0 <= x < n)%Z -> cos (h_theta h y x) = sqrt (1 - sin2 h y x).
Proof.
  intros Hy Hx. symmetry. apply sqrt_lem_1.
  - pose proof (sin2_range y x Hy Hx). lra.
  - left. apply cos_theta_pos.
  - rewrite <- sin2_theta by auto. pose proof (sin2_cos2 (h_theta h y x)) as E. unfold Rsqr in E. lra.
Qed.
Lemma apod_pos y x : 0 < apod h y x.
Proof.
  unfold apod. pose proof (cos_theta_pos y x). destruct (h_cond h); [lra| |].
  - apply Rdiv_lt_0_compat; [lra|]. now apply sqrt_lt_R0.
  - apply Rdiv_lt_0_compat; lra.
Qed.
Lemma apod2 y x : (0 <= y < n)%Z -> (0 <= x < n)%Z -> apod h y x * apod h y x = cond_weight h y x.
Proof.
  intros Hy Hx. unfold apod, cond_weight. pose proof (cos_theta_pos y x) as Hc.
  pose proof (cos_theta y x Hy Hx) as E. pose proof (sin2_range y x Hy Hx) as Hs.
  destruct (h_cond h); [ring| |].
  - rewrite <- E. pose proof (sqrt_lt_R0 _ Hc) as Hq.
    replace (1 / sqrt (cos (h_theta h y x)) * (1 / sqrt (cos (h_theta h y x))))
      with (1 / (sqrt (cos (h_theta h y x)) * sqrt (cos (h_theta h y x)))) by (field; lra).
    now rewrite sqrt_sqrt by lra.
  - rewrite E. pose proof (sqrt_sqrt (1 - sin2 h y x) ltac:(lra)) as Hq.
    replace (1 / sqrt (1 - sin2 h y x) * (1 / sqrt (1 - sin2 h y x)))
      with (1 / (sqrt (1 - sin2 h y x) * sqrt (1 - sin2 h y x))); [now rewrite Hq|].
    field. rewrite <- E. lra.
Qed.
Lemma dir2_theta y x : (0 <= y < n)%Z -> (0 <= x < n)%Z ->
  (sin (h_theta h y x) * cos (h_phi h y x)) ^ 2 = dirx2 h y x /\
  (sin (h_theta h y x) * sin (h_phi h y x)) ^ 2 = diry2 h y x.
Proof.
  intros Hy Hx. rewrite sin_theta. unfold dirx2, diry2. pose proof kmag_pos as Hk.
  pose proof (kr_lt y x _ Hy Hx (Rlt_le _ _ Hk)) as E. unfold h_kmag in *.
  destruct Hph as (Hw & _ & Hni & _).
  destruct (polar (hk h y) (hk h x)) as [E1 E2].
  rewrite !hk_spec in E1, E2 by auto.
  assert (P1 : sfreq (h_size h) (h_res h) x = h_kr h y x * cos (h_phi h y x)).
  { unfold h_kr, h_phi, cart2pol. cbn [fst snd]. rewrite !hk_spec by auto. exact E1. }
  assert (P2 : sfreq (h_size h) (h_res h) y = h_kr h y x * sin (h_phi h y x)).
  { unfold h_kr, h_phi, cart2pol. cbn [fst snd]. rewrite !hk_spec by auto. exact E2. }
  destruct (Rlt_dec (h_kr h y x) _), (Rlt_dec (k2 h y x) _); try tauto.
  - rewrite P1, P2. split; field; split; lra.
  - split; unfold Rdiv; ring.
Qed.

(** the squared polarisation factors *)
Lemma plist_sq v t p : Rsum (plist v t p) (fun q => q * q) =
  match v with
  | VecNone => 1
  | VecX => 1 - (sin t * cos p) ^ 2
  | VecY => 1 - (sin t * sin p) ^ 2
  | VecZ => (sin t * cos p) ^ 2 + (sin t * sin p) ^ 2
  | VecTotal => 2
  end.
Proof.
  pose proof (sin2_cos2 t) as Et. pose proof (sin2_cos2 p) as Ep. unfold Rsqr in *.
  assert (Hs : sin t * sin t = 1 - cos t * cos t) by lra. assert (Hp : sin p * sin p = 1 - cos p * cos p) by lra.
  destruct v; cbn [plist vec_x vec_y vec_z app Rsum]; try ring;
  set (s := sin t) in *; set (c := cos t) in *; set (S := sin p) in *; set (C := cos p) in *; clearbody s c S C;
    repeat match goal with |- context [?a ^ 2] => replace (a ^ 2) with (a * a) by ring end.
  - transitivity (c * c * (C * C) * (C * C + S * S) + (S * S) * (S * S + C * C)); [ring|].
    replace (C * C + S * S) with 1 by lra. replace (S * S + C * C) with 1 by lra.
    transitivity (1 - (s * s) * (C * C)); [rewrite Hs, Hp; ring|ring].
  - transitivity (c * c * (S * S) * (C * C + S * S) + (C * C) * (S * S + C * C)); [ring|].
    replace (C * C + S * S) with 1 by lra. replace (S * S + C * C) with 1 by lra.
    transitivity (1 - (s * s) * (S * S)); [rewrite Hs, Hp; ring|ring].
  - transitivity ((s * s) * (C * C + S * S) + c * c * (C * C + S * S) * (C * C + S * S) + (C * C + S * S) * (C * C + S * S)); [ring|].
    replace (C * C + S * S) with 1 by lra. lra.
Qed.
Lemma Rsum_nth (l : list R) g : Rsum (zseq (Z.of_nat (length l))) (fun c => g (nth (Z.to_nat c) l 0)) = Rsum l g.
Proof.
  unfold zseq. rewrite Nat2Z.id, Rsum_map. induction l as [|a l IH]; [reflexivity|].
  cbn [length seq Rsum]. rewrite <- IH. f_equal. rewrite <- seq_shift, Rsum_map. apply Rsum_ext. intros i _.
  now rewrite !Nat2Z.id.
Qed.
Lemma pol_sum v y x : (0 <= y < n)%Z -> (0 <= x < n)%Z ->
  Rsum (zseq (components v)) (fun c => let q := nth (Z.to_nat c) (plist v (h_theta h y x) (h_phi h y x)) 0 in q * q) = pol_weight h v y x.
Proof.
  intros Hy Hx. rewrite <- (length_plist v (h_theta h y x) (h_phi h y x)). cbn zeta. rewrite (Rsum_nth _ (fun q => q * q)), plist_sq.
  destruct (dir2_theta y x Hy Hx) as [E1 E2]. unfold pol_weight. now rewrite E1, E2.
Qed.

(** ** gen_psf *)
Lemma gen_psf_val base A : gen_psf h base = Ok A -> (forall P, base = Some P -> on_grid h P) ->
  shape A = [components (h_vec h); Z.of_nat (length (h_zrange h)); n; n] /\
  forall c z y x, (0 <= y < n)%Z -> (0 <= x < n)%Z ->
    get A [c; z; y; x] = RtoC (/ IZR (n * n)) *c mop kpsf [true; true] [n; n]
      (fun ix => match ix with [j; i] => pup h (used_pupil h base) c z j i | _ => RtoC 0 end) [y; x].
Proof.
  intros H Hg. unfold gen_psf in H. destruct (Req_EM_T _ _); [discriminate|]. destruct (Req_EM_T _ _); [discriminate|].
  assert (HA : exists P, A = psfa_of (pupils h P n n) /\ on_grid h P /\
     forall y x, (0 <= y < n)%Z -> (0 <= x < n)%Z -> get P [y; x] = used_pupil h base y x).
  { destruct base as [P|].
    - specialize (Hg P eq_refl). unfold on_grid in Hg. rewrite Hg in H. rewrite !bdim_same in H. cbn in H. injection H as <-. eauto.
    - injection H as <-. exists (gen_pupil h). split; [reflexivity|]. split; [reflexivity|]. intros y x Hy Hx.
      unfold used_pupil, gen_pupil. cbn [get]. now rewrite ideal_spec. }
  destruct HA as (P & -> & HP & Hu). unfold on_grid in HP. split.
  - rewrite shape_psfa. unfold pupils. cbn [shape]. now rewrite length_plist.
  - intros c z y x Hy Hx. assert (Hin : inb [n; n] [y; x]) by (repeat constructor; auto; lia).
    rewrite (psfa_sum (pupils h P n n) _ _ n n c z y x eq_refl Hin). f_equal. apply mop_ext; auto.
    intros js Hj. destruct (inb_cons_inv _ _ _ Hj) as (j & r & -> & Hjn & Hr). destruct (inb_cons_inv _ _ _ Hr) as (i & r' & -> & Hin' & Hr').
    rewrite (inb_nil _ Hr'). unfold pupils. cbn [get]. rewrite HP. cbn [nth]. fold n. rewrite !bix_in by auto.
    rewrite Hu by auto. reflexivity.
Qed.
End H.
