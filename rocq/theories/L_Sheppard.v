From Verif Require Import M_Sheppard S_Sheppard L_Array L_Sum L_FFT L_FFT2 L_Polar L_Hanser L_Hanser2.
Local Open Scope R_scope.

Lemma fftfreq_shift n d k : (0 < n)%Z -> (0 <= k < n)%Z -> d <> 0 -> fftfreq n d ((k + -1 * (n / 2)) mod n) = cfreq n d k.
Proof.
  intros Hn Hk Hd. rewrite fftfreq_spec by (auto; apply Z.mod_pos_bound; lia). unfold sfreq, cfreq.
  rewrite Zplus_mod_idemp_l. replace (k + -1 * (n / 2) + n / 2)%Z with k by ring. now rewrite Z.mod_small.
Qed.
Lemma fftfreq_0 n d : (2 <= n)%Z -> fftfreq n d 0 = 0.
Proof.
  intros Hn. unfold fftfreq, fftfreq_ix. assert (0 <= (n - 1) / 2)%Z by (apply Z.div_pos; lia).
  destruct (Z.ltb_spec 0 ((n - 1) / 2 + 1)); [|lia]. cbn. ring.
Qed.
Lemma fftfreq_1 n d : (2 <= n)%Z -> 0 < d -> fftfreq n d 1 = if (n =? 2)%Z then - pitch n d else pitch n d.
Proof.
  intros Hn Hd. unfold fftfreq, pitch. destruct (Z.eqb_spec n 2) as [->|Hn2].
  - cbn. unfold Rdiv. ring.
  - unfold fftfreq_ix. assert (1 <= (n - 1) / 2)%Z by (apply Z.div_le_lower_bound; lia).
    destruct (Z.ltb_spec 1 ((n - 1) / 2 + 1)); [|lia]. ring.
Qed.
Lemma pitch_pos n d : (0 < n)%Z -> 0 < d -> 0 < pitch n d.
Proof. intros Hn Hd. apply IZR_lt in Hn. apply Rdiv_lt_0_compat; nra. Qed.

Section P.
Context (p : spar) (Hp : s_physical p).
Let n := s_size p.
Let nz := s_zsize p.

Lemma gen_otf_cases : gen_otf p =
  if Rlt_dec (s_ni p) (s_na p) then Err AssertionError else Ok (fftshift axes123 (s_otf p)).
Proof.
  destruct Hp as (Hw & Hna & Hni & Hr & Hzr & Hs & Hzs). unfold gen_otf.
  destruct (Req_EM_T _ _) as [E|_]. { apply Rmult_integral in E. destruct E as [E|E]; [apply eq_IZR in E; lia|lra]. }
  destruct (Req_EM_T _ _) as [E|_]. { apply Rmult_integral in E. destruct E as [E|E]; [apply eq_IZR in E; lia|lra]. }
  destruct (Req_EM_T _ _) as [E|_]; [lra|].
  destruct (Z.ltb_spec (s_size p) 2); [lia|]. destruct (Z.ltb_spec (s_zsize p) 2); [lia|]. cbn [orb].
  assert (Hi : 0 < / s_wl p) by now apply Rinv_0_lt_compat. unfold s_kmag, Rdiv.
  assert (E : (s_ni p * / s_wl p) ^ 2 - (s_na p * / s_wl p) ^ 2 = (s_ni p - s_na p) * (s_ni p + s_na p) * (/ s_wl p) ^ 2) by ring.
  rewrite E. assert (0 < (s_ni p + s_na p) * (/ s_wl p) ^ 2) by (apply Rmult_lt_0_compat; nra).
  destruct (Rlt_dec _ 0) as [G1|G1], (Rlt_dec _ (s_na p)) as [G2|G2]; auto; exfalso; nra.
Qed.

Lemma sk_shift k : (0 <= k < n)%Z -> sk p ((k + -1 * (n / 2)) mod n) = sfl p k.
Proof. intros Hk. destruct Hp as (_ & _ & _ & Hr & _ & Hs & _). apply fftfreq_shift; auto; try lia. lra. Qed.
Lemma skz_shift k : (0 <= k < nz)%Z -> skz p ((k + -1 * (nz / 2)) mod nz) = sfz p k.
Proof. intros Hk. destruct Hp as (_ & _ & _ & _ & Hr & _ & Hs). apply fftfreq_shift; auto; try lia. lra. Qed.
Lemma dk_val : s_dk p = if (n =? 2)%Z then - pl p else pl p.
Proof. destruct Hp as (_ & _ & _ & Hr & _ & Hs & _). unfold s_dk, sk. rewrite fftfreq_0, fftfreq_1 by (auto; lia). fold n. unfold pl. fold n. destruct (n =? 2)%Z; ring. Qed.
Lemma dkz_val : s_dkz p = if (nz =? 2)%Z then - pz p else pz p.
Proof. destruct Hp as (_ & _ & _ & _ & Hr & _ & Hs). unfold s_dkz, skz. rewrite fftfreq_0, fftfreq_1 by (auto; lia). fold nz. unfold pz. fold nz. destruct (nz =? 2)%Z; ring. Qed.
Lemma pl_pos : 0 < pl p.
Proof. destruct Hp as (_ & _ & _ & Hr & _ & Hs & _). apply pitch_pos; auto. lia. Qed.
Lemma pz_pos : 0 < pz p.
Proof. destruct Hp as (_ & _ & _ & _ & Hr & _ & Hs). apply pitch_pos; auto. lia. Qed.
Lemma dk_abs : s_dk p ^ 2 = pl p ^ 2 /\ s_dkz p ^ 2 = pz p ^ 2.
Proof. rewrite dk_val, dkz_val. destruct (n =? 2)%Z, (nz =? 2)%Z; split; ring. Qed.

(** thickness *)
Lemma dkr_upper z y x : s_dkr p z y x <= Rmax (pl p) (pz p).
Proof.
  pose proof pl_pos as H1. pose proof pz_pos as H2. pose proof (Rmax_l (pl p) (pz p)) as Ml. pose proof (Rmax_r (pl p) (pz p)) as Mr.
  unfold s_dkr. destruct (Req_EM_T _ _) as [E|E].
  { rewrite dk_val. destruct (n =? 2)%Z; lra. }
  destruct (_ && _)%bool; [lra|]. destruct dk_abs as [E1 E2].
  set (M := Rmax (pl p) (pz p)) in *. unfold s_kr. set (a := skz p z). set (b := sk p y). set (c := sk p x).
  replace ((a * s_dkz p) ^ 2 + (b * s_dk p) ^ 2 + (c * s_dk p) ^ 2) with (a ^ 2 * pz p ^ 2 + (b ^ 2 + c ^ 2) * pl p ^ 2) by (rewrite <- E1, <- E2; ring).
  pose proof (pow2_ge_0 a). pose proof (pow2_ge_0 b). pose proof (pow2_ge_0 c).
  destruct (Req_EM_T (a ^ 2 + b ^ 2 + c ^ 2) 0) as [Z|NZ].
  - rewrite Z, sqrt_0. unfold Rdiv. rewrite Rinv_0. lra.
  - assert (Hs : 0 < sqrt (a ^ 2 + b ^ 2 + c ^ 2)) by (apply sqrt_lt_R0; lra).
    apply (Rmult_le_reg_r (sqrt (a ^ 2 + b ^ 2 + c ^ 2))); auto. unfold Rdiv. rewrite Rmult_assoc, Rinv_l, Rmult_1_r by lra.
    rewrite <- (sqrt_pow2 M) by lra. rewrite <- sqrt_mult_alt by apply pow2_ge_0. apply sqrt_le_1_alt.
    assert (pz p ^ 2 <= M ^ 2) by (apply pow_incr; lra). assert (pl p ^ 2 <= M ^ 2) by (apply pow_incr; lra). nra.
Qed.
Lemma dkr_lower z y x : (2 < n)%Z -> (2 < nz)%Z -> (z =? 0)%Z && (y =? 0)%Z && (x =? 0)%Z = false -> 0 < s_kr p z y x ->
  Rmin (pl p) (pz p) <= s_dkr p z y x.
Proof.
  intros Hn Hnz H0 Hk. pose proof pl_pos as H1. pose proof pz_pos as H2. pose proof (Rmin_l (pl p) (pz p)) as Ml. pose proof (Rmin_r (pl p) (pz p)) as Mr.
  assert (Hm : 0 < Rmin (pl p) (pz p)) by (apply Rmin_glb_lt; auto).
  unfold s_dkr. destruct (Req_EM_T _ _) as [E|E].
  { rewrite dk_val. destruct (Z.eqb_spec n 2); [lia|]. lra. }
  rewrite H0. destruct dk_abs as [E1 E2]. set (m := Rmin (pl p) (pz p)) in *.
  unfold s_kr in *. set (a := skz p z) in *. set (b := sk p y) in *. set (c := sk p x) in *.
  replace ((a * s_dkz p) ^ 2 + (b * s_dk p) ^ 2 + (c * s_dk p) ^ 2) with (a ^ 2 * pz p ^ 2 + (b ^ 2 + c ^ 2) * pl p ^ 2) by (rewrite <- E1, <- E2; ring).
  pose proof (pow2_ge_0 a). pose proof (pow2_ge_0 b). pose proof (pow2_ge_0 c).
  apply (Rmult_le_reg_r (sqrt (a ^ 2 + b ^ 2 + c ^ 2))); auto. unfold Rdiv. rewrite Rmult_assoc, Rinv_l, Rmult_1_r by lra.
  rewrite <- (sqrt_pow2 m) by lra. rewrite <- sqrt_mult_alt by apply pow2_ge_0. apply sqrt_le_1_alt.
  assert (m ^ 2 <= pz p ^ 2) by (apply pow_incr; lra). assert (m ^ 2 <= pl p ^ 2) by (apply pow_incr; lra). nra.
Qed.

(** unpacking validity *)
Lemma valid_iff z y x : s_valid p z y x = true <->
  Rabs (s_kr p z y x - s_kmag p) < s_dkr p z y x /\ s_kz_min p + s_dkr p z y x < s_kzz p z.
Proof.
  unfold s_valid. destruct (Rlt_dec _ _), (Rlt_dec _ _); cbn; split; intros H; try discriminate; try tauto; destruct H; contradiction.
Qed.
Lemma kz_min_ge_0 : 0 <= s_kz_min p.
Proof. apply sqrt_pos. Qed.
Lemma valid_kz z y x : s_valid p z y x = true -> 0 < s_dkr p z y x /\ skz p z <> 0 /\ 0 < s_kr p z y x /\ (s_dual p = false -> 0 < skz p z).
Proof.
  intros H. apply valid_iff in H. destruct H as [H1 H2]. pose proof (Rabs_pos (s_kr p z y x - s_kmag p)). pose proof kz_min_ge_0.
  assert (Hz : skz p z <> 0 /\ (s_dual p = false -> 0 < skz p z)).
  { unfold s_kzz in H2. destruct (s_dual p); [|split; [|intros _]; lra]. split; [|discriminate]. intros E. rewrite E, Rabs_R0 in H2. lra. }
  destruct Hz as [Hz Hz']. repeat split; auto; [lra|]. unfold s_kr. apply sqrt_lt_R0.
  pose proof (pow2_ge_0 (sk p y)). pose proof (pow2_ge_0 (sk p x)). assert (0 < skz p z ^ 2) by nra. lra.
Qed.
(** s = kz / |k| *)
Lemma dcos_some c z y x : 0 < s_kr p z y x -> dcos p c z y x = Some (c / s_kr p z y x).
Proof. intros H. unfold dcos, odiv. destruct (Req_EM_T _ _); [lra|reflexivity]. Qed.
Lemma s_minus1 z y x : 0 < s_kr p z y x -> (1 + skz p z / s_kr p z y x = 0 <-> sk p y = 0 /\ sk p x = 0 /\ skz p z < 0).
Proof.
  intros H. assert (E2 : s_kr p z y x * s_kr p z y x = skz p z ^ 2 + sk p y ^ 2 + sk p x ^ 2).
  { unfold s_kr. apply sqrt_sqrt. pose proof (pow2_ge_0 (skz p z)). pose proof (pow2_ge_0 (sk p y)). pose proof (pow2_ge_0 (sk p x)). lra. }
  split.
  - intros E. assert (Ez : skz p z = - s_kr p z y x).
    { apply (Rmult_eq_compat_r (s_kr p z y x)) in E. rewrite Rmult_plus_distr_r in E. unfold Rdiv in E. rewrite Rmult_assoc, Rinv_l in E by lra. lra. }
    rewrite Ez in E2. repeat split; nra.
  - intros (Ey & Ex & Hz). rewrite Ey, Ex in E2. assert (Ez : s_kr p z y x = - skz p z) by nra. rewrite Ez. field. lra.
Qed.
Lemma s_sign z y x : 0 < s_kr p z y x -> (skz p z / s_kr p z y x < 0 <-> skz p z < 0).
Proof.
  intros H. unfold Rdiv. assert (0 < / s_kr p z y x) by now apply Rinv_0_lt_compat. split; intros; nra.
Qed.

(** when a value is not finite *)
Lemma value_none c z y x : s_valid p z y x = true -> (0 <= c < components (s_vec p))%Z ->
  (s_value p c z y x = None <->
   s_vec p <> VecNone /\ skz p z < 0 /\
   (s_cond p = CondSine \/ divides (s_vec p) c = true /\ sk p y = 0 /\ sk p x = 0)).
Proof.
  intros Hv Hc. destruct (valid_kz z y x Hv) as (_ & Hz & Hk & _). pose proof (s_minus1 z y x Hk) as Hm. pose proof (s_sign z y x Hk) as Hs.
  unfold s_value. rewrite !dcos_some by auto.
  set (s := skz p z / s_kr p z y x) in *. set (m := sk p x / s_kr p z y x). set (nn := sk p y / s_kr p z y x).
  assert (Hs0 : s <> 0). { unfold s. intros E. apply Hz. apply (Rmult_eq_compat_r (s_kr p z y x)) in E. unfold Rdiv in E. rewrite Rmult_assoc, Rinv_l in E by lra. lra. }
  destruct (Req_EM_T (1 + s) 0) as [Em|Em].
  - assert (Hon : sk p y = 0 /\ sk p x = 0 /\ skz p z < 0) by now apply Hm. destruct Hon as (Oy & Ox & Oz).
    assert (Hneg : s < 0) by now apply Hs.
    destruct (s_vec p) eqn:Ev; [split; [discriminate|intros [H _]; congruence]|..];
    unfold s_plist, s_apod; rewrite Ev; cbn [vec_x vec_y vec_z app oneg olift2 odiv osqrt];
    destruct (Req_EM_T (1 + s) 0) as [_|]; try contradiction; cbn [olift2];
    (destruct (s_cond p) eqn:Ec; cbn [odiv osqrt];
      [ | destruct (Rlt_dec s 0); [|lra] | destruct (Req_EM_T s 0); [lra|] ]);
    cbn [components] in Hc;
    assert (Hcc : (c = 0 \/ c = 1 \/ c = 2 \/ c = 3 \/ c = 4 \/ c = 5)%Z) by lia;
    destruct Hcc as [->|[->|[->|[->|[->| ->]]]]]; try lia; cbn [Z.to_nat Pos.to_nat Pos.iter_op Nat.add nth olift2 divides Z.leb Z.compare Pos.compare Pos.compare_cont];
    try (split; [discriminate|intros (_ & _ & [H|[H _]]); congruence]);
    split; intros; auto; repeat split; auto; congruence.
  - assert (Hoff : ~ (sk p y = 0 /\ sk p x = 0 /\ skz p z < 0)) by (intros H; apply Hm in H; contradiction).
    destruct (s_vec p) eqn:Ev; [split; [discriminate|intros [H _]; congruence]|..];
    unfold s_plist, s_apod; rewrite Ev; cbn [vec_x vec_y vec_z app oneg olift2 odiv osqrt];
    destruct (Req_EM_T (1 + s) 0) as [|_]; try contradiction; cbn [olift2];
    (destruct (s_cond p) eqn:Ec; cbn [odiv osqrt];
      [ | destruct (Rlt_dec s 0) as [G|G]; [|destruct (Req_EM_T (sqrt s) 0) as [G'|G'];
            [exfalso; assert (0 < s) by (destruct (Rtotal_order s 0) as [?|[?|?]]; lra); pose proof (sqrt_lt_R0 s ltac:(auto)); lra|]]
        | destruct (Req_EM_T s 0); [lra|] ]);
    cbn [components] in Hc;
    assert (Hcc : (c = 0 \/ c = 1 \/ c = 2 \/ c = 3 \/ c = 4 \/ c = 5)%Z) by lia;
    destruct Hcc as [->|[->|[->|[->|[->| ->]]]]]; try lia; cbn [Z.to_nat Pos.to_nat Pos.iter_op Nat.add nth olift2 divides Z.leb Z.compare Pos.compare Pos.compare_cont];
    try (split; [discriminate|intros (_ & H1 & [H|(_ & H2 & H3)]); [congruence|tauto]]);
    try (split; [discriminate|intros (_ & H1 & _); apply Hs in H1; contradiction]);
    split; intros; auto; repeat split; auto; try congruence; now apply Hs.
Qed.
End P.
