From Verif Require Import M_Float2 S_Float S_Float2 L_Float L_Float3 L_Near L_Noll.
From Flocq Require Import Core.
From Coq Require Import Lra Lia.
Local Open Scope R_scope.

Lemma small_n k : 0 <= k <= 1000 -> small k. Proof. auto. Qed.
Ltac sm := unfold small; lra.
Lemma fl_norm3_near k a b c a' b' c' : 0 <= k <= 400 -> near k a a' -> near k b b' -> near k c c' ->
  (a = 0 \/ bpow radix2 (-400) <= Rabs a) -> (b = 0 \/ bpow radix2 (-400) <= Rabs b) -> (c = 0 \/ bpow radix2 (-400) <= Rabs c) ->
  near (2 * k + 9) (sqrt (a * a + b * b + c * c)) (fl_norm3 a' b' c').
Proof.
  intros Hk Na Nb Nc Ra Rb Rc.
  assert (SQ : forall x x', near k x x' -> (x = 0 \/ bpow radix2 (-400) <= Rabs x) -> near (2 * k + 3) (x * x) (rnd64 (x' * x'))).
  { intros x x' N R. replace (2 * k + 3) with (2 * k + 1 + 2) by ring. apply near_rnd; [sm|now apply near_sqr; [sm|]|].
    destruct (near_range k x x' (bpow radix2 (-401))) as [-> | L]; [sm|exact N| |apply bpow_ge_0|right; ring|left].
    - destruct R as [|R]; [now left|right]. change (-400)%Z with (1 + -401)%Z in R. rewrite bpow_plus in R. exact R.
    - rewrite Rabs_mult. apply Rle_trans with (bpow radix2 (-401) * bpow radix2 (-401)); [rewrite <- bpow_plus; apply bpow_le; lia|].
      pose proof (bpow_pos (-401)). apply Rmult_le_compat; lra. }
  assert (XA : 0 <= a * a) by nra. assert (XB : 0 <= b * b) by nra. assert (XC : 0 <= c * c) by nra.
  assert (P1 : near (2 * k + 5) (a * a + b * b) (rnd64 (rnd64 (a' * a') + rnd64 (b' * b')))).
  { replace (2 * k + 5) with (2 * k + 3 + 2) by ring. apply near_rnd_add; [sm|lra|apply rnd64_float|apply rnd64_float|]. apply near_add; [sm|lra|lra|now apply SQ|now apply SQ]. }
  assert (P2 : near (2 * k + 7) (a * a + b * b + c * c) (rnd64 (rnd64 (rnd64 (a' * a') + rnd64 (b' * b')) + rnd64 (c' * c')))).
  { replace (2 * k + 7) with (2 * k + 5 + 2) by ring. apply near_rnd_add; [sm|lra|apply rnd64_float|apply rnd64_float|]. apply near_add; [sm|lra|lra|exact P1|]. apply near_weaken with (2 * k + 3); [lra|]. now apply SQ. }
  unfold fl_norm3. set (w := rnd64 (rnd64 (rnd64 (a' * a') + rnd64 (b' * b')) + rnd64 (c' * c'))) in *. replace (2 * k + 9) with (2 * k + 7 + 2) by ring. apply near_rnd; [sm| |].
  - apply near_sqrt_; [sm|lra|exact P2].
  - destruct (Req_EM_T (a * a + b * b + c * c) 0) as [E|E]; [rewrite E in P2; apply near_0 in P2; right; rewrite P2; apply sqrt_0|left].
    assert (L : bpow radix2 (-800) <= a * a + b * b + c * c).
    { assert (G : forall x, (x = 0 \/ bpow radix2 (-400) <= Rabs x) -> x * x = 0 \/ bpow radix2 (-800) <= x * x).
      { intros x [-> | Hx]; [left; ring|right]. rewrite <- (Rabs_pos_eq (x * x)) by nra. rewrite Rabs_mult. change (-800)%Z with (-400 + -400)%Z. rewrite bpow_plus. pose proof (bpow_pos (-400)). apply Rmult_le_compat; lra. }
      destruct (G a Ra) as [Ga|Ga], (G b Rb) as [Gb|Gb], (G c Rc) as [Gc|Gc]; lra. }
    destruct P2 as (r & R1 & R2). assert (SU := small_uu (2 * k + 7) ltac:(sm)).
    assert (W : bpow radix2 (-802) <= w). { rewrite R2. change (-802)%Z with (-2 + -800)%Z. rewrite bpow_plus. change (bpow radix2 (-2)) with (/ 4). pose proof (bpow_pos (-800)). nra. }
    rewrite Rabs_pos_eq by apply sqrt_pos. apply Rle_trans with (bpow radix2 (-401)); [apply bpow_le; lia|].
    rewrite <- (sqrt_square (bpow radix2 (-401))) by apply bpow_ge_0. rewrite <- bpow_plus. apply sqrt_le_1_alt. exact W.
Qed.

Lemma scale3 a b c ra rb rc lo hi : 0 <= lo -> lo <= ra <= hi -> lo <= rb <= hi -> lo <= rc <= hi ->
  lo * sqrt (a * a + b * b + c * c) <= sqrt (a * ra * (a * ra) + b * rb * (b * rb) + c * rc * (c * rc)) <= hi * sqrt (a * a + b * b + c * c).
Proof.
  intros L A B C. assert (SA : lo * lo <= ra * ra <= hi * hi) by (split; nra). assert (SB : lo * lo <= rb * rb <= hi * hi) by (split; nra). assert (SC : lo * lo <= rc * rc <= hi * hi) by (split; nra).
  assert (XA : 0 <= a * a) by nra. assert (XB : 0 <= b * b) by nra. assert (XC : 0 <= c * c) by nra.
  split.
  - rewrite <- (sqrt_square lo) at 1 by exact L. rewrite <- sqrt_mult by nra. apply sqrt_le_1_alt. nra.
  - rewrite <- (sqrt_square hi) at 1 by lra. rewrite <- sqrt_mult by nra. apply sqrt_le_1_alt. nra.
Qed.
Lemma sqrt_close a b e : 0 <= a -> 0 <= b -> 0 <= e -> Rabs (a - b) <= e * e -> Rabs (sqrt a - sqrt b) <= e.
Proof.
  intros Ha Hb He H. apply Rabs_le_inv in H. pose proof (sqrt_pos a) as A0. pose proof (sqrt_pos b) as B0.
  assert (A : sqrt a * sqrt a = a) by (now apply sqrt_sqrt). assert (B : sqrt b * sqrt b = b) by (now apply sqrt_sqrt).
  set (s := sqrt a) in *. set (t := sqrt b) in *. clearbody s t. apply Rabs_le. split.
  - destruct (Rle_lt_dec (- e) (s - t)); auto. exfalso. nra.
  - destruct (Rle_lt_dec (s - t) e); auto. exfalso. nra.
Qed.

(** ** frequencies *)
Lemma rng_pos x : rng x -> 0 < x. Proof. intros [H _]. pose proof (bpow_pos (-100)). lra. Qed.
Lemma freq_near n d i : (1 <= n <= 2 ^ 53)%Z -> rng d -> near 4 (fftfreq n d i) (fl_fftfreq n d i).
Proof.
  intros Hn [D1 D2]. destruct (fl_fftfreq_rel n d i Hn) as (r & R1 & R2).
  - split; [eapply Rle_trans; [|exact D1]; apply bpow_le; lia|eapply Rle_trans; [exact D2|]; apply bpow_le; lia].
  - exists r. pose proof uu_pos. split; [lra|exact R2].
Qed.
Lemma spacing n d : (1 <= n <= 2 ^ 53)%Z -> rng d -> bpow radix2 (-153) <= 1 / (IZR n * d).
Proof.
  intros Hn [D1 D2]. pose proof (bpow_pos (-100)). assert (N1 : 1 <= IZR n <= bpow radix2 53). { split; [apply IZR_le; lia|]. change (bpow radix2 53) with (IZR (2 ^ 53)). apply IZR_le. lia. }
  unfold Rdiv. rewrite Rmult_1_l. apply Rmult_le_reg_r with (IZR n * d); [nra|]. rewrite Rinv_l by nra.
  apply Rle_trans with (bpow radix2 (-153) * bpow radix2 153); [|rewrite <- bpow_plus; cbn; lra].
  apply Rmult_le_compat_l; [apply bpow_ge_0|]. change 153%Z with (53 + 100)%Z. rewrite bpow_plus. apply Rmult_le_compat; lra.
Qed.
Lemma freq_range n d i : (1 <= n <= 2 ^ 53)%Z -> rng d -> fftfreq n d i = 0 \/ bpow radix2 (-153) <= Rabs (fftfreq n d i).
Proof.
  intros Hn Hd. pose proof (spacing n d Hn Hd) as S. pose proof (bpow_pos (-153)) as P. unfold fftfreq.
  destruct (Z.eq_dec (fftfreq_ix n i) 0) as [E|E]; [left; rewrite E; change (IZR 0) with 0; ring|right].
  rewrite Rabs_mult, (Rabs_pos_eq (1 / _)) by lra. assert (1 <= Rabs (IZR (fftfreq_ix n i))) by (rewrite <- abs_IZR; apply IZR_le; lia). nra.
Qed.
Lemma freq_0 n d : (1 <= n)%Z -> fftfreq n d 0 = 0 /\ fl_fftfreq n d 0 = 0.
Proof. intros Hn. split; apply fl_fftfreq_0; rewrite ffx by lia; destruct (Z.ltb_spec (2 * 0) n); lia. Qed.
Lemma freq_1 n d : (3 <= n)%Z -> fftfreq n d 1 = 1 / (IZR n * d).
Proof. intros Hn. unfold fftfreq. rewrite ffx by lia. destruct (Z.ltb_spec (2 * 1) n); [ring|lia]. Qed.

Section Shell.
Context (p : spar).
Hypothesis O : ordinary p.
Let Hs : (1 <= s_size p <= 2 ^ 53)%Z. Proof. destruct O; lia. Qed.
Let Hz : (1 <= s_zsize p <= 2 ^ 53)%Z. Proof. destruct O; lia. Qed.
Let Hr := ord_res p O. Let Hzr := ord_zres p O.

Lemma kr_sq z y x : s_kr p z y x = sqrt (skz p z * skz p z + sk p y * sk p y + sk p x * sk p x).
Proof. unfold s_kr. f_equal. ring. Qed.
Lemma wide x : x = 0 \/ bpow radix2 (-153) <= Rabs x -> x = 0 \/ bpow radix2 (-400) <= Rabs x.
Proof. intros [|H]; [now left|right]. eapply Rle_trans; [|exact H]. apply bpow_le. lia. Qed.
Lemma skr_near z y x : near 17 (s_kr p z y x) (fl_skr p z y x).
Proof.
  rewrite kr_sq. unfold fl_skr. replace 17 with (2 * 4 + 9) by ring. apply fl_norm3_near; try lra; try (now apply freq_near); apply wide; now apply freq_range.
Qed.
Lemma kr_pos z y x : s_kr p z y x = 0 \/ bpow radix2 (-153) <= s_kr p z y x.
Proof.
  assert (M : forall a b c, Rabs a <= sqrt (a * a + b * b + c * c) /\ Rabs b <= sqrt (a * a + b * b + c * c) /\ Rabs c <= sqrt (a * a + b * b + c * c)).
  { intros a b c. repeat split; rewrite <- sqrt_Rsqr_abs; apply sqrt_le_1_alt; unfold Rsqr; nra. }
  rewrite kr_sq. destruct (M (skz p z) (sk p y) (sk p x)) as (Ma & Mb & Mc).
  destruct (freq_range _ _ z Hz Hzr) as [Ea|La]; [|right; unfold skz in *; lra]. destruct (freq_range _ _ y Hs Hr) as [Eb|Lb]; [|right; unfold sk in *; lra]. destruct (freq_range _ _ x Hs Hr) as [Ec|Lc]; [|right; unfold sk in *; lra].
  left. unfold skz, sk. rewrite Ea, Eb, Ec. rewrite !Rmult_0_l, !Rplus_0_l. apply sqrt_0.
Qed.
Lemma dk_eq : s_dk p = 1 / (IZR (s_size p) * s_res p) /\ s_dkz p = 1 / (IZR (s_zsize p) * s_zres p).
Proof.
  unfold s_dk, s_dkz, sk, skz. destruct (freq_0 (s_size p) (s_res p) ltac:(lia)) as [-> _]. destruct (freq_0 (s_zsize p) (s_zres p) ltac:(lia)) as [-> _].
  rewrite !freq_1 by (destruct O; lia). split; ring.
Qed.
Lemma dk_pos : bpow radix2 (-153) <= s_dk p /\ bpow radix2 (-153) <= s_dkz p.
Proof. destruct dk_eq as [-> ->]. split; now apply spacing. Qed.
Lemma dk_near : near 4 (s_dk p) (fl_dk p) /\ near 4 (s_dkz p) (fl_dkz p).
Proof.
  unfold s_dk, s_dkz, fl_dk, fl_dkz, sk, skz, fl_sk, fl_skz. destruct (freq_0 (s_size p) (s_res p) ltac:(lia)) as [-> ->]. destruct (freq_0 (s_zsize p) (s_zres p) ltac:(lia)) as [-> ->].
  rewrite !Rminus_0_r. rewrite !rnd64_id by apply rnd64_float. split; now apply freq_near.
Qed.
(** the general formula for dkr *)
Definition gdkr z y x : R := sqrt (skz p z * s_dkz p * (skz p z * s_dkz p) + sk p y * s_dk p * (sk p y * s_dk p) + sk p x * s_dk p * (sk p x * s_dk p)) / s_kr p z y x.
Lemma gdkr_between z y x : s_kr p z y x <> 0 -> Rmin (s_dk p) (s_dkz p) <= gdkr z y x <= Rmax (s_dk p) (s_dkz p).
Proof.
  intros K. destruct (kr_pos z y x) as [|L]; [contradiction|]. pose proof (bpow_pos (-153)) as P. destruct dk_pos as [D1 D2].
  pose proof (Rmin_l (s_dk p) (s_dkz p)). pose proof (Rmin_r (s_dk p) (s_dkz p)). pose proof (Rmax_l (s_dk p) (s_dkz p)). pose proof (Rmax_r (s_dk p) (s_dkz p)).
  destruct (scale3 (skz p z) (sk p y) (sk p x) (s_dkz p) (s_dk p) (s_dk p) (Rmin (s_dk p) (s_dkz p)) (Rmax (s_dk p) (s_dkz p))) as [S1 S2]; try lra; [apply Rmin_glb; lra|].
  rewrite <- kr_sq in S1, S2. unfold gdkr. split; (apply Rmult_le_reg_r with (s_kr p z y x); [lra|]); unfold Rdiv; rewrite (Rmult_assoc (sqrt _)), Rinv_l by lra; lra.
Qed.
Lemma kr_origin z y x : s_kr p z y x <> 0 -> ((z =? 0)%Z && (y =? 0)%Z && (x =? 0)%Z)%bool = false.
Proof.
  intros K. destruct ((z =? 0)%Z && (y =? 0)%Z && (x =? 0)%Z)%bool eqn:E; [|reflexivity]. exfalso. apply K.
  apply andb_prop in E. destruct E as [E Ex]. apply andb_prop in E. destruct E as [Ez Ey]. apply Z.eqb_eq in Ex, Ey, Ez. subst.
  rewrite kr_sq. unfold skz, sk. destruct (freq_0 (s_size p) (s_res p) ltac:(lia)) as [-> _]. destruct (freq_0 (s_zsize p) (s_zres p) ltac:(lia)) as [-> _].
  rewrite !Rmult_0_l, !Rplus_0_l. apply sqrt_0.
Qed.
Lemma dkr_general z y x : s_kr p z y x <> 0 -> s_dkr p z y x = gdkr z y x.
Proof.
  intros K. unfold s_dkr. destruct (Req_EM_T (s_dk p) (s_dkz p)) as [E|E].
  - pose proof (gdkr_between z y x K) as B. rewrite <- E in B. rewrite Rmin_left, Rmax_left in B by lra. lra.
  - rewrite kr_origin by exact K. unfold gdkr. f_equal. f_equal. ring.
Qed.
Lemma dkr_near z y x : s_kr p z y x <> 0 -> near 51 (s_dkr p z y x) (fl_dkr p z y x).
Proof.
  intros K. rewrite dkr_general by exact K. destruct dk_near as [N1 N2]. destruct dk_pos as [D1 D2]. pose proof (bpow_pos (-153)) as P.
  pose proof (gdkr_between z y x K) as B. assert (G0 : bpow radix2 (-153) <= gdkr z y x). { eapply Rle_trans; [|apply B]. apply Rmin_glb; lra. }
  unfold fl_dkr. destruct (Req_EM_T (fl_dk p) (fl_dkz p)) as [E|E].
  - (* equal spacings *)
    destruct N1 as (r1 & R1 & E1). destruct N2 as (r2 & R2 & E2). pose proof uu_pos as U. set (f := fl_dk p) in *. rewrite <- E in E2.
    set (g := gdkr z y x) in *. exists (f / g). split; [|field; lra].
    assert (B1 : f <= g * (1 + 4 * uu)). { unfold Rmin in B. destruct (Rle_dec (s_dk p) (s_dkz p)); [rewrite E1|rewrite E2]; nra. }
    assert (B2 : g * (1 - 4 * uu) <= f). { unfold Rmax in B. destruct (Rle_dec (s_dk p) (s_dkz p)); [rewrite E2|rewrite E1]; nra. }
    split; (apply Rmult_le_reg_r with g; [lra|]); unfold Rdiv; rewrite (Rmult_assoc f), Rinv_l by lra; nra.
  - rewrite kr_origin by exact K. unfold gdkr.
    assert (PR : forall q d q' d', near 4 q q' -> near 4 d d' -> (q = 0 \/ bpow radix2 (-153) <= Rabs q) -> bpow radix2 (-153) <= d ->
      near 11 (q * d) (rnd64 (q' * d')) /\ (q * d = 0 \/ bpow radix2 (-306) <= Rabs (q * d))).
    { intros q d q' d' Nq Nd Rq Rd. assert (R : q * d = 0 \/ bpow radix2 (-306) <= Rabs (q * d)).
      { destruct Rq as [-> | Rq]; [left; ring|right]. rewrite Rabs_mult, (Rabs_pos_eq d) by lra. change (-306)%Z with (-153 + -153)%Z. rewrite bpow_plus. apply Rmult_le_compat; lra. }
      split; [|exact R]. assert (N : near 9 (q * d) (q' * d')). { replace 9 with (4 + 4 + 1) by ring. apply near_mult; auto; sm. }
      replace 11 with (9 + 2) by ring. apply near_rnd; [sm|exact N|].
      destruct (near_range 9 (q * d) (q' * d') (bpow radix2 (-307))) as [|L]; [sm|exact N| |apply bpow_ge_0|now right|left; eapply Rle_trans; [|exact L]; apply bpow_le; lia].
      destruct R as [|R]; [now left|right]. change (-306)%Z with (1 + -307)%Z in R. rewrite bpow_plus in R. exact R. }
    destruct (PR _ _ _ _ (freq_near _ _ z Hz Hzr) N2 (freq_range _ _ z Hz Hzr) D2) as [Pz Rz].
    destruct (PR _ _ _ _ (freq_near _ _ y Hs Hr) N1 (freq_range _ _ y Hs Hr) D1) as [Py Ry].
    destruct (PR _ _ _ _ (freq_near _ _ x Hs Hr) N1 (freq_range _ _ x Hs Hr) D1) as [Px Rx].
    assert (W : forall t, t = 0 \/ bpow radix2 (-306) <= Rabs t -> t = 0 \/ bpow radix2 (-400) <= Rabs t). { intros t [|H]; [now left|right]. eapply Rle_trans; [|exact H]. apply bpow_le. lia. }
    assert (NN := fl_norm3_near 11 _ _ _ _ _ _ ltac:(lra) Pz Py Px (W _ Rz) (W _ Ry) (W _ Rx)).
    replace (2 * 11 + 9) with 31 in NN by ring.
    assert (ND := near_div 31 17 _ _ _ _ ltac:(sm) ltac:(sm) NN (skr_near z y x)). replace (31 + 17 + 1) with 49 in ND by ring.
    replace 51 with (49 + 2) by ring. apply near_rnd; [sm|exact ND|left].
    fold (sk p y) (sk p x) (skz p z) in ND. change (near 49 (gdkr z y x) (fl_norm3 (rnd64 (fl_skz p z * fl_dkz p)) (rnd64 (fl_sk p y * fl_dk p)) (rnd64 (fl_sk p x * fl_dk p)) / fl_skr p z y x)) in ND.
    destruct (near_range 49 (gdkr z y x) _ (bpow radix2 (-154)) ltac:(sm) ND) as [Z0|L]; [right|apply bpow_ge_0| |].
    + rewrite Rabs_pos_eq by lra. change (-153)%Z with (1 + -154)%Z in G0. rewrite bpow_plus in G0. exact G0.
    + exfalso. destruct (near_sign 49 _ _ ltac:(sm) ND) as [_ S]. specialize (S ltac:(lra)). unfold fl_sk, fl_skz in *. lra.
    + unfold fl_sk, fl_skz in *. eapply Rle_trans; [|exact L]. apply bpow_le. lia.
Qed.

(** kmag and kz_min *)
Lemma ratio_range a : bpow radix2 (-100) <= a -> bpow radix2 (-200) <= a / s_wl p.
Proof.
  intros Ha. destruct (ord_wl p O) as [W1 W2]. pose proof (bpow_pos (-100)) as P. apply Rmult_le_reg_r with (s_wl p); [lra|]. unfold Rdiv. rewrite Rmult_assoc, Rinv_l by lra. rewrite Rmult_1_r.
  eapply Rle_trans; [|exact Ha]. apply Rle_trans with (bpow radix2 (-200) * bpow radix2 100); [apply Rmult_le_compat_l; [apply bpow_ge_0|exact W2]|]. rewrite <- bpow_plus. apply bpow_le. lia.
Qed.
Lemma ratio_near a : bpow radix2 (-100) <= a -> near 2 (a / s_wl p) (rnd64 (a / s_wl p)).
Proof.
  intros Ha. replace 2 with (0 + 2) by ring. apply near_rnd; [sm|apply near_refl; lra|left]. pose proof (ratio_range a Ha) as R. pose proof (bpow_pos (-200)). rewrite Rabs_pos_eq by lra. eapply Rle_trans; [|exact R]. apply bpow_le. lia.
Qed.
Context (sq : R -> R).
Hypothesis Hm : monotone_square sq.
Lemma radicand_nonneg : 0 <= fl_radicand sq p.
Proof.
  unfold fl_radicand. apply rnd64_nonneg. destruct (ord_na p O) as [A1 A2]. pose proof (bpow_pos (-100)) as P. pose proof (rng_pos _ (ord_wl p O)) as W.
  assert (X : 0 <= rnd64 (s_na p / s_wl p) <= rnd64 (s_ni p / s_wl p)).
  { split; [apply rnd64_nonneg; apply Rmult_le_pos; [lra|left; now apply Rinv_0_lt_compat]|apply rnd64_le; apply Rmult_le_compat_r; [left; now apply Rinv_0_lt_compat|exact A2]]. }
  apply Hm in X. lra.
Qed.
Hypothesis Ha : accurate_square sq.
Lemma sq_near a : bpow radix2 (-100) <= a -> is_float (sq (rnd64 (a / s_wl p))) /\ near 8 (a / s_wl p * (a / s_wl p)) (sq (rnd64 (a / s_wl p))).
Proof.
  intros A. pose proof (ratio_near a A) as N. pose proof (ratio_range a A) as R. pose proof (bpow_pos (-200)) as P. set (v := a / s_wl p) in *. set (f := rnd64 v) in *.
  assert (L : bpow radix2 (-201) <= f).
  { destruct N as (r & R1 & ->). pose proof uu_pos. change (-201)%Z with (-1 + -200)%Z. rewrite bpow_plus. change (bpow radix2 (-1)) with (/ 2). nra. }
  pose proof (bpow_pos (-201)) as P2.
  assert (L2 : bpow radix2 (-1022) <= f * f). { apply Rle_trans with (bpow radix2 (-201) * bpow radix2 (-201)); [rewrite <- bpow_plus; apply bpow_le; lia|]. apply Rmult_le_compat; lra. }
  destruct (Ha f L2) as [F E]. split; [exact F|]. rewrite bpow_52 in E. apply Rabs_le_inv in E.
  assert (N2 : near 2 (f * f) (sq f)). { exists (sq f / (f * f)). assert (Q : 0 < f * f) by nra. split; [|field; lra]. split; (apply Rmult_le_reg_r with (f * f); [exact Q|]); unfold Rdiv; rewrite (Rmult_assoc (sq f)), Rinv_l by lra; lra. }
  apply (near_sqr 2) in N; [|sm]. destruct N as (r & R1 & R2). destruct N2 as (s & S1 & S2). rewrite R2 in S2.
  destruct (near_mult 5 2 (v * v) 1 (v * v * r) s) as (t & T1 & T2); [sm|sm|exists r; split; [lra|ring]|exists s; split; [lra|ring]|].
  exists t. split; [lra|]. rewrite S2, T2. ring.
Qed.
Lemma kz_min_err : Rabs (fl_kz_min sq p - s_kz_min p) <= bpow radix2 (-24) * s_kmag p + 3 * uu * s_kmag p.
Proof.
  destruct (ord_na p O) as [A1 A2]. pose proof (bpow_pos (-100)) as P. pose proof (rng_pos _ (ord_wl p O)) as W. assert (Hni : bpow radix2 (-100) <= s_ni p) by lra.
  destruct (sq_near _ Hni) as [F1 N1]. destruct (sq_near _ A1) as [F2 N2]. pose proof (ratio_range _ Hni) as R1. pose proof radicand_nonneg as X0.
  unfold fl_kz_min, s_kz_min, s_kmag. pose proof (bpow_pos (-200)) as P2.
  assert (Q : 0 <= s_na p / s_wl p <= s_ni p / s_wl p). { split; [apply Rmult_le_pos; [lra|left; now apply Rinv_0_lt_compat]|apply Rmult_le_compat_r; [left; now apply Rinv_0_lt_compat|exact A2]]. }
  set (k := s_ni p / s_wl p) in *. set (q := s_na p / s_wl p) in *.
  assert (E1 : Rabs (fl_radicand sq p - (k ^ 2 - q ^ 2)) <= 18 * uu * (k * k)).
  { unfold fl_radicand. fold k q. destruct (rnd64_plus (sq (rnd64 k)) (- sq (rnd64 q)) F1) as (e & He & Ee). { rewrite <- (rnd64_id _ F2), <- rnd64_opp. apply rnd64_float. }
    unfold Rminus at 2. rewrite Ee. apply near_abs_err in N1, N2. rewrite (Rabs_pos_eq (k * k)) in N1 by nra. rewrite (Rabs_pos_eq (q * q)) in N2 by nra.
    apply Rabs_le_inv in N1, N2, He. pose proof uu_pos as U.
    assert (D : Rabs (sq (rnd64 k) + - sq (rnd64 q) - (k ^ 2 - q ^ 2)) <= 16 * uu * (k * k)). { assert (QQ : q * q <= k * k) by nra. assert (Q8 : 8 * uu * (q * q) <= 8 * uu * (k * k)) by (apply Rmult_le_compat_l; lra). replace (k ^ 2 - q ^ 2) with (k * k - q * q) by ring. apply Rabs_le. lra. }
    set (y := sq (rnd64 k) + - sq (rnd64 q)) in *. assert (X : 0 <= k ^ 2 - q ^ 2 <= k * k) by (split; nra). set (X' := k ^ 2 - q ^ 2) in *. assert (KK : 0 <= k * k) by nra. set (K2 := k * k) in *. clearbody y X' K2.
    apply Rabs_le_inv in D. assert (Y : - (1001 / 1000 * K2) <= y <= 1001 / 1000 * K2) by (unfold uu in *; split; lra).
    assert (Z : Rabs (y * e) <= 1001 / 1000 * K2 * uu). { rewrite Rabs_mult. apply Rmult_le_compat; try apply Rabs_pos; apply Rabs_le; lra. }
    apply Rabs_le_inv in Z. apply Rabs_le. split; nra. }
  assert (E2 : Rabs (sqrt (fl_radicand sq p) - sqrt (k ^ 2 - q ^ 2)) <= bpow radix2 (-24) * k).
  { apply sqrt_close; [exact X0|nra|apply Rmult_le_pos; [apply bpow_ge_0|lra]|]. eapply Rle_trans; [exact E1|]. change (bpow radix2 (-24)) with (/ 16777216). unfold uu. nra. }
  set (s := sqrt (fl_radicand sq p)) in *. destruct (rnd64_any s) as (e & t & He & Ht & ->).
  assert (S1 : sqrt (k ^ 2 - q ^ 2) <= k). { rewrite <- (sqrt_square k) at 2 by lra. apply sqrt_le_1_alt. nra. }
  assert (S2 : 0 <= s <= 3 / 2 * k). { split; [apply sqrt_pos|]. apply Rabs_le_inv in E2. change (bpow radix2 (-24)) with (/ 16777216) in E2. lra. }
  assert (T : Rabs t <= uu * k). { eapply Rle_trans; [exact Ht|]. apply Rle_trans with (bpow radix2 (-53) * bpow radix2 (-200)); [rewrite <- bpow_plus; apply bpow_le; lia|]. change (bpow radix2 (-53)) with uu. apply Rmult_le_compat_l; [pose proof uu_pos; lra|exact R1]. }
  replace (s * (1 + e) + t - sqrt (k ^ 2 - q ^ 2)) with ((s - sqrt (k ^ 2 - q ^ 2)) + (s * e + t)) by ring. eapply Rle_trans; [apply Rabs_triang|]. apply Rplus_le_compat; [exact E2|].
  assert (V : Rabs (s * e) <= 3 / 2 * k * uu). { rewrite Rabs_mult. apply Rmult_le_compat; try apply Rabs_pos; [apply Rabs_le; lra|exact He]. }
  eapply Rle_trans; [apply Rabs_triang|]. pose proof uu_pos. nra.
Qed.

(** ** the valid points *)
Let eps1 := bpow radix2 (-46).
Let eps2 := bpow radix2 (-23).
Definition deep z y x : Prop :=
  Rabs (s_kr p z y x - s_kmag p) <= s_dkr p z y x - eps1 * (s_kr p z y x + s_kmag p + s_dkr p z y x) /\
  s_kz_min p + s_dkr p z y x + eps2 * (s_kmag p + s_dkr p z y x + Rabs (skz p z)) <= s_kzz p z.
Definition off z y x : Prop :=
  s_dkr p z y x + eps1 * (s_kr p z y x + s_kmag p + s_dkr p z y x) <= Rabs (s_kr p z y x - s_kmag p) \/
  s_kzz p z <= s_kz_min p + s_dkr p z y x - eps2 * (s_kmag p + s_dkr p z y x + Rabs (skz p z)).
Lemma e1 : eps1 = 128 * uu. Proof. unfold eps1, uu. change (bpow radix2 (-46)) with (/ 70368744177664). lra. Qed.
Lemma e2 : eps2 = / 8388608. Proof. reflexivity. Qed.
Lemma kmag_pos : bpow radix2 (-200) <= s_kmag p.
Proof. apply ratio_range. apply (ord_ni p O). Qed.
Lemma radial_err z y x : Rabs (Rabs (rnd64 (fl_skr p z y x - rnd64 (s_ni p / s_wl p))) - Rabs (s_kr p z y x - s_kmag p)) <= 20 * uu * (s_kr p z y x + s_kmag p).
Proof.
  pose proof (skr_near z y x) as N1. pose proof (ratio_near (s_ni p) (proj1 (ord_ni p O))) as N2. fold (s_kmag p) in N2 |- *. pose proof kmag_pos as K. pose proof (bpow_pos (-200)).
  assert (R0 : 0 <= s_kr p z y x) by apply sqrt_pos.
  destruct (rnd64_plus (fl_skr p z y x) (- rnd64 (s_kmag p)) (rnd64_float _)) as (e & He & Ee). { rewrite <- rnd64_opp. apply rnd64_float. }
  unfold Rminus at 2. rewrite Ee. apply near_abs_err in N1, N2. rewrite (Rabs_pos_eq (s_kr p z y x)) in N1 by exact R0. rewrite (Rabs_pos_eq (s_kmag p)) in N2 by lra.
  set (a := s_kr p z y x) in *. set (b := s_kmag p) in *. set (a' := fl_skr p z y x) in *. set (b' := rnd64 b) in *. pose proof uu_pos as U.
  eapply Rle_trans; [apply Rabs_triang_inv2|]. replace ((a' + - b') * (1 + e) - (a - b)) with ((a' - a) + - (b' - b) + (a' + - b') * e) by ring.
  eapply Rle_trans; [apply Rabs_triang|]. assert (T1 : Rabs (a' - a + - (b' - b)) <= 17 * uu * a + 2 * uu * b). { eapply Rle_trans; [apply Rabs_triang|]. rewrite Rabs_Ropp. lra. }
  assert (T2 : Rabs ((a' + - b') * e) <= 2 * (a + b) * uu). { rewrite Rabs_mult. apply Rmult_le_compat; try apply Rabs_pos; [|exact He]. apply Rabs_le_inv in N1, N2. clear - N1 N2 R0 K H. unfold uu in *. apply Rabs_le. lra. }
  nra.
Qed.
Lemma polar_err z y x : s_kr p z y x <> 0 ->
  Rabs (rnd64 (fl_kz_min sq p + fl_dkr p z y x) - (s_kz_min p + s_dkr p z y x)) <= / 16000000 * (s_kmag p + s_dkr p z y x).
Proof.
  intros K. pose proof (dkr_near z y x K) as N. pose proof kz_min_err as E. pose proof kmag_pos as KM. pose proof (bpow_pos (-200)) as P.
  assert (FF : is_float (fl_dkr p z y x)). { unfold fl_dkr. destruct (Req_EM_T _ _); [apply rnd64_float|]. destruct (_ && _)%bool; [apply is_float_0|apply rnd64_float]. }
  destruct (rnd64_plus (fl_kz_min sq p) (fl_dkr p z y x) (rnd64_float _) FF) as (e & He & ->).
  assert (D0 : 0 < s_dkr p z y x). { rewrite dkr_general by exact K. destruct dk_pos. pose proof (bpow_pos (-153)). eapply Rlt_le_trans; [|apply gdkr_between; exact K]. apply Rmin_glb_lt; lra. }
  apply near_abs_err in N. rewrite (Rabs_pos_eq (s_dkr p z y x)) in N by lra.
  assert (M : 0 <= s_kz_min p <= s_kmag p).
  { split; [apply sqrt_pos|]. unfold s_kz_min. rewrite <- (sqrt_square (s_kmag p)) at 2 by lra. apply sqrt_le_1_alt. nra. }
  set (m := s_kz_min p) in *. set (m' := fl_kz_min sq p) in *. set (d := s_dkr p z y x) in *. set (d' := fl_dkr p z y x) in *. set (k := s_kmag p) in *.
  change (bpow radix2 (-24)) with (/ 16777216) in E. clearbody m m' d d' k. clear - E N He M D0 KM P.
  assert (S : Rabs ((m' + d') * e) <= 2 * (k + d) * uu). { rewrite Rabs_mult. apply Rmult_le_compat; try apply Rabs_pos; [|exact He]. apply Rabs_le_inv in N, E. unfold uu in *. apply Rabs_le. lra. }
  apply Rabs_le_inv in N, E, S. replace ((m' + d') * (1 + e) - (m + d)) with ((m' - m) + (d' - d) + (m' + d') * e) by ring. unfold uu in *. apply Rabs_le. lra.
Qed.
Lemma kzz_err z : Rabs (fl_kzz p z - s_kzz p z) <= 4 * uu * Rabs (skz p z).
Proof.
  assert (N := near_abs_err 4 _ _ (freq_near _ _ z Hz Hzr)). fold (skz p z) (fl_skz p z) in N. unfold fl_kzz, s_kzz. destruct (s_dual p); [|exact N]. eapply Rle_trans; [apply Rabs_triang_inv2|exact N].
Qed.
Lemma origin_off z y x : s_kr p z y x = 0 -> fl_valid sq p z y x = false /\ s_valid p z y x = false.
Proof.
  intros K. assert (F : skz p z = 0).
  { rewrite kr_sq in K. apply sqrt_eq_0 in K; [|nra]. nra. }
  assert (F' : fl_skz p z = 0). { assert (N := freq_near _ _ z Hz Hzr). fold (skz p z) (fl_skz p z) in N. rewrite F in N. now apply near_0 in N. }
  assert (Z1 : fl_kzz p z = 0) by (unfold fl_kzz; rewrite F', Rabs_R0; destruct (s_dual p); reflexivity).
  assert (Z2 : s_kzz p z = 0) by (unfold s_kzz; rewrite F, Rabs_R0; destruct (s_dual p); reflexivity).
  assert (G1 : 0 <= s_kz_min p) by apply sqrt_pos. assert (G2 : 0 <= fl_kz_min sq p) by (apply rnd64_nonneg, sqrt_pos).
  destruct dk_pos as [D1 D2]. pose proof (bpow_pos (-153)) as P.
  assert (G3 : 0 <= s_dkr p z y x).
  { unfold s_dkr. destruct (Req_EM_T _ _); [lra|]. destruct (_ && _)%bool; [lra|]. rewrite K. unfold Rdiv. rewrite Rinv_0. lra. }
  assert (G4 : 0 <= fl_dkr p z y x).
  { unfold fl_dkr. destruct dk_near as [N1 N2]. destruct (Req_EM_T _ _); [destruct (near_sign 4 _ _ ltac:(sm) N1) as [S _]; apply S; lra|]. destruct (_ && _)%bool; [lra|].
    assert (Q : fl_skr p z y x = 0) by (pose proof (skr_near z y x) as N; rewrite K in N; now apply near_0 in N). rewrite Q. unfold Rdiv. rewrite Rinv_0, Rmult_0_r, rnd64_0. lra. }
  unfold fl_valid, s_valid. rewrite Z1, Z2. split.
  - destruct (Rlt_dec (rnd64 (fl_kz_min sq p + fl_dkr p z y x)) 0) as [L|]; [|apply andb_false_r]. exfalso. assert (0 <= rnd64 (fl_kz_min sq p + fl_dkr p z y x)) by (apply rnd64_nonneg; lra). lra.
  - destruct (Rlt_dec (s_kz_min p + s_dkr p z y x) 0) as [L|]; [|apply andb_false_r]. exfalso. lra.
Qed.
Lemma dkr_pos z y x : s_kr p z y x <> 0 -> 0 < s_dkr p z y x.
Proof. intros K. rewrite dkr_general by exact K. destruct dk_pos. pose proof (bpow_pos (-153)). eapply Rlt_le_trans; [|apply gdkr_between; exact K]. apply Rmin_glb_lt; lra. Qed.
Lemma deep_valid z y x : deep z y x -> fl_valid sq p z y x = true /\ s_valid p z y x = true.
Proof.
  intros [H1 H2]. pose proof kmag_pos as KM. pose proof (bpow_pos (-200)) as P. assert (R0 : 0 <= s_kr p z y x) by apply sqrt_pos.
  destruct (Req_EM_T (s_kr p z y x) 0) as [K|K].
  - exfalso. assert (F : skz p z = 0) by (rewrite kr_sq in K; apply sqrt_eq_0 in K; nra).
    assert (Z2 : s_kzz p z = 0) by (unfold s_kzz; rewrite F, Rabs_R0; destruct (s_dual p); reflexivity).
    assert (G1 : 0 <= s_kz_min p) by apply sqrt_pos. destruct dk_pos as [D1 D2]. pose proof (bpow_pos (-153)) as P3.
    assert (G3 : 0 <= s_dkr p z y x). { unfold s_dkr. destruct (Req_EM_T _ _); [lra|]. destruct (_ && _)%bool; [lra|]. rewrite K. unfold Rdiv. rewrite Rinv_0. lra. }
    rewrite Z2, F, Rabs_R0, e2 in H2. lra.
  - pose proof (radial_err z y x) as E1. pose proof (polar_err z y x K) as E2. pose proof (kzz_err z) as E3. pose proof (near_abs_err _ _ _ (dkr_near z y x K)) as E4. pose proof (dkr_pos z y x K) as D0.
    rewrite (Rabs_pos_eq (s_dkr p z y x)) in E4 by lra. rewrite e1 in H1. rewrite e2 in H2. pose proof (Rabs_pos (skz p z)) as Z0. apply Rabs_le_inv in E1, E2, E3, E4.
    pose proof uu_pos as U. unfold fl_valid, s_valid. split; apply andb_true_intro; split; destruct (Rlt_dec _ _) as [|G]; try reflexivity; exfalso; apply G; clear G.
    + nra.
    + unfold uu in *. lra.
    + assert (0 < 128 * uu * (s_kr p z y x + s_kmag p + s_dkr p z y x)) by (apply Rmult_lt_0_compat; lra). lra.
    + lra.
Qed.
Lemma off_invalid z y x : off z y x -> fl_valid sq p z y x = false /\ s_valid p z y x = false.
Proof.
  intros H. pose proof kmag_pos as KM. pose proof (bpow_pos (-200)) as P. assert (R0 : 0 <= s_kr p z y x) by apply sqrt_pos.
  destruct (Req_EM_T (s_kr p z y x) 0) as [K|K]; [now apply origin_off|].
  pose proof (radial_err z y x) as E1. pose proof (polar_err z y x K) as E2. pose proof (kzz_err z) as E3. pose proof (near_abs_err _ _ _ (dkr_near z y x K)) as E4. pose proof (dkr_pos z y x K) as D0.
  rewrite (Rabs_pos_eq (s_dkr p z y x)) in E4 by lra. pose proof (Rabs_pos (skz p z)) as Z0. apply Rabs_le_inv in E1, E2, E3, E4. pose proof uu_pos as U.
  unfold off in H. rewrite e1, e2 in H. unfold fl_valid, s_valid. destruct H as [H|H].
  - assert (0 < 128 * uu * (s_kr p z y x + s_kmag p + s_dkr p z y x)) by (apply Rmult_lt_0_compat; lra).
    split; apply andb_false_intro1; destruct (Rlt_dec _ _) as [G|]; try reflexivity; exfalso; [nra|lra].
  - split; apply andb_false_intro2; destruct (Rlt_dec _ _) as [G|]; try reflexivity; exfalso; [unfold uu in *; lra|lra].
Qed.
End Shell.
