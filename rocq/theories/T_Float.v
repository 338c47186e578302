(** C97-C99: what binary64 rounding can and cannot change. *)
From Verif Require Import M_Float S_Float S_Radial L_Radial L_Float L_Float2 L_Float3 L_Float4 L_Float5 L_Noll L_Array L_Sum.
From Flocq Require Import Core.
From Coq Require Import Lra Lia Permutation.
Local Open Scope R_scope.

(** ** C97 radial profile: with bins of one pixel, the centre on a pixel or half way between pixels, the computed bin is the
    mathematical one (nearest integer to the true distance, ties to even), up to four million pixels from the centre. *)
Theorem C97_radial_bins : forall (c : list R) (ix : list Z) (k : Z),
  Forall half_integer c -> dist2 c ix < 2 ^ 44 -> (fl_bin c 1 ix = k <-> in_bin c 1 k ix).
Proof. intros c ix k Hc Hd. rewrite (fl_bin_exact c ix Hc Hd). apply rp_bin_spec. Qed.
Print Assumptions C97_radial_bins.

Lemma dist2_default sh : forall ix, inb sh ix -> Forall (fun n => (n <= 2 ^ 20)%Z) sh -> dist2 (map (fun n => IZR (n / 2)) sh) ix <= INR (List.length sh) * 274877906944.
Proof.
  intros ix. revert sh. induction ix as [|i ix IH]; intros [|n sh] H F; cbn [map dist2 List.length]; try (cbn; lra); try (now destruct H).
  - exfalso. inversion H.
  - inversion F as [|? ? Hn F']; subst. assert (Hi : (0 <= i < n)%Z /\ inb sh ix) by (inversion H; auto). destruct Hi as [Hi Hix].
    specialize (IH sh Hix F'). rewrite S_INR. rewrite <- minus_IZR, <- mult_IZR.
    assert (IZR ((i - n / 2) * (i - n / 2)) <= 274877906944).
    { apply IZR_le. pose proof (Z.div_mod n 2 ltac:(lia)). pose proof (Z.mod_pos_bound n 2 ltac:(lia)). assert (- 524288 <= i - n / 2 <= 524288)%Z by lia. nia. }
    lra.
Qed.
(** ... so the profile about the default centre is the one computed with exact distances, for every array of up to 32 axes of up to 2^20 pixels *)
Theorem C97_default_profile : forall data : array R,
  Forall (fun n => (n <= 2 ^ 20)%Z) (shape data) -> (List.length (shape data) <= 32)%nat ->
  fl_radial_profile data None 1 = radial_profile data None 1.
Proof.
  intros data F L. set (c := map (fun n => IZR (n / 2)) (shape data)).
  assert (E : forall ix, In ix (all_ix (shape data)) -> fl_bin c 1 ix = rp_bin c 1 ix).
  { intros ix Hix. apply fl_bin_exact.
    - unfold c. rewrite Forall_map. rewrite Forall_forall. intros n _. exists (2 * (n / 2))%Z. rewrite mult_IZR. lra.
    - eapply Rle_lt_trans; [apply dist2_default; auto; now apply in_all_ix|].
      apply le_INR in L. change (INR 32) with (IZR (Z.of_nat 32)) in L || idtac. assert (L' : INR (List.length (shape data)) <= 32) by (eapply Rle_trans; [exact L|]; rewrite INR_IZR_INZ; apply IZR_le; cbn; lia). lra. }
  unfold fl_radial_profile, radial_profile. cbn [rp_center bind]. fold c.
  assert (E1 : existsb (fun ix => (fl_bin c 1 ix <? 0)%Z) (all_ix (shape data)) = existsb (fun ix => (rp_bin c 1 ix <? 0)%Z) (all_ix (shape data))).
  { clear - E. induction (all_ix (shape data)) as [|ix l IH]; [reflexivity|]. cbn [existsb]. rewrite (E ix (or_introl eq_refl)), IH; [reflexivity|]. intros; apply E; now right. }
  assert (E2 : rp_len (shape data) (fl_bin c 1) = rp_len (shape data) (rp_bin c 1)).
  { unfold rp_len. destruct (all_ix (shape data)) as [|i l]; [reflexivity|]. do 2 f_equal. apply map_ext_in. exact E. }
  assert (E3 : forall w k, rp_count (shape data) (fl_bin c 1) w k = rp_count (shape data) (rp_bin c 1) w k).
  { intros w k. unfold rp_count. f_equal. apply filter_ext_in. intros ix Hix. now rewrite E. }
  rewrite E1, E2. destruct (existsb (fun ix => (rp_bin c 1 ix <? 0)%Z) (all_ix (shape data))); [reflexivity|]. do 2 f_equal; apply map_ext; intros k; now rewrite ?E3.
Qed.
Print Assumptions C97_default_profile.
Example C97_profile_case : fl_radial_profile (mkArr [512; 512]%Z (fun _ => 1)) None 1 = radial_profile (mkArr [512; 512]%Z (fun _ => 1)) None 1.
Proof. apply C97_default_profile; cbn; [repeat constructor; lia|lia]. Qed.
(** the tie at distance 5/2 from a half-integer centre goes to the even bin in both *)
Example C97_tie : fl_bin [/ 2; / 2] 1 [2; 2]%Z = 2%Z /\ fl_bin [/ 2; 0] 1 [3; 0]%Z = 2%Z.
Proof.
  split; apply C97_radial_bins; try (repeat constructor; (now exists 1%Z; lra) || (now exists 0%Z; lra)); cbn [dist2]; try lra; unfold in_bin; cbv zeta; cbn [dist2].
  - assert (sqrt ((2 - / 2) * (2 - / 2) + ((2 - / 2) * (2 - / 2) + 0)) <= 5 / 2). { apply sqrt_le_abs || idtac. rewrite <- (sqrt_square (5 / 2)) by lra. apply sqrt_le_1_alt. lra. }
    assert (3 / 2 < sqrt ((2 - / 2) * (2 - / 2) + ((2 - / 2) * (2 - / 2) + 0))). { rewrite <- (sqrt_square (3 / 2)) at 1 by lra. apply sqrt_lt_1_alt. lra. }
    split; [apply Rabs_le; lra|reflexivity].
  - replace ((3 - / 2) * (3 - / 2) + ((0 - 0) * (0 - 0) + 0)) with (5 / 2 * (5 / 2)) by lra. rewrite sqrt_square by lra. split; [apply Rabs_le; lra|reflexivity].
Qed.

(** ** C97 pinhole: the computed disc never contains a pixel outside the mathematical one, and misses only pixels whose distance agrees
    with the radius to 53 bits; for radii with at most six binary places there are none.  The size of the array and, but for one
    rounding, the total are exact. *)
Definition centre_dist (n y x : Z) : R := let c := ((n - 1) / 2)%Z in sqrt (IZR (y - c) ^ 2 + IZR (x - c) ^ 2).
Lemma disk_hit_arg r n y x :
  fl_disk_hit r y x = (if Rlt_dec (rnd64 (sqrt (rnd64 (IZR ((y - (fl_disk_size r - 1) / 2) * (y - (fl_disk_size r - 1) / 2) + (x - (fl_disk_size r - 1) / 2) * (x - (fl_disk_size r - 1) / 2)))))) r then true else false)
  /\ (n = fl_disk_size r -> centre_dist n y x = sqrt (IZR ((y - (n - 1) / 2) * (y - (n - 1) / 2) + (x - (n - 1) / 2) * (x - (n - 1) / 2)))).
Proof. split; [reflexivity|]. intros _. unfold centre_dist. f_equal. rewrite plus_IZR, !mult_IZR. ring. Qed.
Lemma disk_size_le r b : 0 < r <= IZR b -> (1 <= fl_disk_size r <= 2 * b + 1)%Z \/ ~ is_float r.
Proof.
  intros Hr. destruct (Classical_Prop.classic (is_float r)) as [F|F]; [left|now right]. rewrite (disk_size_exact r F). unfold disk_size.
  assert (A : (Zceil (r * 2) <= 2 * b)%Z) by (apply Zceil_glb; rewrite mult_IZR; lra).
  assert (B : (0 < Zceil (r * 2))%Z). { apply lt_IZR. eapply Rlt_le_trans; [|apply Zceil_ub]. lra. }
  destruct (_ =? 0)%Z; lia.
Qed.
Theorem C97_pinhole : forall (radius : R), is_float radius -> 0 < radius <= 2 ^ 20 ->
  let n := fl_disk_size radius in
  n = disk_size radius /\
  (forall y x, (0 <= y < n)%Z -> (0 <= x < n)%Z ->
     (fl_disk_hit radius y x = true -> centre_dist n y x < radius) /\
     (centre_dist n y x < (1 - bpow radix2 (-53)) * radius -> fl_disk_hit radius y x = true) /\
     (forall a, radius = IZR a / 2 ^ 6 -> radius < 2 ^ 18 -> centre_dist n y x < radius -> fl_disk_hit radius y x = true)) /\
  Rabs (Rsum (zseq n) (fun y => Rsum (zseq n) (fun x => fl_disk_value radius y x)) - 1) <= bpow radix2 (-53).
Proof.
  intros r F Hr n. split; [now apply disk_size_exact|]. assert (P20 : (2:R) ^ 20 = 1048576) by lra. rewrite P20 in Hr.
  destruct (disk_size_le r 1048576 Hr) as [Hn|]; [|contradiction]. fold n in Hn.
  assert (C : forall b, (1 <= n <= 2 * b + 1)%Z -> forall y, (0 <= y < n)%Z -> (- b <= y - (n - 1) / 2 <= b)%Z).
  { intros b Hb y Hy. pose proof (Z.div_mod (n - 1) 2 ltac:(lia)). pose proof (Z.mod_pos_bound (n - 1) 2 ltac:(lia)). lia. }
  split.
  - intros y x Hy Hx. destruct (disk_hit_arg r n y x) as [EH ED]. rewrite (ED eq_refl), EH. fold n. pose proof (C _ Hn y Hy) as Cy. pose proof (C _ Hn x Hx) as Cx.
    set (q := ((y - (n - 1) / 2) * (y - (n - 1) / 2) + (x - (n - 1) / 2) * (x - (n - 1) / 2))%Z).
    assert (Q : (0 <= q < 2 ^ 53)%Z). { unfold q. clear - Cy Cx. revert Cy Cx. generalize (y - (n - 1) / 2)%Z (x - (n - 1) / 2)%Z. intros a b Ha Hb. change (2 ^ 53)%Z with 9007199254740992%Z. nia. } split; [|split].
    + destruct (Rlt_dec _ _) as [L|]; [|discriminate]. intros _. now apply near_sqrt.
    + intros L. destruct (Rlt_dec _ _) as [|G]; [reflexivity|]. exfalso. apply G. apply near_sqrt_conv; [exact Q|]. rewrite Rmult_comm. exact L.
    + intros a Ea Rs L. destruct (Rlt_dec _ _) as [|G]; [reflexivity|]. exfalso. apply G. clear G. change (rnd64 (sqrt (rnd64 (IZR q))) < r). rewrite Ea in L, Rs, Hr |- *.
      assert (A : (0 < a < 16777216)%Z). { assert (P18 : (2:R) ^ 18 = 262144) by lra. assert (P6 : (2:R) ^ 6 = 64) by lra. rewrite P18 in Rs. rewrite P6 in Rs, Hr. split; apply lt_IZR; lra. }
      apply near_sqrt_short; [|lia|exact L]. split; [apply Q|].
      assert (S0 := sqrt_pos (IZR q)). assert (SS : sqrt (IZR q) * sqrt (IZR q) = IZR q) by (apply sqrt_sqrt, IZR_le; apply Q).
      apply lt_IZR. change (IZR (2 ^ 40)) with 1099511627776. assert (P18 : (2:R) ^ 18 = 262144) by lra. rewrite P18 in *. assert (sqrt (IZR q) < 262144) by lra. nra.
  - set (v := rnd64 (1 / IZR (fl_disk_count r))).
    assert (E : forall s, Rsum s (fun y => Rsum s (fun x => fl_disk_value r y x)) = INR (List.length (filter (fun p => fl_disk_hit r (fst p) (snd p)) (list_prod s s))) * v).
    { intros s. assert (G : forall l, Rsum l (fun y => Rsum s (fun x => fl_disk_value r y x)) = INR (List.length (filter (fun p => fl_disk_hit r (fst p) (snd p)) (list_prod l s))) * v); [|apply G].
      induction l as [|y l IH]; cbn [Rsum list_prod filter List.length]; [cbn; lra|]. rewrite filter_app, app_length, plus_INR, IH, Rmult_plus_distr_r. f_equal. clear IH.
      induction s as [|x s IH]; cbn [Rsum map filter List.length]; [cbn; lra|]. rewrite IH. cbn [fst snd]. unfold fl_disk_value at 1. destruct (fl_disk_hit r y x); cbn [List.length]; [rewrite S_INR; fold v; ring|ring]. }
    rewrite E. unfold n. rewrite INR_IZR_INZ. change (Z.of_nat (List.length (filter (fun p => fl_disk_hit r (fst p) (snd p)) (list_prod (zseq (fl_disk_size r)) (zseq (fl_disk_size r)))))) with (fl_disk_count r).
    assert (K : (1 <= fl_disk_count r <= n * n)%Z).
    { unfold fl_disk_count. fold n. set (f := filter _ _). split.
      - assert (I : In (((n - 1) / 2), ((n - 1) / 2))%Z f).
        { unfold f. apply filter_In. pose proof (Z.div_mod (n - 1) 2 ltac:(lia)). pose proof (Z.mod_pos_bound (n - 1) 2 ltac:(lia)). split; [apply in_prod; apply in_zseq; lia|].
          cbn [fst snd]. destruct (disk_hit_arg r n ((n - 1) / 2) ((n - 1) / 2)) as [-> _]. fold n. rewrite Z.sub_diag. cbn [Z.mul Z.add]. rewrite rnd64_0, sqrt_0, rnd64_0. destruct (Rlt_dec 0 r); [reflexivity|lra]. }
        destruct f; [destruct I|cbn [List.length]; lia].
      - assert (LE : (List.length f <= List.length (list_prod (zseq n) (zseq n)))%nat).
        { unfold f. generalize (list_prod (zseq n) (zseq n)). intros l. induction l as [|a l IH]; cbn [filter]; [lia|]. destruct (fl_disk_hit _ _ _); cbn [List.length]; lia. }
        rewrite prod_length, zseq_length in LE. nia. }
    set (k := fl_disk_count r) in *. assert (KR : 1 <= IZR k <= 8796093022208). { split; apply IZR_le; [lia|]. nia. }
    destruct (rnd64_rel (1 / IZR k)) as (e & He & Ee).
    { rewrite Rabs_pos_eq. 2:{ apply Rmult_le_pos; [lra|]. left. apply Rinv_0_lt_compat. lra. }
      apply Rle_trans with (bpow radix2 (-44)); [apply bpow_le; lia|]. change (bpow radix2 (-44)) with (/ 17592186044416). unfold Rdiv. rewrite Rmult_1_l. apply Rinv_le_contravar; lra. }
    unfold v. rewrite Ee. replace (IZR k * (1 / IZR k * (1 + e)) - 1) with e by (field; lra). exact He.
Qed.
Print Assumptions C97_pinhole.
Example C97_pinhole_case : is_float (5 / 2) /\ 5 / 2 = IZR 160 / 2 ^ 6 /\ 0 < 5 / 2 <= 2 ^ 20.
Proof. split; [exists 5%Z, (-1)%Z; split; [cbn; lra|lia]|lra]. Qed.

(** ** C97 passband of a HanserPSF: away from the edge of the aperture (a relative 2^-50 of its radius) the computed passband is the
    mathematical one, and it is exactly symmetric. *)
Theorem C97_passband : forall (hyp : R -> R -> R) (h : hpar) (y x : Z), accurate_hypot hyp ->
  (1 <= h_size h <= 2 ^ 53)%Z -> bpow radix2 (-500) <= h_res h <= bpow radix2 500 -> bpow radix2 (-1000) <= h_na h / h_wl h ->
  let cutoff := h_na h / h_wl h in
  (h_kr h y x <= (1 - bpow radix2 (-50)) * cutoff -> fl_passband hyp h y x = true /\ ideal_pupil h y x = 1) /\
  ((1 + bpow radix2 (-50)) * cutoff <= h_kr h y x -> fl_passband hyp h y x = false /\ ideal_pupil h y x = 0).
Proof.
  intros hyp h y x A Hn Hd HT cutoff. pose proof (bpow_pos (-1000)) as P. pose proof (bpow_pos (-50)) as P50. unfold ideal_pupil. fold cutoff. fold cutoff in HT. split; intros K.
  - split; [now apply fl_passband_in|]. destruct (Rlt_dec _ _) as [|G]; [reflexivity|]. exfalso. apply G. nra.
  - split; [now apply fl_passband_out|]. destruct (Rlt_dec _ _) as [G|]; [|reflexivity]. exfalso. nra.
Qed.
Print Assumptions C97_passband.
Theorem C97_passband_symmetric : forall (hyp : R -> R -> R) (h : hpar) (y x : Z), even_hypot hyp ->
  let n := h_size h in (0 < n)%Z -> (0 <= y < n)%Z -> (0 <= x < n)%Z ->
  fl_passband hyp h ((n - y) mod n) x = fl_passband hyp h y x /\
  fl_passband hyp h y ((n - x) mod n) = fl_passband hyp h y x /\
  fl_passband hyp h x y = fl_passband hyp h y x.
Proof.
  intros hyp h y x E n Hn Hy Hx. split; [now apply fl_passband_sym|]. split; [|now apply fl_passband_sym].
  assert (M : (0 <= (n - x) mod n < n)%Z) by (apply Z.mod_pos_bound; lia).
  etransitivity; [exact (proj2 (fl_passband_sym hyp h ((n - x) mod n) y E Hn M Hy))|]. etransitivity; [exact (proj1 (fl_passband_sym hyp h x y E Hn Hx Hy))|]. now apply fl_passband_sym.
Qed.
Print Assumptions C97_passband_symmetric.
(** a correctly rounded hypot qualifies *)
Example C97_hypot_exists : accurate_hypot (fun y x => rnd64 (sqrt (y * y + x * x))) /\ even_hypot (fun y x => rnd64 (sqrt (y * y + x * x))).
Proof.
  split; [split|].
  - rewrite Rmult_0_l, Rplus_0_l, sqrt_0. apply rnd64_0.
  - intros y x H. pose proof (sqrt_pos (y * y + x * x)) as P. destruct (rnd64_rel (sqrt (y * y + x * x))) as (e & He & ->); [now rewrite Rabs_pos_eq|].
    set (s := sqrt _) in *. replace (s * (1 + e) - s) with (e * s) by ring. rewrite Rabs_mult, (Rabs_pos_eq s) by exact P. apply Rmult_le_compat_r; [exact P|]. rewrite bpow_52. pose proof uu_pos. lra.
  - intros y x. repeat split; f_equal; f_equal; ring.
Qed.
Example C97_passband_case : let h := mkHpar (/ 2) 1 (3 / 2) (/ 8) 64 [0] VecNone CondNone in
  (1 <= h_size h <= 2 ^ 53)%Z /\ bpow radix2 (-500) <= h_res h <= bpow radix2 500 /\ bpow radix2 (-1000) <= h_na h / h_wl h
  /\ h_kr h 1 1 <= (1 - bpow radix2 (-50)) * (h_na h / h_wl h) /\ (1 + bpow radix2 (-50)) * (h_na h / h_wl h) <= h_kr h 20 1.
Proof.
  cbn [h_size h_res h_na h_wl]. change (bpow radix2 (-50)) with (/ 1125899906842624).
  assert (B : bpow radix2 (-500) <= / 8 <= bpow radix2 500).
  { replace (/ 8) with (bpow radix2 (-3)) by (cbn; lra). split; apply bpow_le; lia. }
  assert (B2 : bpow radix2 (-1000) <= 1 / / 2). { apply Rle_trans with (bpow radix2 0); [apply bpow_le; lia|]. replace (1 / / 2) with 2 by field. cbn. lra. }
  split; [lia|]. split; [exact B|]. split; [exact B2|].
  unfold h_kr, cart2pol, hypot, hk, fftfreq. cbn [fst h_size h_res]. change (fftfreq_ix 64 1) with 1%Z. change (fftfreq_ix 64 20) with 20%Z.
  replace (1 / (64 * / 8)) with (/ 8) by field. replace (1 / / 2) with 2 by field. split.
  - apply Rle_trans with (sqrt 1); [apply sqrt_le_1_alt; lra|rewrite sqrt_1; lra].
  - apply Rle_trans with (5 / 2); [lra|]. rewrite <- (sqrt_square (5 / 2)) by lra. apply sqrt_le_1_alt. lra.
Qed.

(** ** C98 the default zrange in floats *)
Theorem C98_default_zrange : forall (zsize : Z) (zres : R), (3 <= zsize <= 2 ^ 30)%Z -> bpow radix2 (-900) <= zres ->
  (* accepted by _validate_zrange whatever the order in which the mean is summed *)
  (forall t, Permutation (leaves t) (fl_diff (fl_zrange zsize zres)) -> fl_bad_steps (fl_diff (fl_zrange zsize zres)) t = false) /\
  (* one plane exactly in focus, opposite planes exactly opposite, strictly increasing *)
  let z i := nth (Z.to_nat i) (fl_zrange zsize zres) 0 in let c := ((zsize + 1) / 2)%Z in
  List.length (fl_zrange zsize zres) = Z.to_nat zsize /\ z c = 0 /\
  (forall j, (0 <= c - j)%Z -> (c + j < zsize)%Z -> (0 <= c + j)%Z -> (c - j < zsize)%Z -> z (c - j)%Z = - z (c + j)%Z) /\
  (forall i, (0 <= i)%Z -> (i + 1 < zsize)%Z -> z i < z (i + 1)%Z).
Proof.
  intros N zres HN Hz. split; [intros t Pt; now apply accepted|]. intros z c.
  assert (E : forall i, (0 <= i < N)%Z -> z i = rnd64 (IZR (i - c) * zres)).
  { intros i Hi. unfold z, fl_zrange. rewrite (nth_indep _ 0 ((fun i => rnd64 (IZR (i - (N + 1) / 2) * zres)) 0%Z)) by (rewrite map_length, zseq_length; lia).
    rewrite (map_nth (fun i => rnd64 (IZR (i - (N + 1) / 2) * zres))), nth_zseq by lia. reflexivity. }
  assert (Hc : (0 <= c < N)%Z). { unfold c. pose proof (Z.div_mod (N + 1) 2 ltac:(lia)). pose proof (Z.mod_pos_bound (N + 1) 2 ltac:(lia)). lia. }
  split; [unfold fl_zrange; rewrite map_length, zseq_length; reflexivity|]. split; [rewrite E by lia; rewrite Z.sub_diag, Rmult_0_l; apply rnd64_0|]. split.
  - intros j J1 J2 J3 J4. rewrite !E by lia. rewrite <- rnd64_opp. f_equal. replace (c - j - c)%Z with (- j)%Z by lia. replace (c + j - c)%Z with j by lia. rewrite opp_IZR. ring.
  - intros i I1 I2. rewrite !E by lia. replace (i + 1 - c)%Z with (i - c + 1)%Z by lia.
    pose proof (step_rel zres Hz (i - c) ltac:(lia) ltac:(lia)) as S. apply Rabs_le_inv in S. pose proof (zres_pos zres Hz) as P.
    destruct (Rlt_le_dec (rnd64 (IZR (i - c) * zres)) (rnd64 (IZR (i - c + 1) * zres))) as [|G]; auto. exfalso.
    assert (D : rnd64 (rnd64 (IZR (i - c + 1) * zres) - rnd64 (IZR (i - c) * zres)) <= 0). { apply rnd64_ub; [apply is_float_0|]. lra. } lra.
Qed.
Print Assumptions C98_default_zrange.
Example C98_case : (3 <= 64 <= 2 ^ 30)%Z /\ bpow radix2 (-900) <= / 8.
Proof. split; [lia|]. replace (/ 8) with (bpow radix2 (-3)) by (cbn; lra). apply bpow_le. lia. Qed.
(** shorter ranges are refused, in floats as well *)
Theorem C98_short_zrange : forall (zsize : Z) (zres : R) t, (zsize < 3)%Z -> fl_bad_steps (fl_diff (fl_zrange zsize zres)) t = true.
Proof.
  intros N zres t HN. unfold fl_bad_steps. apply Bool.orb_true_iff. left. apply Nat.ltb_lt. unfold fl_zrange.
  destruct (Z_le_gt_dec N 0) as [|G]; [replace (zseq N) with (@nil Z) by (unfold zseq; replace (Z.to_nat N) with 0%nat by lia; reflexivity); cbn; lia|].
  rewrite fl_diff_map by lia. rewrite map_length, zseq_length. lia.
Qed.
Print Assumptions C98_short_zrange.

(** ** C99 dividing a PSF by its sum: whatever the order of summation, the result is between 0 and 1, keeps the order of the pixels,
    and adds up to 1 within one unit in the last place per pixel. *)
Theorem C99_normalised : forall (p : list R) (t : stree),
  Forall (fun x => is_float x /\ 0 <= x) p -> (exists x, In x p /\ 0 < x) -> (Z.of_nat (List.length p) <= 2 ^ 40)%Z -> Permutation (leaves t) p ->
  0 < fl_sum t /\
  Forall (fun q => 0 <= q <= 1) (fl_normalise p t) /\
  (forall i j, (i < List.length p)%nat -> (j < List.length p)%nat -> nth i p 0 <= nth j p 0 -> nth i (fl_normalise p t) 0 <= nth j (fl_normalise p t) 0) /\
  Rabs (Rsum (fl_normalise p t) (fun q => q) - 1) <= INR (List.length p) * bpow radix2 (-52).
Proof.
  intros p t Hp Hpos Hlen Ht. split; [now apply norm_pos with (p := p)|]. split; [|split].
  - unfold fl_normalise. rewrite Forall_map, Forall_forall. intros x Hx. now apply norm_range with (p := p).
  - intros i j Hi Hj L. pose proof (norm_pos p t Hp Hpos Ht) as P. unfold fl_normalise.
    assert (N0 : rnd64 (0 / fl_sum t) = 0) by (unfold Rdiv; rewrite Rmult_0_l; apply rnd64_0).
    assert (G : forall k, nth k (map (fun x => rnd64 (x / fl_sum t)) p) 0 = rnd64 (nth k p 0 / fl_sum t)) by (intros k; rewrite <- N0 at 1; apply (map_nth (fun x => rnd64 (x / fl_sum t)))).
    rewrite !G. apply rnd64_le. apply Rmult_le_compat_r; [left; now apply Rinv_0_lt_compat|exact L].
  - now apply norm_total.
Qed.
Print Assumptions C99_normalised.
Example C99_case : let p := [1; 2; 0] in let t := Node (Leaf 1) (Node (Leaf 2) (Leaf 0)) in
  Forall (fun x => is_float x /\ 0 <= x) p /\ (exists x, In x p /\ 0 < x) /\ (Z.of_nat (List.length p) <= 2 ^ 40)%Z /\ Permutation (leaves t) p.
Proof.
  cbn [leaves app]. split; [|split; [exists 1; split; [now left|lra]|split; [cbn; lia|apply Permutation_refl]]].
  repeat constructor; try lra; [exists 1%Z|exists 2%Z|exists 0%Z]; exists 0%Z; (split; [cbn; lra|lia]).
Qed.
