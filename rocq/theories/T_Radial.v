(** Properties of utils.radial_profile *)
From Verif Require Export M_Radial S_Radial.
From Verif Require Import L_Array L_Sum L_Radial.
From Flocq Require Import Core.
Local Open Scope R_scope.

Lemma profile_val data center b c : 0 < b -> centre_of (shape data) center c ->
  let sh := shape data in let ks := zseq (rp_len sh (rp_bin c b)) in
  radial_profile data center b = Ok
    (map (fun k => if Req_EM_T (INR (length (pix sh c b k))) 0 then None else Some (mean_of (pix sh c b k) (get data))) ks,
     map (fun k => if Req_EM_T (INR (length (pix sh c b k))) 0 then None else
                     Some (sqrt (mean_of (pix sh c b k) (fun ix => (get data ix - mean_of (pix sh c b k) (get data)) ^ 2)))) ks).
Proof.
  intros Hb Hc sh ks. unfold radial_profile. rewrite (proj2 (rp_center_spec _ _ _) Hc). cbn [bind]. fold sh.
  destruct (existsb _ (all_ix sh)) eqn:E.
  { apply existsb_exists in E. destruct E as (ix & _ & E). pose proof (rp_bin_nonneg c b ix Hb). lia. }
  fold ks. f_equal. f_equal; apply map_ext; intros k.
  - unfold div_nan. rewrite rp_count_1. destruct (Req_EM_T _ 0); reflexivity.
  - unfold div_nan. rewrite rp_count_1. destruct (Req_EM_T _ 0) as [|n]; [reflexivity|]. cbn [sqrt_nan].
    assert (Hl : pix sh c b k <> []) by (intros H0; apply n, nonempty_len, H0).
    change (rp_count sh (rp_bin c b) (fun ix => get data ix ^ 2) k) with (Rsum (pix sh c b k) (fun ix => get data ix ^ 2)).
    change (rp_count sh (rp_bin c b) (get data) k / INR (length (pix sh c b k))) with (mean_of (pix sh c b k) (get data)). rewrite var_form by auto.
    destruct (Rle_dec 0 (mean_of (pix sh c b k) (fun ix => (get data ix - mean_of (pix sh c b k) (get data)) ^ 2))) as [|Hn]; [reflexivity|]. exfalso. apply Hn. unfold mean_of.
    apply Rmult_le_pos; [apply Rsum_nonneg; intros; apply pow2_ge_0|]. left. apply Rinv_0_lt_compat. destruct (pos_INR (length (pix sh c b k))); [auto|congruence].
Qed.
Lemma mean_perm l l' f : Permutation.Permutation l l' -> mean_of l f = mean_of l' f.
Proof. intros H. unfold mean_of. rewrite (Rsum_perm _ _ f H). now rewrite (Permutation.Permutation_length H). Qed.
Lemma mean_ext l f g : (forall x, f x = g x) -> mean_of l f = mean_of l g.
Proof. intros H. unfold mean_of. f_equal. apply Rsum_ext. auto. Qed.
Lemma nth_error_zseq n k : (Z.of_nat k < n)%Z -> nth_error (zseq n) k = Some (Z.of_nat k).
Proof. intros H. rewrite (nth_error_nth' _ 0%Z) by (rewrite zseq_length; lia). rewrite <- (Nat2Z.id k) at 1. rewrite nth_zseq by lia. reflexivity. Qed.

(** ** C15 *)
(** Number of bins, means and deviations: the mean and the population standard deviation of the pixels of each bin; NaN
    (None) exactly for empty bins.  In particular the number under the square root is never negative. *)
Theorem C15_profile data center b c : 0 < b -> centre_of (shape data) center c ->
  exists means stds, radial_profile data center b = Ok (means, stds) /\ length means = length stds /\
  (forall k, (k < length means)%nat <-> exists ix j, inb (shape data) ix /\ (Z.of_nat k <= j)%Z /\ in_bin c b j ix) /\
  (forall k l, (k < length means)%nat -> bin_pixels (shape data) c b (Z.of_nat k) l ->
     (l <> [] -> nth_error means k = Some (Some (mean_of l (get data))) /\
                 nth_error stds k = Some (Some (sqrt (mean_of l (fun ix => (get data ix - mean_of l (get data)) ^ 2))))) /\
     (l = [] -> nth_error means k = Some None /\ nth_error stds k = Some None)).
Proof.
  intros Hb Hc. pose proof (profile_val data center b c Hb Hc) as P. cbn zeta in P. eexists _, _. split; [exact P|]. rewrite !map_length, zseq_length. split; [reflexivity|].
  assert (Hnn : forall ix, inb (shape data) ix -> (0 <= rp_bin c b ix)%Z) by (intros; now apply rp_bin_nonneg). pose proof (rp_len_spec (shape data) (rp_bin c b) Hnn) as L.
  pose proof (rp_len_nonneg (shape data) (rp_bin c b)) as L0. split.
  - intros k. specialize (L (Z.of_nat k)). split.
    + intros H. destruct (proj1 L ltac:(lia)) as (_ & ix & Hi & Hk). exists ix, (rp_bin c b ix). split; [exact Hi|]. split; [exact Hk|]. now apply rp_bin_spec.
    + intros (ix & j & Hi & Hk & Hj). apply rp_bin_spec in Hj. subst j. assert (0 <= Z.of_nat k < rp_len (shape data) (rp_bin c b))%Z; [|lia]. apply L. split; [lia|]. eauto.
  - intros k l Hk Hl. pose proof (bin_pixels_unique _ _ _ _ _ _ Hl (pix_spec (shape data) c b (Z.of_nat k))) as Pm.
    rewrite !nth_error_map, nth_error_zseq by lia. cbn [option_map]. rewrite <- (Permutation.Permutation_length Pm). split.
    + intros Hne. destruct (Req_EM_T (INR (length l)) 0) as [E|_]; [apply nonempty_len in E; contradiction|].
      rewrite <- (mean_perm _ _ (get data) Pm). rewrite <- (mean_perm _ _ _ Pm). auto.
    + intros ->. cbn. destruct (Req_EM_T 0 0); [auto|contradiction].
Qed.
Theorem C15_every_pixel_in_one_bin data center b c means stds ix : 0 < b -> centre_of (shape data) center c ->
  radial_profile data center b = Ok (means, stds) -> inb (shape data) ix ->
  exists k, (k < length means)%nat /\ in_bin c b (Z.of_nat k) ix /\ forall j, in_bin c b j ix -> j = Z.of_nat k.
Proof.
  intros Hb Hc E Hi. destruct (C15_profile data center b c Hb Hc) as (m & s & E' & _ & L & _). rewrite E in E'. injection E' as <- <-.
  exists (Z.to_nat (rp_bin c b ix)). pose proof (rp_bin_nonneg c b ix Hb) as H0. rewrite Z2Nat.id by auto. split; [|split].
  - apply L. exists ix, (rp_bin c b ix). split; auto. split; [lia|]. now apply rp_bin_spec.
  - now apply rp_bin_spec.
  - intros j Hj. apply rp_bin_spec in Hj. auto.
Qed.
Lemma Rsum_filter_bins (l : list (list Z)) (bin : list Z -> Z) (f : list Z -> R) n : (forall x, In x l -> 0 <= bin x < n)%Z ->
  Rsum (zseq n) (fun k => Rsum (filter (fun ix => bin ix =? k)%Z l) f) = Rsum l f.
Proof.
  induction l as [|x l IH]; intros H.
  - cbn. apply Rsum_zero. auto.
  - cbn [Rsum]. rewrite <- IH by (intros; apply H; now right).
    rewrite (Rsum_ext _ _ (fun k => (if (bin x =? k)%Z then f x else 0) + Rsum (filter (fun ix => bin ix =? k)%Z l) f)).
    2:{ intros k _. cbn [filter]. destruct (bin x =? k)%Z; cbn [Rsum]; ring. }
    rewrite Rsum_plus. f_equal. rewrite (Rsum_single _ _ (bin x)); [now rewrite Z.eqb_refl|apply NoDup_zseq|apply in_zseq, H; now left|].
    intros k _ Hk. destruct (Z.eqb_spec (bin x) k); [congruence|reflexivity].
Qed.
(** Nothing is lost: the counts times the means add up to the sum of the data. *)
Theorem C15_total_conserved data center b c means stds (ls : list (list (list Z))) : 0 < b -> centre_of (shape data) center c ->
  radial_profile data center b = Ok (means, stds) -> length ls = length means ->
  (forall k, (k < length ls)%nat -> bin_pixels (shape data) c b (Z.of_nat k) (nth k ls [])) ->
  Rsum (combine ls means) (fun p => INR (length (fst p)) * match snd p with Some m => m | None => 0 end) = Rsum (all_ix (shape data)) (get data).
Proof.
  intros Hb Hc E Hl Hp. pose proof (profile_val data center b c Hb Hc) as P. cbn zeta in P. rewrite E in P. injection P as Em _.
  set (N := rp_len (shape data) (rp_bin c b)) in *.
  assert (LN : length means = Z.to_nat N) by (rewrite Em, map_length, zseq_length; reflexivity).
  rewrite <- (Rsum_filter_bins (all_ix (shape data)) (rp_bin c b) (get data) N).
  2:{ intros ix Hix. apply in_all_ix in Hix. apply (rp_len_spec (shape data) (rp_bin c b)); [intros; now apply rp_bin_nonneg|]. split; [now apply rp_bin_nonneg|]. exists ix. split; [auto|lia]. }
  assert (Ec : combine ls means = map (fun k => (nth (Z.to_nat k) ls [], nth (Z.to_nat k) means None)) (zseq N)).
  { apply (nth_ext _ _ ([], None) ([], None)); [rewrite combine_length, map_length, zseq_length, Hl, LN, Nat.min_id; reflexivity|].
    intros n Hn. rewrite combine_length, Hl, LN, Nat.min_id in Hn. rewrite combine_nth by auto. symmetry. apply nth_error_nth. rewrite nth_error_map, nth_error_zseq by lia. cbn. now rewrite Nat2Z.id. }
  rewrite Ec, Rsum_map. apply Rsum_ext. intros k Hk. apply in_zseq in Hk. cbn [fst snd].
  specialize (Hp (Z.to_nat k) ltac:(lia)). rewrite Z2Nat.id in Hp by lia. pose proof (bin_pixels_unique _ _ _ _ _ _ Hp (pix_spec _ c b k)) as Pm.
  rewrite (Permutation.Permutation_length Pm). fold (pix (shape data) c b k).
  assert (En : nth (Z.to_nat k) means None = if Req_EM_T (INR (length (pix (shape data) c b k))) 0 then None else Some (mean_of (pix (shape data) c b k) (get data))).
  { apply nth_error_nth. rewrite Em, nth_error_map, nth_error_zseq by lia. cbn. now rewrite Z2Nat.id by lia. }
  rewrite En. destruct (Req_EM_T _ 0) as [E0|n].
  - apply nonempty_len in E0. rewrite E0. cbn. ring.
  - unfold mean_of. field. auto.
Qed.
Theorem C15_between_min_and_max data center b c means stds k m lo hi : 0 < b -> centre_of (shape data) center c ->
  radial_profile data center b = Ok (means, stds) -> nth_error means k = Some (Some m) ->
  (forall ix, inb (shape data) ix -> in_bin c b (Z.of_nat k) ix -> lo <= get data ix <= hi) -> lo <= m <= hi.
Proof.
  intros Hb Hc E Hm H. destruct (C15_profile data center b c Hb Hc) as (m' & s' & E' & _ & _ & V). rewrite E in E'. injection E' as <- <-.
  pose proof (pix_spec (shape data) c b (Z.of_nat k)) as Hp. assert (Hk : (k < length means)%nat) by (apply nth_error_Some; congruence). destruct (V k _ Hk Hp) as [V1 V2]. set (l := pix (shape data) c b (Z.of_nat k)) in *.
  destruct l as [|x l'] eqn:El; [destruct (V2 eq_refl); congruence|]. destruct (V1 ltac:(discriminate)) as [V3 _]. rewrite Hm in V3. injection V3 as ->. rewrite <- El in *. clear V1 V2.
  assert (Hn : 0 < INR (length l)) by (apply lt_0_INR; rewrite El; cbn; lia). unfold mean_of.
  assert (A : forall ix, In ix l -> lo <= get data ix <= hi) by (intros ix Hix; apply Hp in Hix; apply H; tauto).
  split.
  - apply Rmult_le_reg_r with (INR (length l)); [auto|]. unfold Rdiv. rewrite Rmult_assoc, Rinv_l, Rmult_1_r by lra. rewrite Rmult_comm, <- Rsum_const. apply Rsum_le. intros. apply A. auto.
  - apply Rmult_le_reg_r with (INR (length l)); [auto|]. unfold Rdiv. rewrite Rmult_assoc, Rinv_l, Rmult_1_r by lra. rewrite Rmult_comm, <- Rsum_const. apply Rsum_le. intros. apply A. auto.
Qed.
Theorem C15_constant_data data center b c means stds k m s v : 0 < b -> centre_of (shape data) center c ->
  radial_profile data center b = Ok (means, stds) -> (forall ix, inb (shape data) ix -> get data ix = v) ->
  nth_error means k = Some (Some m) -> nth_error stds k = Some (Some s) -> m = v /\ s = 0.
Proof.
  intros Hb Hc E Hv Hm Hs. destruct (C15_profile data center b c Hb Hc) as (m' & s' & E' & _ & _ & V). rewrite E in E'. injection E' as <- <-.
  pose proof (pix_spec (shape data) c b (Z.of_nat k)) as Hp. assert (Hk : (k < length means)%nat) by (apply nth_error_Some; congruence). destruct (V k _ Hk Hp) as [V1 V2]. set (l := pix (shape data) c b (Z.of_nat k)) in *.
  assert (Hne : l <> []) by (intros H0; destruct (V2 H0); congruence). destruct (V1 Hne) as [V3 V4]. rewrite Hm in V3. rewrite Hs in V4. injection V3 as ->. injection V4 as ->.
  assert (Hn : INR (length l) <> 0) by (intros H0; apply nonempty_len in H0; contradiction).
  assert (M : mean_of l (get data) = v). { unfold mean_of. rewrite (Rsum_ext l (get data) (fun _ => v)) by (intros ix Hix; apply Hv, Hp, Hix). rewrite Rsum_const. field. auto. }
  split; [exact M|]. rewrite M. rewrite <- sqrt_0. f_equal. unfold mean_of. rewrite Rsum_zero; [field; auto|]. intros ix Hix. rewrite Hv by apply Hp, Hix. ring.
Qed.
(** Complex data: real and imaginary profiles, deviations added in quadrature. *)
Theorem C15_complex data center b c : 0 < b -> centre_of (shape data) center c ->
  exists means stds, radial_profile_c data center b = Ok (means, stds) /\
  forall k l, (k < length means)%nat -> bin_pixels (shape data) c b (Z.of_nat k) l -> l <> [] ->
    nth_error means k = Some (Some (mean_of l (fun ix => Re (get data ix)), mean_of l (fun ix => Im (get data ix)))) /\
    nth_error stds k = Some (Some (sqrt (mean_of l (fun ix => (Re (get data ix) - mean_of l (fun ix => Re (get data ix))) ^ 2)
                                       + mean_of l (fun ix => (Im (get data ix) - mean_of l (fun ix => Im (get data ix))) ^ 2)))).
Proof.
  intros Hb Hc. destruct (C15_profile (amap Re data) center b c Hb Hc) as (m1 & s1 & E1 & L1 & K1 & V1). destruct (C15_profile (amap Im data) center b c Hb Hc) as (m2 & s2 & E2 & L2 & K2 & V2).
  assert (L : length m1 = length m2).
  { pose proof (fun k => iff_trans (K1 k) (iff_sym (K2 k))) as KK. cbn in KK. destruct (Nat.lt_trichotomy (length m1) (length m2)) as [H|[H|H]]; auto; [apply (KK (length m1)) in H|apply KK in H]; lia. }
  unfold radial_profile_c. rewrite E1, E2. cbn [bind fst snd]. eexists _, _. split; [reflexivity|]. rewrite map_length, combine_length, <- L, Nat.min_id.
  intros k l Hk Hp Hne. destruct (proj1 (V1 k l Hk Hp) Hne) as [A1 B1]. destruct (proj1 (V2 k l ltac:(lia) Hp) Hne) as [A2 B2].
  rewrite !nth_error_map.
  assert (NC : forall {A B} (p : list A) (q : list B) x y, nth_error p k = Some x -> nth_error q k = Some y -> nth_error (combine p q) k = Some (x, y)).
  { clear. induction k as [|k IH]; intros A B [|a p] [|b q] x y H1 H2; cbn in *; try discriminate; [congruence|]. now apply IH. }
  rewrite (NC _ _ _ _ _ _ A1 A2), (NC _ _ _ _ _ _ B1 B2). cbn [option_map opt2 fst snd].
  assert (P : forall f, 0 <= mean_of l (fun ix => (f ix) ^ 2)). { intros f. unfold mean_of. apply Rmult_le_pos; [apply Rsum_nonneg; intros; apply pow2_ge_0|]. left. apply Rinv_0_lt_compat, lt_0_INR. destruct l; [contradiction|cbn; lia]. }
  split; [reflexivity|]. rewrite !pow2_sqrt by apply P. reflexivity.
Qed.
(** A centre of the wrong length is refused. *)
Theorem C15_bad_centre data l b : (2 <= length (shape data))%nat -> length l <> length (shape data) -> length l <> 1%nat -> radial_profile data (Some l) b = Err ValueError.
Proof.
  intros _ H1 H2. unfold radial_profile. destruct l as [|x [|y l]]; cbn [rp_center]; try (cbn in H2; lia); rewrite (proj2 (Nat.eqb_neq _ _) H1); reflexivity.
Qed.
Print Assumptions C15_profile. Print Assumptions C15_every_pixel_in_one_bin. Print Assumptions C15_total_conserved. Print Assumptions C15_between_min_and_max. Print Assumptions C15_constant_data. Print Assumptions C15_complex. Print Assumptions C15_bad_centre.
Example C15_witness : 0 < / 2 /\ centre_of [3; 4]%Z (Some [1; 5 / 2]) [1; 5 / 2] /\ centre_of [3; 4]%Z None [IZR 1; IZR 2].
Proof. repeat split; [lra|left; auto]. Qed.

(** ** C16: no empty bin at bin size 1 about an in-bounds integer centre *)
Lemma dist2_int zc : forall ix, exists n, (0 <= n)%Z /\ dist2 (map IZR zc) ix = IZR n.
Proof.
  induction zc as [|z zc IH]; intros [|i ix]; cbn [map dist2]; try (exists 0%Z; split; [lia|reflexivity]).
  destruct (IH ix) as (n & Hn & ->). exists ((i - z) * (i - z) + n)%Z. split; [pose proof (Z.square_nonneg (i - z)); lia|]. now rewrite plus_IZR, mult_IZR, minus_IZR.
Qed.
Lemma not_half n k : (0 <= n)%Z -> sqrt (IZR n) <> IZR k + / 2.
Proof.
  intros Hn E. assert (Hp : 0 <= IZR n) by (now apply IZR_le). pose proof (sqrt_sqrt _ Hp) as S. rewrite E in S.
  assert (4 * IZR n = IZR (4 * k * k + 4 * k + 1)) by (rewrite !plus_IZR, !mult_IZR, <- S; field). rewrite <- mult_IZR in H. apply eq_IZR in H. lia.
Qed.
Lemma near_plus1 x : (forall k, x <> IZR k + / 2) -> ZnearestE (x + 1) = (ZnearestE x + 1)%Z.
Proof.
  intros Hh. apply nearE_spec. pose proof (proj1 (nearE_spec x _) eq_refl) as [H1 H2]. rewrite plus_IZR. replace (x + 1 - (IZR (ZnearestE x) + 1)) with (x - IZR (ZnearestE x)) by ring. split; [exact H1|].
  intros H3. exfalso. unfold Rabs in H3. destruct Rcase_abs.
  - apply (Hh (ZnearestE x - 1)%Z). rewrite minus_IZR. lra. - apply (Hh (ZnearestE x)). lra.
Qed.
(** one step towards the centre changes the distance by at most 1 *)
Lemma step_dist a b s : 0 <= s -> 0 <= a -> a <= b + 1 -> 0 <= b -> sqrt (a * a + s) <= sqrt (b * b + s) + 1.
Proof.
  intros Hs Ha Hab Hb. assert (Hq : 0 <= sqrt (b * b + s)) by apply sqrt_pos.
  assert (Hbq : b <= sqrt (b * b + s)). { rewrite <- (sqrt_square b) at 1 by auto. apply sqrt_le_1_alt. lra. }
  rewrite <- (sqrt_square (sqrt (b * b + s) + 1)) by lra. apply sqrt_le_1_alt.
  assert (E : sqrt (b * b + s) * sqrt (b * b + s) = b * b + s) by (apply sqrt_sqrt; nra). nra.
Qed.
Definition l1 (zc ix : list Z) : Z := fold_right Z.add 0%Z (map (fun p => Z.abs (fst p - snd p)) (combine zc ix)).
Lemma l1_nonneg zc ix : (0 <= l1 zc ix)%Z.
Proof. unfold l1. induction (combine zc ix); cbn; lia. Qed.
Lemma l1_step sh : forall zc ix, inb sh zc -> inb sh ix -> (0 < l1 zc ix)%Z ->
  exists ix', inb sh ix' /\ (l1 zc ix' < l1 zc ix)%Z /\ forall s, 0 <= s -> sqrt (dist2 (map IZR zc) ix + s) <= sqrt (dist2 (map IZR zc) ix' + s) + 1.
Proof.
  induction sh as [|n sh IH]; intros zc ix Hz Hi Hp.
  - rewrite (inb_nil _ Hz) in Hp. cbn in Hp. lia.
  - destruct (inb_cons_inv _ _ _ Hz) as (z & zc' & -> & Hz1 & Hz2). destruct (inb_cons_inv _ _ _ Hi) as (i & ix' & -> & Hi1 & Hi2).
    unfold l1 in Hp |- *. cbn [combine map fold_right fst snd] in Hp |- *. fold (l1 zc' ix') in Hp |- *. destruct (Z.eq_dec i z) as [->|Hne].
    + destruct (IH zc' ix' Hz2 Hi2 ltac:(lia)) as (jx & Hj & Hl & Hs). exists (z :: jx). split; [apply inb_cons; auto|]. split.
      * cbn [combine map fold_right fst snd]. fold (l1 zc' jx). lia.
      * intros s Hs0. cbn [map dist2]. replace (IZR z - IZR z) with 0 by ring. rewrite Rmult_0_l, !Rplus_0_l. auto.
    + set (i' := if (i <? z)%Z then (i + 1)%Z else (i - 1)%Z). exists (i' :: ix'). pose proof (l1_nonneg zc' ix') as Hl0.
      assert (Hi' : (Z.abs (z - i') < Z.abs (z - i) /\ 0 <= i' < n)%Z) by (unfold i'; destruct (Z.ltb_spec i z); lia). split; [apply inb_cons; split; tauto|]. split.
      * cbn [combine map fold_right fst snd]. fold (l1 zc' ix'). lia.
      * intros s Hs0. cbn [map dist2]. rewrite !Rplus_assoc. pose proof (dist2_nonneg (map IZR zc') ix') as D0.
        replace ((IZR i - IZR z) * (IZR i - IZR z)) with (Rabs (IZR i - IZR z) * Rabs (IZR i - IZR z)) by (rewrite <- Rabs_mult; apply Rabs_pos_eq; apply Rle_0_sqr).
        replace ((IZR i' - IZR z) * (IZR i' - IZR z)) with (Rabs (IZR i' - IZR z) * Rabs (IZR i' - IZR z)) by (rewrite <- Rabs_mult; apply Rabs_pos_eq; apply Rle_0_sqr).
        apply step_dist; try apply Rabs_pos; [lra|]. rewrite <- !minus_IZR, <- !abs_IZR, <- plus_IZR. apply IZR_le. unfold i'. destruct (Z.ltb_spec i z); lia.
Qed.
Lemma l1_zero sh zc : forall ix, inb sh zc -> inb sh ix -> l1 zc ix = 0%Z -> dist2 (map IZR zc) ix = 0.
Proof.
  intros ix Hz. revert ix. induction Hz as [|n z sh zc Hz1 Hz IH]; intros ix Hi H.
  - reflexivity.
  - destruct (inb_cons_inv _ _ _ Hi) as (i & ix' & -> & Hi1 & Hi2). unfold l1 in H. cbn [combine map fold_right fst snd] in H. fold (l1 zc ix') in H. pose proof (l1_nonneg zc ix').
    cbn [map dist2]. rewrite IH by (auto; lia). assert (i = z) as -> by lia. ring.
Qed.
Lemma all_bins_hit sh zc : inb sh zc -> forall n ix, inb sh ix -> (l1 zc ix <= Z.of_nat n)%Z -> forall k, (0 <= k <= rp_bin (map IZR zc) 1 ix)%Z ->
  exists jx, inb sh jx /\ rp_bin (map IZR zc) 1 jx = k.
Proof.
  intros Hz. assert (B : forall ix, rp_bin (map IZR zc) 1 ix = ZnearestE (sqrt (dist2 (map IZR zc) ix))) by (intros; unfold rp_bin; rewrite rp_r_dist; f_equal; field).
  induction n as [|n IH]; intros ix Hi Hl k Hk.
  - exists ix. split; auto. pose proof (l1_nonneg zc ix). assert (E : l1 zc ix = 0%Z) by lia. rewrite B, (l1_zero sh zc ix Hz Hi E), sqrt_0 in Hk |- *. rewrite Zrnd_IZR in Hk |- * by apply valid_rnd_N. lia.
  - destruct (Z.eq_dec (l1 zc ix) 0) as [E|Hp]; [apply (IH ix); auto; lia|]. pose proof (l1_nonneg zc ix). destruct (l1_step sh zc ix Hz Hi ltac:(lia)) as (jx & Hj & Hlt & Hs). specialize (Hs 0 (Rle_refl 0)). rewrite !Rplus_0_r in Hs.
    destruct (Z_le_gt_dec k (rp_bin (map IZR zc) 1 jx)) as [Hk'|Hk']; [apply (IH jx); auto; lia|].
    exists ix. split; auto. assert (rp_bin (map IZR zc) 1 ix <= rp_bin (map IZR zc) 1 jx + 1)%Z; [|lia]. rewrite !B.
    rewrite <- near_plus1. { apply Zrnd_le; [apply valid_rnd_N|exact Hs]. }
    intros q. destruct (dist2_int zc jx) as (m & Hm & ->). now apply not_half.
Qed.
Theorem C16_no_empty_bins data center zc : centre_of (shape data) center (map IZR zc) -> inb (shape data) zc ->
  exists means stds, radial_profile data center 1 = Ok (means, stds) /\
  forall k, (k < length means)%nat -> (exists ix, inb (shape data) ix /\ in_bin (map IZR zc) 1 (Z.of_nat k) ix) /\
    (exists m, nth_error means k = Some (Some m)) /\ (exists s, nth_error stds k = Some (Some s)).
Proof.
  intros Hc Hz. destruct (C15_profile data center 1 _ Rlt_0_1 Hc) as (means & stds & E & L & K & V). exists means, stds. split; [exact E|]. intros k Hk.
  destruct (proj1 (K k) Hk) as (ix & j & Hi & Hkj & Hj). apply rp_bin_spec in Hj.
  destruct (all_bins_hit _ zc Hz (Z.to_nat (l1 zc ix)) ix Hi ltac:(pose proof (l1_nonneg zc ix); lia) (Z.of_nat k) ltac:(lia)) as (jx & Hjx & Eb). apply rp_bin_spec in Eb.
  split; [eauto|]. pose proof (pix_spec (shape data) (map IZR zc) 1 (Z.of_nat k)) as Hp. destruct (V k _ Hk Hp) as [V1 _].
  assert (Hne : pix (shape data) (map IZR zc) 1 (Z.of_nat k) <> []). { intros H0. assert (In jx (pix (shape data) (map IZR zc) 1 (Z.of_nat k))) by (apply Hp; auto). rewrite H0 in H. contradiction. }
  destruct (V1 Hne). eauto.
Qed.
Corollary C16_default_centre data : Forall (fun n => (0 < n)%Z) (shape data) ->
  exists means stds, radial_profile data None 1 = Ok (means, stds) /\
  forall k, (k < length means)%nat -> (exists m, nth_error means k = Some (Some m)) /\ (exists s, nth_error stds k = Some (Some s)).
Proof.
  intros H. destruct (C16_no_empty_bins data None (map (fun n => n / 2)%Z (shape data))) as (m & s & E & V).
  - cbn. rewrite map_map. reflexivity.
  - induction H as [|n sh Hn _ IH]; [constructor|]. cbn. apply inb_cons. split; [lia|exact IH].
  - exists m, s. split; [exact E|]. intros k Hk. apply (V k Hk).
Qed.
(** Both hypotheses matter: an off-grid centre or a bin size below 1 can leave an empty bin, reported as NaN. *)
Theorem C16_off_grid_centre_refuted : exists data means stds, radial_profile data (Some [3 / 2]) 1 = Ok (means, stds) /\ nth_error means 1 = Some None.
Proof.
  set (data := mkArr [4%Z] (fun _ => 1)). exists data. destruct (C15_profile data (Some [3 / 2]) 1 [3 / 2] Rlt_0_1 (or_introl (conj eq_refl eq_refl))) as (m & s & E & _ & K & V). exists m, s. split; [exact E|].
  assert (D : forall i, sqrt (dist2 [3 / 2] [i]) / 1 = Rabs (IZR i - 3 / 2)). { intros i. cbn [dist2]. rewrite Rplus_0_r. change ((IZR i - 3 / 2) * (IZR i - 3 / 2)) with (Rsqr (IZR i - 3 / 2)). rewrite sqrt_Rsqr_abs. field. }
  apply (V 1%nat []); auto.
  - apply K. exists [0%Z], 2%Z. split; [repeat constructor; lia|]. split; [lia|]. unfold in_bin. rewrite D. rewrite (Rabs_left (0 - 3 / 2)) by lra. replace (- (0 - 3 / 2) - 2) with (- / 2) by lra. rewrite Rabs_Ropp, Rabs_pos_eq by lra. split; [lra|reflexivity].
  - split; [constructor|]. intros ix. split; [contradiction|]. intros [Hi Hb]. destruct (inb_cons_inv _ _ _ Hi) as (i & r & -> & Hi1 & Hr). rewrite (inb_nil _ Hr) in Hb. unfold in_bin in Hb. rewrite D in Hb. change (Z.of_nat 1) with 1%Z in Hb.
    assert (i = 0 \/ i = 1 \/ i = 2 \/ i = 3)%Z as [-> | [-> | [-> | ->]]] by lia; destruct Hb as [_ Hb]; cbv [Z.even] in Hb.
    + rewrite (Rabs_left (0 - 3 / 2)) in Hb by lra. assert (Rabs (- (0 - 3 / 2) - 1) = / 2) by (rewrite Rabs_pos_eq; lra). specialize (Hb H). discriminate.
    + rewrite (Rabs_left (1 - 3 / 2)) in Hb by lra. assert (Rabs (- (1 - 3 / 2) - 1) = / 2) by (rewrite Rabs_left; lra). specialize (Hb H). discriminate.
    + rewrite (Rabs_pos_eq (2 - 3 / 2)) in Hb by lra. assert (Rabs (2 - 3 / 2 - 1) = / 2) by (rewrite Rabs_left; lra). specialize (Hb H). discriminate.
    + rewrite (Rabs_pos_eq (3 - 3 / 2)) in Hb by lra. assert (Rabs (3 - 3 / 2 - 1) = / 2) by (rewrite Rabs_pos_eq; lra). specialize (Hb H). discriminate.
Qed.
Print Assumptions C16_no_empty_bins. Print Assumptions C16_default_centre. Print Assumptions C16_off_grid_centre_refuted.
Example C16_witness : centre_of [5; 7]%Z None (map IZR [2; 3]%Z) /\ inb [5; 7]%Z [2; 3]%Z.
Proof. split; [reflexivity|repeat constructor; lia]. Qed.
