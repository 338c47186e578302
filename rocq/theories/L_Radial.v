From Verif Require Import M_Radial S_Radial L_Array L_Sum.
From Flocq Require Import Core.
Local Open Scope R_scope.
Lemma dist2_nonneg c : forall ix, 0 <= dist2 c ix.
Proof. induction c as [|x c IH]; intros [|i ix]; cbn; try lra. specialize (IH ix). pose proof (Rle_0_sqr (IZR i - x)) as H. unfold Rsqr in H. lra. Qed.
Lemma rp_r_dist c : forall ix, rp_r c ix = sqrt (dist2 c ix).
Proof.
  intros ix. unfold rp_r. f_equal. revert c. induction ix as [|i ix IH]; intros [|x c]; cbn [combine Rsum dist2]; try reflexivity. cbn [fst snd]. rewrite IH. ring.
Qed.
Lemma nearE_spec x k : ZnearestE x = k <-> Rabs (x - IZR k) <= / 2 /\ (Rabs (x - IZR k) = / 2 -> Z.even k = true).
Proof.
  assert (F : Rabs (x - IZR (ZnearestE x)) <= / 2 /\ (Rabs (x - IZR (ZnearestE x)) = / 2 -> Z.even (ZnearestE x) = true)).
  { split; [apply Znearest_half|]. intros H. unfold Znearest in *. set (f := Zfloor x) in *.
    pose proof (Zfloor_lb x). pose proof (Zfloor_ub x). fold f in H0, H1.
    destruct (Rcompare_spec (x - IZR f) (/ 2)) as [C|C|C].
    - rewrite Rabs_pos_eq in H by lra. lra.
    - destruct (negb (Z.even f)) eqn:E; [|destruct (Z.even f); auto; discriminate]. rewrite Zceil_floor_neq by (fold f; lra). fold f. rewrite Z.even_add. destruct (Z.even f); [discriminate|reflexivity].
    - rewrite Zceil_floor_neq in H by (fold f; lra). fold f in H. rewrite plus_IZR in H. rewrite Rabs_left1 in H by lra. lra. }
  split; [intros <-; exact F|]. intros [H1 H2]. destruct F as [F1 F2]. set (z := ZnearestE x) in *.
  assert (D : Rabs (IZR z - IZR k) <= 1). { replace (IZR z - IZR k) with ((x - IZR k) - (x - IZR z)) by ring. eapply Rle_trans; [apply Rabs_triang|]. rewrite Rabs_Ropp. lra. }
  rewrite <- minus_IZR, <- abs_IZR in D. apply le_IZR in D.
  destruct (Z.eq_dec z k) as [|Hne]; auto. exfalso. assert (Hd : (z = k + 1 \/ z = k - 1)%Z) by lia.
  assert (E : Rabs (x - IZR k) = / 2 /\ Rabs (x - IZR z) = / 2).
  { destruct Hd as [-> | ->]; rewrite ?plus_IZR, ?minus_IZR in *; unfold Rabs in *; repeat destruct Rcase_abs; lra. }
  destruct E as [E1 E2]. specialize (F2 E2). specialize (H2 E1). destruct Hd as [-> | ->].
  - rewrite Z.even_add, H2 in F2. discriminate. - rewrite Z.even_sub, H2 in F2. discriminate.
Qed.
Lemma rp_bin_spec c b ix k : rp_bin c b ix = k <-> in_bin c b k ix.
Proof. unfold rp_bin, in_bin. rewrite rp_r_dist. apply nearE_spec. Qed.
Definition pix sh c b k := filter (fun ix => rp_bin c b ix =? k)%Z (all_ix sh).
Lemma pix_spec sh c b k : bin_pixels sh c b k (pix sh c b k).
Proof.
  split; [apply NoDup_filter, NoDup_all_ix|]. intros ix. unfold pix. rewrite filter_In, in_all_ix, Z.eqb_eq, rp_bin_spec. reflexivity.
Qed.
Lemma bin_pixels_unique sh c b k l l' : bin_pixels sh c b k l -> bin_pixels sh c b k l' -> Permutation.Permutation l l'.
Proof. intros [N1 H1] [N2 H2]. apply Permutation.NoDup_Permutation; auto. intros x. now rewrite H1, H2. Qed.
Lemma rp_bin_nonneg c b ix : 0 < b -> (0 <= rp_bin c b ix)%Z.
Proof.
  intros Hb. unfold rp_bin. apply (Z.le_trans _ (ZnearestE 0)). { replace 0 with (IZR 0) by reflexivity. rewrite Zrnd_IZR; [lia|apply valid_rnd_N]. }
  apply Zrnd_le; [apply valid_rnd_N|]. apply Rmult_le_pos; [apply sqrt_pos|]. left. now apply Rinv_0_lt_compat.
Qed.
Lemma fold_max_ge l : forall x, In x l -> (x <= fold_right Z.max 0 l)%Z.
Proof. induction l as [|y l IH]; cbn; intros x; [tauto|]. intros [->|H]; [lia|]. specialize (IH x H). lia. Qed.
Lemma fold_max_in l : l <> [] -> (forall x, In x l -> 0 <= x)%Z -> In (fold_right Z.max 0 l)%Z l.
Proof.
  induction l as [|y l IH]; [congruence|]. intros _ H. cbn. destruct l as [|z l].
  - cbn. specialize (H y (or_introl eq_refl)). left. lia.
  - assert (IH' := IH ltac:(discriminate) (fun x Hx => H x (or_intror Hx))). set (m := fold_right Z.max 0%Z (z :: l)) in *. destruct (Z.max_spec y m) as [[_ ->]|[_ ->]]; auto.
Qed.
Lemma rp_len_nonneg sh bin : (0 <= rp_len sh bin)%Z.
Proof. unfold rp_len. destruct (all_ix sh) as [|x l]; [lia|]. assert (H : forall l, (0 <= fold_right Z.max 0 l)%Z) by (induction l0; cbn; lia). specialize (H (map bin (x :: l))). lia. Qed.
Lemma rp_len_spec sh bin : (forall ix, inb sh ix -> 0 <= bin ix)%Z -> forall k, (0 <= k < rp_len sh bin)%Z <-> (0 <= k)%Z /\ exists ix, inb sh ix /\ (k <= bin ix)%Z.
Proof.
  intros Hb k. unfold rp_len. destruct (all_ix sh) as [|x l] eqn:E.
  - split; [lia|]. intros (_ & ix & Hi & _). apply in_all_ix in Hi. rewrite E in Hi. contradiction.
  - set (L := map bin (x :: l)). split.
    + intros [H0 H]. split; auto. pose proof (fold_max_in L ltac:(discriminate)) as M.
      assert (HL : forall y, In y L -> (0 <= y)%Z). { intros y Hy. apply in_map_iff in Hy. destruct Hy as (ix & <- & Hi). rewrite <- E in Hi. apply Hb, in_all_ix, Hi. }
      specialize (M HL). apply in_map_iff in M. destruct M as (ix & E1 & Hi). rewrite <- E in Hi. apply in_all_ix in Hi. exists ix. split; auto. lia.
    + intros (H0 & ix & Hi & Hk). split; auto. apply in_all_ix in Hi. rewrite E in Hi. pose proof (fold_max_ge L (bin ix) (in_map bin _ _ Hi)). lia.
Qed.
Lemma rp_center_spec sh center c : rp_center sh center = Ok c <-> centre_of sh center c.
Proof.
  destruct center as [l|]; cbn [rp_center centre_of].
  - destruct l as [|x [|y l]].
    + destruct (Nat.eqb_spec (@length R []) (length sh)) as [e|e]; split.
      * intros [= <-]. left. auto. * intros [[-> _]|(x & Hx & _)]; [reflexivity|discriminate].
      * discriminate. * intros [[_ H]|(x & Hx & _)]; [contradiction|discriminate].
    + split.
      * intros [= <-]. right. eauto.
      * intros [[-> H]|(z & [= <-] & ->)]; [|reflexivity]. cbn in H. now rewrite <- H.
    + destruct (Nat.eqb_spec (length (x :: y :: l)) (length sh)) as [e|e]; split.
      * intros [= <-]. left. auto. * intros [[-> _]|(z & Hx & _)]; [reflexivity|discriminate].
      * discriminate. * intros [[_ H]|(z & Hx & _)]; [contradiction|discriminate].
  - split; [intros [= <-]; reflexivity|intros ->; reflexivity].
Qed.
Lemma centre_len sh center c : centre_of sh center c -> length c = length sh.
Proof. destruct center as [l|]; cbn; [intros [[-> H]|(x & _ & ->)]; auto; apply repeat_length|intros ->; apply map_length]. Qed.
(** values in terms of the pixel list *)
Lemma rp_count_1 sh c b k : rp_count sh (rp_bin c b) (fun _ => 1) k = INR (length (pix sh c b k)).
Proof. unfold rp_count. rewrite Rsum_const. unfold pix. ring. Qed.
Lemma var_form l f : l <> [] -> Rsum l (fun ix => f ix ^ 2) / INR (length l) - (mean_of l f) ^ 2 = mean_of l (fun ix => (f ix - mean_of l f) ^ 2).
Proof.
  intros Hl. assert (Hn : INR (length l) <> 0) by (apply not_0_INR; destruct l; cbn; congruence). unfold mean_of. set (n := INR (length l)) in *. set (m := Rsum l f / n).
  rewrite (Rsum_ext l (fun ix => (f ix - m) ^ 2) (fun ix => f ix ^ 2 + (- (2 * m) * f ix + m ^ 2))) by (intros; ring).
  rewrite !Rsum_plus, Rsum_scal_l, Rsum_const. fold n. unfold m. field. auto.
Qed.
Lemma nonempty_len {A} (l : list A) : INR (length l) = 0 <-> l = [].
Proof. destruct l; [split; auto|]. split; [|discriminate]. intros H. apply INR_eq with (m := O) in H. discriminate. Qed.
