(** Orthogonality of the Zernike modes. *)
From Verif Require Import M_Zernike S_Zernike L_Array L_Sum L_Zern L_Diff.
From Coq Require Import Lra Lia Binomial.
From Coquelicot Require Import Coquelicot.
Local Open Scope R_scope.

Lemma pr_fact m k s : pr (INR m) k (INR s) = INR (fact (m + k + s)) / INR (fact (m + s)).
Proof.
  induction k as [|k IH]; cbn [pr].
  - rewrite Nat.add_0_r. field. apply fact_nz.
  - rewrite IH. replace (m + S k + s)%nat with (S (m + k + s)) by lia. rewrite fact_simpl, mult_INR.
    replace (INR (S (m + k + s))) with (INR s + (INR m + INR (S k))) by (rewrite !S_INR, !plus_INR; ring). field. apply fact_nz.
Qed.
Lemma zc_alt m k s : (s <= k)%nat -> zc m k s = (-1) ^ k / INR (fact k) * ((-1) ^ s * Binomial.C k s * pr (INR m) k (INR s)).
Proof.
  intros H. unfold zc, Binomial.C. rewrite pr_fact, pow_m1_sub by auto. field. repeat split; apply fact_nz.
Qed.
Lemma zc_sum m k f : Rsum (seq 0 (S k)) (fun s => zc m k s * f s) = (-1) ^ k / INR (fact k) * alt k (fun s => pr (INR m) k (INR s) * f s).
Proof.
  unfold alt. rewrite <- Rsum_scal_l. apply Rsum_ext. intros s Hs. apply in_seq in Hs. rewrite zc_alt by lia. ring.
Qed.
Lemma m1_sq k : (-1) ^ k * (-1) ^ k = 1.
Proof. rewrite <- pow_add. replace (k + k)%nat with (2 * k)%nat by lia. apply pow_1_even. Qed.
Lemma zpoly_1 m k : zpoly m k 1 = 1.
Proof.
  unfold zpoly. rewrite (Rsum_ext _ _ (fun s => zc m k s * 1)) by (intros; now rewrite pow1).
  rewrite zc_sum. rewrite (alt_ext k _ (fun s => pr (INR m) k (INR s))) by (intros; ring). rewrite (alt_top _ _ _ (pr_top (INR m) k)).
  transitivity ((-1) ^ k * (-1) ^ k); [field; apply fact_nz|apply m1_sq].
Qed.
Lemma pr_zero a k j : (j < k)%nat -> pr a k (- (a + INR j + 1)) = 0.
Proof.
  induction k as [|k IH]; intros H; [lia|]. cbn [pr]. destruct (Nat.eq_dec j k) as [->|].
  - rewrite S_INR. ring.
  - rewrite IH by lia. ring.
Qed.
Lemma pr_full a k l : (l <= k)%nat -> pr a l (- (a + INR k + 1)) = (-1) ^ l * (INR (fact k) / INR (fact (k - l))).
Proof.
  induction l as [|l IH]; intros H; cbn [pr].
  - rewrite Nat.sub_0_r. cbn. field. apply fact_nz.
  - rewrite IH by lia. replace (k - l)%nat with (S (k - S l)) by lia. rewrite fact_simpl, mult_INR.
    assert (E : INR (S (k - S l)) = INR k - INR l) by (rewrite <- minus_INR by lia; f_equal; lia). rewrite E.
    assert (INR k - INR l <> 0) by (rewrite <- E; apply not_0_INR; lia). cbn [pow]. rewrite S_INR. field. split; [apply fact_nz|auto].
Qed.
Lemma zc_moment m k j : Rsum (seq 0 (S k)) (fun s => zc m k s * / (INR s + (INR m + INR j + 1))) =
  (-1) ^ k * pr (INR m) k (- (INR m + INR j + 1)) / rising (INR m + INR j + 1) (S k).
Proof.
  rewrite zc_sum. set (M := INR m + INR j + 1). assert (HM : 0 < M) by (unfold M; pose proof (pos_INR m); pose proof (pos_INR j); lra).
  rewrite (alt_ext k _ (fun s => quo (INR m) M k (INR s) + pr (INR m) k (- M) * / (INR s + M))).
  - rewrite alt_plus, alt_scal, (alt_top _ _ _ (quo_top (INR m) M k)), alt_difs, difs_inv by auto. change (INR 0) with 0. rewrite !Rplus_0_l.
    assert (Hr : 0 < rising M (S k)). { clear. assert (H : forall x j, 0 < x -> 0 < rising x j). { intros x i Hx. induction i as [|i IHi]; cbn [rising]; [lra|]. pose proof (pos_INR i). nra. } apply H. unfold M. pose proof (pos_INR m); pose proof (pos_INR j); lra. }
    field. split; [lra|apply fact_nz].
  - intros s _. rewrite (pr_div (INR m) M) at 1. pose proof (pos_INR s). field. lra.
Qed.
Lemma zc_moment_low m k j : (j < k)%nat -> Rsum (seq 0 (S k)) (fun s => zc m k s * / (INR s + (INR m + INR j + 1))) = 0.
Proof. intros H. rewrite zc_moment, pr_zero by auto. unfold Rdiv. ring. Qed.
Lemma zc_moment_top m k : zc m k k * Rsum (seq 0 (S k)) (fun s => zc m k s * / (INR s + (INR m + INR k + 1))) = / INR (m + 2 * k + 1).
Proof.
  rewrite zc_moment, pr_full by lia. rewrite Nat.sub_diag. unfold zc. rewrite Nat.sub_diag.
  replace (INR m + INR k + 1) with (INR (m + k) + 1) by (rewrite plus_INR; ring). rewrite rising_nat.
  replace (m + k + S k)%nat with (S (m + k + k)) by lia. rewrite fact_simpl, mult_INR. replace (S (m + k + k)) with (m + 2 * k + 1)%nat by lia.
  cbn [pow fact INR]. pose proof (m1_sq k) as E.
  assert (INR (m + 2 * k + 1) <> 0) by (apply not_0_INR; lia).
  transitivity ((-1) ^ k * (-1) ^ k / INR (m + 2 * k + 1)); [field; repeat split; auto; apply fact_nz|]. rewrite E. field. auto.
Qed.

(** ** integrals *)
Lemma is_RInt_extR (f g : R -> R) (a b v : R) : (forall x, f x = g x) -> is_RInt f a b v -> is_RInt g a b v.
Proof. intros H. apply is_RInt_ext. intros x _. apply H. Qed.
Lemma is_RInt_pow01 n : is_RInt (fun r => r ^ n) 0 1 (/ (INR n + 1)).
Proof.
  pose proof (pos_INR n) as Hn.
  replace (/ (INR n + 1)) with (minus (1 ^ S n / (INR n + 1)) (0 ^ S n / (INR n + 1))).
  - apply (is_RInt_derive (fun r => r ^ S n / (INR n + 1))).
    + intros x _. apply (is_derive_ext (fun r => / (INR n + 1) * r ^ S n)); [intros; unfold Rdiv; apply Rmult_comm|].
      replace (x ^ n) with (/ (INR n + 1) * (INR (S n) * 1 * x ^ pred (S n))) by (rewrite S_INR; cbn [pred]; field; lra).
      apply (is_derive_scal (fun r => r ^ S n)). apply (is_derive_pow (fun r => r) (S n) x 1). apply (is_derive_id x).
    + intros x _. apply (ex_derive_continuous (fun r => r ^ n)). auto_derive. auto.
  - unfold minus, plus, opp. cbn [AbelianGroup.plus AbelianGroup.opp R_AbelianGroup]. rewrite pow1. cbn. field. lra.
Qed.
Lemma is_RInt_zero a b : is_RInt (fun _ => 0) a b 0.
Proof.
  eapply eq_ind; [exact (is_RInt_const a b (0 : R))|]. unfold scal; cbn; unfold mult; cbn; ring.
Qed.
Lemma is_RInt_Rsum {X} (l : list X) (F : X -> R -> R) (v : X -> R) a b : (forall x, In x l -> is_RInt (F x) a b (v x)) ->
  is_RInt (fun r => Rsum l (fun x => F x r)) a b (Rsum l v).
Proof.
  induction l as [|x l IH]; intros H; cbn [Rsum].
  - apply is_RInt_zero.
  - apply (is_RInt_plus (V := R_NormedModule)); [apply H; now left|]. apply IH. intros y Hy. apply H. now right.
Qed.
Lemma is_RInt_scalR (f : R -> R) c a b v : is_RInt f a b v -> is_RInt (fun r => c * f r) a b (c * v).
Proof. intros H. exact (is_RInt_scal f a b c v H). Qed.

Lemma radial_int_le m k k' : (k' <= k)%nat ->
  is_RInt (fun r => zpoly m k r * zpoly m k' r * r) 0 1 (if Nat.eqb k k' then / (2 * INR (m + 2 * k + 1)) else 0).
Proof.
  intros Hk.
  assert (E : (if Nat.eqb k k' then / (2 * INR (m + 2 * k + 1)) else 0) =
    Rsum (seq 0 (S k')) (fun j => zc m k' j * Rsum (seq 0 (S k)) (fun s => zc m k s * (/ 2 * / (INR s + (INR m + INR j + 1)))))).
  { assert (Ein : forall j, Rsum (seq 0 (S k)) (fun s => zc m k s * (/ 2 * / (INR s + (INR m + INR j + 1)))) =
       / 2 * Rsum (seq 0 (S k)) (fun s => zc m k s * / (INR s + (INR m + INR j + 1)))).
    { intros j. rewrite <- Rsum_scal_l. apply Rsum_ext. intros. ring. }
    rewrite (Rsum_ext _ _ (fun j => / 2 * (zc m k' j * Rsum (seq 0 (S k)) (fun s => zc m k s * / (INR s + (INR m + INR j + 1)))))) by (intros; rewrite Ein; ring).
    rewrite Rsum_scal_l, Rsum_seq_last. rewrite Rsum_zero.
    - destruct (Nat.eqb_spec k k') as [->|Hne].
      + rewrite zc_moment_top, Rplus_0_l. assert (INR (m + 2 * k' + 1) <> 0) by (apply not_0_INR; lia). field. auto.
      + rewrite zc_moment_low by lia. ring.
    - intros j Hj. apply in_seq in Hj. rewrite zc_moment_low by lia. ring. }
  refine (eq_ind_r (fun v : R => is_RInt _ 0 1 v) _ E). clear E.
  apply (is_RInt_extR (fun r => Rsum (seq 0 (S k')) (fun j => zc m k' j * Rsum (seq 0 (S k)) (fun s => zc m k s * r ^ (2 * (m + s + j) + 1))))).
  - intros r. unfold zpoly. rewrite Rmult_assoc, Rmult_comm. rewrite (Rmult_comm (Rsum (seq 0 (S k')) _) r), Rmult_assoc, <- Rsum_scal_r, <- Rsum_scal_l.
    apply Rsum_ext. intros j _. rewrite <- !Rsum_scal_l. apply Rsum_ext. intros s _.
    replace (2 * (m + s + j) + 1)%nat with (1 + (m + 2 * s) + (m + 2 * j))%nat by lia. rewrite !pow_add, pow_1. ring.
  - apply is_RInt_Rsum. intros j _. apply is_RInt_scalR. apply is_RInt_Rsum. intros s _. apply is_RInt_scalR.
    replace (/ 2 * / (INR s + (INR m + INR j + 1))) with (/ (INR (2 * (m + s + j) + 1) + 1)).
    + apply is_RInt_pow01.
    + rewrite !plus_INR, mult_INR, !plus_INR. change (INR 2) with 2. change (INR 1) with 1. pose proof (pos_INR m). pose proof (pos_INR s). pose proof (pos_INR j). field. split; lra.
Qed.
Lemma radial_int m k k' : is_RInt (fun r => zpoly m k r * zpoly m k' r * r) 0 1 (if Nat.eqb k k' then / (2 * INR (m + 2 * k + 1)) else 0).
Proof.
  destruct (Nat.le_ge_cases k' k) as [H|H]; [now apply radial_int_le|].
  apply (is_RInt_extR (fun r => zpoly m k' r * zpoly m k r * r)); [intros; ring|].
  assert (E : (if Nat.eqb k k' then / (2 * INR (m + 2 * k + 1)) else 0) = (if Nat.eqb k' k then / (2 * INR (m + 2 * k' + 1)) else 0)).
  { rewrite (Nat.eqb_sym k k'). destruct (Nat.eqb_spec k' k) as [->|]; reflexivity. }
  refine (eq_ind_r (fun v : R => is_RInt _ 0 1 v) _ E). now apply radial_int_le.
Qed.

(** azimuthal integrals *)
Lemma int_cos j : (j <> 0)%Z -> is_RInt (fun t => cos (IZR j * t)) 0 (2 * PI) 0.
Proof.
  intros Hj. assert (Hj' : IZR j <> 0) by (apply not_0_IZR; auto).
  refine (eq_ind (minus (sin (IZR j * (2 * PI)) / IZR j) (sin (IZR j * 0) / IZR j)) (fun v : R => is_RInt _ 0 (2 * PI) v) _ 0 _).
  - apply (is_RInt_derive (fun t => sin (IZR j * t) / IZR j)).
    + intros x _. auto_derive; auto. field. auto.
    + intros x _. apply (ex_derive_continuous (fun t => cos (IZR j * t))). auto_derive. auto.
  - unfold minus, plus, opp; cbn. rewrite Rmult_0_r, sin_0. replace (IZR j * (2 * PI)) with (0 + 2 * PI * IZR j) by ring.
    pose proof (cis_period 0 j) as E. unfold cis in E. injection E as _ E. rewrite E, sin_0. field. auto.
Qed.
Lemma int_sin j : is_RInt (fun t => sin (IZR j * t)) 0 (2 * PI) 0.
Proof.
  destruct (Z.eq_dec j 0) as [->|Hj].
  - apply (is_RInt_extR (fun _ => 0)); [intros; now rewrite Rmult_0_l, sin_0|]. apply is_RInt_zero.
  - assert (Hj' : IZR j <> 0) by (apply not_0_IZR; auto).
    refine (eq_ind (minus (- cos (IZR j * (2 * PI)) / IZR j) (- cos (IZR j * 0) / IZR j)) (fun v : R => is_RInt _ 0 (2 * PI) v) _ 0 _).
    + apply (is_RInt_derive (fun t => - cos (IZR j * t) / IZR j)).
      * intros x _. auto_derive; auto. field. auto.
      * intros x _. apply (ex_derive_continuous (fun t => sin (IZR j * t))). auto_derive. auto.
    + unfold minus, plus, opp; cbn. rewrite Rmult_0_r, cos_0. replace (IZR j * (2 * PI)) with (0 + 2 * PI * IZR j) by ring.
      pose proof (cis_period 0 j) as E. unfold cis in E. injection E as E _. rewrite E, cos_0. field. auto.
Qed.
Lemma int_one : is_RInt (fun _ => 1) 0 (2 * PI) (2 * PI).
Proof. eapply eq_ind; [exact (is_RInt_const 0 (2 * PI) (1 : R))|]. unfold scal; cbn; unfold mult; cbn; ring. Qed.
Lemma is_RInt_lin (f g : R -> R) a b u v c d : is_RInt f a b u -> is_RInt g a b v -> is_RInt (fun t => c * f t + d * g t) a b (c * u + d * v).
Proof. intros H1 H2. exact (is_RInt_plus _ _ _ _ _ _ (is_RInt_scal _ _ _ c _ H1) (is_RInt_scal _ _ _ d _ H2)). Qed.
Lemma int_cos' j : is_RInt (fun t => cos (IZR j * t)) 0 (2 * PI) (if (j =? 0)%Z then 2 * PI else 0).
Proof.
  destruct (Z.eqb_spec j 0) as [->|Hj]; [|now apply int_cos]. apply (is_RInt_extR (fun _ => 1)); [intros; now rewrite Rmult_0_l, cos_0|]. apply int_one.
Qed.
Lemma azi_int a b : is_RInt (fun t => azimuthal a t * azimuthal b t) 0 (2 * PI)
  (if (a =? b)%Z then (if (a =? 0)%Z then 2 * PI else PI) else 0).
Proof.
  unfold azimuthal. destruct (Z.ltb_spec a 0), (Z.ltb_spec b 0).
  - apply (is_RInt_extR (fun t => / 2 * cos (IZR (a - b) * t) + - / 2 * cos (IZR (a + b) * t))).
    { intros t. replace (IZR (a - b) * t) with (IZR (- b) * t - IZR (- a) * t) by (rewrite minus_IZR, !opp_IZR; ring).
      replace (IZR (a + b) * t) with (- (IZR (- a) * t + IZR (- b) * t)) by (rewrite plus_IZR, !opp_IZR; ring). rewrite cos_neg, cos_minus, cos_plus. field. }
    pose proof (is_RInt_lin _ _ _ _ _ _ (/ 2) (- / 2) (int_cos' (a - b)) (int_cos' (a + b))) as H1. refine (eq_ind _ (fun v : R => is_RInt _ 0 (2 * PI) v) H1 _ _).
    destruct (Z.eqb_spec (a - b) 0), (Z.eqb_spec (a + b) 0), (Z.eqb_spec a b), (Z.eqb_spec a 0); try lia; field.
  - apply (is_RInt_extR (fun t => / 2 * sin (IZR (- a + b) * t) + / 2 * sin (IZR (- a - b) * t))).
    { intros t. rewrite plus_IZR, minus_IZR. replace ((IZR (- a) + IZR b) * t) with (IZR (- a) * t + IZR b * t) by ring. replace ((IZR (- a) - IZR b) * t) with (IZR (- a) * t - IZR b * t) by ring.
      rewrite sin_plus, sin_minus. field. }
    pose proof (is_RInt_lin _ _ _ _ _ _ (/ 2) (/ 2) (int_sin (- a + b)) (int_sin (- a - b))) as H1. refine (eq_ind _ (fun v : R => is_RInt _ 0 (2 * PI) v) H1 _ _).
    destruct (Z.eqb_spec a b); [lia|ring].
  - apply (is_RInt_extR (fun t => / 2 * sin (IZR (- b + a) * t) + / 2 * sin (IZR (- b - a) * t))).
    { intros t. rewrite plus_IZR, minus_IZR. replace ((IZR (- b) + IZR a) * t) with (IZR (- b) * t + IZR a * t) by ring. replace ((IZR (- b) - IZR a) * t) with (IZR (- b) * t - IZR a * t) by ring.
      rewrite sin_plus, sin_minus. field. }
    pose proof (is_RInt_lin _ _ _ _ _ _ (/ 2) (/ 2) (int_sin (- b + a)) (int_sin (- b - a))) as H1. refine (eq_ind _ (fun v : R => is_RInt _ 0 (2 * PI) v) H1 _ _).
    destruct (Z.eqb_spec a b); [lia|ring].
  - apply (is_RInt_extR (fun t => / 2 * cos (IZR (a - b) * t) + / 2 * cos (IZR (a + b) * t))).
    { intros t. rewrite plus_IZR, minus_IZR. replace ((IZR a + IZR b) * t) with (IZR a * t + IZR b * t) by ring. replace ((IZR a - IZR b) * t) with (IZR a * t - IZR b * t) by ring.
      rewrite cos_plus, cos_minus. field. }
    pose proof (is_RInt_lin _ _ _ _ _ _ (/ 2) (/ 2) (int_cos' (a - b)) (int_cos' (a + b))) as H1. refine (eq_ind _ (fun v : R => is_RInt _ 0 (2 * PI) v) H1 _ _).
    destruct (Z.eqb_spec (a - b) 0), (Z.eqb_spec (a + b) 0), (Z.eqb_spec a b), (Z.eqb_spec a 0); try lia; field.
Qed.
