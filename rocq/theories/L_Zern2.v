From Verif Require Import M_Zernike S_Zernike L_Array L_Sum L_Zern L_Diff L_Ortho.
From Coquelicot Require Import Coquelicot.
From Coq Require Import Lra Lia.
Local Open Scope R_scope.
Lemma unsqueeze_squeeze sh : forall ix, inb sh ix -> unsqueeze_ix sh (squeeze_ix sh ix) = ix.
Proof.
  induction sh as [|n sh IH]; intros ix H; cbn [unsqueeze_ix squeeze_ix].
  - now rewrite (inb_nil _ H).
  - destruct (inb_cons_inv _ _ _ H) as (i & r & -> & Hi & Hr). cbn [squeeze_ix]. destruct (Z.eqb_spec n 1) as [->|].
    + rewrite IH by auto. f_equal. lia.
    + now rewrite IH.
Qed.
Lemma inb_squeeze sh : forall ix, inb sh ix -> inb (filter (fun n => negb (n =? 1)%Z) sh) (squeeze_ix sh ix).
Proof.
  induction sh as [|n sh IH]; intros ix H.
  - rewrite (inb_nil _ H). constructor.
  - destruct (inb_cons_inv _ _ _ H) as (i & r & -> & Hi & Hr). cbn [squeeze_ix filter]. destruct (Z.eqb_spec n 1); cbn [negb]; auto. apply inb_cons. auto.
Qed.
Lemma squeeze_onto sh : forall ix, inb (filter (fun n => negb (n =? 1)%Z) sh) ix -> exists jx, inb sh jx /\ squeeze_ix sh jx = ix.
Proof.
  induction sh as [|n sh IH]; intros ix H.
  - exists []. split; [constructor|]. cbn in H. now rewrite (inb_nil _ H).
  - cbn [filter] in H. destruct (Z.eqb_spec n 1) as [->|Hn]; cbn [negb] in H.
    + destruct (IH ix H) as (jx & Hj & E). exists (0%Z :: jx). split; [apply inb_cons; split; [lia|auto]|]. cbn [squeeze_ix]. exact E.
    + destruct (inb_cons_inv _ _ _ H) as (i & r & -> & Hi & Hr). destruct (IH r Hr) as (jx & Hj & E). exists (i :: jx). split; [apply inb_cons; auto|].
      cbn [squeeze_ix]. destruct (Z.eqb_spec n 1); [contradiction|]. now rewrite E.
Qed.

Lemma odd_abs n m : ((n - Z.abs m) mod 2 = 0 <-> (n - m) mod 2 = 0)%Z.
Proof. destruct (Z.abs_spec m) as [[_ ->]|[_ ->]]; lia. Qed.
Lemma zernike_form norm n m r t : ((n - m) mod 2 = 0)%Z ->
  zernike_at norm n m r t = radial_zernike r n m * azimuthal m t * (if norm then noll_norm n m else 1).
Proof.
  intros Hp. apply odd_abs in Hp. unfold zernike_at, azimuthal, noll_norm. rewrite Hp. cbn [Z.eqb negb]. rewrite <- (radial_abs r n m).
  rewrite mult_IZR.
  destruct (Z.ltb_spec m 0) as [H|H].
  - rewrite Z.abs_neq by lia. destruct norm; [|ring]. destruct (Z.eqb_spec (- m) 0), (Z.eqb_spec m 0); try lia; ring.
  - rewrite Z.abs_eq by lia. destruct norm; [|ring]. destruct (Z.eqb_spec m 0); ring.
Qed.
Lemma radial_text n m r : legal n m -> r <= 1 -> radial_zernike r n m = (-1) ^ Z.to_nat (Z.abs m) * radial_poly (Z.to_nat n) (Z.to_nat (Z.abs m)) r.
Proof.
  intros Hl Hr. destruct (legal_form n m Hl) as (a & k & Ha & ->). rewrite radial_abs, Ha, !Nat2Z.id, radial_poly_zpoly. now apply radial_zernike_zpoly.
Qed.
Lemma noll_norm_sq n m : (0 <= n)%Z -> noll_norm n m * noll_norm n m = if (m =? 0)%Z then IZR (n + 1) else 2 * IZR (n + 1).
Proof. intros Hn. assert (0 <= IZR (n + 1)) by (apply IZR_le; lia). unfold noll_norm. destruct (m =? 0)%Z; apply sqrt_sqrt; lra. Qed.

Lemma azimuthal_rotate m t f : azimuthal m (t + f) = cos (IZR m * f) * azimuthal m t - sin (IZR m * f) * azimuthal (- m) t.
Proof.
  unfold azimuthal. destruct (Z.ltb_spec m 0), (Z.ltb_spec (- m) 0); try lia.
  - rewrite !Rmult_plus_distr_l, sin_plus. replace (IZR m * f) with (- (IZR (- m) * f)) by (rewrite opp_IZR; ring). rewrite cos_neg, sin_neg. ring.
  - rewrite Z.opp_involutive, !Rmult_plus_distr_l, cos_plus. ring.
  - assert (m = 0%Z) as -> by lia. cbn [Z.opp]. rewrite !Rmult_0_l, cos_0, sin_0. ring.
Qed.

Section Ortho.
Context (n m n' m' : Z) (H : legal n m) (H' : legal n' m').
Let c := noll_norm n m.
Let c' := noll_norm n' m'.
Lemma inner_int r : is_RInt (fun t => zernike_at true n m r t * zernike_at true n' m' r t) 0 (2 * PI)
  (radial_zernike r n m * radial_zernike r n' m' * (c * c') * (if (m =? m')%Z then (if (m =? 0)%Z then 2 * PI else PI) else 0)).
Proof.
  apply (is_RInt_extR (fun t => (radial_zernike r n m * radial_zernike r n' m' * (c * c')) * (azimuthal m t * azimuthal m' t))).
  - intros t. rewrite !zernike_form by (apply H || apply H'). unfold c, c'. ring.
  - apply is_RInt_scalR, azi_int.
Qed.
Lemma outer_int : is_RInt (fun r => RInt (fun t => zernike_at true n m r t * zernike_at true n' m' r t) 0 (2 * PI) * r) 0 1
  (if ((n =? n') && (m =? m'))%Z then PI else 0).
Proof.
  set (K := if (m =? m')%Z then (if (m =? 0)%Z then 2 * PI else PI) else 0).
  destruct (legal_form n m H) as (a & k & Ha & En). destruct (legal_form n' m' H') as (a' & k' & Ha' & En').
  apply (is_RInt_ext (V := R_NormedModule) (fun r => (c * c' * K * ((-1) ^ a * (-1) ^ a')) * (zpoly a k r * zpoly a' k' r * r))).
  { intros r Hr. rewrite Rmin_left, Rmax_right in Hr by lra. rewrite (is_RInt_unique _ _ _ _ (inner_int r)). fold K.
    rewrite (radial_abs r n m), (radial_abs r n' m'), Ha, Ha', En, En', !radial_zernike_zpoly by lra. unfold scal. cbn. change mult with Rmult. ring. }
  destruct (Z.eqb_spec m m') as [Em|Em].
  - assert (a' = a) as -> by lia. pose proof (is_RInt_scalR _ (c * c' * K * ((-1) ^ a * (-1) ^ a)) _ _ _ (radial_int a k k')) as HI.
    refine (eq_ind _ (fun v : R => is_RInt _ 0 1 v) HI _ _). rewrite m1_sq, andb_true_r.
    destruct (Nat.eqb_spec k k') as [<-|Hk].
    + destruct (Z.eqb_spec n n') as [E2|E2]; [|lia]. unfold c, c'. rewrite <- E2, <- Em, noll_norm_sq by apply H. unfold K.
      rewrite En. replace (Z.of_nat (a + 2 * k) + 1)%Z with (Z.of_nat (a + 2 * k + 1)) by lia. rewrite <- INR_IZR_INZ.
      assert (INR (a + 2 * k + 1) <> 0) by (apply not_0_INR; lia). destruct (Z.eqb_spec m 0); field; auto.
    + destruct (Z.eqb_spec n n') as [E2|E2]; [lia|]. ring.
  - rewrite andb_false_r. unfold K. apply (is_RInt_extR (fun _ => 0)); [intros; ring|]. apply is_RInt_zero.
Qed.
End Ortho.
