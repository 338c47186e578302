(** Separable operators and the Fourier transform. *)
From Verif Require Import M_FFT L_Array L_Sum.
Local Open Scope Z_scope.
Local Notation "a *c b" := (Cmult a b) (at level 40, left associativity).
Local Notation "a +c b" := (Cplus a b) (at level 50, left associativity).

(** Operators acting axis by axis with a kernel [K n k j]. *)
Fixpoint mop (K : Z -> Z -> Z -> C) (mask : list bool) (sh : list Z) (f : list Z -> C) (ks : list Z) : C :=
  match mask, sh, ks with
  | b :: mask', n :: sh', k :: ks' =>
      if b then Csum (zseq n) (fun j => K n k j *c mop K mask' sh' (fun js => f (j :: js)) ks')
      else mop K mask' sh' (fun js => f (k :: js)) ks'
  | _, _, _ => f ks
  end.

Lemma mop_ext K mask : forall sh f g ks, inb sh ks -> (forall js, inb sh js -> f js = g js) ->
  mop K mask sh f ks = mop K mask sh g ks.
Proof.
  induction mask as [|b mask IH]; intros sh f g ks Hk Hfg; cbn [mop]; [now apply Hfg|].
  destruct sh as [|n sh]; [now apply Hfg|].
  destruct (inb_cons_inv _ _ _ Hk) as (k & r & -> & Hn & Hr).
  assert (HI : forall j, 0 <= j < n -> mop K mask sh (fun js => f (j :: js)) r = mop K mask sh (fun js => g (j :: js)) r).
  { intros j Hj. apply IH; auto. intros js Hjs. apply Hfg. now apply inb_cons. }
  destruct b; [|now apply HI].
  apply Csum_ext. intros j Hj. apply in_zseq in Hj. now rewrite HI.
Qed.
Lemma mop_kernel K K' mask : forall sh f ks, inb sh ks ->
  (forall n k j, In n sh -> 0 <= k < n -> 0 <= j < n -> K n k j = K' n k j) ->
  mop K mask sh f ks = mop K' mask sh f ks.
Proof.
  induction mask as [|b mask IH]; intros sh f ks Hk HK; cbn [mop]; auto.
  destruct sh as [|n sh]; auto. destruct (inb_cons_inv _ _ _ Hk) as (k & r & -> & Hn & Hr).
  destruct b.
  - apply Csum_ext. intros j Hj. apply in_zseq in Hj. rewrite HK by (cbn; auto). f_equal.
    apply IH; auto. intros; apply HK; cbn; auto.
  - apply IH; auto. intros; apply HK; cbn; auto.
Qed.
Lemma mop_lin K mask : forall sh {X} (l : list X) (c : X -> C) (F : X -> list Z -> C) ks,
  mop K mask sh (fun js => Csum l (fun x => c x *c F x js)) ks =
  Csum l (fun x => c x *c mop K mask sh (F x) ks).
Proof.
  induction mask as [|b mask IH]; intros sh X l c F ks; cbn [mop]; auto.
  destruct sh as [|n sh]; auto. destruct ks as [|k ks]; auto. destruct b.
  - transitivity (Csum (zseq n) (fun j => Csum l (fun x => c x *c (K n k j *c mop K mask sh (fun js => F x (j :: js)) ks)))).
    + apply Csum_ext. intros j _. rewrite (IH sh X l c (fun x js => F x (j :: js)) ks).
      rewrite <- Csum_scal_l. apply Csum_ext. intros x _. ring.
    + rewrite Csum_swap. apply Csum_ext. intros x _. apply Csum_scal_l.
  - apply (IH sh X l c (fun x js => F x (k :: js))).
Qed.
Lemma mop_ext' K mask : forall sh f g ks, (forall js, f js = g js) -> mop K mask sh f ks = mop K mask sh g ks.
Proof.
  induction mask as [|b mask IH]; intros sh g h ks E; cbn [mop]; auto.
  destruct sh as [|n sh]; auto. destruct ks as [|k ks]; auto. destruct b.
  - apply Csum_ext. intros j _. f_equal. apply IH. auto.
  - apply IH; auto.
Qed.
Lemma mop_scal K mask sh c f ks : mop K mask sh (fun js => c *c f js) ks = c *c mop K mask sh f ks.
Proof.
  pose proof (mop_lin K mask sh [tt] (fun _ => c) (fun _ => f) ks) as H. cbn [Csum] in H.
  rewrite Cplus_0_r in H. rewrite <- H. apply mop_ext'. intros js. ring.
Qed.
Lemma mop_plus K mask sh f g ks : mop K mask sh (fun js => f js +c g js) ks = mop K mask sh f ks +c mop K mask sh g ks.
Proof.
  pose proof (mop_lin K mask sh [true; false] (fun _ => RtoC 1) (fun b => if b then f else g) ks) as H.
  cbn [Csum] in H. transitivity (RtoC 1 *c mop K mask sh f ks +c (RtoC 1 *c mop K mask sh g ks +c RtoC 0)); [|ring].
  rewrite <- H. apply mop_ext'. intros js. ring.
Qed.

(** composition of kernels *)
Definition kcomp (K2 K1 : Z -> Z -> Z -> C) : Z -> Z -> Z -> C :=
  fun n k i => Csum (zseq n) (fun j => K2 n k j *c K1 n j i).
Lemma mop_comp K2 K1 mask : forall sh f ks,
  mop K2 mask sh (mop K1 mask sh f) ks = mop (kcomp K2 K1) mask sh f ks.
Proof.
  induction mask as [|b mask IH]; intros sh f ks; cbn [mop]; auto.
  destruct sh as [|n sh]; auto. destruct ks as [|k ks]; auto. destruct b.
  - transitivity (Csum (zseq n) (fun j => K2 n k j *c
        Csum (zseq n) (fun i => K1 n j i *c mop (kcomp K2 K1) mask sh (fun is => f (i :: is)) ks))).
    + apply Csum_ext. intros j _. f_equal.
      rewrite (mop_lin K2 mask sh (zseq n) (fun i => K1 n j i) (fun i js => mop K1 mask sh (fun is => f (i :: is)) js) ks).
      apply Csum_ext. intros i _. f_equal. apply (IH sh (fun is => f (i :: is)) ks).
    + transitivity (Csum (zseq n) (fun j => Csum (zseq n) (fun i =>
          K2 n k j *c K1 n j i *c mop (kcomp K2 K1) mask sh (fun is => f (i :: is)) ks))).
      * apply Csum_ext. intros j _. rewrite <- Csum_scal_l. apply Csum_ext. intros i _. ring.
      * rewrite Csum_swap. apply Csum_ext. intros i _. unfold kcomp at 2. rewrite <- Csum_scal_r. reflexivity.
  - apply (IH sh (fun js => f (k :: js)) ks).
Qed.

(** permutation kernels *)
Definition delta (a b : Z) : C := if a =? b then RtoC 1 else RtoC 0.
Lemma Csum_delta n k (f : Z -> C) : 0 <= k < n -> Csum (zseq n) (fun j => delta k j *c f j) = f k.
Proof.
  intros Hk. rewrite (Csum_single (zseq n) _ k).
  - unfold delta. rewrite Z.eqb_refl. ring.
  - apply NoDup_zseq.
  - now apply in_zseq.
  - intros x _ Hx. unfold delta. replace (k =? x) with false; [ring|]. symmetry. apply Z.eqb_neq. congruence.
Qed.
Lemma mop_id mask : forall sh f ks, inb sh ks -> mop (fun _ k j => delta k j) mask sh f ks = f ks.
Proof.
  induction mask as [|b mask IH]; intros sh f ks Hk; cbn [mop]; auto.
  destruct sh as [|n sh]; auto. destruct (inb_cons_inv _ _ _ Hk) as (k & r & -> & Hn & Hr). destruct b.
  - rewrite (Csum_delta n k (fun j => mop (fun _ k0 j0 => delta k0 j0) mask sh (fun js => f (j :: js)) r)) by auto.
    now apply (IH sh (fun js => f (k :: js)) r).
  - now apply (IH sh (fun js => f (k :: js)) r).
Qed.
Lemma mop_shift sgn mask : forall sh f ks, inb sh ks ->
  mop (fun n k j => delta ((k + sgn * (n / 2)) mod n) j) mask sh f ks = f (shift_ix sgn mask sh ks).
Proof.
  induction mask as [|b mask IH]; intros sh f ks Hk; cbn [mop shift_ix]; auto.
  destruct sh as [|n sh]; [destruct ks; auto|]. destruct (inb_cons_inv _ _ _ Hk) as (k & r & -> & Hn & Hr). destruct b.
  - rewrite (Csum_delta n _ (fun j => mop _ mask sh (fun js => f (j :: js)) r)) by (apply Z.mod_pos_bound; lia).
    now apply (IH sh (fun js => f (_ :: js))).
  - now apply (IH sh (fun js => f (_ :: js))).
Qed.
Lemma inb_shift_ix sgn mask : forall sh ks, inb sh ks -> inb sh (shift_ix sgn mask sh ks).
Proof.
  induction mask as [|b mask IH]; intros sh ks Hk; cbn [shift_ix]; auto.
  destruct sh as [|n sh]; [destruct ks; auto|]. destruct (inb_cons_inv _ _ _ Hk) as (k & r & -> & Hn & Hr).
  apply inb_cons. split; [|now apply IH]. destruct b; auto. apply Z.mod_pos_bound; lia.
Qed.

(** scaled kernels *)
Lemma mop_kscale (c : Z -> C) K mask : forall sh f ks,
  mop (fun n k j => c n *c K n k j) mask sh f ks =
  (fix sc (mask : list bool) (sh : list Z) (ks : list Z) := match mask, sh, ks with
     | b :: mask', n :: sh', k :: ks' => (if b then c n else RtoC 1) *c sc mask' sh' ks' | _, _, _ => RtoC 1 end) mask sh ks
  *c mop K mask sh f ks.
Proof.
  induction mask as [|b mask IH]; intros sh f ks; cbn [mop]; [ring|].
  destruct sh as [|n sh]; [ring|]. destruct ks as [|k ks]; [ring|]. destruct b.
  - rewrite <- Csum_scal_l. apply Csum_ext. intros j _. rewrite IH. ring.
  - rewrite IH. ring.
Qed.

(** ** roots of unity *)
Lemma root_add n a b : root n (a + b) = root n a *c root n b.
Proof. unfold root. rewrite <- cis_add. f_equal. rewrite plus_IZR. unfold Rdiv. ring. Qed.
Lemma root_0 n : root n 0 = RtoC 1.
Proof. unfold root, Rdiv. rewrite Rmult_0_l, Rmult_0_r. apply cis_0. Qed.
Lemma root_conj n a : Cconj (root n a) = root n (- a).
Proof. unfold root. rewrite cis_conj. f_equal. rewrite opp_IZR. unfold Rdiv. ring. Qed.
Lemma root_period n a q : 0 < n -> root n (a + q * n) = root n a.
Proof.
  intros Hn. unfold root. rewrite <- (cis_period (2 * PI * (IZR a / IZR n)) q). f_equal.
  rewrite plus_IZR, mult_IZR. field. apply not_0_IZR. lia.
Qed.
Lemma root_mod n a : 0 < n -> root n (a mod n) = root n a.
Proof.
  intros Hn. rewrite (Z.div_mod a n) at 2 by lia. rewrite Z.add_comm, Z.mul_comm. now rewrite root_period.
Qed.
Lemma root_cong n a b : 0 < n -> (a - b) mod n = 0 -> root n a = root n b.
Proof.
  intros Hn H. apply Z.mod_divide in H; [|lia]. destruct H as [q Hq]. replace a with (b + q * n) by lia.
  now apply root_period.
Qed.
Lemma root_norm n a : Cnorm2 (root n a) = 1%R.
Proof. apply Cnorm2_cis. Qed.
Lemma root_mod1 n a : Cmod (root n a) = 1%R.
Proof. apply Cmod_cis. Qed.
Lemma root_neq1 n k : 0 < k < n -> root n k <> RtoC 1.
Proof.
  intros Hk H. unfold root, cis, RtoC in H. injection H as Hc _.
  set (t := (PI * (IZR k / IZR n))%R).
  assert (Hn : (0 < IZR n)%R) by (apply IZR_lt; lia).
  assert (Hf : (0 < IZR k / IZR n < 1)%R).
  { split; [apply Rdiv_lt_0_compat; auto; apply IZR_lt; lia|].
    apply Rmult_lt_reg_r with (IZR n); auto. unfold Rdiv. rewrite Rmult_assoc, Rinv_l, Rmult_1_r, Rmult_1_l by lra.
    apply IZR_lt; lia. }
  pose proof PI_RGT_0 as Hpi.
  assert (Hs : (0 < sin t)%R) by (apply sin_gt_0; unfold t; nra).
  replace (2 * PI * (IZR k / IZR n))%R with (2 * t)%R in Hc by (unfold t; ring).
  rewrite cos_2a_sin in Hc. nra.
Qed.
Lemma root_geom n k : forall m : nat,
  (RtoC 1 +c Copp (root n k)) *c Csum (map Z.of_nat (seq 0 m)) (fun j => root n (j * k)) = RtoC 1 +c Copp (root n (Z.of_nat m * k)).
Proof.
  induction m as [|m IH].
  - cbn [seq map Csum]. rewrite Z.mul_0_l, root_0. ring.
  - rewrite seq_S, map_app, Csum_app. cbn [map Csum Nat.add]. rewrite Cmult_plus_distr_l, IH.
    replace (Z.of_nat (S m) * k) with (Z.of_nat m * k + k) by lia. rewrite root_add. ring.
Qed.
Lemma root_sum n k : 0 < n -> Csum (zseq n) (fun j => root n (j * k)) = if k mod n =? 0 then RtoC (IZR n) else RtoC 0.
Proof.
  intros Hn. destruct (Z.eqb_spec (k mod n) 0) as [E|E].
  - rewrite (Csum_ext _ _ (fun _ => RtoC 1)).
    + rewrite Csum_const, zseq_length, INR_IZR_INZ, Z2Nat.id by lia. ring.
    + intros j _. rewrite <- (root_0 n). apply root_cong; auto. rewrite Z.sub_0_r, Z.mul_mod, E, Z.mul_0_r by lia.
      apply Zmod_0_l.
  - assert (H : root n k <> RtoC 1).
    { rewrite <- root_mod by auto. apply root_neq1. pose proof (Z.mod_pos_bound k n Hn). lia. }
    pose proof (root_geom n k (Z.to_nat n)) as G. rewrite Z2Nat.id in G by lia.
    replace (root n (n * k)) with (RtoC 1) in G.
    2:{ rewrite <- (root_0 n). apply root_cong; auto. replace (0 - n * k) with (- k * n) by lia. apply Z_mod_mult. }
    assert (Hz : RtoC 1 +c Copp (root n k) <> RtoC 0).
    { intros Hx. apply H. transitivity (root n k +c (RtoC 1 +c Copp (root n k))); [rewrite Hx|]; ring. }
    fold (zseq n) in G.
    transitivity (/ (RtoC 1 +c Copp (root n k)) *c ((RtoC 1 +c Copp (root n k)) *c Csum (zseq n) (fun j => root n (j * k))))%C.
    + rewrite Cmult_assoc, Cinv_l by auto. ring.
    + rewrite G. ring.
Qed.
Lemma root_orth n a b : 0 < n -> 0 <= a < n -> 0 <= b < n ->
  Csum (zseq n) (fun j => root n (j * (a - b))) = RtoC (IZR n) *c delta a b.
Proof.
  intros Hn Ha Hb. rewrite root_sum by auto. unfold delta.
  destruct (Z.eqb_spec ((a - b) mod n) 0) as [E|E]; destruct (Z.eqb_spec a b) as [E'|E']; try ring.
  - exfalso. apply E'. now apply (mod_inj n).
  - subst. rewrite Z.sub_diag, Zmod_0_l in E. lia.
Qed.

(** The Fourier kernels are kernels. *)
Definition kdft (sgn : Z) : Z -> Z -> Z -> C := fun n k j => root n (sgn * (j * k)).
Lemma dft_mop sgn mask : forall sh f ks, dft sgn mask sh f ks = mop (kdft sgn) mask sh f ks.
Proof.
  induction mask as [|b mask IH]; intros sh f ks; cbn [mop dft]; auto.
  destruct sh as [|n sh]; auto. destruct ks as [|k ks]; auto. destruct b; auto.
  apply Csum_ext. intros j _. now rewrite IH.
Qed.

(** easy_fft has the centred kernel *)
Definition kcen (sgn : Z) : Z -> Z -> Z -> C := fun n k j => root n (sgn * ((j - n / 2) * (k - n / 2))).
Definition kshift (sgn : Z) : Z -> Z -> Z -> C := fun n k j => delta ((k + sgn * (n / 2)) mod n) j.

Lemma kcomp_shift_l sgn K n k i : 0 < n ->
  kcomp (kshift sgn) K n k i = K n ((k + sgn * (n / 2)) mod n) i.
Proof.
  intros Hn. unfold kcomp, kshift.
  rewrite (Csum_delta n _ (fun j => K n j i)); auto. now apply Z.mod_pos_bound.
Qed.
Lemma kcomp_shift_r sgn K n k i : 0 < n -> 0 <= i < n ->
  kcomp K (kshift sgn) n k i = K n k ((i - sgn * (n / 2)) mod n).
Proof.
  intros Hn Hi. unfold kcomp, kshift.
  rewrite (Csum_single (zseq n) _ ((i - sgn * (n / 2)) mod n)).
  - unfold delta. rewrite Zplus_mod_idemp_l, Z.sub_add, (Z.mod_small i n Hi), Z.eqb_refl. ring.
  - apply NoDup_zseq.
  - apply in_zseq. now apply Z.mod_pos_bound.
  - intros x Hx Hne. unfold delta. destruct (Z.eqb_spec ((x + sgn * (n / 2)) mod n) i) as [E|E]; [|ring].
    exfalso. apply Hne. rewrite <- E. rewrite Zminus_mod_idemp_l. apply in_zseq in Hx.
    replace (x + sgn * (n / 2) - sgn * (n / 2)) with x by lia. symmetry. now apply Z.mod_small.
Qed.

Lemma mulmod_cong n a b c d : 0 < n -> (a - c) mod n = 0 -> (b - d) mod n = 0 -> (a * b - c * d) mod n = 0.
Proof.
  intros Hn H1 H2. apply Z.mod_divide in H1, H2; try lia. destruct H1 as [p Hp], H2 as [q Hq].
  replace (a * b - c * d) with ((a - c) * b + c * (b - d)) by ring. rewrite Hp, Hq.
  replace (p * n * b + c * (q * n)) with ((p * b + c * q) * n) by ring. apply Z_mod_mult.
Qed.
Lemma mod_self_cong n a : 0 < n -> (a mod n - a) mod n = 0.
Proof. intros Hn. rewrite Zminus_mod_idemp_l, Z.sub_diag. apply Zmod_0_l. Qed.

Lemma kernel_easy_fft n k i : 0 < n -> 0 <= i < n ->
  kcomp (kshift (-1)) (kcomp (kdft (-1)) (kshift 1)) n k i = kcen (-1) n k i.
Proof.
  intros Hn Hi. rewrite kcomp_shift_l, kcomp_shift_r by auto. unfold kdft, kcen.
  apply root_cong; auto. rewrite <- Z.mul_sub_distr_l.
  assert (H : ((i - 1 * (n / 2)) mod n * ((k + -1 * (n / 2)) mod n) - (i - n / 2) * (k - n / 2)) mod n = 0).
  { apply mulmod_cong; auto.
    - replace (i - n / 2) with (i - 1 * (n / 2)) by lia. now apply mod_self_cong.
    - replace (k - n / 2) with (k + -1 * (n / 2)) by lia. now apply mod_self_cong. }
  apply Z.mod_divide in H; [|lia]. destruct H as [q ->]. replace (-1 * (q * n)) with (- q * n) by lia. apply Z_mod_mult.
Qed.
(** easy_ifft's kernel (up to 1/n) *)
Definition kicen : Z -> Z -> Z -> C := fun n k j => root n ((j + n / 2) * (k + n / 2)).
Lemma kernel_easy_ifft n k i : 0 < n -> 0 <= i < n ->
  kcomp (kshift 1) (kcomp (kdft 1) (kshift (-1))) n k i = kicen n k i.
Proof.
  intros Hn Hi. rewrite kcomp_shift_l, kcomp_shift_r by auto. unfold kdft, kicen.
  apply root_cong; auto. rewrite Z.mul_1_l.
  apply mulmod_cong; auto.
  - replace (i + n / 2) with (i - -1 * (n / 2)) by lia. now apply mod_self_cong.
  - replace (k + n / 2) with (k + 1 * (n / 2)) by lia. now apply mod_self_cong.
Qed.

(** round trip kernel *)
Lemma kernel_round n k i : 0 < n -> 0 <= k < n -> 0 <= i < n ->
  kcomp kicen (kcen (-1)) n k i =
  RtoC (IZR n) *c (root n (n / 2 * (k + i)) *c delta ((k + 2 * (n / 2)) mod n) i).
Proof.
  intros Hn Hk Hi. unfold kcomp, kicen, kcen.
  assert (Hm : 0 <= (k + 2 * (n / 2)) mod n < n) by now apply Z.mod_pos_bound.
  rewrite (Csum_ext _ _ (fun j => root n (n / 2 * (k + i)) *c root n (j * ((k + 2 * (n / 2)) mod n - i)))).
  - rewrite Csum_scal_l, root_orth by auto. ring.
  - intros j _. rewrite <- !root_add. apply root_cong; auto.
    replace ((j + n / 2) * (k + n / 2) + -1 * ((i - n / 2) * (j - n / 2)) -
             (n / 2 * (k + i) + j * ((k + 2 * (n / 2)) mod n - i)))
      with (- j * ((k + 2 * (n / 2)) mod n - (k + 2 * (n / 2)))) by ring.
    pose proof (mod_self_cong n (k + 2 * (n / 2)) Hn) as H.
    apply Z.mod_divide in H; [|lia]. destruct H as [q ->]. rewrite Z.mul_assoc. apply Z_mod_mult.
Qed.
