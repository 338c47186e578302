(** [next_fast_len] finds the smallest 5-smooth number. *)
From Verif Require Import M_Utils S_Utils L_Array L_Pad.
From Coq Require Import Znumtheory.

Lemma strip_spec p fuel n : 1 < p -> 0 < n -> n < p ^ Z.of_nat fuel ->
  exists k, 0 <= k /\ n = p ^ k * strip p fuel n /\ 0 < strip p fuel n /\ (strip p fuel n) mod p <> 0.
Proof.
  intros Hp. revert n. induction fuel as [|f IH]; intros n Hn Hf.
  - simpl in Hf. lia.
  - cbn [strip]. destruct (n mod p =? 0) eqn:E.
    + assert (Hd : n = p * (n / p)) by (apply Z_div_exact_full_2; lia).
      assert (Hq : 0 < n / p) by nia.
      destruct (IH (n / p) Hq) as (k & Hk & Hm & Hs & Hr).
      { rewrite Nat2Z.inj_succ, Z.pow_succ_r in Hf by lia. nia. }
      exists (k + 1). split; [lia|]. split; [|auto].
      rewrite Z.pow_add_r by lia. rewrite Z.pow_1_r. nia.
    + exists 0. rewrite Z.pow_0_r. repeat split; lia.
Qed.

Lemma pow_val_unique p a b m m' : 1 < p -> 0 <= a -> 0 <= b -> m mod p <> 0 -> m' mod p <> 0 ->
  p ^ a * m = p ^ b * m' -> m = m'.
Proof.
  intros Hp Ha Hb Hm Hm' E.
  assert (a = b).
  { destruct (Z.lt_trichotomy a b) as [L|[|L]]; auto; exfalso.
    - replace b with (a + (b - a - 1) + 1) in E by lia. rewrite !Z.pow_add_r in E by lia.
      assert (0 < p ^ a) by (apply Z.pow_pos_nonneg; lia).
      apply Hm. replace m with (p ^ (b - a - 1) * m' * p) by nia. apply Z_mod_mult.
    - replace a with (b + (a - b - 1) + 1) in E by lia. rewrite !Z.pow_add_r in E by lia.
      assert (0 < p ^ b) by (apply Z.pow_pos_nonneg; lia).
      apply Hm'. replace m' with (p ^ (a - b - 1) * m * p) by nia. apply Z_mod_mult. }
  subst b. assert (0 < p ^ a) by (apply Z.pow_pos_nonneg; lia). nia.
Qed.

Lemma pow_mod_nz q p c : 0 <= c -> prime p -> q mod p <> 0 -> (q ^ c) mod p <> 0.
Proof.
  intros Hc Hp Hq H. pose proof (prime_ge_2 p Hp) as G.
  apply Z.mod_divide in H; [|lia].
  revert H. pattern c. apply natlike_ind; auto.
  - rewrite Z.pow_0_r. intros D. apply Z.divide_1_r_nonneg in D; lia.
  - intros x Hx IH D. rewrite Z.pow_succ_r in D by lia.
    apply prime_mult in D; auto. destruct D as [D|D]; auto.
    apply Hq. apply Z.mod_divide; auto; lia.
Qed.

Lemma mul_mod_nz p x y : prime p -> x mod p <> 0 -> y mod p <> 0 -> (x * y) mod p <> 0.
Proof.
  intros Hp Hx Hy H. pose proof (prime_ge_2 p Hp) as G. apply Z.mod_divide in H; [|lia].
  apply prime_mult in H; auto. destruct H as [D|D]; [apply Hx|apply Hy]; apply Z.mod_divide; auto; lia.
Qed.

Lemma prime_5 : prime 5.
Proof.
  apply prime_intro; [lia|]. intros n Hn.
  assert (n = 1 \/ n = 2 \/ n = 3 \/ n = 4) as [->|[->|[->| ->]]] by lia;
    apply Zgcd_1_rel_prime; reflexivity.
Qed.

Lemma lt_pow p n : 2 <= p -> 0 < n -> n < p ^ Z.of_nat (Z.to_nat (Z.log2 n + 1)).
Proof.
  intros Hp Hn. pose proof (Z.log2_nonneg n). pose proof (Z.log2_spec n Hn) as S.
  rewrite Z2Nat.id by lia. rewrite <- Z.add_1_r in S.
  apply Z.lt_le_trans with (2 ^ (Z.log2 n + 1)); [lia|].
  apply Z.pow_le_mono_l; lia.
Qed.

Lemma is_5smooth_spec n : 0 < n -> (is_5smooth n = true <-> smooth5 n).
Proof.
  intros Hn. unfold is_5smooth. set (f := Z.to_nat (Z.log2 n + 1)).
  assert (Hle : forall p m, 2 <= p -> 0 < m <= n -> m < p ^ Z.of_nat f).
  { intros p m Hp Hm. pose proof (lt_pow p n Hp Hn). unfold f. lia. }
  destruct (strip_spec 2 f n) as (a & Ha & E2 & P2 & N2); try lia. { apply Hle; lia. }
  set (n2 := strip 2 f n) in *.
  assert (B2 : n2 <= n). { assert (0 < 2 ^ a) by (apply Z.pow_pos_nonneg; lia). nia. }
  destruct (strip_spec 3 f n2) as (b & Hb & E3 & P3 & N3); try lia. { apply Hle; lia. }
  set (n3 := strip 3 f n2) in *.
  assert (B3 : n3 <= n). { assert (0 < 3 ^ b) by (apply Z.pow_pos_nonneg; lia). nia. }
  destruct (strip_spec 5 f n3) as (c & Hc & E5 & P5 & N5); try lia. { apply Hle; lia. }
  set (n5 := strip 5 f n3) in *. cbv zeta.
  split.
  - intros H. apply Z.eqb_eq in H. exists a, b, c. repeat split; auto.
    rewrite E2, E3, E5, H. ring.
  - intros (a' & b' & c' & Ha' & Hb' & Hc' & E). apply Z.eqb_eq.
    assert (Q2 : n2 = 3 ^ b' * 5 ^ c').
    { apply (pow_val_unique 2 a a'); try lia.
      apply mul_mod_nz; [apply prime_2| |]; apply pow_mod_nz; auto using prime_2; discriminate. }
    assert (Q3 : n3 = 5 ^ c').
    { apply (pow_val_unique 3 b b'); try lia.
      apply pow_mod_nz; auto using prime_3; discriminate. }
    apply (pow_val_unique 5 c c'); lia.
Qed.

Lemma search_spec fuel n : 0 < n -> (exists k, n <= k < n + Z.of_nat fuel /\ smooth5 k) ->
  let r := search_smooth fuel n in
  n <= r /\ smooth5 r /\ forall k, n <= k < r -> ~ smooth5 k.
Proof.
  revert n. induction fuel as [|f IH]; intros n Hn (k & Hk & Sk).
  - lia.
  - cbn [search_smooth]. destruct (is_5smooth n) eqn:E.
    + split; [lia|]. split; [now apply is_5smooth_spec|]. intros; lia.
    + assert (Hns : ~ smooth5 n).
      { intros S. apply is_5smooth_spec in S; [congruence|lia]. }
      assert (k <> n) by congruence.
      destruct (IH (n + 1)) as (B & S & M); [lia|exists k; split; [lia|auto]|].
      split; [lia|]. split; auto. intros j Hj.
      destruct (Z.eq_dec j n); [congruence|]. apply M. lia.
Qed.

Lemma next_fast_len_least n : 0 < n ->
  n <= next_fast_len n /\ smooth5 (next_fast_len n) /\
  forall k, n <= k -> smooth5 k -> next_fast_len n <= k.
Proof.
  intros Hn. unfold next_fast_len. destruct (n <=? 0) eqn:E; [lia|].
  destruct (search_spec (Z.to_nat n) n Hn) as (B & S & M).
  { exists (2 ^ Z.log2_up n). split.
    - destruct (Z.eq_dec n 1) as [->|Hne]; [split; [vm_compute; congruence|vm_compute; reflexivity]|].
      assert (H1 : 1 < n) by lia.
      pose proof (Z.log2_up_spec n H1) as U. pose proof (Z.log2_up_pos n H1) as P.
      assert (E2 : 2 ^ Z.log2_up n = 2 * 2 ^ Z.pred (Z.log2_up n)).
      { set (l := Z.log2_up n) in *. clearbody l. replace l with (Z.succ (Z.pred l)) at 1 by apply Z.succ_pred.
        apply Z.pow_succ_r. lia. }
      rewrite E2 in *. set (x := 2 ^ Z.pred (Z.log2_up n)) in *. clearbody x.
      rewrite Z2Nat.id by lia. lia.
    - exists (Z.log2_up n), 0, 0. pose proof (Z.log2_up_nonneg n). rewrite !Z.pow_0_r. repeat split; lia. }
  split; auto. split; auto. intros k Hk Sk.
  destruct (Z_lt_le_dec k (search_smooth (Z.to_nat n) n)) as [L|L]; auto.
  exfalso. apply (M k); auto.
Qed.

Lemma fft_pad_none_least {A} (a : array A) m :
  shape a <> [] -> Forall (fun n => 0 < n) (shape a) ->
  exists b, fft_pad a NSNone m = Ok b /\
    Forall2 (fun n N => n <= N /\ smooth5 N /\ forall k, n <= k -> smooth5 k -> N <= k) (shape a) (shape b).
Proof.
  intros Hne Hp.
  destruct (fft_pad_main a (map Some (map next_fast_len (shape a))) m) as (b & E & S & _).
  - exact Hne.
  - now rewrite !map_length.
  - eapply Forall_impl; [|exact Hp]. cbv beta; lia.
  - unfold newshape_nonneg. rewrite map_map. clear m Hne. induction Hp as [|x l Hx Hp IH]; simpl; constructor; auto.
    destruct (next_fast_len_least x Hx). lia.
  - auto.
  - exists b. split.
    + rewrite <- E, map_map. reflexivity.
    + rewrite S, target_some by now rewrite map_length.
      clear -Hp. induction Hp as [|x l Hx Hp IH]; simpl; constructor; auto.
      now apply next_fast_len_least.
Qed.
