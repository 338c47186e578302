(** Lemmas on version strings. *)
From Verif Require Import S_Version.
From Coq Require Import Lia Arith Bool.
Local Open Scope list_scope.

(** ** Characters *)
Lemma ascii_all (P : ascii -> bool) : (forallb (fun n => P (ascii_of_nat n)) (seq 0 256)) = true -> forall c, P c = true.
Proof.
  intros H c. rewrite forallb_forall in H. specialize (H (nat_of_ascii c)). rewrite ascii_nat_embedding in H. apply H. apply in_seq. pose proof (nat_ascii_bounded c). lia.
Qed.
Definition inb_str (c : ascii) (s : str) : bool := if in_dec ascii_dec c s then true else false.
Lemma digit_iff c : digit_char c <-> is_digit c = true.
Proof.
  assert (H : forall c, Bool.eqb (inb_str c $"0123456789") (is_digit c) = true) by (apply ascii_all; vm_compute; reflexivity).
  specialize (H c). apply Bool.eqb_prop in H. unfold digit_char. rewrite <- H. unfold inb_str. destruct (in_dec _ _ _); split; auto; discriminate.
Qed.
Lemma hex_iff c : hex_char c <-> is_hex c = true.
Proof.
  assert (H : forall c, Bool.eqb (inb_str c $"0123456789abcdef") (is_hex c) = true) by (apply ascii_all; vm_compute; reflexivity).
  specialize (H c). apply Bool.eqb_prop in H. unfold hex_char. rewrite <- H. unfold inb_str. destruct (in_dec _ _ _); split; auto; discriminate.
Qed.
Definition inb_N (n : N) (l : list N) : bool := if in_dec N.eq_dec n l then true else false.
Lemma blank_iff c : blank c <-> is_space c = true.
Proof.
  assert (H : forall c, Bool.eqb (inb_N (N_of_ascii c) [9; 10; 11; 12; 13; 28; 29; 30; 31; 32; 133; 160]%N) (is_space c) = true) by (apply ascii_all; vm_compute; reflexivity).
  specialize (H c). apply Bool.eqb_prop in H. unfold blank. rewrite <- H. unfold inb_N. destruct (in_dec _ _ _); split; auto; discriminate.
Qed.
Lemma digit_hex c : digit_char c -> hex_char c.
Proof. rewrite digit_iff, hex_iff. unfold is_hex. intros ->. reflexivity. Qed.
Lemma hex_not c : hex_char c -> c <> "-"%char /\ c <> "g"%char /\ c <> newline /\ c <> "."%char /\ c <> "+"%char /\ ~ blank c /\ c <> "y"%char.
Proof.
  intros H. assert (X : forall d, In d $"-g.+y" \/ d = newline \/ blank d -> ~ hex_char d).
  { intros d Hd. rewrite hex_iff. intros C. destruct Hd as [Hd|[->|Hd]]; [|discriminate|].
    - cbn in Hd. repeat (destruct Hd as [<-|Hd]; [discriminate|]). destruct Hd.
    - apply blank_iff in Hd. assert (Y : forall c, negb (is_hex c && is_space c) = true) by (apply ascii_all; vm_compute; reflexivity). specialize (Y d). rewrite C, Hd in Y. discriminate. }
  repeat split; try (intros ->; revert H; apply X); cbn; auto 10. intros B. revert H. apply X. auto.
Qed.

(** ** Prefixes, suffixes *)
Lemma startswith_iff p s : startswith p s = true <-> exists r, s = p ++ r.
Proof.
  revert s. induction p as [|a p IH]; intros s; cbn [startswith]; [split; [intros _; now exists s|reflexivity]|].
  destruct s as [|b s]; [split; [discriminate|intros (r & [=])]|]. rewrite andb_true_iff, Ascii.eqb_eq, IH. split.
  - intros [<- (r & ->)]. exists r. reflexivity.
  - intros (r & [= <- ->]). split; [reflexivity|now exists r].
Qed.
Lemma startswith_app p r : startswith p (p ++ r) = true.
Proof. apply startswith_iff. now exists r. Qed.
Lemma endswith_iff p s : endswith p s = true <-> exists r, s = r ++ p.
Proof.
  unfold endswith. rewrite startswith_iff. split; intros (r & H).
  - exists (rev r). rewrite <- (rev_involutive s), H, rev_app_distr, rev_involutive. reflexivity.
  - exists (rev r). rewrite H, rev_app_distr. reflexivity.
Qed.
Lemma contains_iff c s : contains c s = true <-> In c s.
Proof.
  unfold contains. rewrite existsb_exists. split; [intros (d & Hd & E); apply Ascii.eqb_eq in E; now subst|intros H; exists c; split; [exact H|apply Ascii.eqb_refl]].
Qed.
Lemma contains_false c s : contains c s = false <-> ~ In c s.
Proof. rewrite <- contains_iff. destruct (contains c s); split; congruence. Qed.
Lemma seqb_iff a b : seqb a b = true <-> a = b.
Proof. unfold seqb. destruct (list_eq_dec _ a b); split; congruence. Qed.
Lemma seqb_refl a : seqb a a = true. Proof. now apply seqb_iff. Qed.
Lemma seqb_neq a b : a <> b -> seqb a b = false.
Proof. intros H. destruct (seqb a b) eqn:E; [apply seqb_iff in E; contradiction|reflexivity]. Qed.

(** ** strip *)
Lemma drop_all f w s : Forall (fun c => f c = true) w -> drop_while f (w ++ s) = drop_while f s.
Proof. induction 1 as [|c w H _ IH]; [reflexivity|]. cbn [app drop_while]. now rewrite H. Qed.
Lemma drop_keep f s : (forall c s', s = c :: s' -> f c = false) -> drop_while f s = s.
Proof. destruct s as [|c s]; [reflexivity|]. intros H. cbn [drop_while]. now rewrite (H c s eq_refl). Qed.
Lemma strip_by_spec f w1 s w2 : Forall (fun c => f c = true) w1 -> Forall (fun c => f c = true) w2 ->
  (forall c s', s = c :: s' -> f c = false) -> (forall s' c, s = s' ++ [c] -> f c = false) -> strip_by f (w1 ++ s ++ w2) = s.
Proof.
  intros H1 H2 Ha Hb. unfold strip_by. rewrite drop_all by exact H1.
  assert (R2 : Forall (fun c => f c = true) (rev w2)) by (apply Forall_rev; exact H2).
  destruct s as [|a s].
  - cbn [app]. assert (drop_while f w2 = []) as ->; [|reflexivity]. rewrite <- (app_nil_r w2), drop_all by exact H2. reflexivity.
  - rewrite (drop_keep f ((a :: s) ++ w2)) by (intros c s' [= <- _]; exact (Ha a s eq_refl)). rewrite rev_app_distr, drop_all by exact R2.
    rewrite drop_keep; [apply rev_involutive|]. intros c s' E. apply (Hb (rev s') c). rewrite <- (rev_involutive (a :: s)), E. reflexivity.
Qed.
Definition trimmed (s : str) : Prop := (forall c s', s = c :: s' -> ~ blank c) /\ (forall s' c, s = s' ++ [c] -> ~ blank c).
Lemma not_blank c : ~ blank c -> is_space c = false.
Proof. rewrite blank_iff. destruct (is_space c); [intros H; now contradiction H|reflexivity]. Qed.
Lemma strip_padded out s : padded out s -> trimmed s -> strip out = s.
Proof.
  intros (w1 & w2 & H1 & H2 & ->) [Ta Tb]. apply strip_by_spec.
  - eapply Forall_impl; [|exact H1]. intros c. apply blank_iff.
  - eapply Forall_impl; [|exact H2]. intros c. apply blank_iff.
  - intros c s' E. now apply not_blank, (Ta c s').
  - intros s' c E. now apply not_blank, (Tb s' c).
Qed.
Lemma all_trimmed s : Forall (fun c => ~ blank c) s -> trimmed s.
Proof. intros H. rewrite Forall_forall in H. split; [intros c s' ->; apply H; now left|intros s' c ->; apply H; apply in_or_app; right; now left]. Qed.

(** ** rindex *)
Lemma startswith_short p s : (List.length s < List.length p)%nat -> startswith p s = false.
Proof. intros H. destruct (startswith p s) eqn:E; [|reflexivity]. apply startswith_iff in E. destruct E as (r & ->). rewrite app_length in H. lia. Qed.
Lemma rindex_suffix p s : p <> [] -> rindex p (s ++ p) = Some (List.length s).
Proof.
  intros Hp. unfold rindex. assert (G : forall k, rindex_from p (s ++ p) (List.length s + k) = Some (List.length s)).
  { induction k as [|k IH].
    - rewrite Nat.add_0_r. assert (W : skipn (List.length s) (s ++ p) = p) by (rewrite skipn_app, skipn_all, Nat.sub_diag; reflexivity).
      assert (St : startswith p p = true) by (apply startswith_iff; exists []; now rewrite app_nil_r).
      destruct (List.length s) eqn:E; cbn [rindex_from]; rewrite W, St; reflexivity.
    - rewrite Nat.add_succ_r. cbn [rindex_from]. rewrite startswith_short; [exact IH|]. rewrite skipn_length, app_length. destruct p; [contradiction|]. cbn [List.length]. lia. }
  rewrite app_length. apply G.
Qed.

(** ** Numerals *)
Lemma int_value s : int_of s = value s.
Proof.
  unfold int_of. assert (G : forall s a, fold_left (fun a c => (10 * a + (N_of_ascii c - 48))%N) s a = (a * 10 ^ N.of_nat (List.length s) + value s)%N).
  { clear. induction s as [|c s IH]; intros a; [cbn; lia|]. cbn [fold_left value List.length]. rewrite IH. rewrite Nat2N.inj_succ, N.pow_succ_r' . lia. }
  rewrite G. lia.
Qed.
Lemma value_snoc s c : value (s ++ [c]) = (10 * value s + (N_of_ascii c - 48))%N.
Proof.
  rewrite <- !int_value. unfold int_of. rewrite fold_left_app. reflexivity.
Qed.
Lemma digit_code d : (d < 10)%N -> N_of_ascii (digit d) = (48 + d)%N.
Proof. intros H. unfold digit. apply N_ascii_embedding. lia. Qed.
Lemma digit_ok d : (d < 10)%N -> digit_char (digit d).
Proof. intros H. rewrite digit_iff. unfold is_digit, M_Version.between. rewrite digit_code by exact H. apply andb_true_intro. split; apply N.leb_le; lia. Qed.
Lemma digit_range c : digit_char c -> (48 <= N_of_ascii c <= 57)%N.
Proof. rewrite digit_iff. unfold is_digit, M_Version.between. rewrite andb_true_iff, !N.leb_le. auto. Qed.
Lemma digit_back c : digit_char c -> digit (N_of_ascii c - 48) = c.
Proof. intros H. apply digit_range in H. unfold digit. replace (48 + (N_of_ascii c - 48))%N with (N_of_ascii c) by lia. apply ascii_N_embedding. Qed.
Lemma log_div n : (10 <= n)%N -> (N.log2 (n / 10) < N.log2 n)%N.
Proof.
  intros H. assert (D : (1 <= n / 10)%N) by (apply N.div_le_lower_bound; lia).
  assert (L : (2 * (n / 10) <= n)%N). { pose proof (N.mul_div_le n 10 ltac:(lia)). lia. }
  apply N.log2_le_mono in L. rewrite N.log2_double in L by lia. lia.
Qed.
Lemma dec_fuel_enough : forall f n, (N.to_nat (N.log2 n) < f)%nat -> forall g, (N.to_nat (N.log2 n) < g)%nat -> dec_fuel f n = dec_fuel g n.
Proof.
  induction f as [|f IH]; intros n Hf g Hg; [lia|]. destruct g as [|g]; [lia|]. cbn [dec_fuel]. destruct (N.ltb_spec n 10) as [L|L]; [reflexivity|].
  pose proof (log_div n L). f_equal. apply IH; lia.
Qed.
Lemma dec_small n : (n < 10)%N -> dec n = [digit n].
Proof. intros H. unfold dec. cbn [dec_fuel]. destruct (N.ltb_spec n 10); [reflexivity|lia]. Qed.
Lemma dec_big n : (10 <= n)%N -> dec n = dec (n / 10) ++ [digit (n mod 10)].
Proof.
  intros H. unfold dec at 1. cbn [dec_fuel]. destruct (N.ltb_spec n 10); [lia|]. f_equal. unfold dec. pose proof (log_div n H). apply dec_fuel_enough; lia.
Qed.
Lemma dec_numeral n : numeral (dec n) n.
Proof.
  assert (W : forall m n, (n < m)%N -> numeral (dec n) n).
  { induction m as [|m IH] using N.peano_ind; intros k Hk; [lia|]. destruct (N.lt_ge_cases k 10) as [L|L].
    - rewrite (dec_small k L). split; [discriminate|]. split; [constructor; [now apply digit_ok|constructor]|]. split; [cbn [value List.length]; rewrite digit_code by exact L; change (10 ^ N.of_nat 0)%N with 1%N; lia|]. intros s' [= _ <-]. reflexivity.
    - assert (D : (k / 10 < m)%N). { pose proof (N.div_lt k 10 ltac:(lia) ltac:(lia)). lia. }
      specialize (IH _ D). rewrite (dec_big k L). destruct IH as (I1 & I2 & I3 & I4). pose proof (N.mod_lt k 10 ltac:(lia)) as M. split; [|split; [|split]].
      + intros E. apply app_eq_nil in E. destruct E as [_ E]. discriminate.
      + apply Forall_app. split; [exact I2|]. constructor; [now apply digit_ok|constructor].
      + rewrite value_snoc, I3, digit_code by exact M. pose proof (N.div_mod' k 10). lia.
      + intros s' E. exfalso. assert (P : (1 <= k / 10)%N) by (apply N.div_le_lower_bound; lia). destruct (dec (k / 10)) as [|a l]; [contradiction|]. injection E as -> _. rewrite (I4 l eq_refl) in I3. cbn in I3. lia. }
  apply (W (n + 1)%N). lia.
Qed.
Lemma value_pos s : Forall digit_char s -> (forall s', s <> "0"%char :: s') -> s <> [] -> (1 <= value s)%N.
Proof.
  destruct s as [|c s]; [contradiction|]. intros H N _. inversion_clear H as [|? ? Hc _]. cbn [value]. apply digit_range in Hc.
  assert (N_of_ascii c <> 48%N). { intros E. apply (N s). f_equal. rewrite <- (ascii_N_embedding c), E. reflexivity. }
  assert (1 <= 10 ^ N.of_nat (List.length s))%N. { pose proof (N.pow_nonzero 10 (N.of_nat (List.length s)) ltac:(lia)). lia. } nia.
Qed.
Lemma numeral_dec s n : numeral s n -> s = dec n.
Proof.
  intros (H1 & H2 & <- & H4). revert H1 H2 H4. induction s as [|c s IH] using rev_ind; intros H1 H2 H4; [contradiction|]. apply Forall_app in H2. destruct H2 as [H2 Hc]. inversion_clear Hc as [|? ? Hc' _].
  rewrite value_snoc. pose proof (digit_range c Hc') as Rc. destruct s as [|a s].
  - cbn [value app]. rewrite dec_small by lia. rewrite N.mul_0_r, N.add_0_l. now rewrite (digit_back c Hc').
  - assert (NZ : forall s', a :: s <> "0"%char :: s'). { intros s' [= -> ->]. specialize (H4 (s' ++ [c]) eq_refl). destruct s'; discriminate. }
    pose proof (value_pos (a :: s) H2 NZ ltac:(discriminate)) as P. set (v := value (a :: s)) in *.
    rewrite dec_big by lia.
    replace ((10 * v + (N_of_ascii c - 48)) / 10)%N with v by (apply N.div_unique with (N_of_ascii c - 48)%N; lia).
    replace ((10 * v + (N_of_ascii c - 48)) mod 10)%N with (N_of_ascii c - 48)%N by (apply N.mod_unique with v; lia).
    rewrite (digit_back c Hc'). f_equal. apply IH; [discriminate|exact H2|]. intros s' E. exfalso. exact (NZ s' E).
Qed.
Lemma numeral_unique s t n : numeral s n -> numeral t n -> s = t.
Proof. intros A B. rewrite (numeral_dec _ _ A), (numeral_dec _ _ B). reflexivity. Qed.

(** ** The regular expression *)
Lemma span_app f a b : Forall (fun c => f c = true) a -> (forall c b', b = c :: b' -> f c = false) -> span f (a ++ b) = (a, b).
Proof.
  intros Ha Hb. induction Ha as [|c a Hc _ IH]; cbn [app span].
  - destruct b as [|c b]; [reflexivity|]. cbn [span]. now rewrite (Hb c b eq_refl).
  - rewrite Hc, IH. reflexivity.
Qed.
Lemma span_spec f s : let (a, b) := span f s in s = a ++ b /\ Forall (fun c => f c = true) a /\ (forall c b', b = c :: b' -> f c = false).
Proof.
  induction s as [|c s IH]; cbn [span]; [repeat split; auto; discriminate|]. destruct (f c) eqn:E.
  - destruct (span f s) as [a b]. destruct IH as (-> & H & K). repeat split; auto.
  - repeat split; auto. intros c' b' [= <- _]. exact E.
Qed.
Definition final (e : str) : Prop := e = [] \/ e = [newline].
Definition tail_of (s num hex : str) : Prop :=
  exists e, final e /\ s = $"-" ++ num ++ $"-g" ++ hex ++ e /\ num <> [] /\ Forall digit_char num /\ hexadecimal hex.
Lemma match_tail_iff s num hex : match_tail s = Some (num, hex) <-> tail_of s num hex.
Proof.
  split.
  - unfold match_tail. destruct s as [|a s1]; [discriminate|]. destruct (Ascii.eqb_spec a "-") as [->|]; [|discriminate].
    pose proof (span_spec is_digit s1) as SP. destruct (span is_digit s1) as [nm s2]. destruct SP as (-> & D & _). destruct nm as [|d nm]; [discriminate|]. destruct s2 as [|b [|c s3]]; try discriminate.
    destruct (Ascii.eqb_spec b "-") as [->|]; cbn [andb]; [|discriminate]. destruct (Ascii.eqb_spec c "g") as [->|]; [|discriminate].
    pose proof (span_spec is_hex s3) as SP. destruct (span is_hex s3) as [hx s4]. destruct SP as (-> & X & _). destruct hx as [|h hx]; [discriminate|].
    intros H. assert (H' : final s4 /\ num = d :: nm /\ hex = h :: hx).
    { destruct s4 as [|e [|? ?]]; try discriminate; [injection H as <- <-; split; [now left|auto]|]. destruct (Ascii.eqb_spec e newline) as [->|]; [|discriminate]. injection H as <- <-. split; [now right|auto]. }
    destruct H' as (F & -> & ->). exists s4. split; [exact F|]. split; [reflexivity|]. split; [discriminate|]. split; [eapply Forall_impl; [|exact D]; intros; now apply digit_iff|]. split; [discriminate|]. eapply Forall_impl; [|exact X]; intros; now apply hex_iff.
  - intros (e & F & -> & N0 & D & (H0 & X)). unfold match_tail. cbn [app lit list_ascii_of_string]. rewrite Ascii.eqb_refl.
    rewrite (span_app is_digit num); [|eapply Forall_impl; [|exact D]; intros; now apply digit_iff|intros c b' [= <- _]; reflexivity].
    destruct num as [|d num]; [contradiction|]. rewrite !Ascii.eqb_refl. cbn [andb].
    rewrite (span_app is_hex hex); [|eapply Forall_impl; [|exact X]; intros; now apply hex_iff|intros c b' E; destruct F as [->| ->]; [discriminate|injection E as <- _; reflexivity]].
    destruct hex as [|h hex]; [contradiction|]. destruct F as [->| ->]; [reflexivity|]. rewrite Ascii.eqb_refl. reflexivity.
Qed.
Definition described (s t num hex : str) : Prop := t <> [] /\ ~ In newline t /\ exists T, s = t ++ T /\ tail_of T num hex.
Lemma occurs_app c a b : occurs c (a ++ b) = (occurs c a + occurs c b)%nat.
Proof. apply count_occ_app. Qed.
Lemma occurs_none c a : ~ In c a -> occurs c a = 0%nat.
Proof. intros H. unfold occurs. now apply count_occ_not_In. Qed.
Lemma digits_no c s : Forall digit_char s -> c = "-"%char \/ c = "."%char \/ c = "+"%char -> ~ In c s.
Proof. intros H Hc I. rewrite Forall_forall in H. destruct (hex_not c (digit_hex c (H c I))) as (A & B & _ & D & F & _). destruct Hc as [Hc|[Hc|Hc]]; subst c; congruence. Qed.
Lemma hexes_no c s : Forall hex_char s -> c = "-"%char \/ c = "."%char \/ c = "+"%char \/ c = newline \/ c = "y"%char -> ~ In c s.
Proof. intros H Hc I. rewrite Forall_forall in H. destruct (hex_not c (H c I)) as (A & B & N & D & F & _ & Y). destruct Hc as [Hc|[Hc|[Hc|[Hc|Hc]]]]; subst c; congruence. Qed.
Lemma tail_hyphens T num hex : tail_of T num hex -> occurs "-" T = 2%nat.
Proof.
  intros (e & F & -> & _ & D & (_ & X)). rewrite !occurs_app. rewrite (occurs_none _ num), (occurs_none _ hex), (occurs_none _ e); [reflexivity|destruct F as [->| ->]; cbn; intuition discriminate|apply hexes_no; auto|apply digits_no; auto].
Qed.
Lemma prefix_split (a b c d : str) : a ++ b = c ++ d -> (List.length a <= List.length c)%nat -> exists x, c = a ++ x /\ b = x ++ d.
Proof.
  revert c. induction a as [|x a IH]; intros c E L; [exists c; split; [reflexivity|exact E]|]. destruct c as [|y c]; [cbn in L; lia|]. injection E as -> E. destruct (IH c E ltac:(cbn in L; lia)) as (z & -> & ->). exists z. split; reflexivity.
Qed.
Lemma tails_agree t T t' T' num hex num' hex' : t ++ T = t' ++ T' -> tail_of T num hex -> tail_of T' num' hex' -> (List.length t <= List.length t')%nat -> t = t' /\ num = num' /\ hex = hex'.
Proof.
  intros E HT HT' L. destruct (prefix_split _ _ _ _ E L) as (x & -> & ->).
  assert (x = []) as ->.
  { destruct x as [|c x]; [reflexivity|]. pose proof (tail_hyphens _ _ _ HT) as C1. pose proof (tail_hyphens _ _ _ HT') as C2. rewrite occurs_app, C2 in C1. destruct HT as (e & _ & E1 & _). injection E1 as -> _. unfold occurs in C1. cbn [count_occ] in C1. destruct (ascii_dec _ _); [lia|congruence]. }
  rewrite app_nil_r. split; [reflexivity|]. apply match_tail_iff in HT, HT'. cbn [app] in HT. rewrite HT in HT'. injection HT' as <- <-. auto.
Qed.
Lemma described_unique s t num hex t' num' hex' : described s t num hex -> described s t' num' hex' -> t = t' /\ num = num' /\ hex = hex'.
Proof.
  intros (_ & _ & T & E & H) (_ & _ & T' & E' & H'). rewrite E in E'. destruct (Nat.le_ge_cases (List.length t) (List.length t')) as [L|L].
  - exact (tails_agree _ _ _ _ _ _ _ _ E' H H' L).
  - destruct (tails_agree _ _ _ _ _ _ _ _ (eq_sym E') H' H L) as (-> & -> & ->). auto.
Qed.
Lemma search_sound i s t num hex : search_from i s = Some (t, num, hex) -> described s t num hex.
Proof.
  induction i as [|i IH]; cbn [search_from]; [discriminate|]. destruct (contains newline (firstn (S i) s)) eqn:C; [exact IH|].
  destruct (match_tail (skipn (S i) s)) as [[nm hx]|] eqn:M; [|exact IH]. intros [= <- <- <-]. split; [|split].
  - intros E. destruct s; [|discriminate]. rewrite skipn_nil in M. discriminate.
  - now apply contains_false.
  - exists (skipn (S i) s). split; [symmetry; exact (firstn_skipn (S i) s)|]. now apply match_tail_iff.
Qed.
Lemma search_complete s t num hex i : described s t num hex -> (List.length t <= i)%nat -> search_from i s <> None.
Proof.
  intros (T0 & TN & T & -> & H) L. apply match_tail_iff in H. induction i as [|i IH]; [destruct t; [contradiction|cbn in L; lia]|]. cbn [search_from].
  destruct (Nat.eq_dec (List.length t) (S i)) as [E|E].
  - rewrite <- E, firstn_app, firstn_all, Nat.sub_diag, app_nil_r. rewrite skipn_app, skipn_all, Nat.sub_diag. cbn [skipn app]. rewrite (proj2 (contains_false _ _) TN), H. discriminate.
  - destruct (if contains newline _ then None else _) as [[nm hx]|]; [discriminate|apply IH; lia].
Qed.
Lemma re_describe_iff s t num hex : re_describe s = Some (t, num, hex) <-> described s t num hex.
Proof.
  unfold re_describe. split; [apply search_sound|]. intros H. destruct (search_from (List.length s) s) as [[[t' num'] hex']|] eqn:E.
  - destruct (described_unique _ _ _ _ _ _ _ H (search_sound _ _ _ _ _ E)) as (-> & -> & ->). reflexivity.
  - exfalso. revert E. apply (search_complete s t num hex); [exact H|]. destruct H as (_ & _ & T & -> & _). rewrite app_length. lia.
Qed.
