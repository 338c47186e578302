(** easy_fft with any [axes] argument. *)
From Verif Require Import M_Axes S_Axes L_Array L_Sum L_FFT L_FFT2.
Local Open Scope Z_scope.
Local Notation "a *c b" := (Cmult a b) (at level 40, left associativity).

Lemma norm_axis_names nd i : (exists j, norm_axis nd i = Ok j /\ names nd i j) \/ (norm_axis nd i = Err IndexError /\ (i < - Z.of_nat nd \/ Z.of_nat nd <= i)).
Proof.
  unfold norm_axis. destruct (Z.leb_spec (- Z.of_nat nd) i) as [H1|H1]; [destruct (Z.ltb_spec i (Z.of_nat nd)) as [H2|H2]|]; cbn [andb].
  - left. exists (Z.to_nat (i mod Z.of_nat nd)). split; [reflexivity|]. assert (0 <= i mod Z.of_nat nd < Z.of_nat nd) by (apply Z.mod_pos_bound; lia).
    split; [lia|]. destruct (Z_lt_ge_dec i 0).
    + right. replace i with ((i + Z.of_nat nd) - Z.of_nat nd) at 1 by ring. f_equal. rewrite Z2Nat.id by lia. symmetry. rewrite <- (Z.mod_small (i + Z.of_nat nd) (Z.of_nat nd)) by lia.
      replace (i + Z.of_nat nd) with (i + 1 * Z.of_nat nd) by ring. now rewrite Z_mod_plus_full.
    + left. rewrite Z.mod_small by lia. lia.
  - right. split; [reflexivity|lia].
  - right. split; [reflexivity|lia].
Qed.
Lemma names_fun nd i j j' : names nd i j -> names nd i j' -> j = j'. Proof. unfold names. lia. Qed.
Lemma names_range nd i j : names nd i j -> ~ (i < - Z.of_nat nd \/ Z.of_nat nd <= i). Proof. unfold names. lia. Qed.
Lemma norm_axes_names nd l : (exists js, norm_axes nd l = Ok js /\ names_all nd l js) \/ (norm_axes nd l = Err IndexError /\ exists i, In i l /\ (i < - Z.of_nat nd \/ Z.of_nat nd <= i)).
Proof.
  induction l as [|i l IH]; cbn [norm_axes].
  - left. exists []. split; [reflexivity|constructor].
  - destruct (norm_axis_names nd i) as [(j & -> & H)|(-> & H)]; cbn [bind].
    + destruct IH as [(js & -> & Hs)|(-> & i' & Hi & Hr)]; cbn [bind].
      * left. exists (j :: js). split; [reflexivity|]. now constructor.
      * right. split; [reflexivity|]. exists i'. split; [now right|exact Hr].
    + right. split; [reflexivity|]. exists i. split; [now left|exact H].
Qed.
Lemma shift_axes_asks nd ax : (exists js, shift_axes nd ax = Ok js /\ asks nd ax js) \/ (shift_axes nd ax = Err IndexError /\ out_of_range nd ax).
Proof.
  destruct ax as [|i|l]; cbn [shift_axes].
  - left. eexists. split; reflexivity.
  - destruct (norm_axes_names nd [i]) as [(js & E & H)|(E & i' & Hi & Hr)].
    + left. exists js. split; [exact E|]. inversion H as [|? j ? js' Hj Hn]; subst. inversion Hn; subst. exists j. auto.
    + right. split; [exact E|]. destruct Hi as [->|[]]. exact Hr.
  - destruct (norm_axes_names nd l) as [(js & E & H)|(E & i' & Hi & Hr)]; [left; eauto|right]. split; [exact E|]. exists i'. auto.
Qed.
Lemma asks_fun nd ax js js' : asks nd ax js -> asks nd ax js' -> js = js'.
Proof.
  destruct ax as [|i|l]; cbn [asks].
  - congruence.
  - intros (j & H & ->) (j' & H' & ->). now rewrite (names_fun _ _ _ _ H H').
  - intros H. revert js'. induction H as [|i j l js H Hl IH]; intros js' H'; inversion H'; subst; [reflexivity|]. f_equal; [eapply names_fun; eassumption|auto].
Qed.
Lemma asks_range nd ax js : asks nd ax js -> Forall (fun j => (j < nd)%nat) js.
Proof.
  destruct ax as [|i|l]; cbn [asks].
  - intros ->. apply Forall_forall. intros j Hj. apply in_seq in Hj. lia.
  - intros (j & [H _] & ->). now constructor.
  - intros H. induction H as [|i j l js [H _] Hl IH]; constructor; auto.
Qed.
Lemma asks_in_range nd ax js : asks nd ax js -> ~ out_of_range nd ax.
Proof.
  destruct ax as [|i|l]; cbn [asks out_of_range]; auto.
  - intros (j & H & _). eapply names_range; eassumption.
  - intros H (i & Hi & Hr). induction H as [|i' j l js H Hl IH]; [contradiction|]. destruct Hi as [<-|Hi]; [eapply names_range; eassumption|auto].
Qed.
Lemma asks_norm nd ax js : asks nd ax js -> shift_axes nd ax = Ok js.
Proof.
  intros H. destruct (shift_axes_asks nd ax) as [(js' & E & H')|(_ & H')]; [|exfalso; eapply asks_in_range; eassumption]. now rewrite (asks_fun _ _ _ _ H H').
Qed.

(** one axis of a mask at a time *)
Fixpoint only (nd j : nat) : list bool := match nd with O => [] | S nd => match j with O => true :: repeat false nd | S j => false :: only nd j end end.
Fixpoint mark (j : nat) (m : list bool) : list bool := match m, j with [], _ => [] | _ :: m, O => true :: m | b :: m, S j => b :: mark j m end.
Lemma mop_none K nd : forall sh f ks, mop K (repeat false nd) sh f ks = f ks.
Proof. induction nd as [|nd IH]; intros sh f ks; cbn [repeat mop]; auto. destruct sh as [|n sh]; auto. destruct ks as [|k ks]; auto. apply (IH sh (fun js => f (k :: js)) ks). Qed.
Lemma mop_mark K j : forall m sh f ks, length m = length sh -> nth j m true = false ->
  mop K (mark j m) sh f ks = mop K (only (length m) j) sh (mop K m sh f) ks.
Proof.
  induction j as [|j IH]; intros m sh f ks Hl Hm; destruct m as [|b m]; cbn [mark only length mop nth] in *; try discriminate; subst;
    destruct sh as [|n sh]; try discriminate; destruct ks as [|k ks]; auto; injection Hl as Hl.
  - apply Csum_ext. intros i _. f_equal. now rewrite mop_none.
  - destruct b.
    + rewrite mop_lin. apply Csum_ext. intros i _. f_equal. now apply (IH m sh (fun js => f (i :: js)) ks).
    + now apply (IH m sh (fun js => f (k :: js)) ks).
Qed.
Lemma mask_only nd j : (j < nd)%nat -> axes_mask nd (Some [j]) = only nd j.
Proof.
  unfold axes_mask. replace (map _ _) with (map (fun i => Nat.eqb i j) (seq 0 nd)) by (apply map_ext; intros; cbn; now rewrite orb_false_r).
  intros H. transitivity (map (fun i => Nat.eqb i (0 + j)) (seq 0 nd)); [reflexivity|]. revert j H. generalize 0%nat as s.
  induction nd as [|nd IH]; intros s j H; cbn [seq map only]; [reflexivity|]. destruct j as [|j].
  - rewrite Nat.add_0_r, Nat.eqb_refl. f_equal. apply nth_ext with false false; [rewrite map_length, seq_length, repeat_length; reflexivity|].
    intros i Hi. rewrite map_length, seq_length in Hi. rewrite nth_repeat. rewrite (nth_indep _ false (Nat.eqb 0 s)) by now rewrite map_length, seq_length.
    rewrite (map_nth (fun i => Nat.eqb i s)), seq_nth by lia. apply Nat.eqb_neq. lia.
  - rewrite (proj2 (Nat.eqb_neq s (s + S j))) by lia. f_equal. replace (s + S j)%nat with (S s + j)%nat by lia. apply IH. lia.
Qed.
Lemma nth_mask nd l i d : (i < nd)%nat -> nth i (axes_mask nd (Some l)) d = existsb (Nat.eqb i) l.
Proof. intros H. unfold axes_mask. rewrite (nth_indep _ d (existsb (Nat.eqb 0) l)) by (rewrite map_length, seq_length; lia). rewrite (map_nth (fun i => existsb (Nat.eqb i) l)), seq_nth by lia. reflexivity. Qed.
Lemma nth_mark j : forall m i d, nth i (mark j m) d = if (i =? j)%nat && (i <? length m)%nat then true else nth i m d.
Proof.
  induction j as [|j IH]; intros [|b m] [|i] d; cbn [mark nth length]; try (rewrite ?andb_false_r; reflexivity).
  all: try (destruct i; reflexivity).
  rewrite IH. reflexivity.
Qed.
Lemma mark_length j : forall m, length (mark j m) = length m. Proof. induction j as [|j IH]; intros [|b m]; cbn; auto. Qed.
Lemma mask_cons nd j l : (j < nd)%nat -> axes_mask nd (Some (j :: l)) = mark j (axes_mask nd (Some l)).
Proof.
  intros Hj. assert (L : forall l, length (axes_mask nd (Some l)) = nd) by (intros; unfold axes_mask; now rewrite map_length, seq_length).
  apply nth_ext with false false; [now rewrite mark_length, !L|]. intros i Hi. rewrite L in Hi. rewrite nth_mark, !nth_mask, L by lia. cbn [existsb].
  rewrite (proj2 (Nat.ltb_lt i nd) Hi), andb_true_r. destruct (i =? j)%nat; reflexivity.
Qed.
Lemma mask_seq nd : axes_mask nd (Some (seq 0 nd)) = axes_mask nd None.
Proof.
  cbn [axes_mask]. apply nth_ext with true true; [now rewrite map_length, seq_length, repeat_length|]. intros i Hi. rewrite map_length, seq_length in Hi.
  change (map (fun i => existsb (Nat.eqb i) (seq 0 nd)) (seq 0 nd)) with (axes_mask nd (Some (seq 0 nd))). rewrite nth_mask by exact Hi. rewrite nth_repeat.
  apply existsb_exists. exists i. split; [apply in_seq; lia|apply Nat.eqb_refl].
Qed.

(** the transforms, one axis after the other *)
Lemma mask_length nd ax : length (axes_mask nd ax) = nd. Proof. destruct ax; cbn; [now rewrite map_length, seq_length|now rewrite repeat_length]. Qed.
Lemma mask_nil nd : axes_mask nd (Some []) = repeat false nd.
Proof. apply nth_ext with false false; [now rewrite mask_length, repeat_length|]. intros i Hi. rewrite mask_length in Hi. rewrite nth_mask, nth_repeat by exact Hi. reflexivity. Qed.
Lemma existsb_eqb j l : existsb (Nat.eqb j) l = true <-> In j l.
Proof. rewrite existsb_exists. split; [intros (x & H & E); apply Nat.eqb_eq in E; now subst|intros H; exists j; split; [exact H|apply Nat.eqb_refl]]. Qed.
Lemma size_mark j : forall m sh, length m = length sh -> nth j m true = false -> masked_size (mark j m) sh = nth j sh 0 * masked_size m sh.
Proof.
  induction j as [|j IH]; intros m sh Hl Hm; destruct m as [|b m]; cbn [mark nth masked_size] in *; try discriminate; subst; destruct sh as [|n sh]; try discriminate; injection Hl as Hl; cbn [nth].
  - ring.
  - rewrite IH by auto. ring.
Qed.
Lemma size_none nd : forall sh, masked_size (repeat false nd) sh = 1.
Proof. induction nd as [|nd IH]; intros [|n sh]; cbn [repeat masked_size]; auto. rewrite IH. reflexivity. Qed.
Lemma size_only : forall nd j sh, (j < nd)%nat -> length sh = nd -> masked_size (only nd j) sh = nth j sh 0.
Proof.
  induction nd as [|nd IH]; intros j sh Hj Hl; [lia|]. destruct sh as [|n sh]; [discriminate|]. injection Hl as Hl. destruct j as [|j]; cbn [only masked_size nth].
  - rewrite size_none. ring.
  - rewrite IH by (auto; lia). destruct (nth j sh 0); reflexivity.
Qed.
Definition steps (f : list bool -> array C -> array C) (l : list nat) (a : array C) : res (array C) := fold_right (fun i r => do b <- r; along f i b) (Ok a) l.
Section St.
Context (a : array C).
Let nd := length (shape a).
Lemma fft_steps l : NoDup l -> Forall (fun j => (j < nd)%nat) l -> ~ empty_axis (shape a) l ->
  exists b, steps fftn l a = Ok b /\ shape b = shape a /\ forall ks, get b ks = get (fftn (axes_mask nd (Some l)) a) ks.
Proof.
  intros Hn Hr He. induction l as [|j l IH]; cbn [steps fold_right].
  - exists a. split; [reflexivity|]. split; [reflexivity|]. intros ks. cbn [get fftn]. now rewrite dft_mop, mask_nil, mop_none.
  - inversion Hn as [|? ? Hj Hl]; subst. inversion Hr as [|? ? Hj2 Hr2]; subst.
    destruct IH as (b & E & Sb & Gb); auto. { intros (i & Hi & Hz). apply He. exists i. split; [now right|exact Hz]. }
    fold (steps fftn l a). rewrite E. cbn [bind]. unfold along. rewrite Sb. fold nd. destruct (Z.ltb_spec (nth j (shape a) 0) 1) as [X|X]; [exfalso; apply He; exists j; split; [now left|exact X]|].
    eexists. split; [reflexivity|]. split; [exact Sb|]. intros ks. cbn [get fftn]. rewrite Sb, !dft_mop, mask_only by exact Hj2. rewrite mask_cons by exact Hj2.
    rewrite mop_mark by (rewrite ?mask_length; auto; rewrite nth_mask by exact Hj2; apply not_true_is_false; now rewrite existsb_eqb).
    rewrite mask_length. apply mop_ext'. intros js. rewrite Gb. cbn [get fftn]. apply dft_mop.
Qed.
Lemma ifft_steps l : NoDup l -> Forall (fun j => (j < nd)%nat) l -> ~ empty_axis (shape a) l ->
  exists b, steps ifftn l a = Ok b /\ shape b = shape a /\ 1 <= masked_size (axes_mask nd (Some l)) (shape a) /\ forall ks, get b ks = get (ifftn (axes_mask nd (Some l)) a) ks.
Proof.
  intros Hn Hr He. induction l as [|j l IH]; cbn [steps fold_right].
  - exists a. split; [reflexivity|]. split; [reflexivity|]. rewrite mask_nil, size_none. split; [lia|]. intros ks. cbn [get ifftn]. rewrite dft_mop, mop_none, size_none, Rinv_1. ring.
  - inversion Hn as [|? ? Hj Hl]; subst. inversion Hr as [|? ? Hj2 Hr2]; subst.
    destruct IH as (b & E & Sb & Sz & Gb); auto. { intros (i & Hi & Hz). apply He. exists i. split; [now right|exact Hz]. }
    fold (steps ifftn l a). rewrite E. cbn [bind]. unfold along. rewrite Sb. fold nd. destruct (Z.ltb_spec (nth j (shape a) 0) 1) as [X|X]; [exfalso; apply He; exists j; split; [now left|exact X]|].
    assert (Nm : nth j (axes_mask nd (Some l)) true = false) by (rewrite nth_mask by exact Hj2; apply not_true_is_false; now rewrite existsb_eqb).
    eexists. split; [reflexivity|]. split; [exact Sb|]. rewrite mask_cons by exact Hj2. rewrite size_mark by (rewrite ?mask_length; auto).
    split; [nia|]. intros ks. cbn [get ifftn]. rewrite Sb, !dft_mop, mask_only by exact Hj2.
    rewrite size_mark by (rewrite ?mask_length; auto). rewrite size_only by (auto; reflexivity).
    rewrite mop_mark by (rewrite ?mask_length; auto).
    rewrite mask_length. set (M := masked_size _ _) in *. rewrite mult_IZR. assert (IZR M <> 0%R) by (apply not_0_IZR; lia). assert (IZR (nth j (shape a) 0) <> 0%R) by (apply not_0_IZR; lia).
    rewrite Rinv_mult_distr, RtoC_mult, <- Cmult_assoc by assumption. f_equal. rewrite <- mop_scal. apply mop_ext'. intros js. rewrite Gb. cbn [get ifftn]. fold M. f_equal. apply dft_mop.
Qed.
Lemma steps_err f l : (forall m b, shape (f m b) = shape b) -> Forall (fun j => (j < nd)%nat) l -> empty_axis (shape a) l -> steps f l a = Err ValueError.
Proof.
  intros Hf Hr (j & Hj & Hz). assert (D : forall l, (exists b, steps f l a = Ok b /\ shape b = shape a) \/ steps f l a = Err ValueError).
  { clear - Hf. induction l as [|i l IH]; cbn [steps fold_right]; [left; eauto|]. fold (steps f l a). destruct IH as [(b & -> & Sb)| ->]; cbn [bind]; [|now right].
    unfold along. destruct (_ <? _); [now right|]. left. eexists. split; [reflexivity|]. now rewrite Hf. }
  induction l as [|i l IH]; [contradiction|]. inversion Hr as [|? ? Hi Hr2]; subst. cbn [steps fold_right]. fold (steps f l a). destruct Hj as [<-|Hj].
  - destruct (D l) as [(b & -> & Sb)| ->]; cbn [bind]; [|reflexivity]. unfold along. rewrite Sb. destruct (Z.ltb_spec (nth i (shape a) 0) 1); [reflexivity|lia].
  - rewrite IH by auto. reflexivity.
Qed.
End St.
(** rolls *)
Lemma roll_once sgn l : forall sh ks i, NoDup l -> inb sh ks -> roll_ix sgn i l sh ks = shift_ix sgn (map (fun q => existsb (Nat.eqb q) l) (seq i (length sh))) sh ks.
Proof.
  induction sh as [|n sh IH]; intros ks i Hn Hk; cbn [roll_ix]; [destruct (map _ _); reflexivity|]. destruct (inb_cons_inv _ _ _ Hk) as (k & r & -> & Hkn & Hr). cbn [length seq map shift_ix].
  f_equal; [|now apply IH]. destruct (existsb (Nat.eqb i) l) eqn:Ex.
  - apply existsb_eqb in Ex. rewrite (proj1 (NoDup_count_occ' Nat.eq_dec l) Hn i Ex). f_equal. ring.
  - assert (Z0 : ~ In i l) by (rewrite <- existsb_eqb; congruence). apply (count_occ_not_In Nat.eq_dec) in Z0. rewrite Z0. replace (k + sgn * (Z.of_nat 0 * (n / 2))) with k by ring. now apply Z.mod_small.
Qed.
(** an axis listed twice *)
Fixpoint put (j : nat) (v : Z) (ks : list Z) : list Z := match ks, j with [], _ => [] | _ :: ks, O => v :: ks | k :: ks, S j => k :: put j v ks end.
Lemma put_nth j v : forall ks, put j v ks = firstn j ks ++ match skipn j ks with [] => [] | _ :: r => v :: r end.
Proof. induction j as [|j IH]; intros [|k ks]; cbn [put firstn skipn app]; auto. now rewrite IH. Qed.
Lemma put_inb j v : forall sh ks, inb sh ks -> 0 <= v < nth j sh 0 -> inb sh (put j v ks).
Proof.
  induction j as [|j IH]; intros sh ks H Hv; destruct sh as [|n sh].
  - cbn in Hv. lia.
  - destruct (inb_cons_inv _ _ _ H) as (k & r & -> & Hk & Hr). cbn [put]. now apply inb_cons.
  - destruct ks; [exact H|inversion H].
  - destruct (inb_cons_inv _ _ _ H) as (k & r & -> & Hk & Hr). cbn [put]. apply inb_cons. split; [exact Hk|]. now apply IH.
Qed.
Lemma put_put j v v' : forall ks, put j v (put j v' ks) = put j v ks.
Proof. induction j as [|j IH]; intros [|k ks]; cbn [put]; auto. now rewrite IH. Qed.
Lemma nth_put j v : forall ks, (j < length ks)%nat -> nth j (put j v ks) 0 = v.
Proof. induction j as [|j IH]; intros [|k ks] H; cbn [put nth length] in *; try lia; auto. apply IH. lia. Qed.
Lemma roll_none sgn l : forall sh ks i, inb sh ks -> (forall q, In q l -> (q < i)%nat) -> roll_ix sgn i l sh ks = ks.
Proof.
  induction sh as [|n sh IH]; intros ks i Hk Hl; cbn [roll_ix]; [reflexivity|]. destruct (inb_cons_inv _ _ _ Hk) as (k & r & -> & Hkn & Hr). f_equal.
  - assert (Z0 : ~ In i l) by (intros X; specialize (Hl i X); lia). apply (count_occ_not_In Nat.eq_dec) in Z0. rewrite Z0. replace (k + sgn * (Z.of_nat 0 * (n / 2))) with k by ring. now apply Z.mod_small.
  - apply IH; [exact Hr|]. intros q Hq. specialize (Hl q Hq). lia.
Qed.
Lemma roll_twice sgn j : forall sh ks i, inb sh ks -> roll_ix sgn i [(i + j)%nat; (i + j)%nat] sh ks = put j ((nth j ks 0 + sgn * (2 * (nth j sh 0 / 2))) mod nth j sh 0) ks.
Proof.
  induction j as [|j IH]; intros sh ks i Hk; (destruct sh as [|n sh]; cbn [roll_ix]; [destruct ks; [reflexivity|inversion Hk]|]); destruct (inb_cons_inv _ _ _ Hk) as (k & r & -> & Hkn & Hr); cbn [put nth].
  - rewrite Nat.add_0_r. f_equal.
    + cbn [count_occ]. destruct (Nat.eq_dec i i); [|contradiction]. reflexivity.
    + apply roll_none; [exact Hr|]. intros q [<- | [<- | []]]; lia.
  - f_equal.
    + cbn [count_occ]. destruct (Nat.eq_dec (i + S j) i); [lia|]. replace (k + sgn * (Z.of_nat 0 * (n / 2))) with k by ring. now apply Z.mod_small.
    + replace (i + S j)%nat with (S i + j)%nat by lia. now apply IH.
Qed.
Lemma kdft2 s n k i : (s = 1 \/ s = -1) -> 0 < n -> 0 <= k < n -> 0 <= i < n -> kcomp (kdft s) (kdft s) n k i = if (- k) mod n =? i then RtoC (IZR n) else RtoC 0.
Proof.
  intros Hs Hn Hk Hi. unfold kcomp, kdft. transitivity (Csum (zseq n) (fun j => root n (j * (s * (k + i))))).
  - apply Csum_ext. intros j _. rewrite <- root_add. f_equal. ring.
  - rewrite root_sum by exact Hn. assert (E : (s * (k + i)) mod n = 0 <-> (- k) mod n = i); [|destruct (Z.eqb_spec ((s * (k + i)) mod n) 0), (Z.eqb_spec ((- k) mod n) i); tauto].
    split; intros H.
    + assert (H' : (k + i) mod n = 0). { destruct Hs as [-> | ->]; [now rewrite Z.mul_1_l in H|]. replace (k + i) with (- (-1 * (k + i))) by ring. now apply Z_mod_zero_opp_full. }
      apply Z.mod_divide in H'; [|lia]. destruct H' as [q Hq]. replace (- k) with (i + (- q) * n) by lia. rewrite Z_mod_plus_full. now apply Z.mod_small.
    + rewrite <- H. pose proof (Z.div_mod (- k) n ltac:(lia)) as D. replace (s * (k + (- k) mod n)) with ((- s * ((- k) / n)) * n) by lia. apply Z_mod_mult.
Qed.
Lemma Csum_pick n q (F : Z -> C) c : 0 <= q < n -> Csum (zseq n) (fun j => (if q =? j then c else RtoC 0) *c F j) = c *c F q.
Proof.
  intros Hq. rewrite <- (Csum_delta n q F Hq), <- Csum_scal_l. apply Csum_ext. intros j _. unfold delta. destruct (Z.eqb_spec q j) as [->|N]; [rewrite ?Z.eqb_refl; ring|].
  try (destruct (Z.eqb_spec j q); [congruence|]). ring.
Qed.
Lemma mop_only_pick K c (g : Z -> Z -> Z) : (forall n k j, 0 < n -> 0 <= k < n -> 0 <= j < n -> K n k j = if g n k =? j then c n else RtoC 0) ->
  (forall n k, 0 < n -> 0 <= g n k < n) -> forall j nd sh f ks, (j < nd)%nat -> length sh = nd -> inb sh ks ->
  mop K (only nd j) sh f ks = c (nth j sh 0) *c f (put j (g (nth j sh 0) (nth j ks 0)) ks).
Proof.
  intros HK Hg. induction j as [|j IH]; intros nd sh f ks Hj Hl Hk; (destruct nd as [|nd]; [lia|]); (destruct sh as [|n sh]; [discriminate|]); injection Hl as Hl; destruct (inb_cons_inv _ _ _ Hk) as (k & r & -> & Hkn & Hr); cbn [only mop nth put].
  - rewrite <- (Csum_pick n (g n k) (fun i => f (i :: r)) (c n)) by (apply Hg; lia). apply Csum_ext. intros i Hi. apply in_zseq in Hi. rewrite HK by lia. now rewrite mop_none.
  - rewrite (IH nd sh (fun js => f (k :: js)) r) by (auto; lia). reflexivity.
Qed.

Lemma kcen2 n k i : 0 < n -> 0 <= k < n -> 0 <= i < n -> kcomp (kcen (-1)) (kcen (-1)) n k i = if (2 * (n / 2) - k) mod n =? i then RtoC (IZR n) else RtoC 0.
Proof.
  intros Hn Hk Hi. set (h := n / 2). unfold kcomp, kcen. fold h. transitivity (root n (h * (k + i - 2 * h)) *c Csum (zseq n) (fun j => root n (j * (- (k + i - 2 * h))))).
  - rewrite <- Csum_scal_l. apply Csum_ext. intros j _. rewrite <- !root_add. f_equal. ring.
  - rewrite root_sum by exact Hn. assert (E : (- (k + i - 2 * h)) mod n = 0 <-> (2 * h - k) mod n = i).
    { split; intros H.
      - apply Z.mod_divide in H; [|lia]. destruct H as [q Hq]. replace (2 * h - k) with (i + q * n) by lia. rewrite Z_mod_plus_full. now apply Z.mod_small.
      - rewrite <- H. pose proof (Z.div_mod (2 * h - k) n ltac:(lia)) as D. replace (- (k + (2 * h - k) mod n - 2 * h)) with (((2 * h - k) / n) * n) by lia. apply Z_mod_mult. }
    destruct (Z.eqb_spec ((- (k + i - 2 * h)) mod n) 0) as [A|A], (Z.eqb_spec ((2 * h - k) mod n) i) as [B|B]; try tauto; [|ring].
    rewrite (root_cong n (h * (k + i - 2 * h)) 0), root_0; [ring|exact Hn|]. apply Z.mod_divide in A; [|lia]. destruct A as [q Hq]. replace (h * (k + i - 2 * h) - 0) with ((- h * q) * n) by (rewrite Z.sub_0_r; transitivity (h * - (- (k + i - 2 * h))); [rewrite Hq; ring|ring]). apply Z_mod_mult.
Qed.
