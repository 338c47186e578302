(** Lemmas on commands and the version file. *)
From Verif Require Import S_Command L_Version.
Local Open Scope list_scope.

Lemma nil_or_last {A} (s : list A) : s = [] \/ exists t a, s = t ++ [a].
Proof. destruct s as [|x s]; [now left|right]. destruct (@exists_last _ (x :: s)) as (t & a & E); [discriminate|eauto]. Qed.
(** ** UTF-8 *)
Lemma between_iff a b c : between a b c = true <-> (a <= N_of_ascii c <= b)%N.
Proof. unfold between. rewrite andb_true_iff, !N.leb_le. reflexivity. Qed.
Lemma between_not a b c : between a b c = false <-> ~ (a <= N_of_ascii c <= b)%N.
Proof. rewrite <- between_iff. destruct (between a b c); split; congruence. Qed.
Lemma code c : (N_of_ascii c < 256)%N. Proof. apply N_ascii_bounded. Qed.
Lemma encode1_dec c b : utf8 (encode1 c ++ b) = option_map (cons c) (utf8 b).
Proof.
  pose proof (code c) as Hc. unfold encode1. destruct (N.ltb_spec (N_of_ascii c) 128) as [L|L]; cbn [app utf8].
  - replace (between 0 127 c) with true by (symmetry; apply between_iff; lia). reflexivity.
  - assert (D : (N_of_ascii c / 64 = 2 \/ N_of_ascii c / 64 = 3)%N).
    { assert (2 <= N_of_ascii c / 64)%N by (apply N.div_le_lower_bound; lia). assert (N_of_ascii c / 64 < 4)%N by (apply N.div_lt_upper_bound; lia). lia. }
    assert (M : (N_of_ascii c mod 64 < 64)%N) by (apply N.mod_lt; lia).
    assert (E1 : N_of_ascii (ascii_of_N (192 + N_of_ascii c / 64)) = (192 + N_of_ascii c / 64)%N) by (apply N_ascii_embedding; lia).
    assert (E2 : N_of_ascii (ascii_of_N (128 + N_of_ascii c mod 64)) = (128 + N_of_ascii c mod 64)%N) by (apply N_ascii_embedding; lia).
    rewrite (proj2 (between_not _ _ _)) by lia. rewrite (proj2 (between_iff 194 195 _)) by lia. rewrite (proj2 (between_iff 128 191 _)) by lia. rewrite E1, E2.
    replace (ascii_of_N _) with c; [reflexivity|]. rewrite <- (ascii_N_embedding c) at 1. f_equal. pose proof (N.div_mod (N_of_ascii c) 64 ltac:(lia)) as X. lia.
Qed.
Lemma utf8_encode s : utf8 (encode s) = Some s.
Proof. induction s as [|c s IH]; [reflexivity|]. cbn [encode flat_map]. rewrite encode1_dec. fold (encode s). now rewrite IH. Qed.
Lemma utf8_inv : forall n b s, (List.length b <= n)%nat -> utf8 b = Some s -> b = encode s.
Proof.
  induction n as [|n IH]; intros b s Hn H.
  - destruct b; [|cbn in Hn; lia]. now injection H as <-.
  - destruct b as [|x b]; [now injection H as <-|]. cbn [utf8] in H. cbn [List.length] in Hn. destruct (between 0 127 x) eqn:B1.
    + destruct (utf8 b) as [t|] eqn:E; [|discriminate]. injection H as <-. cbn [encode flat_map]. fold (encode t). apply between_iff in B1. unfold encode1.
      replace (N_of_ascii x <? 128)%N with true by (symmetry; apply N.ltb_lt; lia). cbn [app]. f_equal. apply IH; [lia|exact E].
    + destruct (between 194 195 x) eqn:B2; [|discriminate]. destruct b as [|y b]; [discriminate|]. destruct (between 128 191 y) eqn:B3; [|discriminate]. cbn [List.length] in Hn.
      destruct (utf8 b) as [t|] eqn:E; [|discriminate]. injection H as <-. cbn [encode flat_map]. fold (encode t). apply between_iff in B2, B3.
      set (v := ((N_of_ascii x - 192) * 64 + (N_of_ascii y - 128))%N). assert (Hv : (128 <= v < 256)%N) by lia.
      unfold encode1. rewrite (N_ascii_embedding v) by lia. replace (v <? 128)%N with false by (symmetry; apply N.ltb_ge; lia).
      assert (Q : (v / 64 = N_of_ascii x - 192 /\ v mod 64 = N_of_ascii y - 128)%N).
      { assert (X : (v = 64 * (N_of_ascii x - 192) + (N_of_ascii y - 128))%N) by (unfold v; lia). assert (Y : (N_of_ascii y - 128 < 64)%N) by lia. split; [exact (eq_sym (N.div_unique v 64 _ _ Y X))|exact (eq_sym (N.mod_unique v 64 _ _ Y X))]. }
      destruct Q as [-> ->]. replace (192 + (N_of_ascii x - 192))%N with (N_of_ascii x) by lia. replace (128 + (N_of_ascii y - 128))%N with (N_of_ascii y) by lia. rewrite !ascii_N_embedding. cbn [app]. f_equal. f_equal. apply IH; [lia|exact E].
Qed.
Lemma utf8_iff b s : utf8 b = Some s <-> b = encode s.
Proof. split; [now apply (utf8_inv (List.length b))|intros ->; apply utf8_encode]. Qed.
(** ** bytes.strip *)
Lemma white_iff c : white c <-> is_ascii_space c = true.
Proof. unfold white, is_ascii_space. rewrite orb_true_iff, !between_iff. cbn [In]. lia. Qed.
Lemma encode1_first c : exists x r, encode1 c = x :: r /\ (white x <-> white c).
Proof.
  unfold encode1. destruct (N.ltb_spec (N_of_ascii c) 128) as [L|L]; [exists c, []; split; reflexivity|]. do 2 eexists. split; [reflexivity|].
  pose proof (code c). assert (N_of_ascii c / 64 < 4)%N by (apply N.div_lt_upper_bound; lia). unfold white. rewrite N_ascii_embedding by lia. cbn [In]. lia.
Qed.
Lemma encode1_last c : exists r x, encode1 c = r ++ [x] /\ (white x <-> white c).
Proof.
  unfold encode1. destruct (N.ltb_spec (N_of_ascii c) 128) as [L|L]; [exists [], c; split; reflexivity|]. exists [ascii_of_N (192 + N_of_ascii c / 64)]. eexists. split; [reflexivity|].
  assert (N_of_ascii c mod 64 < 64)%N by (apply N.mod_lt; lia). unfold white. rewrite N_ascii_embedding by lia. cbn [In]. lia.
Qed.
Lemma bare_encode s : bare s <-> bare (encode s).
Proof.
  split; intros [A B]; split.
  - intros c s' E. destruct s as [|a s]; [discriminate|]. cbn [encode flat_map] in E. destruct (encode1_first a) as (x & r & Ex & W). rewrite Ex in E. injection E as <- _. rewrite W. exact (A a s eq_refl).
  - intros s' c E. destruct (nil_or_last s) as [->|(t & a & ->)]; [destruct s'; discriminate|]. unfold encode in E. rewrite flat_map_app in E. cbn [flat_map] in E. rewrite app_nil_r in E.
    destruct (encode1_last a) as (r & x & Ex & W). rewrite Ex, app_assoc in E. apply app_inj_tail in E. destruct E as [_ <-]. rewrite W. exact (B t a eq_refl).
  - intros c s' ->. destruct (encode1_first c) as (x & r & Ex & W). rewrite <- W. apply (A x (r ++ encode s')). cbn [encode flat_map]. now rewrite Ex.
  - intros s' c ->. destruct (encode1_last c) as (r & x & Ex & W). rewrite <- W. apply (B (encode s' ++ r) x). unfold encode. rewrite flat_map_app. cbn [flat_map]. now rewrite app_nil_r, Ex, app_assoc.
Qed.
Lemma drop_split f s : exists w, Forall (fun c => f c = true) w /\ s = w ++ drop_while f s /\ (forall c s', drop_while f s = c :: s' -> f c = false).
Proof.
  induction s as [|c s IH]; [exists []; repeat split; auto; discriminate|]. cbn [drop_while]. destruct (f c) eqn:E.
  - destruct IH as (w & A & B & D). exists (c :: w). split; [auto|]. split; [cbn [app]; now rewrite <- B|exact D].
  - exists []. split; [auto|]. split; [reflexivity|]. intros c' s' [= <- _]. exact E.
Qed.
Lemma strip_split f s : exists w1 w2, Forall (fun c => f c = true) w1 /\ Forall (fun c => f c = true) w2 /\ s = w1 ++ strip_by f s ++ w2 /\
  (forall c s', strip_by f s = c :: s' -> f c = false) /\ (forall s' c, strip_by f s = s' ++ [c] -> f c = false).
Proof.
  unfold strip_by. destruct (drop_split f s) as (w1 & A1 & B1 & D1). destruct (drop_split f (rev (drop_while f s))) as (w2 & A2 & B2 & D2).
  set (t := drop_while f s) in *. set (u := drop_while f (rev t)) in *. assert (Et : t = rev u ++ rev w2) by (rewrite <- rev_app_distr, <- B2, rev_involutive; reflexivity).
  exists w1, (rev w2). split; [exact A1|]. split; [now apply Forall_rev|]. split; [rewrite B1; f_equal; exact Et|]. split.
  - intros c s' E. apply (D1 c (s' ++ rev w2)). rewrite Et, E. reflexivity.
  - intros s' c E. apply (D2 c (rev s')). rewrite <- (rev_involutive u), E, rev_app_distr. reflexivity.
Qed.
Lemma not_white c : ~ white c <-> is_ascii_space c = false.
Proof. rewrite white_iff. destruct (is_ascii_space c); split; congruence. Qed.
Lemma prints_iff out s : prints out s <-> utf8 (strip_by is_ascii_space out) = Some s.
Proof.
  rewrite utf8_iff. split.
  - intros (w1 & w2 & H1 & H2 & Hb & ->). apply bare_encode in Hb. destruct Hb as [A B]. apply strip_by_spec.
    + eapply Forall_impl; [|exact H1]. intros c. apply white_iff.
    + eapply Forall_impl; [|exact H2]. intros c. apply white_iff.
    + intros c s' E. apply not_white. exact (A c s' E).
    + intros s' c E. apply not_white. exact (B s' c E).
  - intros E. destruct (strip_split is_ascii_space out) as (w1 & w2 & H1 & H2 & E2 & A & B). rewrite E in E2, A, B. exists w1, w2.
    split; [eapply Forall_impl; [|exact H1]; intros c; apply white_iff|]. split; [eapply Forall_impl; [|exact H2]; intros c; apply white_iff|]. split; [|exact E2].
    apply bare_encode. split; [intros c s' X; apply not_white; exact (A c s' X)|intros s' c X; apply not_white; exact (B s' c X)].
Qed.

(** ** run_command *)
Definition outcome (x : spawned) : vres (option str * option Z) :=
  match x with
  | Ran out rc => match utf8 (strip_by is_ascii_space out) with None => VErr ValueError | Some s => VOk (if (rc =? 0)%Z then Some s else None, Some rc) end
  | _ => VOk (None, None)
  end.
Lemma run_launched w args dir names x : launched w args dir names x -> fst (run_command w names args dir) = outcome x.
Proof.
  induction 1 as [|c names x H L IH|c names x H N].
  - reflexivity.
  - cbn [run_command]. rewrite H. destruct (run_command w names args dir). exact IH.
  - cbn [run_command]. rewrite H. destruct x; [contradiction|reflexivity|reflexivity].
Qed.
Lemma launched_ex w args dir names : exists x, launched w args dir names x.
Proof.
  induction names as [|c names (x & IH)]; [eexists; constructor|]. destruct (w (c :: args) dir) eqn:E.
  - exists x. now constructor.
  - exists Refused. constructor 3; [exact E|discriminate].
  - exists (Ran stdout rc). constructor 3; [exact E|discriminate].
Qed.
Lemma within_refl {A} (l : list A) : within l l. Proof. induction l; constructor; auto. Qed.
Lemma within_nil_l {A} (l : list A) : within [] l. Proof. induction l; constructor; auto. Qed.
Lemma within_app {A} (a b c d : list A) : within a b -> within c d -> within (a ++ c) (b ++ d).
Proof. induction 1; intros; cbn [app]; [assumption|constructor 2; auto|constructor 3; auto]. Qed.
Lemma run_log w names args dir : within (snd (run_command w names args dir)) (map (fun g => (g :: args, dir)) names).
Proof.
  induction names as [|c names IH]; [constructor|]. cbn [run_command map]. destruct (w (c :: args) dir).
  - destruct (run_command w names args dir). cbn [snd] in *. now constructor.
  - cbn [snd]. constructor. apply within_nil_l.
  - cbn [snd]. constructor. apply within_nil_l.
Qed.
Lemma bind_log {A B} (m : cmd A) (k : A -> cmd B) a b : within (snd m) a -> (forall x, within (snd (k x)) b) -> within (snd (bindC m k)) (a ++ b).
Proof.
  intros H K. unfold bindC. destruct m as [[x| |e] l]; cbn [snd] in *.
  - specialize (K x). destruct (k x) as [r l']. cbn [snd] in *. now apply within_app.
  - rewrite <- (app_nil_r l). apply within_app; [exact H|apply within_nil_l].
  - rewrite <- (app_nil_r l). apply within_app; [exact H|apply within_nil_l].
Qed.
Lemma bind_fst {A B} (m : cmd A) (k : A -> cmd B) : fst (bindC m k) = match fst m with VOk x => fst (k x) | NotThisMethod => NotThisMethod | VErr e => VErr e end.
Proof. unfold bindC. destruct m as [[x| |e] l]; cbn [fst]; [destruct (k x); reflexivity|reflexivity|reflexivity]. Qed.
