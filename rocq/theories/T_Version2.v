(** C67, continued: keywords, parent directory, get_versions. *)
From Verif Require Import S_Version L_Version T_Version.
From Coq Require Import Lia Arith Bool Sorted.
Local Open Scope list_scope.

(** ** Order *)
Lemma leb_iff a b : str_leb a b = true <-> before a b.
Proof.
  revert b. induction a as [|x a IH]; intros b; [split; [intros _; constructor|reflexivity]|]. destruct b as [|y b]; cbn [str_leb]; [split; [discriminate|intros H; inversion H]|].
  rewrite orb_true_iff, andb_true_iff, N.ltb_lt, Ascii.eqb_eq, IH. split.
  - intros [H|[<- H]]; [now apply before_lt|now apply before_eq].
  - intros H. inversion H; subst; auto.
Qed.
Lemma code_inj x y : N_of_ascii x = N_of_ascii y -> x = y.
Proof. intros H. rewrite <- (ascii_N_embedding x), H. apply ascii_N_embedding. Qed.
Lemma before_total a b : before a b \/ before b a.
Proof.
  revert b. induction a as [|x a IH]; intros b; [left; constructor|]. destruct b as [|y b]; [right; constructor|]. destruct (N.lt_trichotomy (N_of_ascii x) (N_of_ascii y)) as [L|[E|L]].
  - left. now apply before_lt.
  - apply code_inj in E. subst y. destruct (IH b); [left|right]; now apply before_eq.
  - right. now apply before_lt.
Qed.
Lemma before_trans a b c : before a b -> before b c -> before a c.
Proof.
  intros H. revert c. induction H; intros c H2; [constructor|inversion H2; subst; [apply before_lt; lia|now apply before_lt]|inversion H2; subst; [now apply before_lt|apply before_eq; auto]].
Qed.
Lemma before_refl a : before a a. Proof. induction a as [|x a IH]; [apply before_nil|now apply before_eq]. Qed.
Lemma before_app p a b : before (p ++ a) (p ++ b) <-> before a b.
Proof. induction p as [|x p IH]; cbn [app]; [reflexivity|]. rewrite <- IH. split; intros H; [inversion H; subst; [lia|assumption]|now apply before_eq]. Qed.
Lemma insert_in x y l : In y (insert x l) <-> y = x \/ In y l.
Proof.
  induction l as [|z l IH]; cbn [insert In]; [intuition|]. destruct (seqb x z) eqn:E; [apply seqb_iff in E; subst; cbn [In]; intuition|]. destruct (str_leb x z); cbn [In]; [intuition|]. rewrite IH. intuition.
Qed.
Lemma insert_sorted x l : StronglySorted before l -> StronglySorted before (insert x l).
Proof.
  induction 1 as [|z l Hs IH Hf]; cbn [insert]; [constructor; constructor|]. destruct (seqb x z) eqn:E; [now constructor|]. destruct (str_leb x z) eqn:L.
  - apply leb_iff in L. constructor; [now constructor|]. constructor; [exact L|]. eapply Forall_impl; [|exact Hf]. intros w Hw. exact (before_trans _ _ _ L Hw).
  - constructor; [exact IH|]. apply Forall_forall. intros w Hw. apply insert_in in Hw. destruct Hw as [->|Hw].
    + destruct (before_total z x) as [B|B]; [exact B|]. apply leb_iff in B. congruence.
    + rewrite Forall_forall in Hf. auto.
Qed.
Lemma sorted_in y l : In y (sorted_set l) <-> In y l.
Proof. induction l as [|x l IH]; [reflexivity|]. unfold sorted_set in *. cbn [fold_right In]. rewrite insert_in, IH. intuition. Qed.
Lemma sorted_sorted l : StronglySorted before (sorted_set l).
Proof. induction l as [|x l IH]; [constructor|]. unfold sorted_set in *. cbn [fold_right]. now apply insert_sorted. Qed.
Lemma filter_sorted f l : StronglySorted before l -> StronglySorted before (filter f l).
Proof.
  induction 1 as [|z l Hs IH Hf]; cbn [filter]; [constructor|]. destruct (f z); [|exact IH]. constructor; [exact IH|]. apply Forall_forall. intros w Hw. apply filter_In in Hw. rewrite Forall_forall in Hf. apply Hf, Hw.
Qed.

(** ** Splitting the list of references *)
Lemma split_no c s : ~ In c s -> split c s = [s].
Proof.
  induction s as [|a s IH]; intros H; [reflexivity|]. cbn [split]. destruct (Ascii.eqb_spec a c) as [->|_]; [exfalso; apply H; now left|]. rewrite IH by (intros I; apply H; now right). reflexivity.
Qed.
Lemma split_app c a b : ~ In c a -> split c (a ++ c :: b) = a :: split c b.
Proof.
  induction a as [|x a IH]; intros H; cbn [app split]; [now rewrite Ascii.eqb_refl|]. destruct (Ascii.eqb_spec x c) as [->|_]; [exfalso; apply H; now left|]. rewrite IH by (intros I; apply H; now right). reflexivity.
Qed.
Lemma refname_trimmed r : refname r -> trimmed r.
Proof. intros (_ & _ & A & B). split; [intros c r' E; apply (A c r' E)|intros r' c E; apply (B r' c E)]. Qed.
Lemma strip_self s : trimmed s -> strip s = s.
Proof. intros H. apply strip_padded; [exists [], []; repeat split; auto; now rewrite app_nil_r|exact H]. Qed.
Lemma strip_blank s : trimmed s -> strip (" "%char :: s) = s.
Proof. intros H. apply strip_padded; [exists $" ", []; repeat split; auto; [constructor; [vm_compute; auto 20|constructor]|now rewrite app_nil_r]|exact H]. Qed.
Lemma split_listed refs : refs <> [] -> Forall refname refs -> exists ws, split "," (listed refs) = ws /\ map strip ws = refs.
Proof.
  intros N0 H. assert (G : forall refs pre, refs <> [] -> Forall refname refs -> (pre = [] \/ pre = $" ") -> map strip (split "," (pre ++ listed refs)) = refs).
  { clear. induction refs as [|r refs IH]; intros pre N0 H Hp; [contradiction|]. inversion_clear H as [|? ? Hr Hrs].
    assert (SP : strip (pre ++ r) = r) by (destruct Hp as [->| ->]; [apply strip_self|apply strip_blank]; now apply refname_trimmed).
    assert (NC : ~ In ","%char (pre ++ r)). { intros I. apply in_app_or in I. destruct I as [I|I]; [destruct Hp as [->| ->]; cbn in I; intuition discriminate|]. destruct Hr as (_ & Hc & _). contradiction. }
    destruct refs as [|r2 refs]; cbn [listed].
    - rewrite split_no by exact NC. cbn [map]. now rewrite SP.
    - change $", " with (","%char :: $" "). rewrite app_assoc. cbn [app]. rewrite split_app by exact NC. cbn [map]. rewrite SP. f_equal. apply (IH $" "); [discriminate|exact Hrs|now right]. }
  eexists. split; [reflexivity|]. exact (G refs [] N0 H (or_introl eq_refl)).
Qed.
Lemma listed_ends refs : refs <> [] -> Forall refname refs ->
  (forall c s, listed refs = c :: s -> ~ In c $"()") /\ (forall s c, listed refs = s ++ [c] -> ~ In c $"()").
Proof.
  intros N0 H. split.
  - destruct refs as [|r refs]; [contradiction|]. inversion_clear H as [|? ? (R0 & _ & A & _) _]. destruct r as [|x r]; [contradiction|]. intros c s E. destruct refs; cbn [listed app] in E; injection E as <- _; apply (A x r eq_refl).
  - revert N0 H. induction refs as [|r refs IH]; intros N0 H; [contradiction|]. inversion_clear H as [|? ? (R0 & _ & _ & B) Hr]. destruct refs as [|r2 refs]; cbn [listed].
    + intros s c E. apply (B s c E).
    + intros s c E. rewrite app_assoc in E. assert (NE : listed (r2 :: refs) <> []) by (inversion_clear Hr as [|? ? (Q0 & _) _]; destruct r2; [contradiction|destruct refs; discriminate]).
      destruct (app_last _ _ _ _ NE E) as (b' & Eb). apply (IH ltac:(discriminate) Hr b' c Eb).
Qed.
Lemma paren_iff c : paren c = true <-> In c $"()".
Proof. unfold paren. rewrite orb_true_iff, !Ascii.eqb_eq. cbn. intuition. Qed.
Lemma paren_false c : ~ In c $"()" -> paren c = false.
Proof. rewrite <- paren_iff. destruct (paren c); [intros H; now contradiction H|reflexivity]. Qed.
Lemma refs_read refs : refs <> [] -> Forall refname refs -> map strip (split "," (strip_by paren (strip ($" (" ++ listed refs ++ $")")))) = refs /\ startswith $"$Format" (strip ($" (" ++ listed refs ++ $")")) = false.
Proof.
  intros N0 H. assert (E : strip ($" (" ++ listed refs ++ $")") = $"(" ++ listed refs ++ $")").
  { apply strip_padded; [exists $" ", []; split; [constructor; [vm_compute; auto 20|constructor]|]; split; [constructor|]; rewrite app_nil_r; reflexivity|].
    split; [intros c s' [= <- _]; vm_compute; intuition discriminate|]. intros s' c X. rewrite app_assoc in X. apply app_inj_tail in X. destruct X as [_ <-]. vm_compute. intuition discriminate. }
  rewrite E. split; [|reflexivity]. destruct (listed_ends refs N0 H) as [L1 L2].
  rewrite (strip_by_spec paren $"(" (listed refs) $")"); [|constructor; [reflexivity|constructor]|constructor; [reflexivity|constructor]|intros c s' X; apply paren_false; exact (L1 c s' X)|intros s' c X; apply paren_false; exact (L2 s' c X)].
  destruct (split_listed refs N0 H) as (ws & <- & R). exact R.
Qed.
Lemma tags_of refs t :
  In t (match map (skipn 5) (filter (startswith $"tag: ") refs) with [] => filter (existsb is_digit) refs | l => l end) <-> candidate refs t.
Proof.
  assert (IT : forall t, In t (map (skipn 5) (filter (startswith $"tag: ") refs)) <-> In ($"tag: " ++ t) refs).
  { clear. intros t. rewrite in_map_iff. split.
    - intros (r & <- & I). apply filter_In in I. destruct I as [I S]. apply startswith_iff in S. destruct S as (q & ->). exact I.
    - intros I. exists ($"tag: " ++ t). split; [reflexivity|]. apply filter_In. split; [exact I|apply startswith_app]. }
  assert (ID : forall t, In t (filter (existsb is_digit) refs) <-> In t refs /\ exists c, In c t /\ digit_char c).
  { clear. intros t. rewrite filter_In, existsb_exists. split; intros [A (c & B & D)]; (split; [exact A|]); exists c; (split; [exact B|]); now apply digit_iff. }
  unfold candidate. destruct (map (skipn 5) (filter (startswith $"tag: ") refs)) as [|x l] eqn:M.
  - rewrite ID. split; [intros H; right; split; [|exact H]; intros t' I; apply IT in I; destruct I|]. intros [I|(_ & H)]; [apply IT in I; destruct I|exact H].
  - rewrite IT. split; [now left|]. intros [I|(N & _)]; [exact I|]. exfalso. apply (N x). apply IT. now left.
Qed.
(** With git archive's keywords " (REF, ...)": the version is the least candidate that carries the prefix, prefix removed; if
    there is none it is "0+unknown" with an error.  The hash is HEAD's, the tree counts as clean. *)
Theorem C67_keywords :
  forall prefix refs full when iso hash,
    refs <> [] -> Forall refname refs -> padded full hash -> hexadecimal hash -> dated when iso ->
    let k := mkKw (Some ($" (" ++ listed refs ++ $")")) (Some full) (Some when) in
    ((exists t, candidate refs (prefix ++ t)) ->
       exists t, candidate refs (prefix ++ t) /\ (forall t', candidate refs (prefix ++ t') -> before t t') /\
         git_versions_from_keywords k prefix = VOk (mkInfo t (Some hash) (Some false) None (Some iso))) /\
    ((forall t, ~ candidate refs (prefix ++ t)) ->
       git_versions_from_keywords k prefix = VOk (mkInfo $"0+unknown" (Some hash) (Some false) (Some $"no suitable tags") None)).
Proof.
  intros prefix refs full when iso hash N0 Hr Hf Hh Hd k. unfold k, git_versions_from_keywords. cbn [k_refnames k_full k_date option_map].
  destruct (refs_read refs N0 Hr) as [R1 R2]. rewrite R2, R1, (strip_padded _ _ Hf (hex_trimmed _ Hh)).
  assert (DI : iso_date when = iso). { rewrite <- (iso_ok _ _ Hd). unfold iso_date at 1 2. destruct Hd as (day & time & zone & (D0 & D) & (T0 & T) & (Z0 & Z) & P & _).
    assert (TR : trimmed (day ++ $" " ++ time ++ $" " ++ zone)).
    { split; [intros c s' E; destruct day as [|x day]; [contradiction|]; injection E as <- _; now inversion_clear D|].
      intros s' c E. rewrite !app_assoc in E. destruct (app_last _ _ _ _ Z0 E) as (z' & ->). apply Forall_app in Z. destruct Z as [_ Z]. now inversion_clear Z. }
    rewrite (strip_padded _ _ P TR), (strip_self _ TR). reflexivity. }
  rewrite DI. set (tags := match map (skipn 5) (filter (startswith $"tag: ") refs) with [] => filter (existsb is_digit) refs | l => l end).
  assert (TG : forall t, In t tags <-> candidate refs t) by (intros t; apply tags_of).
  change (match map (skipn 5) (filter (startswith $"tag: ") refs) with [] => filter (existsb is_digit) refs | _ :: _ => map (skipn 5) (filter (startswith $"tag: ") refs) end) with
    (match map (skipn 5) (filter (startswith $"tag: ") refs) with [] => filter (existsb is_digit) refs | _ :: _ => map (skipn 5) (filter (startswith $"tag: ") refs) end).
  replace (match map (skipn 5) (filter (startswith $"tag: ") refs) with [] => filter (existsb is_digit) refs | _ :: _ => map (skipn 5) (filter (startswith $"tag: ") refs) end) with tags by (unfold tags; destruct (map (skipn 5) _); reflexivity).
  clearbody tags. assert (FI : forall s, In s (filter (startswith prefix) (sorted_set tags)) <-> exists t, s = prefix ++ t /\ candidate refs s).
  { intros s. rewrite filter_In, sorted_in, TG, startswith_iff. split; [intros (A & t & ->); eauto|intros (t & -> & A); eauto]. }
  pose proof (filter_sorted (startswith prefix) _ (sorted_sorted tags)) as SS. split.
  - intros (t & Ht). destruct (filter (startswith prefix) (sorted_set tags)) as [|ref l] eqn:F.
    + exfalso. apply (FI (prefix ++ t)). exists t. auto.
    + destruct (proj1 (FI ref) (or_introl eq_refl)) as (t0 & -> & C0). exists t0. split; [exact C0|]. split.
      * intros t' Ht'. apply (before_app prefix). assert (I : In (prefix ++ t') ((prefix ++ t0) :: l)) by (apply FI; eauto). destruct I as [->|I]; [apply before_refl|]. inversion_clear SS as [|? ? _ Fa]. rewrite Forall_forall in Fa. auto.
      * rewrite skipn_app, skipn_all, Nat.sub_diag. reflexivity.
  - intros No. destruct (filter (startswith prefix) (sorted_set tags)) as [|ref l] eqn:F; [reflexivity|]. exfalso. destruct (proj1 (FI ref) (or_introl eq_refl)) as (t0 & -> & C0). exact (No t0 C0).
Qed.
Print Assumptions C67_keywords.
(** Keywords that git archive did not expand, as in the repository itself, are not used. *)
Theorem C67_unexpanded :
  forall prefix k rest, k_refnames k = Some ($"$Format" ++ rest) -> trimmed ($"$Format" ++ rest) -> git_versions_from_keywords k prefix = NotThisMethod.
Proof.
  intros prefix k rest E T. unfold git_versions_from_keywords. rewrite E. rewrite (strip_self _ T), startswith_app. reflexivity.
Qed.
Print Assumptions C67_unexpanded.

(** ** Paths *)
Lemma span_last (r c : str) : ~ In "/"%char c -> span (fun x => negb (slash x)) (rev (r ++ $"/" ++ c)) = (rev c, "/"%char :: rev r).
Proof.
  intros H. rewrite !rev_app_distr. cbn [lit list_ascii_of_string rev app]. rewrite <- app_assoc. apply span_app.
  - apply Forall_rev, Forall_forall. intros x I. unfold slash. destruct (Ascii.eqb_spec x "/") as [->|]; [contradiction|reflexivity].
  - intros x b' [= <- _]. reflexivity.
Qed.
Lemma basename_ok r c : component c -> basename (r ++ $"/" ++ c) = c.
Proof. intros [_ H]. unfold basename. rewrite span_last by exact H. apply rev_involutive. Qed.
Definition or_root (r : str) : str := match r with [] => $"/" | _ => r end.
Lemma dirname_ok r c : directory r -> component c -> dirname (r ++ $"/" ++ c) = or_root r.
Proof.
  intros Hr [_ H]. unfold dirname. rewrite span_last by exact H. cbn [snd]. replace (rev ("/"%char :: rev r)) with (r ++ $"/") by (cbn [rev]; now rewrite rev_involutive).
  destruct Hr as [->|(r' & x & -> & Hx)]; [reflexivity|].
  assert (F : forallb slash ((r' ++ [x]) ++ $"/") = false). { rewrite !forallb_app. cbn [forallb]. unfold slash at 2. destruct (Ascii.eqb_spec x "/"); [contradiction|]. now rewrite !andb_false_r. }
  rewrite F, !rev_app_distr. cbn [rev app lit list_ascii_of_string drop_while slash]. unfold slash at 1. cbn match. change (Ascii.eqb "/" "/") with true. cbn match. unfold slash at 1. destruct (Ascii.eqb_spec x "/"); [contradiction|].
  cbn [rev]. rewrite rev_involutive. destruct r'; reflexivity.
Qed.
Lemma directory_app r c : component c -> directory (r ++ $"/" ++ c).
Proof. intros [C0 H]. right. destruct (exists_last C0) as (c' & x & ->). exists (r ++ $"/" ++ c'), x. split; [now rewrite <- !app_assoc|]. intros ->. apply H. apply in_or_app. right. now left. Qed.
Lemma or_root_app r c : component c -> or_root (r ++ $"/" ++ c) = r ++ $"/" ++ c.
Proof. intros _. destruct r; reflexivity. Qed.

(** The parent-directory method: of the last three components the innermost that begins with the prefix gives the version. *)
Theorem C67_parentdir :
  forall prefix r c1 c2 c3, directory r -> component c1 -> component c2 -> component c3 ->
    let root := ((r ++ $"/" ++ c1) ++ $"/" ++ c2) ++ $"/" ++ c3 in
    let found v := VOk (mkInfo v None (Some false) None None) in
    let misses c := forall v, c <> prefix ++ v in
    (forall v, c3 = prefix ++ v -> versions_from_parentdir prefix root = found v) /\
    (misses c3 -> forall v, c2 = prefix ++ v -> versions_from_parentdir prefix root = found v) /\
    (misses c3 -> misses c2 -> forall v, c1 = prefix ++ v -> versions_from_parentdir prefix root = found v) /\
    (misses c3 -> misses c2 -> misses c1 -> versions_from_parentdir prefix root = NotThisMethod).
Proof.
  intros prefix r c1 c2 c3 Hr H1 H2 H3 root found misses. unfold versions_from_parentdir, root. cbn [parentdir_from].
  rewrite (basename_ok _ c3 H3), (dirname_ok _ c3 (directory_app _ _ H2) H3), (or_root_app _ _ H2).
  rewrite (basename_ok _ c2 H2), (dirname_ok _ c2 (directory_app _ _ H1) H2), (or_root_app _ _ H1), (basename_ok _ c1 H1).
  assert (MF : forall c, misses c -> startswith prefix c = false). { intros c M. destruct (startswith prefix c) eqn:E; [|reflexivity]. apply startswith_iff in E. destruct E as (v & E). now contradiction (M v). }
  assert (HF : forall v, startswith prefix (prefix ++ v) = true /\ skipn (List.length prefix) (prefix ++ v) = v) by (intros v; split; [apply startswith_app|rewrite skipn_app, skipn_all, Nat.sub_diag; reflexivity]).
  split; [intros v ->; destruct (HF v) as [-> ->]; reflexivity|]. split; [intros M v ->; rewrite (MF _ M); destruct (HF v) as [-> ->]; reflexivity|].
  split; [intros M M2 v ->; rewrite (MF _ M), (MF _ M2); destruct (HF v) as [-> ->]; reflexivity|]. intros M M2 M3. now rewrite (MF _ M), (MF _ M2), (MF _ M3).
Qed.
Print Assumptions C67_parentdir.

(** ** get_versions, with the keywords and the configuration of the repository *)
Lemma get_eq r c1 c2 repo : directory r -> component c1 -> component c2 ->
  get_versions (Some ((r ++ $"/" ++ c1) ++ $"/" ++ c2)) repo =
    match (match git_pieces_from_vcs [] (repo (or_root r)) with VOk p => render p (Some $"pep440") | NotThisMethod => NotThisMethod | VErr e => VErr e end) with
    | VOk i => VOk i | VErr e => VErr e
    | NotThisMethod => VOk (mkInfo $"0+unknown" None None (Some $"unable to compute version") None)
    end.
Proof.
  intros Hr H1 H2. unfold get_versions, versions. change (git_versions_from_keywords get_keywords (c_tag_prefix get_config)) with (@NotThisMethod info). cbn match.
  change (split "/" (c_source get_config)) with [$"pyotf"; $"_version.py"]. cbn [fold_left]. rewrite (dirname_ok _ c2 (directory_app _ _ H1) H2), (or_root_app _ _ H1), (dirname_ok _ c1 Hr H1). reflexivity.
Qed.
(** In DIR/pyotf/_version.py (DIR "" is the root) git is asked in DIR.  At a tag or after it: TAG[+N.gHEX[.dirty]]. *)
Theorem C67_get_versions :
  forall r c1 c2 (repo : str -> git) t n hex d s full iso, directory r -> component c1 -> component c2 ->
    let dir := match r with [] => $"/" | _ => r end in
    a_tag t -> hexadecimal hex -> hexadecimal full -> describes s t n hex d -> answers (repo dir) s full iso ->
    exists v, get_versions (Some ((r ++ $"/" ++ c1) ++ $"/" ++ c2)) repo = VOk (mkInfo v (Some full) (Some d) None (Some iso)) /\ pep440_of t n hex d v.
Proof.
  intros r c1 c2 repo t n hex d s full iso Hr H1 H2 dir Ht Hh Hf Hs Ha. rewrite (get_eq _ _ _ _ Hr H1 H2). change (or_root r) with dir.
  rewrite (C67_parse [] t n hex d s full iso _ Ht Hh Hf Hs Ha). cbv iota beta.
  destruct (C67_styles (mkPieces full hex None d (Some t) n (Some iso)) t n hex d) as (S & _); [repeat split; auto; apply Ht|].
  destruct (S (Some $"pep440") ltac:(cbn [In]; auto)) as (v & E & P). match goal with |- context [render ?p ?st] => change (render p st = VOk (mkInfo v (Some full) (Some d) None (Some iso))) in E; rewrite E end. exists v. split; [reflexivity|exact P].
Qed.
Print Assumptions C67_get_versions.
(** Without a tag "0+untagged.N.gHEX[.dirty]"; outside git, or without __file__, "0+unknown" and an error. *)
Theorem C67_get_versions_otherwise :
  forall r c1 c2 (repo : str -> git), directory r -> component c1 -> component c2 ->
    let dir := match r with [] => $"/" | _ => r end in
    (forall num n hex d full iso, hexadecimal hex -> hexadecimal full -> numeral num n -> g_count (repo dir) = Some num -> answers (repo dir) (hex ++ dirt d) full iso ->
       get_versions (Some ((r ++ $"/" ++ c1) ++ $"/" ++ c2)) repo =
         VOk (mkInfo ($"0+untagged." ++ num ++ $".g" ++ firstn 7 full ++ (if d then $".dirty" else [])) (Some full) (Some d) None (Some iso))) /\
    (g_dir (repo dir) = false \/ g_describe (repo dir) = None \/ g_head (repo dir) = None ->
       get_versions (Some ((r ++ $"/" ++ c1) ++ $"/" ++ c2)) repo = VOk (mkInfo $"0+unknown" None None (Some $"unable to compute version") None)) /\
    get_versions None repo = VOk (mkInfo $"0+unknown" None None (Some $"unable to find root of source tree") None).
Proof.
  intros r c1 c2 repo Hr H1 H2 dir. rewrite (get_eq _ _ _ _ Hr H1 H2). change (or_root r) with dir. split; [|split; [|reflexivity]].
  - intros num n hex d full iso Hh Hf Hn Hc Ha. rewrite (C67_untagged [] n num hex d full iso _ Hh Hf Hn Hc Ha). cbv iota beta.
    destruct (C67_untagged_styles (mkPieces full (firstn 7 full) None d None n (Some iso)) n (firstn 7 full) d eq_refl (or_introl eq_refl) eq_refl eq_refl eq_refl) as (num' & Hn' & S & _).
    rewrite (numeral_unique _ _ _ Hn Hn'). specialize (S (Some $"pep440") ltac:(cbn [In]; auto)). destruct (render _ _); [|discriminate S|discriminate S]. injection S as ->. reflexivity.
  - intros H. replace (git_pieces_from_vcs [] (repo dir)) with (@NotThisMethod pieces); [reflexivity|]. unfold git_pieces_from_vcs. symmetry. destruct (g_dir (repo dir)); cbn [negb]; [|reflexivity]. destruct (g_describe (repo dir)); [|reflexivity]. destruct H as [H|[H|H]]; [discriminate..|]. now rewrite H.
Qed.
Print Assumptions C67_get_versions_otherwise.

(** ** Cases *)
Definition wgit : git := mkGit true (Some ($"v1.0-2-gab-rc-dirty-12-g0a1b2c3-dirty" ++ [newline])) (Some $"0a1b2c3d4e5f60718293a4b5c6d7e8f901234567") (Some $"345") (Some $"2021-03-04 05:06:07 +0100").
Example C67_hyphens : get_versions (Some $"/home/u/pyOTF/pyotf/_version.py") (fun _ => wgit) =
  VOk (mkInfo $"v1.0-2-gab-rc-dirty+12.g0a1b2c3.dirty" (Some $"0a1b2c3d4e5f60718293a4b5c6d7e8f901234567") (Some true) None (Some $"2021-03-04T05:06:07+0100")).
Proof. vm_compute. reflexivity. Qed.
Example C67_witness : a_tag $"v1.0-2-gab-rc-dirty" /\ hexadecimal $"0a1b2c3" /\ describes $"v1.0-2-gab-rc-dirty-12-g0a1b2c3-dirty" $"v1.0-2-gab-rc-dirty" 12 $"0a1b2c3" true /\
  answers wgit $"v1.0-2-gab-rc-dirty-12-g0a1b2c3-dirty" $"0a1b2c3d4e5f60718293a4b5c6d7e8f901234567" $"2021-03-04T05:06:07+0100".
Proof.
  assert (FB : forall s, forallb (fun c => negb (is_space c)) s = true -> Forall (fun c => ~ blank c) s) by (intros s H; apply Forall_forall; intros c I; rewrite forallb_forall in H; specialize (H c I); rewrite blank_iff; destruct (is_space c); [discriminate|congruence]).
  assert (FH : forall s, forallb is_hex s = true -> Forall hex_char s) by (intros s H; apply Forall_forall; intros c I; rewrite forallb_forall in H; apply hex_iff; auto).
  split; [split; [discriminate|apply FB; vm_compute; reflexivity]|]. split; [split; [discriminate|apply FH; vm_compute; reflexivity]|].
  split; [exists $"12"; split; [|reflexivity]; change $"12" with (dec 12); apply dec_numeral|].
  assert (P0 : forall s, padded s s) by (intros s; exists [], []; repeat split; auto; now rewrite app_nil_r).
  split; [reflexivity|]. split; [eexists; split; [reflexivity|]; exists [], [newline]; split; [constructor|]; split; [constructor; [vm_compute; auto|constructor]|reflexivity]|].
  split; [eexists; split; [reflexivity|apply P0]|]. eexists. split; [reflexivity|]. exists $"2021-03-04", $"05:06:07", $"+0100".
  split; [split; [discriminate|apply FB; vm_compute; reflexivity]|]. split; [split; [discriminate|apply FB; vm_compute; reflexivity]|]. split; [split; [discriminate|apply FB; vm_compute; reflexivity]|]. split; [apply P0|reflexivity].
Qed.
Example C67_keywords_case : git_versions_from_keywords (mkKw (Some $" (HEAD -> master, tag: v2.0rc1, tag: v2.0, origin/master)") (Some $"0a1b2c3") (Some $"2021-03-04 05:06:07 +0100")) $"v" =
  VOk (mkInfo $"2.0" (Some $"0a1b2c3") (Some false) None (Some $"2021-03-04T05:06:07+0100")).
Proof. vm_compute. reflexivity. Qed.
Example C67_keywords_witness : Forall refname [$"HEAD -> master"; $"tag: v2.0rc1"; $"tag: v2.0"; $"origin/master"].
Proof.
  assert (G : forall r, (negb (contains "," r) && negb (seqb r []) && match r with c :: _ => negb (is_space c || paren c) | [] => false end && match rev r with c :: _ => negb (is_space c || paren c) | [] => false end) = true -> refname r).
  { intros r H. apply andb_prop in H. destruct H as [H H4]. apply andb_prop in H. destruct H as [H H3]. apply andb_prop in H. destruct H as [H1 H2].
    assert (OK : forall c, negb (is_space c || paren c) = true -> ~ blank c /\ ~ In c $"()") by (intros c Hc; rewrite blank_iff, <- paren_iff; destruct (is_space c), (paren c); try discriminate; split; congruence).
    split; [intros ->; discriminate|]. split; [apply negb_true_iff in H1; now apply contains_false|]. split.
    - intros c r' ->. now apply OK.
    - intros r' c ->. rewrite rev_app_distr in H4. now apply OK. }
  do 4 (apply Forall_cons; [apply G; vm_compute; reflexivity|]). apply Forall_nil.
Qed.
