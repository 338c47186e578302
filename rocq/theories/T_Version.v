(** C67: version strings (pyotf/_version.py). *)
From Verif Require Import S_Version L_Version.
From Coq Require Import Lia Arith Bool.
Local Open Scope list_scope.

(** ** Reading git's answers *)
Lemma hex_trimmed h : hexadecimal h -> trimmed h.
Proof. intros [_ H]. apply all_trimmed. eapply Forall_impl; [|exact H]. intros c Hc. apply (hex_not c Hc). Qed.
Lemma app_last {A} (a b : list A) s' c : b <> [] -> a ++ b = s' ++ [c] -> exists b', b = b' ++ [c].
Proof. intros Hb E. destruct (exists_last Hb) as (b' & d & ->). rewrite app_assoc in E. apply app_inj_tail in E. destruct E as [_ ->]. now exists b'. Qed.
Lemma iso_ok out iso : dated out iso -> iso_date (strip out) = iso.
Proof.
  intros (day & time & zone & (D0 & D) & (T0 & T) & (Z0 & Z) & P & ->).
  assert (TR : trimmed (day ++ $" " ++ time ++ $" " ++ zone)).
  { split.
    - intros c s' E. destruct day as [|x day]; [contradiction|]. injection E as <- _. now inversion_clear D.
    - intros s' c E. rewrite !app_assoc in E. destruct (app_last _ _ _ _ Z0 E) as (z' & ->). apply Forall_app in Z. destruct Z as [_ Z]. now inversion_clear Z. }
  unfold iso_date. rewrite (strip_padded _ _ P TR).
  assert (SS : strip (day ++ $" " ++ time ++ $" " ++ zone) = day ++ $" " ++ time ++ $" " ++ zone) by (apply strip_padded; [exists [], []; repeat split; auto; now rewrite app_nil_r|exact TR]).
  rewrite SS.
  assert (NS : forall w, Forall (fun c => ~ blank c) w -> Forall (fun c => c <> " "%char) w) by (intros w; apply Forall_impl; intros c Hc ->; apply Hc; vm_compute; auto 20).
  assert (RP : forall r w s, Forall (fun c => c <> " "%char) w -> replace1 " " r (w ++ s) = w ++ replace1 " " r s).
  { induction w as [|x w IH]; intros s H; [reflexivity|]. inversion_clear H. cbn [app replace1]. destruct (Ascii.eqb_spec x " "); [contradiction|]. now rewrite IH. }
  rewrite RP by (now apply NS). cbn [app lit list_ascii_of_string replace1]. rewrite Ascii.eqb_refl. cbn [app].
  rewrite RP by (now apply NS). cbn [replace1]. change (Ascii.eqb "T" " ") with false. cbn match. rewrite RP by (now apply NS). cbn [replace1]. rewrite Ascii.eqb_refl. reflexivity.
Qed.
Lemma last_char_no (s p : str) : (forall s' c, s = s' ++ [c] -> c <> "y"%char) -> endswith (p ++ $"y") s = false.
Proof.
  intros H. destruct (endswith _ s) eqn:E; [|reflexivity]. apply endswith_iff in E. destruct E as (r & ->). rewrite app_assoc in H. now contradiction (H (r ++ p) "y"%char eq_refl).
Qed.
Lemma dirty_ok s d : (forall s' c, s = s' ++ [c] -> c <> "y"%char) ->
  endswith $"-dirty" (s ++ dirt d) = d /\ (if d then match rindex $"-dirty" (s ++ dirt d) with Some i => firstn i (s ++ dirt d) | None => s ++ dirt d end else s ++ dirt d) = s.
Proof.
  intros H. destruct d; unfold dirt.
  - split; [apply endswith_iff; now exists s|]. rewrite rindex_suffix by discriminate. rewrite firstn_app, firstn_all, Nat.sub_diag. now rewrite app_nil_r.
  - rewrite app_nil_r. split; [|reflexivity]. exact (last_char_no s $"-dirt" H).
Qed.
Lemma hex_last (a h : str) s' c : hexadecimal h -> a ++ h = s' ++ [c] -> hex_char c.
Proof. intros [H0 H] E. destruct (app_last _ _ _ _ H0 E) as (h' & ->). apply Forall_app in H. destruct H as [_ H]. now inversion_clear H. Qed.
Lemma dirt_trimmed a h d : hexadecimal h -> (forall c s', a ++ h = c :: s' -> ~ blank c) -> trimmed ((a ++ h) ++ dirt d).
Proof.
  intros Hh Hf. assert (N0 : a ++ h <> []) by (intros E; apply app_eq_nil in E; destruct E as [_ ->]; now destruct Hh). split.
  - intros c s' E. destruct (a ++ h) as [|x l]; [contradiction|]. injection E as <- _. exact (Hf x l eq_refl).
  - intros s' c E. destruct d; unfold dirt in E.
    + destruct (app_last (a ++ h) $"-dirty" s' c ltac:(discriminate) E) as (b' & Eb). assert (b' = $"-dirt" /\ c = "y"%char) as [_ ->] by (change $"-dirty" with ($"-dirt" ++ ["y"%char]) in Eb; apply app_inj_tail in Eb; destruct Eb; subst; auto). vm_compute. intuition discriminate.
    + rewrite app_nil_r in E. apply (hex_not c). exact (hex_last _ _ _ _ Hh E).
Qed.

(** TAG-NUM-gHEX[-dirty] yields exactly TAG (after the prefix), NUM, HEX and the flag, whatever TAG: it may itself contain
    hyphens, digits, "-g", "-dirty". *)
Theorem C67_parse :
  forall prefix t n hex d s full iso g,
    a_tag (prefix ++ t) -> hexadecimal hex -> hexadecimal full -> describes s (prefix ++ t) n hex d -> answers g s full iso ->
    git_pieces_from_vcs prefix g = VOk (mkPieces full hex None d (Some t) n (Some iso)).
Proof.
  intros prefix t n hex d s full iso g (T0 & T) Hh Hf (num & Hn & ->) (Gd & (o1 & G1 & P1) & (o2 & G2 & P2) & (o3 & G3 & P3)).
  set (base := (prefix ++ t) ++ $"-" ++ num ++ $"-g" ++ hex).
  assert (Eb : (prefix ++ t) ++ $"-" ++ num ++ $"-g" ++ hex ++ dirt d = base ++ dirt d) by (unfold base; rewrite <- !app_assoc; reflexivity).
  rewrite Eb in P1. unfold git_pieces_from_vcs. rewrite Gd, G1, G2, G3. cbn [negb].
  assert (EB : base = ((prefix ++ t) ++ $"-" ++ num ++ $"-g") ++ hex) by (unfold base; rewrite <- !app_assoc; reflexivity).
  assert (LB : forall s' c, base = s' ++ [c] -> hex_char c). { intros s' c E. rewrite EB in E. exact (hex_last _ _ _ _ Hh E). }
  assert (TR : trimmed (base ++ dirt d)).
  { rewrite EB. apply dirt_trimmed; [exact Hh|]. intros c s' E. destruct (prefix ++ t) as [|x l]; [contradiction|]. injection E as <- _. now inversion_clear T. }
  rewrite (strip_padded _ _ P1 TR), (strip_padded _ _ P2 (hex_trimmed _ Hf)), (iso_ok _ _ P3).
  destruct (dirty_ok base d) as [D1 D2]. { intros s' c E. apply (hex_not c). exact (LB s' c E). }
  rewrite D1, D2. assert (C : contains "-" base = true). { apply contains_iff. unfold base. apply in_or_app. right. now left. }
  rewrite C. assert (RD : re_describe base = Some (prefix ++ t, num, hex)).
  { apply re_describe_iff. split; [exact T0|]. split.
    - intros I. rewrite Forall_forall in T. apply (T _ I). vm_compute. auto.
    - exists ($"-" ++ num ++ $"-g" ++ hex). split; [reflexivity|]. exists []. split; [now left|]. rewrite app_nil_r. destruct Hn as (N0 & N1 & _). auto. }
  rewrite RD, startswith_app. rewrite skipn_app, skipn_all, Nat.sub_diag, int_value. destruct Hn as (_ & _ & -> & _). reflexivity.
Qed.
Print Assumptions C67_parse.

(** Without a tag, HEX[-dirty]: the short hash is the first seven digits of HEAD, the distance the number of commits. *)
Theorem C67_untagged :
  forall prefix n num hex d full iso g,
    hexadecimal hex -> hexadecimal full -> numeral num n -> g_count g = Some num -> answers g (hex ++ dirt d) full iso ->
    git_pieces_from_vcs prefix g = VOk (mkPieces full (firstn 7 full) None d None n (Some iso)).
Proof.
  intros prefix n num hex d full iso g Hh Hf (N0 & N1 & N2 & _) Gc (Gd & (o1 & G1 & P1) & (o2 & G2 & P2) & (o3 & G3 & P3)).
  unfold git_pieces_from_vcs. rewrite Gd, G1, G2, G3, Gc. cbn [negb].
  assert (TR : trimmed (hex ++ dirt d)). { apply (dirt_trimmed [] hex d Hh). intros c s' E. destruct Hh as [_ Hh]. cbn in E. subst hex. inversion_clear Hh as [|? ? Hc _]. apply (hex_not c Hc). }
  rewrite (strip_padded _ _ P1 TR), (strip_padded _ _ P2 (hex_trimmed _ Hf)), (iso_ok _ _ P3).
  destruct (dirty_ok hex d) as [D1 D2]. { intros s' c E. apply (hex_not c). exact (hex_last [] hex s' c Hh E). }
  rewrite D1, D2. replace (contains "-" hex) with false by (symmetry; apply contains_false, hexes_no; [apply Hh|auto]).
  replace (forallb is_digit num) with true by (symmetry; apply forallb_forall; intros c I; rewrite Forall_forall in N1; apply digit_iff; auto).
  destruct num as [|c num]; [contradiction|]. cbn [List.length Nat.eqb negb andb]. rewrite int_value, N2. reflexivity.
Qed.
Print Assumptions C67_untagged.

(** Anything else with a hyphen is reported: version "unknown", the message quotes git's output, in every style. *)
Theorem C67_unparseable :
  forall prefix s d base full iso g style,
    trimmed s -> s = base ++ dirt d -> (d = false -> forall r, s <> r ++ $"-dirty") -> In "-"%char base ->
    (forall t num hex e, t <> [] -> ~ In newline t -> num <> [] -> Forall digit_char num -> hexadecimal hex -> e = [] \/ e = [newline] ->
       base <> t ++ $"-" ++ num ++ $"-g" ++ hex ++ e) ->
    hexadecimal full -> answers g s full iso ->
    exists p, git_pieces_from_vcs prefix g = VOk p /\
      render p style = VOk (mkInfo $"unknown" (Some full) None (Some ($"unable to parse git-describe output: '" ++ s ++ $"'")) None).
Proof.
  intros prefix s d base full iso g style TR Es Hd Hy No Hf (Gd & (o1 & G1 & P1) & (o2 & G2 & P2) & _).
  unfold git_pieces_from_vcs. rewrite Gd, G1, G2. cbn [negb]. rewrite (strip_padded _ _ P1 TR), (strip_padded _ _ P2 (hex_trimmed _ Hf)).
  assert (X : endswith $"-dirty" s = d /\ (if d then match rindex $"-dirty" s with Some i => firstn i s | None => s end else s) = base).
  { rewrite Es. destruct d; unfold dirt.
    - split; [apply endswith_iff; now exists base|]. rewrite rindex_suffix by discriminate. rewrite firstn_app, firstn_all, Nat.sub_diag. now rewrite app_nil_r.
    - rewrite app_nil_r. split; [|reflexivity]. destruct (endswith _ base) eqn:E; [|reflexivity]. apply endswith_iff in E. destruct E as (r & E). exfalso. apply (Hd eq_refl r). rewrite Es. unfold dirt. now rewrite app_nil_r. }
  destruct X as [X1 X2]. rewrite X1, X2. rewrite (proj2 (contains_iff _ _) Hy).
  destruct (re_describe base) as [[[t num] hex]|] eqn:R.
  - exfalso. apply re_describe_iff in R. destruct R as (T0 & TN & T & -> & (e & F & -> & N0 & N1 & H)). exact (No t num hex e T0 TN N0 N1 H F eq_refl).
  - eexists. split; [reflexivity|]. reflexivity.
Qed.
Print Assumptions C67_unparseable.

(** A tag outside the prefix is reported too. *)
Theorem C67_wrong_prefix :
  forall prefix tag n hex d s full iso g style,
    a_tag tag -> (forall t, tag <> prefix ++ t) -> hexadecimal hex -> hexadecimal full -> describes s tag n hex d -> answers g s full iso ->
    exists p, git_pieces_from_vcs prefix g = VOk p /\
      render p style = VOk (mkInfo $"unknown" (Some full) None (Some ($"tag '" ++ tag ++ $"' doesn't start with prefix '" ++ prefix ++ $"'")) None).
Proof.
  intros prefix tag n hex d s full iso g style Ht Np Hh Hf Hs Ha.
  pose proof (C67_parse [] tag n hex d s full iso g Ht Hh Hf Hs Ha) as P.
  unfold git_pieces_from_vcs in *. destruct (negb (g_dir g)); [discriminate|]. destruct (g_describe g) as [out|]; [|discriminate]. destruct (g_head g) as [fo|]; [|discriminate].
  set (dd := endswith $"-dirty" (strip out)) in *. set (gd := if dd then _ else _) in *. destruct (contains "-" gd); [|destruct (g_count g) as [cc|]; [destruct (forallb is_digit cc && _)|]; try discriminate; destruct (g_date g); discriminate].
  destruct (re_describe gd) as [[[ft num] hx]|]; [|discriminate]. cbn [startswith List.length skipn] in P. destruct (g_date g) as [dt|]; [|discriminate].
  injection P as -> _ _ -> _ _. replace (startswith prefix tag) with false; [eexists; split; reflexivity|].
  symmetry. destruct (startswith prefix tag) eqn:E; [|reflexivity]. apply startswith_iff in E. destruct E as (t & E). now contradiction (Np t).
Qed.
Print Assumptions C67_wrong_prefix.

(** ** Rendering *)
Definition tagged (p : pieces) (t : str) (n : N) (hex : str) (d : bool) : Prop :=
  p_error p = None /\ p_tag p = Some t /\ t <> [] /\ p_distance p = n /\ p_short p = hex /\ p_dirty p = d.
Lemma truthy p t n hex d : tagged p t n hex d -> truthy_tag p = Some t /\ p_distance p = n /\ p_short p = hex /\ p_dirty p = d.
Proof. intros (_ & E & T0 & A & B & C). unfold truthy_tag. rewrite E. destruct t; [contradiction|auto]. Qed.
Lemma separator_ok t : separator t (plus_or_dot t).
Proof. unfold separator, plus_or_dot. destruct (contains "+" t) eqn:E; [left; split; [now apply contains_iff|reflexivity]|right; split; [now apply contains_false|reflexivity]]. Qed.
Lemma exact_flag n d : nonzero n || d = negb (andb (n =? 0)%N (negb d)).
Proof. unfold nonzero. destruct (n =? 0)%N, d; reflexivity. Qed.

(** The six styles; None, "" and "default" mean pep440; any other style is refused. *)
Theorem C67_styles :
  forall p t n hex d, tagged p t n hex d ->
    let exact := andb (n =? 0)%N (negb d) in
    (forall style, In style [None; Some []; Some $"default"; Some $"pep440"] ->
       exists v, render p style = VOk (mkInfo v (Some (p_long p)) (Some d) None (p_date p)) /\ pep440_of t n hex d v) /\
    (exists v, render p (Some $"pep440-pre") = VOk (mkInfo v (Some (p_long p)) (Some d) None (p_date p)) /\
       (n = 0%N -> v = t) /\ (n <> 0%N -> exists num, numeral num n /\ v = t ++ $".post.dev" ++ num)) /\
    (exists v, render p (Some $"pep440-post") = VOk (mkInfo v (Some (p_long p)) (Some d) None (p_date p)) /\
       if exact then v = t else exists sep num, separator t sep /\ numeral num n /\ v = t ++ $".post" ++ num ++ (if d then $".dev0" else []) ++ sep ++ $"g" ++ hex) /\
    (exists v, render p (Some $"pep440-old") = VOk (mkInfo v (Some (p_long p)) (Some d) None (p_date p)) /\
       if exact then v = t else exists num, numeral num n /\ v = t ++ $".post" ++ num ++ (if d then $".dev0" else [])) /\
    (exists v, render p (Some $"git-describe") = VOk (mkInfo v (Some (p_long p)) (Some d) None (p_date p)) /\
       (n = 0%N -> v = t ++ dirt d) /\ (n <> 0%N -> describes v t n hex d)) /\
    (exists v, render p (Some $"git-describe-long") = VOk (mkInfo v (Some (p_long p)) (Some d) None (p_date p)) /\ describes v t n hex d) /\
    (forall style, ~ In style [[]; $"default"; $"pep440"; $"pep440-pre"; $"pep440-post"; $"pep440-old"; $"git-describe"; $"git-describe-long"] ->
       render p (Some style) = VErr ValueError).
Proof.
  intros p t n hex d H exact. destruct (truthy _ _ _ _ _ H) as (T & En & Eh & Ed). destruct H as (Ee & _). unfold exact.
  unfold render. rewrite Ee, Ed. split; [|split; [|split; [|split; [|split; [|split]]]]].
  - intros style I. exists (render_pep440 p). assert (R : pep440_of t n hex d (render_pep440 p)).
    { unfold render_pep440, pep440_of. rewrite T, En, Eh, Ed, exact_flag. destruct (andb _ _); cbn [negb]; [reflexivity|].
      exists (plus_or_dot t), (dec n). split; [apply separator_ok|]. split; [apply dec_numeral|]. rewrite <- ?app_assoc. reflexivity. }
    split; [|exact R]. destruct I as [<-|[<-|[<-|[<-|[]]]]]; reflexivity.
  - exists (render_pep440_pre p). split; [reflexivity|]. unfold render_pep440_pre, nonzero. rewrite T, En. split; intros Hz.
    + rewrite Hz. reflexivity.
    + destruct (N.eqb_spec n 0); [contradiction|]. cbn [negb]. exists (dec n). split; [apply dec_numeral|reflexivity].
  - exists (render_pep440_post p). split; [reflexivity|]. unfold render_pep440_post. rewrite T, En, Eh, Ed, exact_flag. destruct (andb _ _); cbn [negb]; [reflexivity|].
    exists (plus_or_dot t), (dec n). split; [apply separator_ok|]. split; [apply dec_numeral|reflexivity].
  - exists (render_pep440_old p). split; [reflexivity|]. unfold render_pep440_old. rewrite T, En, Ed, exact_flag. destruct (andb _ _); cbn [negb]; [reflexivity|].
    exists (dec n). split; [apply dec_numeral|reflexivity].
  - exists (render_git_describe p). split; [reflexivity|]. unfold render_git_describe, nonzero. rewrite T, En, Eh, Ed. split; intros Hz.
    + rewrite Hz. reflexivity.
    + destruct (N.eqb_spec n 0); [contradiction|]. cbn [negb]. exists (dec n). split; [apply dec_numeral|]. unfold dirt. rewrite <- !app_assoc. reflexivity.
  - exists (render_git_describe_long p). split; [reflexivity|]. unfold render_git_describe_long. rewrite T, En, Eh, Ed. exists (dec n). split; [apply dec_numeral|]. unfold dirt. rewrite <- !app_assoc. reflexivity.
  - intros style No. assert (NE : forall x, In x [[]; $"default"; $"pep440"; $"pep440-pre"; $"pep440-post"; $"pep440-old"; $"git-describe"; $"git-describe-long"] -> seqb style x = false).
    { intros x I. apply seqb_neq. intros ->. contradiction. }
    rewrite (NE []), (NE $"default") by (cbn [In]; auto 10). cbn [orb].
    rewrite (NE $"pep440"), (NE $"pep440-pre"), (NE $"pep440-post"), (NE $"pep440-old"), (NE $"git-describe"), (NE $"git-describe-long") by (cbn [In]; auto 10). reflexivity.
Qed.
Print Assumptions C67_styles.

(** No tag: "0+untagged.N.gHEX[.dirty]" and its variants. *)
Theorem C67_untagged_styles :
  forall p n hex d, p_error p = None -> p_tag p = None \/ p_tag p = Some [] -> p_distance p = n -> p_short p = hex -> p_dirty p = d ->
    exists num, numeral num n /\
    (forall style, In style [None; Some []; Some $"default"; Some $"pep440"] ->
       render p style = VOk (mkInfo ($"0+untagged." ++ num ++ $".g" ++ hex ++ (if d then $".dirty" else [])) (Some (p_long p)) (Some d) None (p_date p))) /\
    render p (Some $"pep440-pre") = VOk (mkInfo ($"0.post.dev" ++ num) (Some (p_long p)) (Some d) None (p_date p)) /\
    render p (Some $"pep440-post") = VOk (mkInfo ($"0.post" ++ num ++ (if d then $".dev0" else []) ++ $"+g" ++ hex) (Some (p_long p)) (Some d) None (p_date p)) /\
    render p (Some $"pep440-old") = VOk (mkInfo ($"0.post" ++ num ++ (if d then $".dev0" else [])) (Some (p_long p)) (Some d) None (p_date p)) /\
    render p (Some $"git-describe") = VOk (mkInfo (hex ++ dirt d) (Some (p_long p)) (Some d) None (p_date p)) /\
    render p (Some $"git-describe-long") = VOk (mkInfo (hex ++ dirt d) (Some (p_long p)) (Some d) None (p_date p)).
Proof.
  intros p n hex d Ee Et En Eh Ed. assert (T : truthy_tag p = None) by (unfold truthy_tag; destruct Et as [->| ->]; reflexivity).
  exists (dec n). split; [apply dec_numeral|]. subst n hex d. unfold render. rewrite Ee.
  split; [intros style I|]; [destruct I as [<-|[<-|[<-|[<-|[]]]]]|];
    unfold render_pep440, render_pep440_pre, render_pep440_post, render_pep440_old, render_git_describe, render_git_describe_long, dirt; rewrite T; repeat split; reflexivity.
Qed.
Print Assumptions C67_untagged_styles.

(** ** What can be read off a PEP 440 version *)
Lemma occurs_digits c s : Forall digit_char s -> c = "-"%char \/ c = "."%char \/ c = "+"%char -> occurs c s = 0%nat.
Proof. intros. now apply occurs_none, digits_no. Qed.
Lemma dec_digits n : Forall digit_char (dec n). Proof. apply dec_numeral. Qed.
(** Exactly one "+" separates the local part if the tag had none; otherwise none is added. *)
Theorem C67_pep440_one_plus :
  forall t n hex d v, hexadecimal hex -> pep440_of t n hex d v ->
    v = t \/ occurs "+" v = Nat.max 1 (occurs "+" t).
Proof.
  intros t n hex d v [_ Hh]. unfold pep440_of. destruct (andb _ _); [now left|]. intros (sep & num & Hs & (_ & Hn & _) & ->). right. rewrite !occurs_app.
  rewrite (occurs_digits _ num Hn) by auto. rewrite (occurs_none _ hex) by (apply hexes_no; auto). replace (occurs "+" $".g") with 0%nat by reflexivity.
  destruct Hs as [[I ->]|[I ->]].
  - assert (occurs "+" t > 0)%nat by (unfold occurs; now apply count_occ_In). change (occurs "+" $".") with 0%nat.
    destruct d; [change (occurs "+" $".dirty") with 0%nat|change (occurs "+" []) with 0%nat]; lia.
  - rewrite (occurs_none _ t I). destruct d; reflexivity.
Qed.
Print Assumptions C67_pep440_one_plus.

Lemma split_at (c : ascii) a b a' b' : ~ In c a -> ~ In c a' -> a ++ c :: b = a' ++ c :: b' -> a = a' /\ b = b'.
Proof.
  revert a'. induction a as [|x a IH]; intros a' Ha Ha' E; destruct a' as [|x' a']; cbn [app] in E.
  - injection E as ->. auto.
  - injection E as -> _. exfalso. apply Ha'. now left.
  - injection E as -> _. exfalso. apply Ha. now left.
  - injection E as -> E. destruct (IH a') as [-> ->]; auto; [intros I; apply Ha; now right|intros I; apply Ha'; now right].
Qed.
(** For one tag, different states of the tree have different versions: the distance and the dirty flag can be read off, and so
    can the hash unless the tree is exactly at the tag. *)
Theorem C67_pep440_injective :
  forall t n hex d v n' hex' d', hexadecimal hex -> hexadecimal hex' ->
    pep440_of t n hex d v -> pep440_of t n' hex' d' v ->
    n = n' /\ d = d' /\ (hex = hex' \/ (n = 0%N /\ d = false)).
Proof.
  intros t n hex d v n' hex' d' Hh Hh'. unfold pep440_of.
  assert (NX : forall sep num h (dd : bool), t <> t ++ sep ++ num ++ $".g" ++ h ++ (if dd then $".dirty" else [])).
  { intros sep num h dd E. rewrite <- (app_nil_r t) in E at 1. apply app_inv_head in E. destruct sep, num; discriminate. }
  destruct (N.eqb_spec n 0) as [Z|Z], (N.eqb_spec n' 0) as [Z'|Z'], d, d'; cbn [andb negb]; intros A B; subst;
    try (split; [reflexivity|split; [reflexivity|right; split; reflexivity]]);
    try (destruct B as (sep & num & _ & _ & B); exfalso; first [exact (NX sep num _ true B)|exact (NX sep num _ false B)]);
    try (destruct A as (sep & num & _ & _ & A); exfalso; first [exact (NX sep num _ true A)|exact (NX sep num _ false A)]).
  all: destruct A as (sep & num & S & Hn & ->); destruct B as (sep' & num' & S' & Hn' & E).
  all: assert (sep = sep') as <- by (destruct S as [[? ->]|[? ->]], S' as [[? ->]|[? ->]]; try contradiction; reflexivity).
  all: apply app_inv_head, app_inv_head in E; change $".g" with ("."%char :: $"g") in E; cbn [app] in E.
  all: destruct (split_at "." _ _ _ _ (digits_no "."%char _ (proj1 (proj2 Hn)) (or_intror (or_introl eq_refl))) (digits_no "."%char _ (proj1 (proj2 Hn')) (or_intror (or_introl eq_refl))) E) as [En E2]; subst num'.
  all: destruct Hn as (_ & _ & Vn & _), Hn' as (_ & _ & Vn' & _); rewrite Vn in Vn'; try (exfalso; congruence); subst.
  all: injection E2 as E2; rewrite ?app_nil_r in E2.
  all: try (split; [reflexivity|]; split; [reflexivity|left]; exact E2).
  all: assert (ND : ~ In "."%char hex /\ ~ In "."%char hex') by (split; apply hexes_no; auto; [apply Hh|apply Hh']).
  all: destruct ND as [ND ND'].
  all: try (split; [reflexivity|]; split; [reflexivity|left]; apply app_inv_tail in E2; exact E2).
  all: exfalso; first [apply ND; rewrite E2; apply in_or_app; right; now left|apply ND'; rewrite <- E2; apply in_or_app; right; now left].
Qed.
Print Assumptions C67_pep440_injective.

(** Reading git's description and writing it in style git-describe-long gives it back. *)
Theorem C67_round_trip :
  forall t n hex d s full iso g, a_tag t -> hexadecimal hex -> hexadecimal full -> describes s t n hex d -> answers g s full iso ->
    exists p, git_pieces_from_vcs [] g = VOk p /\ render p (Some $"git-describe-long") = VOk (mkInfo s (Some full) (Some d) None (Some iso)).
Proof.
  intros t n hex d s full iso g Ht Hh Hf Hs Ha. exists (mkPieces full hex None d (Some t) n (Some iso)). split; [exact (C67_parse [] t n hex d s full iso g Ht Hh Hf Hs Ha)|].
  destruct (C67_styles (mkPieces full hex None d (Some t) n (Some iso)) t n hex d) as (_ & _ & _ & _ & _ & (v & E & D) & _); [repeat split; auto; apply Ht|].
  rewrite E. cbn [p_long p_date]. repeat f_equal. destruct Hs as (num & Hn & ->), D as (num' & Hn' & ->). now rewrite (numeral_unique _ _ _ Hn Hn').
Qed.
Print Assumptions C67_round_trip.
