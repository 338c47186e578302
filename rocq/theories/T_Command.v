(** C88: the commands _version.py runs.  C89: the keywords it reads from a file. *)
From Verif Require Import S_Command L_Version L_Command T_Version T_Version2.
Local Open Scope list_scope.

(** ** C88 run_command *)
(** The names are tried in order until one exists.  The first that exists is the only one started; its output, decoded and
    stripped, is returned when it exits with status 0, and only its status otherwise.  If none exists, or starting it fails
    otherwise, both results are None.  Undecodable output raises, whatever the status. *)
Theorem C88_run_command :
  forall w commands args dir,
    (forall c1 c c2, commands = c1 ++ c :: c2 -> (forall p, In p c1 -> w (p :: args) dir = Absent) ->
       let started := map (fun p => (p :: args, dir)) (c1 ++ [c]) in
       (w (c :: args) dir = Refused -> run_command w commands args dir = (VOk (None, None), started)) /\
       (forall out rc s, w (c :: args) dir = Ran out rc -> prints out s ->
          run_command w commands args dir = (VOk (if (rc =? 0)%Z then Some s else None, Some rc), started)) /\
       (forall out rc, w (c :: args) dir = Ran out rc -> (forall s, ~ prints out s) -> run_command w commands args dir = (VErr ValueError, started))) /\
    ((forall p, In p commands -> w (p :: args) dir = Absent) -> run_command w commands args dir = (VOk (None, None), map (fun p => (p :: args, dir)) commands)).
Proof.
  intros w commands args dir. split.
  - intros c1 c c2 -> H. cbv zeta. induction c1 as [|p c1 IH]; cbn [app run_command map].
    + split; [intros ->; reflexivity|]. split.
      * intros out rc s -> Hp. apply prints_iff in Hp. rewrite Hp. reflexivity.
      * intros out rc -> Hp. destruct (utf8 (strip_by is_ascii_space out)) as [s|] eqn:E; [|reflexivity]. exfalso. apply (Hp s). now apply prints_iff.
    + rewrite (H p (or_introl eq_refl)). destruct (IH (fun q Hq => H q (or_intror Hq))) as (A & B & D). split; [|split].
      * intros X. now rewrite (A X).
      * intros out rc s X Y. now rewrite (B out rc s X Y).
      * intros out rc X Y. now rewrite (D out rc X Y).
  - induction commands as [|p l IH]; intros H; [reflexivity|]. cbn [run_command map]. rewrite (H p (or_introl eq_refl)). rewrite IH by (intros; apply H; now right). reflexivity.
Qed.
Print Assumptions C88_run_command.
(** A text and its UTF-8 bytes determine each other, so [prints] gives at most one text. *)
Theorem C88_output_unique : forall out s s', prints out s -> prints out s' -> s = s'.
Proof. intros out s s' H H'. apply prints_iff in H, H'. congruence. Qed.
Print Assumptions C88_output_unique.

(** ** C88 git queries *)
Lemma run_reports win w args dir o : reports win w args dir o -> exists rc, fst (run_command w (gits win) args dir) = VOk (o, rc) /\ (o <> None -> rc = Some 0%Z) /\ (o = None -> rc <> Some 0%Z).
Proof.
  change (gits win) with (git_names win). destruct o as [s|]; cbn [reports].
  - intros (out & L & P). rewrite (run_launched _ _ _ _ _ L). cbn [outcome]. apply prints_iff in P. rewrite P. exists (Some 0%Z). split; [reflexivity|]. split; [reflexivity|discriminate].
  - intros (x & L & H). rewrite (run_launched _ _ _ _ _ L). destruct H as [->|[->|(out & rc & s & -> & N & P)]]; cbn [outcome].
    + exists None. split; [reflexivity|]. split; [congruence|discriminate].
    + exists None. split; [reflexivity|]. split; [congruence|discriminate].
    + apply prints_iff in P. rewrite P. destruct (Z.eqb_spec rc 0); [contradiction|]. exists (Some rc). split; [reflexivity|]. split; [congruence|intros _ [= ->]; contradiction].
Qed.
Lemma pieces_eq win w prefix dir g : answering win w prefix dir g -> fst (git_pieces_cmd win w prefix dir) = git_pieces_from_vcs prefix g.
Proof.
  intros (H0 & H1 & H2 & H3 & H4). unfold git_pieces_cmd, git_pieces_from_vcs.
  change ([$"rev-parse"; $"--git-dir"]) with q_dir. change ([$"describe"; $"--tags"; $"--dirty"; $"--always"; $"--long"; $"--match"; prefix ++ $"*"]) with (q_describe prefix).
  change ([$"rev-parse"; $"HEAD"]) with q_head. change ([$"rev-list"; $"HEAD"; $"--count"]) with q_count. change ([$"show"; $"-s"; $"--format=%ci"; $"HEAD"]) with q_date.
  assert (F0 : exists o rc, fst (run_command w (gits win) q_dir dir) = VOk (o, rc) /\ match rc with Some rc => (rc =? 0)%Z | None => false end = g_dir g).
  { destruct (g_dir g).
    - destruct H0 as (s & H0). destruct (run_reports win w q_dir dir (Some s) H0) as (rc & E & A & _). exists (Some s), rc. split; [exact E|]. rewrite A by discriminate. reflexivity.
    - destruct (run_reports win w q_dir dir None H0) as (rc & E & _ & A). exists None, rc. split; [exact E|]. destruct rc as [rc|]; [|reflexivity]. destruct (Z.eqb_spec rc 0) as [->|]; [|reflexivity]. now contradiction A. }
  destruct F0 as (o0 & rc0 & E0 & R0). rewrite bind_fst, E0. cbn [snd]. rewrite R0. destruct (g_dir g); cbn [negb]; [|reflexivity].
  destruct (run_reports _ _ _ _ _ H1) as (rc1 & E1 & _). rewrite bind_fst, E1. cbn [fst]. destruct (g_describe g) as [out|]; [|reflexivity].
  destruct (run_reports _ _ _ _ _ H2) as (rc2 & E2 & _). rewrite bind_fst, E2. cbn [fst]. destruct (g_head g) as [full|]; [|reflexivity].
  set (describe_out := strip out). set (full_out := strip full). set (dirty := endswith $"-dirty" describe_out).
  set (git_describe := if dirty then match rindex $"-dirty" describe_out with Some i => firstn i describe_out | None => describe_out end else describe_out).
  destruct (run_reports _ _ _ _ _ H4) as (rc4 & E4 & _).
  destruct (contains "-" git_describe).
  - destruct (re_describe git_describe) as [[[full_tag num] hex]|]; [|reflexivity]. destruct (startswith prefix full_tag); [|reflexivity]. rewrite bind_fst, E4. cbn [fst]. destruct (g_date g); reflexivity.
  - destruct (run_reports _ _ _ _ _ H3) as (rc3 & E3 & _). rewrite bind_fst, E3. cbn [fst]. destruct (g_count g) as [c|]; [|reflexivity].
    destruct (forallb is_digit c && negb (Nat.eqb (List.length c) 0)); [|reflexivity]. rewrite bind_fst, E4. cbn [fst]. destruct (g_date g); reflexivity.
Qed.
(** Running the commands gives what C67 derives from git's answers: for every keywords, configuration and place. *)
Theorem C88_versions_from_commands :
  forall win w kw cfg file repo, (forall dir, answering win w (c_tag_prefix cfg) dir (repo dir)) ->
    fst (versions_cmd win w kw cfg file) = versions kw cfg file repo.
Proof.
  intros win w kw cfg file repo H. unfold versions_cmd, versions. destruct (git_versions_from_keywords kw (c_tag_prefix cfg)); [reflexivity| |reflexivity]. destruct file as [f|]; [|reflexivity].
  set (root := fold_left _ _ f). rewrite <- (pieces_eq win w (c_tag_prefix cfg) root (repo root) (H root)).
  pose proof (bind_fst (git_pieces_cmd win w (c_tag_prefix cfg) root) (fun p => done (render p (Some (c_style cfg))))) as B. cbn [done fst] in B.
  destruct (bindC _ _) as [r l]. cbn [fst] in B. subst r. destruct (fst (git_pieces_cmd win w (c_tag_prefix cfg) root)) as [p| |e]; [|reflexivity|reflexivity]. destruct (render p (Some (c_style cfg))); reflexivity.
Qed.
Print Assumptions C88_versions_from_commands.
(** Whatever the commands answer, nothing but these git queries is started, each at most once per name and in this order, all in
    one directory; and nothing at all when git archive filled in the keywords or the file's place is unknown. *)
Lemma pieces_log win w prefix dir : within (snd (git_pieces_cmd win w prefix dir)) (flat_map (fun q => map (fun g => (g :: q, dir)) (git_names win)) (queries prefix)).
Proof.
  unfold git_pieces_cmd. cbn [queries flat_map]. change (gits win) with (git_names win).
  assert (R : forall q, within (snd (run_command w (git_names win) q dir)) (map (fun g => (g :: q, dir)) (git_names win))) by (intros; apply run_log).
  assert (N : forall {A} (r : vres A) m, within (snd (done r)) m) by (intros; apply within_nil_l).
  apply (bind_log (run_command w (git_names win) q_dir dir)); [apply R|]. intros o. destruct (match snd o with Some rc => (rc =? 0)%Z | None => false end); [|apply N].
  apply (bind_log (run_command w (git_names win) (q_describe prefix) dir)); [apply R|]. intros o1. destruct (fst o1); [|apply N].
  apply (bind_log (run_command w (git_names win) q_head dir)); [apply R|]. intros o2. destruct (fst o2); [|apply N]. cbv zeta.
  assert (F : forall (k : option str * option Z -> cmd pieces), (forall o, snd (k o) = []) -> within (snd (bindC (run_command w (git_names win) q_date dir) k)) (map (fun g => (g :: q_date, dir)) (git_names win) ++ [])).
  { intros k Hk. apply bind_log; [apply R|]. intros x. rewrite Hk. constructor. }
  assert (D : forall (m : cmd pieces) a b, within (snd m) b -> within (snd m) (a ++ b)) by (intros m a b Hm; exact (within_app [] a _ _ (within_nil_l a) Hm)).
  destruct (contains "-" _).
  - destruct (re_describe _) as [[[full_tag num] hex]|]; [|apply N]. destruct (startswith prefix full_tag); [|apply N]. apply D. apply F. intros x. destruct (fst x); reflexivity.
  - apply (bind_log (run_command w (git_names win) q_count dir)); [apply R|]. intros o3. destruct (fst o3); [|apply N]. destruct (forallb _ _ && _); [|apply N]. apply F. intros x. destruct (fst x); reflexivity.
Qed.
Theorem C88_only_git_queries :
  forall win w kw cfg file,
    (exists dir, within (snd (versions_cmd win w kw cfg file)) (flat_map (fun q => map (fun g => (g :: q, dir)) (git_names win)) (queries (c_tag_prefix cfg)))) /\
    (git_versions_from_keywords kw (c_tag_prefix cfg) <> NotThisMethod -> snd (versions_cmd win w kw cfg file) = []) /\
    (file = None -> snd (versions_cmd win w kw cfg file) = []).
Proof.
  intros win w kw cfg file. unfold versions_cmd. destruct (git_versions_from_keywords kw (c_tag_prefix cfg)) as [i| |e]; cbn [done snd].
  - split; [exists []; apply within_nil_l|]. auto.
  - destruct file as [f|]; cbn [done snd]; [|split; [exists []; apply within_nil_l|]; auto]. split; [|split; [congruence|discriminate]].
    set (root := fold_left _ _ f). exists root.
    assert (L : snd (bindC (git_pieces_cmd win w (c_tag_prefix cfg) root) (fun p => done (render p (Some (c_style cfg))))) = snd (git_pieces_cmd win w (c_tag_prefix cfg) root)).
    { unfold bindC. destruct (git_pieces_cmd win w (c_tag_prefix cfg) root) as [[p| |e] l]; cbn [snd done]; [apply app_nil_r|reflexivity|reflexivity]. }
    pose proof (pieces_log win w (c_tag_prefix cfg) root) as P. rewrite <- L in P. destruct (bindC _ _) as [[i| |e] l]; exact P.
  - split; [exists []; apply within_nil_l|]. auto.
Qed.
Print Assumptions C88_only_git_queries.
(** In this repository, at DIR/pyotf/_version.py (DIR "" is the root): from git's printed answers to the version, with exactly the
    four commands run.  Without git, or outside a working tree, one command and "0+unknown". *)
Lemma run_answered w q dir s : answered false w q dir s -> run_command w (gits false) q dir = (VOk (Some s, Some 0%Z), [($"git" :: q, dir)]).
Proof.
  intros (out & L & P). apply prints_iff in P. unfold git_names in L. inversion L as [|c names x H H0|c names x H H0]; subst.
  - inversion H0.
  - change (w ($"git" :: q) dir = Ran out 0) in H. cbn [gits run_command]. rewrite H, P. reflexivity.
Qed.
Theorem C88_get_versions :
  forall r c1 c2 w t n hex d s full when iso, directory r -> component c1 -> component c2 ->
    let dir := match r with [] => $"/" | _ => r end in
    let file := Some ((r ++ $"/" ++ c1) ++ $"/" ++ c2) in
    (a_tag t -> hexadecimal hex -> hexadecimal full -> describes s t n hex d -> dated when iso ->
     (exists x, answered false w q_dir dir x) -> answered false w (q_describe []) dir s -> answered false w q_head dir full -> answered false w q_date dir when ->
     exists v, get_versions_cmd false w file =
       (VOk (mkInfo v (Some full) (Some d) None (Some iso)), map (fun q => ($"git" :: q, dir)) [q_dir; q_describe []; q_head; q_date]) /\ pep440_of t n hex d v) /\
    (failing false w q_dir dir ->
     get_versions_cmd false w file = (VOk (mkInfo $"0+unknown" None None (Some $"unable to compute version") None), [($"git" :: q_dir, dir)])).
Proof.
  intros r c1 c2 w t n hex d s full when iso Hr H1 H2 dir file.
  assert (RT : get_versions_cmd false w file =
     match bindC (git_pieces_cmd false w [] dir) (fun p => done (render p (Some $"pep440"))) with
     | (VOk i, l) => (VOk i, l) | (VErr e, l) => (VErr e, l)
     | (NotThisMethod, l) => (VOk (mkInfo $"0+unknown" None None (Some $"unable to compute version") None), l) end).
  { unfold get_versions_cmd, versions_cmd, file. change (git_versions_from_keywords get_keywords (c_tag_prefix get_config)) with (@NotThisMethod info). cbn match.
    change (split "/" (c_source get_config)) with [$"pyotf"; $"_version.py"]. cbn [fold_left]. rewrite (dirname_ok _ c2 (directory_app _ _ H1) H2), (or_root_app _ _ H1), (dirname_ok _ c1 Hr H1). reflexivity. }
  rewrite RT. split.
  - intros Ht Hh Hf Hs Hd (x & A0) A1 A2 A4. set (g := mkGit true (Some s) (Some full) None (Some when)).
    assert (Ag : answers g s full iso).
    { split; [reflexivity|]. split; [exists s; split; [reflexivity|]; exists [], []; now rewrite app_nil_r|]. split; [exists full; split; [reflexivity|]; exists [], []; now rewrite app_nil_r|]. exists when. auto. }
    pose proof (C67_parse [] t n hex d s full iso g Ht Hh Hf Hs Ag) as Pg.
    assert (PC : git_pieces_cmd false w [] dir = (VOk (mkPieces full hex None d (Some t) n (Some iso)), map (fun q => ($"git" :: q, dir)) [q_dir; q_describe []; q_head; q_date])).
    { unfold git_pieces_cmd. change ([$"rev-parse"; $"--git-dir"]) with q_dir. change ([$"describe"; $"--tags"; $"--dirty"; $"--always"; $"--long"; $"--match"; [] ++ $"*"]) with (q_describe []).
      change ([$"rev-parse"; $"HEAD"]) with q_head. change ([$"rev-list"; $"HEAD"; $"--count"]) with q_count. change ([$"show"; $"-s"; $"--format=%ci"; $"HEAD"]) with q_date.
      rewrite (run_answered _ _ _ _ A0), (run_answered _ _ _ _ A1), (run_answered _ _ _ _ A2), (run_answered _ _ _ _ A4).
      unfold git_pieces_from_vcs in Pg. cbn [g g_dir g_describe g_head g_count g_date negb] in Pg. cbv zeta in Pg. cbn [bindC snd fst]. change (0 =? 0)%Z with true. cbv iota. cbn [bindC fst]. cbv zeta.
      destruct (contains "-" _); [|discriminate Pg]. destruct (re_describe _) as [[[ft num] hx]|]; [|discriminate Pg]. destruct (startswith [] ft); [|discriminate Pg].
      cbn [bindC fst done app map]. rewrite Pg. reflexivity. }
    rewrite PC. destruct (C67_styles (mkPieces full hex None d (Some t) n (Some iso)) t n hex d) as (S & _); [repeat split; auto; apply Ht|].
    destruct (S (Some $"pep440") ltac:(cbn [In]; auto)) as (v & E & P). exists v. split; [|exact P]. cbn [bindC]. unfold done. cbn [p_long p_dirty p_date] in E. rewrite E. rewrite app_nil_r. reflexivity.
  - intros Hf. destruct (run_reports false w q_dir dir None Hf) as (rc & E & _ & A).
    assert (L : snd (run_command w (gits false) q_dir dir) = [($"git" :: q_dir, dir)]) by (cbn [gits run_command]; destruct (w ($"git" :: q_dir) dir); reflexivity).
    unfold git_pieces_cmd. change ([$"rev-parse"; $"--git-dir"]) with q_dir. destruct (run_command w (gits false) q_dir dir) as [res l]. cbn [fst snd] in E, L. subst res l. cbn [bindC snd].
    assert (Z0 : match rc with Some rc => (rc =? 0)%Z | None => false end = false). { destruct rc as [rc|]; [|reflexivity]. destruct (Z.eqb_spec rc 0) as [->|]; [|reflexivity]. now contradiction A. }
    rewrite Z0. reflexivity.
Qed.
Print Assumptions C88_get_versions.
(** Such a world: git prints with a final newline. *)
Example commands_witness : exists w, (exists x, answered false w q_dir $"/src" x) /\ answered false w (q_describe []) $"/src" $"0.1-3-gab12" /\
  answered false w q_head $"/src" $"ab12ff" /\ answered false w q_date $"/src" $"2020-01-02 03:04:05 +0100" /\ describes $"0.1-3-gab12" $"0.1" 3 $"ab12" false.
Proof.
  set (say := fun t => Ran (t ++ [newline]) 0).
  exists (fun argv _ => if list_eq_dec (list_eq_dec ascii_dec) argv ($"git" :: q_dir) then say $".git" else if list_eq_dec (list_eq_dec ascii_dec) argv ($"git" :: q_describe []) then say $"0.1-3-gab12"
     else if list_eq_dec (list_eq_dec ascii_dec) argv ($"git" :: q_head) then say $"ab12ff" else say $"2020-01-02 03:04:05 +0100").
  assert (G : forall w q t, w ($"git" :: q) $"/src" = say t -> utf8 (strip_by is_ascii_space (t ++ [newline])) = Some t -> answered false w q $"/src" t).
  { intros w q t E P. exists (t ++ [newline]). split; [constructor 3; [exact E|discriminate]|]. now apply prints_iff. }
  split; [exists $".git"; apply G; [reflexivity|reflexivity]|]. split; [apply G; [reflexivity|reflexivity]|]. split; [apply G; [reflexivity|reflexivity]|]. split; [apply G; [reflexivity|reflexivity]|].
  exists $"3". split; [|reflexivity]. split; [discriminate|]. split; [constructor; [now apply digit_iff|constructor]|]. split; [reflexivity|]. intros s' E. discriminate E.
Qed.

(** ** C89 the keywords in the file *)
Lemma one_line_no_cr l : one_line l -> forall s, universal (l ++ s) = l ++ universal s.
Proof.
  intros [_ H] s. induction l as [|c l IH]; [reflexivity|]. cbn [app universal]. destruct (Ascii.eqb_spec c carriage) as [->|]; [exfalso; apply H; now left|]. f_equal. apply IH. intros I. apply H. now right.
Qed.
Lemma readlines_line l : one_line l -> forall s, readlines (l ++ newline :: s) = (l ++ [newline]) :: readlines s.
Proof.
  intros [H _] s. induction l as [|c l IH]; [cbn [app readlines]; now rewrite Ascii.eqb_refl|]. cbn [app readlines]. destruct (Ascii.eqb_spec c newline) as [->|]; [exfalso; apply H; now left|]. rewrite IH; [reflexivity|]. intros I. apply H. now right.
Qed.
Lemma readlines_last l : one_line l -> l <> [] -> readlines l = [l].
Proof.
  intros [H _] N. induction l as [|c l IH]; [contradiction|]. cbn [readlines]. destruct (Ascii.eqb_spec c newline) as [->|]; [exfalso; apply H; now left|].
  destruct l as [|c' l]; [reflexivity|]. rewrite IH; [reflexivity| |discriminate]. intros I. apply H. now right.
Qed.
(** a line as readlines gives it *)
Definition reads (l l' : str) : Prop := one_line l /\ (l' = l \/ l' = l ++ [newline]).
Lemma file_read ls text : file_of ls text -> Forall2 reads ls (readlines (universal text)).
Proof.
  induction 1 as [|l O N|l e ls text O E NC F IH].
  - constructor.
  - rewrite <- (app_nil_r l) at 2. rewrite one_line_no_cr by exact O. cbn [universal]. rewrite app_nil_r, readlines_last by assumption. constructor; [split; [exact O|now left]|constructor].
  - rewrite one_line_no_cr by exact O. assert (U : universal (e ++ text) = newline :: universal text).
    { destruct E as [-> | [-> | ->]].
      - reflexivity.
      - reflexivity.
      - specialize (NC eq_refl). cbn [app universal]. change (Ascii.eqb carriage carriage) with true. cbv iota. destruct text as [|c t]; [reflexivity|]. destruct (Ascii.eqb_spec c newline) as [->|]; [now contradiction (NC t)|reflexivity]. }
    rewrite U, readlines_line by exact O. constructor; [split; [exact O|now right]|exact IH].
Qed.
Lemma name_plain name : In name names -> Forall (fun c => ~ blank c /\ c <> "="%char /\ c <> newline) name /\ name <> [].
Proof.
  intros I. cbn [In names] in I.
  assert (D : forall c, negb (is_space c) && negb (Ascii.eqb c "=") && negb (Ascii.eqb c newline) = true -> ~ blank c /\ c <> "="%char /\ c <> newline).
  { intros c H. apply andb_true_iff in H. destruct H as [H H3]. apply andb_true_iff in H. destruct H as [H1 H2]. rewrite blank_iff. repeat split; intros X; [now rewrite X in H1|subst; discriminate|subst; discriminate]. }
  destruct I as [<-|[<-|[<-|[]]]]; (split; [|discriminate]); repeat (constructor; [apply D; reflexivity|]); constructor.
Qed.
Lemma startswith_self_app p s : startswith p (p ++ s) = true. Proof. apply startswith_app. Qed.
Lemma mentions_iff l l' name : In name names -> reads l l' -> (startswith (name ++ $" =") (strip l') = true <-> mentions l name).
Proof.
  intros I [O R]. destruct (name_plain name I) as [Pl N0]. split.
  - intros S. apply startswith_iff in S. destruct S as (q & Eq). destruct (strip_split is_space l') as (w1 & w2 & H1 & H2 & E & _). fold (strip l') in E. rewrite Eq in E.
    exists w1. destruct R as [->|R]; [|subst l'].
    + exists (q ++ w2). split; [eapply Forall_impl; [|exact H1]; intros c; apply blank_iff|]. rewrite E at 1. now rewrite <- !app_assoc.
    + destruct (nil_or_last (q ++ w2)) as [Z|(t & a & Z)].
      * exfalso. rewrite <- !app_assoc in E. rewrite Z, app_nil_r in E. rewrite app_assoc in E. change ($" =") with ([" "%char] ++ ["="%char]) in E. rewrite app_assoc in E. apply app_inj_tail in E. destruct E as [_ E]. discriminate E.
      * exists t. split; [eapply Forall_impl; [|exact H1]; intros c; apply blank_iff|]. rewrite <- !app_assoc in E. rewrite Z in E. rewrite !app_assoc in E. apply app_inj_tail in E. destruct E as [E _]. rewrite E. now rewrite <- !app_assoc.
  - intros (indent & rest & Hi & E).
    assert (E' : exists rest', l' = indent ++ (name ++ $" =") ++ rest'). { destruct R as [->|R]; [exists rest; rewrite E; now rewrite <- !app_assoc|]. exists (rest ++ [newline]). subst l'. rewrite E. now rewrite <- !app_assoc. }
    destruct E' as (rest' & E'). destruct (strip_split is_space rest') as (w1 & w2 & H1 & H2 & Er & A & B). fold (strip rest') in Er, A, B.
    (* l' = indent ++ (name = ++ w1 ++ strip rest') ++ w2, or only blanks after the sign *)
    assert (F1 : Forall (fun c => is_space c = true) indent) by (eapply Forall_impl; [|exact Hi]; intros c; apply blank_iff).
    assert (HD : forall X c s', (name ++ $" =") ++ X = c :: s' -> is_space c = false).
    { intros X c s' Ec. destruct name as [|a nm]; [contradiction|]. injection Ec as <- _. inversion_clear Pl. apply not_blank. tauto. }
    destruct (nil_or_last (strip rest')) as [Z|(t & a & Z)].
    + assert (S : strip l' = name ++ $" =").
      { rewrite E', Er, Z. cbn [app]. replace (indent ++ (name ++ $" =") ++ w1 ++ w2) with (indent ++ (name ++ $" =") ++ (w1 ++ w2)) by reflexivity. apply strip_by_spec; [exact F1|apply Forall_app; auto| |].
        - intros c s' Ec. apply (HD [] c s'). now rewrite app_nil_r.
        - intros s' c Ec. change ($" =") with ([" "%char] ++ ["="%char]) in Ec. rewrite app_assoc in Ec. apply app_inj_tail in Ec. destruct Ec as [_ <-]. reflexivity. }
      rewrite S. apply startswith_iff. exists []. now rewrite app_nil_r.
    + assert (S : strip l' = (name ++ $" =") ++ w1 ++ strip rest').
      { rewrite E'. rewrite Er at 1. replace (indent ++ (name ++ $" =") ++ w1 ++ strip rest' ++ w2) with (indent ++ ((name ++ $" =") ++ w1 ++ strip rest') ++ w2) by now rewrite <- !app_assoc. apply strip_by_spec; [exact F1|exact H2| |].
        - intros c s' Ec. exact (HD _ c s' Ec).
        - intros s' c Ec. rewrite Z in Ec. rewrite !app_assoc in Ec. apply app_inj_tail in Ec. destruct Ec as [_ <-]. apply (B t a). exact Z. }
      rewrite S. apply startswith_app.
Qed.
Lemma re_skip p s : Forall (fun c => c <> "="%char) p -> re_value (p ++ s) = re_value s.
Proof. induction 1 as [|c p H _ IH]; [reflexivity|]. cbn [app re_value]. destruct (Ascii.eqb_spec c "="); [contradiction|exact IH]. Qed.
Lemma last_quote v rest : ~ In quote rest -> upto_last_quote (v ++ [quote] ++ rest) = Some v.
Proof.
  intros N. unfold upto_last_quote.
  assert (G : forall k, (k <= S (List.length rest))%nat -> rindex_from [quote] (v ++ [quote] ++ rest) (List.length v + k) = Some (List.length v)).
  { induction k as [|k IH]; intros Hk.
    - rewrite Nat.add_0_r. assert (W : skipn (List.length v) (v ++ [quote] ++ rest) = quote :: rest) by (rewrite skipn_app, skipn_all, Nat.sub_diag; reflexivity).
      destruct (List.length v) eqn:E; cbn [rindex_from]; rewrite W; cbn [startswith]; rewrite Ascii.eqb_refl; reflexivity.
    - rewrite Nat.add_succ_r. cbn [rindex_from].
      assert (W : startswith [quote] (skipn (S (List.length v + k)) (v ++ [quote] ++ rest)) = false).
      { rewrite skipn_app, (skipn_all2 v) by lia. replace (S (List.length v + k) - List.length v)%nat with (S k) by lia. cbn [app skipn].
        destruct (skipn k rest) as [|c r] eqn:E; [reflexivity|]. cbn [startswith]. destruct (Ascii.eqb_spec quote c) as [<-|]; [|reflexivity]. exfalso. apply N. rewrite <- (firstn_skipn k rest), E. apply in_or_app. right. now left. }
      rewrite W. apply IH. lia. }
  unfold rindex. rewrite !app_length. cbn [List.length]. rewrite (G (1 + List.length rest)%nat) by lia. rewrite firstn_app, firstn_all, Nat.sub_diag. cbn [firstn]. now rewrite app_nil_r.
Qed.
Lemma assigns_value l l' name v : In name names -> reads l l' -> assigns l name v -> re_value l' = Some v.
Proof.
  intros I [O R] (indent & blanks & rest & Hi & Hb & Nq & E). destruct (name_plain name I) as [Pl N0].
  assert (X : exists tl, (tl = [] \/ tl = [newline]) /\ l' = (indent ++ name ++ [" "%char]) ++ "="%char :: blanks ++ quote :: (v ++ [quote] ++ rest) ++ tl).
  { destruct R as [->|R]; [exists []; split; [now left|]|exists [newline]; split; [now right|subst l']]; rewrite E; rewrite ?app_nil_r, <- !app_assoc; reflexivity. }
  destruct X as (tl & Ht & ->).
  assert (NL : Forall (fun c => negb (Ascii.eqb c newline) = true) (v ++ [quote] ++ rest)).
  { apply Forall_forall. intros c Ic. destruct (Ascii.eqb_spec c newline) as [->|]; [|reflexivity]. exfalso. destruct O as [O _]. apply O. rewrite E. rewrite !in_app_iff. rewrite !in_app_iff in Ic. tauto. }
  rewrite re_skip.
  2: { apply Forall_app. split; [|apply Forall_app; split; [|constructor; [discriminate|constructor]]].
       - eapply Forall_impl; [|exact Hi]. intros c Hc ->. apply blank_iff in Hc. discriminate Hc.
       - eapply Forall_impl; [|exact Pl]. cbv beta. tauto. }
  cbn [re_value]. rewrite Ascii.eqb_refl. rewrite drop_all by (eapply Forall_impl; [|exact Hb]; intros c; apply blank_iff). cbn [drop_while]. change (is_space quote) with false. cbv iota. rewrite Ascii.eqb_refl.
  rewrite span_app; [|exact NL|]. 2: { intros c b' ->. destruct Ht as [|Ht]; [discriminate|]. injection Ht as -> _. reflexivity. }
  cbn [fst]. rewrite last_quote by exact Nq. reflexivity.
Qed.
Lemma read_field k line name : In name names ->
  keyword (read_line k line) name = if startswith (name ++ $" =") (strip line) then match re_value line with Some v => Some v | None => keyword k name end else keyword k name.
Proof.
  intros I. unfold read_line. cbn [In names] in I.
  change ($"git_refnames =") with ($"git_refnames" ++ $" ="). change ($"git_full =") with ($"git_full" ++ $" ="). change ($"git_date =") with ($"git_date" ++ $" =").
  destruct I as [<-|[<-|[<-|[]]]]; generalize (startswith ($"git_refnames" ++ $" =") (strip line)) (startswith ($"git_full" ++ $" =") (strip line)) (startswith ($"git_date" ++ $" =") (strip line));
    intros b1 b2 b3; cbv zeta; destruct (re_value line) as [v|]; destruct b1, b2, b3; reflexivity.
Qed.
Lemma fold_unmentioned ls ls' name : In name names -> Forall2 reads ls ls' -> (forall l, In l ls -> ~ mentions l name) -> forall k, keyword (fold_left read_line ls' k) name = keyword k name.
Proof.
  intros I F. induction F as [|l l' ls ls' R F IH]; intros H k; [reflexivity|]. cbn [fold_left]. rewrite IH by (intros; apply H; now right). rewrite read_field by exact I.
  destruct (startswith _ _) eqn:S; [|reflexivity]. apply (mentions_iff l l' name I R) in S. exfalso. apply (H l (or_introl eq_refl) S).
Qed.
(** From a readable file each keyword is the value of the last statement git_X = "VALUE" (quotes inside VALUE included), whatever the
    rest of the file and its line ends are; a keyword whose name begins no line is missing, and all are if the file cannot be read. *)
Theorem C89_keywords_in_file :
  (forall before l after text name value, file_of (before ++ l :: after) text -> In name names -> assigns l name value ->
     (forall l', In l' after -> ~ mentions l' name) -> keyword (git_get_keywords (Some text)) name = Some value) /\
  (forall ls text name, file_of ls text -> In name names -> (forall l, In l ls -> ~ mentions l name) -> keyword (git_get_keywords (Some text)) name = None) /\
  git_get_keywords None = mkKw None None None.
Proof.
  split; [|split; [|reflexivity]].
  - intros before l after text name value F I A H. pose proof (file_read _ _ F) as R. unfold git_get_keywords. apply Forall2_app_inv_l in R. destruct R as (b' & r' & _ & R & ->). inversion R as [|? l' ? a' Rl Ra]; subst.
    rewrite fold_left_app. cbn [fold_left]. rewrite (fold_unmentioned after a' name I Ra H). rewrite read_field by exact I.
    assert (M : mentions l name). { destruct A as (indent & blanks & rest & Hi & _ & _ & ->). exists indent, (blanks ++ [quote] ++ value ++ [quote] ++ rest). auto. }
    rewrite (proj2 (mentions_iff l l' name I Rl) M), (assigns_value l l' name value I Rl A). reflexivity.
  - intros ls text name F I H. unfold git_get_keywords. rewrite (fold_unmentioned ls _ name I (file_read _ _ F) H). cbn [In names] in I. destruct I as [<-|[<-|[<-|[]]]]; reflexivity.
Qed.
Print Assumptions C89_keywords_in_file.
(** So a file whose last statements for the three names are the ones Python executes gives the keywords the module has when
    imported, and with them the same version (C67_keywords). *)
Theorem C89_same_as_import :
  forall ls text (value : str -> str), file_of ls text ->
    (forall name, In name names -> exists before l after, ls = before ++ l :: after /\ assigns l name (value name) /\ (forall l', In l' after -> ~ mentions l' name)) ->
    let k := mkKw (Some (value $"git_refnames")) (Some (value $"git_full")) (Some (value $"git_date")) in
    git_get_keywords (Some text) = k /\ forall prefix, git_versions_from_keywords (git_get_keywords (Some text)) prefix = git_versions_from_keywords k prefix.
Proof.
  intros ls text value F H k. assert (E : git_get_keywords (Some text) = k); [|now rewrite E].
  assert (G : forall name, In name names -> keyword (git_get_keywords (Some text)) name = Some (value name)).
  { intros name I. destruct (H name I) as (before & l & after & -> & A & N). exact (proj1 C89_keywords_in_file before l after text name (value name) F I A N). }
  pose proof (G $"git_refnames" ltac:(cbn [In names]; auto)) as G1. pose proof (G $"git_full" ltac:(cbn [In names]; auto)) as G2. pose proof (G $"git_date" ltac:(cbn [In names]; auto)) as G3.
  destruct (git_get_keywords (Some text)) as [k1 k2 k3]. unfold keyword in G1, G2, G3. cbn [k_refnames k_full k_date] in *.
  change (seqb $"git_refnames" $"git_refnames") with true in G1. change (seqb $"git_full" $"git_refnames") with false in G2. change (seqb $"git_full" $"git_full") with true in G2.
  change (seqb $"git_date" $"git_refnames") with false in G3. change (seqb $"git_date" $"git_full") with false in G3. cbv iota in G1, G2, G3. unfold k. congruence.
Qed.
Print Assumptions C89_same_as_import.
(** Lines 24-28 of this repository's file, with Windows line ends and without a last one. *)
Definition snippet : list str :=
  [$"    # get_keywords()."; $"    git_refnames = ""$Format:%d$"""; $"    git_full = ""$Format:%H$"""; $"    git_date = ""$Format:%ci$"""; $"    return keywords"].
Example keywords_witness : exists text value, file_of snippet text /\
  (forall name, In name names -> exists before l after, snippet = before ++ l :: after /\ assigns l name (value name) /\ (forall l', In l' after -> ~ mentions l' name)) /\
  value $"git_full" = $"$Format:%H$" /\ git_get_keywords (Some text) = get_keywords.
Proof.
  set (crlf := [carriage; newline]).
  exists (flat_map (fun l => l ++ crlf) (firstn 4 snippet) ++ nth 4 snippet []), (fun name => if seqb name $"git_refnames" then $"$Format:%d$" else if seqb name $"git_full" then $"$Format:%H$" else $"$Format:%ci$").
  assert (O : forall l, forallb (fun c => negb (Ascii.eqb c newline) && negb (Ascii.eqb c carriage)) l = true -> one_line l).
  { intros l H. rewrite forallb_forall in H. split; intros I; specialize (H _ I); rewrite Ascii.eqb_refl in H; [discriminate|]. rewrite andb_false_r in H. discriminate. }
  assert (NM : forall l name, In name names -> one_line l -> startswith (name ++ $" =") (strip l) = false -> ~ mentions l name).
  { intros l name I Ol H M. apply (mentions_iff l l name I (conj Ol (or_introl eq_refl))) in M. congruence. }
  assert (AS : forall name v, In name names -> assigns ($"    " ++ name ++ $" =" ++ $" " ++ [quote] ++ v ++ [quote] ++ []) name v).
  { intros name v I. exists $"    ", $" ", []. split; [repeat (constructor; [now apply blank_iff|]); constructor|]. split; [repeat (constructor; [now apply blank_iff|]); constructor|]. split; [intros []|reflexivity]. }
  split; [|split; [|split; [reflexivity|vm_compute; reflexivity]]].
  - assert (L : forall l text ls, one_line l -> file_of ls text -> file_of (l :: ls) ((l ++ crlf) ++ text)).
    { intros l text ls Ol F. rewrite <- app_assoc. apply file_line; auto; [right; now left|discriminate]. }
    unfold snippet. cbn [firstn flat_map nth]. rewrite <- !app_assoc. cbn [app]. repeat (rewrite app_assoc; apply L; [apply O; reflexivity|]). apply file_last; [apply O; reflexivity|discriminate].
  - intros name I. pose proof I as I'. cbn [In names] in I. destruct I as [<-|[<-|[<-|[]]]].
    + exists (firstn 1 snippet). do 2 eexists. split; [reflexivity|]. split; [exact (AS _ $"$Format:%d$" I')|]. intros l' [<-|[<-|[<-|[]]]]; apply NM; auto; apply O; reflexivity.
    + exists (firstn 2 snippet). do 2 eexists. split; [reflexivity|]. split; [exact (AS _ $"$Format:%H$" I')|]. intros l' [<-|[<-|[]]]; apply NM; auto; apply O; reflexivity.
    + exists (firstn 3 snippet). do 2 eexists. split; [reflexivity|]. split; [exact (AS _ $"$Format:%ci$" I')|]. intros l' [<-|[]]; apply NM; auto; apply O; reflexivity.
Qed.
