(** Vocabulary for the commands and the file of _version.py, independent of how M_Command.v computes. *)
From Verif Require Export S_Version M_Command.
Local Open Scope list_scope.

(** UTF-8 of a text with code points below 256. *)
Definition encode1 (c : ascii) : str :=
  if (N_of_ascii c <? 128)%N then [c] else [ascii_of_N (192 + N_of_ascii c / 64); ascii_of_N (128 + N_of_ascii c mod 64)].
Definition encode (s : str) : str := flat_map encode1 s.
(** White space at the end of command output: space, tab, line feed, vertical tab, form feed, carriage return. *)
Definition white (c : ascii) : Prop := In (N_of_ascii c) [9; 10; 11; 12; 13; 32]%N.
Definition bare (s : str) : Prop := (forall c s', s = c :: s' -> ~ white c) /\ (forall s' c, s = s' ++ [c] -> ~ white c).
(** The bytes [out] are the text [s] with white space around it. *)
Definition prints (out s : str) : Prop := exists w1 w2, Forall white w1 /\ Forall white w2 /\ bare s /\ out = w1 ++ encode s ++ w2.

(** What becomes of a command given under several names: the first name that exists counts. *)
Inductive launched (w : world) (args : list str) (dir : str) : list str -> spawned -> Prop :=
| launched_none : launched w args dir [] Absent
| launched_next c names x : w (c :: args) dir = Absent -> launched w args dir names x -> launched w args dir (c :: names) x
| launched_here c names x : w (c :: args) dir = x -> x <> Absent -> launched w args dir (c :: names) x.
Definition git_names (windows : bool) : list str := if windows then [$"git.cmd"; $"git.exe"] else [$"git"].
(** git ARGS in [dir] succeeds with the output [s], or fails (with some decodable output, if it ran). *)
Definition answered (windows : bool) (w : world) (args : list str) (dir s : str) : Prop :=
  exists out, launched w args dir (git_names windows) (Ran out 0) /\ prints out s.
Definition failing (windows : bool) (w : world) (args : list str) (dir : str) : Prop :=
  exists x, launched w args dir (git_names windows) x /\ (x = Absent \/ x = Refused \/ exists out rc s, x = Ran out rc /\ rc <> 0%Z /\ prints out s).
Definition reports (windows : bool) (w : world) (args : list str) (dir : str) (o : option str) : Prop :=
  match o with Some s => answered windows w args dir s | None => failing windows w args dir end.

(** The five queries. *)
Definition q_dir : list str := [$"rev-parse"; $"--git-dir"].
Definition q_describe (prefix : str) : list str := [$"describe"; $"--tags"; $"--dirty"; $"--always"; $"--long"; $"--match"; prefix ++ $"*"].
Definition q_head : list str := [$"rev-parse"; $"HEAD"].
Definition q_count : list str := [$"rev-list"; $"HEAD"; $"--count"].
Definition q_date : list str := [$"show"; $"-s"; $"--format=%ci"; $"HEAD"].
Definition queries (prefix : str) : list (list str) := [q_dir; q_describe prefix; q_head; q_count; q_date].
(** git's answers in [dir], as the record used for C67. *)
Definition answering (windows : bool) (w : world) (prefix dir : str) (g : git) : Prop :=
  (if g_dir g then exists s, answered windows w q_dir dir s else failing windows w q_dir dir) /\
  reports windows w (q_describe prefix) dir (g_describe g) /\ reports windows w q_head dir (g_head g) /\
  reports windows w q_count dir (g_count g) /\ reports windows w q_date dir (g_date g).

(** [l] arises from [m] by leaving out entries. *)
Inductive within {A} : list A -> list A -> Prop :=
| within_nil : within [] []
| within_keep x l m : within l m -> within (x :: l) (x :: m)
| within_drop x l m : within l m -> within l (x :: m).

(** A text file: lines, each with its end ("\n", "\r\n" or "\r"), and perhaps a last line without one. *)
Definition line_end (e : str) : Prop := e = [newline] \/ e = [carriage; newline] \/ e = [carriage].
Definition one_line (l : str) : Prop := ~ In newline l /\ ~ In carriage l.
Inductive file_of : list str -> str -> Prop :=
| file_nil : file_of [] []
| file_last l : one_line l -> l <> [] -> file_of [l] l
| file_line l e ls text : one_line l -> line_end e -> (e = [carriage] -> forall t, text <> newline :: t) -> file_of ls text -> file_of (l :: ls) (l ++ e ++ text).
(** [l] is the statement NAME = "VALUE", indented, perhaps with something after it that has no quote. *)
Definition assigns (l name value : str) : Prop :=
  exists indent blanks rest, Forall blank indent /\ Forall blank blanks /\ ~ In quote rest /\ l = indent ++ name ++ $" =" ++ blanks ++ [quote] ++ value ++ [quote] ++ rest.
(** [l], leading blanks aside, begins with NAME = *)
Definition mentions (l name : str) : Prop := exists indent rest, Forall blank indent /\ l = indent ++ name ++ $" =" ++ rest.
Definition names : list str := [$"git_refnames"; $"git_full"; $"git_date"].
Definition keyword (k : keywords) (name : str) : option str :=
  if seqb name $"git_refnames" then k_refnames k else if seqb name $"git_full" then k_full k else k_date k.
