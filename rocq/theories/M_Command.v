(** pyotf/_version.py: the commands it runs and the file it reads.  Bytes and characters below code point 256 are both [ascii]. *)
From Verif Require Export M_Version.
Local Open Scope list_scope.

(** What subprocess.Popen([c] + args, cwd=cwd) does: errno ENOENT, another EnvironmentError, or a process with its whole standard
    output (bytes) and its exit status. *)
Inductive spawned := Absent | Refused | Ran (stdout : str) (rc : Z).
(** The outside world: the answer to an argument vector in a directory (every vector is run at most once per call). *)
Definition world := list str -> str -> spawned.
(** A computation that runs commands: its result and the commands started, in order, each with its directory. *)
Definition cmd (A : Type) : Type := vres A * list (list str * str).

(** bytes.strip() *)
Definition is_ascii_space (c : ascii) : bool := between 9 13 c || between 32 32 c.
(** bytes.decode(): UTF-8; a character beyond code point 255 counts as undecodable here (a simplification). *)
Fixpoint utf8 (b : str) : option str :=
  match b with
  | [] => Some []
  | x :: b' =>
      if between 0 127 x then option_map (cons x) (utf8 b')
      else if between 194 195 x then
        match b' with
        | y :: b'' => if between 128 191 y then option_map (cons (ascii_of_N ((N_of_ascii x - 192) * 64 + (N_of_ascii y - 128)))) (utf8 b'') else None
        | [] => None
        end
      else None
  end.

(** _version.py:71-107 run_command, without messages (verbose). *)
Fixpoint run_command (w : world) (commands : list str) (args : list str) (cwd : str) : cmd (option str * option Z) :=
  match commands with
  | [] => (VOk (None, None), [])
  | c :: commands' =>
      let here := (c :: args, cwd) in
      match w (c :: args) cwd with
      | Absent => let (r, l) := run_command w commands' args cwd in (r, here :: l)
      | Refused => (VOk (None, None), [here])
      | Ran out rc =>
          (match utf8 (strip_by is_ascii_space out) with
           | None => VErr ValueError
           | Some s => VOk (if (rc =? 0)%Z then Some s else None, Some rc)
           end, [here])
      end
  end.

(** Sequencing: an exception ends the computation. *)
Definition bindC {A B} (m : cmd A) (k : A -> cmd B) : cmd B :=
  match m with
  | (VOk x, l) => let (r, l') := k x in (r, l ++ l')
  | (NotThisMethod, l) => (NotThisMethod, l)
  | (VErr e, l) => (VErr e, l)
  end.
(** The end of a computation. *)
Definition done {A} (r : vres A) : cmd A := (r, []).

(** _version.py:241-243 GITS *)
Definition gits (windows : bool) : list str := if windows then [$"git.cmd"; $"git.exe"] else [$"git"].
(** _version.py:233-317 git_pieces_from_vcs with the commands it runs. *)
Definition git_pieces_cmd (windows : bool) (w : world) (tag_prefix root : str) : cmd pieces :=
  let run args := run_command w (gits windows) args root in
  bindC (run [$"rev-parse"; $"--git-dir"]) (fun o =>
  if match snd o with Some rc => (rc =? 0)%Z | None => false end then
    bindC (run [$"describe"; $"--tags"; $"--dirty"; $"--always"; $"--long"; $"--match"; tag_prefix ++ $"*"]) (fun o =>
    match fst o with None => done NotThisMethod | Some out =>
    let describe_out := strip out in
    bindC (run [$"rev-parse"; $"HEAD"]) (fun o =>
    match fst o with None => done NotThisMethod | Some full =>
    let full_out := strip full in
    let dirty := endswith $"-dirty" describe_out in
    let git_describe := if dirty then match rindex $"-dirty" describe_out with Some i => firstn i describe_out | None => describe_out end else describe_out in
    let finish short tag distance :=
      bindC (run [$"show"; $"-s"; $"--format=%ci"; $"HEAD"]) (fun o =>
      match fst o with
      | None => done (VErr AttributeError)
      | Some d => done (VOk (mkPieces full_out short None dirty tag distance (Some (iso_date (strip d)))))
      end) in
    if contains "-" git_describe then
      match re_describe git_describe with
      | None => done (VOk (mkPieces full_out (firstn 7 full_out) (Some ($"unable to parse git-describe output: '" ++ describe_out ++ $"'")) dirty None 0 None))
      | Some (full_tag, num, hex) =>
          if startswith tag_prefix full_tag then finish hex (Some (skipn (List.length tag_prefix) full_tag)) (int_of num)
          else done (VOk (mkPieces full_out (firstn 7 full_out) (Some ($"tag '" ++ full_tag ++ $"' doesn't start with prefix '" ++ tag_prefix ++ $"'")) dirty None 0 None))
      end
    else
      bindC (run [$"rev-list"; $"HEAD"; $"--count"]) (fun o =>
      match fst o with
      | None => done (VErr TypeError)
      | Some c => if forallb is_digit c && negb (Nat.eqb (List.length c) 0) then finish (firstn 7 full_out) None (int_of c) else done (VErr ValueError)
      end)
    end)
    end)
  else done NotThisMethod).

(** _version.py:504-543: the steps of get_versions in order, for any keywords and configuration. *)
Definition versions_cmd (windows : bool) (w : world) (kw : keywords) (cfg : config) (file : option str) : cmd info :=
  match git_versions_from_keywords kw (c_tag_prefix cfg) with
  | VOk i => done (VOk i)
  | VErr e => done (VErr e)
  | NotThisMethod =>
      match file with
      | None => done (VOk (mkInfo $"0+unknown" None None (Some $"unable to find root of source tree") None))
      | Some f =>
          let root := fold_left (fun r _ => dirname r) (split "/" (c_source cfg)) f in
          match bindC (git_pieces_cmd windows w (c_tag_prefix cfg) root) (fun p => done (render p (Some (c_style cfg)))) with
          | (VOk i, l) => (VOk i, l)
          | (VErr e, l) => (VErr e, l)
          | (NotThisMethod, l) =>
              (match (match c_parentdir_prefix cfg with [] => NotThisMethod | p => versions_from_parentdir p root end) with
               | VOk i => VOk i
               | VErr e => VErr e
               | NotThisMethod => VOk (mkInfo $"0+unknown" None None (Some $"unable to compute version") None)
               end, l)
          end
      end
  end.
(** _version.py:494-543 get_versions in this repository, with the commands it runs. *)
Definition get_versions_cmd (windows : bool) (w : world) (file : option str) : cmd info := versions_cmd windows w get_keywords get_config file.

(** Reading a text file with open(name, "r"): "\r\n" and "\r" become "\n". *)
Definition carriage : ascii := ascii_of_N 13.
(** universal newlines *)
Fixpoint universal (s : str) : str :=
  match s with
  | [] => []
  | c :: s' =>
      if Ascii.eqb c carriage then newline :: match s' with d :: s'' => if Ascii.eqb d newline then universal s'' else universal s' | [] => [] end
      else c :: universal s'
  end.
(** f.readlines(): every line keeps its "\n"; a last line may lack it. *)
Fixpoint readlines (s : str) : list str :=
  match s with
  | [] => []
  | c :: s' =>
      if Ascii.eqb c newline then [c] :: readlines s'
      else match readlines s' with l :: ls => (c :: l) :: ls | [] => [[c]] end
  end.
(** The part "(.*)" of the pattern, at a quote: up to the last quote before a newline. *)
Definition quote : ascii := ascii_of_N 34.
(** s up to its last quote *)
Definition upto_last_quote (s : str) : option str :=
  match rindex [quote] s with Some i => Some (firstn i s) | None => None end.
(** _version.py:154, 158, 162 re.search(r'=\s*"(.*)"', line).group(1): the first "=" from which the rest matches; \s* has no choice
    because a quote is not white space. *)
Fixpoint re_value (line : str) : option str :=
  match line with
  | [] => None
  | c :: line' =>
      match (if Ascii.eqb c "=" then
               match drop_while is_space line' with
               | d :: rest => if Ascii.eqb d quote then upto_last_quote (fst (span (fun x => negb (Ascii.eqb x newline)) rest)) else None
               | [] => None
               end
             else None) with
      | Some v => Some v
      | None => re_value line'
      end
  end.
(** _version.py:151-163: one line of the file. *)
Definition read_line (k : keywords) (line : str) : keywords :=
  let starts p := startswith p (strip line) in
  let k := if starts $"git_refnames =" then match re_value line with Some v => mkKw (Some v) (k_full k) (k_date k) | None => k end else k in
  let k := if starts $"git_full =" then match re_value line with Some v => mkKw (k_refnames k) (Some v) (k_date k) | None => k end else k in
  if starts $"git_date =" then match re_value line with Some v => mkKw (k_refnames k) (k_full k) (Some v) | None => k end else k.
(** _version.py:142-168 git_get_keywords; None is a file that cannot be opened or read. *)
Definition git_get_keywords (file : option str) : keywords :=
  match file with
  | None => mkKw None None None
  | Some text => fold_left read_line (readlines (universal text)) (mkKw None None None)
  end.
