(** pyotf/_version.py: version strings from git.  Strings are lists of characters with code points below 256. *)
From Verif Require Export Base.
From Coq Require Export String Ascii NArith List.
Export ListNotations.
Local Open Scope list_scope.

(** A text. *)
Definition str := list ascii.
(** A string literal. *)
Definition lit (s : string) : str := list_ascii_of_string s.
Notation "$ s" := (lit s%string) (at level 5, s at level 0, format "$ s").

(** Character classes of str.strip (str.isspace), re's \d and [0-9a-f], below code point 256. *)
Definition between (a b : N) (c : ascii) : bool := (a <=? N_of_ascii c)%N && (N_of_ascii c <=? b)%N.
(** str.isspace *)
Definition is_space (c : ascii) : bool := between 9 13 c || between 28 32 c || between 133 133 c || between 160 160 c.
(** \d *)
Definition is_digit : ascii -> bool := between 48 57.
(** [0-9a-f] *)
Definition is_hex (c : ascii) : bool := is_digit c || between 97 102 c.

(** str methods: s.startswith(p), s.endswith(p), c in s, s.strip(), s.strip(chars), s.split(c), s.rindex(p),
    s.replace(c, r, 1) for one character c. *)
Fixpoint startswith (p s : str) : bool :=
  match p, s with
  | [], _ => true
  | a :: p', b :: s' => Ascii.eqb a b && startswith p' s'
  | _ :: _, [] => false
  end.
(** s.endswith(p) *)
Definition endswith (p s : str) : bool := startswith (rev p) (rev s).
(** c in s *)
Definition contains (c : ascii) (s : str) : bool := existsb (Ascii.eqb c) s.
(** s.lstrip with a class of characters *)
Fixpoint drop_while (f : ascii -> bool) (s : str) : str :=
  match s with c :: s' => if f c then drop_while f s' else s | [] => [] end.
(** s.strip with a class of characters *)
Definition strip_by (f : ascii -> bool) (s : str) : str := rev (drop_while f (rev (drop_while f s))).
(** s.strip() *)
Definition strip : str -> str := strip_by is_space.
(** s.split(c) *)
Fixpoint split (c : ascii) (s : str) : list str :=
  match s with
  | [] => [[]]
  | a :: s' => if Ascii.eqb a c then [] :: split c s'
               else match split c s' with w :: ws => (a :: w) :: ws | [] => [[a]] end
  end.
(** the last position of p in s, at most i *)
Fixpoint rindex_from (p s : str) (i : nat) : option nat :=
  if startswith p (skipn i s) then Some i else match i with O => None | S i' => rindex_from p s i' end.
(** s.rindex(p) *)
Definition rindex (p s : str) : option nat := rindex_from p s (List.length s).
(** s.replace(c, r, 1) *)
Fixpoint replace1 (c : ascii) (r : str) (s : str) : str :=
  match s with [] => [] | a :: s' => if Ascii.eqb a c then r ++ s' else a :: replace1 c r s' end.

(** "%d" % n for a non-negative n, and int(s) for a string of digits. *)
Definition digit (d : N) : ascii := ascii_of_N (48 + d).
(** digits of n, last first *)
Fixpoint dec_fuel (fuel : nat) (n : N) : str :=
  match fuel with
  | O => []
  | S f => if (n <? 10)%N then [digit n] else dec_fuel f (n / 10) ++ [digit (n mod 10)]
  end.
(** "%d" % n *)
Definition dec (n : N) : str := dec_fuel (S (N.to_nat (N.log2 n))) n.
(** int(s) *)
Definition int_of (s : str) : N := fold_left (fun a c => (10 * a + (N_of_ascii c - 48))%N) s 0%N.

(** Results: a value, NotThisMethod, or another exception. *)
Inductive vres (A : Type) := VOk (x : A) | NotThisMethod | VErr (e : exn).
Arguments VOk {A} x.
Arguments NotThisMethod {A}.
Arguments VErr {A} e.

(** What the five git commands answer in a directory (run_command's first result, None on failure). *)
Record git := mkGit {
  g_dir : bool;               (* git rev-parse --git-dir succeeds *)
  g_describe : option str;    (* git describe --tags --dirty --always --long --match PREFIX* *)
  g_head : option str;        (* git rev-parse HEAD *)
  g_count : option str;       (* git rev-list HEAD --count *)
  g_date : option str }.      (* git show -s --format=%ci HEAD *)

(** The pieces dictionary.  When "error" is set, "closest-tag", "distance" and "date" are missing from it (never read then). *)
Record pieces := mkPieces {
  p_long : str; p_short : str; p_error : option str; p_dirty : bool; p_tag : option str; p_distance : N; p_date : option str }.

(** The longest run of characters in a class, and the rest. *)
Fixpoint span (f : ascii -> bool) (s : str) : str * str :=
  match s with
  | c :: s' => if f c then let (a, b) := span f s' in (c :: a, b) else ([], s)
  | [] => ([], [])
  end.
(** _version.py:285 re.search(r"^(.+)-(\d+)-g([0-9a-f]+)$", s): the longest first group for which the rest matches; inside the
    rest no choice remains (a digit is not "-", a hexadecimal digit is neither the end nor a newline).  "." is anything but a
    newline; "$" matches at the end and before a final newline. *)
Definition newline : ascii := ascii_of_N 10.
(** the part -(\d+)-g([0-9a-f]+)$ of the pattern *)
Definition match_tail (s : str) : option (str * str) :=
  match s with
  | a :: s1 =>
      if Ascii.eqb a "-" then
        let (num, s2) := span is_digit s1 in
        match num, s2 with
        | _ :: _, b :: c :: s3 =>
            if Ascii.eqb b "-" && Ascii.eqb c "g" then
              let (hex, s4) := span is_hex s3 in
              match hex, s4 with
              | _ :: _, [] => Some (num, hex)
              | _ :: _, [d] => if Ascii.eqb d newline then Some (num, hex) else None
              | _, _ => None
              end
            else None
        | _, _ => None
        end
      else None
  | [] => None
  end.
(** the first group has at most i characters *)
Fixpoint search_from (i : nat) (s : str) : option (str * str * str) :=
  match i with
  | O => None
  | S i' =>
      match (if contains newline (firstn i s) then None else match_tail (skipn i s)) with
      | Some (num, hex) => Some (firstn i s, num, hex)
      | None => search_from i' s
      end
  end.
(** _version.py:285 *)
Definition re_describe (s : str) : option (str * str * str) := search_from (List.length s) s.

(** _version.py:183, 315 date.strip().replace(" ", "T", 1).replace(" ", "", 1) *)
Definition iso_date (d : str) : str := replace1 " " [] (replace1 " " $"T" (strip d)).

(** _version.py:233-317 git_pieces_from_vcs.  int(count_out) is modelled for digit strings; anything else is ValueError. *)
Definition git_pieces_from_vcs (tag_prefix : str) (g : git) : vres pieces :=
  if negb (g_dir g) then NotThisMethod
  else match g_describe g with None => NotThisMethod | Some out =>
    let describe_out := strip out in
    match g_head g with None => NotThisMethod | Some full =>
      let full_out := strip full in
      let dirty := endswith $"-dirty" describe_out in
      let git_describe := if dirty then match rindex $"-dirty" describe_out with Some i => firstn i describe_out | None => describe_out end else describe_out in
      let finish short tag distance :=
        match g_date g with
        | None => VErr AttributeError
        | Some d => VOk (mkPieces full_out short None dirty tag distance (Some (iso_date (strip d))))
        end in
      if contains "-" git_describe then
        match re_describe git_describe with
        | None => VOk (mkPieces full_out (firstn 7 full_out) (Some ($"unable to parse git-describe output: '" ++ describe_out ++ $"'")) dirty None 0 None)
        | Some (full_tag, num, hex) =>
            if startswith tag_prefix full_tag then finish hex (Some (skipn (List.length tag_prefix) full_tag)) (int_of num)
            else VOk (mkPieces full_out (firstn 7 full_out) (Some ($"tag '" ++ full_tag ++ $"' doesn't start with prefix '" ++ tag_prefix ++ $"'")) dirty None 0 None)
        end
      else
        match g_count g with
        | None => VErr TypeError
        | Some c => if forallb is_digit c && negb (Nat.eqb (List.length c) 0) then finish (firstn 7 full_out) None (int_of c) else VErr ValueError
        end
    end
  end.

(** Truth values: a tag that is neither None nor empty; a distance other than zero. *)
Definition truthy_tag (p : pieces) : option str := match p_tag p with Some (c :: t) => Some (c :: t) | _ => None end.
(** truth of an int *)
Definition nonzero (n : N) : bool := negb (n =? 0)%N.

(** _version.py:320-324; only called with a closest tag. *)
Definition plus_or_dot (tag : str) : str := if contains "+" tag then $"." else $"+".

(** _version.py:327-348 *)
Definition render_pep440 (p : pieces) : str :=
  match truthy_tag p with
  | Some tag =>
      if nonzero (p_distance p) || p_dirty p then
        tag ++ plus_or_dot tag ++ dec (p_distance p) ++ $".g" ++ p_short p ++ (if p_dirty p then $".dirty" else [])
      else tag
  | None => $"0+untagged." ++ dec (p_distance p) ++ $".g" ++ p_short p ++ (if p_dirty p then $".dirty" else [])
  end.
(** _version.py:351-364 *)
Definition render_pep440_pre (p : pieces) : str :=
  match truthy_tag p with
  | Some tag => if nonzero (p_distance p) then tag ++ $".post.dev" ++ dec (p_distance p) else tag
  | None => $"0.post.dev" ++ dec (p_distance p)
  end.
(** _version.py:367-391 *)
Definition render_pep440_post (p : pieces) : str :=
  match truthy_tag p with
  | Some tag =>
      if nonzero (p_distance p) || p_dirty p then
        tag ++ $".post" ++ dec (p_distance p) ++ (if p_dirty p then $".dev0" else []) ++ plus_or_dot tag ++ $"g" ++ p_short p
      else tag
  | None => $"0.post" ++ dec (p_distance p) ++ (if p_dirty p then $".dev0" else []) ++ $"+g" ++ p_short p
  end.
(** _version.py:394-413 *)
Definition render_pep440_old (p : pieces) : str :=
  match truthy_tag p with
  | Some tag =>
      if nonzero (p_distance p) || p_dirty p then tag ++ $".post" ++ dec (p_distance p) ++ (if p_dirty p then $".dev0" else []) else tag
  | None => $"0.post" ++ dec (p_distance p) ++ (if p_dirty p then $".dev0" else [])
  end.
(** _version.py:416-433 *)
Definition render_git_describe (p : pieces) : str :=
  match truthy_tag p with
  | Some tag => if nonzero (p_distance p) then tag ++ $"-" ++ dec (p_distance p) ++ $"-g" ++ p_short p else tag
  | None => p_short p
  end ++ (if p_dirty p then $"-dirty" else []).
(** _version.py:436-453 *)
Definition render_git_describe_long (p : pieces) : str :=
  match truthy_tag p with
  | Some tag => tag ++ $"-" ++ dec (p_distance p) ++ $"-g" ++ p_short p
  | None => p_short p
  end ++ (if p_dirty p then $"-dirty" else []).

(** The dictionary get_versions returns. *)
Record info := mkInfo { i_version : str; i_full : option str; i_dirty : option bool; i_error : option str; i_date : option str }.
(** s == t *)
Definition seqb (a b : str) : bool := if list_eq_dec ascii_dec a b then true else false.
(** _version.py:456-491; style None is Python's None. *)
Definition render (p : pieces) (style : option str) : vres info :=
  match p_error p with
  | Some e => VOk (mkInfo $"unknown" (Some (p_long p)) None (Some e) None)
  | None =>
      let style := match style with None => $"pep440" | Some s => if seqb s [] || seqb s $"default" then $"pep440" else s end in
      let ok v := VOk (mkInfo v (Some (p_long p)) (Some (p_dirty p)) None (p_date p)) in
      if seqb style $"pep440" then ok (render_pep440 p)
      else if seqb style $"pep440-pre" then ok (render_pep440_pre p)
      else if seqb style $"pep440-post" then ok (render_pep440_post p)
      else if seqb style $"pep440-old" then ok (render_pep440_old p)
      else if seqb style $"git-describe" then ok (render_git_describe p)
      else if seqb style $"git-describe-long" then ok (render_git_describe_long p)
      else VErr ValueError
  end.

(** The keywords dictionary; None for a missing key. *)
Record keywords := mkKw { k_refnames : option str; k_full : option str; k_date : option str }.
(** sorted() of a set of strings: by code point, without duplicates. *)
Fixpoint str_leb (a b : str) : bool :=
  match a, b with
  | [], _ => true
  | _ :: _, [] => false
  | x :: a', y :: b' => (N_of_ascii x <? N_of_ascii y)%N || (Ascii.eqb x y && str_leb a' b')
  end.
(** insertion into a sorted list without duplicates *)
Fixpoint insert (x : str) (l : list str) : list str :=
  match l with
  | [] => [x]
  | y :: l' => if seqb x y then l else if str_leb x y then x :: l else y :: insert x l'
  end.
(** sorted(set(l)) *)
Definition sorted_set (l : list str) : list str := fold_right insert [] l.
(** _version.py:171-229 git_versions_from_keywords *)
Definition paren (c : ascii) : bool := Ascii.eqb c "(" || Ascii.eqb c ")".
(** _version.py:171-229 *)
Definition git_versions_from_keywords (k : keywords) (tag_prefix : str) : vres info :=
  match k_refnames k, k_full k, k_date k with
  | None, None, None => NotThisMethod
  | None, _, _ => VErr KeyError
  | Some refnames, full, date =>
      let date := option_map iso_date date in
      let refnames := strip refnames in
      if startswith $"$Format" refnames then NotThisMethod
      else
        let refs := map strip (split "," (strip_by paren refnames)) in
        let tags := map (skipn 5) (filter (startswith $"tag: ") refs) in
        let tags := match tags with [] => filter (existsb is_digit) refs | _ => tags end in
        match full with
        | None => VErr KeyError
        | Some full =>
            match filter (startswith tag_prefix) (sorted_set tags) with
            | ref :: _ => VOk (mkInfo (skipn (List.length tag_prefix) ref) (Some (strip full)) (Some false) None date)
            | [] => VOk (mkInfo $"0+unknown" (Some (strip full)) (Some false) (Some $"no suitable tags") None)
            end
        end
  end.

(** posixpath.basename and dirname *)
Definition slash (c : ascii) : bool := Ascii.eqb c "/".
(** os.path.basename *)
Definition basename (p : str) : str := rev (fst (span (fun c => negb (slash c)) (rev p))).
(** os.path.dirname *)
Definition dirname (p : str) : str :=
  let head := rev (snd (span (fun c => negb (slash c)) (rev p))) in
  if forallb slash head then head else rev (drop_while slash (rev head)).
(** _version.py:110-138 versions_from_parentdir; [levels] is 3. *)
Fixpoint parentdir_from (levels : nat) (parentdir_prefix root : str) : vres info :=
  match levels with
  | O => NotThisMethod
  | S l =>
      if startswith parentdir_prefix (basename root)
      then VOk (mkInfo (skipn (List.length parentdir_prefix) (basename root)) None (Some false) None None)
      else parentdir_from l parentdir_prefix (dirname root)
  end.
(** _version.py:110-138 *)
Definition versions_from_parentdir (parentdir_prefix root : str) : vres info := parentdir_from 3 parentdir_prefix root.

(** _version.py:19-29 and 36-47: the configuration of this repository. *)
Definition get_keywords : keywords := mkKw (Some $"$Format:%d$") (Some $"$Format:%H$") (Some $"$Format:%ci$").
(** _version.py:32-33, 36-47 *)
Record config := mkConfig { c_style : str; c_tag_prefix : str; c_parentdir_prefix : str; c_source : str }.
(** _version.py:36-47 *)
Definition get_config : config := mkConfig $"pep440" [] [] $"pyotf/_version.py".
(** _version.py:494-543 get_versions, for any keywords and configuration; [file] is os.path.realpath(__file__), None when __file__
    is undefined; [repo] gives git's answers in a directory. *)
Definition versions (kw : keywords) (cfg : config) (file : option str) (repo : str -> git) : vres info :=
  match git_versions_from_keywords kw (c_tag_prefix cfg) with
  | VOk i => VOk i
  | VErr e => VErr e
  | NotThisMethod =>
      match file with
      | None => VOk (mkInfo $"0+unknown" None None (Some $"unable to find root of source tree") None)
      | Some f =>
          let root := fold_left (fun r _ => dirname r) (split "/" (c_source cfg)) f in
          match (match git_pieces_from_vcs (c_tag_prefix cfg) (repo root) with
                 | VOk p => render p (Some (c_style cfg)) | NotThisMethod => NotThisMethod | VErr e => VErr e end) with
          | VOk i => VOk i
          | VErr e => VErr e
          | NotThisMethod =>
              match (match c_parentdir_prefix cfg with [] => NotThisMethod | p => versions_from_parentdir p root end) with
              | VOk i => VOk i
              | VErr e => VErr e
              | NotThisMethod => VOk (mkInfo $"0+unknown" None None (Some $"unable to compute version") None)
              end
          end
      end
  end.
(** _version.py:494-543 in this repository *)
Definition get_versions : option str -> (str -> git) -> vres info := versions get_keywords get_config.
