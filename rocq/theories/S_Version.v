(** Vocabulary for version strings, independent of how M_Version.v computes them. *)
From Verif Require Export M_Version.
Local Open Scope list_scope.

(** Characters *)
Definition digit_char (c : ascii) : Prop := In c $"0123456789".
Definition hex_char (c : ascii) : Prop := In c $"0123456789abcdef".
Definition blank (c : ascii) : Prop := In (N_of_ascii c) [9; 10; 11; 12; 13; 28; 29; 30; 31; 32; 133; 160]%N.

(** [s] is the decimal numeral of [n]: digits, no superfluous leading zero. *)
Fixpoint value (s : str) : N :=
  match s with [] => 0 | c :: s' => (N_of_ascii c - 48) * 10 ^ N.of_nat (List.length s') + value s' end%N.
Definition numeral (s : str) (n : N) : Prop :=
  s <> [] /\ Forall digit_char s /\ value s = n /\ (forall s', s = "0"%char :: s' -> s' = []).
Definition hexadecimal (s : str) : Prop := s <> [] /\ Forall hex_char s.
(** A tag as git allows it: not empty, no white space. *)
Definition a_tag (t : str) : Prop := t <> [] /\ Forall (fun c => ~ blank c) t.

(** What git describe --long --dirty prints: TAG-NUM-gHEX[-dirty]. *)
Definition dirt (d : bool) : str := if d then $"-dirty" else [].
Definition describes (s tag : str) (n : N) (hex : str) (d : bool) : Prop :=
  exists num, numeral num n /\ s = tag ++ $"-" ++ num ++ $"-g" ++ hex ++ dirt d.
(** [s] between white space, for example with git's final newline. *)
Definition padded (out s : str) : Prop := exists w1 w2, Forall blank w1 /\ Forall blank w2 /\ out = w1 ++ s ++ w2.

(** How many times a character occurs. *)
Definition occurs (c : ascii) (s : str) : nat := count_occ ascii_dec s c.

(** TAG[+DISTANCE.gHEX[.dirty]], with "." for "+" when the tag has a "+" already (docstring, _version.py:327-335). *)
Definition separator (tag sep : str) : Prop := (In "+"%char tag /\ sep = $".") \/ (~ In "+"%char tag /\ sep = $"+").
Definition pep440_of (tag : str) (n : N) (hex : str) (d : bool) (v : str) : Prop :=
  if andb (n =? 0)%N (negb d) then v = tag
  else exists sep num, separator tag sep /\ numeral num n /\ v = tag ++ sep ++ num ++ $".g" ++ hex ++ (if d then $".dirty" else []).

(** A path: directory [r] (which may be "" for the root of the file system), a slash, a last component. *)
Definition component (c : str) : Prop := c <> [] /\ ~ In "/"%char c.
Definition directory (r : str) : Prop := r = [] \/ exists r' c, r = r' ++ [c] /\ c <> "/"%char.
(** git's "DAY TIME ZONE" as ISO 8601 "DAYTTIMEZONE". *)
Definition word (w : str) : Prop := w <> [] /\ Forall (fun c => ~ blank c) w.
Definition dated (out iso : str) : Prop :=
  exists day time zone, word day /\ word time /\ word zone /\ padded out (day ++ $" " ++ time ++ $" " ++ zone) /\ iso = day ++ $"T" ++ time ++ zone.
(** git's answers in a working tree: the describe output, the full hash of HEAD, its date. *)
Definition answers (g : git) (describe full iso : str) : Prop :=
  g_dir g = true /\ (exists out, g_describe g = Some out /\ padded out describe) /\
  (exists out, g_head g = Some out /\ padded out full) /\ (exists out, g_date g = Some out /\ dated out iso).

(** ** git archive keywords *)
(** Order by code point. *)
Inductive before : str -> str -> Prop :=
| before_nil s : before [] s
| before_lt x y a b : (N_of_ascii x < N_of_ascii y)%N -> before (x :: a) (y :: b)
| before_eq x a b : before a b -> before (x :: a) (x :: b).
(** What $Format:%d$ expands to: " (REF, REF, ...)". *)
Fixpoint listed (refs : list str) : str :=
  match refs with [] => [] | [r] => r | r :: refs' => r ++ $", " ++ listed refs' end.
Definition refname (r : str) : Prop :=
  r <> [] /\ ~ In ","%char r /\ (forall c r', r = c :: r' -> ~ blank c /\ ~ In c $"()") /\ (forall r' c, r = r' ++ [c] -> ~ blank c /\ ~ In c $"()").
(** The names considered: the tags when any is marked "tag: ", else every name with a digit. *)
Definition candidate (refs : list str) (t : str) : Prop :=
  In ($"tag: " ++ t) refs \/ ((forall t', ~ In ($"tag: " ++ t') refs) /\ In t refs /\ exists c, In c t /\ digit_char c).
