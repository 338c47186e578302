(** Textbook facts about Zernike modes, independent of M_Zernike's helpers. *)
From Verif Require Export M_Zernike.
Local Open Scope Z_scope.

(** legal degrees *)
Definition legal (n m : Z) : Prop := 0 <= n /\ Z.abs m <= n /\ (n - m) mod 2 = 0.
(** Noll's ordering: rows by n, inside a row by |m|. *)
Definition before (a b : Z * Z) : Prop := fst a < fst b \/ fst a = fst b /\ Z.abs (snd a) <= Z.abs (snd b).
(** The pairs two vectors of degrees stand for. *)
Definition paired (ns ms : list Z) (q : list (Z * Z)) : Prop :=
  List.length ns = List.length ms /\ q = combine ns ms \/
  (exists n, ns = [n] /\ q = map (fun m => (n, m)) ms) \/ (exists m, ms = [m] /\ q = map (fun n => (n, m)) ns).
Local Open Scope R_scope.
(** R_n^m(r) = sum_k (-1)^k (n-k)! / (k! ((n+m)/2-k)! ((n-m)/2-k)!) r^(n-2k), for m >= 0 *)
Definition radial_poly (n m : nat) (r : R) : R :=
  Rsum (seq 0 (S ((n - m) / 2))) (fun k =>
    (-1) ^ k * INR (fact (n - k)) / (INR (fact k) * INR (fact ((n + m) / 2 - k)) * INR (fact ((n - m) / 2 - k))) * r ^ (n - 2 * k)).
(** azimuthal part *)
Definition azimuthal (m : Z) (theta : R) : R := if (m <? 0)%Z then sin (IZR (- m) * theta) else cos (IZR m * theta).
(** Noll's normalisation *)
Definition noll_norm (n m : Z) : R := if (m =? 0)%Z then sqrt (IZR (n + 1)) else sqrt (2 * IZR (n + 1)).
(** position in a squeezed array: the coordinates along axes of length 1 disappear *)
Fixpoint squeeze_ix (sh ix : list Z) : list Z :=
  match sh, ix with
  | n :: sh', i :: ix' => if (n =? 1)%Z then squeeze_ix sh' ix' else i :: squeeze_ix sh' ix'
  | _, _ => []
  end.
(** The modes an argument list of zernike asks for, in order.  (Rows of a 2-d array are equally long.) *)
Inductive asks : zargs -> list (Z * Z) -> Prop :=
| asks_j j q : noll2degrees (NInts [j]) = Ok q -> asks (One (IScalar j)) q
| asks_js js q : noll2degrees (NInts js) = Ok q -> asks (One (IVec js)) q
| asks_stack ns ms : List.length ns = List.length ms -> asks (One (IMat [ns; ms])) (combine ns ms)
| asks_nm n m : asks (Two (IScalar n) (IScalar m)) [(n, m)]
| asks_nms ns ms : List.length ns = List.length ms -> asks (Two (IVec ns) (IVec ms)) (combine ns ms).
Definition rectangular (a : zargs) : Prop :=
  match a with One (IMat rows) => forall x y, In x rows -> In y rows -> List.length x = List.length y | _ => True end.
(** A shape that numpy stretches to another one: missing leading axes are supplied, axes of length 1 are repeated. *)
Inductive stretches : list Z -> list Z -> Prop :=
| str_none : forall rsh, stretches [] rsh
| str_axis : forall tsh rsh a b, stretches tsh rsh -> a = b \/ a = 1%Z -> stretches (tsh ++ [a]) (rsh ++ [b]).
(** The coordinates that remain of a position: those of the last axes, 0 along a repeated axis. *)
Inductive seen_at : list Z -> list Z -> list Z -> Prop :=
| sat_none : forall jx, seen_at [] jx []
| sat_axis : forall tsh jx kx a j, seen_at tsh jx kx -> seen_at (tsh ++ [a]) (jx ++ [j]) (kx ++ [if (a =? 1)%Z then 0%Z else j]).
