(** What an aberration is, in the vocabulary of optics. *)
From Verif Require Export M_Aberr S_Hanser S_Zernike.
Local Open Scope R_scope.

(** The normalised Zernike mode with Noll index j. *)
Definition zmode (j : Z) (r t : R) : R :=
  match noll2degrees (NInts [j]) with Ok [(n, m)] => zernike_at true n m r t | _ => 0 end.
(** Sum of coefficient times mode, Noll order from 1. *)
Definition mix (cs : list R) (r t : R) : R :=
  Rsum (seq 0 (List.length cs)) (fun i => nth i cs 0 * zmode (Z.of_nat i + 1) r t).
Section S.
Context (h : hpar).
(** Polar pupil coordinates of a pixel; the radius is 1 on the aperture's rim. *)
Definition pupil_r (y x : Z) : R := sqrt (k2 h y x) * h_wl h / h_na h.
Definition pupil_t (y x : Z) : R := snd (cart2pol (sfreq (h_size h) (h_res h) y) (sfreq (h_size h) (h_res h) x)).
(** The clear circular aperture. *)
Definition clear (y x : Z) : R := if Rlt_dec (k2 h y x) ((h_na h / h_wl h) ^ 2) then 1 else 0.
(** The aberrated pupil function: magnitude (clear + sum of mcoefs) and phase (sum of pcoefs). *)
Definition aberrated (m p : list R) (y x : Z) : C :=
  Cmult (RtoC (clear y x + mix m (pupil_r y x) (pupil_t y x))) (cis (mix p (pupil_r y x) (pupil_t y x))).
End S.
(** The k coefficients an argument stands for: an array of them, or None for zeros. *)
Inductive stands_for : coefs -> nat -> list R -> Prop :=
| st_vec l : stands_for (CVec l) (List.length l) l
| st_none k : stands_for CNone k (repeat 0 k).
Definition is_none (c : coefs) : bool := match c with CNone => true | _ => false end.
(** [q] is [p] with [c] added to the coefficient of Noll index [j]. *)
Definition adds (j : nat) (c : R) (p q : list R) : Prop :=
  List.length q = List.length p /\ (1 <= j <= List.length p)%nat /\
  forall i, (1 <= i <= List.length p)%nat -> nth (i - 1) q 0 = nth (i - 1) p 0 + if Nat.eqb i j then c else 0.
(** The classical names and their degrees (radial, azimuthal). *)
Definition classical : list (string * (Z * Z)) :=
  [("piston", (0, 0)); ("tip", (1, 1)); ("tilt", (1, -1)); ("defocus", (2, 0)); ("oblique astigmatism", (2, -2));
   ("vertical astigmatism", (2, 2)); ("vertical coma", (3, -1)); ("horizontal coma", (3, 1)); ("vertical trefoil", (3, -3));
   ("oblique trefoil", (3, 3)); ("primary spherical", (4, 0)); ("vertical secondary astigmatism", (4, 2));
   ("oblique secondary astigmatism", (4, -2)); ("vertical quadrafoil", (4, 4)); ("oblique quadrafoil", (4, -4))]%string%Z.
Definition known (a : string) : Prop := In a (map fst classical).
(** Total magnitude a list of (name, magnitude) pairs gives to one name. *)
Definition total_for (a : string) (items : list (string * R)) : R :=
  Rsum items (fun kv => if String.eqb (fst kv) a then snd kv else 0).
