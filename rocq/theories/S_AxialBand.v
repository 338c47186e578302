(** Vocabulary for C113: which axial frequencies a model's shell can give its images. *)
From Verif Require Export S_Shell.
Local Open Scope R_scope.

Section S.
Context (p : spar) (A : array (option C)).
(** plane [l] of the OTF has an amplitude that is not zero *)
Definition lit_plane (l : Z) : Prop :=
  (0 <= l < s_zsize p)%Z /\ exists c ky kx, (0 <= c < components (s_vec p))%Z /\ on_ix p l ky kx /\ get A [c; l; ky; kx] <> Some (RtoC 0).
(** two such planes lie [s] apart *)
Definition planes_apart (s : Z) : Prop := exists l l', lit_plane l /\ lit_plane l' /\ s = (l - l')%Z.
End S.
(** entry [kz] of an axis of [m] stands for the frequency [s] (cycles per stack), cyclically *)
Definition stands_for (m kz s : Z) : Prop := ((s - (kz - m / 2)) mod m = 0)%Z.
(** planes [kz] of the transform vanish *)
Definition no_plane (o : array (option C)) (n kz : Z) : Prop := forall ky kx, (0 <= ky < n)%Z -> (0 <= kx < n)%Z -> get o [kz; ky; kx] = Some (RtoC 0).
