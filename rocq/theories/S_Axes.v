(** What an [axes] argument asks for (numpy's convention). *)
From Verif Require Export M_Axes S_FFT.
(** Axis i, or i - nd, of nd axes. *)
Definition names (nd : nat) (i : Z) (j : nat) : Prop := (j < nd)%nat /\ (i = Z.of_nat j \/ i = Z.of_nat j - Z.of_nat nd).
Definition names_all (nd : nat) (l : list Z) (js : list nat) : Prop := Forall2 (names nd) l js.
(** An argument that asks for the axes js, in this order. *)
Definition asks (nd : nat) (ax : axes_arg) (js : list nat) : Prop :=
  match ax with AxNone => js = seq 0 nd | AxInt i => exists j, names nd i j /\ js = [j] | AxSeq l => names_all nd l js end.
(** Some integer in the argument is no axis of an array with nd axes. *)
Definition out_of_range (nd : nat) (ax : axes_arg) : Prop :=
  match ax with AxNone => False | AxInt i => i < - Z.of_nat nd \/ Z.of_nat nd <= i | AxSeq l => exists i, In i l /\ (i < - Z.of_nat nd \/ Z.of_nat nd <= i) end.
Definition is_int (ax : axes_arg) : Prop := match ax with AxInt _ => True | _ => False end.
(** A transformed axis without points. *)
Definition empty_axis (sh : list Z) (js : list nat) : Prop := exists j, In j js /\ nth j sh 0 < 1.
