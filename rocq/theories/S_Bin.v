(** Specification of binning, independent of M_Bin's helpers. *)
From Verif Require Import M_Num.
(** Pixel o of block i when the blocks have the sizes ks: i*k + o on every axis. *)
Fixpoint block_ix (ks i o : list Z) : list Z :=
  match ks, i, o with k :: ks', x :: i', y :: o' => (x * k + y) :: block_ix ks' i' o' | _, _, _ => [] end.
(** Sum of the pixels of block i *)
Definition block_sum (a : array R) (ks i : list Z) : R := Rsum (all_ix ks) (fun o => get a (block_ix ks i o)).
(** Sum of all elements *)
Definition total (a : array R) : R := Rsum (all_ix (shape a)) (get a).
(** cs is ks times ds, axis by axis *)
Definition tiles (cs ks ds : list Z) : Prop := Forall2 (fun c kd => c = fst kd * snd kd) cs (combine ks ds) /\ List.length ks = List.length ds.
