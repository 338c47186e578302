(** Vocabulary for C112: the transform of SheppardPSF's intensity as an autocorrelation. *)
From Verif Require Export S_Shell.
Local Open Scope R_scope.

(** the amplitude at an index *)
Definition amplitude (A : array (option C)) (ix : list Z) : C := match get A ix with Some v => v | None => RtoC 0 end.
(** e^(2 pi i t), t in turns *)
Definition turn (t : R) : C := (cos (2 * PI * t), sin (2 * PI * t)).
(** along an axis of odd length m the image lies one pixel further on than easy_fft's centre: a phase ramp *)
Definition ramp (m k : Z) : C := if Z.even m then RtoC 1 else turn (- IZR (k - m / 2) / IZR m).
Section S.
Context (p : spar).
(** the index displaced by minus the frequency at (kz, ky, kx), cyclically *)
Definition displaced (kz ky kx : Z) (ix : list Z) : list Z :=
  match ix with
  | [z; y; x] => [(z - (kz - s_zsize p / 2)) mod s_zsize p; (y - (ky - s_size p / 2)) mod s_size p; (x - (kx - s_size p / 2)) mod s_size p]%Z
  | _ => []
  end.
Definition grid : list (list Z) := all_ix [s_zsize p; s_size p; s_size p].
Definition points : R := IZR (s_zsize p * (s_size p * s_size p)).
Definition ramps (kz ky kx : Z) : C := Cmult (ramp (s_zsize p) kz) (Cmult (ramp (s_size p) ky) (ramp (s_size p) kx)).
(** cyclic autocorrelation of the amplitudes, summed over the components *)
Definition self_overlap (A : array (option C)) (kz ky kx : Z) : C :=
  Csum (zseq (components (s_vec p))) (fun c => Csum grid (fun ix => Cmult (amplitude A (c :: ix)) (Cconj (amplitude A (c :: displaced kz ky kx ix))))).
(** scalar case: the indices whose amplitude is not zero, and how many pairs of them lie that far apart *)
Definition bright (A : array (option C)) (ix : list Z) : bool := if Req_EM_T (Re (amplitude A (0%Z :: ix))) 0 then false else true.
Definition pairs (A : array (option C)) (kz ky kx : Z) : nat :=
  List.length (filter (fun ix => bright A ix && bright A (displaced kz ky kx ix)) grid).
End S.
