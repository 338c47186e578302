(** What a centred Fourier transform is, written as one sum. *)
From Verif Require Export M_Num.

(** The axes asked for: all of them for [axes=None], otherwise those listed; and a row of marks, one per axis,
    that is true exactly on them. *)
Definition requested (axes : option (list nat)) (i : nat) : Prop :=
  match axes with None => True | Some l => In i l end.
Definition marks (axes : option (list nat)) (nd : nat) (m : list bool) : Prop :=
  length m = nd /\ forall i, (i < nd)%nat -> (nth i m false = true <-> requested axes i).

(** The positions that agree with [ks] on the axes that are not transformed. *)
Fixpoint box (mask : list bool) (sh ks : list Z) : list (list Z) :=
  match mask, sh, ks with
  | b :: mask', n :: sh', k :: ks' =>
      flat_map (fun j => map (cons j) (box mask' sh' ks')) (if b then zseq n else [k])
  | _, _, _ => [ks]
  end.
(** Phase in turns: sum over transformed axes of (j - n//2) * (k - n//2) / n. *)
Fixpoint turns (mask : list bool) (sh js ks : list Z) : R :=
  match mask, sh, js, ks with
  | b :: mask', n :: sh', j :: js', k :: ks' =>
      ((if b then IZR ((j - n / 2) * (k - n / 2)) / IZR n else 0) + turns mask' sh' js' ks')%R
  | _, _, _, _ => 0%R
  end.
Definition fourier_sum (mask : list bool) (sh : list Z) (f : list Z -> C) (ks : list Z) : C :=
  Csum (box mask sh ks) (fun js => Cmult (cis (- (2 * PI * turns mask sh js ks))) (f js)).

(** Number of points along the transformed axes. *)
Fixpoint points (mask : list bool) (sh : list Z) : Z :=
  match mask, sh with
  | true :: mask', n :: sh' => n * points mask' sh'
  | false :: mask', _ :: sh' => points mask' sh'
  | _, _ => 1
  end.

(** Index mirrored through the centre n//2, modulo n, on the transformed axes. *)
Fixpoint mirror (mask : list bool) (sh ks : list Z) : list Z :=
  match mask, sh, ks with
  | b :: mask', n :: sh', k :: ks' =>
      (if b then (2 * (n / 2) - k) mod n else k) :: mirror mask' sh' ks'
  | _, _, _ => ks
  end.
(** Index at the centre on the transformed axes. *)
Fixpoint at_centre (mask : list bool) (sh ks : list Z) : list Z :=
  match mask, sh, ks with
  | b :: mask', n :: sh', k :: ks' => (if b then n / 2 else k) :: at_centre mask' sh' ks'
  | _, _, _ => ks
  end.

(** What easy_ifft(easy_fft(x)) does to an axis: nothing when it is even; when it is odd, shift by one
    and multiply by exp(-2 pi i (k + n//2) / n). *)
Fixpoint trip_index (mask : list bool) (sh ks : list Z) : list Z :=
  match mask, sh, ks with
  | b :: mask', n :: sh', k :: ks' =>
      (if b && Z.odd n then (k - 1) mod n else k) :: trip_index mask' sh' ks'
  | _, _, _ => ks
  end.
Fixpoint trip_turns (mask : list bool) (sh ks : list Z) : R :=
  match mask, sh, ks with
  | b :: mask', n :: sh', k :: ks' =>
      ((if b && Z.odd n then IZR (k + n / 2) / IZR n else 0) + trip_turns mask' sh' ks')%R
  | _, _, _ => 0%R
  end.
