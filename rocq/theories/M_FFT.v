(** numpy.fft and utils.easy_fft / easy_ifft (pyotf/utils.py:157-164), over exact complex numbers.
    numpy itself is outside /repo: [fftn], [ifftn], [fftshift], [ifftshift] follow its documentation. *)
From Verif Require Export M_Num.

(** [axes=None] means all axes; otherwise the axes that are listed. *)
Definition axes_mask (nd : nat) (axes : option (list nat)) : list bool :=
  match axes with
  | None => repeat true nd
  | Some l => map (fun i => existsb (Nat.eqb i) l) (seq 0 nd)
  end.

(** Roots of unity: exp(2 pi i m / n). *)
Definition root (n m : Z) : C := cis (2 * PI * (IZR m / IZR n)).

(** Discrete Fourier sum over the masked axes: sum over j of a[j] * root(sgn * j * k). *)
Fixpoint dft (sgn : Z) (mask : list bool) (sh : list Z) (f : list Z -> C) (ks : list Z) : C :=
  match mask, sh, ks with
  | b :: mask', n :: sh', k :: ks' =>
      if b then Csum (zseq n) (fun j => Cmult (root n (sgn * (j * k)))
                                              (dft sgn mask' sh' (fun js => f (j :: js)) ks'))
      else dft sgn mask' sh' (fun js => f (k :: js)) ks'
  | _, _, _ => f ks
  end.
(** Number of points along the masked axes. *)
Fixpoint masked_size (mask : list bool) (sh : list Z) : Z :=
  match mask, sh with
  | b :: mask', n :: sh' => (if b then n else 1) * masked_size mask' sh'
  | _, _ => 1
  end.

(** numpy.fft.fftn over the masked axes *)
Definition fftn (mask : list bool) (a : array C) : array C :=
  mkArr (shape a) (dft (-1) mask (shape a) (get a)).
(** numpy.fft.ifftn over the masked axes, with its factor 1/N *)
Definition ifftn (mask : list bool) (a : array C) : array C :=
  mkArr (shape a) (fun ks => Cmult (RtoC (/ IZR (masked_size mask (shape a))))
                                   (dft 1 mask (shape a) (get a) ks)).

(** fftshift rolls an axis of length n by n//2, ifftshift by -(n//2). *)
Fixpoint shift_ix (sgn : Z) (mask : list bool) (sh ks : list Z) : list Z :=
  match mask, sh, ks with
  | b :: mask', n :: sh', k :: ks' =>
      (if b then (k + sgn * (n / 2)) mod n else k) :: shift_ix sgn mask' sh' ks'
  | _, _, _ => ks
  end.
(** numpy.fft.fftshift over the masked axes *)
Definition fftshift {A} (mask : list bool) (a : array A) : array A :=
  mkArr (shape a) (fun ks => get a (shift_ix (-1) mask (shape a) ks)).
(** numpy.fft.ifftshift over the masked axes *)
Definition ifftshift {A} (mask : list bool) (a : array A) : array A :=
  mkArr (shape a) (fun ks => get a (shift_ix 1 mask (shape a) ks)).

(** utils.py:157-159 *)
Definition easy_fft (axes : option (list nat)) (a : array C) : array C :=
  let m := axes_mask (length (shape a)) axes in
  fftshift m (fftn m (ifftshift m a)).
(** utils.py:162-164 *)
Definition easy_ifft (axes : option (list nat)) (a : array C) : array C :=
  let m := axes_mask (length (shape a)) axes in
  ifftshift m (ifftn m (fftshift m a)).
