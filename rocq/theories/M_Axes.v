(** utils.easy_fft / easy_ifft (pyotf/utils.py:157-164) called with any [axes] argument: None, an integer, or a sequence of
    integers, possibly negative, out of range or repeated.  numpy is outside /repo; its functions follow its documentation and
    the behaviour of numpy 1.x ("repeated indices in axes mean that the transform over that axis is performed multiple times"). *)
From Verif Require Export M_FFT.

(** the [axes] argument of utils.py:157, 162 *)
Inductive axes_arg := AxNone | AxInt (i : Z) | AxSeq (l : list Z).

(** tuple indexing [x.shape[ax]] inside numpy.fft.fftshift (utils.py:159, 164): negative axes count from the end *)
Definition norm_axis (nd : nat) (i : Z) : res nat :=
  if (- Z.of_nat nd <=? i) && (i <? Z.of_nat nd) then Ok (Z.to_nat (i mod Z.of_nat nd)) else Err IndexError.
(** the list comprehension [x.shape[ax] // 2 for ax in axes] inside fftshift (utils.py:159, 164) *)
Fixpoint norm_axes (nd : nat) (l : list Z) : res (list nat) :=
  match l with
  | [] => Ok []
  | i :: l' => do j <- norm_axis nd i; do js <- norm_axes nd l'; Ok (j :: js)
  end.

(** the axes fftshift and ifftshift roll (utils.py:159, 164): an integer is accepted *)
Definition shift_axes (nd : nat) (ax : axes_arg) : res (list nat) :=
  match ax with AxNone => Ok (seq 0 nd) | AxInt i => norm_axes nd [i] | AxSeq l => norm_axes nd l end.
(** numpy.roll by [sgn * (n // 2)] for every time an axis is listed (fftshift, ifftshift; utils.py:159, 164) *)
Fixpoint roll_ix (sgn : Z) (i : nat) (l : list nat) (sh ks : list Z) : list Z :=
  match sh, ks with
  | n :: sh', k :: ks' => (k + sgn * (Z.of_nat (count_occ Nat.eq_dec l i) * (n / 2))) mod n :: roll_ix sgn (S i) l sh' ks'
  | _, _ => ks
  end.
(** numpy.fft.fftshift ([sgn = -1]) and ifftshift ([sgn = 1]) with any axes (utils.py:159, 164) *)
Definition shift_call {A} (sgn : Z) (ax : axes_arg) (a : array A) : res (array A) :=
  do l <- shift_axes (length (shape a)) ax; Ok (mkArr (shape a) (fun ks => get a (roll_ix sgn 0 l (shape a) ks))).

(** numpy.fft.fft ([f = fftn]) or ifft ([f = ifftn]) along one axis (utils.py:159, 164): an axis without points is refused *)
Definition along (f : list bool -> array C -> array C) (i : nat) (a : array C) : res (array C) :=
  if nth i (shape a) 0 <? 1 then Err ValueError else Ok (f (axes_mask (length (shape a)) (Some [i])) a).
(** numpy.fft.fftn / ifftn (utils.py:159, 164): one axis after the other, the last first; an integer is not a sequence *)
Definition fft_call (f : list bool -> array C -> array C) (ax : axes_arg) (a : array C) : res (array C) :=
  match ax with
  | AxInt _ => Err TypeError
  | AxNone | AxSeq _ => do l <- shift_axes (length (shape a)) ax; fold_right (fun i r => do b <- r; along f i b) (Ok a) l
  end.
(** utils.py:157-159 *)
Definition easy_fft_call (ax : axes_arg) (a : array C) : res (array C) :=
  do b <- shift_call 1 ax a; do c <- fft_call fftn ax b; shift_call (-1) ax c.
(** utils.py:162-164 *)
Definition easy_ifft_call (ax : axes_arg) (a : array C) : res (array C) :=
  do b <- shift_call (-1) ax a; do c <- fft_call ifftn ax b; shift_call 1 ax c.
