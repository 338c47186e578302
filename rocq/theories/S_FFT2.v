(** What easy_fft(easy_ifft(X)) does to an axis: nothing when it is even; when it is odd, it reads the next element and multiplies
    by exp(2 pi i (n//2 - k) / n). *)
From Verif Require Export S_FFT.
Fixpoint back_index (mask : list bool) (sh ks : list Z) : list Z :=
  match mask, sh, ks with
  | b :: mask', n :: sh', k :: ks' => (if b && Z.odd n then (k + 1) mod n else k) :: back_index mask' sh' ks'
  | _, _, _ => ks
  end.
Fixpoint back_turns (mask : list bool) (sh ks : list Z) : R :=
  match mask, sh, ks with
  | b :: mask', n :: sh', k :: ks' => ((if b && Z.odd n then IZR (n / 2 - k) / IZR n else 0) + back_turns mask' sh' ks')%R
  | _, _, _ => 0%R
  end.
