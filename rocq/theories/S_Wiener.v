(** Vocabulary for Wiener deconvolution of an image. *)
From Verif Require Export S_SIM S_FFT.
Import M_Array.
Local Open Scope R_scope.

(** Power of the image d at frequency k: |easy_fft(d)[k]|^2. *)
Definition energy (d : array R) (k : list Z) : R := Cmod (get (easy_fft None (amap RtoC d)) k) ^ 2.
(** The largest power is M. *)
Definition brightest (d : array R) (M : R) : Prop :=
  (exists k, inb (shape d) k /\ energy d k = M) /\ forall k, inb (shape d) k -> energy d k <= M.
(** What is left of a frequency of power v: all within the support when q is 0, else the Wiener factor, the noise being the
    fraction q^2 of the largest power. *)
Definition gain (q M v : R) : R :=
  if Req_EM_T q 0 then (if Rlt_dec (1 / 10 ^ 16) v then 1 else 0) else v / (v + M * q ^ 2).
Definition filtered (q M : R) (d : array R) : array C := mkArr (shape d) (fun k => RtoC (gain q M (energy d k))).
(** p is the point response that remains after deconvolving. *)
Definition deconvolved (q : R) (d p : array R) : Prop :=
  shape p = shape d /\ exists M, brightest d M /\ forall ix, inb (shape d) ix -> get p ix = Re (get (easy_ifft None (filtered q M d)) ix).
(** The frequency at which easy_ifft's output has its sum: the centre, but on odd axes the next one. *)
Definition zero_frequency (sh : list Z) : list Z := map (fun n => if Z.odd n then (n / 2 + 1) mod n else n / 2)%Z sh.
(** something is not black *)
Definition not_black (d : array R) : Prop := exists ix, inb (shape d) ix /\ get d ix <> 0.
