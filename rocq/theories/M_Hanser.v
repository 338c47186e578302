(** HanserPSF numerics (pyotf/otf.py:329-437, 204-212) over exact reals. *)
From Verif Require Export M_FFT M_Polar.
Local Open Scope R_scope.

(** otf.py:165-192: the two enumerated settings. *)
Inductive vec := VecNone | VecX | VecY | VecZ | VecTotal.
(** otf.py:187-189 *)
Inductive cond := CondNone | CondSine | CondHerschel.

(** The attributes _gen_psf reads. *)
Record hpar := mkHpar {
  h_wl : R; h_na : R; h_ni : R; h_res : R; h_size : Z; h_zrange : list R; h_vec : vec; h_cond : cond }.

(** numpy.fft.fftfreq(n, d)[k]:
      N = (n-1)//2 + 1; results[:N] = arange(0, N); results[N:] = arange(-(n//2), 0);
      results * (1.0 / (n*d)) *)
Definition fftfreq_ix (n k : Z) : Z :=
  let N := ((n - 1) / 2 + 1)%Z in if (k <? N)%Z then k else (- (n / 2) + (k - N))%Z.
(** numpy.fft.fftfreq(n, d)[k] *)
Definition fftfreq (n : Z) (d : R) (k : Z) : R := IZR (fftfreq_ix n k) * (1 / (IZR n * d)).

Section Pixel.
Context (h : hpar).
(** otf.py:329-338 _gen_kr at row y, column x: kxx[y,x] = k[x], kyy[y,x] = k[y] (meshgrid). *)
Definition hk (i : Z) : R := fftfreq (h_size h) (h_res h) i.
(** otf.py:333 _kr at a pixel *)
Definition h_kr (y x : Z) : R := fst (cart2pol (hk y) (hk x)).
(** otf.py:333 _phi at a pixel *)
Definition h_phi (y x : Z) : R := snd (cart2pol (hk y) (hk x)).
(** otf.py:335 _kmag *)
Definition h_kmag : R := h_ni h / h_wl h.
(** otf.py:338 _kz at a pixel *)
Definition h_kz (y x : Z) : R := psqrt (h_kmag ^ 2 - h_kr y x ^ 2).

(** otf.py:340-349 _gen_pupil: 1 where kr < na / wl, else 0. *)
Definition ideal_pupil (y x : Z) : R := if Rlt_dec (h_kr y x) (h_na h / h_wl h) then 1 else 0.
(** otf.py:340-349 _gen_pupil, the complex array. *)
Definition gen_pupil : array C :=
  mkArr [h_size h; h_size h] (fun ix => match ix with [y; x] => RtoC (ideal_pupil y x) | _ => RtoC 0 end).

(** otf.py:351-354 _calc_defocus at plane z. *)
Definition defocus (z y x : Z) : C := cis (2 * PI * h_kz y x * nth (Z.to_nat z) (h_zrange h) 0).

(** otf.py:386 theta = arcsin((kr < kmag) * kr / kmag) *)
Definition h_theta (y x : Z) : R :=
  asin ((if Rlt_dec (h_kr y x) h_kmag then h_kr y x else 0) / h_kmag).

(** otf.py:390-397 the imaging condition. *)
Definition apod (y x : Z) : R :=
  match h_cond h with
  | CondNone => 1
  | CondSine => 1 / sqrt (cos (h_theta y x))
  | CondHerschel => 1 / cos (h_theta y x)
  end.
End Pixel.

(** otf.py:399-415 the polarisation factors in order; [VecNone] has the one factor 1 (pupil[newaxis]). *)
Definition vec_z (v : vec) : bool := match v with VecZ | VecTotal => true | _ => false end.
(** otf.py:404 vec_corr is "y" or "total" *)
Definition vec_y (v : vec) : bool := match v with VecY | VecTotal => true | _ => false end.
(** otf.py:407 vec_corr is "x" or "total" *)
Definition vec_x (v : vec) : bool := match v with VecX | VecTotal => true | _ => false end.
(** otf.py:399-415 the factors for angles theta and phi. *)
Definition plist (v : vec) (theta phi : R) : list R :=
  match v with
  | VecNone => [1]
  | _ =>
    (if vec_z v then [sin theta * cos phi;                                      (* Pzx *)
                      sin theta * sin phi] else [])                             (* Pzy *)
    ++ (if vec_y v then [(cos theta - 1) * sin phi * cos phi;                   (* Pyx *)
                         cos theta * (sin phi) ^ 2 + (cos phi) ^ 2] else [])    (* Pyy *)
    ++ (if vec_x v then [cos theta * (cos phi) ^ 2 + (sin phi) ^ 2;             (* Pxx *)
                         (cos theta - 1) * sin phi * cos phi] else [])          (* Pxy *)
  end.

(** numpy broadcasting of one axis. *)
Definition bdim (p s : Z) : res Z :=
  if (p =? s)%Z then Ok s else if (p =? 1)%Z then Ok s else if (s =? 1)%Z then Ok p else Err ValueError.
(** Source index of an index along a broadcast axis. *)
Definition bix (p i : Z) : Z := if (p =? 1)%Z then 0%Z else i.

(** otf.py:382-415: base pupil [p0, p1] (shape (a, b)) times defocus, apodisation and polarisation,
    broadcast to shape (components, planes, ny, nx). *)
Definition pupils (h : hpar) (P : array C) (ny nx : Z) : array C :=
  let sy := nth 0 (shape P) 1%Z in let sx := nth 1 (shape P) 1%Z in let s := h_size h in
  mkArr [Z.of_nat (length (plist (h_vec h) 0 0)); Z.of_nat (length (h_zrange h)); ny; nx]
    (fun ix => match ix with
      | [c; z; y; x] =>
          let y' := bix s y in let x' := bix s x in
          Cmult (Cmult (Cmult (get P [bix sy y; bix sx x]) (defocus h z y' x'))
                       (RtoC (apod h y' x')))
                (RtoC (nth (Z.to_nat c) (plist (h_vec h) (h_theta h y' x') (h_phi h y' x')) 0))
      | _ => RtoC 0
      end).

(** otf.py:420 PSFa = fftshift(ifftn(pupils, axes=(2, 3)), axes=(2, 3)) *)
Definition axes23 : list bool := axes_mask 4 (Some [2%nat; 3%nat]).
(** otf.py:420 the amplitude PSF of a stack of pupils *)
Definition psfa_of (A : array C) : array C := fftshift axes23 (ifftn axes23 A).

(** otf.py:356-422 _gen_psf.  [1.0 / (n * d)] in fftfreq and [ni / wl] are Python float divisions
    and raise; a pupil that is not 2-d trips the assertion; numpy refuses shapes that do not broadcast.
    [ni = 0] would make theta NaN (0/0) in numpy but 0 here: theorems that use theta assume 0 < ni. *)
Definition gen_psf (h : hpar) (base : option (array C)) : res (array C) :=
  if Req_EM_T (IZR (h_size h) * h_res h) 0 then Err ZeroDivisionError
  else if Req_EM_T (h_wl h) 0 then Err ZeroDivisionError
  else
    match base with
    | None => Ok (psfa_of (pupils h (gen_pupil h) (h_size h) (h_size h)))
    | Some P =>
        match shape P with
        | [py; px] =>
            do ny <- bdim py (h_size h);
            do nx <- bdim px (h_size h);
            Ok (psfa_of (pupils h P ny nx))
        | _ => Err AssertionError
        end
    end.

(** otf.py:204-207 PSFi = (abs(PSFa) ** 2).sum(axis=0) *)
Definition sumsq (a : array C) : array R :=
  mkArr (tl (shape a)) (fun ix => Rsum (zseq (hd 0%Z (shape a))) (fun c => Cnorm2 (get a (c :: ix)))).
(** a real array seen as a complex one *)
Definition complexify (a : array R) : array C := amap RtoC a.
(** otf.py:209-212 OTFi = easy_fft(PSFi) *)
Definition otfi_of (a : array R) : array C := easy_fft None (complexify a).
(** otf.py:429-432 OTFa = easy_fft(PSFa, axes=(1, 2, 3)) *)
Definition otfa_of (a : array C) : array C := easy_fft (Some [1%nat; 2%nat; 3%nat]) a.
