(** pyotf/display.py over exact reals: extents, focal-shift factor, panel contents and overlays.
    matplotlib is outside /repo; what is modelled is the data each call hands to it. *)
From Verif Require Export M_FFT.
From Coq Require Export String.
Import M_Array.
Local Open Scope R_scope.

(** Python's float division. *)
Definition pdiv (x y : R) : res R := if Req_EM_T y 0 then Err ZeroDivisionError else Ok (x / y).

(** display.py:23-46 *)
Definition max_min (n : Z) (d : R) : R * R :=
  let min_ := IZR (n / 2) * d in
  let max_ := IZR (n / 2 - (n - 1) mod 2) * d in
  (- min_, max_).

(** display.py:49-71 *)
Definition fft_max_min (n : Z) (d : R) : res (R * R) :=
  do a <- pdiv 1 d;
  do step_size <- pdiv a (IZR n);
  Ok (max_min n step_size).

(** What z_squeeze returns: the int 1, or the numpy float quotient with its special values. *)
Inductive squeeze := QOne | QFin (r : R) | QNaN | QInf (neg : bool).
(** display.py:84-85, the inner function [func].  [np.sqrt] of [max(0, ...)] never sees a negative number. *)
Definition sq_func (na n : R) : R := n - sqrt (Rmax 0 (n ^ 2 - na ^ 2)).
(** display.py:74-87.  The quotient is a numpy one: x/0 is an infinity or NaN, with a warning; the
    zero comes from [n - n] and is positive. *)
Definition z_squeeze (n1 n2 na : R) : squeeze :=
  if Req_EM_T n1 n2 then QOne
  else let x := sq_func na n1 in let y := sq_func na n2 in
       if Req_EM_T y 0 then (if Req_EM_T x 0 then QNaN else QInf (if Rlt_dec x 0 then true else false))
       else QFin (x / y).

(** One imshow call: position in the 2x2 grid, title, image, extent (left, right, bottom, top). *)
Record panel := mkPanel { p_slot : nat; p_title : string; p_img : array R; p_left : R; p_right : R; p_bottom : R; p_top : R }.

(** numpy [a.max(axis)] on a 3-D array; an empty axis has no maximum (ValueError). *)
Definition max_over (n : Z) (f : Z -> R) : R := fold_left (fun m k => Rmax m (f k)) (tl (zseq n)) (f 0%Z).
(** display.py:152 psf.max(0) *)
Definition max0 (nz ny nx : Z) (a : array R) : res (array R) :=
  if (nz <=? 0)%Z then Err ValueError
  else Ok (mkArr [ny; nx] (fun ix => match ix with [y; x] => max_over nz (fun z => get a [z; y; x]) | _ => 0 end)).
(** display.py:153 psf.max(1) *)
Definition max1 (nz ny nx : Z) (a : array R) : res (array R) :=
  if (ny <=? 0)%Z then Err ValueError
  else Ok (mkArr [nz; nx] (fun ix => match ix with [z; x] => max_over ny (fun y => get a [z; y; x]) | _ => 0 end)).
(** display.py:154 psf.max(2) *)
Definition max2 (nz ny nx : Z) (a : array R) : res (array R) :=
  if (nx <=? 0)%Z then Err ValueError
  else Ok (mkArr [nz; ny] (fun ix => match ix with [z; y] => max_over nx (fun x => get a [z; y; x]) | _ => 0 end)).
(** [a[k, :, :]], [a[:, k, :]], [a[:, :, k]] with 0 <= k; IndexError outside. *)
Definition slice0 (nz ny nx k : Z) (a : array R) : res (array R) :=
  if (k <? nz)%Z then Ok (mkArr [ny; nx] (fun ix => match ix with [y; x] => get a [k; y; x] | _ => 0 end)) else Err IndexError.
(** [a[:, k, :]] *)
Definition slice1 (nz ny nx k : Z) (a : array R) : res (array R) :=
  if (k <? ny)%Z then Ok (mkArr [nz; nx] (fun ix => match ix with [z; x] => get a [z; k; x] | _ => 0 end)) else Err IndexError.
(** [a[:, :, k]] *)
Definition slice2 (nz ny nx k : Z) (a : array R) : res (array R) :=
  if (k <? nx)%Z then Ok (mkArr [nz; ny] (fun ix => match ix with [z; y] => get a [z; y; k] | _ => 0 end)) else Err IndexError.
(** [.T] of a 2-D array. *)
Definition transpose2 (a : array R) : array R :=
  mkArr (rev (shape a)) (fun ix => get a (rev ix)).

(** One imshow call with extent=[left, right, bottom, top] = the two axis ranges. *)
Definition imshow (slot : nat) (title : string) (img : array R) (h v : R * R) : panel :=
  mkPanel slot title img (fst h) (snd h) (fst v) (snd v).

(** display.py:90-171 psf_plot.  Not modelled: figure and axes creation, colour normalisation, the
    tick removal; keyword arguments are in M_Kwargs.v.  The title is attached to the image of its slot. *)
Definition psf_plot (psf : array R) (zres res : R) (mip : bool) : Base.res (list panel) :=
  match shape psf with
  | [nz; ny; nx] =>
      let kz := max_min nz zres in let ky := max_min ny res in let kx := max_min nx res in
      do xy <- (if mip then max0 nz ny nx psf else slice0 nz ny nx (nz / 2) psf);
      do zx <- (if mip then max1 nz ny nx psf else slice1 nz ny nx (ny / 2) psf);
      do zy <- (if mip then max2 nz ny nx psf else slice2 nz ny nx (nx / 2) psf);
      Ok [imshow 3 "XY" xy kx ky; imshow 2 "YZ" (transpose2 zx) kz ky; imshow 1 "XZ" zy kx kz]
  | _ => Err ValueError
  end.

(** matplotlib patches handed to [add_patch]. *)
Record circle := mkCircle { c_x : R; c_y : R; c_r : R }.
(** Wedge(centre, r, theta1, theta2, width=0): the arc from theta1 to theta2 (degrees). *)
Record wedge := mkWedge { w_slot : nat; w_x : R; w_y : R; w_r : R; w_t1 : R; w_t2 : R }.

(** numpy.rad2deg *)
Definition rad2deg (x : R) : R := x * 180 / PI.

(** display.py:254-274: the marginal angle and the eight arcs, in the order of the loops. *)
Definition marginal_angle (na ni : R) : Base.res R := do q <- pdiv na ni; Ok (asin (Rmin 1 q)).
(** One arc: the panel [slot] and its angle b, the loop variables j and i. *)
Definition wedge_of (a n_l b : R) (slot : nat) (j i : R) : wedge :=
  mkWedge slot (n_l * sin (a + b + j)) (n_l * cos (a + b + i)) n_l
    (rad2deg (- a - PI / 2 + i * cos b - (j + PI) * sin b + b))
    (rad2deg (a - PI / 2 + i * cos b - (j + PI) * sin b + b)).
(** The eight arcs: two panels, two values of j, two of i. *)
Definition wedges (a n_l : R) : list wedge :=
  flat_map (fun bg => flat_map (fun j => map (fun i => wedge_of a n_l (fst bg) (snd bg) j i) [0; PI]) [0; PI])
    [(0, 1%nat); (PI / 2, 2%nat)].

(** display.py:174-276 otf_plot: panels, the circle drawn on the kXY panel, the arcs. *)
Definition otf_plot (otf : array R) (na ni wl zres res : R) : Base.res (list panel * circle * list wedge) :=
  match shape otf with
  | [nz; ny; nx] =>
      if negb (nx =? ny)%Z then Err AssertionError
      else
        do kz <- fft_max_min nz zres;
        do ky <- fft_max_min ny res;
        do kx <- fft_max_min nx res;
        do xy <- slice0 nz ny nx (nz / 2) otf;
        do zx <- slice1 nz ny nx (ny / 2) otf;
        do zy <- slice2 nz ny nx (nx / 2) otf;
        do a <- marginal_angle na ni;
        do r <- pdiv (2 * na) wl;
        do n_l <- pdiv ni wl;
        Ok ([imshow 3 "k_XY" xy kx ky; imshow 2 "k_YZ" (transpose2 zx) kz ky; imshow 1 "k_XZ" zy kx kz],
            mkCircle 0 0 r, wedges a n_l)
  | _ => Err ValueError
  end.
