(** WidefieldMicroscope.plot_psf and plot_otf (pyotf/microscope.py:131-171), up to the calls to
    pyotf.display.  Keyword arguments: M_Kwargs.v. *)
From Verif Require Export M_Micro M_Display.
Import M_Array.
Local Open Scope R_scope.

(** numpy.argmax of an array with NaNs ([None]): the first NaN, else the first maximum. *)
Definition o_lt (x y : option R) : bool :=
  match x, y with
  | None, _ => false
  | Some _, None => true
  | Some a, Some b => if Rlt_dec a b then true else false
  end.

(** microscope.py:137-146: widths of the window, in pixels.  [ni - np.sqrt(...)] is a numpy number:
    dividing by it never raises; for 0 < na <= ni it is positive.  na > ni (NaN width) is not modelled
    faithfully: numpy's conversion of NaN to int is undefined. *)
Definition lateral_extent (wl na pixel : R) : res R :=
  do a <- pdiv (wl / 2) na; do b <- pdiv a pixel; Ok (b * 32).
(** microscope.py:141-142 *)
Definition axial_extent (wl na ni pixel : R) : res R :=
  do b <- pdiv (wl / (ni - sqrt (ni ^ 2 - na ^ 2))) pixel; Ok (b * 16).

(** microscope.py:146 slice_maker (utils.py:133-154) for integer positions and real widths. *)
Definition r_slice_maker (xs : list Z) (ws : list R) : res (list pyslice) :=
  if negb (Nat.eqb (List.length ws) (List.length xs)) then Err RuntimeError
  else if existsb (fun w => if Rlt_dec w 0 then true else false) ws then Err ValueError
  else slice_loop (combine xs (map rint ws)).

(** microscope.py:131-147 plot_psf.  [None]: the PSF is not finite, the panels are not modelled. *)
Definition m_plot_psf (mip : bool) : MM (option (list panel)) :=
  let! wl := model_R A_wl in
  let! na := model_R A_na in
  let! px := (fun m => (as_R (mi_pixel m), m)) in
  let! lat := mlift (lateral_extent wl na px) in
  let! ni := model_R A_ni in
  let! ax := mlift (axial_extent wl na ni px) in
  let! a := m_PSF in
  let! am := mlift (argmax o_lt a) in
  let max_loc := unravel (shape a) am in
  let! crop := mlift (r_slice_maker max_loc [ax; lat; lat]) in
  let! part := mlift (getitem a crop) in
  match all_some (map (get a) (all_ix (shape a))) with
  | None => mret None
  | Some _ =>
      let! ps := mlift (psf_plot (amap (fun v => match v with Some x => x | None => 0 end) part) px px mip) in
      mret (Some ps)
  end.

(** np.finfo(float).eps *)
Definition eps : R := / 2 ^ 52.
(** microscope.py:155-158: abs(OTF) / its maximum, then np.fmax(., eps), which replaces NaN by eps.
    A NaN anywhere makes the maximum NaN; a zero maximum makes 0/0. *)
Definition shown (o : array (option C)) : res (array R) :=
  match all_some (map (get o) (all_ix (shape o))) with
  | None => Ok (amap (fun _ => eps) o)
  | Some _ =>
      let mag := amap (fun v => match v with Some c => Cmod c | None => 0 end) o in
      do m <- r_max mag;
      if Req_EM_T m 0 then Ok (amap (fun _ => eps) o)
      else Ok (amap (fun v => Rmax (v / m) eps) mag)
  end.
(** microscope.py:149-171 plot_otf *)
Definition m_plot_otf : MM (list panel * circle * list wedge) :=
  let! o := m_OTF in
  let! otf := mlift (shown o) in
  let! na := model_R A_na in
  let! ni := model_R A_ni in
  let! wl := model_R A_wl in
  let! px := (fun m => (as_R (mi_pixel m), m)) in
  mlift (otf_plot otf na ni wl px px).
