(** BasePSF._validate_zrange, plot_psf and plot_otf (pyotf/otf.py:214-257), up to the calls to pyotf.display.  Keyword
    arguments: M_Kwargs.v. *)
From Verif Require Export M_Engine M_Plot.
Import M_Array.
Local Open Scope R_scope.

(** Float addition and subtraction, exact on finite values. *)
Definition fl_opp (x : fl) : fl := match x with FFin q => FFin (- q)%Q | FNaN => FNaN | FInf n => FInf (negb n) end.
(** float addition *)
Definition fl_add (x y : fl) : fl :=
  match x, y with
  | FNaN, _ | _, FNaN => FNaN
  | FFin a, FFin b => FFin (a + b)%Q
  | FInf a, FInf b => if Bool.eqb a b then FInf a else FNaN
  | FInf a, _ | _, FInf a => FInf a
  end.
(** float subtraction *)
Definition fl_sub (x y : fl) : fl := fl_add x (fl_opp y).
(** numpy.diff of a 1-d array: a[1:] - a[:-1] *)
Fixpoint diff (l : list fl) : list fl :=
  match l with
  | x :: ((y :: _) as l') => fl_sub y x :: diff l'
  | _ => []
  end.
(** numpy's mean of a non-empty array *)
Definition fl_mean (l : list fl) : fl :=
  match fold_left fl_add l (FFin 0%Q), Z.of_nat (List.length l) with
  | FFin q, n => FFin (q / inject_Z n)%Q
  | x, _ => x
  end.
(** numpy.isclose(x, y), rtol = 1e-5, atol = 1e-8: |x - y| <= atol + rtol |y| when both are finite, x == y otherwise. *)
Definition isclose (x y : fl) : bool :=
  match x, y with
  | FFin a, FFin b => Qle_bool (Qabs.Qabs (a - b)) ((1 # 100000000) + (1 # 100000) * Qabs.Qabs b)
  | _, _ => fl_eq x y
  end.
(** otf.py:218-219: the condition under which the range is refused *)
Definition bad_steps (zrange : list fl) : bool :=
  let zsteps := diff zrange in
  Nat.ltb (List.length zsteps) 2 || negb (forallb (fun s => isclose s (fl_mean zsteps)) zsteps).

Local Notation PM := (M numeric).
Local Notation "'let*' x ':=' m 'in' k" := (bindM numeric m (fun x => k)) (at level 200, x name, k at level 200, right associativity).

(** otf.py:214-222.  A SheppardPSF has no attribute zrange (one the user adds is not modelled): the AttributeError is
    swallowed. *)
Definition validate_zrange : PM unit := fun o =>
  match o_zrange o with
  | None => (Ok tt, o)
  | Some l => if bad_steps l then (Err RuntimeError, o) else (Ok tt, o)
  end.

(** an attribute as a number *)
Definition attr_R (a : attr) : PM R := let* v := getattr numeric a in lift numeric (as_R v).
(** the entries of a real array *)
Definition real_entries (a : array (option C)) : array (option R) := amap (fun v => match v with Some c => Some (Re c) | None => None end) a.

(** otf.py:224-237 plot_psf: widths as in M_Plot with [res] across and [zres] along the axis.  [None]: the PSF is not
    finite, the panels are not modelled. *)
Definition p_plot_psf (c : cls) (mip : bool) : PM (option (list panel)) :=
  let* _ := validate_zrange in
  let* wl := attr_R A_wl in
  let* na := attr_R A_na in
  let* rs := attr_R A_res in
  let* lat := lift numeric (lateral_extent wl na rs) in
  let* ni := attr_R A_ni in
  let* zres := attr_R A_zres in
  let* ax := lift numeric (axial_extent wl na ni zres) in
  let* b := read numeric c PSFi in
  let a := real_entries b in
  let* am := lift numeric (argmax o_lt a) in
  let* crop := lift numeric (r_slice_maker (unravel (shape a) am) [ax; lat; lat]) in
  let* part := lift numeric (getitem a crop) in
  match all_some (map (get a) (all_ix (shape a))) with
  | None => ret numeric None
  | Some _ =>
      let* ps := lift numeric (psf_plot (amap (fun v => match v with Some x => x | None => 0 end) part) zres rs mip) in
      ret numeric (Some ps)
  end.

(** otf.py:239-256 plot_otf: [shown] of M_Plot is abs(OTFi) / max, then fmax with eps. *)
Definition p_plot_otf (c : cls) : PM (list panel * circle * list wedge) :=
  let* _ := validate_zrange in
  let* o := read numeric c OTFi in
  let* otf := lift numeric (shown o) in
  let* na := attr_R A_na in
  let* ni := attr_R A_ni in
  let* wl := attr_R A_wl in
  let* zres := attr_R A_zres in
  let* rs := attr_R A_res in
  lift numeric (otf_plot otf na ni wl zres rs).
