(** Keyword arguments of the plotting functions: pyotf/display.py:90-158, 174-242, otf.py:224-257, microscope.py:131-171.
    What is modelled: binding of keywords to parameters, the dictionary handed to every imshow call, the colour normalisation
    asked for.  What matplotlib does with them is outside. *)
From Verif Require Export M_PsfPlot.
Import M_Array.
Local Open Scope string_scope.
Local Open Scope list_scope.
Local Open Scope R_scope.

Section Objects.
Context (V : Type).                      (* any Python object *)
Context (truth : V -> bool).             (* bool(v) *)
Context (number : V -> res R).           (* v used as a number *)

(** A Python value: an object of the caller's, or one of the constants in the source. *)
Inductive pv := PObj (v : V) | PNone | PNum (r : R) | PBool (b : bool) | PStr (s : string).
(** Keyword arguments, in order; Python guarantees distinct keys. *)
Definition kwdict := list (string * pv).
(** matplotlib.colors.PowerNorm(gamma, vmin, vmax) or LogNorm(vmin, vmax) *)
Inductive norm := PowerNorm (gamma vmin vmax : pv) | LogNorm (vmin vmax : pv).
(** A keyword argument of imshow: a value, a normalisation made here, or the extent. *)
Inductive sval := SVal (v : pv) | SNorm (n : norm).
(** the keyword arguments of one imshow call, without extent *)
Definition style := list (string * sval).

(** d.get(k) *)
Fixpoint kget {A} (d : list (string * A)) (k : string) : option A :=
  match d with [] => None | (k', v) :: d' => if String.eqb k k' then Some v else kget d' k end.
(** k in d *)
Definition khas {A} (d : list (string * A)) (k : string) : bool := match kget d k with Some _ => true | None => false end.
(** d without k: what dict.pop leaves, and what a named parameter takes out of ** kwargs *)
Definition kdel {A} (d : list (string * A)) (k : string) : list (string * A) := filter (fun kv => negb (String.eqb (fst kv) k)) d.
(** d[k] = v *)
Fixpoint kset {A} (d : list (string * A)) (k : string) (v : A) : list (string * A) :=
  match d with [] => [(k, v)] | (k', v') :: d' => if String.eqb k k' then (k', v) :: d' else (k', v') :: kset d' k v end.
(** d.update(e) *)
Fixpoint kupdate {A} (d e : list (string * A)) : list (string * A) := match e with [] => d | (k, v) :: e' => kupdate (kset d k v) e' end.
(** dict.pop(k, default): display.py:133-135, 225 *)
Definition kpop (d : kwdict) (k : string) (default : pv) : pv * kwdict := (match kget d k with Some v => v | None => default end, kdel d k).
(** an optional parameter *)
Definition kopt (d : kwdict) (k : string) (default : pv) : pv := match kget d k with Some v => v | None => default end.
(** a required keyword-only parameter *)
Definition kreq (d : kwdict) (k : string) : res pv := match kget d k with Some v => Ok v | None => Err TypeError end.
(** bool(v) *)
Definition ptruth (v : pv) : bool :=
  match v with PObj v => truth v | PNone => false | PNum r => if Req_EM_T r 0 then false else true | PBool b => b | PStr s => negb (String.eqb s "") end.
(** v as a number *)
Definition pnumber (v : pv) : res R :=
  match v with PObj v => number v | PNum r => Ok r | PBool b => Ok (if b then 1 else 0) | _ => Err TypeError end.

(** The figure drawn in: one made by the function, or the caller's (display.py:142-143, 231-232: [fig is None]). *)
Inductive figure := NewFigure | CallersFigure (v : pv).
(** display.py:142-143 *)
Definition figure_of (v : pv) : figure := match v with PNone => NewFigure | _ => CallersFigure v end.
(** What a plotting function asks matplotlib for: figure, position, the three images with their style. *)
Record drawn := mkDrawn { d_fig : figure; d_loc : pv; d_images : list (panel * style) }.
(** the default style: display.py:131-140, 224-229 *)
Definition dkwargs (n : norm) (rest : kwdict) : style :=
  kupdate [("norm", SNorm n); ("interpolation", SVal (PStr "nearest")); ("cmap", SVal (PStr "inferno"))] (map (fun kv => (fst kv, SVal (snd kv))) rest).

(** The call psf_plot(psf, ** kw): display.py:90-158.  A keyword "psf" meets the positional argument; "extent" is passed twice to the
    first imshow, after its image has been computed. *)
Definition psf_plot_kw (psf : array R) (kw : kwdict) : res drawn :=
  if khas kw "psf" then Err TypeError
  else
    do zres <- kreq kw "zres"; do rs <- kreq kw "res";
    let fig := kopt kw "fig" PNone in
    let loc := kopt kw "loc" (PNum 111) in
    let mip := ptruth (kopt kw "mip" (PBool true)) in
    let rest := kdel (kdel (kdel (kdel (kdel kw "zres") "res") "fig") "loc") "mip" in
    let (gamma, rest) := kpop rest "gamma" (PNum (1 / 2)) in
    let (vmin, rest) := kpop rest "vmin" PNone in
    let (vmax, rest) := kpop rest "vmax" PNone in
    let st := dkwargs (PowerNorm gamma vmin vmax) rest in
    match shape psf with
    | [nz; ny; nx] =>
        do z <- pnumber zres; do r <- pnumber rs;
        if khas st "extent" then do _ <- (if mip then max0 nz ny nx psf else slice0 nz ny nx (nz / 2) psf); Err TypeError
        else do ps <- psf_plot psf z r mip; Ok (mkDrawn (figure_of fig) loc (map (fun p => (p, st)) ps))
    | _ => Err ValueError
    end.
(** The call otf_plot(otf, ** kw): display.py:174-276. *)
Definition otf_plot_kw (otf : array R) (kw : kwdict) : res (drawn * circle * list wedge) :=
  if khas kw "otf" then Err TypeError
  else
    do na <- kreq kw "na"; do ni <- kreq kw "ni"; do wl <- kreq kw "wl"; do zres <- kreq kw "zres"; do rs <- kreq kw "res";
    let fig := kopt kw "fig" PNone in
    let loc := kopt kw "loc" (PNum 111) in
    let rest := kdel (kdel (kdel (kdel (kdel (kdel (kdel kw "na") "ni") "wl") "zres") "res") "fig") "loc" in
    let (vmin, rest) := kpop rest "vmin" PNone in
    let (vmax, rest) := kpop rest "vmax" PNone in
    let st := dkwargs (LogNorm vmin vmax) rest in
    match shape otf with
    | [nz; ny; nx] =>
        if negb (nx =? ny)%Z then Err AssertionError
        else
          do z <- pnumber zres; do r <- pnumber rs;
          do kz <- fft_max_min nz z; do ky <- fft_max_min ny r; do kx <- fft_max_min nx r;
          if khas st "extent" then do _ <- slice0 nz ny nx (nz / 2) otf; Err TypeError
          else
            do na <- pnumber na; do ni <- pnumber ni; do wl <- pnumber wl;
            do p <- otf_plot otf na ni wl z r;
            Ok (mkDrawn (figure_of fig) loc (map (fun p => (p, st)) (fst (fst p))), snd (fst p), snd p)
    | _ => Err ValueError
    end.
(** Merging of explicit keywords with ** kwargs at a call: a keyword given twice raises TypeError. *)
Definition kmerge (named kw : kwdict) : res kwdict := if existsb (fun kv => khas kw (fst kv)) named then Err TypeError else Ok (named ++ kw).

(** microscope.py:131-147 plot_psf( ** kw); [None]: the PSF is not finite (as in M_Plot.v). *)
Definition m_plot_psf_kw (kw : kwdict) : MM (option drawn) :=
  if khas kw "self" then mlift (Err TypeError)
  else
    let! wl := model_R A_wl in
    let! na := model_R A_na in
    let! px := (fun m => (as_R (mi_pixel m), m)) in
    let! lat := mlift (lateral_extent wl na px) in
    let! ni := model_R A_ni in
    let! ax := mlift (axial_extent wl na ni px) in
    let! a := m_PSF in
    let! am := mlift (argmax o_lt a) in
    let! crop := mlift (r_slice_maker (unravel (shape a) am) [ax; lat; lat]) in
    let! part := mlift (getitem a crop) in
    let! kw := mlift (kmerge [("zres", PNum px); ("res", PNum px)] kw) in
    match all_some (map (get a) (all_ix (shape a))) with
    | None => mret None
    | Some _ => let! d := mlift (psf_plot_kw (amap (fun v => match v with Some x => x | None => 0 end) part) kw) in mret (Some d)
    end.
(** microscope.py:149-171 plot_otf( ** kw): 1e-4 stands for the decimal number *)
Definition m_plot_otf_kw (kw : kwdict) : MM (drawn * circle * list wedge) :=
  if khas kw "self" then mlift (Err TypeError)
  else
    let! o := m_OTF in
    let! otf := mlift (shown o) in
    let dk := kupdate [("vmin", PNum (/ 10 ^ 4))] kw in
    let! na := model_R A_na in
    let! ni := model_R A_ni in
    let! wl := model_R A_wl in
    let! px := (fun m => (as_R (mi_pixel m), m)) in
    let! kw := mlift (kmerge [("na", PNum na); ("ni", PNum ni); ("wl", PNum wl); ("zres", PNum px); ("res", PNum px)] dk) in
    mlift (otf_plot_kw otf kw).

Local Notation PM := (M numeric).
Local Notation "'let*' x ':=' m 'in' k" := (bindM numeric m (fun x => k)) (at level 200, x name, k at level 200, right associativity).
(** otf.py:224-237 plot_psf( ** kw) of a PSF object *)
Definition p_plot_psf_kw (c : cls) (kw : kwdict) : PM (option drawn) :=
  if khas kw "self" then lift numeric (Err TypeError)
  else
    let* _ := validate_zrange in
    let* wl := attr_R A_wl in
    let* na := attr_R A_na in
    let* rs := attr_R A_res in
    let* lat := lift numeric (lateral_extent wl na rs) in
    let* ni := attr_R A_ni in
    let* zres := attr_R A_zres in
    let* ax := lift numeric (axial_extent wl na ni zres) in
    let* b := read numeric c PSFi in
    let a := real_entries b in
    let* am := lift numeric (argmax o_lt a) in
    let* crop := lift numeric (r_slice_maker (unravel (shape a) am) [ax; lat; lat]) in
    let* part := lift numeric (getitem a crop) in
    let* kw := lift numeric (kmerge [("zres", PNum zres); ("res", PNum rs)] kw) in
    match all_some (map (get a) (all_ix (shape a))) with
    | None => ret numeric None
    | Some _ => let* d := lift numeric (psf_plot_kw (amap (fun v => match v with Some x => x | None => 0 end) part) kw) in ret numeric (Some d)
    end.
(** otf.py:239-256 plot_otf( ** kw) of a PSF object *)
Definition p_plot_otf_kw (c : cls) (kw : kwdict) : PM (drawn * circle * list wedge) :=
  if khas kw "self" then lift numeric (Err TypeError)
  else
    let* _ := validate_zrange in
    let* o := read numeric c OTFi in
    let* otf := lift numeric (shown o) in
    let dk := kupdate [("vmin", PNum (/ 10 ^ 4))] kw in
    let* na := attr_R A_na in
    let* ni := attr_R A_ni in
    let* wl := attr_R A_wl in
    let* zres := attr_R A_zres in
    let* rs := attr_R A_res in
    let* kw := lift numeric (kmerge [("na", PNum na); ("ni", PNum ni); ("wl", PNum wl); ("zres", PNum zres); ("res", PNum rs)] dk) in
    lift numeric (otf_plot_kw otf kw).
End Objects.
