(** What the keyword arguments of a plotting call mean, as a set of key/value pairs. *)
From Verif Require Export M_Kwargs.
Local Open Scope string_scope.
Local Open Scope list_scope.
Local Open Scope R_scope.

Section Objects.
Context {V : Type}.
Notation kwdict := (kwdict V). Notation pv := (pv V).
(** The caller gave no keyword k. *)
Definition absent (kw : kwdict) (k : string) : Prop := ~ In k (map fst kw).
(** x is what the call has for k: what the caller gave, the default otherwise. *)
Definition setting (kw : kwdict) (k : string) (default x : pv) : Prop := In (k, x) kw \/ absent kw k /\ x = default.

(** What one imshow call receives besides image and extent: every keyword of the caller that the function does not use itself, with the
    caller's value; and, for keywords the caller did not give, the three defaults. *)
Definition receives (own : list string) (n : norm V) (kw : kwdict) (k : string) (v : sval V) : Prop :=
  (exists x, v = SVal V x /\ In (k, x) kw /\ ~ In k own) \/
  absent kw k /\ (k = "norm" /\ v = SNorm V n \/ k = "interpolation" /\ v = SVal V (PStr V "nearest") \/ k = "cmap" /\ v = SVal V (PStr V "inferno")).
(** Every image is drawn with exactly those keywords, each once. *)
Definition drawn_with (own : list string) (n : norm V) (kw : kwdict) (d : drawn V) : Prop :=
  Forall (fun ps => NoDup (map fst (snd ps)) /\ forall k v, In (k, v) (snd ps) <-> receives own n kw k v) (d_images V d).
(** Drawn in the caller's figure if one is given that is not None, else in a new one; at the caller's position or 111. *)
Definition placed (kw : kwdict) (d : drawn V) : Prop :=
  (exists f, setting kw "fig" (PNone V) f /\ (f = PNone V -> d_fig V d = NewFigure V) /\ (f <> PNone V -> d_fig V d = CallersFigure V f)) /\ setting kw "loc" (PNum V 111) (d_loc V d).

(** The keywords the two functions use themselves. *)
Definition psf_own : list string := ["zres"; "res"; "fig"; "loc"; "mip"; "gamma"; "vmin"; "vmax"].
(** those of otf_plot *)
Definition otf_own : list string := ["na"; "ni"; "wl"; "zres"; "res"; "fig"; "loc"; "vmin"; "vmax"].
(** The colour scale of a PSF plot: a power law with the caller's gamma (1/2) and limits (none). *)
Definition psf_scale (kw : kwdict) (n : norm V) : Prop :=
  exists g lo hi, n = PowerNorm V g lo hi /\ setting kw "gamma" (PNum V (1 / 2)) g /\ setting kw "vmin" (PNone V) lo /\ setting kw "vmax" (PNone V) hi.
(** The colour scale of an OTF plot: logarithmic, with the caller's limits; [lo0] is the default lower limit. *)
Definition otf_scale (lo0 : pv) (kw : kwdict) (n : norm V) : Prop :=
  exists lo hi, n = LogNorm V lo hi /\ setting kw "vmin" lo0 lo /\ setting kw "vmax" (PNone V) hi.
(** The figure a PSF plot leaves. *)
Definition psf_figure (kw : kwdict) (ps : list panel) (d : drawn V) : Prop :=
  map fst (d_images V d) = ps /\ placed kw d /\ exists n, psf_scale kw n /\ drawn_with psf_own n kw d.
(** The figure an OTF plot leaves. *)
Definition otf_figure (lo0 : pv) (kw : kwdict) (ps : list panel) (d : drawn V) : Prop :=
  map fst (d_images V d) = ps /\ placed kw d /\ exists n, otf_scale lo0 kw n /\ drawn_with otf_own n kw d.

(** the caller gave a number x for k *)
Definition gives (number : V -> Base.res R) (kw : kwdict) (k : string) (x : R) : Prop := exists v, In (k, v) kw /\ pnumber V number v = Ok x.
(** the default lower limit of the OTF colour scale in the methods: 1e-4 *)
Definition tiny : pv := PNum V (/ 10 ^ 4).
(** Two computations on objects with the same effect, the same error or outcomes related by R. *)
Definition sim {S A B} (R : A -> B -> Prop) (c : S -> Base.res A * S) (c' : S -> Base.res B * S) : Prop :=
  forall m, match c m with (Ok x, m') => exists y, c' m = (Ok y, m') /\ R x y | (Err e, m') => c' m = (Err e, m') end.
(** A TypeError where the other computation succeeds, with the effect of that computation. *)
Definition clash {S A B} (c : S -> Base.res A * S) (c' : S -> Base.res B * S) : Prop := forall m x m', c m = (Ok x, m') -> c' m = (Err TypeError, m').
(** The figure of a PSF that is finite; nothing is said of one that is not. *)
Definition psf_result (kw : kwdict) (ps : option (list panel)) (d : option (drawn V)) : Prop :=
  match ps, d with Some ps, Some d => psf_figure kw ps d | None, None => True | _, _ => False end.
(** The figure, circle and arcs of an OTF plot. *)
Definition otf_result (kw : kwdict) (o : list panel * circle * list wedge) (d : drawn V * circle * list wedge) : Prop :=
  otf_figure tiny kw (fst (fst o)) (fst (fst d)) /\ snd (fst d) = snd (fst o) /\ snd d = snd o.
End Objects.
