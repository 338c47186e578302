(** C93: what "measured in other units" means for Python arguments.
    All lengths are multiplied by [al]; wavelength, numerical aperture and refractive indices by [be] (only their ratios have a meaning). *)
From Verif Require Export M_Micro.
Local Open Scope Q_scope.

(** [f'] is [q * f]; infinities and NaN stay what they are (q > 0). *)
Definition ftimes (q : Q) (f f' : fl) : Prop :=
  match f, f' with
  | FFin x, FFin x' => x' == q * x
  | FInf s, FInf s' => s' = s
  | FNaN, FNaN => True
  | _, _ => False
  end.
(** A number multiplied by [q] (an int may become a float); anything that is not a number stays. *)
Definition times (q : Q) (v v' : pyval) : Prop :=
  match M_Val.num v, M_Val.num v' with
  | Some f, Some f' => ftimes q f f'
  | None, None => v' = v
  | _, _ => False
  end.
(** Focal positions: one number or several. *)
Definition ztimes (q : Q) (z z' : zrange_arg) : Prop :=
  match z, z' with
  | ZScalar f, ZScalar f' => ftimes q f f'
  | ZList l, ZList l' => Forall2 (ftimes q) l l'
  | _, _ => False
  end.
(** The value of a keyword: multiplied, or unchanged. *)
Definition ktimes (u : option Q) (v v' : kval) : Prop :=
  match u with
  | None => v' = v
  | Some q => match v, v' with KV w, KV w' => times q w w' | KZ z, KZ z' => ztimes q z z' | _, _ => False end
  end.
(** The factor of each keyword of HanserPSF and SheppardPSF. *)
Definition factor (al be : Q) (k : string) : option Q :=
  if String.eqb k "wl" then Some (al * be)
  else if String.eqb k "na" then Some be
  else if String.eqb k "ni" then Some be
  else if String.eqb k "res" then Some al
  else if String.eqb k "zres" then Some al
  else if String.eqb k "zrange" then Some al
  else None.
(** The same keyword arguments in other units. *)
Definition in_units (al be : Q) (d d' : pdict) : Prop :=
  Forall2 (fun kv kv' => fst kv' = fst kv /\ ktimes (factor al be (fst kv)) (snd kv) (snd kv')) d d'.
(** The arguments of WidefieldMicroscope in other units. *)
Definition wide_units (al be : Q) (a a' : wargs) : Prop :=
  w_model a' = w_model a /\ times be (w_na a) (w_na a') /\ times be (w_ni a) (w_ni a') /\ times (al * be) (w_wl a) (w_wl a') /\
  w_size a' = w_size a /\ times al (w_pixel a) (w_pixel a') /\ w_os a' = w_os a /\ in_units al be (w_kwargs a) (w_kwargs a').
(** Those of the SIM microscopes; here [na_exc] and [wl_exc] (by default [na] and [wl]) must be floats, so the type matters too. *)
Definition sim_units (al be : Q) (s s' : sargs) : Prop :=
  times be (s_na_exc s) (s_na_exc s') /\ times (al * be) (s_wl_exc s) (s_wl_exc s') /\ s_wiener s' = s_wiener s /\
  s_coherent s' = s_coherent s /\ s_dc s' = s_dc s /\ s_dcsup s' = s_dcsup s /\ s_orient s' = s_orient s.
(** both floats, or neither *)
Definition same_type (v v' : pyval) : Prop := isinstance v' TFloat = isinstance v TFloat.
