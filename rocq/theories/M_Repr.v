(** The __repr__ methods and what evaluating their result as Python source does.

    The text is modelled down to "keyword=text" pairs, not characters.  Python prints an int, a bool,
    None and a finite float so that the literal reads back as the same value; "nan", "inf" and a
    string printed without quotes read as a name that is not defined. *)
From Verif Require Export M_Micro.
Import M_Array.

(** A printed argument. *)
Inductive text :=
| Lit (v : pyval)            (* a literal that denotes v *)
| Quoted (s : string)        (* '...' *)
| Bare (s : string)          (* these characters, not quoted and no literal *)
| SeqRepr (l : list fl)      (* repr of a sequence or array of numbers *)
| SeqStr (l : list fl).      (* str of one *)
Record call := mkCall { c_name : string; c_args : list (string * text) }.

(** f"{v}" *)
Definition fmt (v : pyval) : text :=
  match v with
  | VInt _ | VBool _ | VNone | VComplex => Lit v
  | VFloat (FFin _) => Lit v
  | VFloat FNaN => Bare "nan"
  | VFloat (FInf false) => Bare "inf"
  | VFloat (FInf true) => Bare "-inf"
  | VStr s => Bare s
  | VUnhashable => Bare "?"
  end.
(** f"'{v}'", for the attributes that are strings *)
Definition fmt_quoted (v : pyval) : text := Quoted (match v with VStr s => s | _ => "?" end)%string.

(** otf.py:106-112 BasePSF.__repr__, 286-288 HanserPSF.__repr__, 462-464 SheppardPSF.__repr__ *)
Definition class_name (c : cls) : string := match c with Hanser => "HanserPSF" | Sheppard => "SheppardPSF" end.
Section Psf.
Context (E : engine).
Notation "'let*' x ':=' m 'in' k" := (bindM E m (fun x => k)) (at level 200, x name, k at level 200, right associativity).
(** self.zrange *)
Definition get_zrange : M E (list fl) := fun o => match o_zrange o with Some l => (Ok l, o) | None => (Err AttributeError, o) end.
(** otf.py:106-112, 286-288, 462-464 *)
Definition psf_repr (c : cls) : M E call :=
  let* wl := getattr E A_wl in let* na := getattr E A_na in let* ni := getattr E A_ni in
  let* rs := getattr E A_res in let* size := getattr E A_size in let* zres := getattr E A_zres in let* zsize := getattr E A_zsize in
  let* vec_corr := getattr E A_vec_corr in let* condition := getattr E A_condition in
  let* extra := match c with
                | Hanser => let* z := get_zrange in ret E ("zrange"%string, SeqRepr z)
                | Sheppard => let* d := getattr E A_dual in ret E ("dual"%string, fmt d)
                end in
  ret E (mkCall (class_name c)
    ([("wl", fmt wl); ("na", fmt na); ("ni", fmt ni); ("res", fmt rs); ("size", fmt size); ("zres", fmt zres); ("zsize", fmt zsize);
      ("vec_corr", fmt_quoted vec_corr); ("condition", fmt_quoted condition)]%string ++ [extra])).
End Psf.

(** Evaluation.  [rd_repr] and [rd_str] say what reading a printed sequence back gives, if anything
    (a numpy array is printed with eight digits and, beyond 1000 elements, with "..."). *)
Inductive evald (A : Type) := Evaluates (a : A) | Raises (e : exn) | Unreadable.     (* Unreadable: NameError or SyntaxError *)
Arguments Evaluates {A}. Arguments Raises {A}. Arguments Unreadable {A}.
(** the outcome of a call that was read *)
Definition of_res {A} (r : res A) : evald A := match r with Ok a => Evaluates a | Err e => Raises e end.
Section Eval.
Context (rd_repr rd_str : list fl -> option (list fl)).
(** one argument read back *)
Definition eval_text (t : text) : option kval :=
  match t with
  | Lit v => Some (KV v)
  | Quoted s => Some (KV (VStr s))
  | Bare _ => None
  | SeqRepr l => match rd_repr l with Some l' => Some (KZ (ZList l')) | None => None end
  | SeqStr l => match rd_str l with Some l' => Some (KZ (ZList l')) | None => None end
  end.
(** all arguments read back *)
Fixpoint eval_args (l : list (string * text)) : option pdict :=
  match l with
  | [] => Some []
  | (k, t) :: l' => match eval_text t, eval_args l' with Some v, Some d => Some ((k, v) :: d) | _, _ => None end
  end.
(** eval(repr(psf)) *)
Definition eval_psf (E : engine) (k : call) : evald (cls * obj E) :=
  match eval_args (c_args k) with
  | None => Unreadable
  | Some d =>
      let build c := of_res (do k <- ctor_for c d; do o <- construct E c k; Ok (c, o)) in
      if String.eqb (c_name k) "HanserPSF" then build Hanser
      else if String.eqb (c_name k) "SheppardPSF" then build Sheppard else Unreadable
  end.
End Eval.

(** ** Microscopes *)
Inductive mclass := WidefieldC | ConfocalC | ApotomeC | BaseSIMC | SIM2DC | SIM3DC | LatticeC.
(** the class whose methods apply *)
Definition kind_of (c : mclass) : kind :=
  match c with WidefieldC => Widefield | ConfocalC => Confocal | ApotomeC => Apotome | _ => SIM end.
(** f"{v}" of an entry of psf_params *)
Definition fmt_k (v : kval) : text :=
  match v with KV v => fmt v | KZ (ZScalar f) => fmt (VFloat f) | KZ (ZList l) => SeqStr l end.
(** the text of orientations={...!r} is kept apart *)
Record mcall := mkMcall { mc_class : mclass; mc_args : list (string * text); mc_orient : option (list R) }.
(** dict.pop *)
Definition dpop (d : pdict) (k : string) : pdict := filter (fun kv => negb (String.eqb (fst kv) k)) d.
(** microscope.py:80-89 WidefieldMicroscope.__repr__; 204-209 ConfocalMicroscope.__repr__; 305-312 BaseSIMMicroscope.__repr__ *)
Definition short_name (c : cls) : string := match c with Hanser => "hanser" | Sheppard => "sheppard" end.   (* class name [:-3].lower() *)
(** microscope.py:80-89: the arguments printed by WidefieldMicroscope.__repr__ *)
Definition wide_args : MM (list (string * text)) :=
  let! d := masks mi_params in let! c := masks mi_cls in let! px := masks mi_pixel in
  let! os := m_get MOs in
  mret ([("model", Quoted (short_name c))]%string ++ map (fun kv => (fst kv, fmt_k (snd kv))) (dpop d "res") ++
        [("pixel_size", fmt px); ("oversample_factor", fmt os)]%string).
(** microscope.py:80-89, 204-209, 305-312 *)
Definition micro_repr (c : mclass) : MM mcall :=
  let! w := wide_args in
  match kind_of c with
  | Widefield | Apotome => mret (mkMcall c w None)
  | Confocal =>
      let! wl := on_exc (getattr numeric A_wl) in
      let! ph := m_get MPinhole in
      mret (mkMcall c (w ++ [("wl_exc", fmt wl); ("pinhole_size", fmt ph)]%string) None)
  | SIM =>
      let! na := m_get MNaExc in let! wl := m_get MWlExc in let! wi := masks mi_wiener in
      let! co := m_get MCoherent in let! dc := m_get MDc in let! ds := m_get MDcSup in let! os := masks mi_orient in
      mret (mkMcall c (w ++ [("na_exc", fmt na); ("wl_exc", fmt wl); ("wiener", fmt wi); ("coherent", fmt co); ("dc", fmt dc); ("dc_suppress", fmt ds)]%string) (Some os))
  end.
(** Keyword-only parameters are taken out of the keyword arguments in turn; a missing one raises
    TypeError (microscope.py:57, 196, 277). *)
Definition take (d : pdict) (k : string) : res (pyval * pdict) := do v <- required d k; Ok (v, dpop d k).
(** microscope.py:57 *)
Definition bind_wide (d : pdict) : res wargs :=
  do p <- take d "model"; let (model, d) := p : pyval * pdict in
  do p <- take d "na"; let (na, d) := p : pyval * pdict in
  do p <- take d "ni"; let (ni, d) := p : pyval * pdict in
  do p <- take d "wl"; let (wl, d) := p : pyval * pdict in
  do p <- take d "size"; let (size, d) := p : pyval * pdict in
  do p <- take d "pixel_size"; let (px, d) := p : pyval * pdict in
  do p <- take d "oversample_factor"; let (os, d) := p : pyval * pdict in
  Ok (mkWargs model na ni wl size px os d).
(** microscope.py:196 *)
Definition bind_confocal (d : pdict) : res (wargs * pyval * pyval) :=
  do p <- take d "wl_exc"; let (wl, d) := p : pyval * pdict in
  do p <- take d "pinhole_size"; let (ph, d) := p : pyval * pdict in
  do a <- bind_wide d; Ok (a, wl, ph).
(** microscope.py:277-279 *)
Definition bind_sim (d : pdict) (os : list R) : res (wargs * sargs) :=
  do p <- take d "na_exc"; let (na, d) := p : pyval * pdict in
  do p <- take d "wl_exc"; let (wl, d) := p : pyval * pdict in
  do p <- take d "wiener"; let (wi, d) := p : pyval * pdict in
  do p <- take d "coherent"; let (co, d) := p : pyval * pdict in
  do p <- take d "dc"; let (dc, d) := p : pyval * pdict in
  do p <- take d "dc_suppress"; let (ds, d) := p : pyval * pdict in
  do a <- bind_wide d; Ok (a, mkSargs na wl wi co dc ds os).
(** microscope.py:406-424: SIM2D, SIM3D and LatticeSIM pass coherent and dc (and orientations) themselves, so the same
    keyword in the call is given twice: TypeError. *)
Definition passed_inside (c : mclass) : list string :=
  match c with SIM2DC | SIM3DC => ["coherent"; "dc"] | LatticeC => ["coherent"; "dc"; "orientations"] | _ => [] end%string.
(** k in d *)
Definition has_key (d : pdict) (k : string) : bool := match dget d k with Some _ => true | None => false end.
Section Meval.
Context (rd_repr rd_str : list fl -> option (list fl)) (rd_orient : list R -> option (list R)).
(** eval(repr(microscope)) *)
Definition eval_micro (k : mcall) : evald micro :=
  match eval_args rd_repr rd_str (mc_args k) with
  | None => Unreadable
  | Some d =>
      match kind_of (mc_class k) with
      | Widefield => of_res (do a <- bind_wide d; WidefieldMicroscope a)
      | Apotome => of_res (do a <- bind_wide d; ApotomeMicroscope a)
      | Confocal => of_res (do p <- bind_confocal d; let '(a, wl, ph) := p in ConfocalMicroscope a wl ph)
      | SIM =>
          match match mc_orient k with None => Some None | Some os => option_map Some (rd_orient os) end with
          | None => Unreadable
          | Some os =>
              if existsb (fun n => has_key d n || (String.eqb n "orientations" && match os with Some _ => true | None => false end)) (passed_inside (mc_class k))
              then Raises TypeError
              else match os with
                   | None => Raises TypeError
                   | Some os => of_res (do p <- bind_sim d os; let (a, s) := p : wargs * sargs in BaseSIMMicroscope a s)
                   end
          end
      end
  end.
End Meval.
