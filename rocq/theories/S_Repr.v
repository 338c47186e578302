(** Vocabulary for the repr properties. *)
From Verif Require Export S_PSF S_Micro M_Repr.

(** the value of an attribute is the finite number q *)
Definition is_q {E} (o : obj E) (a : attr) (q : Q) : Prop := exists v, o_attr o a = Some v /\ M_Val.num v = Some (FFin q).
(** all numeric attributes are finite *)
Definition all_numbers_finite {E} (o : obj E) : Prop :=
  forall a, In a [A_wl; A_na; A_ni; A_res; A_size; A_zres; A_zsize] -> exists q, is_q o a q.
(** The limits the setters of res (and zres of a SheppardPSF) enforce, with the current values: 0 < wl, 0 < na,
    res < wl / (2 na); zres < wl / (2 ni). *)
Definition limits_hold {E} (c : cls) (o : obj E) : Prop :=
  exists wl na ni rs zr, is_q o A_wl wl /\ is_q o A_na na /\ is_q o A_ni ni /\ is_q o A_res rs /\ is_q o A_zres zr /\
    (0 < wl)%Q /\ (0 < na)%Q /\ (rs < wl / (2 * na))%Q /\ (c = Sheppard -> (0 < ni)%Q /\ (zr < wl / (2 * ni))%Q).
(** Same parameters; [zr] is the zrange *)
Definition same_parameters {E} (o o' : obj E) (zr : option (list fl)) : Prop :=
  (forall a, o_attr o' a = o_attr o a) /\ o_zrange o' = zr.
(** the operation does not assign wl, na or ni *)
Definition optics_kept {E} (x : op E) : Prop :=
  match x with Assign (SetNum A_wl _) | Assign (SetNum A_na _) | Assign (SetNum A_ni _) => False | _ => True end.

(** ** Microscopes *)
(** the Python text of the value reads as that value; [rd_str] says what str() of a list of numbers reads as *)
Definition reads_back (rd_str : list fl -> option (list fl)) (v : kval) : Prop :=
  match v with
  | KV (VInt _) | KV (VBool _) | KV VNone | KV (VFloat (FFin _)) => True
  | KZ (ZList l) => rd_str l = Some l
  | _ => False
  end.
(** The constructor calls: class, widefield arguments, further arguments, orientations. *)
Inductive made_by (a : wargs) : mclass -> list pyval -> list R -> micro -> Prop :=
| by_widefield m : WidefieldMicroscope a = Ok m -> made_by a WidefieldC [] [] m
| by_apotome m : ApotomeMicroscope a = Ok m -> made_by a ApotomeC [] [] m
| by_confocal wl_exc pinhole m : ConfocalMicroscope a wl_exc pinhole = Ok m -> made_by a ConfocalC [wl_exc; pinhole] [] m
| by_sim na_exc wl_exc wiener coherent dc dc_suppress os m :
    BaseSIMMicroscope a (mkSargs na_exc wl_exc wiener coherent dc dc_suppress os) = Ok m ->
    made_by a BaseSIMC [na_exc; wl_exc; wiener; coherent; dc; dc_suppress] os m
| by_sim2d na_exc wl_exc wiener dc_suppress os m :
    SIM2DMicroscope a na_exc wl_exc wiener dc_suppress os = Ok m -> made_by a SIM2DC [na_exc; wl_exc; wiener; dc_suppress] os m
| by_sim3d na_exc wl_exc wiener dc_suppress os m :
    SIM3DMicroscope a na_exc wl_exc wiener dc_suppress os = Ok m -> made_by a SIM3DC [na_exc; wl_exc; wiener; dc_suppress] os m
| by_lattice na_exc wl_exc wiener dc_suppress m :
    LatticeSIMMicroscope a na_exc wl_exc wiener dc_suppress = Ok m -> made_by a LatticeC [na_exc; wl_exc; wiener; dc_suppress] [0; PI / 2]%R m.
(** all values in the call read back; "res" is not among them (it would be overwritten anyway) *)
Definition readable_call (rd_str : list fl -> option (list fl)) (rd_orient : list R -> option (list R)) (a : wargs) (extra : list pyval) (os : list R) : Prop :=
  (forall v, In v ([w_na a; w_ni a; w_wl a; w_size a; w_pixel a; w_os a] ++ extra) -> reads_back rd_str (KV v)) /\
  (forall k v, In (k, v) (w_kwargs a) -> reads_back rd_str v) /\ rd_orient os = Some os /\ dget (w_kwargs a) "res" = None.
(** events that do not assign anything the text shows (m.model and everything in it is not shown) *)
Definition not_shown (c : mclass) (x : mevent) : Prop :=
  match x with
  | MSet MOs _ | MPixel _ => False
  | MSet MPinhole _ => c <> ConfocalC
  | MExcOp x => c = ConfocalC -> optics_kept x
  | MSet _ _ | MWiener _ | MOrient _ => match c with WidefieldC | ConfocalC | ApotomeC => True | _ => False end
  | _ => True
  end.
(** printed as characters that are no Python literal *)
Definition unreadable (v : kval) : Prop := match v with KV (VStr _) | KV (VFloat FNaN) | KV (VFloat (FInf _)) => True | _ => False end.
