(** The plots of phase retrieval results (pyotf/phaseretrieval.py:238-257, 287-320, 340-382).  matplotlib is outside /repo;
    what is modelled is the data each call hands to it.  Colour maps, colour bars, tick and layout settings are not. *)
From Coq Require Export String Ascii.
From Verif Require Export M_Phase.
Import M_Array.
Local Open Scope R_scope.

(** One matshow call: the axes it is drawn on, the title these get, the image ([None] is a masked pixel), vmin and vmax. *)
Record image := mkImage { im_axes : nat; im_title : string; im_data : array (option R); im_limits : option (R * R) }.
(** np.ma.array(phase, mask=mag == 0) (phaseretrieval.py:366).  A mask of another shape is refused here; numpy takes one with the
    same number of elements or with one element. *)
Definition masked (phase mag : array R) : res (array (option R)) :=
  if zlist_eqb (shape mag) (shape phase)
  then Ok (mkArr (shape phase) (fun ix => if Req_EM_T (get mag ix) 0 then None else Some (get phase ix)))
  else Err ValueError.
(** phaseretrieval.py:359-363: new axes 0 and 1 side by side, or the two that are given (unpacking another number raises). *)
Definition two_axes (axs : option (list nat)) : res (nat * nat) :=
  match axs with None => Ok (0%nat, 1%nat) | Some [a; b] => Ok (a, b) | Some _ => Err ValueError end.
(** phaseretrieval.py:357-382 _plot_complex_pupil *)
Definition plot_complex_pupil (mag phase : array R) (axs : option (list nat)) : res (list image) :=
  do ax <- two_axes axs;
  do p <- masked phase mag;
  Ok [mkImage (fst ax) "Pupil Phase" p (Some (- PI, PI)); mkImage (snd ax) "Pupil Magnitude" (amap Some mag) None].
(** phaseretrieval.py:238-240 PhaseRetrievalResult.plot *)
Definition plot_result (r : result) (axs : option (list nat)) : res (list image) := plot_complex_pupil (r_mag r) (r_phase r) axs.
(** phaseretrieval.py:340-354 ZernikeDecomposition.plot *)
Definition plot_decomposition (d : decomposition) (smag sphase : pyslice) (axs : option (list nat)) : res (list image) :=
  do mag <- zd_mag d smag; do phase <- zd_phase d sphase; plot_complex_pupil mag phase axs.

(** phaseretrieval.py:242-257 plot_convergence: title and curve of the three panels, from top to bottom. *)
Definition plot_convergence (r : result) : list (string * list (option R)) :=
  combine ["Mean Squared Error"; "Relative Change in MSE"; "Relative Change in Pupil"]%string [r_mse r; r_mse_diff r; r_pupil_diff r].

(** One bar: position, height. *)
Record bar := mkBar { b_at : Z; b_height : R }.
(** Axes.bar(x, height): the two are broadcast against each other. *)
Definition bars (x : list Z) (height : list R) : res (list bar) :=
  let n := List.length x in let m := List.length height in
  let mk x h := map (fun p => mkBar (fst p) (snd p)) (combine x h) in
  if Nat.eqb n m then Ok (mk x height)
  else if Nat.eqb m 1 then Ok (mk x (repeat (nth 0 height 0) n))
  else if Nat.eqb n 1 then Ok (mk (repeat (nth 0 x 0%Z) m) height)
  else Err ValueError.
(** phaseretrieval.py:310-320 plot_coefs: title and bars of the two panels, from top to bottom. *)
Definition plot_coefs (d : decomposition) : res (list (string * list bar)) :=
  do m <- bars (noll_upto (List.length (zd_mcoefs d))) (zd_mcoefs d);
  do p <- bars (noll_upto (List.length (zd_pcoefs d))) (zd_pcoefs d);
  Ok (combine ["Magnitude Coefficients"; "Phase Coefficients"]%string [m; p]).

(** ASCII letters and str.title: a letter after a letter is lowered, another one raised. *)
Definition is_upper (c : ascii) : bool := let n := nat_of_ascii c in Nat.leb 65 n && Nat.leb n 90.
(** see [is_upper] *)
Definition is_lower (c : ascii) : bool := let n := nat_of_ascii c in Nat.leb 97 n && Nat.leb n 122.
(** str.title with the information whether the previous character is a letter *)
Fixpoint title_from (inword : bool) (s : string) : string :=
  match s with
  | EmptyString => EmptyString
  | String c s' =>
      let n := nat_of_ascii c in
      let c' := if inword then (if is_upper c then ascii_of_nat (n + 32) else c) else (if is_lower c then ascii_of_nat (n - 32) else c) in
      String c' (title_from (is_upper c || is_lower c) s')
  end.
(** str.title *)
Definition title : string -> string := title_from false.
(** a dictionary look-up by number; KeyError (never raised below) gives the empty string *)
Fixpoint name_of (d : list (Z * string)) (k : Z) : string :=
  match d with [] => EmptyString | (k', v) :: d' => if (k =? k')%Z then v else name_of d' k end.
(** phaseretrieval.py:287-308 plot_named_coefs: tick labels and bars. *)
Definition plot_named_coefs (d : decomposition) : res (list (string * bar)) :=
  let ordered_names := map (fun i => title (name_of noll2name (i + 1))) (zseq (Z.of_nat (List.length noll2name))) in
  let x := noll_upto (List.length ordered_names) in
  let data := firstn (List.length ordered_names) (zd_pcoefs d) in
  do b <- bars (skipn 4 x) (skipn 4 data);
  Ok (combine (skipn 4 ordered_names) b).
