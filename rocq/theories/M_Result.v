(** The object retrieve_phase returns, as a Python object with a life of its own: pyotf/phaseretrieval.py:152-262.  The
    numbers each method computes are those of M_Phase.v; here is what each method stores and reads. *)
From Verif Require Export M_Phase.
Import M_Array.
Local Open Scope R_scope.

(** The PhaseRetrievalResult [so_res] (phaseretrieval.py:176-188) together with every ZernikeDecomposition
    (phaseretrieval.py:265-285) made so far, in the order of their creation; the position in the list is the identity of
    the object.  [so_zd] is the attribute zd_result: no such attribute until fit_to_zernikes has stored one (199). *)
Record robj := mkRobj { so_res : result; so_made : list decomposition; so_zd : option nat }.
(** phaseretrieval.py:152-188: a result just made by retrieve_phase. *)
Definition fresh_result (r : result) : robj := mkRobj r [] None.
(** What a call returns: an array or a reference to a decomposition. *)
Inductive rvalue := GotPSF (a : array R) | GotPupil (a : array C) | GotZD (k : nat).
(** apply a function to the value of a call that returns *)
Definition on_ok {A B} (f : A -> B) (x : res A) : res B := match x with Ok a => Ok (f a) | Err e => Err e end.

Section Methods.
Context (lstsq : list (list R) -> list R -> list R).
(** phaseretrieval.py:190-200: everything is computed first; then one store, of the object that is also returned. *)
Definition x_fit (num_zerns : Z) (s : robj) : res rvalue * robj :=
  match fit_to_zernikes lstsq (so_res s) num_zerns with
  | Err e => (Err e, s)
  | Ok d => let k := List.length (so_made s) in (Ok (GotZD k), mkRobj (so_res s) (so_made s ++ [d]) (Some k))
  end.
(** phaseretrieval.py:259-262 the property complex_pupil *)
Definition x_complex_pupil (s : robj) : res rvalue * robj :=
  (on_ok GotPupil (complex_pupil (r_mag (so_res s)) (r_phase (so_res s))), s).
(** phaseretrieval.py:234-236; the model is copied first (204-205), so nothing is stored. *)
Definition x_generate_psf (size : option Z) (zsize : option pyval) (zrange : option zrange_arg) (s : robj) : res rvalue * robj :=
  (on_ok GotPSF (generate_psf (so_res s) size zsize zrange), s).
(** phaseretrieval.py:230-232: the attribute zd_result is looked up before anything else. *)
Definition x_generate_zd_psf (sphase : pyslice) (size : option Z) (zsize : option pyval) (zrange : option zrange_arg) (s : robj)
  : res rvalue * robj :=
  match so_zd s with
  | None => (Err AttributeError, s)
  | Some k =>
      match nth_error (so_made s) k with
      | None => (Err RuntimeError, s)   (* no dangling references in Python *)
      | Some d => (on_ok GotPSF (generate_zd_psf (so_res s) d sphase size zsize zrange), s)
      end
  end.
End Methods.
