(** pyotf/labview.py, over exact numbers. *)
From Verif Require Export M_Phase.
Import M_Array.
Local Open Scope R_scope.

(** ndarray.tolist() of a two-dimensional array: the list of its rows. *)
Definition tolist (a : array R) : list (list R) :=
  match shape a with
  | [m; n] => map (fun y => map (fun x => get a [y; x]) (zseq n)) (zseq m)
  | _ => []
  end.
(** labview.py:15-59.  [data] is numpy.asarray of the nested lists, integers; other element types make prep_data_for_PR raise
    (numpy.bincount) and are not modelled.  [unwrap] is skimage's unwrap_phase; defaults (labview.py:15-17): max_iters=200,
    pupil_tol=1e-8, mse_tol=1e-8, phase_only=False. *)
Definition labview (unwrap : array R -> array R) (data : array Z) (wl na ni rs zres : pyval) (max_iters : Z)
    (pupil_tol mse_tol : tol) (phase_only : bool) : res (list (list R)) :=
  let params := [("wl", KV wl); ("na", KV na); ("ni", KV ni); ("res", KV rs); ("zres", KV zres)]%string in
  do data_prepped <- prep_data_for_PR data None (3 # 2);
  do pr_result <- fst (retrieve_phase unwrap (amap Q2R data_prepped) params max_iters pupil_tol mse_tol phase_only);
  Ok (tolist (r_phase pr_result)).
