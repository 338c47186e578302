(** Phase retrieval: pyotf/phaseretrieval.py (without plotting and logging), over exact reals. *)
From Coq Require Export String.
From Verif Require Export M_Utils M_Aberr.
Import M_Array.
Local Open Scope R_scope.

(** numpy.angle; signed zeros are not modelled. *)
Definition angle (z : C) : R := atan2 (Im z) (Re z).
(** ndarray.mean(): NaN (None) for an empty array. *)
Definition mean (a : array R) : option R :=
  if (size (shape a) =? 0)%Z then None else Some (Rsum (all_ix (shape a)) (get a) / IZR (size (shape a))).
(** ndarray.mean(0); no plane at all (NaN in numpy) gives 0 here and is excluded in the theorems. *)
Definition mean0 (a : array C) : array C :=
  mkArr (tl (shape a)) (fun ix => Cdiv (Csum (zseq (hd 0%Z (shape a))) (fun i => get a (i :: ix))) (RtoC (IZR (hd 0%Z (shape a))))).
(** The arrays of a HanserPSF are finite (M_Engine.v): its real and complex arrays. *)
Definition reals (a : array (option C)) : array R := amap (fun v => Re (cval v)) a.
(** see [reals] *)
Definition complexes (a : array (option C)) : array C := amap cval a.

(** phaseretrieval.py:385-387 *)
Definition calc_mse (data1 data2 : array R) : res (option R) :=
  do d <- bop (fun a b => (a - b) ^ 2) data1 data2; Ok (mean d).
(** phaseretrieval.py:104 (abs(old - new) ** 2).mean() / (abs(old) ** 2).mean(); NaN and inf are None *)
Definition pupil_change (old new : array C) : res (option R) :=
  do d <- bop (fun o n => Cmod (Cminus o n) ^ 2) old new; Ok (odiv (mean d) (mean (amap (fun o => Cmod o ^ 2) old))).
(** phaseretrieval.py:102 abs(old_mse - new_mse) / old_mse *)
Definition mse_change (old new : option R) : option R := odiv (olift2 (fun o n => Rabs (o - n)) old new) old.

(** A tolerance: a number, +inf, or something no number is below (NaN, -inf). *)
Inductive tol := Tol (r : R) | TolInf | TolNever.
(** [x < t]; NaN and inf are below nothing. *)
Definition below (x : option R) (t : tol) : bool :=
  match x, t with
  | Some v, Tol r => if Rlt_dec v r then true else false
  | Some _, TolInf => true
  | _, _ => false
  end.

(** otf.py:351-354 _calc_defocus *)
Definition calc_defocus (h : hpar) : array C :=
  mkArr [Z.of_nat (List.length (h_zrange h)); h_size h; h_size h]
    (fun ix => match ix with [z; y; x] => defocus h z y x | _ => RtoC 0 end).
(** the axes argument (1, 2) of phaseretrieval.py:124 *)
Definition axes12 : list bool := axes_mask 3 (Some [1%nat; 2%nat]).

Section Loop.
Context (data mag mask : array R) (pupil_tol mse_tol : tol) (phase_only : bool).
(** phaseretrieval.py:119-130: the next pupil from the amplitude PSF *)
Definition next_pupil (h : hpar) (psfa : array C) : res (array C) :=
  let phase := amap angle (squeeze psfa) in
  do new_psf <- bop (fun m p => Cmult (RtoC m) (cis p)) mag phase;
  let new_pupils := fftn axes12 (ifftshift axes12 new_psf) in
  do new_pupils <- ibop Cdiv new_pupils (calc_defocus h);
  do new_pupil <- bop (fun z m => Cmult z (RtoC m)) (mean0 new_pupils) mask;
  if phase_only then bop (fun z m => Cmult (cis (angle z)) (RtoC m)) new_pupil mask else Ok new_pupil.

(** One line of the convergence record: mse, mse_diff, pupil_diff. *)
Record line := mkLine { l_mse : option R; l_mse_diff : option R; l_pupil_diff : option R }.
(** phaseretrieval.py:113 *)
Definition converged (e : line) : bool :=
  below (l_pupil_diff e) pupil_tol || below (l_mse_diff e) mse_tol || below (l_mse e) mse_tol.

Notation "'let*' x ':=' m 'in' k" := (bindM numeric m (fun x => k)) (at level 200, x name, k at level 200, right associativity).
(** phaseretrieval.py:93-132: [fuel] iterations are left; [old] is the previous error and pupil. *)
Fixpoint pr_loop (fuel : nat) (old : option (option R * array C)) (new_pupil : array C) (acc : list line)
  : M numeric (array C * list line) :=
  match fuel with
  | O => ret numeric (new_pupil, acc)
  | S fuel' =>
      let* _ := apply_pupil numeric new_pupil in
      let* psfi := read numeric Hanser PSFi in
      let* new_mse := lift numeric (calc_mse data (reals psfi)) in
      let* e := lift numeric (match old with
                  | None => Ok (mkLine new_mse None None)
                  | Some (old_mse, old_pupil) =>
                      do pd <- pupil_change old_pupil new_pupil; Ok (mkLine new_mse (mse_change old_mse new_mse) pd)
                  end) in
      if converged e then ret numeric (new_pupil, acc ++ [e])
      else
        let* psfa := read numeric Hanser PSFa in
        let* next := (fun o => (next_pupil (hpar_of (obj_params o)) (complexes psfa), o)) in
        pr_loop fuel' (Some (new_mse, new_pupil)) next (acc ++ [e])
  end.
End Loop.

(** ** Results *)
(** phaseretrieval.py:152-188, the instance attributes *)
Record result := mkResult {
  r_mag : array R; r_phase : array R; r_mse : list (option R); r_pupil_diff : list (option R); r_mse_diff : list (option R);
  r_model : obj numeric; r_r : array R; r_theta : array R; r_na : R; r_wl : R }.
(** both axes of a 2-d array *)
Definition axes2 : list bool := axes_mask 2 None.
(** phaseretrieval.py:176-188 *)
Definition mk_result (mag phase : array R) (lines : list line) (model : obj numeric) : result :=
  let h := hpar_of (obj_params model) in
  mkResult mag phase (map l_mse lines) (map l_pupil_diff lines) (map l_mse_diff lines) model
    (fftshift axes2 (mkArr [h_size h; h_size h] (fun ix => match ix with [y; x] => h_kr h y x | _ => 0 end)))
    (fftshift axes2 (h_t h)) (h_na h) (h_wl h).

(** The params argument: a dictionary with string keys; an array-like is [KZ]. *)
Inductive kval := KV (v : pyval) | KZ (z : zrange_arg).
(** A dictionary with string keys, in insertion order. *)
Definition pdict := list (string * kval).
(** d[k] *)
Fixpoint dget (d : pdict) (k : string) : option kval :=
  match d with [] => None | (k', v) :: d' => if String.eqb k k' then Some v else dget d' k end.
(** d[k] = v *)
Fixpoint dset (d : pdict) (k : string) (v : kval) : pdict :=
  match d with [] => [(k, v)] | (k', v') :: d' => if String.eqb k k' then (k', v) :: d' else (k', v') :: dset d' k v end.
(** phaseretrieval.py:74-76 *)
Definition forced (nz n : Z) (d : pdict) : pdict :=
  dset (dset (dset (dset d "vec_corr" (KV (VStr "none"))) "condition" (KV (VStr "none"))) "zsize" (KV (VInt nz))) "size" (KV (VInt n)).
(** HanserPSF's keyword arguments (otf.py:53-55, 272): unknown or missing ones raise TypeError. *)
Definition hanser_keywords : list string :=
  ["wl"; "na"; "ni"; "res"; "size"; "zres"; "zsize"; "vec_corr"; "condition"; "zrange"]%string.
(** An argument as a plain value; an array-like is unhashable. *)
Definition as_val (v : kval) : pyval := match v with KV w => w | KZ _ => VUnhashable end.
(** a required keyword argument *)
Definition required (d : pdict) (k : string) : res pyval := match dget d k with Some v => Ok (as_val v) | None => Err TypeError end.
(** an optional one with its default *)
Definition optional (d : pdict) (k : string) (default : pyval) : pyval := match dget d k with Some v => as_val v | None => default end.
(** None means "not given" (otf.py:96, 100) *)
Definition not_none (v : pyval) : option pyval := match v with VNone => None | _ => Some v end.
(** A zrange that is neither None, a number nor an array-like of numbers is refused here (numpy would fail later). *)
Definition zrange_kw (d : pdict) : res (option zrange_arg) :=
  match dget d "zrange" with
  | None | Some (KV VNone) => Ok None
  | Some (KZ z) => Ok (Some z)
  | Some (KV v) => match M_Val.num v with Some f => Ok (Some (ZScalar f)) | None => Err TypeError end
  end.
(** The call HanserPSF( ** d): otf.py:53-55, 272-281. *)
Definition ctor_of (d : pdict) : res ctor :=
  if negb (forallb (fun kv => existsb (String.eqb (fst kv)) hanser_keywords) d) then Err TypeError
  else
    do wl <- required d "wl"; do na <- required d "na"; do ni <- required d "ni"; do rs <- required d "res"; do sz <- required d "size";
    do zr <- zrange_kw d;
    Ok (mkCtor wl na ni rs sz (not_none (optional d "zres" VNone)) (not_none (optional d "zsize" VNone))
          (optional d "vec_corr" (VStr "none")) (optional d "condition" (VStr "sine")) zr (VBool false)).

(** otf.py:329-349, called directly: _gen_kr raises on a zero product or wavelength; _gen_pupil then cannot fail. *)
Definition gen_kr_pupil (h : hpar) : res (array C) :=
  if Req_EM_T (IZR (h_size h) * h_res h) 0 then Err ZeroDivisionError
  else if Req_EM_T (h_wl h) 0 then Err ZeroDivisionError
  else Ok (gen_pupil h).

(** phaseretrieval.py:32-149.  [unwrap] is skimage's unwrap_phase.  The result and the caller's dictionary afterwards. *)
Definition retrieve_phase (unwrap : array R -> array R) (data : array R) (params : pdict) (max_iters : Z)
    (pupil_tol mse_tol : tol) (phase_only : bool) : res result * pdict :=
  if negb (0 <? max_iters)%Z then (Err AssertionError, params)
  else match shape data with
  | nz :: ny :: nx :: rest =>
      if negb (ny =? nx)%Z then (Err AssertionError, params)
      else match rest with _ :: _ => (Err AssertionError, params) | [] =>
        let params := forced nz nx params in
        (do k <- ctor_of params;
         do model <- construct numeric Hanser k;
         do pupil <- gen_kr_pupil (hpar_of (obj_params model));
         let mag := amap psqrt data in
         let mask := amap Re pupil in
         match pr_loop data mag mask pupil_tol mse_tol phase_only (Z.to_nat max_iters) None pupil [] model with
         | (Err e, _) => Err e
         | (Ok (new_pupil, lines), model) =>
             let mask := fftshift axes2 mask in
             do phase <- bop Rmult (unwrap (fftshift axes2 (amap angle new_pupil))) mask;
             do magnitude <- bop Rmult (fftshift axes2 (amap Cmod new_pupil)) mask;
             Ok (mk_result magnitude phase lines model)
         end, params)
      end
  | _ => (Err IndexError, params)
  end.

(** phaseretrieval.py:259-262 *)
Definition complex_pupil (mag phase : array R) : res (array C) := bop (fun m p => Cmult (RtoC m) (cis p)) mag phase.

(** phaseretrieval.py:213-228: resize a generated PSF in x and y *)
Definition resize (psf : array R) (size : option Z) : res (array R) :=
  match shape psf with
  | [nz; ny; nx] =>
      if negb (ny =? nx)%Z then Err AssertionError
      else match size with
      | None => Ok psf
      | Some size =>
          if (nx <? size)%Z then fft_pad psf (NSIter [Some nz; Some size; Some size]) (PadConstant 0)
          else if (size <? nx)%Z then
            let lb := (size / 2)%Z in
            let hb := (size - lb)%Z in
            let myslice := Slice (Some (nx / 2 - lb)%Z) (Some (nx / 2 + hb)%Z) in
            getitem psf [full_slice; myslice; myslice]
          else Ok psf
      end
  | _ => Err ValueError
  end.
(** phaseretrieval.py:202-228 _generate_psf, on the value of the model (copy.copy: see h_generate in M_Heap.v). *)
Definition generate (pupil : array C) (size : option Z) (zsize : option pyval) (zrange : option zrange_arg) (model : obj numeric)
  : res (array R) :=
  let m := bindM numeric (match zsize with Some v => assign numeric Hanser (SetNum A_zsize v) | None => ret numeric tt end) (fun _ =>
           bindM numeric (match zrange with Some z => assign numeric Hanser (SetZrange z) | None => ret numeric tt end) (fun _ =>
           bindM numeric (apply_pupil numeric (ifftshift axes2 pupil)) (fun _ => read_PSFi numeric Hanser))) in
  do psf <- fst (m model); resize (reals psf) size.
(** phaseretrieval.py:234-236 *)
Definition generate_psf (r : result) (size : option Z) (zsize : option pyval) (zrange : option zrange_arg) : res (array R) :=
  do p <- complex_pupil (r_mag r) (r_phase r); generate p size zsize zrange (r_model r).

(** ** Zernike decomposition *)
(** phaseretrieval.py:265-285 *)
Record decomposition := mkZD { zd_mcoefs : list R; zd_pcoefs : list R; zd_zerns : array R }.
(** phaseretrieval.py:390-416 _fit_to_zerns; [lstsq] is numpy.linalg.lstsq's first result, for a matrix given by rows.
    Boolean indexing of the last two axes needs matching lengths. *)
Definition fit_points (r : array R) : list (list Z) :=
  filter (fun ix => if Rle_dec (get r ix) 1 then true else false) (all_ix (shape r)).
(** phaseretrieval.py:390-416 *)
Definition fit_to_zerns (lstsq : list (list R) -> list R -> list R) (data zerns r : array R) : res (list R) :=
  match shape zerns with
  | m :: sh =>
      if zlist_eqb sh (shape r) && Nat.eqb (List.length sh) 2 then
        let valid_points := fit_points r in
        Ok (lstsq (map (fun ix => map (fun k => get zerns (k :: ix)) (zseq m)) valid_points) (map (get data) valid_points))
      else Err IndexError
  | [] => Err IndexError
  end.
(** phaseretrieval.py:190-200, 282 *)
Definition noll_range (num_zerns : Z) : list Z := noll_upto (Z.to_nat num_zerns).
(** phaseretrieval.py:190-200 with 281-285 *)
Definition fit_to_zernikes (lstsq : list (list R) -> list R -> list R) (p : result) (num_zerns : Z) : res decomposition :=
  let r := amap (fun k => k / (r_na p / r_wl p)) (r_r p) in
  do zerns <- zernike true r (r_theta p) (One (IVec (noll_range num_zerns)));
  do mag_coefs <- fit_to_zerns lstsq (r_mag p) zerns r;
  do phase_coefs <- fit_to_zerns lstsq (r_phase p) zerns r;
  if negb (Nat.eqb (List.length mag_coefs) (List.length phase_coefs) && (Z.of_nat (List.length phase_coefs) =? hd 0 (shape zerns))%Z) then Err AssertionError
  else Ok (mkZD mag_coefs phase_coefs zerns).
(** [l[s]] *)
Definition slice_list (l : list R) (s : pyslice) : list R :=
  let n := Z.of_nat (List.length l) in
  map (fun i => nth (Z.to_nat (norm_start n s + i)) l 0) (zseq (slice_len n s)).
(** phaseretrieval.py:419-421 *)
Definition recon_from_zerns (coefs : list R) (zerns : array R) : res (array R) :=
  do p <- bop Rmult (column coefs) zerns; Ok (sum0 p).
(** phaseretrieval.py:322-338 *)
Definition recon (coefs : list R) (zerns : array R) (s : pyslice) : res (array R) :=
  do z <- getitem zerns [s]; recon_from_zerns (slice_list coefs s) z.
(** phaseretrieval.py:326-328 *)
Definition zd_phase (d : decomposition) (s : pyslice) : res (array R) := recon (zd_pcoefs d) (zd_zerns d) s.
(** phaseretrieval.py:330-332 *)
Definition zd_mag (d : decomposition) (s : pyslice) : res (array R) := recon (zd_mcoefs d) (zd_zerns d) s.
(** phaseretrieval.py:334-338 *)
Definition zd_complex_pupil (d : decomposition) (smag sphase : pyslice) : res (array C) :=
  do mag <- zd_mag d smag; do phase <- zd_phase d sphase; complex_pupil mag phase.
(** phaseretrieval.py:230-232; the default is sphase=slice(4, None). *)
Definition default_sphase : pyslice := Slice (Some 4%Z) None.
(** phaseretrieval.py:230-232 *)
Definition generate_zd_psf (r : result) (d : decomposition) (sphase : pyslice) (size : option Z) (zsize : option pyval)
    (zrange : option zrange_arg) : res (array R) :=
  do p <- zd_complex_pupil d full_slice sphase; generate p size zsize zrange (r_model r).
