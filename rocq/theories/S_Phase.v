(** Vocabulary for phase retrieval (independent of how M_Phase.v computes). *)
From Verif Require Export M_Phase S_Hanser.
Import M_Array.
Local Open Scope R_scope.

(** What is assumed of skimage.restoration.unwrap_phase: it changes every phase by a whole number of turns. *)
Definition unwraps (u : array R -> array R) : Prop :=
  forall a, shape (u a) = shape a /\ forall ix, inb (shape a) ix -> exists k : Z, get (u a) ix = get a ix + 2 * PI * IZR k.

(** Finite attributes (the real-number model says nothing about infinities and NaN). *)
Definition finite_val (v : option pyval) : Prop := match v with Some w => exists q, M_Val.num w = Some (FFin q) | None => False end.
Definition finite_model {E} (o : obj E) : Prop :=
  finite_val (o_attr o A_wl) /\ finite_val (o_attr o A_na) /\ finite_val (o_attr o A_ni) /\ finite_val (o_attr o A_res) /\
  exists l, o_zrange o = Some l /\ Forall (fun f => exists q, f = FFin q) l.

(** The parameters of the model retrieve_phase works with, as numbers. *)
Definition hpar_model (o : obj numeric) : hpar := hpar_of (obj_params o).

(** [params] with the four entries retrieve_phase imposes on data of shape (nz, n, n). *)
Definition imposed (nz n : Z) (d d' : pdict) : Prop :=
  dget d' "vec_corr" = Some (KV (VStr "none")) /\ dget d' "condition" = Some (KV (VStr "none")) /\
  dget d' "zsize" = Some (KV (VInt nz)) /\ dget d' "size" = Some (KV (VInt n)) /\
  forall k, k <> "vec_corr"%string -> k <> "condition"%string -> k <> "zsize"%string -> k <> "size"%string -> dget d' k = dget d k.

(** Data of shape (nz, n, n) and a dictionary from which HanserPSF( ** params) makes [model], one plane per z position. *)
Definition usable (data : array R) (params : pdict) (nz n : Z) (model : obj numeric) : Prop :=
  shape data = [nz; n; n] /\ (1 <= nz)%Z /\ (2 <= n)%Z /\
  (exists k, ctor_of (forced nz n params) = Ok k /\ construct numeric Hanser k = Ok model) /\
  finite_model model /\ physical (hpar_model model) /\ Z.of_nat (List.length (h_zrange (hpar_model model))) = nz.

(** Mean squared difference of two stacks; sum of squared differences of their amplitudes. *)
Definition mean_sq (a b : array R) : R := Rsum (all_ix (shape a)) (fun ix => (get a ix - get b ix) ^ 2) / IZR (size (shape a)).
Definition amp_error (data psf : array R) : R :=
  Rsum (all_ix (shape data)) (fun ix => (sqrt (get psf ix) - sqrt (Rmax 0 (get data ix))) ^ 2).
(** x / y, or nothing (NaN, inf) when y is 0. *)
Definition ratio (x y : R) : option R := if Req_EM_T y 0 then None else Some (x / y).
Definition energy (P : array C) : R := Rsum (all_ix (shape P)) (fun ix => Cmod (get P ix) ^ 2).
Definition energy_diff (P Q : array C) : R := Rsum (all_ix (shape P)) (fun ix => Cmod (Cminus (get P ix) (get Q ix)) ^ 2).

(** The pixel (y, x) of a centred pupil image: its spatial frequency and whether it lies inside the aperture. *)
Definition cfreq (h : hpar) (i : Z) : R := IZR (i - h_size h / 2) / (IZR (h_size h) * h_res h).
Definition inside (h : hpar) (y x : Z) : Prop := cfreq h y ^ 2 + cfreq h x ^ 2 < (h_na h / h_wl h) ^ 2.
Definition aperture (h : hpar) (y x : Z) : R := if Rlt_dec (cfreq h y ^ 2 + cfreq h x ^ 2) ((h_na h / h_wl h) ^ 2) then 1 else 0.

(** A value is below a tolerance. *)
Definition is_below (x : option R) (t : tol) : Prop :=
  match x, t with Some v, Tol r => v < r | Some _, TolInf => True | _, _ => False end.
(** The stopping rule on the i-th entries of the three records. *)
Definition stops_at (pupil_tol mse_tol : tol) (r : result) (i : nat) : Prop :=
  is_below (nth i (r_pupil_diff r) None) pupil_tol \/ is_below (nth i (r_mse_diff r) None) mse_tol \/ is_below (nth i (r_mse r) None) mse_tol.

(** The pupil and the PSF a user sees after i iterations: what retrieve_phase(..., max_iters=i) returns; before the first,
    the clear aperture and the PSF of HanserPSF( ** params). *)
Definition after (u : array R -> array R) (data : array R) (params : pdict) (pt mt : tol) (po : bool) (model : obj numeric)
    (i : nat) (P : array C) (psf : array R) : Prop :=
  match i with
  | O => let n := h_size (hpar_model model) in
         shape P = [n; n] /\ (forall y x, (0 <= y < n)%Z -> (0 <= x < n)%Z -> get P [y; x] = RtoC (aperture (hpar_model model) y x)) /\
         exists v, fst (read numeric Hanser PSFi model) = Ok v /\ psf = reals v
  | S _ => exists r, fst (retrieve_phase u data params (Z.of_nat i) pt mt po) = Ok r /\
         complex_pupil (r_mag r) (r_phase r) = Ok P /\ generate_psf r None None None = Ok psf
  end.

(** Field of a centred pupil at plane z, and the update of Hanser, Gustafsson, Agard and Sedat: measured magnitude, current
    phase; back to the pupil; defocus undone; mean over planes; cut to the aperture. *)
Section Field.
Context (h : hpar).
Let n := h_size h.
Definition wave (z y x v u : Z) : C :=
  cis (2 * PI * (sqrt (Rmax 0 ((h_ni h / h_wl h) ^ 2 - (cfreq h v ^ 2 + cfreq h u ^ 2))) * nth (Z.to_nat z) (h_zrange h) 0 +
                 (IZR ((v - n / 2) * (y - n / 2)) + IZR ((u - n / 2) * (x - n / 2))) / IZR n)).
Definition field (P : Z -> Z -> C) (z y x : Z) : C :=
  Cmult (RtoC (/ IZR (n * n))) (Csum (zseq n) (fun v => Csum (zseq n) (fun u => Cmult (P v u) (wave z y x v u)))).
Definition unit_phase (w : C) : C := if Req_EM_T (Cmod w) 0 then RtoC 1 else Cdiv w (RtoC (Cmod w)).
Definition update (m : Z -> Z -> Z -> R) (nz : Z) (P : Z -> Z -> C) (v u : Z) : C :=
  Cmult (RtoC (aperture h v u))
    (Cdiv (Csum (zseq nz) (fun z => Csum (zseq n) (fun y => Csum (zseq n) (fun x =>
        Cmult (Cmult (RtoC (m z y x)) (unit_phase (field P z y x))) (Cconj (wave z y x v u)))))) (RtoC (IZR nz))).
End Field.
