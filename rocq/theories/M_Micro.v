(** pyotf/microscope.py without plotting and logging, over exact reals. *)
From Coq Require Export String.
From Verif Require Export M_Bin M_Radial M_Phase.
From Flocq Require Import Core.
Import M_Array.
Local Open Scope R_scope.

(** ** Python arithmetic on argument values *)
Fixpoint str_rep (s : string) (n : nat) : string := match n with O => EmptyString | S n' => append s (str_rep s n') end.
(** [v * n] for an int n (microscope.py:71) *)
Definition py_mul_int (v : pyval) (n : Z) : res pyval :=
  match v with
  | VInt z => Ok (VInt (z * n))
  | VBool b => Ok (VInt ((if b then 1 else 0) * n))
  | VFloat f => Ok (VFloat (fl_mul f (FFin (inject_Z n))))
  | VStr s => Ok (VStr (str_rep s (Z.to_nat n)))
  | VNone => Err TypeError
  | VComplex => Ok VComplex
  | VUnhashable => Ok VUnhashable
  end.
(** [v / n] for an int n (microscope.py:72) *)
Definition py_div_int (v : pyval) (n : Z) : res pyval :=
  match v with
  | VComplex => Ok VComplex
  | _ => match M_Val.num v with Some f => do q <- fl_div f (FFin (inject_Z n)); Ok (VFloat q) | None => Err TypeError end
  end.

(** ** Model classes by name *)
(** microscope.py:32-45 *)
Definition choose_model (model : pyval) : res cls :=
  match model with
  | VStr s => if String.eqb (lower s) "hanser" then Ok Hanser else if String.eqb (lower s) "sheppard" then Ok Sheppard else Err ValueError
  | _ => Err AttributeError
  end.
(** SheppardPSF's keyword arguments (otf.py:53-55, 452); HanserPSF's are in M_Phase.v. *)
Definition sheppard_keywords : list string :=
  ["wl"; "na"; "ni"; "res"; "size"; "zres"; "zsize"; "vec_corr"; "condition"; "dual"]%string.
(** The call SheppardPSF( ** d): otf.py:53-55, 452-457; unknown or missing keywords raise TypeError. *)
Definition ctor_of_sheppard (d : pdict) : res ctor :=
  if negb (forallb (fun kv => existsb (String.eqb (fst kv)) sheppard_keywords) d) then Err TypeError
  else
    do wl <- required d "wl"; do na <- required d "na"; do ni <- required d "ni"; do rs <- required d "res"; do sz <- required d "size";
    Ok (mkCtor wl na ni rs sz (not_none (optional d "zres" VNone)) (not_none (optional d "zsize" VNone))
          (optional d "vec_corr" (VStr "none")) (optional d "condition" (VStr "sine")) None (optional d "dual" (VBool false))).
(** microscope.py:78 model( ** psf_params), by class. *)
Definition ctor_for (c : cls) (d : pdict) : res ctor := match c with Hanser => ctor_of d | Sheppard => ctor_of_sheppard d end.

(** ** Objects *)
Inductive kind := Widefield | Confocal | Apotome | SIM.
(** The NumericProperties: microscope.py:51-55, 188-194, 267-275. *)
Inductive mattr := MOs | MPinhole | MWlExc | MNaExc | MCoherent | MDc | MDcSup.
(** equality of property names *)
Definition mattr_eqb (a b : mattr) : bool :=
  match a, b with
  | MOs, MOs | MPinhole, MPinhole | MWlExc, MWlExc | MNaExc, MNaExc | MCoherent, MCoherent | MDc, MDc | MDcSup, MDcSup => true
  | _, _ => false
  end.
(** the vartype of each property: microscope.py:51-55, 188-194, 267-275 *)
Definition mtype (a : mattr) : vartype :=
  match a with MOs => TInt | MPinhole => TFloatInt | MWlExc | MNaExc => TFloat | MCoherent | MDc | MDcSup => TBool end.
(** which class has which property *)
Definition has_prop (k : kind) (a : mattr) : bool :=
  match a, k with
  | MOs, _ => true
  | MPinhole, Confocal => true
  | MWlExc, (Confocal | SIM) => true
  | (MNaExc | MCoherent | MDc | MDcSup), SIM => true
  | _, _ => false
  end.
(** An array with a flag telling that all its entries are finite; otherwise the numbers mean nothing. *)
Definition farr := (array R * bool)%type.
(** The __dict__ of a microscope: microscope.py:57-78, 196-202, 277-303. *)
Record micro := mkMicro {
  mi_kind : kind; mi_cls : cls;
  mi_num : mattr -> option pyval;
  mi_params : pdict;                        (* self.psf_params *)
  mi_pixel : pyval;                         (* self.pixel_size *)
  mi_model : obj numeric;                   (* self.model *)
  mi_exc : obj numeric;                     (* self.model_exc, confocal only *)
  mi_orient : list R;                       (* self.orientations, SIM only: a sequence of numbers *)
  mi_wiener : pyval;                        (* self.wiener, SIM only *)
  mi_psf : option (array (option R));       (* cached PSF; None entries are NaN or inf *)
  mi_otf : option (array (option C)) }.     (* cached OTF *)
(** Record updates, one per field: an assignment to that attribute. *)
Definition upd_num (f : mattr -> option pyval) m := mkMicro (mi_kind m) (mi_cls m) f (mi_params m) (mi_pixel m) (mi_model m) (mi_exc m) (mi_orient m) (mi_wiener m) (mi_psf m) (mi_otf m).
(** see [upd_num] *)
Definition upd_model o m := mkMicro (mi_kind m) (mi_cls m) (mi_num m) (mi_params m) (mi_pixel m) o (mi_exc m) (mi_orient m) (mi_wiener m) (mi_psf m) (mi_otf m).
(** see [upd_num] *)
Definition upd_exc o m := mkMicro (mi_kind m) (mi_cls m) (mi_num m) (mi_params m) (mi_pixel m) (mi_model m) o (mi_orient m) (mi_wiener m) (mi_psf m) (mi_otf m).
(** see [upd_num] *)
Definition upd_pixel v m := mkMicro (mi_kind m) (mi_cls m) (mi_num m) (mi_params m) v (mi_model m) (mi_exc m) (mi_orient m) (mi_wiener m) (mi_psf m) (mi_otf m).
(** see [upd_num] *)
Definition upd_orient l m := mkMicro (mi_kind m) (mi_cls m) (mi_num m) (mi_params m) (mi_pixel m) (mi_model m) (mi_exc m) l (mi_wiener m) (mi_psf m) (mi_otf m).
(** see [upd_num] *)
Definition upd_wiener v m := mkMicro (mi_kind m) (mi_cls m) (mi_num m) (mi_params m) (mi_pixel m) (mi_model m) (mi_exc m) (mi_orient m) v (mi_psf m) (mi_otf m).
(** see [upd_num] *)
Definition upd_cache p o m := mkMicro (mi_kind m) (mi_cls m) (mi_num m) (mi_params m) (mi_pixel m) (mi_model m) (mi_exc m) (mi_orient m) (mi_wiener m) p o.

(** A method of a microscope: it may raise, and keeps the effects it had before raising. *)
Definition MM (A : Type) := micro -> res A * micro.
(** return *)
Definition mret {A} (x : A) : MM A := fun m => (Ok x, m).
(** sequencing *)
Definition mbind {A B} (c : MM A) (f : A -> MM B) : MM B := fun m => match c m with (Ok x, m') => f x m' | (Err e, m') => (Err e, m') end.
(** a computation without effect on the object *)
Definition mlift {A} (r : res A) : MM A := fun m => (r, m).
(** reading a plain attribute *)
Definition masks {A} (f : micro -> A) : MM A := fun m => (Ok (f m), m).
Notation "'let!' x ':=' c 'in' k" := (mbind c (fun x => k)) (at level 200, x name, k at level 200, right associativity).
(** a method call on self.model *)
Definition on_model {A} (c : M numeric A) : MM A := fun m => let (r, o) := c (mi_model m) in (r, upd_model o m).
(** a method call on self.model_exc *)
Definition on_exc {A} (c : M numeric A) : MM A := fun m => let (r, o) := c (mi_exc m) in (r, upd_exc o m).

(** microscope.py:91-102 _attribute_changed *)
Definition m_changed : micro -> micro := upd_cache None None.
(** assignment to a NumericProperty (utils.py:205-213); to any other name it only makes a new attribute *)
Definition m_set (a : mattr) (v : pyval) : MM unit := fun m =>
  if has_prop (mi_kind m) a then
    numeric_fset (fun m => mi_num m a) (fun v m => upd_num (fun b => if mattr_eqb a b then Some v else mi_num m b) m) m_changed (mtype a) v m
  else (Ok tt, m).
(** reading one: AttributeError when it was never assigned *)
Definition m_get (a : mattr) : MM pyval := fun m => match mi_num m a with Some v => (Ok v, m) | None => (Err AttributeError, m) end.

(** Values of self.psf_params as numbers.  The constructor stores all entries used below. *)
Definition par_val (d : pdict) (k : string) : res pyval := match dget d k with Some v => Ok (as_val v) | None => Err KeyError end.
(** a value used as a float *)
Definition as_R (v : pyval) : res R := match M_Val.num v with Some f => Ok (fl_R f) | None => Err TypeError end.
(** a value used as an int *)
Definition as_Z (v : pyval) : res Z := match v with VInt _ | VBool _ => Ok (as_int v) | _ => Err TypeError end.
(** self.psf_params[k] as a float *)
Definition par_R (d : pdict) (k : string) : res R := do v <- par_val d k; as_R v.
(** self.psf_params[k] as an int *)
Definition par_Z (d : pdict) (k : string) : res Z := do v <- par_val d k; as_Z v.
(** [x / y] of Python floats *)
Definition rdiv (x y : R) : res R := if Req_EM_T y 0 then Err ZeroDivisionError else Ok (x / y).
(** attribute of a model as a number *)
Definition model_R (a : attr) : MM R := on_model (bindM numeric (getattr numeric a) (fun v => lift numeric (as_R v))).
(** the arrays of a model, with their finiteness *)
Definition farr_of (a : array (option C)) : farr := (reals a, finite_all a).
(** self.model.PSFi *)
Definition model_PSFi : MM farr := fun m => let (r, o) := read numeric (mi_cls m) PSFi (mi_model m) in (do a <- r; Ok (farr_of a), upd_model o m).
(** self.model_exc.PSFi *)
Definition exc_PSFi : MM farr := fun m => let (r, o) := read numeric (mi_cls m) PSFi (mi_exc m) in (do a <- r; Ok (farr_of a), upd_exc o m).
(** self.model.OTFi *)
Definition model_OTFi : MM (array C * bool) := fun m => let (r, o) := read numeric (mi_cls m) OTFi (mi_model m) in (do a <- r; Ok (complexes a, finite_all a), upd_model o m).

(** ** Confocal *)
(** microscope.py:174-182.  [kernel / kernel.sum()] is NaN when the sum is 0 (radius <= 0). *)
Definition disk_size (radius : R) : Z := let s := Zceil (radius * 2) in if (s mod 2 =? 0)%Z then (s + 1)%Z else s.
(** microscope.py:179-181: 1 where the distance to the centre pixel is below the radius. *)
Definition disk_hit (radius : R) (y x : Z) : R :=
  let c := ((disk_size radius - 1) / 2)%Z in
  if Rlt_dec (sqrt (IZR (y - c) ^ 2 + IZR (x - c) ^ 2)) radius then 1 else 0.
(** microscope.py:182 kernel.sum() *)
Definition disk_sum (radius : R) : R :=
  Rsum (zseq (disk_size radius)) (fun y => Rsum (zseq (disk_size radius)) (fun x => disk_hit radius y x)).
(** microscope.py:174-182 _disk_kernel(radius) *)
Definition disk_kernel (radius : R) : farr :=
  (mkArr [disk_size radius; disk_size radius] (fun ix => match ix with [y; x] => disk_hit radius y x / disk_sum radius | _ => 0 end),
   if Req_EM_T (disk_sum radius) 0 then false else true).
(** scipy.signal.fftconvolve(a, k[None], "same", axes=(1, 2)): the linear convolution (zero outside), cut to the shape of [a]
    around the kernel's centre element. *)
Definition fftconvolve_same (a k : array R) : res (array R) :=
  match shape a, shape k with
  | [nz; ny; nx], [hy; hx] =>
      Ok (mkArr [nz; ny; nx] (fun ix => match ix with
        | [z; y; x] =>
            Rsum (zseq hy) (fun j => Rsum (zseq hx) (fun i =>
              let y' := (y + (hy - 1) / 2 - j)%Z in let x' := (x + (hx - 1) / 2 - i)%Z in
              if ((0 <=? y') && (y' <? ny) && (0 <=? x') && (x' <? nx))%Z then get a [z; y'; x'] * get k [j; i] else 0))
        | _ => 0
        end))
  | _, _ => Err ValueError
  end.
(** microscope.py:211-226.  1.22 stands for the decimal number. *)
Definition confocal_psf : MM farr :=
  let! wl := model_R A_wl in
  let! na := model_R A_na in
  let! t := mlift (rdiv (122 / 100 * wl) na) in
  let! rs := model_R A_res in
  let! airy_unit := mlift (rdiv t rs) in
  let! ph := m_get MPinhole in
  let! ph := mlift (as_R ph) in
  let pixel_pinhole_radius := ph * airy_unit / 2 in
  let! det := model_PSFi in
  let! det := (if Rlt_dec (3 / 2) pixel_pinhole_radius
               then let kernel := disk_kernel pixel_pinhole_radius in
                    mlift (do c <- fftconvolve_same (fst det) (fst kernel); Ok (c, snd det && snd kernel))
               else mret det) in
  let! exc := exc_PSFi in
  mlift (do p <- bop Rmult (fst det) (fst exc); Ok (p, snd det && snd exc)).

(** ** Apotome *)
(** numpy.max of complex numbers: lexicographic; a NaN anywhere makes it NaN, no element raises. *)
Definition c_lt (a b : C) : bool :=
  if Rlt_dec (Re a) (Re b) then true else if Req_EM_T (Re a) (Re b) then (if Rlt_dec (Im a) (Im b) then true else false) else false.
(** microscope.py:248 rotf.max() *)
Definition c_max (l : list C) : res C :=
  match l with [] => Err ValueError | a :: l' => Ok (fold_left (fun m b => if c_lt m b then b else m) l' a) end.
(** the list of values when none is NaN *)
Fixpoint all_some {A} (l : list (option A)) : option (list A) :=
  match l with [] => Some [] | Some a :: l' => match all_some l' with Some r => Some (a :: r) | None => None end | None :: _ => None end.
(** [a[z]] *)
Definition plane {A} (a : array A) (z : Z) : array A := mkArr (tl (shape a)) (fun ix => get a (z :: ix)).
(** a list comprehension whose body may raise *)
Fixpoint map_res {A B} (f : A -> res B) (l : list A) : res (list B) :=
  match l with [] => Ok [] | a :: l' => do b <- f a; do r <- map_res f l'; Ok (b :: r) end.
(** numpy.rint *)
Definition rint (x : R) : Z := ZnearestE x.
(** microscope.py:245-260: rotf[:, abbe_limit // 2] and the finiteness of rotf.  [rows] is the radial profile of every plane; they
    are equally long.  A negative index counts from the end. *)
Definition wrap_index (n k : Z) : Z := if (k <? 0)%Z then (k + n)%Z else k.
(** microscope.py:248-249, 258: rotf / rotf.max(), its modulus, the column at index k. *)
Definition axial_profile (rows : list (list (option C))) (k : Z) : res (list R * bool) :=
  match all_some (concat rows) with
  | None => Ok (map (fun _ => 0) rows, false)
  | Some l =>
      do mx <- c_max l;
      let ix r := wrap_index (Z.of_nat (List.length r)) k in
      if forallb (fun r : list (option C) => (0 <=? ix r) && (ix r <? Z.of_nat (List.length r)))%Z rows then
        Ok (map (fun r => Cmod (Cdiv (match nth (Z.to_nat (ix r)) r None with Some c => c | None => RtoC 0 end) mx)) rows,
            if Ceq_dec mx (RtoC 0) then false else true)
      else Err IndexError
  end.
(** microscope.py:245 *)
Definition hybrid_otf (psf : array R) : array C := easy_fft (Some [1%nat; 2%nat]) (amap RtoC psf).
(** microscope.py:247 *)
Definition radial_rows (hyb : array C) : res (list (list (option C))) :=
  map_res (fun z => do p <- radial_profile_c (plane hyb z) None 1; Ok (fst p)) (zseq (hd 0%Z (shape hyb))).
(** microscope.py:241-261 *)
Definition apotome_psf : MM farr :=
  let! psf := model_PSFi in
  let! rows := mlift (radial_rows (hybrid_otf (fst psf))) in
  let! d := masks mi_params in
  let! nyq := mlift (do wl <- par_R d "wl"; do na <- par_R d "na"; do q <- rdiv wl na; Ok (q / 4)) in
  let! lim := mlift (do n <- par_R d "size"; do rs <- par_R d "res"; do q <- rdiv (n * rs) nyq; Ok (rint (q / 2))) in
  let! ax := mlift (axial_profile rows (lim / 2)%Z) in
  mlift (do p <- bop Rmult (column (fst ax)) (fst psf); Ok (p, snd ax && snd psf)).

(** ** SIM *)
(** microscope.py:322-328 *)
Definition centred (n : Z) (d : R) (i : Z) : R := IZR (i - (n + 1) / 2) * d.
(** ndarray.max() *)
Definition r_max (a : array R) : res R :=
  match map (get a) (all_ix (shape a)) with [] => Err ValueError | v :: l => Ok (fold_left Rmax l v) end.
(** microscope.py:345 abs(OTFi) ** 2 *)
Definition power (otf : array C) : array R := amap (fun v => Cmod v ^ 2) otf.
(** microscope.py:348 otf > 1e-16, the threshold as a decimal number *)
Definition support (otf : array R) : array R := amap (fun v => if Rlt_dec (/ 10 ^ 16) v then 1 else 0) otf.
(** microscope.py:351 otf / (otf + w) *)
Definition wiener_factor (w v : R) : R := v / (v + w).
(** microscope.py:355 easy_ifft(wiener_otf).real *)
Definition ifft_real (a : array R) : array R := amap Re (easy_ifft None (amap RtoC a)).
(** microscope.py:340-357 *)
Definition sim_base : MM farr :=
  let! w := masks mi_wiener in
  match w with
  | VNone => model_PSFi
  | _ =>
      let! ok := mlift (py_ge w (VInt 0)) in
      if ok then
        let! o := model_OTFi in
        let otf := power (fst o) in
        if py_eq w (VInt 0) then mret (ifft_real (support otf), snd o)
        else match M_Val.num w with
             | Some (FFin q) =>
                 let! mx := mlift (r_max otf) in
                 let w2 := mx * Q2R q ^ 2 in
                 mret (ifft_real (amap (wiener_factor w2) otf),
                       snd o && forallb (fun ix => if Req_EM_T (get otf ix + w2) 0 then false else true) (all_ix (shape otf)))
             | _ => let! _ := mlift (r_max otf) in mret (otf, false)   (* wiener = inf: 0 or NaN everywhere, NaN after normalisation *)
             end
      else mlift (Err ValueError)
  end.
(** microscope.py:360-363 *)
Definition base_pattern (dc : bool) (zsize : Z) (zz : Z -> R) (freq : R) (sh : list Z) : array C :=
  if dc then mkArr (zsize :: tl sh) (fun ix => match ix with z :: _ => cis (zz z * freq) | [] => RtoC 0 end)
  else mkArr sh (fun _ => RtoC 0).
(** microscope.py:378-386: one plane wave on the whole grid *)
Definition wave_pattern (n zsize : Z) (xx zz : Z -> R) (freq orientation theta : R) : array C :=
  mkArr [zsize; n; n] (fun ix => match ix with
    | [z; y; x] => let rr := xx x * cos orientation + xx y * sin orientation in cis ((rr * sin theta + zz z * cos theta) * freq)
    | _ => RtoC 0 end).
(** microscope.py:385-386 *)
Definition add_beams (n zsize : Z) (xx zz : Z -> R) (freq alpha orientation : R) (e : array C) : res (array C) :=
  do e <- ibop Cplus e (wave_pattern n zsize xx zz freq orientation (- alpha));
  ibop Cplus e (wave_pattern n zsize xx zz freq orientation alpha).
(** microscope.py:390, 394 psf * abs(exc_pattern) ** 2 *)
Definition apply_pattern (psf : array R) (e : array C) : res (array R) := bop (fun p v => p * Cmod v ^ 2) psf e.
Section Loops.
Context (n zsize : Z) (xx zz : Z -> R) (freq alpha : R) (psf : array R) (base : array C).
(** microscope.py:366-390, coherent = False *)
Fixpoint incoherent (os : list R) (sim : array R) : res (array R) :=
  match os with
  | [] => Ok sim
  | o :: os' =>
      do e <- add_beams n zsize xx zz freq alpha o base;
      do p <- apply_pattern psf e;
      do sim <- ibop Rplus sim p;
      incoherent os' sim
  end.
(** microscope.py:370-394, coherent = True: base_pattern itself is accumulated in place; without any orientation the name
    exc_pattern is unbound. *)
Fixpoint coherent_field (os : list R) (e : array C) : res (array C) :=
  match os with [] => Ok e | o :: os' => do e <- add_beams n zsize xx zz freq alpha o e; coherent_field os' e end.
(** microscope.py:369-394 with coherent = True *)
Definition coherent (os : list R) : res (array R) :=
  do e <- coherent_field os base;
  match os with [] => Err UnboundLocalError | _ => apply_pattern psf e end.
End Loops.
(** microscope.py:314-400; numpy.arcsin is NaN outside [-1, 1]. *)
Definition py_bool (v : pyval) : bool := match v with VBool b => b | _ => true end.
(** microscope.py:314-400 *)
Definition sim_psf : MM farr :=
  let! d := masks mi_params in
  let! n := mlift (par_Z d "size") in let! rs := mlift (par_R d "res") in
  let! zsize := mlift (par_Z d "zsize") in let! zres := mlift (par_R d "zres") in
  let! ni := mlift (par_R d "ni") in
  let! wle := m_get MWlExc in let! wle := mlift (as_R wle) in
  let! freq := mlift (rdiv (2 * PI * ni) wle) in
  let! nae := m_get MNaExc in let! nae := mlift (as_R nae) in
  let! s := mlift (rdiv nae ni) in
  let alpha := asin s in
  let! psf := sim_base in
  let! dc := m_get MDc in let! coh := m_get MCoherent in let! sup := m_get MDcSup in
  let! os := masks mi_orient in
  let xx := centred n rs in let zz := centred zsize zres in
  let base := base_pattern (py_bool dc) zsize zz freq (shape (fst psf)) in
  let ok := snd psf && (if Rle_dec (Rabs s) 1 then true else match os with [] => true | _ => false end) in
  if py_bool coh then mlift (do r <- coherent n zsize xx zz freq alpha (fst psf) base os; Ok (r, ok))
  else mlift (
    do r <- incoherent n zsize xx zz freq alpha (fst psf) base os (amap (fun _ => 0) (fst psf));
    if py_bool sup then do r <- ibop (fun a p => a - (2 * INR (List.length os) - 1) * p) r (fst psf); Ok (r, ok) else Ok (r, ok)).

(** ** PSF and OTF *)
(** microscope.py:104-107, 211, 241, 314: model_psf of the four classes *)
Definition model_psf : MM farr := fun m =>
  match mi_kind m with Widefield => model_PSFi m | Confocal => confocal_psf m | Apotome => apotome_psf m | SIM => sim_psf m end.
(** microscope.py:113-121 *)
Definition bin_psf (os size : Z) (psf : array R) : res (array R) :=
  if (1 <? os)%Z then
    let psf := if (size mod 2 =? 0)%Z then roll (os / 2) 2 (roll (os / 2) 1 psf) else psf in
    bin_ndarray psf None (Some (BSeq [1%Z; os; os])) "sum"
  else Ok psf.
(** microscope.py:124 *)
Definition total (a : array R) : R := Rsum (all_ix (shape a)) (get a).
(** microscope.py:124 psf / psf.sum(); NaN when the sum is 0 or an entry is not finite. *)
Definition normalise (p : farr) : array (option R) :=
  amap (fun v => if snd p then (if Req_EM_T (total (fst p)) 0 then None else Some (v / total (fst p))) else None) (fst p).
(** microscope.py:109-124, the body of PSF *)
Definition compute_psf : MM (array (option R)) :=
  let! psf := model_psf in
  let! os := m_get MOs in
  let! d := masks mi_params in
  let! b := mlift (do n <- par_Z d "size"; bin_psf (as_int os) n (fst psf)) in
  mret (normalise (b, snd psf)).
(** microscope.py:109-129, functools.cached_property *)
Definition m_PSF : MM (array (option R)) := fun m =>
  match mi_psf m with
  | Some a => (Ok a, m)
  | None => (let! a := compute_psf in fun m => (Ok a, upd_cache (Some a) (mi_otf m) m)) m
  end.
(** microscope.py:126-129 *)
Definition m_OTF : MM (array (option C)) := fun m =>
  match mi_otf m with
  | Some a => (Ok a, m)
  | None => (let! a := m_PSF in let f := o_fft (amap (option_map RtoC) a) in fun m => (Ok f, upd_cache (mi_psf m) (Some f) m)) m
  end.

(** ** Constructors *)
(** The keyword arguments of WidefieldMicroscope; [w_kwargs] are the remaining ones. *)
Record wargs := mkWargs { w_model : pyval; w_na : pyval; w_ni : pyval; w_wl : pyval; w_size : pyval; w_pixel : pyval; w_os : pyval; w_kwargs : pdict }.
(** dict(..., ** kwargs) *)
Fixpoint dupdate (d e : pdict) : pdict := match e with [] => d | (k, v) :: e' => dupdate (dset d k v) e' end.
(** microscope.py:62-63 *)
Definition psf_params0 (a : wargs) : pdict :=
  dupdate [("na", KV (w_na a)); ("ni", KV (w_ni a)); ("wl", KV (w_wl a)); ("zres", KV (w_pixel a)); ("zsize", KV (w_size a))]%string (w_kwargs a).
(** microscope.py:57-78; [k] is the class being built *)
Definition empty_micro (k : kind) : micro :=
  mkMicro k Hanser (fun _ => None) [] VNone (empty_obj numeric) (empty_obj numeric) [] VNone None None.
(** microscope.py:57-78 __init__ *)
Definition wide_init (a : wargs) : MM unit :=
  let! _ := m_set MOs (w_os a) in
  let os := as_int (w_os a) in
  if negb (os mod 2 =? 1)%Z then mlift (Err AssertionError)
  else
    let! d := (if (os =? 1)%Z then mret (dset (dset (psf_params0 a) "size" (KV (w_size a))) "res" (KV (w_pixel a)))
               else if (1 <? os)%Z then
                 mlift (do s <- py_mul_int (w_size a) os; do r <- py_div_int (w_pixel a) os;
                        Ok (dset (dset (psf_params0 a) "size" (KV s)) "res" (KV r)))
               else mlift (Err ValueError)) in
    let! _ := m_set MOs (w_os a) in
    let! c := mlift (choose_model (w_model a)) in
    let! k := mlift (ctor_for c d) in
    let! o := mlift (construct numeric c k) in
    (fun m => (Ok tt, mkMicro (mi_kind m) c (mi_num m) d (w_pixel a) o (mi_exc m) (mi_orient m) (mi_wiener m) (mi_psf m) (mi_otf m))).
(** microscope.py:196-202; copy.deepcopy of the model, then wl is assigned on the copy *)
Definition confocal_init (a : wargs) (wl_exc pinhole_size : pyval) : MM unit :=
  let! _ := wide_init a in
  let! _ := m_set MPinhole pinhole_size in
  let! o := masks mi_model in
  fun m => on_exc (assign numeric (mi_cls m) (SetNum A_wl wl_exc)) (upd_exc o m).
(** microscope.py:277-303 *)
Record sargs := mkSargs { s_na_exc : pyval; s_wl_exc : pyval; s_wiener : pyval; s_coherent : pyval; s_dc : pyval; s_dcsup : pyval; s_orient : list R }.
(** microscope.py:277-303 __init__ *)
Definition sim_init (a : wargs) (s : sargs) : MM unit :=
  let! _ := wide_init a in
  let! d := masks mi_params in
  let! na := mlift (match s_na_exc s with VNone => par_val d "na" | v => Ok v end) in
  let! _ := m_set MNaExc na in
  let! wl := mlift (match s_wl_exc s with VNone => par_val d "wl" | v => Ok v end) in
  let! _ := m_set MWlExc wl in
  let! _ := m_set MCoherent (s_coherent s) in
  let! _ := m_set MDc (s_dc s) in
  let! _ := m_set MDcSup (s_dcsup s) in
  let! _ := (fun m => (Ok tt, upd_wiener (s_wiener s) (upd_orient (s_orient s) m))) in
  let! neg := mlift (py_lt (s_wiener s) (VInt 0)) in
  if neg : bool then mlift (Err ValueError) else mret tt.
(** A constructor call: a new instance, then __init__. *)
Definition make (k : kind) (i : MM unit) : res micro := match i (empty_micro k) with (Ok _, m) => Ok m | (Err e, _) => Err e end.
(** microscope.py:48, 57 *)
Definition WidefieldMicroscope (a : wargs) : res micro := make Widefield (wide_init a).
(** microscope.py:185, 196 *)
Definition ConfocalMicroscope (a : wargs) (wl_exc pinhole : pyval) : res micro := make Confocal (confocal_init a wl_exc pinhole).
(** microscope.py:229: same constructor *)
Definition ApotomeMicroscope (a : wargs) : res micro := make Apotome (wide_init a).
(** microscope.py:264, 277 *)
Definition BaseSIMMicroscope (a : wargs) (s : sargs) : res micro := make SIM (sim_init a s).
(** microscope.py:403-424 *)
Definition SIM2DMicroscope (a : wargs) (na_exc wl_exc wiener dc_suppress : pyval) (os : list R) : res micro :=
  BaseSIMMicroscope a (mkSargs na_exc wl_exc wiener (VBool false) (VBool false) dc_suppress os).
(** microscope.py:410-414 *)
Definition SIM3DMicroscope (a : wargs) (na_exc wl_exc wiener dc_suppress : pyval) (os : list R) : res micro :=
  BaseSIMMicroscope a (mkSargs na_exc wl_exc wiener (VBool false) (VBool true) dc_suppress os).
(** microscope.py:417-424 *)
Definition LatticeSIMMicroscope (a : wargs) (na_exc wl_exc wiener dc_suppress : pyval) : res micro :=
  BaseSIMMicroscope a (mkSargs na_exc wl_exc wiener (VBool true) (VBool true) dc_suppress [0; PI / 2]).
