(** The microscopes of pyotf/microscope.py as Python sees them: objects that hold REFERENCES to PSF objects (which others may
    use or copy) and to the arrays PSF and OTF they handed out, into which the caller can write.  The value-level machine is
    M_Micro.v; PSF objects with references are M_Heap.v. *)
From Verif Require Export M_Micro M_Write.
Import M_Array.
Local Open Scope R_scope.

(** The __dict__ of a microscope: microscope.py:57-78, 196-202, 277-303.  [hm_exc] is None where there is no model_exc. *)
Record hmicro := mkHMicro {
  hm_kind : kind;
  hm_num : mattr -> option pyval;
  hm_params : pdict; hm_pixel : pyval;
  hm_model : nat; hm_exc : option nat;
  hm_orient : list R; hm_wiener : pyval;
  hm_psf : option nat; hm_otf : option nat }.
(** PSF objects and their arrays; the microscopes; the arrays [psf / psf.sum()] (microscope.py:124) and [easy_fft(PSF)]
    (microscope.py:129) ever made.  Both expressions make a new array, so these are never arrays of a PSF object. *)
Record hworld := mkHWorld { hw_heap : heap numeric; hw_mic : list hmicro; hw_psf : list (array (option R)); hw_otf : list (array (option C)) }.

(** A method of a microscope: it may raise, and keeps the effects it had before raising. *)
Definition WM (A : Type) := hworld -> res A * hworld.
(** return *)
Definition wret {A} (x : A) : WM A := fun W => (Ok x, W).
(** sequencing *)
Definition wbind {A B} (c : WM A) (f : A -> WM B) : WM B := fun W => match c W with (Ok x, W') => f x W' | (Err e, W') => (Err e, W') end.
(** a computation without effect *)
Definition wlift {A} (r : res A) : WM A := fun W => (r, W).
Notation "'let%' x ':=' c 'in' k" := (wbind c (fun x => k)) (at level 200, x name, k at level 200, right associativity).
(** a method of a PSF object *)
Definition on_heap {A} (c : HM numeric A) : WM A := fun W => let (r, H) := c (hw_heap W) in (r, mkHWorld H (hw_mic W) (hw_psf W) (hw_otf W)).
(** the contents of an array of a PSF object *)
Definition w_deref (r : nat) : WM farr :=
  fun W => match nth_error (hp_arr numeric (hw_heap W)) r with Some a => (Ok (farr_of a), W) | None => (Err RuntimeError, W) end.
(** the same for a complex array *)
Definition w_deref_c (r : nat) : WM (array C * bool) :=
  fun W => match nth_error (hp_arr numeric (hw_heap W)) r with Some a => (Ok (complexes a, finite_all a), W) | None => (Err RuntimeError, W) end.

Section Methods.
Context (i : nat).   (* self *)
(** self.__dict__ *)
Definition w_self : WM hmicro := fun W => match nth_error (hw_mic W) i with Some m => (Ok m, W) | None => (Err RuntimeError, W) end.
(** changing it *)
Definition w_update (m : hmicro) : WM unit := fun W => (Ok tt, mkHWorld (hw_heap W) (replace i m (hw_mic W)) (hw_psf W) (hw_otf W)).
(** reading a plain attribute *)
Definition w_asks {A} (f : hmicro -> A) : WM A := let% m := w_self in wret (f m).
(** Record updates. *)
Definition hupd_cache p o m := mkHMicro (hm_kind m) (hm_num m) (hm_params m) (hm_pixel m) (hm_model m) (hm_exc m) (hm_orient m) (hm_wiener m) p o.
(** see [hupd_cache] *)
Definition hupd_num f m := mkHMicro (hm_kind m) f (hm_params m) (hm_pixel m) (hm_model m) (hm_exc m) (hm_orient m) (hm_wiener m) (hm_psf m) (hm_otf m).
(** see [hupd_cache] *)
Definition hupd_plain v os w m := mkHMicro (hm_kind m) (hm_num m) (hm_params m) v (hm_model m) (hm_exc m) os w (hm_psf m) (hm_otf m).
(** see [hupd_cache] *)
Definition hupd_models a b m := mkHMicro (hm_kind m) (hm_num m) (hm_params m) (hm_pixel m) a b (hm_orient m) (hm_wiener m) (hm_psf m) (hm_otf m).

(** microscope.py:91-102: the entries PSF and OTF are deleted from the __dict__; the arrays are not touched. *)
Definition w_changed : WM unit := let% m := w_self in w_update (hupd_cache None None m).
(** assignment to a NumericProperty: utils.py:205-213 *)
Definition w_set (a : mattr) (v : pyval) : WM unit :=
  let% m := w_self in
  if has_prop (hm_kind m) a then
    let% store := wlift (numeric_decide (hm_num m a) (mtype a) v) in
    if store : bool then
      let% _ := w_update (hupd_num (fun b => if mattr_eqb a b then Some v else hm_num m b) m) in w_changed
    else wret tt
  else wret tt.
(** reading one *)
Definition w_get (a : mattr) : WM pyval := let% m := w_self in match hm_num m a with Some v => wret v | None => wlift (Err AttributeError) end.
(** attribute of self.model as a number: otf.py:46-51, 131-163 *)
Definition w_model_R (a : attr) : WM R := let% m := w_self in let% v := on_heap (h_getattr numeric (hm_model m) a) in wlift (as_R v).
(** self.model.PSFi, self.model.OTFi: the arrays themselves (otf.py:204-212) *)
Definition w_model_read (s : slot) : WM nat :=
  let% m := w_self in let% c := on_heap (h_cls numeric (hm_model m)) in on_heap (h_read numeric (hm_model m) c s).
(** self.model.PSFi *)
Definition w_model_PSFi : WM farr := let% r := w_model_read PSFi in w_deref r.
(** self.model.OTFi *)
Definition w_model_OTFi : WM (array C * bool) := let% r := w_model_read OTFi in w_deref_c r.
(** self.model_exc.PSFi (microscope.py:222) *)
Definition w_exc_PSFi : WM farr :=
  let% m := w_self in
  match hm_exc m with
  | None => wlift (Err AttributeError)
  | Some l => let% c := on_heap (h_cls numeric l) in let% r := on_heap (h_read numeric l c PSFi) in w_deref r
  end.

(** microscope.py:211-226 *)
Definition w_confocal_psf : WM farr :=
  let% wl := w_model_R A_wl in
  let% na := w_model_R A_na in
  let% t := wlift (rdiv (122 / 100 * wl) na) in
  let% rs := w_model_R A_res in
  let% airy_unit := wlift (rdiv t rs) in
  let% ph := w_get MPinhole in
  let% ph := wlift (as_R ph) in
  let pixel_pinhole_radius := ph * airy_unit / 2 in
  let% det := w_model_PSFi in
  let% det := (if Rlt_dec (3 / 2) pixel_pinhole_radius
               then let kernel := disk_kernel pixel_pinhole_radius in
                    wlift (do c <- fftconvolve_same (fst det) (fst kernel); Ok (c, snd det && snd kernel))
               else wret det) in
  let% exc := w_exc_PSFi in
  wlift (do p <- bop Rmult (fst det) (fst exc); Ok (p, snd det && snd exc)).
(** microscope.py:241-261 *)
Definition w_apotome_psf : WM farr :=
  let% psf := w_model_PSFi in
  let% rows := wlift (radial_rows (hybrid_otf (fst psf))) in
  let% d := w_asks hm_params in
  let% nyq := wlift (do wl <- par_R d "wl"; do na <- par_R d "na"; do q <- rdiv wl na; Ok (q / 4)) in
  let% lim := wlift (do n <- par_R d "size"; do rs <- par_R d "res"; do q <- rdiv (n * rs) nyq; Ok (rint (q / 2))) in
  let% ax := wlift (axial_profile rows (lim / 2)%Z) in
  wlift (do p <- bop Rmult (column (fst ax)) (fst psf); Ok (p, snd ax && snd psf)).
(** microscope.py:340-357 *)
Definition w_sim_base : WM farr :=
  let% w := w_asks hm_wiener in
  match w with
  | VNone => w_model_PSFi
  | _ =>
      let% ok := wlift (py_ge w (VInt 0)) in
      if ok : bool then
        let% o := w_model_OTFi in
        let otf := power (fst o) in
        if py_eq w (VInt 0) then wret (ifft_real (support otf), snd o)
        else match M_Val.num w with
             | Some (FFin q) =>
                 let% mx := wlift (r_max otf) in
                 let w2 := mx * Q2R q ^ 2 in
                 wret (ifft_real (amap (wiener_factor w2) otf),
                       snd o && forallb (fun ix => if Req_EM_T (get otf ix + w2) 0 then false else true) (all_ix (shape otf)))
             | _ => let% _ := wlift (r_max otf) in wret (otf, false)
             end
      else wlift (Err ValueError)
  end.
(** microscope.py:314-400.  The arrays written in place (base_pattern, exc_pattern, sim_psf) are new ones. *)
Definition w_sim_psf : WM farr :=
  let% d := w_asks hm_params in
  let% n := wlift (par_Z d "size") in let% rs := wlift (par_R d "res") in
  let% zsize := wlift (par_Z d "zsize") in let% zres := wlift (par_R d "zres") in
  let% ni := wlift (par_R d "ni") in
  let% wle := w_get MWlExc in let% wle := wlift (as_R wle) in
  let% freq := wlift (rdiv (2 * PI * ni) wle) in
  let% nae := w_get MNaExc in let% nae := wlift (as_R nae) in
  let% s := wlift (rdiv nae ni) in
  let alpha := asin s in
  let% psf := w_sim_base in
  let% dc := w_get MDc in let% coh := w_get MCoherent in let% sup := w_get MDcSup in
  let% os := w_asks hm_orient in
  let xx := centred n rs in let zz := centred zsize zres in
  let base := base_pattern (py_bool dc) zsize zz freq (shape (fst psf)) in
  let ok := snd psf && (if Rle_dec (Rabs s) 1 then true else match os with [] => true | _ => false end) in
  if py_bool coh then wlift (do r <- coherent n zsize xx zz freq alpha (fst psf) base os; Ok (r, ok))
  else wlift (
    do r <- incoherent n zsize xx zz freq alpha (fst psf) base os (amap (fun _ => 0) (fst psf));
    if py_bool sup then do r <- ibop (fun a p => a - (2 * INR (List.length os) - 1) * p) r (fst psf); Ok (r, ok) else Ok (r, ok)).
(** microscope.py:104-107, 211, 241, 314: model_psf; the widefield one IS the array PSFi of the model. *)
Definition w_model_psf : WM (nat + farr) :=
  let% k := w_asks hm_kind in
  match k with
  | Widefield => let% r := w_model_read PSFi in wret (inl r)
  | Confocal => let% a := w_confocal_psf in wret (inr a)
  | Apotome => let% a := w_apotome_psf in wret (inr a)
  | SIM => let% a := w_sim_psf in wret (inr a)
  end.
(** its contents *)
Definition w_value (p : nat + farr) : WM farr := match p with inl r => w_deref r | inr a => wret a end.
(** a new array PSF or OTF *)
Definition w_alloc_psf (a : array (option R)) : WM nat :=
  fun W => (Ok (List.length (hw_psf W)), mkHWorld (hw_heap W) (hw_mic W) (hw_psf W ++ [a]) (hw_otf W)).
(** see [w_alloc_psf] *)
Definition w_alloc_otf (a : array (option C)) : WM nat :=
  fun W => (Ok (List.length (hw_otf W)), mkHWorld (hw_heap W) (hw_mic W) (hw_psf W) (hw_otf W ++ [a])).
(** microscope.py:109-124, the body of PSF *)
Definition w_compute_psf : WM nat :=
  let% p := w_model_psf in
  let% psf := w_value p in
  let% os := w_get MOs in
  let% d := w_asks hm_params in
  let% b := wlift (do n <- par_Z d "size"; bin_psf (as_int os) n (fst psf)) in
  w_alloc_psf (normalise (b, snd psf)).
(** functools.cached_property: microscope.py:109 *)
Definition w_PSF : WM nat :=
  let% m := w_self in
  match hm_psf m with
  | Some r => wret r
  | None => let% r := w_compute_psf in let% m := w_self in let% _ := w_update (hupd_cache (Some r) (hm_otf m) m) in wret r
  end.
(** microscope.py:126-129 *)
Definition w_OTF : WM nat :=
  let% m := w_self in
  match hm_otf m with
  | Some r => wret r
  | None =>
      let% r := w_PSF in
      let% f := (fun W => match nth_error (hw_psf W) r with
                          | Some a => w_alloc_otf (o_fft (amap (option_map RtoC) a)) W
                          | None => (Err RuntimeError, W)
                          end) in
      let% m := w_self in let% _ := w_update (hupd_cache (hm_psf m) (Some f) m) in wret f
  end.
(** plain attributes: microscope.py:67, 300-303 *)
Definition w_plain (f : hmicro -> hmicro) : WM unit := let% m := w_self in w_update (f m).
End Methods.

(** ** New microscopes *)
(** A new PSF object with the attributes and z range of [o], nothing cached: otf.py:53-103, 272-281, 452-457. *)
Definition place (c : cls) (o : obj numeric) : HM numeric nat :=
  fun H => match o_zrange o with
           | Some xs => (Ok (List.length (hp_obj _ H)),
               mkHeap _ (hp_obj _ H ++ [mkHobj c (o_attr o) (Some (List.length (hp_rng _ H))) (fun _ => None)]) (hp_rng _ H ++ [R1 xs]) (hp_arr _ H))
           | None => (Ok (List.length (hp_obj _ H)), mkHeap _ (hp_obj _ H ++ [mkHobj c (o_attr o) None (fun _ => None)]) (hp_rng _ H) (hp_arr _ H))
           end.
(** A constructor call: M_Micro.v gives the new microscope [r] as a value (microscope.py:57-78, 196-202, 277-303); here it gets its
    own PSF object, a confocal one two of them (microscope.py:78, 201 copy.deepcopy).  Simplification: a z range array among
    the keyword arguments is copied. *)
Definition w_new (r : res micro) : WM nat :=
  let% m := wlift r in
  let% l := on_heap (place (mi_cls m) (mi_model m)) in
  let% e := (match mi_kind m with Confocal => let% e := on_heap (place (mi_cls m) (mi_exc m)) in wret (Some e) | _ => wret None end) in
  fun W => (Ok (List.length (hw_mic W)),
            mkHWorld (hw_heap W) (hw_mic W ++ [mkHMicro (mi_kind m) (mi_num m) (mi_params m) (mi_pixel m) l e (mi_orient m) (mi_wiener m) None None])
              (hw_psf W) (hw_otf W)).
(** copy.copy(scope): Python copies the __dict__ (there is no __copy__), so the copy refers to the same PSF objects and arrays. *)
Definition w_copy (i : nat) : WM nat :=
  let% m := w_self i in
  fun W => (Ok (List.length (hw_mic W)), mkHWorld (hw_heap W) (hw_mic W ++ [m]) (hw_psf W) (hw_otf W)).
(** ** Caller writes: the properties return the stored arrays themselves (microscope.py:109-129). *)
Definition write_psf (r : nat) (a : array (option R)) : WM unit :=
  fun W => (Ok tt, mkHWorld (hw_heap W) (hw_mic W) (replace r a (hw_psf W)) (hw_otf W)).
(** see [write_psf] *)
Definition write_otf (r : nat) (a : array (option C)) : WM unit :=
  fun W => (Ok tt, mkHWorld (hw_heap W) (hw_mic W) (hw_psf W) (replace r a (hw_otf W))).
