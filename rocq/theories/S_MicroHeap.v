(** Vocabulary for programs with several microscopes, PSF objects they share or copy, and callers that write into arrays. *)
From Verif Require Export M_MicroHeap S_Micro S_Write.
Import M_Array.
Local Open Scope R_scope.

Definition deref {A} (pool : list A) (r : option nat) : option A := match r with Some r => nth_error pool r | None => None end.
(** What a user can observe of a microscope, as a value. *)
Definition scope_view (W : hworld) (i : nat) : option micro :=
  match nth_error (hw_mic W) i with
  | None => None
  | Some m =>
      match view numeric (hw_heap W) (hm_model m), class_of numeric (hw_heap W) (hm_model m) with
      | Some o, Some c =>
          Some (mkMicro (hm_kind m) c (hm_num m) (hm_params m) (hm_pixel m) o
                  match match hm_exc m with Some l => view numeric (hw_heap W) l | None => None end with Some e => e | None => empty_obj numeric end
                  (hm_orient m) (hm_wiener m) (deref (hw_psf W) (hm_psf m)) (deref (hw_otf W) (hm_otf m)))
      | _, _ => None
      end
  end.

(** References are to things that exist; the two PSF objects of a confocal microscope are different objects of one class. *)
Definition scope_ok (W : hworld) (m : hmicro) : Prop :=
  (hm_model m < List.length (hp_obj _ (hw_heap W)))%nat /\
  (hm_kind m = Confocal -> hm_exc m <> None) /\
  (forall l, hm_exc m = Some l -> l <> hm_model m /\ (l < List.length (hp_obj _ (hw_heap W)))%nat /\ class_of numeric (hw_heap W) l = class_of numeric (hw_heap W) (hm_model m)) /\
  (forall r, hm_psf m = Some r -> (r < List.length (hw_psf W))%nat) /\
  (forall r, hm_otf m = Some r -> (r < List.length (hw_otf W))%nat).
Definition world_ok (W : hworld) : Prop := wf numeric (hw_heap W) /\ forall i m, nth_error (hw_mic W) i = Some m -> scope_ok W m.

(** What a program does: anything to PSF objects (calls and writes, S_Write.v); build a microscope; assign to an attribute
    of one, read it; write into an array PSF or OTF. *)
Inductive own := OSet (a : mattr) (v : pyval) | OPixel (v : pyval) | OWiener (v : pyval) | OOrient (l : list R) | OReadPSF | OReadOTF | OReadModelPSF.
Inductive waction :=
| WPsf (x : act numeric)
| WNew (r : res micro)
| WOwn (i : nat) (x : own)
| WModel (i : nat) (l : nat)              (* scope.model = an existing PSF object *)
| WExc (i : nat) (l : nat)                (* scope.model_exc = one *)
| WCopy (i : nat)                         (* copy.copy(scope) *)
| WWritePSF (r : nat) (a : array (option R))
| WWriteOTF (r : nat) (a : array (option C)).
Definition own_call (i : nat) (x : own) : WM unit :=
  match x with
  | OSet a v => w_set i a v
  | OPixel v => w_plain i (fun m => hupd_plain v (hm_orient m) (hm_wiener m) m)
  | OWiener v => w_plain i (fun m => hupd_plain (hm_pixel m) (hm_orient m) v m)
  | OOrient l => w_plain i (fun m => hupd_plain (hm_pixel m) l (hm_wiener m) m)
  | OReadPSF => wbind (w_PSF i) (fun _ => wret tt)
  | OReadOTF => wbind (w_OTF i) (fun _ => wret tt)
  | OReadModelPSF => wbind (w_model_psf i) (fun _ => wret tt)
  end.
Definition waction_on (x : waction) (W : hworld) : hworld :=
  match x with
  | WPsf x => mkHWorld (act_on numeric x (hw_heap W)) (hw_mic W) (hw_psf W) (hw_otf W)
  | WNew r => snd (w_new r W)
  | WOwn i x => snd (own_call i x W)
  | WModel i l => snd (w_plain i (fun m => hupd_models l (hm_exc m) m) W)
  | WExc i l => snd (w_plain i (fun m => hupd_models (hm_model m) (Some l) m) W)
  | WCopy i => snd (w_copy i W)
  | WWritePSF r a => snd (write_psf r a W)
  | WWriteOTF r a => snd (write_otf r a W)
  end.
Fixpoint wactions (h : list waction) (W : hworld) : hworld := match h with [] => W | x :: h => wactions h (waction_on x W) end.
(** A new microscope: the result of a constructor, which has cached nothing. *)
Definition untouched (m : micro) : Prop := mi_psf m = None /\ mi_otf m = None /\ o_cache (mi_model m) = (fun _ => None) /\ o_cache (mi_exc m) = (fun _ => None) /\
  (mi_kind m <> Confocal -> mi_exc m = empty_obj numeric).
Definition legal_waction (W : hworld) (x : waction) : Prop :=
  match x with
  | WPsf x => legal_act numeric (hw_heap W) x
  | WNew r => forall m, r = Ok m -> untouched m
  | WOwn i _ => (i < List.length (hw_mic W))%nat
  | WModel i l => (l < List.length (hp_obj _ (hw_heap W)))%nat /\
      forall m e, nth_error (hw_mic W) i = Some m -> hm_exc m = Some e -> l <> e /\ class_of numeric (hw_heap W) l = class_of numeric (hw_heap W) e
  | WExc i l => (l < List.length (hp_obj _ (hw_heap W)))%nat /\
      forall m, nth_error (hw_mic W) i = Some m -> l <> hm_model m /\ class_of numeric (hw_heap W) l = class_of numeric (hw_heap W) (hm_model m)
  | WCopy _ => True
  | WWritePSF r _ => (r < List.length (hw_psf W))%nat
  | WWriteOTF r _ => (r < List.length (hw_otf W))%nat
  end.
Inductive legal_wactions : hworld -> list waction -> Prop :=
| lw_nil W : legal_wactions W []
| lw_cons W x h : legal_waction W x -> legal_wactions (waction_on x W) h -> legal_wactions W (x :: h).

(** What an action does to one microscope, as a value: ... *)
Definition own_value (x : own) (m : micro) : micro :=
  match x with
  | OSet a v => mexec (MSet a v) m
  | OPixel v => mexec (MPixel v) m
  | OWiener v => mexec (MWiener v) m
  | OOrient l => mexec (MOrient l) m
  | OReadPSF => mexec MReadPSF m
  | OReadOTF => mexec MReadOTF m
  | OReadModelPSF => snd (model_psf m)
  end.
Definition own_seen (i : nat) (x : waction) (W : hworld) (m : micro) : micro :=
  match x with
  | WOwn j x => if Nat.eqb j i then own_value x m else m
  | WWritePSF r a => match nth_error (hw_mic W) i with Some h => if is r (hm_psf h) then upd_cache (Some a) (mi_otf m) m else m | None => m end
  | WWriteOTF r a => match nth_error (hw_mic W) i with Some h => if is r (hm_otf h) then upd_cache (mi_psf m) (Some a) m else m | None => m end
  | _ => m
  end.
(** ... apart from the two PSF objects, which are what they have become (what is done to them: [C104], [own_value]). *)
Definition with_models (W : hworld) (i : nat) (m : micro) : micro :=
  match nth_error (hw_mic W) i with
  | Some h =>
      match view numeric (hw_heap W) (hm_model h), class_of numeric (hw_heap W) (hm_model h) with
      | Some o, Some c =>
          mkMicro (mi_kind m) c (mi_num m) (mi_params m) (mi_pixel m) o
            match match hm_exc h with Some l => view numeric (hw_heap W) l | None => None end with Some e => e | None => empty_obj numeric end
            (mi_orient m) (mi_wiener m) (mi_psf m) (mi_otf m)
      | _, _ => m
      end
  | None => m
  end.
Fixpoint seen_by (i : nat) (h : list waction) (W : hworld) (m : micro) : micro :=
  match h with [] => m | x :: h => seen_by i h (waction_on x W) (with_models (waction_on x W) i (own_seen i x W m)) end.

(** The PSF objects a microscope uses; the arrays it holds. *)
Definition uses (W : hworld) (i l : nat) : Prop := exists m, nth_error (hw_mic W) i = Some m /\ (hm_model m = l \/ hm_exc m = Some l).
Definition holds_psf (W : hworld) (i r : nat) : Prop := exists m, nth_error (hw_mic W) i = Some m /\ hm_psf m = Some r.
Definition holds_otf (W : hworld) (i r : nat) : Prop := exists m, nth_error (hw_mic W) i = Some m /\ hm_otf m = Some r.
Definition holds_no_psf (W : hworld) (i : nat) : Prop := exists m, nth_error (hw_mic W) i = Some m /\ hm_psf m = None.
Definition holds_no_otf (W : hworld) (i : nat) : Prop := exists m, nth_error (hw_mic W) i = Some m /\ hm_otf m = None.
(** Programs that copy no microscope. *)
Definition copies_no_scope (h : list waction) : Prop := Forall (fun x => match x with WCopy _ => False | _ => True end) h.
(** No array PSF or OTF is held by two microscopes. *)
Definition scopes_apart (W : hworld) : Prop :=
  (forall i j r, holds_psf W i r -> holds_psf W j r -> i = j) /\ (forall i j r, holds_otf W i r -> holds_otf W j r -> i = j).
(** The empty world. *)
Definition no_world : hworld := mkHWorld (mkHeap numeric [] [] []) [] [] [].
