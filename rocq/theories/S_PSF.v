(** Specifications for PSF objects: histories, and what they should leave behind. *)
From Verif Require Import M_PSF.

Section Spec.
Context (E : engine).

(** A history of interactions with an object.  The results of failed operations are ignored by
    the user, who carries on. *)
Inductive op := Assign (s : assignment) | Read (s : slot) | Apply (p : pupil E).

Definition exec (c : cls) (x : op) (o : obj E) : res unit * obj E :=
  match x with
  | Assign s => assign E c s o
  | Read s => match read E c s o with (Ok _, o') => (Ok tt, o') | (Err e, o') => (Err e, o') end
  | Apply p => match c with
               | Hanser => apply_pupil E p o
               | Sheppard => (Err AttributeError, o)      (* no such method *)
               end
  end.
Definition raised (r : res unit) : bool := match r with Ok _ => false | Err _ => true end.

Fixpoint run (c : cls) (h : list op) (o : obj E) : obj E :=
  match h with [] => o | x :: h' => run c h' (snd (exec c x o)) end.

(** An assignment changes something: for wl, na, ni, size (and zsize of a SheppardPSF) the value
    differs from the current one; every other property counts as changed whenever it is assigned. *)
Definition differs (cur : option pyval) (v : pyval) : bool :=
  match cur with None => true | Some w => negb (py_eq w v) end.
Definition changes (c : cls) (s : assignment) (o : obj E) : bool :=
  match s, c with
  | SetNum A_wl v, _ => differs (o_attr o A_wl) v
  | SetNum A_na v, _ => differs (o_attr o A_na) v
  | SetNum A_ni v, _ => differs (o_attr o A_ni) v
  | SetNum A_size v, _ => differs (o_attr o A_size) v
  | SetNum A_zsize v, Sheppard => differs (o_attr o A_zsize) v
  | SetNum A_dual _, Hanser => false
  | SetZrange _, Sheppard => false
  | _, _ => true
  end.

(** The pupil in force after a history: the last one applied, until an accepted change. *)
Definition in_force_step (c : cls) (x : op) (o : obj E) (g : option (pupil E)) : option (pupil E) :=
  match x with
  | Assign s => if negb (raised (fst (exec c x o))) && changes c s o then None else g
  | Read _ => g
  | Apply p => match c with
               | Hanser => if raised (fst (exec c x o)) then None else Some p
               | Sheppard => g
               end
  end.
Fixpoint in_force (c : cls) (h : list op) (o : obj E) (g : option (pupil E)) : option (pupil E) :=
  match h with
  | [] => g
  | x :: h' => in_force c h' (snd (exec c x o)) (in_force_step c x o g)
  end.

(** The arrays of a model with parameters [P] and pupil [g], computed from scratch. *)
Definition rmap {A B} (f : A -> B) (r : res A) : res B :=
  match r with Ok x => Ok (f x) | Err e => Err e end.
Definition scratch_PSFa (c : cls) (P : params) (g : option (pupil E)) : res (arr E) :=
  match c with
  | Hanser => e_gen_psf E P g
  | Sheppard => rmap (e_ifft3 E) (e_gen_otf E P)
  end.
Definition scratch (c : cls) (s : slot) (P : params) (g : option (pupil E)) : res (arr E) :=
  match s with
  | PSFa => scratch_PSFa c P g
  | OTFa => match c with
            | Hanser => rmap (e_fft3 E) (e_gen_psf E P g)
            | Sheppard => e_gen_otf E P
            end
  | PSFi => rmap (e_sumsq E) (scratch_PSFa c P g)
  | OTFi => rmap (e_fft E) (rmap (e_sumsq E) (scratch_PSFa c P g))
  end.

(** zrange after a history. *)
Definition gen_range (zsize zres : option pyval) : option (list fl) :=
  match zsize, zres with
  | Some n, Some d =>
      Some (map (fun i => fl_mul (FFin (inject_Z (i - (as_int n + 1) / 2))) (num_or_nan d)) (zseq (as_int n)))
  | _, _ => None
  end.
Definition zrange_step (x : op) (o : obj E) (zr : option (list fl)) : option (list fl) :=
  let o' := snd (exec Hanser x o) in
  match x with
  | Assign (SetZrange (ZScalar z)) => Some [z]
  | Assign (SetZrange (ZList l)) => Some l
  | Assign (SetNum A_zsize _) | Assign (SetNum A_zres _) =>
      if raised (fst (exec Hanser x o)) then zr else gen_range (o_attr o' A_zsize) (o_attr o' A_zres)
  | _ => zr
  end.
Fixpoint zrange_after (h : list op) (o : obj E) (zr : option (list fl)) : option (list fl) :=
  match h with
  | [] => zr
  | x :: h' => zrange_after h' (snd (exec Hanser x o)) (zrange_step x o zr)
  end.

End Spec.

(** Validated parameters. *)
Definition nonneg_or_nan (f : fl) : Prop :=
  match f with FFin q => (0 <= q)%Q | FNaN => True | FInf n => n = false end.
Definition positive (f : fl) : Prop :=
  match f with FFin q => (0 < q)%Q | FNaN => False | FInf n => n = false end.

(** The documented domain of each attribute, as enforced by the setters.  [res] is only known to be
    a real number. *)
Definition valid_value (a : attr) (v : pyval) : Prop :=
  match a with
  | A_wl | A_na | A_ni => exists f, num v = Some f /\ nonneg_or_nan f
  | A_size | A_zsize => isinstance v TInt = true /\ 0 <= as_int v
  | A_res => exists f, num v = Some f
  | A_zres => exists f, num v = Some f /\ positive f
  | A_vec_corr => exists s, v = VStr s /\ In s ["none"; "x"; "y"; "z"; "total"]%string
  | A_condition => exists s, v = VStr s /\ In s ["none"; "sine"; "herschel"]%string
  | A_dual => exists b, v = VBool b
  end.
