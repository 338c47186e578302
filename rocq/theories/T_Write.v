(** Properties of programs in which the caller writes into the arrays he got (pyotf/otf.py): C104. *)
From Verif Require Import M_Write S_Write L_Heap L_Write L_PSF T_PSF T_Heap.
From Coq Require Import FunctionalExtensionality.

Section T.
Context (E : engine).

(** After any sequence of library calls and caller writes, in any order, an object is what its own operations make of
    it, together with the new contents of the slots that held each written array at the time. *)
Theorem C104_writes_reach_exactly_the_holders :
  forall (h : list (act E)) (H : heap E) (l : nat) (c : cls) (o : obj E),
    wf E H -> legal_acts E H h -> view E H l = Some o -> class_of E H l = Some c ->
    wf E (acts E h H) /\ class_of E (acts E h H) l = Some c /\ view E (acts E h H) l = Some (seen_all E c l h H o).
Proof. exact (acts_view E). Qed.

(** The library itself writes into no array: every cached array, and every one-dimensional z range, keeps its contents
    through every call (only a 0-dimensional z range is reshaped, C29). *)
Theorem C104_library_writes_into_no_array :
  forall (H : heap E) (x : step E), wf E H -> legal_step E H x ->
    (forall r a, nth_error (hp_arr E H) r = Some a -> nth_error (hp_arr E (snd (do_step E x H))) r = Some a) /\
    (forall r xs, nth_error (hp_rng E H) r = Some (R1 xs) -> nth_error (hp_rng E (snd (do_step E x H))) r = Some (R1 xs)).
Proof. intros H x W L. pose proof (step_grows E x H W L) as G. split; [intros r a; now apply grows_arr|apply G]. Qed.

(** What a read hands out is the array the object holds from then on, and what it held already if it did; if it held
    none the array is a new one, which no other object and no other slot holds.  Reading again hands out the very same
    array and does nothing. *)
Theorem C104_a_read_hands_out_the_held_array :
  forall (H : heap E) (l : nat) (c : cls) (s : slot) (r : nat) (H' : heap E),
    wf E H -> class_of E H l = Some c -> h_read E l c s H = (Ok r, H') ->
    held E H' l s = Some r /\
    h_read E l c s H' = (Ok r, H') /\
    (forall r0, held E H l s = Some r0 -> r = r0 /\ H' = H) /\
    (held E H l s = None ->
       (forall l' s', held E H l' s' <> Some r) /\ (forall l' s', held E H' l' s' = Some r -> l' = l /\ s' = s)).
Proof.
  intros H l c s r H' W Cl Q. assert (Hl : (l < List.length (hp_obj E H))%nat) by (eapply class_lt; eauto).
  destruct (hands_read E l c s) as [T F]. destruct (T H W Hl I) as (W' & L' & S'). rewrite Q in W', L', S'. cbn [snd] in *.
  destruct (F H r H' W Hl Q) as (A & B & C). split; [exact A|]. split; [|split; [exact B|]].
  - unfold held in A. destruct (nth_error (hp_obj E H') l) as [d|] eqn:Hd; [|discriminate].
    destruct s, c; cbn [h_read]; unfold h_read_PSFa, h_read_OTFa, h_read_PSFi, h_read_OTFi, h_read_PSFa_h, h_read_OTFa_s; rewrite (cached_eq E l _ _ H' d Hd), A; reflexivity.
  - intros N. specialize (C N). split.
    + intros l' s' K. pose proof (held_lt E H l' s' r W K). lia.
    + intros l' s' K. destruct L' as (G & Len & Oth & _). destruct (Nat.eq_dec l' l) as [->|Hn].
      * split; [reflexivity|]. destruct S' as (_ & _ & S3). now apply (S3 s' s r).
      * rewrite (held_same E H H' l' s' (Oth l' Hn)) in K. pose proof (held_lt E H l' s' r W K). lia.
Qed.

(** In every heap a program can reach, one array is never in two different slots (PSFa and OTFa, say), not even of
    different objects; ... *)
Theorem C104_no_array_is_in_two_slots :
  forall (h : list (act E)) (H : heap E), wf E H -> legal_acts E H h -> slots_apart E H -> slots_apart E (acts E h H).
Proof. exact (acts_slots E). Qed.
(** ... and if no copies are left behind, no array is shared by two objects. *)
Theorem C104_no_array_is_in_two_objects :
  forall (h : list (act E)) (H : heap E), wf E H -> legal_acts E H h -> no_copies E H h -> objects_apart E H -> objects_apart E (acts E h H).
Proof. exact (acts_objects E). Qed.

(** So, starting from nothing: a write into an array that object [l] holds in slot [s] changes that slot of that object
    and nothing else about any object. *)
Definition nothing : heap E := mkHeap E [] [] [].
Theorem C104_a_write_changes_one_slot :
  forall (h : list (act E)) (l : nat) (s : slot) (r : nat) (a : arr E) (o : obj E),
    legal_acts E nothing h -> no_copies E nothing h ->
    let H := acts E h nothing in
    let H' := act_on E (WriteArr E r a) H in
    held E H l s = Some r -> view E H l = Some o ->
    (forall l', l' <> l -> view E H' l' = view E H l') /\
    exists o', view E H' l = Some o' /\ o_attr o' = o_attr o /\ o_zrange o' = o_zrange o /\ o_cache o' s = Some a /\
      forall t, t <> s -> o_cache o' t = o_cache o t.
Proof.
  intros h l s r a o L N H H' Hr V.
  assert (W0 : wf E nothing) by (intros [|k] d; discriminate).
  assert (S0 : slots_apart E nothing) by (intros [|k] l2 s1 s2 r1; discriminate).
  assert (P0 : objects_apart E nothing) by (intros [|k] l2 s1 s2 r1; discriminate).
  assert (W : wf E H) by now apply acts_wf. assert (S : slots_apart E H) by now apply acts_slots. assert (P : objects_apart E H) by now apply acts_objects.
  pose proof (held_lt E H l s r W Hr) as Lr. split.
  - intros l' Hl'. destruct (view E H l') as [o'|] eqn:V'.
    + unfold H'. cbn [act_on]. rewrite (write_arr_view E H r a l' o' W Lr V'). f_equal. unfold overwrite. destruct o' as [at' zr ca]. cbn. f_equal.
      apply functional_extensionality. intros t. destruct (held E H l' t) as [r'|] eqn:Q; cbn; [|reflexivity]. destruct (Nat.eqb_spec r' r) as [->|]; [|reflexivity]. exfalso. apply Hl'. eapply P; eauto.
    + unfold view in *. cbn. now destruct (nth_error (hp_obj E H) l').
  - exists (overwrite E (fun s => is r (held E H l s)) a o). unfold H'. cbn [act_on]. rewrite (write_arr_view E H r a l o W Lr V). repeat (split; [reflexivity|]). split.
    + cbn. rewrite Hr. cbn. now rewrite Nat.eqb_refl.
    + intros t Ht. cbn. destruct (held E H l t) as [r'|] eqn:Q; cbn; [|reflexivity]. destruct (Nat.eqb_spec r' r) as [->|]; [|reflexivity]. exfalso. apply Ht. eapply S; eauto.
Qed.

(** What the other properties make of a written array: each is computed from another one (the argument of the
    transform), if it is not there yet. *)
Definition source (c : cls) (t : slot) : option (slot * (arr E -> arr E)) :=
  match c, t with
  | Hanser, PSFa => None                         | Hanser, OTFa => Some (PSFa, e_fft3 E)
  | Sheppard, PSFa => Some (OTFa, e_ifft3 E)     | Sheppard, OTFa => None
  | _, PSFi => Some (PSFa, e_sumsq E)            | _, OTFi => Some (PSFi, e_fft E)
  end.
Lemma read_step c s t f l H d r x : source c t = Some (s, f) -> nth_error (hp_obj E H) l = Some d -> ho_cache d t = None -> ho_cache d s = Some r ->
  nth_error (hp_arr E H) r = Some x ->
  fst (h_read E l c t H) = Ok (List.length (hp_arr E H)) /\ nth_error (hp_arr E (snd (h_read E l c t H))) (List.length (hp_arr E H)) = Some (f x).
Proof.
  intros So Hd Ht Hs Hx.
  assert (K : forall hm, hm H = (Ok r, H) ->
     fst (h_cached E l t (h_map E f hm) H) = Ok (List.length (hp_arr E H)) /\
     nth_error (hp_arr E (snd (h_cached E l t (h_map E f hm) H))) (List.length (hp_arr E H)) = Some (f x)).
  { intros hm Hm. rewrite (cached_eq E l t _ H d Hd), Ht. unfold h_map, h_set_cache, hbind, alloc_arr, dict, update. rewrite Hm, Hx. cbn [hp_obj hp_rng hp_arr]. rewrite Hd. cbn.
    split; [reflexivity|]. now rewrite nth_error_app2, Nat.sub_diag by lia. }
  destruct c, t; cbn in So; try discriminate; injection So as <- <-; cbn [h_read]; unfold h_read_OTFi, h_read_PSFi, h_read_PSFa, h_read_OTFa;
    apply K; unfold h_read_PSFi, h_read_PSFa, h_read_PSFa_h, h_read_OTFa_s; rewrite (cached_eq E l _ _ H d Hd), Hs; reflexivity.
Qed.
(** A property that was read before the write is not recomputed: it stays as it was, and no longer fits the array it was
    computed from.  One that is first read after the write is computed from the written contents. *)
Theorem C104_written_arrays_are_believed :
  forall (h : list (act E)) (l : nat) (c : cls) (s t : slot) (f : arr E -> arr E) (r : nat) (a : arr E),
    legal_acts E nothing h ->
    let H := acts E h nothing in
    let H' := act_on E (WriteArr E r a) H in
    class_of E H l = Some c -> source c t = Some (s, f) -> held E H l s = Some r ->
    match held E H l t with
    | Some rt => h_read E l c t H' = (Ok rt, H') /\ nth_error (hp_arr E H') rt = nth_error (hp_arr E H) rt
    | None => exists rt, fst (h_read E l c t H') = Ok rt /\ nth_error (hp_arr E (snd (h_read E l c t H'))) rt = Some (f a)
    end.
Proof.
  intros h l c s t f r a L H H' Cl So Hs.
  assert (W0 : wf E nothing) by (intros [|k] d; discriminate).
  assert (S0 : slots_apart E nothing) by (intros [|k] l2 s1 s2 r1; discriminate).
  assert (W : wf E H) by now apply acts_wf. assert (S : slots_apart E H) by now apply acts_slots.
  pose proof (held_lt E H l s r W Hs) as Lr.
  assert (Hs' : held E H' l s = Some r) by exact Hs. assert (Xr : nth_error (hp_arr E H') r = Some a) by (unfold H'; cbn; now apply nth_replace_same).
  assert (Ht' : held E H' l t = held E H l t) by reflexivity.
  destruct (nth_error (hp_obj E H') l) as [d|] eqn:Hd; [|unfold held in Hs'; rewrite Hd in Hs'; discriminate].
  unfold held in Hs', Ht' |- *. rewrite Hd in Hs', Ht'. rewrite <- Ht'. destruct (ho_cache d t) as [rt|] eqn:Et.
  - split.
    + destruct t, c; cbn [h_read]; unfold h_read_PSFa, h_read_OTFa, h_read_PSFi, h_read_OTFi, h_read_PSFa_h, h_read_OTFa_s; rewrite (cached_eq E l _ _ H' d Hd), Et; reflexivity.
    + unfold H'. cbn. apply nth_replace_other. intros ->.
      assert (t = s) by (apply (S l l t s r); [unfold held; now rewrite <- Ht'|exact Hs]). subst. clear - So. destruct c, s; cbn in So; discriminate.
  - destruct (read_step c s t f l H' d r a So Hd Et Hs' Xr) as [A B]. eauto.
Qed.

(** Setters do not look at the arrays. *)
Definition like (o1 o2 : obj E) : Prop := o_attr o1 = o_attr o2 /\ o_zrange o1 = o_zrange o2.
Definition blind {A} (m : M E A) : Prop := forall o1 o2, like o1 o2 -> fst (m o1) = fst (m o2) /\ like (snd (m o1)) (snd (m o2)).
Lemma blind_bind {A B} (m : M E A) (f : A -> M E B) : blind m -> (forall a, blind (f a)) -> blind (bindM E m f).
Proof.
  intros Hm Hf o1 o2 L. specialize (Hm o1 o2 L). unfold bindM. destruct (m o1) as [[a|e] p1], (m o2) as [[a'|e'] p2]; cbn [fst snd] in *; destruct Hm as [Q L']; try discriminate.
  - injection Q as <-. now apply Hf.
  - split; [congruence|exact L'].
Qed.
Lemma blind_ret {A} (x : A) : blind (ret E x). Proof. intros o1 o2 L. now split. Qed.
Lemma blind_raise {A} e : blind (@raise E A e). Proof. intros o1 o2 L. now split. Qed.
Lemma blind_lift {A} (r : res A) : blind (lift E r). Proof. intros o1 o2 L. now split. Qed.
Lemma blind_getattr a : blind (getattr E a).
Proof. intros o1 o2 [L1 L2]. unfold getattr. rewrite L1. destruct (o_attr o2 a); now split. Qed.
Lemma blind_setattr a v : blind (setattr E a v).
Proof. intros o1 o2 [L1 L2]. cbn. split; [reflexivity|]. split; cbn; [now rewrite L1|exact L2]. Qed.
Lemma blind_changed : blind (attribute_changed E).
Proof. intros o1 o2 [L1 L2]. cbn. split; [reflexivity|]. now split. Qed.
Lemma blind_if {A} (b : bool) (m1 m2 : M E A) : blind m1 -> blind m2 -> blind (if b then m1 else m2).
Proof. now destruct b. Qed.
Lemma blind_numeric a t v : blind (numeric_set E a t v).
Proof.
  intros o1 o2 [L1 L2]. unfold numeric_set, numeric_fset. rewrite L1. destruct (numeric_decide (o_attr o2 a) t v) as [[|]|e]; cbn; (split; [reflexivity|]); split; cbn; rewrite ?L1; congruence || auto.
Qed.
Lemma blind_zrange z : blind (zrange_set E z).
Proof. intros o1 o2 [L1 L2]. cbn. split; [reflexivity|]. now split. Qed.
Lemma blind_ignore m : blind m -> blind (ignore_attribute_error E m).
Proof.
  intros Hm o1 o2 L. specialize (Hm o1 o2 L). unfold ignore_attribute_error. destruct (m o1) as [[a|e] p1], (m o2) as [[a'|e'] p2]; cbn [fst snd] in *; destruct Hm as [Q L']; try discriminate.
  - now split.
  - injection Q as <-. destruct e; now split.
Qed.
Ltac bl := repeat first [apply blind_ret|apply blind_raise|apply blind_lift|apply blind_getattr|apply blind_setattr|apply blind_changed|apply blind_numeric|apply blind_zrange|apply blind_ignore|apply blind_if|apply blind_bind; [|intros ?]].
Lemma blind_assign c s : blind (assign E c s).
Proof.
  destruct s as [a v|z]; [destruct a|]; destruct c; cbn [assign];
    unfold res_set, hanser_zsize_set, hanser_zres_set, sheppard_zres_set, base_zres_set, vec_corr_set, condition_set, choice_set, dual_set, gen_zrange; bl.
Qed.
Lemma same_obj (o1 o2 : obj E) : like o1 o2 -> (forall s, o_cache o1 s = None) -> (forall s, o_cache o2 s = None) -> o1 = o2.
Proof.
  destruct o1, o2. unfold like. cbn. intros [-> ->] A B. f_equal. apply functional_extensionality. intros s. now rewrite A, B.
Qed.
(** Nothing written survives an accepted change or an applied pupil: whatever was written into whatever array before,
    the object is as if the caller had not written, and it holds no array that existed before. *)
Theorem C104_a_change_forgets_what_was_written :
  forall (H : heap E) (l r : nat) (a : arr E) (c : cls) (o : obj E) (x : step E),
    wf E H -> (r < List.length (hp_arr E H))%nat -> view E H l = Some o -> class_of E H l = Some c -> legal_step E H x ->
    o_attr o A_zres <> None ->
    (exists s, x = SAssign E l s /\ changes E c (as_value E H s) o = true /\ raised (fst (do_step E x H)) = false) \/
    (exists p, x = SApply E l p /\ c = Hanser) ->
    view E (snd (do_step E x (act_on E (WriteArr E r a) H))) l = view E (snd (do_step E x H)) l /\
    forall s r', held E (snd (do_step E x H)) l s = Some r' -> (List.length (hp_arr E H) <= r')%nat.
Proof.
  intros H l r a c o x W Hr V Cl L Hz D.
  set (H1 := act_on E (WriteArr E r a) H). assert (W1 : wf E H1) by now apply write_arr_wf. pose proof (write_arr_view E H r a l o W Hr V) as V1. fold H1 in V1.
  set (o1 := overwrite E (fun s => is r (held E H l s)) a o) in V1. assert (LK : like o1 o) by (split; reflexivity).
  assert (Hl : (l < List.length (hp_obj E H))%nat) by (eapply class_lt; eauto).
  destruct D as [(s & -> & Hc & Hok)|(p & -> & ->)].
  - assert (L1 : legal_step E H1 (SAssign E l s)) by exact L. destruct L as [_ Kz]. cbn [do_step] in *. assert (Cl1 : class_of E H1 l = Some c) by exact Cl. rewrite Cl, Cl1 in *.
    destruct (sim_assign E l c s (as_value E H s) H o W V (conj Kz eq_refl)) as (_ & _ & A & X).
    destruct (sim_assign E l c s (as_value E H s) H1 o1 W1 V1 (conj Kz eq_refl)) as (_ & _ & A1 & X1).
    destruct (fst (h_assign E l c s H)) as [[]|] eqn:EH; [|discriminate].
    destruct (assign_outcome E c (as_value E H s) o Hz) as [[e Q]|[[Q _]|[_ (o' & Q & Q')]]]; [rewrite Q in X; contradiction|congruence|].
    destruct (assign_outcome E c (as_value E H s) o1) as [[e P]|[[P _]|[_ (o1' & P & P')]]].
    + exact Hz.
    + destruct (blind_assign c (as_value E H s) o1 o LK) as [B _]. rewrite P, Q in B. discriminate.
    + exfalso. assert (K : changes E c (as_value E H s) o1 = changes E c (as_value E H s) o) by reflexivity. congruence.
    + destruct (blind_assign c (as_value E H s) o1 o LK) as [_ B]. rewrite P, Q in *. cbn [snd] in *. rewrite (same_obj o1' o' B P' Q') in A1. split; [congruence|].
      intros t r' K. exfalso. unfold view in A. unfold held in K. destruct (nth_error (hp_obj E (snd (h_assign E l c s H))) l) as [d|] eqn:Hd; [|discriminate].
      injection A as A. assert (Z : o_cache o' t = None) by apply Q'. rewrite <- A in Z. cbn in Z. rewrite K in Z. apply nth_error_None in Z.
      assert (WF : wf E (snd (h_assign E l c s H))) by (apply (sim_assign E l c s (as_value E H s) H o W V (conj Kz eq_refl))). destruct (WF l d Hd) as [_ O2]. specialize (O2 _ _ K). lia.
  - cbn [do_step] in *. destruct (sim_apply E l (top E) p H o W V I) as (_ & _ & A & _). destruct (sim_apply E l (top E) p H1 o1 W1 V1 I) as (_ & _ & A1 & _).
    split.
    + rewrite A1, A. reflexivity.
    + intros s r' K.
      destruct (ctame_changed E l (top E) H W Hl I) as (Wc & Lc & _).
      assert (Z : forall t, held E (snd (h_changed E l H)) l t = None).
      { intros t. unfold h_changed, hbind, dict. destruct (nth_error (hp_obj E H) l) as [d|] eqn:Hd; [|apply nth_error_None in Hd; lia]. cbn [update snd]. now rewrite held_update by auto. }
      assert (Eq : snd (h_apply_pupil E l p H) = snd (hbind E (h_gen_psf E l (Some p)) (fun r => h_set_cache E l PSFa r) (snd (h_changed E l H)))).
      { unfold h_apply_pupil at 1. unfold hbind at 1. unfold h_changed at 1 2. unfold hbind at 1 4. destruct (dict E l H) as [[d|e] H2] eqn:Ed; [reflexivity|]. unfold dict in Ed. destruct (nth_error (hp_obj E H) l) eqn:Hd; [discriminate|]. apply nth_error_None in Hd. lia. }
      rewrite Eq in K. destruct (ctame_gen_store E l (top E) (Some p) (mono_top E) (snd (h_changed E l H)) Wc) as (_ & _ & (N & B & _)); [destruct Lc as (_ & Len & _); lia|exact I|].
      destruct Lc as (([t0 G] & _) & _). destruct (B s) as [X|[X|(r2 & X & Hr2)]]; [congruence|rewrite Z in X; congruence|]. assert (r2 = r') by congruence. subst. rewrite G, app_length in Hr2. lia.
Qed.
End T.
Print Assumptions C104_writes_reach_exactly_the_holders.
Print Assumptions C104_library_writes_into_no_array.
Print Assumptions C104_a_read_hands_out_the_held_array.
Print Assumptions C104_no_array_is_in_two_slots.
Print Assumptions C104_no_array_is_in_two_objects.
Print Assumptions C104_a_write_changes_one_slot.
Print Assumptions C104_written_arrays_are_believed.
Print Assumptions C104_a_change_forgets_what_was_written.

(** A program with writes: read PSFi, write into it, then read OTFi; a copy made meanwhile shares the array. *)
Definition scribbles : list (act toy) :=
  [Call toy (SConstruct toy Hanser (kw Hanser) None); Call toy (SConstruct toy Sheppard (kw Sheppard) None);
   Call toy (SRead toy 0 PSFi); Call toy (SRead toy 1 OTFi); Call toy (SAberrate toy 0 (fun _ => Ok (Some 7)));
   WriteArr toy 1 (Gen (mkParams None None None None None None None None None None None) None)].
Lemma scribbles_legal : legal_acts toy (nothing toy) scribbles.
Proof.
  unfold scribbles. repeat (apply la_cons; [|]); try apply la_nil; cbn [legal_act legal_step].
  all: try (vm_compute; lia). all: try (intros ? [=]). all: try (split; [vm_compute; lia|intros ? [=]]).
Qed.
Lemma scribbles_no_copies : no_copies toy (nothing toy) scribbles.
Proof.
  unfold scribbles. repeat (apply nc_cons; [|]); try apply nc_nil; cbn [no_copy]; try exact I.
  split; [vm_compute; reflexivity|]. intros o _. discriminate.
Qed.
Example C104_case :
  let H := acts toy scribbles (nothing toy) in
  slots_apart toy H /\ objects_apart toy H /\ held toy H 0 PSFi = Some 1%nat /\ held toy H 0 OTFi = None /\ held toy H 2 PSFa = Some 6%nat /\
  (exists o, view toy H 0 = Some o /\ o_cache o PSFi = Some (Gen (mkParams None None None None None None None None None None None) None) /\ o_attr o A_zres <> None) /\
  (* the OTF is the transform of what was written *)
  (exists rt, fst (h_read toy 0 Hanser OTFi H) = Ok rt /\
     nth_error (hp_arr toy (snd (h_read toy 0 Hanser OTFi H))) rt = Some (F (Gen (mkParams None None None None None None None None None None None) None))).
Proof.
  cbv zeta. assert (W0 : wf toy (nothing toy)) by (intros [|k] d; discriminate).
  split; [apply C104_no_array_is_in_two_slots; [exact W0|exact scribbles_legal|intros [|k] l2 s1 s2 r1; discriminate]|].
  split; [apply C104_no_array_is_in_two_objects; [exact W0|exact scribbles_legal|exact scribbles_no_copies|intros [|k] l2 s1 s2 r1; discriminate]|].
  split; [vm_compute; reflexivity|]. split; [vm_compute; reflexivity|]. split; [vm_compute; reflexivity|].
  split; [eexists; split; [vm_compute; reflexivity|]; split; [vm_compute; reflexivity|vm_compute; discriminate]|].
  eexists. split; vm_compute; reflexivity.
Qed.
(** With a copy left behind one array is in two objects, and a write through one of them is seen in the other. *)
Theorem C104_copies_share_arrays_refuted :
  exists (h : list (act toy)) (r : nat) (a : arr toy) (o o' : obj toy),
    let H := acts toy h (nothing toy) in
    legal_acts toy (nothing toy) h /\ held toy H 0 PSFi = Some r /\ held toy H 1 PSFi = Some r /\
    view toy H 1 = Some o /\ view toy (act_on toy (WriteArr toy r a) H) 1 = Some o' /\ o_cache o' PSFi <> o_cache o PSFi.
Proof.
  exists [Call toy (SConstruct toy Hanser (kw Hanser) None); Call toy (SRead toy 0 PSFi); Call toy (SAberrate toy 0 (fun _ => Ok None))], 1%nat,
    (Gen (mkParams None None None None None None None None None None None) None).
  do 2 eexists. cbv zeta. split.
  { repeat (apply la_cons; [|]); try apply la_nil; cbn [legal_act legal_step]; try (vm_compute; lia); intros ? [=]. }
  repeat (split; [vm_compute; reflexivity|]). vm_compute. discriminate.
Qed.
Print Assumptions C104_copies_share_arrays_refuted.
