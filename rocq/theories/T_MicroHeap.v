(** Properties of programs with several microscopes, shared PSF objects and writing callers (pyotf/microscope.py): C108. *)
From Verif Require Import S_MicroHeap L_Heap L_Write L_PSF L_MicroHeap L_MicroHeap2 L_MicroHeap3 L_MicroHeap4 T_Micro T_Micro4 T_Write L_Micro2 T_Micro2 T_Micro5.
From Coq Require Import FunctionalExtensionality.
Import M_Array.
Local Open Scope R_scope.

(** ** Constructors *)
Definition bare (k : kind) (m : micro) : Prop :=
  mi_kind m = k /\ mi_psf m = None /\ mi_otf m = None /\ o_cache (mi_model m) = (fun _ => None) /\ mi_exc m = empty_obj numeric.
Definition stays {A} (k : kind) (c : MM A) : Prop := forall m, bare k m -> bare k (snd (c m)).
Lemma stays_bind {A B} k (c : MM A) (f : A -> MM B) : stays k c -> (forall x, stays k (f x)) -> stays k (mbind c f).
Proof. intros H1 H2 m H. unfold mbind. specialize (H1 m H). destruct (c m) as [[x|e] m']; cbn [fst snd] in *; auto. apply H2. exact H1. Qed.
Lemma stays_set k a v : stays k (m_set a v).
Proof.
  intros m (K & P & O & M & X). unfold m_set. destruct (has_prop (mi_kind m) a); [|now repeat split]. unfold numeric_fset.
  destruct (numeric_decide (mi_num m a) (mtype a) v) as [[|]|e]; cbn; now repeat split.
Qed.
Lemma stays_lift {A} k (r : res A) : stays k (mlift r). Proof. intros m H; exact H. Qed.
Lemma stays_ret {A} k (r : A) : stays k (mret r). Proof. intros m H; exact H. Qed.
Lemma stays_asks {A} k (f : micro -> A) : stays k (masks f). Proof. intros m H; exact H. Qed.
Lemma stays_wide k a : stays k (wide_init a).
Proof.
  unfold wide_init. cbv zeta. apply stays_bind; [apply stays_set|intros _]. destruct (negb _); [apply stays_lift|].
  apply stays_bind; [destruct (_ =? 1)%Z; [apply stays_ret|destruct (1 <? _)%Z; apply stays_lift]|intros d].
  apply stays_bind; [apply stays_set|intros _]. apply stays_bind; [apply stays_lift|intros c]. apply stays_bind; [apply stays_lift|intros ctr].
  intros m (K & P & O & M & X). unfold mbind, mlift. destruct (construct numeric c ctr) as [o|e] eqn:C; cbn [fst snd]; [|now repeat split].
  destruct (construct_ok numeric c ctr o C) as (_ & _ & N). repeat split; try assumption. cbn [mi_model]. now apply functional_extensionality.
Qed.
Lemma make_bare k i m : stays k i -> make k i = Ok m -> bare k m.
Proof. intros H E. unfold make in E. specialize (H (empty_micro k)). destruct (i (empty_micro k)) as [[u|e] m']; [|discriminate]. injection E as <-. apply H. repeat split. Qed.
Lemma bare_untouched k m : bare k m -> untouched m.
Proof. intros (K & P & O & M & X). split; [exact P|]. split; [exact O|]. split; [exact M|]. split; [now rewrite X|]. auto. Qed.
Lemma assign_wl_uncached c v o : o_cache o = (fun _ => None) -> o_cache (snd (assign numeric c (SetNum A_wl v) o)) = (fun _ => None).
Proof.
  intros N. assert (O : outcome numeric (assign numeric c (SetNum A_wl v)) (fun o => differs (o_attr o A_wl) v)) by (destruct c; apply numeric_outcome).
  destruct (O o) as [[e E]|[[_ E]|[_ (o' & E & N')]]]; rewrite E; cbn [snd]; auto. now apply functional_extensionality.
Qed.
(** A microscope that has just been built has cached nothing, and its PSF objects have not either. *)
Theorem C108_constructors : forall m, built m -> untouched m.
Proof.
  intros m [a [m0 H|w p m0 H|m0 H|s m0 H]].
  - eapply bare_untouched, make_bare; [|exact H]. apply stays_wide.
  - unfold ConfocalMicroscope, make, confocal_init in H. unfold mbind at 1 in H. pose proof (stays_wide Confocal a (empty_micro Confocal)) as B.
    destruct (wide_init a (empty_micro Confocal)) as [[u|e] m1]; cbn [fst snd] in *; [|discriminate]. specialize (B ltac:(repeat split)).
    unfold mbind at 1 in H. pose proof (stays_set Confocal MPinhole p m1 B) as B2. destruct (m_set MPinhole p m1) as [[u2|e] m2]; cbn [fst snd] in *; [|discriminate].
    unfold mbind, masks, on_exc in H. cbn [mi_exc upd_exc] in H. destruct B2 as (K & P & O & M & X). pose proof (assign_wl_uncached (mi_cls m2) w (mi_model m2) M) as N.
    destruct (assign numeric (mi_cls m2) (SetNum A_wl w) (mi_model m2)) as [[u3|e] o3]; cbn [fst snd] in *; [|discriminate]. injection H as <-. unfold untouched. cbn [mi_psf mi_otf mi_model mi_exc mi_kind upd_exc].
    repeat split; try assumption. intros Q. congruence.
  - eapply bare_untouched, make_bare; [|exact H]. apply stays_wide.
  - eapply bare_untouched, make_bare; [|exact H]. unfold sim_init. apply stays_bind; [apply stays_wide|intros _].
    repeat first [apply stays_set | apply stays_lift | apply stays_ret | apply stays_asks | (apply stays_bind; [|intros ?])
      | match goal with |- stays _ (if ?b then _ else _) => destruct b | |- stays _ (match ?b with _ => _ end) => destruct b end].
    intros m1 B1. exact B1.
Qed.
Print Assumptions C108_constructors.

(** A constructor call makes a microscope that looks like the value the constructor computes, with PSF objects of its own:
    every other microscope, and every PSF object there was, is what it was. *)
Theorem C108_new : forall (W : hworld) (m : micro), world_ok W -> built m ->
  exists W', w_new (Ok m) W = (Ok (List.length (hw_mic W)), W') /\ world_ok W' /\
    scope_view W' (List.length (hw_mic W)) = Some m /\
    (forall i, (i < List.length (hw_mic W))%nat -> nth_error (hw_mic W') i = nth_error (hw_mic W) i /\ scope_view W' i = scope_view W i) /\
    (forall l, (l < List.length (hp_obj _ (hw_heap W)))%nat -> view numeric (hw_heap W') l = view numeric (hw_heap W) l) /\
    (forall l, uses W' (List.length (hw_mic W)) l -> (List.length (hp_obj _ (hw_heap W)) <= l)%nat) /\
    hw_psf W' = hw_psf W /\ hw_otf W' = hw_otf W.
Proof.
  intros W m Ok_ B. pose proof (C108_constructors m B) as U. destruct (new_ok W m Ok_ U) as (A1 & A2 & A3 & A4 & A5 & _ & _ & A8 & h & A9 & _ & _ & A10).
  exists (snd (w_new (Ok m) W)). assert (V : forall l, (l < List.length (hp_obj _ (hw_heap W)))%nat -> view numeric (hw_heap (snd (w_new (Ok m) W))) l = view numeric (hw_heap W) l).
  { intros l Hl. apply view_grows; [exact A4|apply Ok_|now apply A5]. }
  split; [now rewrite <- A8; destruct (w_new (Ok m) W)|]. split; [exact A1|]. split; [exact A10|]. split; [|split; [exact V|split; [|now split]]].
  - intros i Hi. assert (N : nth_error (hw_mic (snd (w_new (Ok m) W))) i = nth_error (hw_mic W) i) by (rewrite A9; now apply nth_error_app1). split; [exact N|].
    unfold scope_view. rewrite N. destruct (nth_error (hw_mic W) i) as [g|] eqn:Hg; [|reflexivity]. destruct (proj2 Ok_ i g Hg) as (L1 & _ & L2 & _). rewrite (V _ L1).
    unfold class_of. rewrite (A5 _ L1). rewrite A2, A3. destruct (hm_exc g) as [e|]; [|reflexivity]. now rewrite (V e (proj1 (proj2 (L2 e eq_refl)))).
  - intros l (g & Hg & Q). revert Hg Q. unfold w_new, wbind, wlift, on_heap. destruct (place (mi_cls m) (mi_model m) (hw_heap W)) as [r1 H1] eqn:E1.
    pose proof (place_ok (mi_cls m) (mi_model m) (hw_heap W) (proj1 Ok_)) as P. rewrite E1 in P. cbn [fst snd] in P. destruct P as (-> & P2 & _ & P4 & _). cbv beta iota. cbn [hw_heap hw_mic hw_psf hw_otf].
    destruct (mi_kind m); try (unfold wret; cbv beta iota; cbn [fst snd hw_mic]; rewrite nth_error_app2, Nat.sub_diag by lia; intros [= <-]; cbn [hm_model hm_exc]; intros [<-|Q]; [lia|discriminate]).
    unfold wret. cbv beta iota. cbn [hw_heap hw_mic hw_psf hw_otf]. destruct (place (mi_cls m) (mi_exc m) H1) as [r2 H2] eqn:E2. pose proof (place_ok (mi_cls m) (mi_exc m) H1 P2) as P'. rewrite E2 in P'. cbn [fst snd] in P'. destruct P' as (-> & _). cbv beta iota.
    cbn [fst snd hw_mic]. rewrite nth_error_app2, Nat.sub_diag by lia. intros [= <-]. cbn [hm_model hm_exc]. intros [<-|[= <-]]; lia.
Qed.
Print Assumptions C108_new.

(** ** Histories *)
(** After any sequence of operations of the library and writes of the caller, in any order, a microscope is what its own
    operations make of it, with the contents the caller wrote into the arrays it holds, and with the PSF objects it
    refers to as they have become. *)
Theorem C108_history : forall (h : list waction) (W : hworld), world_ok W -> legal_wactions W h ->
  world_ok (wactions h W) /\ forall i m, scope_view W i = Some m -> scope_view (wactions h W) i = Some (seen_by i h W m).
Proof. exact steps_ok. Qed.
Print Assumptions C108_history.

(** What a microscope does on its own account is what the value-level model (C53 to C63) says, and it touches nothing but
    itself and the PSF objects it refers to: ... *)
Theorem C108_own_operations : forall (W : hworld) (i : nat) (x : own) (m : micro), world_ok W -> scope_view W i = Some m ->
  let W' := waction_on (WOwn i x) W in
  scope_view W' i = Some (own_value x m) /\
  (forall l, ~ uses W i l -> view numeric (hw_heap W') l = view numeric (hw_heap W) l) /\
  (forall j, j <> i -> nth_error (hw_mic W') j = nth_error (hw_mic W) j) /\
  (forall j, j <> i -> (forall l, uses W j l -> ~ uses W i l) -> scope_view W' j = scope_view W j).
Proof.
  intros W i x m Ok_ V W'. destruct (own_ok i x W m Ok_ V) as (A & B & C). fold W' in A, B, C. split; [exact C|].
  destruct (view_self W i m V) as (h & _ & _ & Hi & _). destruct (lw_self i W W' B h Hi) as (h' & Hi' & _ & _ & _ & _ & _ & Ob).
  assert (N : forall l, ~ uses W i l -> nth_error (hp_obj _ (hw_heap W')) l = nth_error (hp_obj _ (hw_heap W)) l).
  { intros l Hl. apply Ob; intros Q; apply Hl; exists h; split; auto. }
  assert (Vl : forall l, ~ uses W i l -> view numeric (hw_heap W') l = view numeric (hw_heap W) l).
  { intros l Hl. apply view_grows; [apply (lw_grows i W W' B)|apply Ok_|now apply N]. }
  split; [exact Vl|]. split; [apply (lw_others i W W' B)|]. intros j Hj Sep. unfold scope_view. rewrite (lw_others i W W' B j Hj).
  destruct (nth_error (hw_mic W) j) as [g|] eqn:Hg; [|reflexivity].
  assert (Um : ~ uses W i (hm_model g)) by (apply Sep; exists g; auto). rewrite (Vl _ Um). rewrite (lw_cls i W W' B).
  assert (Ue : match hm_exc g with Some l => view numeric (hw_heap W') l | None => None end = match hm_exc g with Some l => view numeric (hw_heap W) l | None => None end).
  { destruct (hm_exc g) as [l|] eqn:He; [|reflexivity]. apply Vl, Sep. exists g. auto. }
  rewrite Ue. destruct (proj2 Ok_ j g Hg) as (_ & _ & _ & P & O). destruct (lw_psf i W W' B) as [t Et]. destruct (lw_otf i W W' B) as [u Eu].
  assert (Dp : deref (hw_psf W') (hm_psf g) = deref (hw_psf W) (hm_psf g)) by (unfold deref; destruct (hm_psf g) as [r|] eqn:E1; [rewrite Et; apply nth_error_app1; now apply P|reflexivity]).
  assert (Do : deref (hw_otf W') (hm_otf g) = deref (hw_otf W) (hm_otf g)) by (unfold deref; destruct (hm_otf g) as [r|] eqn:E1; [rewrite Eu; apply nth_error_app1; now apply O|reflexivity]).
  now rewrite Dp, Do.
Qed.
Print Assumptions C108_own_operations.

(** ... and it writes into no array that exists: neither arrays PSF and OTF, whoever holds them, nor arrays of PSF objects. *)
Theorem C108_library_writes_into_no_array : forall (W : hworld) (i : nat) (x : own), world_ok W -> (i < List.length (hw_mic W))%nat ->
  let W' := waction_on (WOwn i x) W in
  (forall r a, nth_error (hw_psf W) r = Some a -> nth_error (hw_psf W') r = Some a) /\
  (forall r a, nth_error (hw_otf W) r = Some a -> nth_error (hw_otf W') r = Some a) /\
  (forall r a, nth_error (hp_arr _ (hw_heap W)) r = Some a -> nth_error (hp_arr _ (hw_heap W')) r = Some a).
Proof.
  intros W i x Ok_ Hi W'. destruct (scope_some W i Ok_ Hi) as [m V]. destruct (own_ok i x W m Ok_ V) as (_ & B & _). fold W' in B.
  destruct (lw_psf i W W' B) as [t Et]. destruct (lw_otf i W W' B) as [u Eu]. destruct (lw_grows i W W' B) as ([v Ev] & _).
  assert (G : forall {A} (l l2 : list A) r a, nth_error l r = Some a -> nth_error (l ++ l2) r = Some a) by (intros; rewrite nth_error_app1; [assumption|apply nth_error_Some; congruence]).
  rewrite Et, Eu, Ev. repeat split; intros; now apply G.
Qed.
Print Assumptions C108_library_writes_into_no_array.

(** ** Reads *)
(** Reading PSF hands out the array the microscope holds from then on; it holds the value-level result.  If it held one, it
    is that one and nothing happens; if not, it is a new array that no microscope holds.  A failing read leaves none. *)
Theorem C108_a_read_hands_out_the_held_array : forall (W : hworld) (i : nat) (m : micro), world_ok W -> scope_view W i = Some m ->
  match w_PSF i W with
  | (Ok r, W') =>
      (exists a, fst (m_PSF m) = Ok a /\ nth_error (hw_psf W') r = Some a) /\ holds_psf W' i r /\ w_PSF i W' = (Ok r, W') /\
      (forall r0, holds_psf W i r0 -> r = r0 /\ W' = W) /\
      (holds_no_psf W i -> nth_error (hw_psf W) r = None /\ (forall j, ~ holds_psf W j r) /\ forall j, holds_psf W' j r -> j = i)
  | (Err e, W') => fst (m_PSF m) = Err e /\ holds_no_psf W' i
  end.
Proof.
  intros W i m Ok_ V. destruct (view_self W i m V) as (h & o & c & Hi & _ & _ & Em). destruct (PSF_ok i (mi_kind m) W m h Ok_ V eq_refl Hi) as (A & B & C & D & h' & Hi' & Ho & E).
  assert (S0 : forall W h r, nth_error (hw_mic W) i = Some h -> hm_psf h = Some r -> w_PSF i W = (Ok r, W)).
  { intros W1 h1 r1 H1 H2. unfold w_PSF, wbind, w_self. now rewrite H1, H2. }
  destruct (w_PSF i W) as [[r|e] W'] eqn:Q; cbn [fst snd] in *.
  - destruct (fst (m_PSF m)) as [a|e'] eqn:F; [|contradiction]. destruct E as (E1 & E2 & E3). split; [eauto|]. split; [exists h'; auto|]. split; [eapply S0; eauto|]. split.
    + intros r0 (g & Hg & Hr). assert (g = h) by congruence. subst g. rewrite (S0 W h r0 Hi Hr) in Q. injection Q as <- <-. auto.
    + intros (g & Hg & Hr). assert (g = h) by congruence. subst g. destruct E3 as [E3|[_ E3]]; [congruence|]. split; [now apply nth_error_None|].
      assert (Nj : forall j, ~ holds_psf W j r). { intros j (g & Hj & Hp). destruct (proj2 Ok_ j g Hj) as (_ & _ & _ & P & _). specialize (P r Hp). lia. }
      split; [exact Nj|]. intros j (g & Hj & Hp). destruct (Nat.eq_dec j i) as [|Hn]; [assumption|]. exfalso. apply (Nj j). exists g. split; [|exact Hp]. now rewrite <- (lw_others i W W' B j Hn).
  - destruct (fst (m_PSF m)) as [a|e'] eqn:F; [contradiction|]. subst e'. split; [reflexivity|]. exists h'. split; [exact Hi'|].
    unfold m_PSF in F, C. destruct (mi_psf m) as [a0|] eqn:Ep; [discriminate|].
    pose proof (blind_compute m None None) as (_ & E1 & _). unfold mbind in C, F. destruct (compute_psf m) as [[a|e2] m'] eqn:Ec; cbn [fst snd] in *; [discriminate|].
    destruct (view_self W' i m' C) as (g & o1 & c1 & Hg & _ & _ & Eg). assert (Gh : g = h') by congruence. rewrite Gh in Eg. rewrite Eg in E1. cbn [mi_psf] in E1.
    destruct (hm_psf h') as [r|] eqn:Er; [|reflexivity]. destruct (proj2 A i h' Hi') as (_ & _ & _ & P & _). specialize (P r Er). cbn [deref] in E1. rewrite Ep in E1. apply nth_error_None in E1. lia.
Qed.
Print Assumptions C108_a_read_hands_out_the_held_array.
(** The same for OTF. *)
Theorem C108_a_read_hands_out_the_held_OTF : forall (W : hworld) (i : nat) (m : micro), world_ok W -> scope_view W i = Some m ->
  match w_OTF i W with
  | (Ok r, W') =>
      (exists a, fst (m_OTF m) = Ok a /\ nth_error (hw_otf W') r = Some a) /\ holds_otf W' i r /\ w_OTF i W' = (Ok r, W') /\
      (forall r0, holds_otf W i r0 -> r = r0 /\ W' = W) /\
      (holds_no_otf W i -> nth_error (hw_otf W) r = None /\ (forall j, ~ holds_otf W j r) /\ forall j, holds_otf W' j r -> j = i)
  | (Err e, W') => fst (m_OTF m) = Err e
  end.
Proof.
  intros W i m Ok_ V. destruct (view_self W i m V) as (h & o & c & Hi & _ & _ & Em). destruct (OTF_ok i W m h Ok_ V Hi) as (A & B & C & h' & Hi' & E).
  assert (S0 : forall W h r, nth_error (hw_mic W) i = Some h -> hm_otf h = Some r -> w_OTF i W = (Ok r, W)).
  { intros W1 h1 r1 H1 H2. unfold w_OTF, wbind, w_self. now rewrite H1, H2. }
  destruct (w_OTF i W) as [[r|e] W'] eqn:Q; cbn [fst snd] in *.
  - destruct (fst (m_OTF m)) as [a|e'] eqn:F; [|contradiction]. destruct E as (E1 & E2 & E3). split; [eauto|]. split; [exists h'; auto|]. split; [eapply S0; eauto|]. split.
    + intros r0 (g & Hg & Hr). assert (g = h) by congruence. subst g. rewrite (S0 W h r0 Hi Hr) in Q. injection Q as <- <-. auto.
    + intros (g & Hg & Hr). assert (g = h) by congruence. subst g. destruct E3 as [E3|[_ E3]]; [congruence|]. split; [now apply nth_error_None|].
      assert (Nj : forall j, ~ holds_otf W j r). { intros j (g & Hj & Hp). destruct (proj2 Ok_ j g Hj) as (_ & _ & _ & _ & P). specialize (P r Hp). lia. }
      split; [exact Nj|]. intros j (g & Hj & Hp). destruct (Nat.eq_dec j i) as [|Hn]; [assumption|]. exfalso. apply (Nj j). exists g. split; [|exact Hp]. now rewrite <- (lw_others i W W' B j Hn).
  - destruct (fst (m_OTF m)) as [a|e'] eqn:F; [contradiction|]. now subst e'.
Qed.
Print Assumptions C108_a_read_hands_out_the_held_OTF.

(** copy.copy of a microscope looks the same, and refers to the same PSF objects and the same arrays. *)
Theorem C108_copy : forall (W : hworld) (i : nat) (m : micro), world_ok W -> scope_view W i = Some m ->
  exists W', w_copy i W = (Ok (List.length (hw_mic W)), W') /\ world_ok W' /\
    scope_view W' (List.length (hw_mic W)) = Some m /\
    (forall j, (j < List.length (hw_mic W))%nat -> scope_view W' j = scope_view W j) /\
    (forall l, uses W' (List.length (hw_mic W)) l <-> uses W i l) /\
    (forall r, holds_psf W' (List.length (hw_mic W)) r <-> holds_psf W i r) /\
    (forall r, holds_otf W' (List.length (hw_mic W)) r <-> holds_otf W i r).
Proof.
  intros W i m Ok_ V. destruct (view_self W i m V) as (g & _ & _ & Hg & _). set (n := List.length (hw_mic W)). set (W' := mkHWorld (hw_heap W) (hw_mic W ++ [g]) (hw_psf W) (hw_otf W)).
  assert (E : w_copy i W = (Ok n, W')) by (unfold w_copy, wbind, w_self; now rewrite Hg). exists W'. split; [exact E|].
  assert (N : nth_error (hw_mic W') n = Some g) by (cbn [W' hw_mic]; now rewrite nth_error_app2, Nat.sub_diag by (unfold n; lia)).
  split; [|split; [|split; [|split; [|split]]]].
  - assert (Q : waction_on (WCopy i) W = W') by (cbn [waction_on]; now rewrite E). rewrite <- Q. apply (step_ok (WCopy i) W Ok_ I).
  - rewrite <- V. unfold scope_view. rewrite N, Hg. reflexivity.
  - intros j Hj. unfold scope_view. assert (Nj : nth_error (hw_mic W') j = nth_error (hw_mic W) j) by (cbn [W' hw_mic]; now apply nth_error_app1). rewrite Nj. reflexivity.
  - intros l. unfold uses. rewrite N, Hg. tauto.
  - intros r. unfold holds_psf. rewrite N, Hg. tauto.
  - intros r. unfold holds_otf. rewrite N, Hg. tauto.
Qed.
Print Assumptions C108_copy.

(** ** Which microscope holds what *)
Lemma apart_step x W : match x with WCopy _ => False | _ => True end -> world_ok W -> legal_waction W x -> scopes_apart W -> scopes_apart (waction_on x W).
Proof.
  intros Nc Ok_ L [P O].
  assert (SAME : forall W', (forall i h', nth_error (hw_mic W') i = Some h' -> hm_psf h' = None /\ hm_otf h' = None \/
            exists h, nth_error (hw_mic W) i = Some h /\ hm_psf h' = hm_psf h /\ hm_otf h' = hm_otf h) -> scopes_apart W').
  { intros W' H. split; intros i j r (g & Hg & Rg) (g2 & Hg2 & Rg2); destruct (H i g Hg) as [[N1 N2]|(k & K1 & K2 & K3)]; try congruence; destruct (H j g2 Hg2) as [[M1 M2]|(k2 & J1 & J2 & J3)]; try congruence.
    - apply (P i j r); eexists; (split; [eassumption|congruence]).
    - apply (O i j r); eexists; (split; [eassumption|congruence]). }
  destruct x as [x|r|i x|i l|i l|i|r a|r a]; try contradiction; cbn [legal_waction] in L; try (apply SAME; cbn; intros; right; eauto; fail).
  - destruct r as [m0|e]; [|exact (conj P O)]. destruct (new_ok W m0 Ok_ (L m0 eq_refl)) as (_ & _ & _ & _ & _ & _ & _ & _ & h0 & Hm & N1 & N2 & _). apply SAME. cbn [waction_on]. intros i h' Hi. rewrite Hm in Hi.
    destruct (Nat.lt_ge_cases i (List.length (hw_mic W))) as [Hl|Hl]; [rewrite nth_error_app1 in Hi by exact Hl; right; eauto|]. rewrite nth_error_app2 in Hi by exact Hl.
    destruct (i - List.length (hw_mic W))%nat as [|n]; [|destruct n; discriminate]. injection Hi as <-. auto.
  - destruct (scope_some W i Ok_ L) as [m V]. destruct (own_ok i x W m Ok_ V) as (_ & B & _). set (W' := waction_on (WOwn i x) W) in *.
    destruct (view_self W i m V) as (h & o & c & Hi & _). destruct (lw_self i W W' B h Hi) as (h' & Hi' & _ & _ & _ & Np & No & _).
    assert (G : forall j g, nth_error (hw_mic W') j = Some g -> j = i /\ g = h' \/ j <> i /\ nth_error (hw_mic W) j = Some g).
    { intros j g Hg. destruct (Nat.eq_dec j i) as [->|Hn]; [left; split; congruence|right]. split; [exact Hn|]. now rewrite <- (lw_others i W W' B j Hn). }
    assert (Bd : forall j g, nth_error (hw_mic W) j = Some g -> (forall r, hm_psf g = Some r -> (r < List.length (hw_psf W))%nat) /\ (forall r, hm_otf g = Some r -> (r < List.length (hw_otf W))%nat)).
    { intros j g Hj. destruct (proj2 Ok_ j g Hj) as (_ & _ & _ & Q1 & Q2). auto. }
    split; intros j1 j2 r (g1 & H1 & R1) (g2 & H2 & R2); destruct (G j1 g1 H1) as [[-> ->]|[N1 K1]], (G j2 g2 H2) as [[-> ->]|[N2 K2]]; try reflexivity.
    + exfalso. destruct Np as [Np|[Np|(y & Ey & Hy)]]; [congruence| |].
      * apply N2, (P j2 i r); [exists g2; auto|exists h; split; congruence].
      * pose proof (proj1 (Bd j2 g2 K2) r R2). assert (y = r) by congruence. lia.
    + exfalso. destruct Np as [Np|[Np|(y & Ey & Hy)]]; [congruence| |].
      * apply N1, (P j1 i r); [exists g1; auto|exists h; split; congruence].
      * pose proof (proj1 (Bd j1 g1 K1) r R1). assert (y = r) by congruence. lia.
    + apply (P j1 j2 r); [exists g1|exists g2]; auto.
    + exfalso. destruct No as [No|[No|(y & Ey & Hy)]]; [congruence| |].
      * apply N2, (O j2 i r); [exists g2; auto|exists h; split; congruence].
      * pose proof (proj2 (Bd j2 g2 K2) r R2). assert (y = r) by congruence. lia.
    + exfalso. destruct No as [No|[No|(y & Ey & Hy)]]; [congruence| |].
      * apply N1, (O j1 i r); [exists g1; auto|exists h; split; congruence].
      * pose proof (proj2 (Bd j1 g1 K1) r R1). assert (y = r) by congruence. lia.
    + apply (O j1 j2 r); [exists g1|exists g2]; auto.
  - apply SAME. destruct (nth_error (hw_mic W) i) as [g|] eqn:Hi.
    + assert (E : hw_mic (waction_on (WModel i l) W) = replace i (hupd_models l (hm_exc g) g) (hw_mic W)) by (cbn; unfold w_plain, wbind, w_self; now rewrite Hi).
      rewrite E. intros j h' Hj. right. destruct (Nat.eq_dec j i) as [->|Hn].
      * rewrite nth_replace_same in Hj by (apply nth_error_Some; congruence). injection Hj as <-. exists g. auto.
      * rewrite nth_replace_other in Hj by exact Hn. eauto.
    + assert (E : waction_on (WModel i l) W = W) by (cbn; unfold w_plain, wbind, w_self; now rewrite Hi). rewrite E. eauto.
  - apply SAME. destruct (nth_error (hw_mic W) i) as [g|] eqn:Hi.
    + assert (E : hw_mic (waction_on (WExc i l) W) = replace i (hupd_models (hm_model g) (Some l) g) (hw_mic W)) by (cbn; unfold w_plain, wbind, w_self; now rewrite Hi).
      rewrite E. intros j h' Hj. right. destruct (Nat.eq_dec j i) as [->|Hn].
      * rewrite nth_replace_same in Hj by (apply nth_error_Some; congruence). injection Hj as <-. exists g. auto.
      * rewrite nth_replace_other in Hj by exact Hn. eauto.
    + assert (E : waction_on (WExc i l) W = W) by (cbn; unfold w_plain, wbind, w_self; now rewrite Hi). rewrite E. eauto.
Qed.
Lemma no_world_ok : world_ok no_world.
Proof. split; [intros [|l] d; discriminate|intros [|i] m; discriminate]. Qed.
(** Starting from nothing, if no microscope is copied (copy.copy), no array PSF and no array OTF is ever held by two
    microscopes, whatever is done and whatever PSF objects they share. *)
Theorem C108_no_array_is_in_two_microscopes : forall h : list waction, legal_wactions no_world h -> copies_no_scope h ->
  scopes_apart (wactions h no_world).
Proof.
  intros h L N. assert (G : forall h W, world_ok W -> legal_wactions W h -> copies_no_scope h -> scopes_apart W -> scopes_apart (wactions h W)).
  { clear. induction h as [|x h IH]; intros W Ok_ L N S; cbn [wactions]; [exact S|]. inversion L; subst. inversion N; subst. apply IH; [apply (step_ok x W); assumption|assumption|assumption|now apply apart_step]. }
  apply G; [apply no_world_ok|exact L|exact N|]. split; intros [|i] j r (g & Hg & _); discriminate.
Qed.
Print Assumptions C108_no_array_is_in_two_microscopes.

(** ** What the caller writes *)
(** What the caller writes into the array PSF he got from a microscope is what PSF is from then on, for every microscope that
    holds this array (C108_no_array_is_in_two_microscopes: only that one, unless it was copied) and for no other; OTF stays as it
    was if it was read before, and is computed from the written contents if not. *)
Theorem C108_written_arrays_are_believed : forall (W : hworld) (i r : nat) (a : array (option R)), world_ok W ->
  let W' := waction_on (WWritePSF r a) W in
  holds_psf W i r ->
  (w_PSF i W' = (Ok r, W') /\ nth_error (hw_psf W') r = Some a) /\
  (forall j, ~ holds_psf W j r -> scope_view W' j = scope_view W j) /\
  (forall q, holds_otf W i q -> w_OTF i W' = (Ok q, W') /\ nth_error (hw_otf W') q = nth_error (hw_otf W) q) /\
  (holds_no_otf W i -> exists q, fst (w_OTF i W') = Ok q /\ nth_error (hw_otf (snd (w_OTF i W'))) q = Some (o_fft (amap (option_map RtoC) a))).
Proof.
  intros W i r a Ok_ W' (g & Hg & Hr).
  assert (Lr : (r < List.length (hw_psf W))%nat) by (apply (proj2 Ok_ i g Hg); exact Hr).
  assert (Hg' : nth_error (hw_mic W') i = Some g) by exact Hg. assert (Hx : nth_error (hw_psf W') r = Some a) by (unfold W'; cbn; now apply nth_replace_same).
  assert (RP : w_PSF i W' = (Ok r, W')) by (unfold w_PSF, wbind, w_self; now rewrite Hg', Hr).
  split; [split; assumption|]. split; [|split].
  - intros j Hj. unfold scope_view. change (hw_mic W') with (hw_mic W). change (hw_heap W') with (hw_heap W). change (hw_otf W') with (hw_otf W). destruct (nth_error (hw_mic W) j) as [g2|] eqn:Hg2; [|reflexivity].
    assert (D : deref (hw_psf W') (hm_psf g2) = deref (hw_psf W) (hm_psf g2)); [|now rewrite D].
    unfold deref. destruct (hm_psf g2) as [r2|] eqn:E2; [|reflexivity]. unfold W'. cbn. apply nth_replace_other. intros ->. apply Hj. exists g2. auto.
  - intros q (g2 & Hg2 & Hq). assert (g2 = g) by congruence. subst g2. split; [|reflexivity]. unfold w_OTF, wbind, w_self. now rewrite Hg', Hq.
  - intros (g2 & Hg2 & Hq). assert (g2 = g) by congruence. subst g2. exists (List.length (hw_otf W')).
    assert (E : w_OTF i W' = (Ok (List.length (hw_otf W')), mkHWorld (hw_heap W') (replace i (hupd_cache (hm_psf g) (Some (List.length (hw_otf W'))) g) (hw_mic W')) (hw_psf W') (hw_otf W' ++ [o_fft (amap (option_map RtoC) a)]))).
    { unfold w_OTF, wbind, w_self. rewrite Hg', Hq. rewrite RP. cbv beta iota. rewrite Hx. unfold w_alloc_otf, w_update, wret. cbv beta iota. cbn [hw_mic hw_heap hw_psf hw_otf]. rewrite Hg'. cbv beta iota. reflexivity. }
    rewrite E. cbn [fst snd hw_otf]. split; [reflexivity|]. now rewrite nth_error_app2, Nat.sub_diag by lia.
Qed.
Print Assumptions C108_written_arrays_are_believed.

(** The model_psf of a widefield microscope is no copy: it is the array PSFi that its PSF object holds.  A write into it
    changes a PSF that has not been read yet, and no PSF that has.  (The other three microscopes hand out a new array.) *)
Definition model_is (W : hworld) (i l : nat) : Prop := exists h, nth_error (hw_mic W) i = Some h /\ hm_model h = l.
Theorem C108_widefield_model_psf_is_the_models_array : forall (W : hworld) (i l : nat) (m : micro),
  world_ok W -> scope_view W i = Some m -> model_is W i l ->
  match w_model_psf i W with
  | (Ok (inl r), W') => mi_kind m = Widefield /\ held numeric (hw_heap W') l PSFi = Some r
  | (Ok (inr _), _) => mi_kind m <> Widefield
  | (Err _, _) => True
  end.
Proof.
  intros W i l m Ok_ V (h & Hi & <-). destruct (view_self W i m V) as (h0 & o & c & Hi0 & Vo & Cl & Em). assert (h0 = h) by congruence. subst h0.
  assert (Km : mi_kind m = hm_kind h) by now rewrite Em. rewrite Km. rewrite (model_psf_eq i W h Hi).
  destruct (hm_kind h).
  - unfold w_model_read, wbind, w_self, on_heap. rewrite Hi. cbv beta iota.
    destruct (h_cls numeric (hm_model h) (hw_heap W)) as [[c'|e] H1] eqn:Ec; cbn [hw_heap hw_mic]; [|exact I].
    assert (Q : c' = c /\ H1 = hw_heap W).
    { revert Ec. unfold class_of in Cl. unfold h_cls, hbind, dict. destruct (nth_error (hp_obj _ (hw_heap W)) (hm_model h)) as [d|]; [|discriminate]. injection Cl as <-. cbn. now intros [= <- <-]. }
    destruct Q as [-> ->]. destruct (h_read numeric (hm_model h) c PSFi (hw_heap W)) as [[r|e] H2] eqn:Er; [|exact I]. cbv beta iota. cbn [wret hw_heap]. split; [reflexivity|].
    exact (proj1 (C104_a_read_hands_out_the_held_array numeric (hw_heap W) (hm_model h) c PSFi r H2 (proj1 Ok_) Cl Er)).
  - unfold wbind. destruct (w_confocal_psf i W) as [[p|e] W1]; [discriminate|exact I].
  - unfold wbind. destruct (w_apotome_psf i W) as [[p|e] W1]; [discriminate|exact I].
  - unfold wbind. destruct (w_sim_psf i W) as [[p|e] W1]; [discriminate|exact I].
Qed.
Print Assumptions C108_widefield_model_psf_is_the_models_array.
Theorem C108_written_model_psf : forall (W : hworld) (i l r : nat) (a : arr numeric) (m : micro),
  world_ok W -> scope_view W i = Some m -> mi_kind m = Widefield -> model_is W i l -> held numeric (hw_heap W) l PSFi = Some r ->
  let W' := waction_on (WPsf (WriteArr numeric r a)) W in
  (forall q, holds_psf W i q -> w_PSF i W' = (Ok q, W') /\ nth_error (hw_psf W') q = nth_error (hw_psf W) q) /\
  (holds_no_psf W i -> forall os n b, mi_num m MOs = Some os -> par_Z (mi_params m) "size" = Ok n -> bin_psf (as_int os) n (reals a) = Ok b ->
     exists q, fst (w_PSF i W') = Ok q /\ nth_error (hw_psf (snd (w_PSF i W'))) q = Some (normalise (b, finite_all a))).
Proof.
  intros W i l r a m Ok_ V K (h & Hi & Hl) Hr W'. subst l.
  pose proof (held_lt numeric _ _ _ _ (proj1 Ok_) Hr) as Lr. assert (O' : world_ok W') by (apply psf_ok; [exact Ok_|exact Lr]).
  assert (Hi' : nth_error (hw_mic W') i = Some h) by exact Hi. split.
  - intros q (g & Hg & Hq). assert (g = h) by congruence. subst g. split; [|reflexivity]. unfold w_PSF, wbind, w_self. now rewrite Hi', Hq.
  - intros (g & Hg & Hp) os n b Eo En Eb. assert (g = h) by congruence. subst g.
    destruct (scope_some W' i O' ltac:(apply nth_error_Some; congruence)) as [m' V']. destruct (view_self W' i m' V') as (g & o' & c' & Hg' & Vo' & Cl' & Em'). assert (g = h) by congruence. subst g.
    destruct (view_self W i m V) as (g & o & c & Hg2 & Vo & Cl & Em). assert (g = h) by congruence. subst g.
    destruct (PSF_ok i (mi_kind m') W' m' h O' V' eq_refl Hi') as (_ & _ & _ & _ & h' & _ & _ & E).
    assert (M1 : mi_psf m' = None) by now rewrite Em'; cbn; rewrite Hp. assert (M2 : mi_kind m' = Widefield) by (rewrite Em'; cbn; rewrite Em in K; exact K).
    assert (M3 : mi_num m' = mi_num m) by now rewrite Em, Em'. assert (M4 : mi_params m' = mi_params m) by now rewrite Em, Em'.
    assert (M5 : o_cache (mi_model m') PSFi = Some a).
    { rewrite Em'. cbn [mi_model]. unfold view in Vo'. unfold held in Hr. change (hp_obj numeric (hw_heap W')) with (hp_obj numeric (hw_heap W)) in Vo'.
      destruct (nth_error (hp_obj numeric (hw_heap W)) (hm_model h)) as [d|]; [|discriminate]. injection Vo' as <-. cbn [o_cache]. rewrite Hr. cbn. now apply nth_replace_same. }
    assert (F : fst (m_PSF m') = Ok (normalise (b, finite_all a))).
    { unfold m_PSF. rewrite M1. unfold compute_psf, model_psf, mbind. rewrite M2. unfold model_PSFi. cbn [read]. unfold read_PSFi, cached. rewrite M5. cbn [bind upd_model farr_of fst snd].
      unfold m_get. cbn [mi_num upd_model]. rewrite M3, Eo. unfold masks. cbn [mi_params upd_model]. rewrite M4, En. cbn [bind mlift]. rewrite Eb. reflexivity. }
    rewrite F in E. destruct (w_PSF i W') as [[q|e] W'']; cbn [fst snd] in *; [|contradiction]. destruct E as (E1 & _). exists q. auto.
Qed.
Print Assumptions C108_written_model_psf.
(** What the caller writes into the array OTF: the next reads return it; no microscope that does not hold it and no PSF changes. *)
Theorem C108_written_OTF : forall (W : hworld) (i r : nat) (a : array (option C)), world_ok W ->
  let W' := waction_on (WWriteOTF r a) W in
  holds_otf W i r ->
  (w_OTF i W' = (Ok r, W') /\ nth_error (hw_otf W') r = Some a) /\
  (forall j, ~ holds_otf W j r -> scope_view W' j = scope_view W j) /\
  (forall q, holds_psf W i q -> w_PSF i W' = (Ok q, W')) /\ hw_psf W' = hw_psf W.
Proof.
  intros W i r a Ok_ W' (g & Hg & Hr).
  assert (Lr : (r < List.length (hw_otf W))%nat) by (apply (proj2 Ok_ i g Hg); exact Hr).
  assert (Hg' : nth_error (hw_mic W') i = Some g) by exact Hg.
  split; [split; [unfold w_OTF, wbind, w_self; now rewrite Hg', Hr|unfold W'; cbn; now apply nth_replace_same]|]. split; [|split; [|reflexivity]].
  - intros j Hj. unfold scope_view. change (hw_mic W') with (hw_mic W). change (hw_heap W') with (hw_heap W). change (hw_psf W') with (hw_psf W). destruct (nth_error (hw_mic W) j) as [g2|] eqn:Hg2; [|reflexivity].
    assert (D : deref (hw_otf W') (hm_otf g2) = deref (hw_otf W) (hm_otf g2)); [|now rewrite D].
    unfold deref. destruct (hm_otf g2) as [r2|] eqn:E2; [|reflexivity]. unfold W'. cbn. apply nth_replace_other. intros ->. apply Hj. exists g2. auto.
  - intros q (g2 & Hg2 & Hq). assert (g2 = g) by congruence. subst g2. unfold w_PSF, wbind, w_self. now rewrite Hg', Hq.
Qed.
Print Assumptions C108_written_OTF.

(** ** Witnesses: two microscopes built as in C55; the second is given the PSF object of the first. *)
Definition shared (m : micro) : list waction := [WNew (Ok m); WNew (Ok m); WModel 1 0].
Lemma shared_ok m : built m -> mi_kind m = Widefield ->
  let W := wactions (shared m) no_world in
  legal_wactions no_world (shared m) /\ world_ok W /\ scope_view W 0 = Some m /\ model_is W 0 0 /\ uses W 1 0 /\ holds_no_psf W 0 /\ holds_no_otf W 0 /\ List.length (hw_mic W) = 2%nat.
Proof.
  intros B K. cbv zeta. unfold shared. pose proof (C108_constructors m B) as U.
  destruct (C108_new no_world m no_world_ok B) as (W1 & E1 & O1 & V1 & _ & _ & _ & _ & _). cbn [hw_mic no_world List.length] in E1, V1.
  destruct (new_ok no_world m no_world_ok U) as (_ & _ & _ & _ & _ & _ & _ & _ & h1 & M1 & P1 & T1 & _). rewrite E1 in M1. cbn [snd hw_mic no_world app] in M1.
  destruct (C108_new W1 m O1 B) as (W2 & E2 & O2 & V2 & K2 & _ & _ & _ & _).
  destruct (new_ok W1 m O1 U) as (_ & _ & _ & _ & _ & _ & _ & _ & h2 & M2 & _ & _ & _). rewrite E2 in M2. cbn [snd] in M2. rewrite M1 in M2. cbn [app] in M2.
  rewrite M1 in K2. destruct (K2 0%nat ltac:(cbn; lia)) as [_ V0].
  assert (A1 : waction_on (WNew (Ok m)) no_world = W1) by (cbn [waction_on]; now rewrite E1). assert (A2 : waction_on (WNew (Ok m)) W1 = W2) by (cbn [waction_on]; now rewrite E2).
  assert (M2' : nth_error (hw_mic W2) 1 = Some h2) by now rewrite M2.
  assert (A3 : waction_on (WModel 1 0) W2 = mkHWorld (hw_heap W2) (replace 1 (hupd_models 0 (hm_exc h2) h2) (hw_mic W2)) (hw_psf W2) (hw_otf W2)) by (cbn; unfold w_plain, wbind, w_self; now rewrite M2').
  assert (X1 : hm_model h1 = 0%nat).
  { destruct (new_ok no_world m no_world_ok U) as (_ & _ & _ & _ & _ & _ & _ & _ & hh & MM & _). revert MM. cbn [hw_mic no_world app]. intros MM.
    assert (Q : snd (w_new (Ok m) no_world) = W1) by now rewrite E1. rewrite Q, M1 in MM. injection MM as <-. clear - M1 E1 K.
    revert E1. unfold w_new, wbind, wlift, on_heap, wret. rewrite K. unfold place, no_world. cbn [hw_heap hw_mic hw_psf hw_otf hp_obj hp_rng hp_arr List.length]. destruct (o_zrange (mi_model m)); cbv beta iota; cbn; intros [= <-]; cbn in M1; injection M1 as <-; reflexivity. }
  assert (X2 : hm_exc h2 = None).
  { clear - E2 M2 M1 K. revert E2. unfold w_new, wbind, wlift, on_heap, wret. rewrite K. unfold place. destruct (o_zrange (mi_model m)); cbv beta iota; cbn; rewrite M1; cbn; intros [= <-]; cbn in M2; injection M2 as <-; reflexivity. }
  assert (S2 : scope_ok W2 h1) by (apply (proj2 O2 0%nat); now rewrite M2).
  assert (LM : legal_waction W2 (WModel 1 0)).
  { unfold legal_waction. split; [destruct S2 as (Q & _); rewrite X1 in Q; exact Q|]. intros g e Hg He. congruence. }
  assert (LG : legal_wactions no_world [WNew (Ok m); WNew (Ok m); WModel 1 0]).
  { constructor; [intros m0 [= <-]; exact U|]. rewrite A1. constructor; [intros m0 [= <-]; exact U|]. rewrite A2. constructor; [exact LM|]. constructor. }
  split; [exact LG|]. split; [apply (steps_ok _ no_world no_world_ok LG)|]. cbn [wactions]. rewrite A1, A2, A3. rewrite M2. cbn [replace hw_mic].
  split; [|repeat split]; try (exists h1; cbn; auto; fail).
  - unfold scope_view in *. rewrite M2 in V0. rewrite M1 in V1. cbn in V1. cbn [hw_mic hw_heap hw_psf hw_otf nth_error] in *. rewrite V0. rewrite <- V1. rewrite M1. reflexivity.
  - exists (hupd_models 0 (hm_exc h2) h2). split; [reflexivity|]. now left.
Qed.
Example C108_witness : exists (h : list waction) (r : nat), legal_wactions no_world h /\ copies_no_scope h /\ world_ok (wactions h no_world) /\
  let W := wactions h no_world in holds_psf W 0 r /\ holds_no_otf W 0 /\ uses W 0 0 /\ uses W 1 0.
Proof.
  destruct C55_witness as (m & a & Hm & Ha & _). pose proof (built_wide a0 m Hm) as Hb0. assert (Hb : built m) by now exists a0. assert (K : mi_kind m = Widefield) by exact (made_kind _ _ _ (wide_kind a0) Hm).
  destruct (shared_ok m Hb K) as (L & O & V & (h0 & Hh0 & Hm0) & (h1 & Hh1 & Hm1) & _ & (g & Hg & No) & Ln). set (W := wactions (shared m) no_world) in *.
  pose proof (C108_a_read_hands_out_the_held_array W 0 m O V) as R. destruct (PSF_ok 0 (mi_kind m) W m h0 O V eq_refl Hh0) as (A & B & _ & _ & h0' & Hh0' & Ho & _).
  destruct (w_PSF 0 W) as [[r|e] W'] eqn:E; [|destruct R; congruence]. destruct R as (_ & Hd & _). cbn [snd] in *.
  assert (EW : waction_on (WOwn 0 OReadPSF) W = W') by (cbn [waction_on own_call]; unfold wbind; rewrite E; reflexivity).
  exists (shared m ++ [WOwn 0 OReadPSF]), r.
  assert (AP : forall k1 k2 W0, wactions (k1 ++ k2) W0 = wactions k2 (wactions k1 W0)) by (intros k1; induction k1 as [|x t IH]; intros; cbn; auto).
  assert (LA : forall k1 k2 W0, legal_wactions W0 k1 -> legal_wactions (wactions k1 W0) k2 -> legal_wactions W0 (k1 ++ k2)).
  { intros k1; induction k1 as [|x t IH]; intros k2 W0 L1 L2; cbn; [exact L2|]. inversion L1; subst. constructor; [assumption|]. now apply IH. }
  assert (LL : legal_wactions no_world (shared m ++ [WOwn 0 OReadPSF])) by (apply LA; [exact L|]; constructor; [fold W; unfold legal_waction; lia|constructor]).
  split; [exact LL|]. split; [repeat constructor|]. split; [apply (steps_ok _ no_world no_world_ok LL)|]. cbv zeta. rewrite AP. fold W. cbn [wactions]. rewrite EW.
  split; [exact Hd|]. split; [exists h0'; split; [exact Hh0'|congruence]|]. split.
  - destruct (lw_self 0 W W' B h0 Hh0) as (k & Hk & _ & Mk & _). exists k. split; [exact Hk|]. left. congruence.
  - exists h1. split; [|exact Hm1]. rewrite (lw_others 0 W W' B 1%nat) by discriminate. exact Hh1.
Qed.
Example C108_witness_model_psf : exists (W : hworld) (m : micro) (l r : nat),
  world_ok W /\ scope_view W 0 = Some m /\ mi_kind m = Widefield /\ model_is W 0 l /\ held numeric (hw_heap W) l PSFi = Some r /\ holds_no_psf W 0.
Proof.
  destruct C55_witness as (m & a & Hm & Ha & _). pose proof (built_wide a0 m Hm) as Hb0. assert (Hb : built m) by now exists a0. assert (K : mi_kind m = Widefield) by exact (made_kind _ _ _ (wide_kind a0) Hm).
  destruct (shared_ok m Hb K) as (L & O & V & Mi & _ & (g & Hg & Np) & _ & _). set (W := wactions (shared m) no_world) in *.
  pose proof (simW_model_psf 0 (mi_kind m) W m O V eq_refl) as S. cbv zeta in S. pose proof (C108_widefield_model_psf_is_the_models_array W 0 0 m O V Mi) as T.
  assert (Ok_m : exists p, fst (model_psf m) = Ok p).
  { destruct (C108_constructors m Hb) as (P & _). unfold m_PSF in Ha. rewrite P in Ha. unfold compute_psf, mbind in Ha. destruct (model_psf m) as [[p|e] m']; [now exists p|discriminate]. }
  destruct Ok_m as [p Hp]. rewrite Hp in S. destruct (w_model_psf 0 W) as [[[r|x]|e] W'] eqn:E; cbn [fst snd] in *; [|congruence|destruct S as (_ & _ & _ & _ & []) ].
  destruct S as (A & B & C & D & _). destruct T as [_ T]. destruct Mi as (h0 & Hh0 & Hm0). assert (g = h0) by congruence. subst g.
  destruct (lw_self 0 W W' B h0 Hh0) as (k & Hk & _ & Mk & _). exists W', (snd (model_psf m)), 0%nat, r. split; [exact A|]. split; [exact C|]. split; [congruence|].
  split; [exists k; split; congruence|]. split; [exact T|]. exists k. split; [exact Hk|].
  pose proof (keeps_model_psf 0 W) as Q. rewrite E in Q. cbn [snd] in Q. rewrite Q in Hk. congruence.
Qed.
