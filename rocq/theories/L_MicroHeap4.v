(** Microscopes with references: histories. *)
From Verif Require Import S_MicroHeap L_Heap L_Write L_PSF L_MicroHeap L_MicroHeap2 L_MicroHeap3 T_Micro.
From Coq Require Import FunctionalExtensionality.
Import M_Array.
Local Open Scope R_scope.

(** a microscope value that agrees with a microscope's own dictionary *)
Definition agrees (W : hworld) (h : hmicro) (m : micro) : Prop :=
  mi_kind m = hm_kind h /\ mi_num m = hm_num h /\ mi_params m = hm_params h /\ mi_pixel m = hm_pixel h /\ mi_orient m = hm_orient h /\ mi_wiener m = hm_wiener h /\
  mi_psf m = deref (hw_psf W) (hm_psf h) /\ mi_otf m = deref (hw_otf W) (hm_otf h).
Lemma agrees_view W i h m : world_ok W -> nth_error (hw_mic W) i = Some h -> agrees W h m -> scope_view W i = Some (with_models W i m).
Proof.
  intros [Wf Sc] Hi (A1 & A2 & A3 & A4 & A5 & A6 & A7 & A8). unfold scope_view, with_models. rewrite Hi. destruct (Sc i h Hi) as (A & _).
  destruct (view_some numeric _ _ A) as [o ->]. destruct (class_some numeric _ _ A) as [c ->]. now rewrite A1, A2, A3, A4, A5, A6, A7, A8.
Qed.
Lemma view_agrees W i m : scope_view W i = Some m -> exists h, nth_error (hw_mic W) i = Some h /\ agrees W h m.
Proof. intros V. destruct (view_self W i m V) as (h & o & c & Hi & _ & _ & ->). exists h. split; [exact Hi|]. repeat split. Qed.
Lemma agrees_grows W W' h m : scope_ok W h -> agrees W h m -> (exists t, hw_psf W' = hw_psf W ++ t) -> (exists t, hw_otf W' = hw_otf W ++ t) -> agrees W' h m.
Proof.
  intros (_ & _ & _ & P & O) (A1 & A2 & A3 & A4 & A5 & A6 & A7 & A8) [t E] [u F]. unfold agrees. repeat (split; [assumption|]). rewrite A7, A8, E, F. split; unfold deref.
  - destruct (hm_psf h) as [r|]; [|reflexivity]. now rewrite nth_error_app1 by now apply P.
  - destruct (hm_otf h) as [r|]; [|reflexivity]. now rewrite nth_error_app1 by now apply O.
Qed.

(** a new microscope *)
Lemma new_ok W m : world_ok W -> untouched m ->
  let W' := snd (w_new (Ok m) W) in
  world_ok W' /\ hw_psf W' = hw_psf W /\ hw_otf W' = hw_otf W /\ grows numeric (hw_heap W) (hw_heap W') /\
  (forall l, (l < List.length (hp_obj _ (hw_heap W)))%nat -> nth_error (hp_obj _ (hw_heap W')) l = nth_error (hp_obj _ (hw_heap W)) l) /\
  (slots_apart numeric (hw_heap W) -> slots_apart numeric (hw_heap W')) /\ (objects_apart numeric (hw_heap W) -> objects_apart numeric (hw_heap W')) /\
  fst (w_new (Ok m) W) = Ok (List.length (hw_mic W)) /\
  exists h, hw_mic W' = hw_mic W ++ [h] /\ hm_psf h = None /\ hm_otf h = None /\ scope_view W' (List.length (hw_mic W)) = Some m.
Proof.
  intros [Wf Sc] (U1 & U2 & U3 & U4 & U5).
  destruct (place_ok (mi_cls m) (mi_model m) (hw_heap W) Wf) as (P1 & P2 & P3 & P4 & P5 & P6 & P7 & P8 & P9).
  destruct (place (mi_cls m) (mi_model m) (hw_heap W)) as [r1 H1] eqn:E1. cbn [fst snd] in P1, P2, P3, P4, P5, P6, P7, P8, P9. subst r1. set (l := List.length (hp_obj _ (hw_heap W))) in *. specialize (P7 U3).
  destruct (place_ok (mi_cls m) (mi_exc m) H1 P2) as (Q1 & Q2 & Q3 & Q4 & Q5 & Q6 & Q7 & Q8 & Q9).
  destruct (place (mi_cls m) (mi_exc m) H1) as [r2 H2] eqn:E2. cbn [fst snd] in Q1, Q2, Q3, Q4, Q5, Q6, Q7, Q8, Q9. subst r2. rewrite P4 in *. specialize (Q7 U4).
  set (conf := match mi_kind m with Confocal => true | _ => false end).
  set (h := mkHMicro (mi_kind m) (mi_num m) (mi_params m) (mi_pixel m) l (if conf then Some (S l) else None) (mi_orient m) (mi_wiener m) None None).
  set (HF := if conf then H2 else H1).
  assert (E : w_new (Ok m) W = (Ok (List.length (hw_mic W)), mkHWorld HF (hw_mic W ++ [h]) (hw_psf W) (hw_otf W))).
  { unfold w_new, wbind, wlift, on_heap. rewrite E1. cbv beta iota. cbn [hw_heap hw_mic hw_psf hw_otf]. unfold h, HF, conf. destruct (mi_kind m); cbn [hw_heap hw_mic hw_psf hw_otf wret]; [reflexivity| |reflexivity|reflexivity].
    rewrite E2. cbv beta iota. reflexivity. }
  assert (F : wf numeric HF /\ grows numeric (hw_heap W) HF /\ (forall l', (l' < l)%nat -> nth_error (hp_obj _ HF) l' = nth_error (hp_obj _ (hw_heap W)) l') /\
     class_of numeric HF l = Some (mi_cls m) /\ view numeric HF l = Some (mi_model m) /\ (l < List.length (hp_obj _ HF))%nat /\
     (slots_apart numeric (hw_heap W) -> slots_apart numeric HF) /\ (objects_apart numeric (hw_heap W) -> objects_apart numeric HF) /\
     (conf = true -> view numeric HF (S l) = Some (mi_exc m) /\ class_of numeric HF (S l) = Some (mi_cls m) /\ (S l < List.length (hp_obj _ HF))%nat)).
  { unfold HF. destruct conf.
    - assert (Nl : nth_error (hp_obj _ H2) l = nth_error (hp_obj _ H1) l) by (apply Q5; lia).
      split; [exact Q2|]. split; [eapply grows_trans; eauto|]. split; [intros l' Hl'; rewrite Q5 by lia; now apply P5|]. split; [unfold class_of in *; now rewrite Nl|].
      split; [now rewrite (view_grows numeric H1 H2 l Q3 P2 Nl)|]. split; [lia|]. split; [auto|]. split; [auto|]. intros _. split; [exact Q7|]. split; [exact Q6|lia].
    - split; [exact P2|]. split; [exact P3|]. split; [exact P5|]. split; [exact P6|]. split; [exact P7|]. split; [lia|]. split; [auto|]. split; [auto|]. discriminate. }
  destruct F as (F1 & F2 & F3 & F4 & F5 & F6 & F7 & F8 & F9).
  rewrite E. cbv zeta. cbn [fst snd]. set (W' := mkHWorld HF _ _ _).
  assert (Cold : forall l' c, (l' < l)%nat -> class_of numeric (hw_heap W) l' = c -> class_of numeric HF l' = c) by (intros l' c Hl'; unfold class_of; now rewrite F3).
  split; [|repeat (split; [reflexivity || assumption|]); exists h; split; [reflexivity|]; split; [reflexivity|]; split; [reflexivity|]].
  - split; [exact F1|]. intros j g Hj. cbn [W' hw_mic] in Hj. destruct (Nat.lt_ge_cases j (List.length (hw_mic W))) as [Hl|Hl].
    + rewrite nth_error_app1 in Hj by exact Hl. destruct (Sc j g Hj) as (A & B & C & D & G). fold l in A. unfold scope_ok. cbn [W' hw_heap hw_psf hw_otf].
      assert (Lm : (l <= List.length (hp_obj _ HF))%nat) by lia. split; [lia|]. split; [exact B|]. split; [|split; assumption].
      intros l' Hl'. destruct (C l' Hl') as (C1 & C2 & C3). fold l in C2. split; [exact C1|]. split; [lia|]. unfold class_of in *. now rewrite !F3.
    + rewrite nth_error_app2 in Hj by exact Hl. destruct (j - List.length (hw_mic W))%nat as [|n]; [|destruct n; discriminate]. injection Hj as <-. unfold scope_ok. cbn [W' h hm_model hm_exc hm_kind hm_psf hm_otf hw_heap hw_psf hw_otf].
      split; [exact F6|]. split; [unfold conf; intros ->; discriminate|]. split; [|split; discriminate]. intros l' Hl'. destruct conf; [|discriminate]. injection Hl' as <-. destruct (F9 eq_refl) as (G1 & G2 & G3). split; [lia|]. split; [exact G3|congruence].
  - unfold scope_view. cbn [W' hw_mic hw_heap hw_psf hw_otf]. rewrite nth_error_app2, Nat.sub_diag by lia. cbn [nth_error h hm_model hm_exc hm_kind hm_num hm_params hm_pixel hm_orient hm_wiener hm_psf hm_otf deref]. rewrite F5, F4.
    f_equal. destruct m as [k c nm pa px mo ex ori wi ps ot]. cbn in *. subst ps ot. unfold conf in *. destruct k; cbn in *; try (f_equal; symmetry; apply U5; discriminate). now rewrite (proj1 (F9 eq_refl)).
Qed.

Lemma step_ok x W : world_ok W -> legal_waction W x -> world_ok (waction_on x W) /\
  forall i m, scope_view W i = Some m -> scope_view (waction_on x W) i = Some (with_models (waction_on x W) i (own_seen i x W m)).
Proof.
  intros Ok_ L. destruct x as [x|r|j x|j l|j l|j|r a|r a]; cbn [legal_waction] in L.
  - pose proof (psf_ok x W Ok_ L) as O. split; [exact O|]. intros i m V. destruct (view_agrees W i m V) as (h & Hi & A). exact (agrees_view _ i h m O Hi A).
  - destruct r as [m0|e].
    + destruct (new_ok W m0 Ok_ (L m0 eq_refl)) as (A & B & C & D & E & F & G & _ & h0 & Hm & _). cbn [waction_on]. split; [exact A|]. intros i m V. destruct (view_agrees W i m V) as (h & Hi & Ag).
      apply (agrees_view _ i h m A); [rewrite Hm, nth_error_app1; [exact Hi|]; apply nth_error_Some; congruence|]. eapply agrees_grows; [apply (proj2 Ok_ i h Hi)|exact Ag|exists []; now rewrite app_nil_r|exists []; now rewrite app_nil_r].
    + cbn. split; [exact Ok_|]. intros i m V. destruct (view_agrees W i m V) as (h & Hi & Ag). exact (agrees_view _ i h m Ok_ Hi Ag).
  - destruct (scope_some W j Ok_ L) as [mj Vj]. destruct (own_ok j x W mj Ok_ Vj) as (A & B & C). split; [exact A|]. intros i m V. cbn [own_seen]. destruct (Nat.eqb_spec j i) as [->|Hn].
    + assert (mj = m) by congruence. subst mj. destruct (view_agrees _ i _ C) as (h' & Hi' & A'). now apply (agrees_view _ i h').
    + destruct (view_agrees W i m V) as (h & Hi & Ag). apply (agrees_view _ i h m A); [rewrite (lw_others j W _ B i) by congruence; exact Hi|].
      eapply agrees_grows; [apply (proj2 Ok_ i h Hi)|exact Ag|apply (lw_psf j W _ B)|apply (lw_otf j W _ B)].
  - destruct L as [L1 L2].
    assert (E : forall h, nth_error (hw_mic W) j = Some h -> waction_on (WModel j l) W = mkHWorld (hw_heap W) (replace j (hupd_models l (hm_exc h) h) (hw_mic W)) (hw_psf W) (hw_otf W)).
    { intros h Hj. cbn. unfold w_plain, wbind, w_self. now rewrite Hj. }
    destruct (nth_error (hw_mic W) j) as [g|] eqn:Hj.
    + rewrite (E g eq_refl). assert (Lj : (j < List.length (hw_mic W))%nat) by (apply nth_error_Some; congruence). set (W' := mkHWorld _ _ _ _).
      assert (O : world_ok W').
      { split; [apply Ok_|]. intros i h Hi. cbn [W' hw_mic] in Hi. destruct (Nat.eq_dec i j) as [->|Hn].
        - rewrite nth_replace_same in Hi by exact Lj. injection Hi as <-. destruct (proj2 Ok_ j g Hj) as (A & B & C & D & G). unfold scope_ok. cbn [hupd_models hm_model hm_exc hm_kind hm_psf hm_otf W' hw_heap hw_psf hw_otf].
          split; [exact L1|]. split; [exact B|]. split; [|split; assumption]. intros e He. destruct (L2 g e eq_refl He) as [K1 K2]. split; [congruence|]. split; [apply (C e He)|]. now symmetry.
        - rewrite nth_replace_other in Hi by exact Hn. exact (proj2 Ok_ i h Hi). }
      split; [exact O|]. intros i m V. destruct (view_agrees W i m V) as (h & Hi & Ag). cbn [own_seen]. destruct (Nat.eq_dec i j) as [->|Hn].
      * assert (h = g) by congruence. subst h. apply (agrees_view W' j (hupd_models l (hm_exc g) g) m O); [now apply nth_replace_same|exact Ag].
      * apply (agrees_view W' i h m O); [cbn [W' hw_mic]; now rewrite nth_replace_other|exact Ag].
    + assert (Ew : waction_on (WModel j l) W = W) by (cbn; unfold w_plain, wbind, w_self; now rewrite Hj). rewrite Ew. split; [exact Ok_|]. intros i m V. destruct (view_agrees W i m V) as (h & Hi & Ag). exact (agrees_view _ i h m Ok_ Hi Ag).
  - destruct L as [L1 L2].
    assert (E : forall h, nth_error (hw_mic W) j = Some h -> waction_on (WExc j l) W = mkHWorld (hw_heap W) (replace j (hupd_models (hm_model h) (Some l) h) (hw_mic W)) (hw_psf W) (hw_otf W)).
    { intros h Hj. cbn. unfold w_plain, wbind, w_self. now rewrite Hj. }
    destruct (nth_error (hw_mic W) j) as [g|] eqn:Hj.
    + rewrite (E g eq_refl). assert (Lj : (j < List.length (hw_mic W))%nat) by (apply nth_error_Some; congruence). set (W' := mkHWorld _ _ _ _).
      assert (O : world_ok W').
      { split; [apply Ok_|]. intros i h Hi. cbn [W' hw_mic] in Hi. destruct (Nat.eq_dec i j) as [->|Hn].
        - rewrite nth_replace_same in Hi by exact Lj. injection Hi as <-. destruct (proj2 Ok_ j g Hj) as (A & B & C & D & G). unfold scope_ok. cbn [hupd_models hm_model hm_exc hm_kind hm_psf hm_otf W' hw_heap hw_psf hw_otf].
          split; [exact A|]. split; [discriminate|]. split; [|split; assumption]. intros e [= <-]. destruct (L2 g eq_refl) as [K1 K2]. auto.
        - rewrite nth_replace_other in Hi by exact Hn. exact (proj2 Ok_ i h Hi). }
      split; [exact O|]. intros i m V. destruct (view_agrees W i m V) as (h & Hi & Ag). cbn [own_seen]. destruct (Nat.eq_dec i j) as [->|Hn].
      * assert (h = g) by congruence. subst h. apply (agrees_view W' j (hupd_models (hm_model g) (Some l) g) m O); [now apply nth_replace_same|exact Ag].
      * apply (agrees_view W' i h m O); [cbn [W' hw_mic]; now rewrite nth_replace_other|exact Ag].
    + assert (Ew : waction_on (WExc j l) W = W) by (cbn; unfold w_plain, wbind, w_self; now rewrite Hj). rewrite Ew. split; [exact Ok_|]. intros i m V. destruct (view_agrees W i m V) as (h & Hi & Ag). exact (agrees_view _ i h m Ok_ Hi Ag).
  - destruct (nth_error (hw_mic W) j) as [g|] eqn:Hj.
    + assert (E : waction_on (WCopy j) W = mkHWorld (hw_heap W) (hw_mic W ++ [g]) (hw_psf W) (hw_otf W)) by (cbn; unfold w_copy, wbind, w_self; now rewrite Hj). rewrite E. set (W' := mkHWorld _ _ _ _).
      assert (O : world_ok W').
      { split; [apply Ok_|]. intros i h Hi. cbn [W' hw_mic] in Hi. destruct (Nat.lt_ge_cases i (List.length (hw_mic W))) as [Hl|Hl].
        - rewrite nth_error_app1 in Hi by exact Hl. exact (proj2 Ok_ i h Hi).
        - rewrite nth_error_app2 in Hi by exact Hl. destruct (i - List.length (hw_mic W))%nat as [|n]; [|destruct n; discriminate]. injection Hi as <-. exact (proj2 Ok_ j g Hj). }
      split; [exact O|]. intros i m V. destruct (view_agrees W i m V) as (h & Hi & Ag). apply (agrees_view W' i h m O); [|exact Ag].
      cbn [W' hw_mic]. rewrite nth_error_app1; [exact Hi|apply nth_error_Some; congruence].
    + assert (Ew : waction_on (WCopy j) W = W) by (cbn; unfold w_copy, wbind, w_self; now rewrite Hj). rewrite Ew. split; [exact Ok_|]. intros i m V. destruct (view_agrees W i m V) as (h & Hi & Ag). exact (agrees_view _ i h m Ok_ Hi Ag).
  - cbn [waction_on write_psf snd]. set (W' := mkHWorld _ _ _ _).
    assert (O : world_ok W').
    { split; [apply Ok_|]. intros i h Hi. destruct (proj2 Ok_ i h Hi) as (A & B & C & D & G). unfold scope_ok. cbn [W' hw_heap hw_psf hw_otf]. rewrite replace_length. auto. }
    split; [exact O|]. intros i m V. destruct (view_agrees W i m V) as (h & Hi & (A1 & A2 & A3 & A4 & A5 & A6 & A7 & A8)). cbn [own_seen]. rewrite Hi. apply (agrees_view W' i h _ O Hi).
    destruct (hm_psf h) as [r'|] eqn:Er; cbn [is].
    + destruct (Nat.eqb_spec r' r) as [->|Hn]; unfold agrees; cbn [upd_cache mi_kind mi_num mi_params mi_pixel mi_orient mi_wiener mi_psf mi_otf W' hw_psf hw_otf]; repeat (split; [assumption|]); rewrite Er; cbn [deref].
      * split; [now rewrite nth_replace_same|exact A8].
      * split; [|exact A8]. rewrite nth_replace_other by exact Hn. exact A7.
    + unfold agrees. repeat (split; [assumption|]). rewrite Er. split; [exact A7|exact A8].
  - cbn [waction_on write_otf snd]. set (W' := mkHWorld _ _ _ _).
    assert (O : world_ok W').
    { split; [apply Ok_|]. intros i h Hi. destruct (proj2 Ok_ i h Hi) as (A & B & C & D & G). unfold scope_ok. cbn [W' hw_heap hw_psf hw_otf]. rewrite replace_length. auto. }
    split; [exact O|]. intros i m V. destruct (view_agrees W i m V) as (h & Hi & (A1 & A2 & A3 & A4 & A5 & A6 & A7 & A8)). cbn [own_seen]. rewrite Hi. apply (agrees_view W' i h _ O Hi).
    destruct (hm_otf h) as [r'|] eqn:Er; cbn [is].
    + destruct (Nat.eqb_spec r' r) as [->|Hn]; unfold agrees; cbn [upd_cache mi_kind mi_num mi_params mi_pixel mi_orient mi_wiener mi_psf mi_otf W' hw_psf hw_otf]; repeat (split; [assumption|]); rewrite Er; cbn [deref].
      * now rewrite nth_replace_same.
      * rewrite nth_replace_other by exact Hn. exact A8.
    + unfold agrees. repeat (split; [assumption|]). rewrite Er. exact A8.
Qed.
Lemma steps_ok h : forall W, world_ok W -> legal_wactions W h -> world_ok (wactions h W) /\
  forall i m, scope_view W i = Some m -> scope_view (wactions h W) i = Some (seen_by i h W m).
Proof.
  induction h as [|x h IH]; intros W Ok_ L; cbn [wactions seen_by]; [auto|]. inversion L; subst. destruct (step_ok x W Ok_ ltac:(assumption)) as [A B]. destruct (IH _ A ltac:(assumption)) as [C D].
  split; [exact C|]. intros i m V. apply D. now apply B.
Qed.
