(** Microscopes with references: OTF, all calls, all actions. *)
From Verif Require Import S_MicroHeap L_Heap L_Write L_MicroHeap L_MicroHeap2.
From Coq Require Import FunctionalExtensionality.
Import M_Array.
Local Open Scope R_scope.

Lemma OTF_ok i W m h : world_ok W -> scope_view W i = Some m -> nth_error (hw_mic W) i = Some h -> let W' := snd (w_OTF i W) in
  world_ok W' /\ localW i W W' /\ scope_view W' i = Some (snd (m_OTF m)) /\
  (exists h', nth_error (hw_mic W') i = Some h' /\
    match fst (w_OTF i W), fst (m_OTF m) with
    | Ok r, Ok a => otf_ref W' r a /\ hm_otf h' = Some r /\ handed (hm_otf h) (List.length (hw_otf W)) r | Err e, Err e' => e = e' | _, _ => False end).
Proof.
  intros Ok_ V Hi. destruct (view_self W i m V) as (h0 & o & c & Hi0 & Vo & Cl & Em). assert (h0 = h) by congruence. subst h0. clear Hi0.
  assert (Ep : mi_otf m = deref (hw_otf W) (hm_otf h)) by now rewrite Em. unfold m_OTF. rewrite Ep.
  destruct (hm_otf h) as [r|] eqn:Er; cbn [deref].
  - assert (Ew : w_OTF i W = (Ok r, W)) by (unfold w_OTF, wbind, w_self; now rewrite Hi, Er). rewrite Ew. destruct (proj2 Ok_ i h Hi) as (_ & _ & _ & _ & D). specialize (D r Er).
    destruct (nth_error (hw_otf W) r) as [a|] eqn:Ea; [|apply nth_error_None in Ea; lia]. cbv zeta. cbn [fst snd].
    split; [exact Ok_|]. split; [apply localW_refl|]. split; [exact V|]. exists h. split; [exact Hi|]. split; [exact Ea|]. split; [exact Er|now left].
  - pose proof (PSF_ok i (mi_kind m) W m h Ok_ V eq_refl Hi) as S.
    assert (Ew : w_OTF i W = match w_PSF i W with
       | (Ok r, W1) => match nth_error (hw_psf W1) r with
           | Some a => let W2 := snd (w_alloc_otf (o_fft (amap (option_map RtoC) a)) W1) in
               match nth_error (hw_mic W2) i with Some h1 => (Ok (List.length (hw_otf W1)), snd (w_update i (hupd_cache (hm_psf h1) (Some (List.length (hw_otf W1))) h1) W2)) | None => (Err RuntimeError, W2) end
           | None => (Err RuntimeError, W1) end
       | (Err e, W1) => (Err e, W1) end).
    { unfold w_OTF, wbind, w_self. rewrite Hi, Er. destruct (w_PSF i W) as [[r|e] W1]; [|reflexivity]. destruct (nth_error (hw_psf W1) r); [|reflexivity]. cbn [w_alloc_otf fst snd hw_mic]. destruct (nth_error (hw_mic W1) i); reflexivity. }
    rewrite Ew. clear Ew. unfold mbind. destruct (w_PSF i W) as [[r|e] W1] eqn:Ec; destruct (m_PSF m) as [[a|e'] m1]; cbn [fst snd] in S; destruct S as (A1 & A2 & A3 & A4 & h' & Hi1 & Ot & A5); try contradiction.
    + destruct A5 as (A5 & A6 & A7). unfold psf_ref in A5. rewrite A5. destruct (alloc_otf_ok i W1 m1 (o_fft (amap (option_map RtoC) a)) A1 A3) as (B1 & B2 & B3 & B4).
      set (W2 := snd (w_alloc_otf _ W1)) in *. cbv zeta. assert (Hi2 : nth_error (hw_mic W2) i = Some h') by exact Hi1. rewrite Hi2. set (f := List.length (hw_otf W1)) in *.
      assert (Lf : (List.length (hw_otf W) <= f < List.length (hw_otf W2))%nat).
      { destruct (lw_otf i W W1 A2) as [t Et]. unfold f, W2. cbn. rewrite app_length, Et, app_length. cbn. lia. }
      pose proof (store_ok i W W2 h' (hupd_cache (hm_psf h') (Some f) h') B1 (localW_trans _ _ _ _ A2 B2) Hi2 eq_refl eq_refl eq_refl (or_introl eq_refl) (or_intror (ex_intro _ f (conj eq_refl Lf)))) as (C1 & C2 & C3).
      set (W3 := snd (w_update i _ W2)) in *. cbn [fst snd]. split; [exact C1|]. split; [exact C2|].
      destruct (view_self W2 i m1 B3) as (h2 & o2 & c2 & Hi2' & Vo2 & Cl2 & Em2). assert (h2 = h') by congruence. subst h2. split.
      * unfold scope_view. rewrite C3. change (hw_heap W3) with (hw_heap W2). change (hw_psf W3) with (hw_psf W2). change (hw_otf W3) with (hw_otf W2).
        cbn [hupd_cache hm_model hm_exc hm_kind hm_num hm_params hm_pixel hm_orient hm_wiener hm_psf hm_otf deref]. unfold otf_ref in B4. rewrite Vo2, Cl2, B4, Em2. reflexivity.
      * eexists. split; [exact C3|]. split; [exact B4|]. split; [reflexivity|]. right. split; [reflexivity|lia].
    + cbv zeta. cbn [fst snd]. split; [exact A1|]. split; [exact A2|]. split; [exact A3|]. exists h'. auto.
Qed.

(** all calls on one microscope *)
Lemma drop_unit {A} (c : WM A) W : snd (wbind c (fun _ => wret tt) W) = snd (c W).
Proof. unfold wbind, wret. now destruct (c W) as [[a|e] W1]. Qed.
Lemma own_ok i x W m : world_ok W -> scope_view W i = Some m -> let W' := waction_on (WOwn i x) W in
  world_ok W' /\ localW i W W' /\ scope_view W' i = Some (own_value x m).
Proof.
  intros Ok_ V. destruct (view_self W i m V) as (h & o & c & Hi & _). destruct x; cbn [waction_on own_call own_value mexec]; rewrite ?drop_unit.
  - destruct (simW_set i _ a v W m Ok_ V eq_refl) as (A & B & C & _). auto.
  - destruct (simW_plain i (mi_kind m) (fun m => hupd_plain v (hm_orient m) (hm_wiener m) m) (upd_pixel v) ltac:(reflexivity) ltac:(repeat split) W m Ok_ V eq_refl) as (A & B & C & _). auto.
  - destruct (simW_plain i (mi_kind m) (fun m => hupd_plain (hm_pixel m) (hm_orient m) v m) (upd_wiener v) ltac:(reflexivity) ltac:(repeat split) W m Ok_ V eq_refl) as (A & B & C & _). auto.
  - destruct (simW_plain i (mi_kind m) (fun m => hupd_plain (hm_pixel m) l (hm_wiener m) m) (upd_orient l) ltac:(reflexivity) ltac:(repeat split) W m Ok_ V eq_refl) as (A & B & C & _). auto.
  - destruct (PSF_ok i _ W m h Ok_ V eq_refl Hi) as (A & B & C & _). auto.
  - destruct (OTF_ok i W m h Ok_ V Hi) as (A & B & C & _). auto.
  - destruct (simW_model_psf i _ W m Ok_ V eq_refl) as (A & B & C & _). auto.
Qed.
Lemma scope_some W i : world_ok W -> (i < List.length (hw_mic W))%nat -> exists m, scope_view W i = Some m.
Proof.
  intros [Wf Sc] Hi. unfold scope_view. destruct (nth_error (hw_mic W) i) as [h|] eqn:Hn; [|apply nth_error_None in Hn; lia]. destruct (Sc i h Hn) as (A & _).
  destruct (view_some numeric _ _ A) as [o ->]. destruct (class_some numeric _ _ A) as [c ->]. eauto.
Qed.

(** what becomes of the microscopes that share PSF objects *)
Lemma act_cls x H l c : wf numeric H -> legal_act numeric H x -> class_of numeric H l = Some c -> class_of numeric (act_on numeric x H) l = Some c.
Proof. intros W L C. destruct (view_some numeric H l (class_lt numeric _ _ _ C)) as [o V]. now destruct (act_view numeric x H l c o W L V C) as (_ & A & _). Qed.
Lemma psf_ok x W : world_ok W -> legal_act numeric (hw_heap W) x -> world_ok (waction_on (WPsf x) W).
Proof.
  intros [Wf Sc] L. split; [now apply act_wf|]. intros j h Hj. destruct (Sc j h Hj) as (A & B & C & D & F). cbn in *.
  destruct (class_some numeric _ _ A) as [c Hc]. pose proof (act_cls x _ _ c Wf L Hc) as Hc'. split; [now apply (class_lt numeric _ _ c)|]. split; [exact B|]. split; [|split; assumption].
  intros l Hl. destruct (C l Hl) as (C1 & C2 & C3). rewrite Hc in C3. pose proof (act_cls x _ _ c Wf L C3) as C4. split; [exact C1|]. split; [now apply (class_lt numeric _ _ c)|]. cbn. now rewrite Hc', C4.
Qed.
Lemma place_ok c o H : wf numeric H -> let H' := snd (place c o H) in
  fst (place c o H) = Ok (List.length (hp_obj _ H)) /\ wf numeric H' /\ grows numeric H H' /\ List.length (hp_obj _ H') = S (List.length (hp_obj _ H)) /\
  (forall l, (l < List.length (hp_obj _ H))%nat -> nth_error (hp_obj _ H') l = nth_error (hp_obj _ H) l) /\
  class_of numeric H' (List.length (hp_obj _ H)) = Some c /\
  (o_cache o = (fun _ => None) -> view numeric H' (List.length (hp_obj _ H)) = Some o) /\
  (slots_apart numeric H -> slots_apart numeric H') /\ (objects_apart numeric H -> objects_apart numeric H').
Proof.
  intros Wf H'. set (z := match o_zrange o with Some _ => Some (List.length (hp_rng _ H)) | None => None end).
  set (t := match o_zrange o with Some xs => [R1 xs] | None => [] end).
  assert (E : place c o H = (Ok (List.length (hp_obj _ H)), mkHeap numeric (hp_obj _ H ++ [mkHobj c (o_attr o) z (fun _ => None)]) (hp_rng _ H ++ t) (hp_arr _ H))).
  { unfold place, z, t. destruct (o_zrange o); [reflexivity|]. now rewrite app_nil_r. }
  unfold H'. rewrite E. cbn [fst snd hp_obj hp_rng hp_arr]. clear H'. set (H' := mkHeap _ _ _ _).
  assert (G : grows numeric H H').
  { split; [exists []; cbn; now rewrite app_nil_r|]. split; [cbn; rewrite app_length; lia|]. intros r xs Hr. cbn. rewrite nth_error_app1; [exact Hr|]. apply nth_error_Some. congruence. }
  assert (Old : forall l, (l < List.length (hp_obj _ H))%nat -> nth_error (hp_obj _ H') l = nth_error (hp_obj _ H) l) by (intros l Hl; cbn; now rewrite nth_error_app1).
  assert (New : nth_error (hp_obj _ H') (List.length (hp_obj _ H)) = Some (mkHobj c (o_attr o) z (fun _ => None))) by (cbn; now rewrite nth_error_app2, Nat.sub_diag by lia).
  assert (HH : forall l s r, held numeric H' l s = Some r -> held numeric H l s = Some r).
  { intros l s r. unfold held. destruct (Nat.lt_trichotomy l (List.length (hp_obj _ H))) as [Hl|[->|Hl]].
    - now rewrite Old. - rewrite New. discriminate.
    - destruct (nth_error (hp_obj _ H') l) eqn:Hn; [|discriminate]. assert ((l < List.length (hp_obj _ H'))%nat) by (apply nth_error_Some; congruence). cbn in H0. rewrite app_length in H0. cbn in H0. lia. }
  split; [reflexivity|]. split.
  - intros l d Hd. destruct (Nat.lt_trichotomy l (List.length (hp_obj _ H))) as [Hl|[->|Hl]].
    + rewrite Old in Hd by exact Hl. eapply obj_ok_grows; [exact G|]. exact (Wf l d Hd).
    + rewrite New in Hd. injection Hd as <-. split; [|discriminate]. cbn [ho_zrange hp_rng H']. unfold z, t. destruct (o_zrange o) as [xs|]; [|discriminate]. intros r [= <-]. exists xs. now rewrite nth_error_app2, Nat.sub_diag by lia.
    + assert ((l < List.length (hp_obj _ H'))%nat) by (apply nth_error_Some; congruence). cbn in H0. rewrite app_length in H0. cbn in H0. lia.
  - split; [exact G|]. split; [rewrite app_length; cbn; lia|]. split; [exact Old|]. split; [unfold class_of; now rewrite New|]. split; [|split].
    + intros Ec. unfold view. rewrite New. cbn [ho_attr ho_zrange ho_cache]. f_equal. destruct o as [a zr ca]. cbn in *. subst ca. f_equal. unfold z, deref_rng, H', t. cbn. destruct zr as [xs|]; [|reflexivity]. now rewrite nth_error_app2, Nat.sub_diag by lia.
    + intros A l l' s s' r K K'. exact (A l l' s s' r (HH _ _ _ K) (HH _ _ _ K')).
    + intros A l l' s s' r K K'. exact (A l l' s s' r (HH _ _ _ K) (HH _ _ _ K')).
Qed.
