(** Microscopes with references: the programs of pyotf/microscope.py. *)
From Verif Require Import S_MicroHeap L_Heap L_Write L_MicroHeap.
Import M_Array.
Local Open Scope R_scope.

Section S.
Context (i : nat) (k : kind).
Lemma simW_apotome : simW i k (w_apotome_psf i) apotome_psf eqW.
Proof.
  unfold w_apotome_psf, apotome_psf. apply simW_seq; [apply simW_model_PSFi|intros psf]. apply simW_seq; [apply simW_lift|intros rows].
  apply simW_seq; [apply simW_asks; reflexivity|intros d]. apply simW_seq; [apply simW_lift|intros nyq]. apply simW_seq; [apply simW_lift|intros lim]. apply simW_seq; [apply simW_lift|intros ax]. apply simW_lift.
Qed.
Lemma simW_sim_base : simW i k (w_sim_base i) sim_base eqW.
Proof.
  unfold w_sim_base, sim_base. apply simW_seq; [apply simW_asks; reflexivity|intros w].
  assert (G : simW i k (wbind (wlift (py_ge w (VInt 0))) (fun ok => if ok : bool then wbind (w_model_OTFi i) (fun o => let otf := power (fst o) in
        if py_eq w (VInt 0) then wret (ifft_real (support otf), snd o)
        else match M_Val.num w with
             | Some (FFin q) =>
                 wbind (wlift (r_max otf)) (fun mx =>
                 let w2 := mx * Q2R q ^ 2 in
                 wret (ifft_real (amap (wiener_factor w2) otf),
                       snd o && forallb (fun ix => if Req_EM_T (get otf ix + w2) 0 then false else true) (all_ix (shape otf))))
             | _ => wbind (wlift (r_max otf)) (fun _ => wret (otf, false))
             end) else wlift (Err ValueError)))
      (mbind (mlift (py_ge w (VInt 0))) (fun ok => if ok : bool then mbind model_OTFi (fun o => let otf := power (fst o) in
        if py_eq w (VInt 0) then mret (ifft_real (support otf), snd o)
        else match M_Val.num w with
             | Some (FFin q) =>
                 mbind (mlift (r_max otf)) (fun mx =>
                 let w2 := mx * Q2R q ^ 2 in
                 mret (ifft_real (amap (wiener_factor w2) otf),
                       snd o && forallb (fun ix => if Req_EM_T (get otf ix + w2) 0 then false else true) (all_ix (shape otf))))
             | _ => mbind (mlift (r_max otf)) (fun _ => mret (otf, false))
             end) else mlift (Err ValueError))) eqW).
  { apply simW_seq; [apply simW_lift|intros b]. apply simW_if; [|apply simW_lift]. apply simW_seq; [apply simW_model_OTFi|intros o]. cbv zeta. apply simW_if; [apply simW_ret|].
    destruct (M_Val.num w) as [[q| |]|]; (apply simW_seq; [apply simW_lift|intros mx; apply simW_ret]). }
  destruct w; try exact G. apply simW_model_PSFi.
Qed.
Lemma simW_sim : simW i k (w_sim_psf i) sim_psf eqW.
Proof.
  unfold w_sim_psf, sim_psf. apply simW_seq; [apply simW_asks; reflexivity|intros d].
  do 5 (apply simW_seq; [apply simW_lift|intros ?]).
  apply simW_seq; [apply simW_get|intros ?]. apply simW_seq; [apply simW_lift|intros ?]. apply simW_seq; [apply simW_lift|intros ?]. apply simW_seq; [apply simW_get|intros ?].
  apply simW_seq; [apply simW_lift|intros ?]. apply simW_seq; [apply simW_lift|intros ?]. cbv zeta. apply simW_seq; [apply simW_sim_base|intros ?].
  do 3 (apply simW_seq; [apply simW_get|intros ?]). apply simW_seq; [apply simW_asks; reflexivity|intros ?]. apply simW_if; apply simW_lift.
Qed.
(** changing the own dictionary *)
Lemma update_ok W h h' : world_ok W -> nth_error (hw_mic W) i = Some h ->
  hm_kind h' = hm_kind h -> hm_model h' = hm_model h -> hm_exc h' = hm_exc h ->
  (hm_psf h' = None \/ hm_psf h' = hm_psf h) -> (hm_otf h' = None \/ hm_otf h' = hm_otf h) ->
  let W' := snd (w_update i h' W) in world_ok W' /\ localW i W W' /\ nth_error (hw_mic W') i = Some h'.
Proof.
  intros [Wf Sc] Hi K Mo Ex P O W'. assert (Hl : (i < List.length (hw_mic W))%nat) by (apply nth_error_Some; congruence).
  assert (N : nth_error (hw_mic W') i = Some h') by (now apply nth_replace_same). split; [split; [exact Wf|]|split; [|exact N]].
  - intros j m Hm. cbn [W' w_update snd hw_mic] in Hm. destruct (Nat.eq_dec j i) as [->|Hn].
    + change (nth_error (hw_mic W') i = Some m) in Hm. assert (m = h') by congruence. subst m. destruct (Sc i h Hi) as (A & B & C & D & F). unfold scope_ok. cbn [W' w_update snd hw_heap hw_psf hw_otf]. rewrite K, Mo, Ex. split; [exact A|]. split; [exact B|]. split; [exact C|].
      split; intros r Hr; [destruct P as [P|P]|destruct O as [O|O]]; rewrite ?P, ?O in Hr; try discriminate; auto.
    + rewrite nth_replace_other in Hm by exact Hn. exact (Sc j m Hm).
  - split; cbn [W' w_update snd hw_heap hw_mic hw_psf hw_otf]; auto using grows_refl; try (exists []; now rewrite app_nil_r).
    + apply replace_length.
    + intros j Hj. now apply nth_replace_other.
    + intros m Hm. assert (m = h) by congruence. subst m. exists h'. split; [exact N|]. repeat (split; [assumption|]). split; [|split; [|auto]].
      * destruct P as [->| ->]; [now left|apply newer_refl].
      * destruct O as [->| ->]; [now left|apply newer_refl].
Qed.
Lemma set_eq a v W h : nth_error (hw_mic W) i = Some h -> w_set i a v W =
  if has_prop (hm_kind h) a then
    match numeric_decide (hm_num h a) (mtype a) v with
    | Ok true => (Ok tt, snd (w_changed i (snd (w_update i (hupd_num (fun b => if mattr_eqb a b then Some v else hm_num h b) h) W))))
    | Ok false => (Ok tt, W)
    | Err e => (Err e, W)
    end
  else (Ok tt, W).
Proof.
  intros Hi. assert (Hl : (i < List.length (hw_mic W))%nat) by (apply nth_error_Some; congruence).
  unfold w_set, w_changed, wbind, w_self, w_update, wlift, wret. rewrite Hi. destruct (has_prop (hm_kind h) a); [|reflexivity]. destruct (numeric_decide (hm_num h a) (mtype a) v) as [[|]|e]; [|reflexivity|reflexivity].
  cbn [hw_mic fst snd]. rewrite nth_replace_same by exact Hl. reflexivity.
Qed.
Lemma simW_set a v : simW i k (w_set i a v) (m_set a v) eqW.
Proof.
  intros W m Ok_ V K. destruct (view_self W i m V) as (h & o & c & Hi & Vo & Cl & Em). rewrite (set_eq a v W h Hi).
  unfold m_set. assert (Ek : mi_kind m = hm_kind h) by now rewrite Em. assert (En : forall b, mi_num m b = hm_num h b) by (intros; now rewrite Em).
  assert (T : world_ok W /\ localW i W W /\ scope_view W i = Some m /\ mi_kind m = k) by (split; [exact Ok_|]; split; [apply localW_refl|]; auto).
  rewrite <- Ek. destruct (has_prop (mi_kind m) a); [|cbv zeta; cbn [fst snd]; destruct T as (T1 & T2 & T3 & T4); repeat (split; [assumption|]); reflexivity].
  unfold numeric_fset. rewrite En. destruct (numeric_decide (hm_num h a) (mtype a) v) as [[|]|e]; cbv zeta; cbn [fst snd]; [|destruct T as (T1 & T2 & T3 & T4); repeat (split; [assumption|]); reflexivity|destruct T as (T1 & T2 & T3 & T4); repeat (split; [assumption|]); reflexivity].
  pose proof (update_ok W h (hupd_num (fun b => if mattr_eqb a b then Some v else hm_num h b) h) Ok_ Hi eq_refl eq_refl eq_refl (or_intror eq_refl) (or_intror eq_refl)) as (A1 & A2 & A3).
  set (W1 := snd (w_update i _ W)) in *.
  pose proof (update_ok W1 _ (hupd_cache None None (hupd_num (fun b => if mattr_eqb a b then Some v else hm_num h b) h)) A1 A3 eq_refl eq_refl eq_refl (or_introl eq_refl) (or_introl eq_refl)) as (B1 & B2 & B3).
  assert (Ew : snd (w_changed i W1) = snd (w_update i (hupd_cache None None (hupd_num (fun b => if mattr_eqb a b then Some v else hm_num h b) h)) W1)) by (unfold w_changed, wbind, w_self; now rewrite A3).
  rewrite Ew. set (W2 := snd (w_update i _ W1)) in *. split; [exact B1|]. split; [eapply localW_trans; eauto|]. split; [|split; [exact K|reflexivity]].
  unfold scope_view. rewrite B3. change (hw_heap W2) with (hw_heap W). cbn [hupd_cache hupd_num hm_model hm_exc hm_kind hm_num hm_params hm_pixel hm_orient hm_wiener hm_psf hm_otf]. rewrite Vo, Cl, Em. reflexivity.
Qed.
Lemma simW_plain f g : (forall W h o c e p t, scope_ok W h -> mkMicro (hm_kind (f h)) c (hm_num (f h)) (hm_params (f h)) (hm_pixel (f h)) o e (hm_orient (f h)) (hm_wiener (f h)) p t =
     g (mkMicro (hm_kind h) c (hm_num h) (hm_params h) (hm_pixel h) o e (hm_orient h) (hm_wiener h) p t)) ->
  (forall h, hm_kind (f h) = hm_kind h /\ hm_model (f h) = hm_model h /\ hm_exc (f h) = hm_exc h /\ hm_psf (f h) = hm_psf h /\ hm_otf (f h) = hm_otf h) ->
  simW i k (w_plain i f) (fun m => (Ok tt, g m)) eqW.
Proof.
  intros E F W m Ok_ V K. destruct (view_self W i m V) as (h & o & c & Hi & Vo & Cl & Em). destruct (F h) as (F1 & F2 & F3 & F4 & F5).
  pose proof (update_ok W h (f h) Ok_ Hi F1 F2 F3 (or_intror F4) (or_intror F5)) as (A1 & A2 & A3).
  assert (Ew : w_plain i f W = (Ok tt, snd (w_update i (f h) W))) by (unfold w_plain, wbind, w_self; now rewrite Hi). rewrite Ew. cbv zeta. cbn [fst snd].
  set (W1 := snd (w_update i (f h) W)) in *. split; [exact A1|]. split; [exact A2|].
  assert (Eg : scope_view W1 i = Some (g m)).
  { unfold scope_view. rewrite A3. change (hw_heap W1) with (hw_heap W). change (hw_psf W1) with (hw_psf W). change (hw_otf W1) with (hw_otf W).
    rewrite F2, F3, F4, F5, Vo, Cl. rewrite (E W) by apply (proj2 Ok_ i h Hi). now rewrite Em. }
  split; [exact Eg|]. split; [|reflexivity]. destruct (view_self W1 i _ Eg) as (h2 & o2 & c2 & Hi2 & _ & _ & Em2). assert (h2 = f h) by congruence. subst h2. rewrite Em2. cbn [mi_kind]. rewrite F1. rewrite Em in K. exact K.
Qed.
End S.
Lemma simW_confocal i : simW i Confocal (w_confocal_psf i) confocal_psf eqW.
Proof.
  unfold w_confocal_psf, confocal_psf. apply simW_seq; [apply simW_model_R|intros ?]. apply simW_seq; [apply simW_model_R|intros ?]. apply simW_seq; [apply simW_lift|intros ?].
  apply simW_seq; [apply simW_model_R|intros ?]. apply simW_seq; [apply simW_lift|intros ?]. apply simW_seq; [apply simW_get|intros ?]. apply simW_seq; [apply simW_lift|intros ?]. cbv zeta.
  apply simW_seq; [apply simW_model_PSFi|intros ?]. apply simW_seq.
  - match goal with |- context [Rlt_dec ?x ?y] => destruct (Rlt_dec x y) end; [apply simW_lift|apply simW_ret].
  - intros ?. apply simW_seq; [apply simW_exc_PSFi|intros ?]. apply simW_lift.
Qed.
Section S2.
Context (i : nat) (k : kind).
(** model_psf, with its contents *)
Definition shows (W : hworld) (p : nat + farr) (a : farr) : Prop := w_value p W = (Ok a, W).
Lemma model_psf_eq W h : nth_error (hw_mic W) i = Some h -> w_model_psf i W =
  match hm_kind h with
  | Widefield => wbind (w_model_read i PSFi) (fun r => wret (inl r)) W
  | Confocal => wbind (w_confocal_psf i) (fun a => wret (inr a)) W
  | Apotome => wbind (w_apotome_psf i) (fun a => wret (inr a)) W
  | SIM => wbind (w_sim_psf i) (fun a => wret (inr a)) W
  end.
Proof. intros Hi. unfold w_model_psf, w_asks. unfold wbind at 1 2, w_self. rewrite Hi. cbn [wret]. now destruct (hm_kind h). Qed.
Lemma simW_model_psf : simW i k (w_model_psf i) model_psf shows.
Proof.
  intros W m Ok_ V K. destruct (view_self W i m V) as (h & o & c & Hi & Vo & Cl & Em). assert (Kh : hm_kind h = k) by (rewrite Em in K; exact K).
  rewrite (model_psf_eq W h Hi), Kh. unfold model_psf. rewrite K. clear Kh.
  assert (G : forall (p : WM farr) (q : MM farr), simW i k p q eqW -> let W' := snd (wbind p (fun a => wret (@inr nat farr a)) W) in
    world_ok W' /\ localW i W W' /\ scope_view W' i = Some (snd (q m)) /\ mi_kind (snd (q m)) = k /\
    match fst (wbind p (fun a => wret (@inr nat farr a)) W), fst (q m) with Ok a, Ok b => shows W' a b | Err e, Err e' => e = e' | _, _ => False end).
  { intros p q S. specialize (S W m Ok_ V K). unfold wbind. destruct (p W) as [[a|e] W1]; cbn [fst snd wret] in *; [|exact S].
    destruct S as (A1 & A2 & A3 & A4 & A5). repeat (split; [assumption|]). destruct (fst (q m)); [|exact A5]. unfold eqW in A5. subst. reflexivity. }
  destruct k.
  - pose proof (model_read i Widefield PSFi farr_of W m Ok_ V K) as S. unfold wbind. destruct (w_model_read i PSFi W) as [[r|e] W1]; cbn [fst snd wret] in *; [|exact S].
    destruct S as (A1 & A2 & A3 & A4 & A5). repeat (split; [assumption|]). unfold model_PSFi. destruct (fst (let (r0, o0) := read numeric (mi_cls m) PSFi (mi_model m) in (do a <- r0; Ok (farr_of a), upd_model o0 m))) as [b|e]; [|contradiction].
    destruct A5 as (a & Ha & ->). unfold shows. cbn. unfold w_deref. now rewrite Ha.
  - apply G, simW_confocal.
  - apply G, simW_apotome.
  - apply G, simW_sim.
Qed.
Definition psf_ref (W : hworld) (r : nat) (a : array (option R)) : Prop := nth_error (hw_psf W) r = Some a.
Definition otf_ref (W : hworld) (r : nat) (a : array (option C)) : Prop := nth_error (hw_otf W) r = Some a.
Lemma simW_value : simW i k (wbind (w_model_psf i) w_value) model_psf eqW.
Proof.
  intros W m Ok_ V K. pose proof (simW_model_psf W m Ok_ V K) as S. unfold wbind. destruct (w_model_psf i W) as [[p|e] W1]; cbn [fst snd] in *; [|exact S].
  destruct S as (A1 & A2 & A3 & A4 & A5). destruct (fst (model_psf m)) as [b|e]; [|contradiction]. unfold shows in A5. rewrite A5. cbn [fst snd]. repeat (split; [assumption|]). reflexivity.
Qed.
(** new arrays *)
Lemma alloc_psf_ok W m a : world_ok W -> scope_view W i = Some m -> let W' := snd (w_alloc_psf a W) in
  world_ok W' /\ localW i W W' /\ scope_view W' i = Some m /\ psf_ref W' (List.length (hw_psf W)) a.
Proof.
  intros [Wf Sc] V W'. assert (N : psf_ref W' (List.length (hw_psf W)) a) by (unfold psf_ref; cbn; now rewrite nth_error_app2, Nat.sub_diag by lia).
  split; [|split; [|split; [|exact N]]].
  - split; [exact Wf|]. intros j h Hj. destruct (Sc j h Hj) as (A & B & C & D & F). repeat (split; [assumption|]). split; [|exact F]. cbn. rewrite app_length. intros r Hr. specialize (D r Hr). lia.
  - split; cbn; auto using grows_refl; try (exists []; now rewrite app_nil_r); [eexists; reflexivity|]. intros h Hh. exists h. repeat (split; [assumption || reflexivity || apply newer_refl|]). auto.
  - destruct (view_self W i m V) as (h & o & c & Hi & Vo & Cl & ->). unfold scope_view. cbn. rewrite Hi, Vo, Cl. do 2 f_equal. unfold deref. destruct (hm_psf h) as [r|] eqn:Er; [|reflexivity].
    rewrite nth_error_app1; [reflexivity|]. now apply (Sc i h Hi).
Qed.
Lemma alloc_otf_ok W m a : world_ok W -> scope_view W i = Some m -> let W' := snd (w_alloc_otf a W) in
  world_ok W' /\ localW i W W' /\ scope_view W' i = Some m /\ otf_ref W' (List.length (hw_otf W)) a.
Proof.
  intros [Wf Sc] V W'. assert (N : otf_ref W' (List.length (hw_otf W)) a) by (unfold otf_ref; cbn; now rewrite nth_error_app2, Nat.sub_diag by lia).
  split; [|split; [|split; [|exact N]]].
  - split; [exact Wf|]. intros j h Hj. destruct (Sc j h Hj) as (A & B & C & D & F). repeat (split; [assumption|]). cbn. rewrite app_length. intros r Hr. specialize (F r Hr). lia.
  - split; cbn; auto using grows_refl; try (exists []; now rewrite app_nil_r); [eexists; reflexivity|]. intros h Hh. exists h. repeat (split; [assumption || reflexivity || apply newer_refl|]). auto.
  - destruct (view_self W i m V) as (h & o & c & Hi & Vo & Cl & ->). unfold scope_view. cbn. rewrite Hi, Vo, Cl. do 2 f_equal. unfold deref. destruct (hm_otf h) as [r|] eqn:Er; [|reflexivity].
    rewrite nth_error_app1; [reflexivity|]. now apply (Sc i h Hi).
Qed.
(** a new reference in the own dictionary *)
Lemma store_ok W0 W h h' : world_ok W -> localW i W0 W -> nth_error (hw_mic W) i = Some h ->
  hm_kind h' = hm_kind h -> hm_model h' = hm_model h -> hm_exc h' = hm_exc h ->
  (hm_psf h' = hm_psf h \/ exists r, hm_psf h' = Some r /\ (List.length (hw_psf W0) <= r < List.length (hw_psf W))%nat) ->
  (hm_otf h' = hm_otf h \/ exists r, hm_otf h' = Some r /\ (List.length (hw_otf W0) <= r < List.length (hw_otf W))%nat) ->
  let W' := snd (w_update i h' W) in world_ok W' /\ localW i W0 W' /\ nth_error (hw_mic W') i = Some h'.
Proof.
  intros [Wf Sc] L Hi K Mo Ex P O W'. assert (Hl : (i < List.length (hw_mic W))%nat) by (apply nth_error_Some; congruence).
  assert (N : nth_error (hw_mic W') i = Some h') by (now apply nth_replace_same). split; [split; [exact Wf|]|split; [|exact N]].
  - intros j m Hm. cbn [W' w_update snd hw_mic] in Hm. destruct (Nat.eq_dec j i) as [->|Hn].
    + change (nth_error (hw_mic W') i = Some m) in Hm. assert (m = h') by congruence. subst m. destruct (Sc i h Hi) as (A & B & C & D & F). unfold scope_ok. cbn [W' w_update snd hw_heap hw_psf hw_otf]. rewrite K, Mo, Ex. split; [exact A|]. split; [exact B|]. split; [exact C|].
      split; intros r Hr; [destruct P as [P|(x & P & Hx)]|destruct O as [O|(x & O & Hx)]]; rewrite ?P, ?O in Hr; auto; injection Hr as <-; lia.
    + rewrite nth_replace_other in Hm by exact Hn. exact (Sc j m Hm).
  - destruct L as [A1 B1 C1 D1 E1 F1 G1 H1 I1 J1]. split; cbn [W' w_update snd hw_heap hw_mic hw_psf hw_otf]; auto.
    + now rewrite replace_length.
    + intros j Hj. rewrite nth_replace_other by exact Hj. auto.
    + intros m Hm. destruct (J1 m Hm) as (m' & Hm' & Q1 & Q2 & Q3 & Q4 & Q5 & Q6). assert (m' = h) by congruence. subst m'. exists h'. split; [exact N|].
      split; [congruence|]. split; [congruence|]. split; [congruence|]. split; [|split; [|exact Q6]].
      * destruct P as [->|(x & -> & Hx)]; [exact Q4|]. right; right. exists x. split; [reflexivity|lia].
      * destruct O as [->|(x & -> & Hx)]; [exact Q5|]. right; right. exists x. split; [reflexivity|lia].
Qed.
Lemma compute_ok W m : world_ok W -> scope_view W i = Some m -> mi_kind m = k -> let W' := snd (w_compute_psf i W) in
  world_ok W' /\ localW i W W' /\ scope_view W' i = Some (snd (compute_psf m)) /\ mi_kind (snd (compute_psf m)) = k /\
  match fst (w_compute_psf i W), fst (compute_psf m) with
  | Ok r, Ok a => psf_ref W' r a /\ (List.length (hw_psf W) <= r)%nat | Err e, Err e' => e = e' | _, _ => False end.
Proof.
  intros Ok_ V K.
  assert (S : simW i k (wbind (wbind (w_model_psf i) w_value) (fun psf => wbind (w_get i MOs) (fun os => wbind (w_asks i hm_params) (fun d =>
     wbind (wlift (do n <- par_Z d "size"; bin_psf (as_int os) n (fst psf))) (fun b => wret (normalise (b, snd psf)))))))
     compute_psf eqW).
  { unfold compute_psf. apply simW_seq; [apply simW_value|intros psf]. apply simW_seq; [apply simW_get|intros os]. apply simW_seq; [apply simW_asks; reflexivity|intros d]. apply simW_seq; [apply simW_lift|intros b]. apply simW_ret. }
  specialize (S W m Ok_ V K). set (p := wbind _ _) in S.
  assert (E : w_compute_psf i W = wbind p w_alloc_psf W).
  { unfold p, w_compute_psf, wbind, wret. destruct (w_model_psf i W) as [[q|e] W1]; [|reflexivity]. destruct (w_value q W1) as [[f|e] W2]; [|reflexivity]. destruct (w_get i MOs W2) as [[os|e] W3]; [|reflexivity].
    destruct (w_asks i hm_params W3) as [[d|e] W4]; [|reflexivity]. destruct (wlift (do n <- par_Z d "size"; bin_psf (as_int os) n (fst f)) W4) as [[b|e] W5]; reflexivity. }
  rewrite E. unfold wbind at 1 2. clearbody p. clear E. unfold wbind. destruct (p W) as [[a|e] W1]; cbn [fst snd] in *; destruct S as (A1 & A2 & A3 & A4 & A5); [|repeat (split; [assumption|]); exact A5].
  destruct (fst (compute_psf m)) as [b|e]; [|contradiction]. unfold eqW in A5. subst b.
  destruct (alloc_psf_ok W1 _ a A1 A3) as (B1 & B2 & B3 & B4). split; [exact B1|]. split; [eapply localW_trans; eauto|]. split; [exact B3|]. split; [exact A4|]. split; [exact B4|].
  destruct (lw_psf i W W1 A2) as [t ->]. rewrite app_length. lia.
Qed.
(** computing a PSF changes no microscope *)
Definition keeps {A} (c : WM A) : Prop := forall W, hw_mic (snd (c W)) = hw_mic W.
Lemma keeps_bind {A B} (c : WM A) (f : A -> WM B) : keeps c -> (forall a, keeps (f a)) -> keeps (wbind c f).
Proof. intros C F W. unfold wbind. specialize (C W). destruct (c W) as [[a|e] W1]; cbn [snd] in *; [now rewrite F|exact C]. Qed.
Lemma keeps_heap {A} (c : HM numeric A) : keeps (on_heap c).
Proof. intros W. unfold on_heap. now destruct (c (hw_heap W)). Qed.
Lemma keeps_lift {A} (r : res A) : keeps (wlift r).
Proof. intros W. reflexivity. Qed.
Lemma keeps_ret {A} (r : A) : keeps (wret r).
Proof. intros W. reflexivity. Qed.
Lemma keeps_self : keeps (w_self i).
Proof. intros W. unfold w_self. now destruct (nth_error _ _). Qed.
Lemma keeps_deref r : keeps (w_deref r).
Proof. intros W. unfold w_deref. now destruct (nth_error _ _). Qed.
Lemma keeps_deref_c r : keeps (w_deref_c r).
Proof. intros W. unfold w_deref_c. now destruct (nth_error _ _). Qed.
Ltac keep := repeat first [apply keeps_heap | apply keeps_lift | apply keeps_ret | apply keeps_self | apply keeps_deref | apply keeps_deref_c
  | apply keeps_bind; [|intros ?]
  | match goal with |- keeps (match ?x with _ => _ end) => destruct x end | progress cbv zeta ].
Lemma keeps_model_psf : keeps (w_model_psf i).
Proof.
  unfold w_model_psf, w_asks, w_confocal_psf, w_apotome_psf, w_sim_psf, w_sim_base, w_model_PSFi, w_model_OTFi, w_exc_PSFi, w_model_read, w_model_R, w_get, w_asks. keep.
Qed.
Lemma keeps_compute : keeps (w_compute_psf i).
Proof.
  unfold w_compute_psf. apply keeps_bind; [apply keeps_model_psf|intros p]. apply keeps_bind; [destruct p; cbn; keep|intros f]. unfold w_get, w_asks. keep. intros W. reflexivity.
Qed.
Definition handed (old : option nat) (n : nat) (r : nat) : Prop := old = Some r \/ old = None /\ (n <= r)%nat.
Lemma PSF_ok W m h : world_ok W -> scope_view W i = Some m -> mi_kind m = k -> nth_error (hw_mic W) i = Some h -> let W' := snd (w_PSF i W) in
  world_ok W' /\ localW i W W' /\ scope_view W' i = Some (snd (m_PSF m)) /\ mi_kind (snd (m_PSF m)) = k /\
  (exists h', nth_error (hw_mic W') i = Some h' /\ hm_otf h' = hm_otf h /\
    match fst (w_PSF i W), fst (m_PSF m) with
    | Ok r, Ok a => psf_ref W' r a /\ hm_psf h' = Some r /\ handed (hm_psf h) (List.length (hw_psf W)) r | Err e, Err e' => e = e' | _, _ => False end).
Proof.
  intros Ok_ V K Hi. destruct (view_self W i m V) as (h0 & o & c & Hi0 & Vo & Cl & Em). assert (h0 = h) by congruence. subst h0. clear Hi0.
  assert (Ep : mi_psf m = deref (hw_psf W) (hm_psf h)) by now rewrite Em. unfold m_PSF. rewrite Ep.
  destruct (hm_psf h) as [r|] eqn:Er; cbn [deref].
  - assert (Ew : w_PSF i W = (Ok r, W)) by (unfold w_PSF, wbind, w_self; now rewrite Hi, Er). rewrite Ew. destruct (proj2 Ok_ i h Hi) as (_ & _ & _ & D & _). specialize (D r Er).
    destruct (nth_error (hw_psf W) r) as [a|] eqn:Ea; [|apply nth_error_None in Ea; lia]. cbv zeta. cbn [fst snd].
    split; [exact Ok_|]. split; [apply localW_refl|]. split; [exact V|]. split; [exact K|]. exists h. split; [exact Hi|]. split; [reflexivity|]. split; [exact Ea|]. split; [exact Er|now left].
  - pose proof (compute_ok W m Ok_ V K) as S.
    assert (Ew : w_PSF i W = match w_compute_psf i W with (Ok r, W1) => match nth_error (hw_mic W1) i with Some h1 => (Ok r, snd (w_update i (hupd_cache (Some r) (hm_otf h1) h1) W1)) | None => (Err RuntimeError, W1) end | (Err e, W1) => (Err e, W1) end).
    { unfold w_PSF, wbind, w_self. rewrite Hi, Er. destruct (w_compute_psf i W) as [[r|e] W1]; [|reflexivity]. destruct (nth_error (hw_mic W1) i); reflexivity. }
    rewrite Ew. clear Ew. unfold mbind. destruct (w_compute_psf i W) as [[r|e] W1] eqn:Ec; destruct (compute_psf m) as [[a|e'] m1]; cbn [fst snd] in S; destruct S as (A1 & A2 & A3 & A4 & A5); try contradiction.
    + destruct A5 as [A5 A6]. assert (Hi1 : nth_error (hw_mic W1) i = Some h) by (pose proof (keeps_compute W) as Kp; rewrite Ec in Kp; cbn [snd] in Kp; now rewrite Kp). rewrite Hi1. cbv zeta. cbn [fst snd].
      assert (Lr : (r < List.length (hw_psf W1))%nat) by (apply nth_error_Some; unfold psf_ref in A5; congruence).
      pose proof (store_ok W W1 h (hupd_cache (Some r) (hm_otf h) h) A1 A2 Hi1 eq_refl eq_refl eq_refl (or_intror (ex_intro _ r (conj eq_refl (conj A6 Lr)))) (or_introl eq_refl)) as (B1 & B2 & B3).
      set (W2 := snd (w_update i _ W1)) in *. split; [exact B1|]. split; [exact B2|].
      destruct (view_self W1 i m1 A3) as (h2 & o2 & c2 & Hi2 & Vo2 & Cl2 & Em2). assert (h2 = h) by congruence. subst h2.
      split; [|split; [exact A4|]].
      * unfold scope_view. rewrite B3. change (hw_heap W2) with (hw_heap W1). change (hw_psf W2) with (hw_psf W1). change (hw_otf W2) with (hw_otf W1).
        cbn [hupd_cache hm_model hm_exc hm_kind hm_num hm_params hm_pixel hm_orient hm_wiener hm_psf hm_otf deref]. unfold psf_ref in A5. rewrite Vo2, Cl2, A5, Em2. reflexivity.
      * eexists. split; [exact B3|]. split; [reflexivity|]. split; [exact A5|]. split; [reflexivity|now right].
    + cbv zeta. cbn [fst snd]. split; [exact A1|]. split; [exact A2|]. split; [exact A3|]. split; [exact A4|]. assert (Hi1 : nth_error (hw_mic W1) i = Some h) by (pose proof (keeps_compute W) as Kp; rewrite Ec in Kp; cbn [snd] in Kp; now rewrite Kp). exists h. split; [exact Hi1|]. split; [reflexivity|exact A5].
Qed.
End S2.
