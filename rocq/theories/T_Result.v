(** C103: the life of a phase retrieval result (phaseretrieval.py:152-262). *)
From Verif Require Import M_PSF S_PSF S_Phase S_Fit S_Result L_Array L_PSF L_Hanser L_Phase L_Phase2 L_Phase3 L_Phase4 L_Phase6 M_Result T_PSF T_Phase T_Phase2 T_Fit T_Fit2 L_Lstsq.
Import M_Array.
Local Open Scope R_scope.
Local Open Scope list_scope.

(** ** Generating a PSF: from the current attributes of the model, from scratch *)
Lemma scratch_zsize P P' p : hpar_of P = hpar_of P' -> h_ready P = h_ready P' -> scratch numeric Hanser PSFi P (Some p) = scratch numeric Hanser PSFi P' (Some p).
Proof. intros H1 H2. unfold scratch, scratch_PSFa. cbn [e_gen_psf numeric]. now rewrite H1, H2. Qed.
Lemma py_eq_int cur v : isinstance v TInt = true -> isinstance cur TInt = true -> py_eq cur v = true -> as_int cur = as_int v.
Proof.
  intros Hv Hc He. destruct v; try discriminate; destruct cur; try discriminate; unfold py_eq in He; cbn in He; cbn;
    repeat match goal with b : bool |- _ => destruct b end; cbn in *; try reflexivity; try discriminate;
    try (apply Qeq_bool_iff in He; unfold Qeq in He; cbn in He; lia).
Qed.
Lemma lt0_int z : py_lt (VInt z) (VInt 0) = Ok (z <? 0)%Z.
Proof.
  unfold py_lt. cbn [M_Val.num]. f_equal. unfold fl_lt, fl_le, fl_eq. destruct (Z.ltb_spec z 0) as [H|H].
  - apply andb_true_intro. split; [apply Qle_bool_iff; unfold Qle; cbn; lia|]. apply Bool.negb_true_iff, Bool.not_true_is_false. intros H'. apply Qeq_bool_iff in H'. unfold Qeq in H'. cbn in H'. lia.
  - apply Bool.not_true_is_false. intros H'. apply andb_prop in H'. destruct H' as [H1 H2]. apply Qle_bool_iff in H1. unfold Qle in H1. cbn in H1. apply Bool.negb_true_iff in H2. assert (z = 0)%Z by lia. subst. discriminate.
Qed.
Lemma run_tail E (o : obj E) (p : pupil E) :
  fst (bindM E (apply_pupil E p) (fun _ => read_PSFi E Hanser) o) = scratch E Hanser PSFi (obj_params o) (Some p).
Proof.
  unfold bindM. destruct (apply_cases E p o) as [(x & Hx & ->)|(e & He & ->)].
  - match goal with |- fst (read_PSFi _ _ ?o1) = _ => assert (I : Inv E Hanser o1 (Some p)) end.
    { split; [|intros _ _; cbn; discriminate]. intros t w Hw. cbn [o_cache] in Hw. destruct t; try discriminate. injection Hw as <-. exact Hx. }
    apply (read_good E Hanser PSFi (Some p)) in I. destruct I as [I _]. exact I.
  - cbn [fst]. unfold scratch, scratch_PSFa. now rewrite He.
Qed.
Lemma valid_ready (m : obj numeric) : valid numeric Hanser m -> h_ready (obj_params m) = true.
Proof.
  intros [_ [Hc Hz]]. specialize (Hz eq_refl). unfold h_ready, all_set, obj_params. cbn [forallb p_wl p_na p_ni p_res p_size p_vec_corr p_condition p_zrange].
  pose proof (Hc A_wl eq_refl). pose proof (Hc A_na eq_refl). pose proof (Hc A_ni eq_refl). pose proof (Hc A_res eq_refl). pose proof (Hc A_size eq_refl). pose proof (Hc A_vec_corr eq_refl). pose proof (Hc A_condition eq_refl).
  repeat match goal with H : ?x <> None |- _ => destruct x; [clear H|congruence] end. reflexivity.
Qed.
Lemma generate_scratch p size zs zr (m : obj numeric) : valid numeric Hanser m ->
  generate p size zs zr m = match refused_zsize zs with Some e => Err e | None => psf_from (asked (obj_params m) zs zr) (ifftshift axes2 p) size end.
Proof.
  intros Hv. assert (Hz : exists d, o_attr m A_zres = Some d).
  { destruct Hv as [_ [Hc _]]. specialize (Hc A_zres eq_refl). destruct (o_attr m A_zres); eauto; congruence. }
  assert (Hn : exists d, o_attr m A_zsize = Some d /\ isinstance d TInt = true).
  { destruct Hv as [Hw [Hc _]]. specialize (Hc A_zsize eq_refl). destruct (o_attr m A_zsize) as [d|] eqn:Ed; [|congruence]. exists d. split; [reflexivity|]. exact (proj1 (Hw A_zsize d Ed)). }
  destruct Hz as [zd Hzd]. destruct Hn as (nd & Hnd & Hni).
  unfold generate. set (q := ifftshift axes2 p).
  (* after the optional assignment of zsize *)
  assert (S1 : match refused_zsize zs with
     | Some e => exists o, (match zs with Some v => assign numeric Hanser (SetNum A_zsize v) | None => ret numeric tt end) m = (Err e, o)
     | None => exists o, (match zs with Some v => assign numeric Hanser (SetNum A_zsize v) | None => ret numeric tt end) m = (Ok tt, o) /\
         hpar_of (obj_params o) = hpar_of (asked (obj_params m) zs None)
     end).
  { destruct zs as [v|]; cbn [refused_zsize].
    2:{ exists m. repeat split. }
    cbn [assign]. unfold hanser_zsize_set, bindM, numeric_set, numeric_fset.
    assert (G : forall o, o_attr o A_zres = Some zd -> (exists d, o_attr o A_zsize = Some d /\ as_int d = as_int v) ->
       ignore_attribute_error numeric (gen_zrange numeric) o = (Ok tt, mkObj (o_attr o) (gen_range (Some v) (Some zd)) (fun _ => None))).
    { intros o H1 (d & H2 & H3). unfold ignore_attribute_error, gen_zrange, bindM, getattr. rewrite H2. cbn [ret]. rewrite H1. cbn [ret]. unfold zrange_set, attribute_changed, bindM. cbn. now rewrite H3. }
    assert (A : forall w, isinstance w TInt = true -> (0 <= as_int w)%Z -> v = w -> exists o, 
      (let (r, o') := match numeric_decide (o_attr m A_zsize) TInt v with
                      | Ok true => (Ok tt, snd (attribute_changed numeric (snd (setattr numeric A_zsize v m))))
                      | Ok false => (Ok tt, m) | Err e => (Err e, m) end in
       match r with Ok _ => ignore_attribute_error numeric (gen_zrange numeric) o' | Err e => (Err e, o') end) = (Ok tt, o) /\
       hpar_of (obj_params o) = hpar_of (asked (obj_params m) (Some v) None)).
    { intros w Hw Hpos ->. unfold numeric_decide. rewrite Hw. cbn [negb].
      assert (L : py_lt w (VInt 0) = Ok false). { clear - Hw Hpos. destruct w as [z|b| | | | |]; try discriminate; [rewrite lt0_int; f_equal; cbn in Hpos; now apply Z.ltb_ge|]. destruct b; reflexivity. }
      rewrite L. cbn [bind]. rewrite Hnd. destruct (py_eq nd w) eqn:Eq; cbn [negb].
      - rewrite G by eauto using py_eq_int. eexists. split; [reflexivity|]. unfold obj_params, asked, hpar_of. cbn. rewrite Hzd. reflexivity.
      - rewrite G; cbn; [|exact Hzd|eauto]. eexists. split; [reflexivity|]. unfold obj_params, asked, hpar_of. cbn. rewrite Hzd. reflexivity. }
    destruct v as [z|b| | | | |]; cbn [refused_zsize]; try (eexists; reflexivity).
    all: try (apply (A (VBool b) eq_refl); [|reflexivity]; cbn; destruct b; lia).
    destruct (Z.ltb_spec z 0) as [Hlt|Hge].
    - unfold numeric_decide. cbn [isinstance negb]. assert (L : py_lt (VInt z) (VInt 0) = Ok true) by (rewrite lt0_int; f_equal; now apply Z.ltb_lt).
      rewrite L. eexists. reflexivity.
    - apply (A (VInt z) eq_refl); [cbn; lia|reflexivity]. }
  assert (RA : h_ready (asked (obj_params m) zs zr) = true).
  { pose proof (valid_ready m Hv) as HR. unfold h_ready in *. apply andb_prop in HR. destruct HR as [HR1 HR2]. apply andb_true_intro. split; [exact HR1|]. unfold asked. cbn [p_zrange]. destruct zr as [[]|]; auto. destruct zs; auto. change (p_zres (obj_params m)) with (o_attr m A_zres). rewrite Hzd. reflexivity. }
  destruct (refused_zsize zs) as [e|].
  - destruct S1 as [o Ho]. unfold bindM. rewrite Ho. reflexivity.
  - destruct S1 as (o & Ho & H1). unfold bindM at 1. rewrite Ho.
    assert (Vo : valid numeric Hanser o). { destruct zs as [v|]; [|injection Ho as <-; exact Hv]. pose proof (assign_valid numeric Hanser (SetNum A_zsize v) m Hv) as A. rewrite Ho in A. exact A. }
    assert (S2 : exists o2, (match zr with Some z => assign numeric Hanser (SetZrange z) | None => ret numeric tt end) o = (Ok tt, o2) /\
         hpar_of (obj_params o2) = hpar_of (asked (obj_params m) zs zr) /\ valid numeric Hanser o2).
    { destruct zr as [z|]; [|exists o; auto]. pose proof (assign_valid numeric Hanser (SetZrange z) o Vo) as A. cbn [assign] in *. unfold zrange_set, attribute_changed, bindM in *. cbn [snd] in A. eexists. split; [reflexivity|]. split; [|exact A].
      unfold hpar_of, asked, obj_params in *. cbn in *. injection H1 as -> -> -> -> -> _ -> ->. destruct z; reflexivity. }
    destruct S2 as (o2 & E2 & H3 & H4). unfold bindM at 1. rewrite E2.
    match goal with |- context [fst (?x o2)] => change (fst (x o2)) with (fst (bindM numeric (apply_pupil numeric q) (fun _ => read_PSFi numeric Hanser) o2)) end.
    rewrite run_tail. unfold psf_from. rewrite (scratch_zsize _ (asked (obj_params m) zs zr) q H3); [reflexivity|]. now rewrite RA, valid_ready.
Qed.

Section T.
Context (lstsq : list (list R) -> list R -> list R).
Notation after := (after lstsq). Notation act_on := (act_on lstsq). Notation reply := (reply lstsq).

Lemma after_app h1 h2 s : after (h1 ++ h2) s = after h2 (after h1 s).
Proof. apply fold_left_app. Qed.

(** What an act can change in the result object itself. *)
Lemma act_frame a s : let r := so_res s in let r' := so_res (act_on a s) in
  r_mse r' = r_mse r /\ r_pupil_diff r' = r_pupil_diff r /\ r_mse_diff r' = r_mse_diff r /\ r_r r' = r_r r /\ r_theta r' = r_theta r /\
  r_na r' = r_na r /\ r_wl r' = r_wl r /\
  r_model r' = run numeric Hanser (model_ops [a]) (r_model r) /\
  ((forall x, a <> SetMag x) -> r_mag r' = r_mag r) /\ ((forall x, a <> SetPhase x) -> r_phase r' = r_phase r).
Proof.
  assert (C : forall m, so_res (snd (call lstsq m s)) = so_res s).
  { intros [n| |? ? ?|? ? ? ?]; cbn; auto; [unfold x_fit; destruct (fit_to_zernikes _ _ _); reflexivity|]. unfold x_generate_zd_psf. destruct (so_zd s); [|reflexivity]. destruct (nth_error _ _); reflexivity. }
  cbv zeta. destruct a as [m|m []|x|x|x|k mc pc|k]; cbn [S_Result.act_on model_ops flat_map app]; rewrite ?C; cbn; repeat (split; [reflexivity|]); try (split; [|]); auto; try (intros H; exfalso; eapply H; reflexivity).
  all: match goal with |- context [if ?b then _ else _] => destruct b end; cbn; repeat (split; [reflexivity|]); auto.
Qed.

(** Whatever is done with the result, nothing but what the user assigns changes in it: the record of the iterations, the
    coordinates, na and wl stay; mag and phase stay unless assigned; and the model is exactly what the user's own
    operations on it make of it: no method touches it. *)
Theorem C103_methods_keep_the_result :
  forall (h : list act) (s : robj), let r := so_res s in let r' := so_res (after h s) in
  r_mse r' = r_mse r /\ r_pupil_diff r' = r_pupil_diff r /\ r_mse_diff r' = r_mse_diff r /\ r_r r' = r_r r /\ r_theta r' = r_theta r /\
  r_na r' = r_na r /\ r_wl r' = r_wl r /\
  r_model r' = run numeric Hanser (model_ops h) (r_model r) /\
  (arrays_kept h -> r_mag r' = r_mag r /\ r_phase r' = r_phase r).
Proof.
  induction h as [|a h IH]; intros s; cbv zeta; [cbn; repeat (split; [reflexivity|]); auto|].
  change (after (a :: h) s) with (after h (act_on a s)). destruct (act_frame a s) as (E1 & E2 & E3 & E4 & E5 & E6 & E7 & E8 & E9 & E10).
  destruct (IH (act_on a s)) as (F1 & F2 & F3 & F4 & F5 & F6 & F7 & F8 & F9).
  repeat (split; [congruence|]). split.
  - rewrite F8, E8. change (model_ops (a :: h)) with (model_ops ([a] ++ h)). unfold model_ops. rewrite flat_map_app. now rewrite run_app.
  - intros K. destruct F9 as [F9 F9'].
    + intros x. destruct (K x) as [K1 K2]. split; intros Hx; [apply K1|apply K2]; now right.
    + rewrite F9, F9'. split; [apply E9|apply E10]; intros x ->; [apply (proj1 (K x))|apply (proj2 (K x))]; now left.
Qed.

(** The property complex_pupil is mag * exp(i * phase) of the arrays the result has now, pixel by pixel. *)
Theorem C103_pupil_of_the_arrays :
  forall (h : list act) (s : robj), let r := so_res (after h s) in shape (r_phase r) = shape (r_mag r) ->
    exists P, reply Pupil (after h s) = Ok (GotPupil P) /\ shape P = shape (r_mag r) /\
      (forall ix, inb (shape (r_mag r)) ix ->
         get P ix = (get (r_mag r) ix * cos (get (r_phase r) ix), get (r_mag r) ix * sin (get (r_phase r) ix))) /\
      (arrays_kept h -> reply Pupil (after h s) = reply Pupil s).
Proof.
  intros h s r Hs. destruct (bop_eq (fun a b => Cmult (RtoC a) (cis b)) (r_mag r) (r_phase r) Hs) as (P & EP & SP & GP).
  exists P. split; [|split; [exact SP|split]].
  - unfold S_Result.reply, call, x_complex_pupil, complex_pupil. fold r. now rewrite EP.
  - intros ix Hix. rewrite GP by exact Hix. unfold Cmult, RtoC, cis. cbn. f_equal; ring.
  - intros K. destruct (C103_methods_keep_the_result h s) as (_ & _ & _ & _ & _ & _ & _ & _ & F). destruct (F K) as [F1 F2].
    unfold S_Result.reply, call, x_complex_pupil. cbn [fst]. now rewrite F1, F2.
Qed.

(** A fit reads only mag, phase and what was stored when the result was made: changing the model in between, fitting or
    generating anything before, changes nothing. *)
Theorem C103_fit_ignores_the_model :
  forall (h : list act) (s : robj) (n : Z), arrays_kept h ->
    fit_to_zernikes lstsq (so_res (after h s)) n = fit_to_zernikes lstsq (so_res s) n /\
    match fit_to_zernikes lstsq (so_res s) n with
    | Ok d => exists k, reply (Fit n) (after h s) = Ok (GotZD k) /\ nth_error (so_made (after (h ++ [Call (Fit n)]) s)) k = Some d
    | Err e => reply (Fit n) (after h s) = Err e
    end.
Proof.
  intros h s n K. destruct (C103_methods_keep_the_result h s) as (_ & _ & _ & F4 & F5 & F6 & F7 & _ & F9). destruct (F9 K) as [F8 F8'].
  assert (E : fit_to_zernikes lstsq (so_res (after h s)) n = fit_to_zernikes lstsq (so_res s) n) by (unfold fit_to_zernikes; now rewrite F4, F5, F6, F7, F8, F8').
  split; [exact E|]. destruct (fit_to_zernikes lstsq (so_res s) n) as [d|e] eqn:Ed.
  - exists (List.length (so_made (after h s))). rewrite after_app. cbn [S_Result.after fold_left]. unfold S_Result.reply, S_Result.act_on, call, x_fit. rewrite E. split; [reflexivity|]. cbn [snd so_made]. rewrite nth_error_app2, Nat.sub_diag by lia. reflexivity.
  - unfold S_Result.reply, call, x_fit. now rewrite E.
Qed.

(** ** Which decomposition is used *)
Lemma rewritten_spec k mc pc l : List.length (rewritten k mc pc l) = List.length l /\
  forall j, nth_error (rewritten k mc pc l) j = if (j =? k)%nat then option_map (fun d => mkZD mc pc (zd_zerns d)) (nth_error l j) else nth_error l j.
Proof.
  revert k. induction l as [|d l IH]; intros [|k].
  - split; [reflexivity|]. intros [|j]; cbn; [reflexivity|]. reflexivity.
  - split; [reflexivity|]. intros j. cbn. destruct (_ =? _)%nat, j; reflexivity.
  - split; [reflexivity|]. intros [|j]; reflexivity.
  - destruct (IH k) as [L N]. split; [cbn; now rewrite L|]. intros [|j]; [reflexivity|]. cbn. apply N.
Qed.
Lemma call_zd m s : (forall n, m <> Fit n) -> snd (call lstsq m s) = s.
Proof. intros H. destruct m as [n| | |]; cbn; auto; [now destruct (H n)|]. unfold x_generate_zd_psf. destruct (so_zd s); [|reflexivity]. destruct (nth_error _ _); reflexivity. Qed.
(** An act: either a fit is stored, or the list keeps its length and [so_zd] stays (or the user puts something). *)
Lemma act_zd a s : (forall k, a <> PutZD k) ->
  (forall n, a = Call (Fit n) \/ a = Cut (Fit n) true -> exists e, fit_to_zernikes lstsq (so_res s) n = Err e) ->
  so_zd (act_on a s) = so_zd s /\ List.length (so_made (act_on a s)) = List.length (so_made s) /\
  forall k, (forall mc pc, a <> EditZD k mc pc) -> nth_error (so_made (act_on a s)) k = nth_error (so_made s) k.
Proof.
  intros Hp Hf. assert (C : forall m, a = Call m \/ a = Cut m true -> snd (call lstsq m s) = s).
  { intros m Hm. destruct m as [n| | |]; try (apply call_zd; discriminate). destruct (Hf n Hm) as [e He]. cbn. unfold x_fit. now rewrite He. }
  destruct a as [m|m []|x|x|x|k mc pc|k]; cbn [S_Result.act_on]; try rewrite C by auto; cbn; auto.
  - destruct (rewritten_spec k mc pc (so_made s)) as [L N]. split; [reflexivity|]. split; [exact L|]. intros j Hj. rewrite N. destruct (Nat.eqb_spec j k) as [->|]; [|reflexivity]. now destruct (Hj mc pc).
  - now destruct (Hp k).
Qed.
Lemma no_fit_cons a h s : no_fit_stored lstsq (a :: h) s ->
  (forall n, a = Call (Fit n) \/ a = Cut (Fit n) true -> exists e, fit_to_zernikes lstsq (so_res s) n = Err e) /\ no_fit_stored lstsq h (act_on a s).
Proof.
  intros H. split.
  - intros n Hn. exact (H [] a h n eq_refl Hn).
  - intros h1 b h2 n -> Hb. exact (H (a :: h1) b h2 n eq_refl Hb).
Qed.
Lemma quiet_history h : forall s, puts_no_zd h -> no_fit_stored lstsq h s ->
  so_zd (after h s) = so_zd s /\ List.length (so_made (after h s)) = List.length (so_made s) /\
  forall k, (forall mc pc, ~ In (EditZD k mc pc) h) -> nth_error (so_made (after h s)) k = nth_error (so_made s) k.
Proof.
  induction h as [|a h IH]; intros s Hp Hf; [auto|]. destruct (no_fit_cons a h s Hf) as [H1 H2].
  destruct (act_zd a s) as (A1 & A2 & A3); [intros k ->; exact (Hp k (or_introl eq_refl))|exact H1|].
  change (after (a :: h) s) with (after h (act_on a s)). destruct (IH (act_on a s)) as (B1 & B2 & B3); [intros k Hk; exact (Hp k (or_intror Hk))|exact H2|].
  split; [congruence|]. split; [congruence|]. intros k Hk. rewrite B3; [apply A3; intros mc pc ->; exact (Hk mc pc (or_introl eq_refl))|intros mc pc Hi; exact (Hk mc pc (or_intror Hi))].
Qed.
(** Before the first fit that succeeds there is nothing to generate from: AttributeError, whatever was done and whatever
    the arguments. *)
Theorem C103_no_fit_yet :
  forall (h : list act) (r : result) sp size zs zr, no_fit_stored lstsq h (fresh_result r) ->
    reply (ZdPsf sp size zs zr) (after h (fresh_result r)) = Err AttributeError.
Proof.
  intros h r sp size zs zr Hf.
  assert (G : forall h s, so_zd s = None -> so_made s = [] -> no_fit_stored lstsq h s -> so_zd (after h s) = None).
  { clear. induction h as [|a h IH]; intros s H0 H1 Hf; [exact H0|]. destruct (no_fit_cons a h s Hf) as [F1 F2]. change (after (a :: h) s) with (after h (act_on a s)).
    assert (A : so_zd (act_on a s) = None /\ so_made (act_on a s) = []).
    { destruct (match a with PutZD k => true | _ => false end) eqn:Ea.
      - destruct a; try discriminate. cbn. rewrite H1. cbn. destruct (Nat.ltb_spec k 0); [lia|]. auto.
      - destruct (act_zd a s) as (A1 & A2 & _); [intros k ->; discriminate|exact F1|]. split; [congruence|]. apply length_zero_iff_nil. now rewrite A2, H1. }
    destruct A. now apply IH. }
  unfold S_Result.reply, call, x_generate_zd_psf. now rewrite (G h (fresh_result r) eq_refl eq_refl Hf).
Qed.
(** Afterwards the most recent fit that got as far as storing its decomposition counts, even if it was interrupted after
    that; fits that fail, or are interrupted earlier, and all other acts leave it in force.  The pixels then come from the
    result and model as they are now. *)
Theorem C103_latest_fit_counts :
  forall (h1 h2 : list act) (a : act) (n : Z) (d : decomposition) (s : robj) sp size zs zr,
    a = Call (Fit n) \/ a = Cut (Fit n) true -> fit_to_zernikes lstsq (so_res (after h1 s)) n = Ok d ->
    no_fit_stored lstsq h2 (after (h1 ++ [a]) s) -> puts_no_zd h2 ->
    (forall mc pc, ~ In (EditZD (List.length (so_made (after h1 s))) mc pc) h2) ->
    let s' := after (h1 ++ [a] ++ h2) s in
    reply (ZdPsf sp size zs zr) s' = on_ok GotPSF (generate_zd_psf (so_res s') d sp size zs zr).
Proof.
  intros h1 h2 a n d s sp size zs zr Ha Hd Hf Hp He. cbv zeta. rewrite app_assoc, after_app. set (s1 := after (h1 ++ [a]) s) in *.
  assert (S1 : so_zd s1 = Some (List.length (so_made (after h1 s))) /\ nth_error (so_made s1) (List.length (so_made (after h1 s))) = Some d).
  { unfold s1. rewrite after_app. cbn [S_Result.after fold_left].
    assert (E : act_on a (after h1 s) = mkRobj (so_res (after h1 s)) (so_made (after h1 s) ++ [d]) (Some (List.length (so_made (after h1 s))))).
    { destruct Ha as [-> | ->]; cbn [S_Result.act_on call]; unfold x_fit; now rewrite Hd. }
    rewrite E. cbn [so_zd so_made]. split; [reflexivity|]. now rewrite nth_error_app2, Nat.sub_diag by lia. }
  destruct S1 as [S1 S2]. destruct (quiet_history h2 s1 Hp Hf) as (Q1 & _ & Q3).
  unfold S_Result.reply, call, x_generate_zd_psf. rewrite Q1, S1, (Q3 _ He), S2. reflexivity.
Qed.
(** A decomposition the user holds is the user's: whatever else happens (later fits included), its numbers stay until the
    user writes into it. *)
Theorem C103_decompositions_are_kept :
  forall (h : list act) (s : robj) (k : nat) (d : decomposition), nth_error (so_made s) k = Some d ->
    (forall mc pc, ~ In (EditZD k mc pc) h) -> nth_error (so_made (after h s)) k = Some d.
Proof.
  induction h as [|a h IH]; intros s k d Hd He; [exact Hd|]. change (after (a :: h) s) with (after h (act_on a s)). apply IH; [|intros mc pc Hi; exact (He mc pc (or_intror Hi))].
  assert (C : forall m, nth_error (so_made (snd (call lstsq m s))) k = Some d).
  { intros m. destruct (match m with Fit _ => true | _ => false end) eqn:Em; [|rewrite call_zd; [exact Hd|intros n ->; discriminate]].
    destruct m; try discriminate. cbn. unfold x_fit. destruct (fit_to_zernikes _ _ _); [|exact Hd]. cbn. rewrite nth_error_app1; [exact Hd|]. apply nth_error_Some. congruence. }
  destruct a as [m|m []|x|x|x|j mc pc|j]; cbn [S_Result.act_on]; auto.
  - cbn. rewrite (proj2 (rewritten_spec j mc pc (so_made s))). destruct (Nat.eqb_spec k j) as [->|]; [|exact Hd]. destruct (He mc pc). now left.
  - match goal with |- context [if ?b then _ else _] => destruct b end; exact Hd.
Qed.
(** And it is the same object the result uses: coefficients written into the decomposition in force are used by the next
    generate_zd_psf, with its own modes. *)
Theorem C103_edits_are_seen :
  forall (s : robj) (k : nat) (d : decomposition) mc pc sp size zs zr, so_zd s = Some k -> nth_error (so_made s) k = Some d ->
    reply (ZdPsf sp size zs zr) (act_on (EditZD k mc pc) s) =
    on_ok GotPSF (generate_zd_psf (so_res s) (mkZD mc pc (zd_zerns d)) sp size zs zr).
Proof.
  intros s k d mc pc sp size zs zr Hk Hd. unfold S_Result.reply, call, x_generate_zd_psf. cbn [S_Result.act_on so_zd so_made so_res]. rewrite Hk, (proj2 (rewritten_spec k mc pc (so_made s))), Nat.eqb_refl, Hd. reflexivity.
Qed.

(** ** The pixels *)
(** The result of any call of retrieve_phase that returns, after any history: its model has all its attributes. *)
Lemma retrieved_valid u data params iters pt mt po r h : fst (retrieve_phase u data params iters pt mt po) = Ok r ->
  valid numeric Hanser (r_model (so_res (after h (fresh_result r)))).
Proof.
  intros H. destruct (retrieve_phase u data params iters pt mt po) as [x d'] eqn:E. cbn [fst] in H. subst x. apply retrieve_inv in E.
  destruct E as (nz & n & kk & model & pupil & Q & lines & o' & mg & ph & Hsh & Hk & -> & Hc & Hm & Hp & Hl & E1 & E2 & ->).
  assert (Ho : valid numeric Hanser o').
  { destruct (construct_ok numeric Hanser kk model Hm) as ((Vw & Vc & Vz) & _). destruct (loop_lines data (amap psqrt data) (amap Re pupil) pt mt po (Z.to_nat iters) _ _ _ _ _ _ _ ltac:(lia) Hl) as (new & _ & _ & [Sa Sz] & _).
    split; [|split]; [intros a v Hv|intros a|]. - apply Vw. now rewrite <- Sa. - rewrite Sa. apply Vc. - rewrite Sz. exact Vz. }
  destruct (C103_methods_keep_the_result h (fresh_result (mk_result mg ph lines o'))) as (_ & _ & _ & _ & _ & _ & _ & F8 & _). rewrite F8. cbn [so_res fresh_result r_model mk_result].
  generalize (model_ops h). clear - Ho. intros l. revert o' Ho. induction l as [|x l IH]; intros o Ho; [exact Ho|]. cbn. apply IH. now apply exec_valid.
Qed.
(** A generated PSF is computed from scratch, out of the arrays of the result (or decomposition) and the attributes the
    model has now, with the planes asked for: caches, pupils applied by the user and everything done before play no part. *)
Theorem C103_generated_from_scratch :
  forall u data params iters pt mt po r h, fst (retrieve_phase u data params iters pt mt po) = Ok r ->
  forall size zs zr,
    let s := after h (fresh_result r) in
    let now := obj_params (r_model (so_res s)) in
    (forall p, complex_pupil (r_mag (so_res s)) (r_phase (so_res s)) = Ok p ->
       reply (Psf size zs zr) s =
       match refused_zsize zs with Some e => Err e | None => on_ok GotPSF (psf_from (asked now zs zr) (ifftshift axes2 p) size) end) /\
    (forall k d sp p, so_zd s = Some k -> nth_error (so_made s) k = Some d -> zd_complex_pupil d full_slice sp = Ok p ->
       reply (ZdPsf sp size zs zr) s =
       match refused_zsize zs with Some e => Err e | None => on_ok GotPSF (psf_from (asked now zs zr) (ifftshift axes2 p) size) end).
Proof.
  intros u data params iters pt mt po r h Hr size zs zr. cbv zeta. pose proof (retrieved_valid _ _ _ _ _ _ _ _ h Hr) as V. split.
  - intros p Hp. unfold S_Result.reply, call, x_generate_psf, generate_psf. cbn [fst]. rewrite Hp. cbn [bind]. rewrite (generate_scratch p size zs zr _ V). destruct (refused_zsize zs); reflexivity.
  - intros k d sp p Hk Hd Hp. unfold S_Result.reply, call, x_generate_zd_psf, generate_zd_psf. rewrite Hk, Hd. cbn [fst]. rewrite Hp. cbn [bind]. rewrite (generate_scratch p size zs zr _ V). destruct (refused_zsize zs); reflexivity.
Qed.
(** So the answer is the one given right after the retrieval, as long as mag, phase and the attributes of the model are what
    they were then. *)
Theorem C103_same_answer_later :
  forall u data params iters pt mt po r h, fst (retrieve_phase u data params iters pt mt po) = Ok r -> arrays_kept h ->
    (forall a, o_attr (run numeric Hanser (model_ops h) (r_model r)) a = o_attr (r_model r) a) ->
    o_zrange (run numeric Hanser (model_ops h) (r_model r)) = o_zrange (r_model r) ->
    forall size zs zr, reply (Psf size zs zr) (after h (fresh_result r)) = reply (Psf size zs zr) (fresh_result r) /\
      reply Pupil (after h (fresh_result r)) = reply Pupil (fresh_result r).
Proof.
  intros u data params iters pt mt po r h Hr K Ha Hz size zs zr.
  destruct (C103_methods_keep_the_result h (fresh_result r)) as (_ & _ & _ & _ & _ & _ & _ & F8 & F9). destruct (F9 K) as [F10 F11]. cbn [so_res fresh_result] in *.
  split; [|unfold S_Result.reply, call, x_complex_pupil; cbn [fst so_res]; now rewrite F10, F11].
  unfold S_Result.reply, call, x_generate_psf, generate_psf. cbn [fst so_res fresh_result]. rewrite F10, F11. destruct (complex_pupil (r_mag r) (r_phase r)) as [p|e]; [|reflexivity]. cbn [bind].
  assert (V0 : valid numeric Hanser (r_model r)) by exact (retrieved_valid _ _ _ _ _ _ _ _ [] Hr).
  rewrite (generate_scratch p size zs zr _ (retrieved_valid _ _ _ _ _ _ _ _ h Hr)), (generate_scratch p size zs zr _ V0). rewrite F8.
  replace (obj_params (run numeric Hanser (model_ops h) (r_model r))) with (obj_params (r_model r)); [reflexivity|]. unfold obj_params. now rewrite !Ha, Hz.
Qed.
(** After the user has given the model another number of pixels, the pupil of the result no longer fits it: every
    generate_psf is refused (until size is put back), although the result still fits Zernike modes as before. *)
Theorem C103_another_size_is_refused :
  forall u data params nz n model iters pt mt po r h m size zs zr, unwraps u -> usable data params nz n model -> (1 <= iters)%Z ->
    fst (retrieve_phase u data params iters pt mt po) = Ok r -> arrays_kept h ->
    let now := run numeric Hanser (model_ops h) (r_model r) in
    o_attr now A_size = Some (VInt m) -> (2 <= m)%Z -> m <> n -> val_R (o_attr now A_wl) <> 0 -> val_R (o_attr now A_res) <> 0 ->
    refused_zsize zs = None ->
    reply (Psf size zs zr) (after h (fresh_result r)) = Err ValueError /\
    forall k, fit_to_zernikes lstsq (so_res (after h (fresh_result r))) k = fit_to_zernikes lstsq r k.
Proof.
  intros u data params nz n model iters pt mt po r h m size zs zr Hu Hus Hi Hr K. cbv zeta. intros Hm Hm2 Hmn Hw Hres Hzs.
  split; [|intros k; exact (proj1 (C103_fit_ignores_the_model h (fresh_result r) k K))].
  destruct (C103_methods_keep_the_result h (fresh_result r)) as (_ & _ & _ & _ & _ & _ & _ & F8 & F9). destruct (F9 K) as [F10 F11]. cbn [so_res fresh_result] in *.
  destruct (C47_support u data params nz n model pt mt po Hu Hus iters Hi) as (r' & Er' & Sm & Sp & _). rewrite Hr in Er'. injection Er' as <-.
  destruct (bop_eq (fun a b => Cmult (RtoC a) (cis b)) (r_mag r) (r_phase r)) as (p & Ep & Shp & _); [now rewrite Sm, Sp|].
  destruct (C103_generated_from_scratch u data params iters pt mt po r h Hr size zs zr) as [G _]. rewrite (G p), Hzs; [|unfold complex_pupil; now rewrite F10, F11].
  clear G. pose proof (retrieved_valid _ _ _ _ _ _ _ _ h Hr) as V. rewrite F8 in *. set (o := run numeric Hanser (model_ops h) (r_model r)) in *. clearbody o.
  assert (RA : h_ready (asked (obj_params o) zs zr) = true).
  { pose proof (valid_ready o V) as HR. unfold h_ready in *. apply andb_prop in HR. destruct HR as [HR1 HR2]. apply andb_true_intro. split; [exact HR1|]. unfold asked. cbn [p_zrange]. destruct zr as [[]|]; auto. destruct zs; auto. change (p_zres (obj_params o)) with (o_attr o A_zres). destruct V as [_ [Hc _]]. specialize (Hc A_zres eq_refl). destruct (o_attr o A_zres); [reflexivity|congruence]. }
  unfold psf_from, scratch, scratch_PSFa. 
  assert (EG : M_Hanser.gen_psf (hpar_of (asked (obj_params o) zs zr)) (Some (ifftshift axes2 p)) = Err ValueError).
  { unfold M_Hanser.gen_psf, hpar_of. cbn [h_size h_res h_wl asked p_wl p_res p_size obj_params]. rewrite Hm. cbn [val_Z].
    assert (Nm : IZR (as_int (VInt m)) <> 0) by (apply not_0_IZR; cbn; lia).
    destruct (Req_EM_T _ 0) as [E0|_]; [exfalso; apply Rmult_integral in E0; destruct E0; contradiction|].
    destruct (Req_EM_T _ 0) as [E0|_]; [contradiction|].
    change (shape (ifftshift axes2 p)) with (shape p). rewrite Shp, Sm. unfold bdim. cbn [as_int]. destruct (Z.eqb_spec n m); [lia|]. destruct Hus as (_ & _ & Hn2 & _). destruct (Z.eqb_spec n 1); [lia|]. destruct (Z.eqb_spec m 1); [lia|]. reflexivity. }
  cbn [e_gen_psf numeric]. rewrite RA, EG. reflexivity.
Qed.
End T.
Print Assumptions C103_methods_keep_the_result. Print Assumptions C103_fit_ignores_the_model. Print Assumptions C103_no_fit_yet. Print Assumptions C103_pupil_of_the_arrays.
Print Assumptions C103_latest_fit_counts. Print Assumptions C103_decompositions_are_kept. Print Assumptions C103_edits_are_seen.
Print Assumptions C103_generated_from_scratch. Print Assumptions C103_same_answer_later. Print Assumptions C103_another_size_is_refused.

(** ** The hypotheses are met *)
(** The witness of C51 (data of 7 planes of 64 x 64 pixels): three modes are fitted, the user then makes the model 32 pixels
    wide and is interrupted in a fit: the fit stays in force, and generate_psf is refused. *)
Definition wlife : list act := [Call (Fit 3); OnModel (Assign numeric (SetNum A_size (VInt 32))); Cut (Fit 5) false; Call Pupil].
Example C103_case : forall lstsq, least_squares lstsq ->
  exists r d, fst (retrieve_phase (fun a => a) wdata wdict 4 TolNever TolNever false) = Ok r /\
    fit_to_zernikes lstsq r 3 = Ok d /\ arrays_kept wlife /\
    S_Result.reply lstsq (ZdPsf default_sphase None None None) (fresh_result r) = Err AttributeError /\
    so_zd (S_Result.after lstsq wlife (fresh_result r)) = Some 0%nat /\
    nth_error (so_made (S_Result.after lstsq wlife (fresh_result r))) 0 = Some d /\
    S_Result.reply lstsq (Psf None None None) (S_Result.after lstsq wlife (fresh_result r)) = Err ValueError.
Proof.
  intros lstsq Hl.
  destruct (C47_support (fun a => a) wdata wdict 7 64 (wmade numeric) TolNever TolNever false unwraps_witness usable_witness 4 ltac:(lia)) as (r & Er & _).
  destruct independent_witness as [_ Hna].
  destruct (C51_least_squares (fun a => a) wdata wdict 7 64 (wmade numeric) TolNever TolNever false lstsq unwraps_witness usable_witness Hna Hl 4 r 3%nat ltac:(lia) Er ltac:(lia)) as (d & Ed & _).
  change (Z.of_nat 3) with 3%Z in Ed.
  assert (K : arrays_kept wlife) by (intros a; split; intros [H|[H|[H|[H|[]]]]]; discriminate).
  exists r, d. split; [exact Er|]. split; [exact Ed|]. split; [exact K|]. split; [reflexivity|].
  assert (S1 : act_on lstsq (Call (Fit 3)) (fresh_result r) = mkRobj r [d] (Some 0%nat)) by (cbn [act_on call]; unfold x_fit; cbn [so_res fresh_result so_made]; now rewrite Ed).
  assert (S : so_zd (S_Result.after lstsq wlife (fresh_result r)) = Some 0%nat /\ nth_error (so_made (S_Result.after lstsq wlife (fresh_result r))) 0 = Some d).
  { unfold S_Result.after, wlife. cbn [fold_left]. rewrite S1. split; reflexivity. }
  split; [apply S|]. split; [apply S|].
  destruct (retrieve_phase (fun a => a) wdata wdict 4 TolNever TolNever false) as [x d'] eqn:E. cbn [fst] in Er. subst x.
  destruct (C49_model_parameters (fun a => a) wdata wdict 4 TolNever TolNever false 7 64 r d' eq_refl E) as (_ & _ & As & _ & Ak & _).
  destruct (Ak "wl"%string A_wl ltac:(cbn; auto)) as (v1 & D1 & V1). cbn in D1. injection D1 as <-.
  destruct (Ak "res"%string A_res ltac:(cbn; auto)) as (v2 & D2 & V2). cbn in D2. injection D2 as <-.
  refine (proj1 (C103_another_size_is_refused lstsq (fun a => a) wdata wdict 7 64 (wmade numeric) 4 TolNever TolNever false r wlife 32 None None None unwraps_witness usable_witness ltac:(lia) _ K _ _ _ _ _ eq_refl)); [now rewrite E| |lia|lia| |].
  all: unfold wlife; cbn [model_ops flat_map app run exec assign]; unfold numeric_set, numeric_fset; rewrite As; cbn; rewrite ?V1, ?V2; cbn; try reflexivity; unfold Q2R; cbn; lra.
Qed.
