(** Properties of programs with several PSF objects (pyotf/otf.py:589-696, phaseretrieval.py:202-224): C29. *)
From Verif Require Import M_Heap S_Heap L_Heap T_PSF.

Section T.
Context (E : engine).

(** Whatever a program does with any number of objects, each object ends up exactly as if only the operations
    addressed to it had been performed, on it alone. *)
Theorem C29_objects_are_independent :
  forall (H : heap E) (h : list (step E)) (l : nat) (c : cls) (o : obj E),
    wf E H -> legal E H h -> view E H l = Some o -> class_of E H l = Some c ->
    wf E (prog E h H) /\ view E (prog E h H) l = Some (run E c (own_ops E l h H) o).
Proof. intros H h l c o W L V Cl. destruct (prog_view E h H l c o W L V Cl) as (A & _ & _ & B & _). auto. Qed.

(** In particular a model given to the aberration helpers, copied, or used to generate PSFs is not touched, nor is it by
    anything done to the results later: its __dict__ holds the same references and the arrays behind them are the same. *)
Theorem C29_given_model_untouched :
  forall (H : heap E) (h : list (step E)) (l : nat) (d : hobj),
    wf E H -> legal E H h -> nth_error (hp_obj E H) l = Some d ->
    (forall x, In x h -> match x with SAssign _ l' _ | SRead _ l' _ | SApply _ l' _ => l' <> l | _ => True end) ->
    nth_error (hp_obj E (prog E h H)) l = Some d /\
    (forall s r, ho_cache d s = Some r -> nth_error (hp_arr E (prog E h H)) r = nth_error (hp_arr E H) r) /\
    (forall r, ho_zrange d = Some r -> nth_error (hp_rng E (prog E h H)) r = nth_error (hp_rng E H) r) /\
    view E (prog E h H) l = view E H l.
Proof.
  intros H h l d W L Hd Hn.
  assert (exists o c, view E H l = Some o /\ class_of E H l = Some c) as (o & c & V & Cl) by (unfold view, class_of; rewrite Hd; cbn; eauto).
  destruct (prog_view E h H l c o W L V Cl) as (A & G & B & V' & N).
  assert (N' : nth_error (hp_obj E (prog E h H)) l = nth_error (hp_obj E H) l).
  { apply N. intros x Hx. specialize (Hn x Hx). destruct x; cbn; auto. }
  destruct (W l d Hd) as [O1 O2].
  split; [congruence|]. split; [|split].
  - intros s r Hr. specialize (O2 s r Hr). destruct (nth_error (hp_arr E H) r) as [x|] eqn:Ex; [eapply grows_arr; eauto|]. apply nth_error_None in Ex. lia.
  - intros r Hr. destruct (O1 r Hr) as [xs Hx]. rewrite Hx. now apply G.
  - now apply view_grows.
Qed.

(** What the helpers return: a new object that is the given one with the computed pupil applied (or an exact copy when
    both coefficient arguments are None), or the exception of the computation; a SheppardPSF is refused. *)
Theorem C29_returned_model :
  forall (H : heap E) (l : nat) (ab : params -> res (option (pupil E))) (o : obj E) (c : cls),
    wf E H -> view E H l = Some o -> class_of E H l = Some c ->
    let '(r, H') := h_aberrate E ab l H in
    match c with
    | Sheppard => r = Err AssertionError /\ H' = H
    | Hanser =>
        match ab (obj_params o) with
        | Err e => r = Err e
        | Ok None => exists m, r = Ok m /\ (m >= List.length (hp_obj E H))%nat /\ view E H' m = Some o
        | Ok (Some p) =>
            match apply_pupil E p o with
            | (Err e, _) => r = Err e
            | (Ok _, o') => exists m, r = Ok m /\ (m >= List.length (hp_obj E H))%nat /\ view E H' m = Some o'
            end
        end
    end.
Proof.
  intros H l ab o c W V Cl. destruct (view_dict' E H l o V) as (d & Hd & ->).
  assert (Ec : ho_cls d = c) by (unfold class_of in Cl; rewrite Hd in Cl; now injection Cl).
  unfold h_aberrate. rewrite (bind_ok E _ _ H (ho_cls d) H) by (unfold h_cls, hbind, dict; now rewrite Hd). rewrite Ec.
  destruct c; [|split; reflexivity].
  rewrite (bind_ok E _ _ H _ _ (copy_eq E H l d Hd)). set (m := List.length (hp_obj E H)). set (H1 := with_new E H d).
  destruct (new_spec E H d W (W l d Hd)) as (W1 & G1 & N1). fold m H1 in N1, G1, W1.
  assert (V1 : view E H1 m = Some (view_of E H d)) by (unfold view; rewrite N1; reflexivity).
  rewrite (bind_ok E _ _ H1 _ _ (params_val E m H1 _ V1)). unfold hbind at 1, hlift. destruct (ab (obj_params (view_of E H d))) as [[p|]|e]; [| |reflexivity].
  - pose proof (sim_apply E m (top E) p H1 _ W1 V1 I) as S. cbv zeta in S. unfold hbind. destruct (h_apply_pupil E m p H1) as [[[]|e] H2], (apply_pupil E p (view_of E H d)) as [[[]|e'] o']; cbn [fst snd] in S; destruct S as (W2 & L2 & V2 & X); try contradiction.
    + cbn. exists m. auto.
    + congruence.
  - cbn. exists m. auto.
Qed.

(** The aberrated model shares no cached array with the model it was made from, only the z range array. *)
Theorem C29_shares_only_zrange :
  forall (H : heap E) (l : nat) (ab : params -> res (option (pupil E))) (d : hobj) (m : nat) (H' : heap E),
    wf E H -> nth_error (hp_obj E H) l = Some d -> h_aberrate E ab l H = (Ok m, H') ->
    exists d', nth_error (hp_obj E H') m = Some d' /\ ho_cls d' = ho_cls d /\ ho_zrange d' = ho_zrange d /\
      ((exists p, ab (obj_params (view_of E H d)) = Ok (Some p)) ->
       forall s r, ho_cache d' s = Some r -> (List.length (hp_arr E H) <= r)%nat).
Proof.
  intros H l ab d m H' W Hd. unfold h_aberrate. rewrite (bind_ok E _ _ H (ho_cls d) H) by (unfold h_cls, hbind, dict; now rewrite Hd).
  destruct (ho_cls d) eqn:Ec; [|discriminate].
  rewrite (bind_ok E _ _ H _ _ (copy_eq E H l d Hd)). set (m0 := List.length (hp_obj E H)). set (H1 := with_new E H d).
  destruct (new_spec E H d W (W l d Hd)) as (W1 & G1 & N1). fold m0 H1 in N1, G1, W1.
  assert (V1 : view E H1 m0 = Some (view_of E H d)) by (unfold view; rewrite N1; reflexivity).
  rewrite (bind_ok E _ _ H1 _ _ (params_val E m0 H1 _ V1)). unfold hbind at 1, hlift. destruct (ab (obj_params (view_of E H d))) as [[p|]|e]; [| |discriminate].
  - assert (Hl : (m0 < List.length (hp_obj E H1))%nat) by (apply nth_error_Some; congruence).
    unfold h_apply_pupil, h_gen_psf, h_changed, h_set_cache, hbind, dict, update. rewrite N1. cbn [hp_obj hp_rng hp_arr]. rewrite nth_replace_same by auto. cbn [hp_obj hp_rng hp_arr].
    unfold h_params. cbn [hp_obj hp_rng hp_arr]. rewrite nth_replace_same by (rewrite replace_length; auto). unfold hlift. cbn [ho_attr ho_zrange ho_cls ho_cache].
    match goal with |- context [e_gen_psf E ?P ?q] => destruct (e_gen_psf E P q) as [a|e] end; [|discriminate].
    cbn [alloc_arr hp_obj hp_rng hp_arr]. rewrite nth_replace_same by (rewrite !replace_length; auto). cbn. intros [= <- <-]. cbn [hp_obj].
    rewrite nth_replace_same by (rewrite !replace_length; auto). eexists. split; [reflexivity|]. cbn. split; [congruence|]. split; [reflexivity|]. intros _ s r. destruct s; cbn; try discriminate. intros [= <-]. auto.
  - cbn. intros [= <- <-]. exists d. split; [exact N1|]. split; [congruence|]. split; [reflexivity|]. intros [p Hp]. discriminate.
Qed.

(** PhaseRetrievalResult.generate_psf / generate_zd_psf: the returned array is PSFi of the retrieved model with the new
    planes and the pupil, computed on a throw-away copy. *)
Definition opt_assign (s : option assignment) : M E unit := match s with Some a => assign E Hanser a | None => ret E tt end.
Theorem C29_generated_psf :
  forall (H : heap E) (l : nat) (p : pupil E) (zs : option pyval) (zr : option zarg) (o : obj E),
    wf E H -> view E H l = Some o -> (forall z, zr = Some z -> zarg_ok E H z) ->
    let '(r, H') := h_generate E p zs zr l H in
    let value := bindM E (opt_assign (option_map (SetNum A_zsize) zs)) (fun _ =>
                 bindM E (opt_assign (option_map (fun z => as_value E H (HSetZrange z)) zr)) (fun _ =>
                 bindM E (apply_pupil E p) (fun _ => read_PSFi E Hanser))) o in
    match fst value with
    | Ok x => exists ref, r = Ok ref /\ nth_error (hp_arr E H') ref = Some x
    | Err e => r = Err e
    end.
Proof.
  intros H l p zs zr o W V Kz. destruct (view_dict' E H l o V) as (d & Hd & ->). unfold h_generate.
  rewrite (bind_ok E _ _ H _ _ (copy_eq E H l d Hd)). set (m := List.length (hp_obj E H)). set (H1 := with_new E H d).
  destruct (new_spec E H d W (W l d Hd)) as (W1 & G1 & N1). fold m H1 in N1, G1, W1.
  assert (V1 : view E H1 m = Some (view_of E H d)) by (unfold view; rewrite N1; reflexivity).
  set (zv := option_map (fun z => as_value E H (HSetZrange z)) zr).
  (* the value of the zrange argument cannot be changed by the assignment of zsize, which only adds a range *)
  assert (S1 : sim E m (fun H' => H' = H1) (match zs with Some v => h_assign E m Hanser (HSetNum A_zsize v) | None => hret E tt end)
                 (opt_assign (option_map (SetNum A_zsize) zs)) (fun H' _ _ => forall z, zr = Some z -> zarg_ok E H' z /\ as_value E H' (HSetZrange z) = as_value E H (HSetZrange z))).
  { intros H' o' W' V' ->.
    assert (B0 : forall z, zr = Some z -> zarg_ok E H1 z /\ as_value E H1 (HSetZrange z) = as_value E H (HSetZrange z)).
    { intros z Hz. split; [exact (Kz z Hz)|]. reflexivity. }
    destruct zs as [v|]; cbn [option_map opt_assign].
    2:{ split; [exact W'|]. split; [apply local_refl|]. split; [exact V'|]. exact B0. }
    pose proof (sim_assign_num E m (top E) Hanser A_zsize v H1 o' W' V' I) as S. cbv zeta in S |- *.
    destruct S as (SW & SL & SV & SX). split; [exact SW|]. split; [exact SL|]. split; [exact SV|].
    assert (Q : exists t, hp_rng E (snd (h_assign E m Hanser (HSetNum A_zsize v) H1)) = hp_rng E H1 ++ t).
    { clear - N1 W1. cbn [h_assign]. unfold h_hanser_zsize_set. unfold hbind at 1. rewrite (numeric_eq E m A_zsize TInt v H1 d N1).
      assert (Hl : (m < List.length (hp_obj E H1))%nat) by (apply nth_error_Some; congruence).
      assert (GZ : forall H2 d2, (m < List.length (hp_obj E H2))%nat -> nth_error (hp_obj E H2) m = Some d2 -> exists t, hp_rng E (snd (h_ignore E (h_gen_zrange E m) H2)) = hp_rng E H2 ++ t).
      { clear. intros H2 d2 Hl Hd2. unfold h_ignore, h_gen_zrange, h_getattr. unfold hbind at 1 2. unfold dict at 1. rewrite Hd2.
        destruct (ho_attr d2 A_zsize) as [zs|]; [|cbn; exists []; now rewrite app_nil_r]. cbn [hret hraise fst snd].
        unfold hbind at 1 2. unfold dict at 1. rewrite Hd2. destruct (ho_attr d2 A_zres) as [zr|]; [|cbn; exists []; now rewrite app_nil_r]. cbn [hret hraise fst snd].
        unfold h_zrange_set, asarray, alloc_rng, hbind, dict, update. cbn [hp_obj hp_rng hp_arr]. rewrite Hd2. cbn [hp_obj hp_rng hp_arr].
        rewrite nth_error_app2, Nat.sub_diag by lia. cbn [nth_error]. unfold h_changed, hbind, dict, update. cbn [hp_obj hp_rng hp_arr]. rewrite nth_replace_same by auto. cbn. eexists. reflexivity. }
      destruct (numeric_decide (ho_attr d A_zsize) TInt v) as [[|]|e].
      - unfold h_setattr, h_changed, hbind, dict, update. rewrite N1. cbn [hp_obj hp_rng hp_arr]. rewrite nth_replace_same by auto. cbn [hp_obj hp_rng hp_arr].
        edestruct GZ as [t Ht]; [| |exists t; exact Ht]; cbn [hp_obj]; [now rewrite !replace_length|]. rewrite nth_replace_same by now rewrite replace_length. reflexivity.
      - eapply GZ; eauto.
      - exists []. cbn. now rewrite app_nil_r. }
    assert (BZ : forall z, zr = Some z -> zarg_ok E (snd (h_assign E m Hanser (HSetNum A_zsize v) H1)) z /\ as_value E (snd (h_assign E m Hanser (HSetNum A_zsize v) H1)) (HSetZrange z) = as_value E H (HSetZrange z)).
    { intros z Hz. destruct (B0 z Hz) as [B1 B2]. destruct Q as [t Ht]. destruct z as [w|r]; [auto|]. unfold zarg_ok, as_value in *. rewrite Ht, app_length, nth_error_app1 by exact B1. split; [unfold H1 in B1; cbn in *; lia|reflexivity]. }
    destruct (fst (h_assign E m Hanser (HSetNum A_zsize v) H1)) as [[]|e], (fst (assign E Hanser (SetNum A_zsize v) o')) as [[]|e']; auto. }
  assert (S2' : sim E m (fun H' => forall z, zr = Some z -> zarg_ok E H' z /\ as_value E H' (HSetZrange z) = as_value E H (HSetZrange z))
                 (match zr with Some z => h_assign E m Hanser (HSetZrange z) | None => hret E tt end) (opt_assign zv) (@same E unit)).
  { unfold zv. destruct zr as [z|]; cbn [option_map opt_assign].
    - eapply sim_weaken; [|apply (sim_assign E m Hanser (HSetZrange z))]. intros H' K. destruct (K z eq_refl) as [K1 K2]. split; [intros z' [= <-]; exact K1|exact K2].
    - apply sim_ret. reflexivity. }
  assert (S : sim E m (fun H' => H' = H1) (hbind E (match zs with Some v => h_assign E m Hanser (HSetNum A_zsize v) | None => hret E tt end) (fun _ =>
                hbind E (match zr with Some z => h_assign E m Hanser (HSetZrange z) | None => hret E tt end) (fun _ =>
                hbind E (h_apply_pupil E m p) (fun _ => h_read_PSFi E m Hanser))))
              (bindM E (opt_assign (option_map (SetNum A_zsize) zs)) (fun _ => bindM E (opt_assign zv) (fun _ => bindM E (apply_pupil E p) (fun _ => read_PSFi E Hanser)))) (is_ref E)).
  { eapply sim_bind; [exact S1|]. intros [] []. eapply sim_bind; [exact S2'|]. intros [] []. apply sim_seq; [apply sim_apply|]. intros _. exact (sim_read E m (top E) Hanser PSFi). }
  specialize (S H1 _ W1 V1 eq_refl). cbv zeta in S. destruct S as (_ & _ & _ & X).
  match goal with |- context [hbind E ?a ?b H1] => destruct (hbind E a b H1) as [r H2] eqn:EH end. cbn [fst snd] in X. fold zv.
  match goal with |- match fst ?v with _ => _ end => destruct (fst v) as [x|e] end; destruct r as [ref|e']; try contradiction; [eauto|congruence].
Qed.
End T.
Print Assumptions C29_objects_are_independent. Print Assumptions C29_given_model_untouched. Print Assumptions C29_returned_model. Print Assumptions C29_shares_only_zrange. Print Assumptions C29_generated_psf.

(** ** What sharing does allow: writes by the caller *)
Section Alias.
Context (E : engine).
(** A write into a z range array through any reference the caller holds changes exactly the objects that hold it. *)
Theorem C29_caller_writes :
  forall (H : heap E) (r : nat) (xs : list fl) (l : nat) (d : hobj),
    wf E H -> nth_error (hp_obj E H) l = Some d -> (r < List.length (hp_rng E H))%nat ->
    let H' := snd (write_rng E r (R1 xs) H) in
    (ho_zrange d <> Some r -> view E H' l = view E H l) /\
    (ho_zrange d = Some r -> exists o o', view E H l = Some o /\ view E H' l = Some o' /\
       o_zrange o' = Some xs /\ o_attr o' = o_attr o /\ o_cache o' = o_cache o).
Proof.
  intros H r xs l d W Hd Hr. cbn. unfold view. cbn [hp_obj hp_rng hp_arr]. rewrite Hd. split.
  - intros Hne. do 2 f_equal. unfold deref_rng. cbn [hp_rng]. destruct (ho_zrange d) as [r'|]; [|reflexivity]. rewrite nth_replace_other by congruence. reflexivity.
  - intros ->. do 2 eexists. split; [reflexivity|]. split; [reflexivity|]. cbn. unfold deref_rng. cbn [hp_rng]. rewrite nth_replace_same by auto. repeat split.
Qed.
(** The z range argument itself: an array is stored, not copied (so the object follows later writes into it without
    noticing), and a 0-dimensional array is reshaped under the caller's hands. *)
Theorem C29_zrange_argument_is_aliased :
  forall (H : heap E) (l r : nat) (d : hobj) (c : rng),
    wf E H -> nth_error (hp_obj E H) l = Some d -> nth_error (hp_rng E H) r = Some c ->
    exists H' d', h_zrange_set E l (ZRef r) H = (Ok tt, H') /\ nth_error (hp_obj E H') l = Some d' /\ ho_zrange d' = Some r /\
      nth_error (hp_rng E H') r = Some (R1 match c with R0 x => [x] | R1 xs => xs end).
Proof.
  intros H l r d c W Hd Hc. assert (Hl : (l < List.length (hp_obj E H))%nat) by (apply nth_error_Some; congruence).
  assert (Hr : (r < List.length (hp_rng E H))%nat) by (apply nth_error_Some; congruence).
  unfold h_zrange_set, asarray, hret, hbind, dict, update, h_changed, write_rng. rewrite Hd. cbn [hp_obj hp_rng hp_arr]. rewrite Hc.
  destruct c as [x|xs]; unfold hbind, dict, update; cbn [hp_obj hp_rng hp_arr]; rewrite nth_replace_same by auto; do 2 eexists; (split; [reflexivity|]); cbn [hp_obj hp_rng hp_arr];
    rewrite !nth_replace_same by (rewrite ?replace_length; auto); auto.
Qed.
End Alias.
Print Assumptions C29_caller_writes. Print Assumptions C29_zrange_argument_is_aliased.

(** A program that constructs an object, reads from it, aberrates it and works on the result. *)
Definition H0 : heap toy := mkHeap toy [] [] [].
Definition demo : list (step toy) :=
  [SConstruct toy Hanser (kw Hanser) None; SRead toy 0 PSFi; SAberrate toy 0 (fun _ => Ok (Some 7)); SRead toy 1 OTFi;
   SAssign toy 1 (HSetNum A_wl (VInt 600)); SAssign toy 1 (HSetNum A_zsize (VInt 3)); SCopy toy 0; SApply toy 2 8].
Lemma wf0 : wf toy H0. Proof. intros [|l] o; discriminate. Qed.
Lemma demo_legal : legal toy H0 demo.
Proof.
  unfold demo. repeat (apply legal_cons; [|]); try apply legal_nil; cbn [legal_step].
  all: try (vm_compute; lia). all: try (intros ? [=]). all: try (split; [vm_compute; lia|intros ? [=]]). vm_compute. reflexivity.
Qed.
(** The hypotheses hold for the program's final heap, in which three different objects exist. *)
Example C29_witness :
  let H := prog toy demo H0 in
  wf toy H /\ List.length (hp_obj toy H) = 3%nat /\
  (exists o0 o1 o2, view toy H 0 = Some o0 /\ view toy H 1 = Some o1 /\ view toy H 2 = Some o2 /\
     o_attr o0 A_wl = Some (VInt 520) /\ o_attr o1 A_wl = Some (VInt 600) /\ o_cache o0 PSFi <> None /\ o_cache o1 PSFa = None /\ o_cache o2 PSFa <> o_cache o0 PSFa).
Proof.
  cbv zeta. split; [apply prog_wf; [exact wf0|exact demo_legal]|]. split; [vm_compute; reflexivity|].
  do 3 eexists. repeat (split; [vm_compute; reflexivity|]). split; [vm_compute; discriminate|]. split; [vm_compute; reflexivity|]. vm_compute. discriminate.
Qed.
(** "The returned model is independent" fails for writes into the shared z range array: after aberrating, a write into
    [copy.zrange] moves the planes of the original, whose cached PSF stays what it was. *)
Theorem C29_independent_under_writes_refuted :
  exists (h : list (step toy)) (r : nat) (xs : list fl) (d0 d1 : hobj) (o o' : obj toy),
    let H := prog toy h H0 in
    legal toy H0 h /\ nth_error (hp_obj toy H) 0 = Some d0 /\ nth_error (hp_obj toy H) 1 = Some d1 /\
    ho_zrange d1 = Some r /\ view toy H 0 = Some o /\ view toy (snd (write_rng toy r (R1 xs) H)) 0 = Some o' /\
    o_zrange o' <> o_zrange o /\ o_cache o' PSFa = o_cache o PSFa /\ o_cache o PSFa <> None.
Proof.
  exists [SConstruct toy Hanser (kw Hanser) None; SRead toy 0 PSFi; SAberrate toy 0 (fun _ => Ok (Some 7))], 1%nat, [FFin 5].
  do 4 eexists. cbv zeta. split.
  { repeat (apply legal_cons; [|]); try apply legal_nil; cbn [legal_step]; try (vm_compute; lia). intros ? [=]. }
  repeat (split; [vm_compute; reflexivity|]). split; [vm_compute; discriminate|]. split; [vm_compute; reflexivity|]. vm_compute. discriminate.
Qed.
Print Assumptions C29_independent_under_writes_refuted.
