(** The objects and the numbers together: what a PSF object of either class, after any history, reads as; and what the
    aberration functions return.  pyotf/otf.py as a whole. *)
From Coq Require Import String FunctionalExtensionality.
From Verif Require Import M_Aberr S_Aberr S_Heap L_Array L_Sum L_PSF L_Heap T_PSF T_Heap T_Hanser L_Hanser4 L_Aberr L_Aberr2 T_Aberr.
Import M_Array.
Local Open Scope R_scope.

(** Equal arrays: the same shape, the same values at every position. *)
Lemma psfi_numeric (A : array C) : e_sumsq numeric (amap Some A) = amap (fun r => Some (RtoC r)) (sumsq A).
Proof.
  cbn [numeric e_sumsq]. unfold s_psfi, sumsq, amap. cbn [shape get]. f_equal. apply functional_extensionality. intros ix.
  assert (F : forall l : list Z, forallb (fun c => is_some (Some (get A (c :: ix)))) l = true) by (induction l; auto). rewrite F. reflexivity.
Qed.
Lemma otfi_numeric (B : array R) : e_fft numeric (amap (fun r => Some (RtoC r)) B) = amap Some (otfi_of B).
Proof.
  change (o_fft (amap (fun r => Some (RtoC r)) B) = amap Some (otfi_of B)).
  assert (F : finite_all (amap (fun r => Some (RtoC r)) B) = true) by (unfold finite_all; apply forallb_forall; reflexivity).
  unfold o_fft. rewrite F. reflexivity.
Qed.
Lemma otfa_numeric (A : array C) : (1 <= List.length (shape A))%nat -> arr_eq (e_fft3 numeric (amap Some A)) (amap Some (otfa_of A)).
Proof.
  intros Hl. split; [reflexivity|]. cbn [numeric e_fft3 o_fft3 shape amap get]. intros ix Hix. destruct ix as [|c ix].
  { inversion Hix as [E|]. cbn in E. rewrite <- E in Hl. cbn in Hl. lia. }
  replace (forallb _ _) with true by (symmetry; apply forallb_forall; reflexivity). reflexivity.
Qed.
(** The numbers an object of class HanserPSF shows when its amplitude is [A]. *)
Definition shows (o : obj numeric) (A : array C) : Prop :=
  fst (read numeric Hanser PSFa o) = Ok (amap Some A) /\
  fst (read numeric Hanser PSFi o) = Ok (amap (fun r => Some (RtoC r)) (sumsq A)) /\
  fst (read numeric Hanser OTFi o) = Ok (amap Some (otfi_of (sumsq A))) /\
  exists B, fst (read numeric Hanser OTFa o) = Ok B /\ arr_eq B (amap Some (otfa_of A)).
Lemma psfa_shape h g A : M_Hanser.gen_psf h g = Ok A -> (1 <= List.length (shape A))%nat.
Proof.
  unfold M_Hanser.gen_psf. destruct (Req_EM_T _ _); [discriminate|]. destruct (Req_EM_T _ _); [discriminate|]. destruct g as [P|]; [|intros [= <-]; cbn; lia].
  destruct (shape P) as [|a [|b [|? ?]]]; try discriminate. destruct (bdim a _); cbn [bind]; [|discriminate]. destruct (bdim b _); cbn [bind]; [|discriminate]. intros [= <-]. cbn. lia.
Qed.
(** ** C73: after any history of assignments, reads and applied pupils, a HanserPSF shows exactly the numbers computed from
    its current attributes (and the pupil in force): so everything proved of gen_psf (C30 - C36, C68, C70 - C72) holds of
    every object a program can reach. *)
Theorem C73_hanser_objects :
  forall (k : ctor) (o0 : obj numeric) (hist : list (op numeric)) (A : array C),
    construct numeric Hanser k = Ok o0 ->
    let o := run numeric Hanser hist o0 in
    M_Hanser.gen_psf (hpar_of (obj_params o)) (in_force numeric Hanser hist o0 None) = Ok A -> shows o A.
Proof.
  intros k o0 hist A Hk o HA.
  assert (R : h_ready (obj_params o) = true).
  { unfold h_ready, all_set, obj_params. cbn [p_wl p_na p_ni p_res p_size p_vec_corr p_condition p_zrange forallb].
    assert (S : forall a, a <> A_dual -> exists v, o_attr o a = Some v). { intros a Ha. destruct (C26_parameters_valid numeric Hanser k o0 hist a Hk) as (v & Hv & _); [congruence|eauto]. }
    destruct (S A_wl) as [? ->]; [discriminate|]. destruct (S A_na) as [? ->]; [discriminate|]. destruct (S A_ni) as [? ->]; [discriminate|]. destruct (S A_res) as [? ->]; [discriminate|].
    destruct (S A_size) as [? ->]; [discriminate|]. destruct (S A_vec_corr) as [? ->]; [discriminate|]. destruct (S A_condition) as [? ->]; [discriminate|]. cbn.
    destruct (o_zrange o) eqn:Ez; [reflexivity|]. exfalso.
    pose proof (reachable_valid numeric Hanser k o0 hist Hk) as V.
    apply V; auto. }
  pose proof (fun s => C24_reads_are_fresh numeric Hanser k o0 hist s Hk) as F. cbv zeta in F. fold o in F.
  assert (G : e_gen_psf numeric (obj_params o) (in_force numeric Hanser hist o0 None) = Ok (amap Some A)) by (cbn [numeric e_gen_psf]; rewrite R, HA; reflexivity).
  unfold shows. rewrite !F. cbn [scratch scratch_PSFa]. rewrite G. cbn [rmap]. rewrite psfi_numeric, otfi_numeric. repeat (split; [reflexivity|]).
  eexists. split; [reflexivity|]. apply otfa_numeric. eapply psfa_shape; eassumption.
Qed.
Print Assumptions C73_hanser_objects.

Theorem C73_sheppard_objects :
  forall (k : ctor) (o0 : obj numeric) (hist : list (op numeric)) (G : array (option C)),
    construct numeric Sheppard k = Ok o0 ->
    let o := run numeric Sheppard hist o0 in
    M_Sheppard.gen_otf (spar_of (obj_params o)) = Ok G ->
    fst (read numeric Sheppard OTFa o) = Ok G /\ fst (read numeric Sheppard PSFa o) = Ok (s_psfa G) /\
    fst (read numeric Sheppard PSFi o) = Ok (amap ocplx (s_psfi (s_psfa G))) /\
    fst (read numeric Sheppard OTFi o) = Ok (o_fft (amap ocplx (s_psfi (s_psfa G)))).
Proof.
  intros k o0 hist G Hk o HG.
  assert (R : s_ready (obj_params o) = true).
  { unfold s_ready, all_set, obj_params. cbn [p_wl p_na p_ni p_res p_size p_zres p_zsize p_vec_corr p_condition p_dual forallb].
    assert (S : forall a, exists v, o_attr o a = Some v). { intros a. destruct (C26_parameters_valid numeric Sheppard k o0 hist a Hk) as (v & Hv & _); [auto|eauto]. }
    destruct (S A_wl) as [? ->], (S A_na) as [? ->], (S A_ni) as [? ->], (S A_res) as [? ->], (S A_size) as [? ->], (S A_zres) as [? ->], (S A_zsize) as [? ->], (S A_vec_corr) as [? ->], (S A_condition) as [? ->], (S A_dual) as [? ->]. reflexivity. }
  pose proof (fun s => C24_reads_are_fresh numeric Sheppard k o0 hist s Hk) as F. cbv zeta in F. fold o in F.
  assert (E : e_gen_otf numeric (obj_params o) = Ok G) by (cbn [numeric e_gen_otf]; rewrite R; exact HG).
  rewrite !F. cbn [scratch scratch_PSFa]. rewrite E. repeat split.
Qed.
Print Assumptions C73_sheppard_objects.

(** ** C42: what apply_aberration returns *)
(** A model in a program: the object's own attributes decide everything; whatever was computed or applied before does not. *)
Lemma shows_applied P o A : h_ready (obj_params o) = true -> M_Hanser.gen_psf (hpar_of (obj_params o)) (Some P) = Ok A ->
  exists o', apply_pupil numeric P o = (Ok tt, o') /\ obj_params o' = obj_params o /\ shows o' A.
Proof.
  intros R HA. assert (G : e_gen_psf numeric (obj_params o) (Some P) = Ok (amap Some A)) by (cbn [numeric e_gen_psf]; rewrite R, HA; reflexivity).
  destruct (apply_cases numeric P o) as [(x & Ex & Ea)|(e & Ee & _)]; [|pose proof (eq_trans (eq_sym G) Ee); discriminate]. pose proof (eq_trans (eq_sym G) Ex) as Ex'. injection Ex' as <-. eexists. split; [exact Ea|]. split; [reflexivity|].
  assert (PI := psfi_numeric A). assert (OI := otfi_numeric (sumsq A)). unfold shows. repeat split.
  - change (Ok (e_sumsq numeric (amap Some A)) = Ok (amap (fun r => Some (RtoC r)) (sumsq A))). now rewrite PI.
  - change (Ok (e_fft numeric (e_sumsq numeric (amap Some A))) = Ok (amap Some (otfi_of (sumsq A)))). now rewrite PI, OI.
  - exists (e_fft3 numeric (amap Some A)). split; [reflexivity|]. apply otfa_numeric. eapply psfa_shape; eassumption.
Qed.
Theorem C42_aberrated_model :
  forall (H : heap numeric) (l : nat) (o : obj numeric) (mc pc : coefs) (k : nat) (m p : list R),
    wf numeric H -> view numeric H l = Some o -> class_of numeric H l = Some Hanser -> h_ready (obj_params o) = true ->
    let h := hpar_of (obj_params o) in
    physical h -> 0 < h_na h -> (2 <= h_size h)%Z -> stands_for mc k m -> stands_for pc k p -> is_none mc && is_none pc = false -> (1 <= k <= 120)%nat ->
    exists (new : nat) (H' : heap numeric) (o' : obj numeric) (P A : array C),
      apply_aberration mc pc l H = (Ok new, H') /\ (List.length (hp_obj numeric H) <= new)%nat /\ class_of numeric H' new = Some Hanser /\
      aberration_pupil h mc pc = Ok (Some P) /\ view numeric H' new = Some o' /\ obj_params o' = obj_params o /\
      shape P = [h_size h; h_size h] /\
      (forall y x, (0 <= y < h_size h)%Z -> (0 <= x < h_size h)%Z -> get P [y; x] = aberrated h m p y x) /\
      M_Hanser.gen_psf h (Some P) = Ok A /\ shows o' A.
Proof.
  intros H l o mc pc k m p W V Cl R h Hph Hna Hs Hm Hp Hb Hk.
  destruct (pupil_val h Hph Hna mc pc k m p Hm Hp Hb Hk (or_introl Hs)) as (P & EP & SP & GP).
  destruct (gen_psf_ok h Hph (Some P)) as [A EA]; [intros ? [= <-]; exact SP|].
  destruct (shows_applied P o A R EA) as (o' & Ea & Ep & Sh).
  pose proof (C29_returned_model numeric H l (ab_of (fun h => aberration_pupil h mc pc)) o Hanser W V Cl) as T.
  unfold class_of in Cl. destruct (nth_error (hp_obj numeric H) l) as [d|] eqn:Ed; [|discriminate]. cbn in Cl. injection Cl as Cl.
  pose proof (fun n H' => C29_shares_only_zrange numeric H l (ab_of (fun h => aberration_pupil h mc pc)) d n H' W Ed) as Q.
  unfold apply_aberration. destruct (h_aberrate numeric _ l H) as [r H']. unfold ab_of in T at 1. rewrite R in T. fold h in T. rewrite EP, Ea in T.
  destruct T as (new & -> & Hn & Hv). destruct (Q new H' eq_refl) as (d' & Ed' & Ec & _). exists new, H', o', P, A. split; [reflexivity|]. split; [exact Hn|].
  split; [unfold class_of; rewrite Ed'; cbn; congruence|]. split; [exact EP|]. split; [exact Hv|]. split; [exact Ep|]. split; [exact SP|]. split; [exact GP|]. split; [exact EA|exact Sh].
Qed.
(** Two objects that show the same amplitude read the same in every array. *)
Lemma shows_same o o' A : shows o A -> shows o' A ->
  forall s, exists x y, fst (read numeric Hanser s o) = Ok x /\ fst (read numeric Hanser s o') = Ok y /\ arr_eq x y.
Proof.
  assert (Rf : forall X (a : array X), arr_eq a a) by (split; reflexivity || auto).
  intros (A1 & A2 & A3 & B1 & A4 & A5) (C1 & C2 & C3 & B2 & C4 & C5) []; do 2 eexists; (split; [eassumption|]); (split; [eassumption|]); auto.
  destruct A5 as [E1 F1], C5 as [E2 F2]. split; [congruence|]. intros ix Hix. rewrite F1 by auto. symmetry. apply F2. rewrite E2, <- E1. exact Hix.
Qed.
(** Aberrating an already aberrated model gives the same as aberrating the original: the first aberration is discarded. *)
Theorem C42_earlier_aberration_is_discarded :
  forall (H : heap numeric) (l : nat) (o : obj numeric) (mc1 pc1 mc pc : coefs) (k1 k : nat) (m1 p1 m p : list R),
    wf numeric H -> view numeric H l = Some o -> class_of numeric H l = Some Hanser -> h_ready (obj_params o) = true ->
    let h := hpar_of (obj_params o) in
    physical h -> 0 < h_na h -> (2 <= h_size h)%Z ->
    stands_for mc1 k1 m1 -> stands_for pc1 k1 p1 -> is_none mc1 && is_none pc1 = false -> (1 <= k1 <= 120)%nat ->
    stands_for mc k m -> stands_for pc k p -> is_none mc && is_none pc = false -> (1 <= k <= 120)%nat ->
    exists a Ha b Hb c Hc ob oc,
      apply_aberration mc1 pc1 l H = (Ok a, Ha) /\
      apply_aberration mc pc a Ha = (Ok b, Hb) /\ view numeric Hb b = Some ob /\
      apply_aberration mc pc l H = (Ok c, Hc) /\ view numeric Hc c = Some oc /\
      forall s, exists x y, fst (read numeric Hanser s ob) = Ok x /\ fst (read numeric Hanser s oc) = Ok y /\ arr_eq x y.
Proof.
  intros H l o mc1 pc1 mc pc k1 k m1 p1 m p W V Cl R h Hph Hna Hs Hm1 Hp1 Hb1 Hk1 Hm Hp Hb Hk.
  assert (Ll : (l < List.length (hp_obj numeric H))%nat) by (eapply class_lt; eassumption).
  destruct (C42_aberrated_model H l o mc1 pc1 k1 m1 p1 W V Cl R Hph Hna Hs Hm1 Hp1 Hb1 Hk1) as (a & Ha & oa & P1 & A1 & E1 & N1 & Ca & _ & V1 & Q1 & _).
  pose proof (C42_aberrated_model H l o mc pc k m p W V Cl R Hph Hna Hs Hm Hp Hb Hk) as X. destruct X as (c & Hc & oc & P2 & A2 & E2 & _ & _ & EP2 & V2 & _ & S2 & G2 & EA2 & Sh2).
  assert (Wa : wf numeric Ha).
  { pose proof (step_wf numeric (SAberrate numeric l (ab_of (fun h => aberration_pupil h mc1 pc1))) H W Ll) as Y. cbn [do_step] in Y. rewrite drop_snd in Y. unfold apply_aberration in E1. rewrite E1 in Y. exact Y. }
  unfold h in Hph, Hna, Hs. rewrite <- Q1 in R, Hph, Hna, Hs.
  destruct (C42_aberrated_model Ha a oa mc pc k m p Wa V1 Ca R Hph Hna Hs Hm Hp Hb Hk) as (b & Hb' & ob & P3 & A3 & E3 & _ & _ & EP3 & V3 & _ & S3 & G3 & EA3 & Sh3).
  rewrite Q1 in EP3, EA3. fold h in EP3, EA3. pose proof (eq_trans (eq_sym EP3) EP2) as X. injection X as ->. pose proof (eq_trans (eq_sym EA3) EA2) as X. injection X as ->.
  exists a, Ha, b, Hb', c, Hc, ob, oc. repeat (split; [assumption|]). exact (shows_same _ _ _ Sh3 Sh2).
Qed.
Print Assumptions C42_earlier_aberration_is_discarded.
(** With no coefficients at all the result is an exact copy: it keeps whatever pupil the given model had in force. *)
Theorem C42_both_none_keeps :
  forall (H : heap numeric) (l : nat) (o : obj numeric),
    wf numeric H -> view numeric H l = Some o -> class_of numeric H l = Some Hanser -> h_ready (obj_params o) = true ->
    exists new H', apply_aberration CNone CNone l H = (Ok new, H') /\ (List.length (hp_obj numeric H) <= new)%nat /\ view numeric H' new = Some o.
Proof.
  intros H l o W V Cl R. pose proof (C29_returned_model numeric H l (ab_of (fun h => aberration_pupil h CNone CNone)) o Hanser W V Cl) as T.
  unfold apply_aberration. destruct (h_aberrate numeric _ l H) as [r H']. unfold ab_of in T at 1. rewrite R in T. cbn [aberration_pupil] in T.
  destruct T as (new & -> & Hn & Hv). exists new, H'. auto.
Qed.
Print Assumptions C42_both_none_keeps.
(** The hypotheses hold in the program [model = HanserPSF(wl=520, na=6/5, ni=3/2, res=90, size=64, zres=100, zsize=7,
    vec_corr="none", condition="sine")]. *)
Definition Hc (E : engine) : heap E := prog E [SConstruct E Hanser (kw Hanser) None] (mkHeap E [] [] []).
Lemma Hc_obj E : view E (Hc E) 0 = Some (made_of E Hanser) /\ class_of E (Hc E) 0 = Some Hanser.
Proof. split; vm_compute; reflexivity. Qed.
Lemma Hc_wf E : wf E (Hc E).
Proof. unfold Hc. apply prog_wf; [intros [|l] o; discriminate|]. apply legal_cons; [|apply legal_nil]. intros ? [=]. Qed.
Definition kw_params : params := Eval vm_compute in obj_params (made_of toy Hanser).
Lemma made_params E : obj_params (made_of E Hanser) = kw_params.
Proof. vm_compute. reflexivity. Qed.
Definition Hn := Hc numeric.
Example C42_witness :
  exists o, wf numeric Hn /\ view numeric Hn 0 = Some o /\ class_of numeric Hn 0 = Some Hanser /\ h_ready (obj_params o) = true /\
    let h := hpar_of (obj_params o) in physical h /\ 0 < h_na h /\ (2 <= h_size h)%Z /\
    stands_for (CVec [0; 0; 0; 1/10]) 4 [0; 0; 0; 1/10] /\ stands_for CNone 4 (repeat 0 4) /\ is_none (CVec [0; 0; 0; 1/10]) && is_none CNone = false.
Proof.
  exists (made_of numeric Hanser). split.
  { apply Hc_wf. }
  split; [apply Hc_obj|]. split; [apply Hc_obj|]. cbv zeta. rewrite made_params. split; [reflexivity|].
  unfold physical. cbn. unfold Q2R. cbn. repeat split; try lia; try lra. exact (st_vec [0; 0; 0; 1/10]). exact (st_none 4).
Qed.
