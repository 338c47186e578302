(** apply_named_aberration and apply_named_aberrations on objects (pyotf/otf.py:642-696): what the returned model shows. *)
From Coq Require Import String Permutation.
From Verif Require Import M_Aberr S_Aberr S_Heap L_Array L_Sum L_PSF L_Heap T_PSF T_Heap T_Hanser T_Zernike L_Aberr L_Aberr2 L_Aberr3 T_Aberr T_Aberr2 T_Object.
Import M_Array.
Local Open Scope R_scope.

(** The phase a dictionary of named aberrations stands for: every classical mode times the total magnitude under its name. *)
Definition named_phase (d : list (string * R)) (r t : R) : R :=
  Rsum classical (fun e => total_for (fst e) d * zernike_at true (fst (snd e)) (snd (snd e)) r t).

Lemma classical_in_order : forall i, (i < 15)%nat -> noll2degrees (NInts [(Z.of_nat i + 1)%Z]) = Ok [snd (nth i classical (EmptyString, (0, 0)%Z))].
Proof.
  intros i Hi. rewrite noll2degrees_val by (intros ? [<-|[]]; lia). cbn [map]. do 2 f_equal.
  do 15 (destruct i as [|i]; [vm_compute; reflexivity|]). lia.
Qed.
Lemma mix_named d p r t : List.length p = 15%nat ->
  (forall a nm j, In (a, nm) classical -> noll2degrees (NInts [j]) = Ok [nm] -> (1 <= j <= 15)%Z -> nth (Z.to_nat (j - 1)) p 0 = total_for a d) ->
  mix p r t = named_phase d r t.
Proof.
  intros L G. unfold mix, named_phase. rewrite L.
  assert (E : classical = map (fun i => nth i classical (EmptyString, (0, 0)%Z)) (seq 0 15)) by reflexivity.
  transitivity (Rsum (map (fun i => nth i classical (EmptyString, (0, 0)%Z)) (seq 0 15)) (fun e => total_for (fst e) d * zernike_at true (fst (snd e)) (snd (snd e)) r t)); [|now rewrite <- E].
  clear E. rewrite Rsum_map. apply Rsum_ext. intros i Hi. apply in_seq in Hi.
  pose proof (classical_in_order i ltac:(lia)) as D. unfold zmode. rewrite D.
  assert (Hin : In (nth i classical (EmptyString, (0, 0)%Z)) classical) by (apply nth_In; cbn; lia).
  destruct (nth i classical (EmptyString, (0, 0)%Z)) as [a [u v]] eqn:En. cbn [fst snd] in *.
  pose proof (G a (u, v) _ Hin D ltac:(lia)) as Q. replace (Z.to_nat (Z.of_nat i + 1 - 1)) with i in Q by lia. rewrite Q. reflexivity.
Qed.

(** A dictionary of known names, on any HanserPSF of a program whose parameters are physical and whose grid has at least 2 x 2
    pixels: a new model with the same parameters whose four arrays are those of the clear aperture with the named phase - so
    whatever pupil was in force before is gone, and an empty dictionary gives the ideal PSF back. *)
Theorem C41_aberrated_model :
  forall (H : heap numeric) (l : nat) (o : obj numeric) (d : list (string * R)),
    wf numeric H -> view numeric H l = Some o -> class_of numeric H l = Some Hanser -> h_ready (obj_params o) = true ->
    let h := hpar_of (obj_params o) in
    physical h -> 0 < h_na h -> (2 <= h_size h)%Z -> (forall a g, In (a, g) d -> known a) ->
    exists (new : nat) (H' : heap numeric) (o' : obj numeric) (P A : array C),
      apply_named_aberrations d l H = (Ok new, H') /\ (List.length (hp_obj numeric H) <= new)%nat /\
      class_of numeric H' new = Some Hanser /\ view numeric H' new = Some o' /\ obj_params o' = obj_params o /\
      shape P = [h_size h; h_size h] /\
      (forall y x, (0 <= y < h_size h)%Z -> (0 <= x < h_size h)%Z ->
         get P [y; x] = Cmult (RtoC (S_Aberr.clear h y x)) (cis (named_phase d (pupil_r h y x) (pupil_t h y x)))) /\
      M_Hanser.gen_psf h (Some P) = Ok A /\ shows o' A.
Proof.
  intros H l o d Hwf Hv Hc Hr h Hph Hna Hs Hk. destruct (C41_dictionary d) as [D _]. destruct (D Hk) as (p & Ep & Lp & Gp).
  destruct (C42_aberrated_model H l o CNone (CVec p) (List.length p) (repeat 0 (List.length p)) p) as (new & H' & o' & P & A & E & Hn & Hc' & _ & Hv' & Ho' & SP & GP & EA & Sh); auto; try constructor; try (rewrite Lp; lia).
  exists new, H', o', P, A. split.
  { unfold apply_named_aberrations, hbind, hlift. change (List.length name2noll) with 15%nat. rewrite Ep. exact E. }
  repeat (split; [assumption|]). split; [|split; assumption].
  intros y x Hy Hx. rewrite GP by auto. unfold aberrated. rewrite mix_zero, Rplus_0_r, (mix_named d p) by auto. reflexivity.
Qed.
(** One unknown name anywhere: KeyError, before the model is even looked at, and nothing has changed. *)
Theorem C41_unknown_name :
  forall (H : heap numeric) (l : nat) (d : list (string * R)), (exists a g, In (a, g) d /\ ~ known a) -> apply_named_aberrations d l H = (Err KeyError, H).
Proof.
  intros H l d Hu. destruct (C41_dictionary d) as [_ D]. unfold apply_named_aberrations, hbind, hlift. change (List.length name2noll) with 15%nat. now rewrite (D Hu).
Qed.
(** A SheppardPSF is refused even for an empty dictionary. *)
Theorem C41_sheppard :
  forall (H : heap numeric) (l : nat) (o : obj numeric) (d : list (string * R)),
    wf numeric H -> view numeric H l = Some o -> class_of numeric H l = Some Sheppard -> (forall a g, In (a, g) d -> known a) ->
    apply_named_aberrations d l H = (Err AssertionError, H).
Proof.
  intros H l o d Hwf Hv Hc Hk. destruct (C41_dictionary d) as [D _]. destruct (D Hk) as (p & Ep & _ & _).
  unfold apply_named_aberrations, hbind, hlift. change (List.length name2noll) with 15%nat. rewrite Ep. unfold apply_aberration.
  pose proof (C29_returned_model numeric H l (ab_of (fun h => aberration_pupil h CNone (CVec p))) o Sheppard Hwf Hv Hc) as R. destruct (h_aberrate _ _ _ _) as [r H'] eqn:E.
  destruct R as [-> ->]. reflexivity.
Qed.
(** The order of the entries, and the division into entries, cannot be seen in the result of the call. *)
Theorem C41_call_order :
  forall (H : heap numeric) (l : nat) (d d' : list (string * R)),
    Permutation d d' \/ (forall a, In a (map fst d) <-> In a (map fst d')) /\ (forall a, total_for a d = total_for a d') ->
    apply_named_aberrations d l H = apply_named_aberrations d' l H.
Proof.
  intros H l d d' [P|[Hn Ht]]; unfold apply_named_aberrations; change (List.length name2noll) with 15%nat.
  - now rewrite (C41_permutation d d' P).
  - now rewrite (C41_order_irrelevant d d' Hn Ht).
Qed.
(** One name is the dictionary with one entry. *)
Theorem C40_one_name :
  forall (H : heap numeric) (l : nat) (a : string) (g : R), apply_named_aberration a g l H = apply_named_aberrations [(a, g)] l H.
Proof.
  intros H l a g. unfold apply_named_aberration, apply_named_aberrations, hbind, hlift. change (List.length name2noll) with 15%nat. cbn [sum_named].
  destruct (C40_named_coefficients a g) as [Hk Hu]. destruct (in_dec string_dec a (map fst classical)) as [K|K].
  - destruct (Hk K) as (j & n & m & p & _ & _ & _ & Ep & Lp & _). rewrite Ep. cbn [bind].
    replace (map (fun q => fst q + snd q) (combine (repeat 0 15) p)) with p; [reflexivity|].
    apply (nth_ext _ _ 0 0); [rewrite map_length, combine_length, repeat_length, Lp; reflexivity|].
    intros i _. rewrite nth_combine_add by (rewrite repeat_length; congruence). rewrite nth_repeat. ring.
  - rewrite (Hu K). reflexivity.
Qed.
Print Assumptions C41_aberrated_model. Print Assumptions C41_unknown_name. Print Assumptions C41_sheppard. Print Assumptions C41_call_order. Print Assumptions C40_one_name.
(** The named phase of one entry is that mode alone. *)
Example C41_named_phase_case : forall g r t, named_phase [("defocus"%string, g)] r t = g * zernike_at true 2 0 r t.
Proof. intros g r t. unfold named_phase, classical, total_for. cbn [Rsum fst snd String.eqb Ascii.eqb Bool.eqb]. ring. Qed.
(** ... and a program with such a model. *)
Example C41_model_case :
  exists (new : nat) (H' : heap numeric) (o : obj numeric), wf numeric Hn /\ view numeric Hn 0 = Some o /\
    apply_named_aberrations [("defocus"%string, 1 / 10); ("tip"%string, 2)] 0 Hn = (Ok new, H').
Proof.
  destruct C42_witness as (o & Hwf & Hv & Hc & Hr & Hp & Hna & Hs & _).
  destruct (C41_aberrated_model Hn 0 o [("defocus"%string, 1 / 10); ("tip"%string, 2)] Hwf Hv Hc Hr Hp Hna Hs) as (new & H' & o' & P & A & E & _).
  { intros a g [[= <- _]|[[= <- _]|[]]]; unfold known, classical; cbn; tauto. }
  exists new, H', o. auto.
Qed.
