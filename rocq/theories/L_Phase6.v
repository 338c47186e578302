(** Phase retrieval: the loop for arbitrary inputs. *)
From Verif Require Import S_Phase L_Array L_PSF L_Ctor.
Import M_Array.
Local Open Scope R_scope.

Lemma below_iff x t : below x t = true <-> is_below x t.
Proof. destruct x as [v|], t as [r| |]; cbn; try (split; [discriminate|intros []]); [destruct (Rlt_dec v r); split; auto; discriminate|split; auto]. Qed.

Section G.
Context (data mag mask : array R) (pt mt : tol) (po : bool).
Local Notation loop := (pr_loop data mag mask pt mt po).
Lemma apply_same P o : same_attrs numeric o (snd (apply_pupil numeric P o)).
Proof. destruct (apply_cases numeric P o) as [(x & _ & E)|(e & _ & E)]; rewrite E; split; reflexivity. Qed.
(** one iteration, whatever happens in it *)
Inductive outcome (old : option (option R * array C)) (P : array C) (o : obj numeric) : Type :=
| Fails (e : exn) (o' : obj numeric)
| Stops (l : line) (o' : obj numeric)
| Goes (l : line) (old' : option R * array C) (Q : array C) (o' : obj numeric).
Definition after_iteration (fuel : nat) acc {old P o} (x : outcome old P o) : res (array C * list line) * obj numeric :=
  match x with
  | Fails e o' => (Err e, o')
  | Stops l o' => (Ok (P, acc ++ [l]), o')
  | Goes l old' Q o' => loop fuel (Some old') Q (acc ++ [l]) o'
  end.
Definition sensible {old P o} (x : outcome old P o) : Prop :=
  match x with
  | Fails e o' => same_attrs numeric o o'
  | Stops l o' => same_attrs numeric o o' /\ converged pt mt l = true /\ (old = None -> l_mse_diff l = None /\ l_pupil_diff l = None)
  | Goes l old' Q o' => same_attrs numeric o o' /\ converged pt mt l = false /\ (old = None -> l_mse_diff l = None /\ l_pupil_diff l = None)
  end.
Lemma iteration old P o : exists x : outcome old P o, sensible x /\ forall fuel acc, loop (S fuel) old P acc o = after_iteration fuel acc x.
Proof.
  cbn [pr_loop]. unfold bindM at 1. pose proof (apply_same P o) as S1. destruct (apply_pupil numeric P o) as [[[]|e] o1]; cbn [snd] in S1; [|exists (Fails old P o e o1); split; [exact S1|intros; unfold bindM; reflexivity]].
  pose proof (read_same numeric Hanser PSFi o1) as S2. destruct (read numeric Hanser PSFi o1) as [[v|e] o2] eqn:E2; cbn [snd] in S2; pose proof (same_trans numeric _ _ _ S1 S2) as S3;
    [|exists (Fails old P o e o2); split; [exact S3|intros; unfold bindM; rewrite E2; reflexivity]].
  destruct (calc_mse data (reals v)) as [m|e] eqn:Em; [|exists (Fails old P o e o2); split; [exact S3|intros; unfold bindM, lift; rewrite E2, Em; reflexivity]].
  destruct (match old with Some (om, op) => do pd <- pupil_change op P; Ok (mkLine m (mse_change om m) pd) | None => Ok (mkLine m None None) end) as [l|e] eqn:El;
    [|exists (Fails old P o e o2); split; [exact S3|intros; unfold bindM, lift; rewrite E2, Em, El; reflexivity]].
  assert (N : old = None -> l_mse_diff l = None /\ l_pupil_diff l = None) by (intros ->; injection El as <-; auto).
  destruct (converged pt mt l) eqn:Ec; [exists (Stops old P o l o2); split; [split; auto|intros; unfold bindM, lift; rewrite E2, Em, El, Ec; reflexivity]|].
  pose proof (read_same numeric Hanser PSFa o2) as S4. destruct (read numeric Hanser PSFa o2) as [[w|e] o3] eqn:E4; cbn [snd] in S4; pose proof (same_trans numeric _ _ _ S3 S4) as S5;
    [|exists (Fails old P o e o3); split; [exact S5|intros; unfold bindM, lift; rewrite E2, Em, El, Ec, E4; reflexivity]].
  destruct (next_pupil mag mask po (hpar_of (obj_params o3)) (complexes w)) as [Q|e] eqn:En;
    [|exists (Fails old P o e o3); split; [exact S5|intros; unfold bindM, lift; rewrite E2, Em, El, Ec, E4, En; reflexivity]].
  exists (Goes old P o l (m, P) Q o3). split; [split; auto|]. intros. unfold bindM, lift. rewrite E2, Em, El, Ec, E4, En. reflexivity.
Qed.
Definition conv := converged pt mt.
(** bookkeeping *)
Lemma loop_lines : forall fuel old P acc o Q lines o', (1 <= fuel)%nat -> loop fuel old P acc o = (Ok (Q, lines), o') ->
  exists new, lines = acc ++ new /\ (1 <= List.length new <= fuel)%nat /\ same_attrs numeric o o' /\
    (forall i l, (i < List.length new - 1)%nat -> nth_error new i = Some l -> conv l = false) /\
    ((List.length new < fuel)%nat -> forall l, nth_error new (List.length new - 1) = Some l -> conv l = true) /\
    (old = None -> forall l, nth_error new 0 = Some l -> l_mse_diff l = None /\ l_pupil_diff l = None).
Proof.
  induction fuel as [|fuel IH]; intros old P acc o Q lines o' Hf H; [lia|]. destruct (iteration old P o) as (x & Sx & Ex). rewrite Ex in H. destruct x as [e o1|l o1|l old' Q1 o1]; cbn [after_iteration] in H.
  - discriminate.
  - injection H as <- <- <-. destruct Sx as (S1 & Sc & Sn). exists [l]. split; [reflexivity|]. cbn [List.length]. split; [lia|]. split; [exact S1|]. split; [intros; lia|]. split; intros ? ? [= <-]; auto.
  - destruct Sx as (S1 & Sc & Sn). destruct fuel as [|fuel'].
    + cbn in H. injection H as <- <- <-. exists [l]. split; [reflexivity|]. cbn [List.length]. split; [lia|]. split; [exact S1|]. split; [intros; lia|]. split; [intros; lia|]. intros ? ? [= <-]; auto.
    + destruct (IH _ _ _ _ _ _ _ ltac:(lia) H) as (new & -> & Hl & Ss & Hi & Hs & _). exists (l :: new). rewrite <- app_assoc. split; [reflexivity|]. cbn [List.length]. split; [lia|].
      split; [eapply same_trans; eassumption|]. split; [|split].
      * intros [|i] l' Hlt [= E0]; [subst l'; exact Sc|]. apply (Hi i l'); [lia|assumption].
      * intros Hlt l'. replace (S (List.length new) - 1)%nat with (S (List.length new - 1)) by lia. cbn [nth_error]. apply Hs. lia.
      * intros Ho l' [= <-]. auto.
Qed.
(** after convergence nothing more happens *)
Lemma loop_same : forall fuel old P acc o Q new o', loop fuel old P acc o = (Ok (Q, acc ++ new), o') -> (List.length new < fuel)%nat ->
  forall fuel', (List.length new <= fuel')%nat -> (1 <= fuel')%nat -> loop fuel' old P acc o = (Ok (Q, acc ++ new), o').
Proof.
  induction fuel as [|fuel IH]; intros old P acc o Q new o' H Hl fuel' Hf' Hf; [lia|]. destruct fuel' as [|fuel']; [lia|]. destruct (iteration old P o) as (x & Sx & Ex). rewrite Ex in H |- *.
  destruct x as [e o1|l o1|l old' Q1 o1]; cbn [after_iteration] in *; [discriminate|exact H|]. destruct fuel as [|fuel].
  - assert (new = []) by (destruct new; [reflexivity|cbn in Hl; lia]). subst new. cbn in H. injection H as _ E _. exfalso. apply (f_equal (@List.length line)) in E. rewrite !app_length in E. cbn in E. lia.
  - destruct (loop_lines (S fuel) _ _ _ _ _ _ _ ltac:(lia) H) as (new' & E & Hn & _). rewrite <- app_assoc in E. apply app_inv_head in E. subst new. cbn [app List.length] in *.
    replace (acc ++ l :: new') with ((acc ++ [l]) ++ new') in * by (rewrite <- app_assoc; reflexivity). apply (IH _ _ _ _ _ _ _ H); lia.
Qed.
(** a shorter run records a prefix *)
Lemma loop_prefix : forall fuel' old P acc o Q' new' o', loop fuel' old P acc o = (Ok (Q', acc ++ new'), o') ->
  forall fuel, (1 <= fuel <= fuel')%nat -> exists Q o1, loop fuel old P acc o = (Ok (Q, acc ++ firstn fuel new'), o1).
Proof.
  induction fuel' as [|fuel' IH]; intros old P acc o Q' new' o' H fuel Hf; [lia|]. destruct fuel as [|fuel]; [lia|]. destruct (iteration old P o) as (x & Sx & Ex). rewrite Ex in H |- *.
  destruct x as [e o1|l o1|l old' Q1 o1]; cbn [after_iteration] in *; [discriminate| |].
  - injection H as <- E <-. apply app_inv_head in E. subst new'. cbn [firstn]. rewrite firstn_nil. eauto.
  - assert (E : exists new, new' = l :: new).
    { destruct fuel' as [|f]; [cbn in H; injection H as _ E _; apply app_inv_head in E; eauto|]. destruct (loop_lines (S f) _ _ _ _ _ _ _ ltac:(lia) H) as (new & E & _). rewrite <- app_assoc in E. apply app_inv_head in E. eauto. }
    destruct E as [new ->]. cbn [firstn]. replace (acc ++ l :: new) with ((acc ++ [l]) ++ new) in H by (rewrite <- app_assoc; reflexivity).
    replace (acc ++ l :: firstn fuel new) with ((acc ++ [l]) ++ firstn fuel new) by (rewrite <- app_assoc; reflexivity). destruct fuel as [|fuel].
    + cbn [pr_loop firstn]. rewrite app_nil_r. unfold ret. eauto.
    + apply (IH _ _ _ _ _ _ _ H). lia.
Qed.
End G.
Lemma retrieve_inv u data params k pt mt po r d' : retrieve_phase u data params k pt mt po = (Ok r, d') ->
  exists nz n kk model pupil Q lines o' mg ph, shape data = [nz; n; n] /\ (0 < k)%Z /\ d' = forced nz n params /\ ctor_of d' = Ok kk /\ construct numeric Hanser kk = Ok model /\
    gen_kr_pupil (hpar_of (obj_params model)) = Ok pupil /\
    pr_loop data (amap psqrt data) (amap Re pupil) pt mt po (Z.to_nat k) None pupil [] model = (Ok (Q, lines), o') /\
    bop Rmult (u (fftshift axes2 (amap angle Q))) (fftshift axes2 (amap Re pupil)) = Ok ph /\ bop Rmult (fftshift axes2 (amap Cmod Q)) (fftshift axes2 (amap Re pupil)) = Ok mg /\
    r = mk_result mg ph lines o'.
Proof.
  unfold retrieve_phase. destruct (Z.ltb_spec 0 k) as [Hk|]; cbn [negb]; [|discriminate]. destruct (shape data) as [|nz [|ny [|nx rest]]] eqn:Es; try discriminate.
  destruct (Z.eqb_spec ny nx) as [->|]; cbn [negb]; [|discriminate]. destruct rest; [|discriminate]. intros H. injection H as H Hd. subst d'.
  destruct (ctor_of (forced nz nx params)) as [kk|] eqn:Ek; cbn [bind] in H; [|discriminate]. destruct (construct numeric Hanser kk) as [model|] eqn:Em; cbn [bind] in H; [|discriminate].
  destruct (gen_kr_pupil (hpar_of (obj_params model))) as [pupil|] eqn:Eg; cbn [bind] in H; [|discriminate].
  destruct (pr_loop data (amap psqrt data) (amap Re pupil) pt mt po (Z.to_nat k) None pupil [] model) as [[[Q lines]|] o'] eqn:El; [|discriminate].
  destruct (bop Rmult (u _) _) as [ph|] eqn:E1; cbn [bind] in H; [|discriminate]. destruct (bop Rmult (fftshift _ _) _) as [mg|] eqn:E2; cbn [bind] in H; [|discriminate]. injection H as <-.
  exists nz, nx, kk, model, pupil, Q, lines, o', mg, ph. repeat (split; [first [assumption|reflexivity]|]). reflexivity.
Qed.
Lemma retrieve_fwd u data params k pt mt po nz n kk model pupil Q lines o' mg ph :
  shape data = [nz; n; n] -> (0 < k)%Z -> ctor_of (forced nz n params) = Ok kk -> construct numeric Hanser kk = Ok model ->
  gen_kr_pupil (hpar_of (obj_params model)) = Ok pupil ->
  pr_loop data (amap psqrt data) (amap Re pupil) pt mt po (Z.to_nat k) None pupil [] model = (Ok (Q, lines), o') ->
  bop Rmult (u (fftshift axes2 (amap angle Q))) (fftshift axes2 (amap Re pupil)) = Ok ph -> bop Rmult (fftshift axes2 (amap Cmod Q)) (fftshift axes2 (amap Re pupil)) = Ok mg ->
  retrieve_phase u data params k pt mt po = (Ok (mk_result mg ph lines o'), forced nz n params).
Proof.
  intros H1 H2 H3 H4 H5 H6 H7 H8. unfold retrieve_phase. replace (0 <? k)%Z with true by (symmetry; now apply Z.ltb_lt). cbn [negb]. rewrite H1, Z.eqb_refl. cbn [negb]. rewrite H3. cbn [bind]. rewrite H4. cbn [bind].
  rewrite H5. cbn [bind]. rewrite H6, H7. cbn [bind]. rewrite H8. reflexivity.
Qed.
