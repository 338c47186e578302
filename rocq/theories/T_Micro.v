(** C54, C57, C61: construction and caching of the microscopes. *)
From Verif Require Import S_Micro L_PSF L_Ctor T_PSF.
Import M_Array.
Local Open Scope R_scope.

(** ** C57 caching *)
Lemma set_cases a v m : (m_effective m (MSet a v) = true /\ mi_psf (snd (m_set a v m)) = None /\ mi_otf (snd (m_set a v m)) = None) \/
  (m_effective m (MSet a v) = false /\ snd (m_set a v m) = m).
Proof.
  unfold m_effective, acceptable, m_set, numeric_fset, numeric_decide. destruct (has_prop (mi_kind m) a); [|right; auto]. cbn [andb].
  destruct (isinstance v (mtype a)) eqn:Ei; cbn [negb andb]; [|right; auto]. unfold py_lt. destruct (M_Val.num v) as [f|] eqn:En; cbn [bind]; [|right; auto].
  change (M_Val.num (VInt 0)) with (Some (FFin (inject_Z 0))). cbn [bind]. change (FFin (inject_Z 0)) with (FFin 0). destruct (fl_lt f (FFin 0)) eqn:El; cbn [negb andb]; [right; auto|].
  unfold differs. destruct (mi_num m a) as [w|] eqn:Ew.
  - destruct (py_eq w v); cbn [negb]; [right; auto|left; auto].
  - assert (py_eq VNone v = false) as ->. { unfold py_eq. cbn [M_Val.num]. rewrite En. reflexivity. } cbn [negb]. left. auto.
Qed.
Definition pristine (m : micro) : Prop := mi_psf m = None /\ mi_otf m = None.
Definition fft_of (a : array (option R)) : array (option C) := o_fft (amap (option_map RtoC) a).
(** computations do not look at the microscope's own caches and do not touch them *)
Definition blind {A} (c : MM A) : Prop := forall m p o, c (upd_cache p o m) = (fst (c m), upd_cache p o (snd (c m))) /\ mi_psf (snd (c m)) = mi_psf m /\ mi_otf (snd (c m)) = mi_otf m.
Lemma blind_ret {A} (x : A) : blind (mret x). Proof. intros m p o. auto. Qed.
Lemma blind_lift {A} (x : res A) : blind (mlift x). Proof. intros m p o. auto. Qed.
Lemma blind_bind {A B} (c : MM A) (f : A -> MM B) : blind c -> (forall x, blind (f x)) -> blind (mbind c f).
Proof.
  intros H1 H2 m p o. unfold mbind. destruct (H1 m p o) as (E & E1 & E2). rewrite E. destruct (c m) as [[x|e] m']; cbn [fst snd] in *; [|auto].
  destruct (H2 x m' p o) as (F & F1 & F2). rewrite F. split; [reflexivity|]. split; congruence.
Qed.
Lemma blind_get a : blind (m_get a).
Proof. intros m p o. unfold m_get. cbn. destruct (mi_num m a); auto. Qed.
Lemma blind_on {A} (c : M numeric A) : blind (on_model c).
Proof. intros m p o. unfold on_model. cbn. destruct (c (mi_model m)); auto. Qed.
Lemma blind_psfi : blind model_PSFi.
Proof. intros m p o. unfold model_PSFi. cbn [mi_cls mi_model upd_cache]. destruct (read _ _ _ _); auto. Qed.
Lemma blind_exci : blind exc_PSFi.
Proof. intros m p o. unfold exc_PSFi. cbn [mi_cls mi_exc upd_cache]. destruct (read _ _ _ _); auto. Qed.
Lemma blind_otfi : blind model_OTFi.
Proof. intros m p o. unfold model_OTFi. cbn [mi_cls mi_model upd_cache]. destruct (read _ _ _ _); auto. Qed.
Lemma blind_asks {A} (f : micro -> A) : (forall m p o, f (upd_cache p o m) = f m) -> blind (masks f).
Proof. intros H m p o. unfold masks. rewrite H. auto. Qed.
Ltac blind_tac := repeat first [apply blind_ret | apply blind_lift | apply blind_get | apply blind_on | apply blind_psfi | apply blind_exci | apply blind_otfi
  | apply blind_asks; reflexivity | (apply blind_bind; [|intros ?]) | match goal with |- blind (if ?b then _ else _) => destruct b | |- blind (match ?b with _ => _ end) => destruct b end].
Lemma blind_confocal : blind confocal_psf.
Proof. unfold confocal_psf, model_R. blind_tac. Qed.
Lemma blind_apotome : blind apotome_psf.
Proof. unfold apotome_psf. blind_tac. Qed.
Lemma blind_sim : blind sim_psf.
Proof. unfold sim_psf, sim_base. cbv zeta. blind_tac. Qed.
Lemma blind_model_psf : blind model_psf.
Proof.
  intros m p o. unfold model_psf. cbn [mi_kind upd_cache]. destruct (mi_kind m); [apply blind_psfi|apply blind_confocal|apply blind_apotome|apply blind_sim].
Qed.
Lemma blind_compute : blind compute_psf.
Proof. unfold compute_psf. apply blind_bind; [apply blind_model_psf|intros ?]. blind_tac. Qed.
Lemma fresh_compute m : fresh m = fst (compute_psf m).
Proof.
  unfold fresh, m_PSF, m_changed. cbn [mi_psf upd_cache]. unfold mbind. destruct (blind_compute m None None) as (E & _). rewrite E. destruct (compute_psf m) as [[a|e] m']; reflexivity.
Qed.

Definition shot (m : micro) (s : option micro) : Prop :=
  match s with
  | None => pristine m
  | Some q => exists a, fresh q = Ok a /\ mi_psf m = Some a /\ (mi_otf m = None \/ mi_otf m = Some (fft_of a))
  end.
Lemma shot_psf m s : shot m s -> fst (m_PSF m) = fresh (match s with Some q => q | None => m end) /\
  shot (snd (m_PSF m)) (match s with Some q => Some q | None => if is_ok (fresh m) then Some m else None end).
Proof.
  destruct s as [q|]; cbn.
  - intros (a & E & P & O). unfold m_PSF. rewrite P. cbn. rewrite E. eauto.
  - intros [P O]. rewrite fresh_compute. unfold m_PSF. rewrite P. unfold mbind. pose proof (blind_compute m None None) as (_ & E1 & E2).
    destruct (compute_psf m) as [[a|e] m'] eqn:E; cbn [fst snd] in *; (split; [reflexivity|]); cbn.
    + exists a. rewrite fresh_compute, E. cbn. split; [reflexivity|]. split; [reflexivity|]. left. congruence.
    + split; congruence.
Qed.
Lemma shot_otf m s : shot m s -> fst (m_OTF m) = (do a <- fresh (match s with Some q => q | None => m end); Ok (fft_of a)) /\
  shot (snd (m_OTF m)) (match s with Some q => Some q | None => if is_ok (fresh m) then Some m else None end).
Proof.
  intros H. pose proof (shot_psf m s H) as (E1 & E2). unfold m_OTF.
  destruct (mi_otf m) as [f|] eqn:Ef.
  - destruct s as [q|]; [|destruct H; congruence]. destruct H as (a & E & P & [O|O]); [congruence|]. rewrite E. cbn. split; [congruence|]. exists a. rewrite Ef. rewrite Ef in O. auto.
  - unfold mbind. destruct (m_PSF m) as [[a|e] m'] eqn:EP; cbn [fst snd] in *; rewrite <- E1; cbn; (split; [reflexivity|]).
    + destruct s as [q|]; cbn in *.
      * destruct E2 as (b & F & P & O). exists b. split; [exact F|]. split; [exact P|]. right. assert (b = a) by congruence. subst. reflexivity.
      * rewrite <- E1 in *. cbn in *. destruct E2 as (b & F & P & O). exists b. split; [exact F|]. split; [exact P|]. right. assert (b = a) by congruence. subst. reflexivity.
    + exact E2.
Qed.
Lemma shot_step m s x : shot m s ->
  shot (mexec x m) (if m_effective m x then None else match s with Some q => Some q | None => if is_read x && is_ok (fresh m) then Some m else None end).
Proof.
  intros H. destruct x as [a v|y|y|o|v|v|l| |]; cbn [mexec is_read andb].
  - destruct (set_cases a v m) as [(E & P & O)|(E & S)]; rewrite E; [split; auto|]. rewrite S. destruct s; auto.
  - cbn [m_effective]. destruct s; auto.
  - cbn [m_effective]. destruct s; auto.
  - cbn [m_effective]. destruct s; auto.
  - cbn [m_effective]. destruct s; auto.
  - cbn [m_effective]. destruct s; auto.
  - cbn [m_effective]. destruct s; auto.
  - cbn [m_effective]. now apply shot_psf.
  - cbn [m_effective]. now apply shot_otf.
Qed.
Lemma shot_run h : forall m s, shot m s -> shot (mrun h m) (snapshot h m s).
Proof. induction h as [|x h IH]; intros m s H; [exact H|]. cbn [mrun snapshot]. apply IH. now apply shot_step. Qed.

(** a constructor leaves nothing cached *)
Definition clean {A} (c : MM A) : Prop := forall m, pristine m -> pristine (snd (c m)).
Lemma clean_bind {A B} (c : MM A) (f : A -> MM B) : clean c -> (forall x, clean (f x)) -> clean (mbind c f).
Proof. intros H1 H2 m H. unfold mbind. specialize (H1 m H). destruct (c m) as [[x|e] m']; cbn in *; auto. apply H2. exact H1. Qed.
Lemma clean_set a v : clean (m_set a v).
Proof. intros m H. destruct (set_cases a v m) as [(_ & P & O)|(_ & S)]; [split; auto|]. now rewrite S. Qed.
Lemma clean_lift {A} (r : res A) : clean (mlift r). Proof. intros m H; exact H. Qed.
Lemma clean_ret {A} (r : A) : clean (mret r). Proof. intros m H; exact H. Qed.
Lemma clean_asks {A} (f : micro -> A) : clean (masks f). Proof. intros m H; exact H. Qed.
Lemma clean_fun {A} (f : micro -> A) (g : micro -> micro) : (forall m, pristine m -> pristine (g m)) -> clean (fun m => (Ok (f m), g m)).
Proof. intros H m P. apply H. exact P. Qed.
Ltac clean_tac := repeat first [apply clean_set | apply clean_lift | apply clean_ret | apply clean_asks | (apply clean_bind; [|intros ?])
  | match goal with |- clean (if ?b then _ else _) => destruct b | |- clean (match ?b with _ => _ end) => destruct b end].
Lemma clean_wide a : clean (wide_init a).
Proof. unfold wide_init. cbv zeta. clean_tac. intros m [P O]. split; assumption. Qed.
Lemma clean_confocal a w p : clean (confocal_init a w p).
Proof.
  unfold confocal_init. apply clean_bind; [apply clean_wide|intros _]. clean_tac. intros m [P O]. unfold on_exc. cbn [upd_exc mi_exc]. destruct (assign numeric _ _ _). split; assumption.
Qed.
Lemma clean_sim a s : clean (sim_init a s).
Proof. unfold sim_init. apply clean_bind; [apply clean_wide|intros _]. clean_tac. intros m [P O]. split; assumption. Qed.
Lemma make_pristine k i m : clean i -> make k i = Ok m -> pristine m.
Proof. intros H E. unfold make in E. specialize (H (empty_micro k) (conj eq_refl eq_refl)). destruct (i (empty_micro k)) as [[u|e] m']; [|discriminate]. cbn in H. congruence. Qed.
Lemma built_pristine m : built m -> pristine m.
Proof. intros [a [m' H|w p m' H|m' H|s m' H]]; (eapply make_pristine; [|exact H]); [apply clean_wide|apply clean_confocal|apply clean_wide|apply clean_sim]. Qed.

(** Every read returns what a microscope with empty caches would have returned in the state of the snapshot: the first
    successful read since construction or since the last accepted assignment of a different value to a numeric property. *)
Theorem C57_snapshot : forall m h, built m ->
  let now := mrun h m in
  let source := match snapshot h m None with Some q => q | None => now end in
  fst (m_PSF now) = fresh source /\ fst (m_OTF now) = (do a <- fresh source; Ok (o_fft (amap (option_map RtoC) a))).
Proof.
  intros m h Hb. cbv zeta. pose proof (shot_run h m None (built_pristine m Hb)) as H. split; [now apply shot_psf|now apply shot_otf].
Qed.
Print Assumptions C57_snapshot.
(** After an m_effective assignment the arrays are computed from the current state. *)
Theorem C57_recomputed : forall m h a v, built m -> m_effective (mrun h m) (MSet a v) = true ->
  let now := mexec (MSet a v) (mrun h m) in fst (m_PSF now) = fresh now.
Proof.
  intros m h a v Hb He. cbv zeta. pose proof (shot_run h m None (built_pristine m Hb)) as H. apply (shot_step _ _ (MSet a v)) in H. rewrite He in H. apply (shot_psf _ None H).
Qed.
Print Assumptions C57_recomputed.
(** Nothing else refreshes them: after a successful read the same array is returned, whatever happens to model, model_exc,
    pixel_size, wiener or orientations, until an m_effective assignment. *)
Theorem C57_stale : forall m h a h', built m -> fst (m_PSF (mrun h m)) = Ok a ->
  (forall p x q, h' = p ++ x :: q -> m_effective (mrun p (snd (m_PSF (mrun h m)))) x = false) ->
  fst (m_PSF (mrun h' (snd (m_PSF (mrun h m))))) = Ok a.
Proof.
  intros m h a h' Hb Ea Hn. pose proof (shot_run h m None (built_pristine m Hb)) as H. destruct (shot_psf _ _ H) as [E1 E2]. set (s0 := snapshot h m None) in *. set (m1 := snd (m_PSF (mrun h m))) in *.
  assert (Q : exists q, (match s0 with Some q => Some q | None => if is_ok (fresh (mrun h m)) then Some (mrun h m) else None end) = Some q /\ fresh q = Ok a).
  { destruct s0 as [q|]; [exists q; split; [reflexivity|congruence]|]. exists (mrun h m). rewrite Ea in E1. rewrite <- E1. split; [reflexivity|congruence]. }
  destruct Q as (q & Eq & Fq). rewrite Eq in E2. clear Ea E1 Eq H s0.
  assert (G : shot (mrun h' m1) (Some q)).
  { clearbody m1. revert m1 E2 Hn. induction h' as [|x h' IH]; intros m1 E2 Hn; [exact E2|]. cbn [mrun]. apply IH.
    - pose proof (shot_step m1 (Some q) x E2) as S. pose proof (Hn [] x h' eq_refl) as Hx; cbn [mrun] in Hx. rewrite Hx in S. exact S.
    - intros p y r Hp. apply (Hn (x :: p) y r). now rewrite Hp. }
  destruct (shot_psf _ _ G) as [-> _]. exact Fq.
Qed.
Print Assumptions C57_stale.
(** The numeric properties never reach into the models: changing oversample_factor does not resize, and assigning wl_exc of a
    confocal microscope does not change the excitation wavelength; it is not even readable after construction. *)
Theorem C57_models_untouched : forall m a v, mi_model (mexec (MSet a v) m) = mi_model m /\ mi_exc (mexec (MSet a v) m) = mi_exc m.
Proof.
  intros m a v. cbn [mexec]. unfold m_set, numeric_fset. destruct (has_prop _ _); [|auto]. destruct (numeric_decide _ _ _) as [[|]|]; auto.
Qed.
Lemma set_other a v m b : a <> b -> mi_num (snd (m_set a v m)) b = mi_num m b.
Proof.
  intros H. unfold m_set, numeric_fset. destruct (has_prop _ _); [|reflexivity]. destruct (numeric_decide _ _ _) as [[|]|]; try reflexivity. cbn. destruct a, b; try reflexivity; congruence.
Qed.
Definition keeps (b : mattr) {A} (c : MM A) : Prop := forall m, mi_num (snd (c m)) b = mi_num m b.
Lemma keeps_bind b {A B} (c : MM A) (f : A -> MM B) : keeps b c -> (forall x, keeps b (f x)) -> keeps b (mbind c f).
Proof. intros H1 H2 m. unfold mbind. specialize (H1 m). destruct (c m) as [[x|e] m']; cbn in *; auto. rewrite H2. exact H1. Qed.
Ltac keeps_tac := repeat first [(intros ?; apply set_other; discriminate) | (apply keeps_bind; [|intros ?])
  | match goal with |- keeps _ (if ?b then _ else _) => destruct b | |- keeps _ (match ?b with _ => _ end) => destruct b end | (intros ?; reflexivity)].
Lemma keeps_wide b a : b <> MOs -> keeps b (wide_init a).
Proof.
  intros Hb. assert (S : keeps b (m_set MOs (w_os a))) by (intros m; apply set_other; congruence). unfold wide_init. cbv zeta.
  apply keeps_bind; [exact S|intros _]. destruct (negb _); [intros m; reflexivity|]. apply keeps_bind; [keeps_tac|intros d]. apply keeps_bind; [exact S|intros _]. keeps_tac.
Qed.
Lemma numeric_value (E : engine) a t v (o o' : obj E) u : numeric_set E a t v o = (Ok u, o') ->
  exists w, o_attr o' a = Some w /\ (w = v \/ py_eq w v = true).
Proof.
  unfold numeric_set, numeric_fset, numeric_decide. destruct (isinstance v t) eqn:Ei; cbn [negb]; [|discriminate].
  unfold py_lt. destruct (M_Val.num v) as [f|] eqn:En; cbn [M_Val.num bind]; [|discriminate]. destruct (fl_lt f _); [discriminate|].
  destruct (o_attr o a) as [w|] eqn:Ew.
  - destruct (py_eq w v) eqn:Eq; cbn [negb]; intros H; injection H as <- <-; [exists w; auto|]. exists v. split; [|auto]. apply (set_effect E a v o).
  - assert (Q : py_eq VNone v = false) by (unfold py_eq; cbn [M_Val.num]; rewrite En; reflexivity). rewrite Q. cbn [negb]. intros H; injection H as <- <-. exists v. split; [|auto]. apply (set_effect E a v o).
Qed.
Theorem C57_confocal_wl_exc : forall a w p m, ConfocalMicroscope a w p = Ok m ->
  fst (m_get MWlExc m) = Err AttributeError /\
  exists v, o_attr (mi_exc m) A_wl = Some v /\ (v = w \/ py_eq v w = true).
Proof.
  intros a w p m H. unfold ConfocalMicroscope, make in H. destruct (confocal_init a w p (empty_micro Confocal)) as [[u|e] m'] eqn:E; [|discriminate]. injection H as ->.
  assert (K : keeps MWlExc (confocal_init a w p)).
  { unfold confocal_init. apply keeps_bind; [apply keeps_wide; discriminate|intros _]. apply keeps_bind; [intros q; apply set_other; discriminate|intros _].
    apply keeps_bind; [intros q; reflexivity|intros o0]. intros q. unfold on_exc. destruct (assign numeric _ _ _). reflexivity. }
  specialize (K (empty_micro Confocal)). rewrite E in K. cbn in K. unfold m_get. rewrite K. split; [reflexivity|].
  unfold confocal_init, mbind in E. destruct (wide_init a (empty_micro Confocal)) as [[?|?] m1] eqn:E1; [|discriminate]. destruct (m_set MPinhole p m1) as [[?|?] m2]; [|discriminate]. cbn [masks] in E.
  unfold on_exc in E. cbn [upd_exc mi_exc] in E.
  destruct (assign numeric (mi_cls m2) (SetNum A_wl w) (mi_model m2)) as [r o] eqn:Ea. injection E as -> <-. cbn [mi_exc upd_exc].
  cbn [assign] in Ea. exact (numeric_value _ _ _ _ _ _ _ Ea).
Qed.
Print Assumptions C57_confocal_wl_exc.
