(** Microscopes and phase retrieval in other units (used by T_Unit.v). *)
From Coq Require Import FunctionalExtensionality.
From Verif Require Import S_Unit S_PSF S_Hanser L_PSF L_Phase5 L_Micro T_PSF T_Object T_Scale L_Unit.
Import M_Array.
Local Open Scope R_scope.

Section Units.
Context (al be : Q) (Hal : (0 < al)%Q) (Hbe : (0 < be)%Q).
Let Hab : (0 < al * be)%Q := Qmult_lt_0_compat al be Hal Hbe.
Let Ral : 0 < Q2R al := Q2R_pos al Hal.
Let Rbe : 0 < Q2R be := Q2R_pos be Hbe.
Let Rab : 0 < Q2R al * Q2R be := Rmult_lt_0_compat _ _ Ral Rbe.
Notation osim := (osim al be).
Notation csim := (csim al be).
Notation in_units := (in_units al be).
Notation factor := (factor al be).
Notation vrel := vrel.

(** ** Dictionaries *)
Lemma dget_units d d' k : in_units d d' -> match dget d k, dget d' k with Some v, Some v' => ktimes (factor k) v v' | None, None => True | _, _ => False end.
Proof.
  induction 1 as [|[k1 v1] [k2 v2] d d' [E H] F IH]; cbn; auto. cbn in E, H. subst k2. destruct (String.eqb_spec k k1) as [->|]; auto.
Qed.
Lemma dset_units d d' k v v' : in_units d d' -> ktimes (factor k) v v' -> in_units (dset d k v) (dset d' k v').
Proof.
  intros F Hv. induction F as [|[k1 v1] [k2 v2] d d' [E H] F IH]; cbn; [constructor; [split; [reflexivity|exact Hv]|constructor]|]. cbn in E, H. subst k2. destruct (String.eqb_spec k k1) as [->|]; constructor; auto.
Qed.
Lemma dupdate_units e e' : in_units e e' -> forall d d', in_units d d' -> in_units (dupdate d e) (dupdate d' e').
Proof.
  induction 1 as [|[k1 v1] [k2 v2] e e' [E H] F IH]; intros d d' Hd; cbn; auto. cbn in E, H. subst k2. apply IH. now apply dset_units.
Qed.
Lemma asval_units u v v' : ktimes u v v' -> vrel u (as_val v) (as_val v').
Proof. destruct u as [q|]; cbn; [|now intros ->]. destruct v, v'; cbn; try contradiction; auto. Qed.
Lemma required_units d d' k : in_units d d' -> rrel (vrel (factor k)) (required d k) (required d' k).
Proof. intros H. pose proof (dget_units _ _ k H) as G. unfold required. destruct (dget d k), (dget d' k); cbn; try contradiction; auto using asval_units. Qed.
Lemma par_units d d' k : in_units d d' -> rrel (vrel (factor k)) (par_val d k) (par_val d' k).
Proof. intros H. pose proof (dget_units _ _ k H) as G. unfold par_val. destruct (dget d k), (dget d' k); cbn; try contradiction; auto using asval_units. Qed.
Lemma parR_units d d' k q : factor k = Some q -> in_units d d' -> rrel (fun x x' => x' = Q2R q * x) (par_R d k) (par_R d' k).
Proof.
  intros E H. unfold par_R. apply (rrel_bind _ _ _ _ _ _ (par_units d d' k H)). rewrite E. intros v v' Hv. exact (times_asR q v v' Hv).
Qed.
Lemma parR_same d d' k : factor k = None -> in_units d d' -> par_R d' k = par_R d k.
Proof. intros E H. pose proof (par_units d d' k H) as G. rewrite E in G. unfold par_R. destruct (par_val d k), (par_val d' k); cbn in G; try contradiction; now subst. Qed.
Lemma parZ_same d d' k : factor k = None -> in_units d d' -> par_Z d' k = par_Z d k.
Proof. intros E H. pose proof (par_units d d' k H) as G. rewrite E in G. unfold par_Z. destruct (par_val d k), (par_val d' k); cbn in G; try contradiction; now subst. Qed.
Lemma optional_units d d' k x : in_units d d' -> vrel (factor k) x x -> vrel (factor k) (optional d k x) (optional d' k x).
Proof. intros H Hx. pose proof (dget_units _ _ k H) as G. unfold optional. destruct (dget d k), (dget d' k); cbn; try contradiction; auto using asval_units. Qed.
Lemma keys_units d d' (f : string -> bool) : in_units d d' -> forallb (fun kv => f (fst kv)) d' = forallb (fun kv => f (fst kv)) d.
Proof. induction 1 as [|x x' d d' [E _] F IH]; cbn; auto. now rewrite E, IH. Qed.
Lemma zrange_units d d' : in_units d d' -> rrel (fun z z' => match z, z' with Some z, Some z' => ztimes al z z' | None, None => True | _, _ => False end) (zrange_kw d) (zrange_kw d').
Proof.
  intros H. pose proof (dget_units _ _ "zrange" H) as G. unfold zrange_kw. cbn [S_Unit.factor String.eqb Ascii.eqb Bool.eqb] in G. change (factor "zrange") with (Some al) in G. cbn [ktimes] in G.
  destruct (dget d "zrange") as [[v|z]|], (dget d' "zrange") as [[v'|z']|]; try contradiction; try exact G; try exact I; try (destruct v; contradiction).
  unfold times in G. destruct (M_Val.num v) as [f|] eqn:N, (M_Val.num v') as [f'|] eqn:N'; try contradiction.
  - destruct v; try discriminate N; destruct v'; try discriminate N'; cbn in N, N' |- *; injection N as <-; injection N' as <-; exact G.
  - subst v'. destruct v; try discriminate N; cbn; auto.
Qed.
Lemma ctor_for_units c d d' : in_units d d' -> rrel (ctor_units al be) (ctor_for c d) (ctor_for c d').
Proof.
  intros H.
  assert (Z1 : orel (Some al) (not_none (optional d "zres" VNone)) (not_none (optional d' "zres" VNone))).
  { pose proof (optional_units d d' "zres" VNone H (times_none al)) as G. cbn in G. pose proof (times_notnone al _ _ G) as N. destruct (not_none (optional d _ _)), (not_none (optional d' _ _)); cbn; auto. destruct N as [-> ->]. exact G. }
  assert (Z2 : forall k x, factor k = None -> optional d' k x = optional d k x) by (intros k x E; pose proof (optional_units d d' k x H) as G; rewrite E in G; now apply G).
  destruct c; cbn [ctor_for]; [unfold ctor_of|unfold ctor_of_sheppard]; rewrite (keys_units d d' (fun k => existsb (String.eqb k) _) H); (destruct (negb _); [reflexivity|]);
  apply (rrel_bind _ _ _ _ _ _ (required_units d d' "wl" H)); intros wl wl' Hwl; apply (rrel_bind _ _ _ _ _ _ (required_units d d' "na" H)); intros na na' Hna; apply (rrel_bind _ _ _ _ _ _ (required_units d d' "ni" H)); intros ni ni' Hni; apply (rrel_bind _ _ _ _ _ _ (required_units d d' "res" H)); intros rs rs' Hrs; apply (rrel_bind _ _ _ _ _ _ (required_units d d' "size" H)); intros sz sz' Hsz; cbn in Hwl, Hna, Hni, Hrs, Hsz.
  - apply (rrel_bind _ _ _ _ _ _ (zrange_units d d' H)). intros z z' Hz. cbn [rrel]. constructor; cbn [k_wl k_na k_ni k_res k_size k_zres k_zsize k_vec_corr k_condition k_zrange k_dual]; auto; now rewrite Z2.
  - cbn [rrel]. constructor; cbn [k_wl k_na k_ni k_res k_size k_zres k_zsize k_vec_corr k_condition k_zrange k_dual]; auto; now rewrite Z2.
Qed.

(** ** Microscopes *)
Definition mfactor (a : mattr) : option Q := match a with MWlExc => Some (al * be)%Q | MNaExc => Some be | _ => None end.
Record msim (m m' : micro) : Prop := mkMsim {
  ms_kind : mi_kind m' = mi_kind m; ms_cls : mi_cls m' = mi_cls m; ms_num : forall a, orel (mfactor a) (mi_num m a) (mi_num m' a);
  ms_params : in_units (mi_params m) (mi_params m'); ms_model : osim (mi_model m) (mi_model m'); ms_exc : osim (mi_exc m) (mi_exc m');
  ms_orient : mi_orient m' = mi_orient m; ms_wiener : mi_wiener m' = mi_wiener m; ms_psf : mi_psf m' = mi_psf m; ms_otf : mi_otf m' = mi_otf m }.
Definition ksim {A} (P : A -> A -> Prop) (c c' : MM A) : Prop := forall m m', msim m m' -> rrel P (fst (c m)) (fst (c' m')) /\ msim (snd (c m)) (snd (c' m')).
Lemma ksim_bind {A B} (P : A -> A -> Prop) (Q : B -> B -> Prop) c c' f f' : ksim P c c' -> (forall x x', P x x' -> ksim Q (f x) (f' x')) -> ksim Q (mbind c f) (mbind c' f').
Proof.
  intros H1 H2 m m' Hm. destruct (H1 m m' Hm) as [R S]. unfold mbind. destruct (c m) as [[x|e] m1], (c' m') as [[x'|e'] m1']; cbn in R |- *; try contradiction; cbn in S; [|auto]. now apply H2.
Qed.
Lemma ksim_lift {A} (P : A -> A -> Prop) r r' : rrel P r r' -> ksim P (mlift r) (mlift r').
Proof. intros H m m' Hm. cbn. auto. Qed.
Lemma ksim_ret {A} (P : A -> A -> Prop) x x' : P x x' -> ksim P (mret x) (mret x').
Proof. intros H m m' Hm. cbn. auto. Qed.
Lemma ksim_same {A} (r : res A) : ksim same (mlift r) (mlift r).
Proof. apply ksim_lift, rrel_refl. Qed.
Lemma ksim_get a : ksim (vrel (mfactor a)) (m_get a) (m_get a).
Proof. intros m m' Hm. pose proof (ms_num _ _ Hm a) as H. unfold m_get. destruct (mi_num m a), (mi_num m' a); cbn in H; try contradiction; cbn; auto. Qed.
Lemma ksim_asks {A} (P : A -> A -> Prop) (f : micro -> A) : (forall m m', msim m m' -> P (f m) (f m')) -> ksim P (masks f) (masks f).
Proof. intros H m m' Hm. cbn. auto. Qed.
Lemma ksim_on_model {A} (P : A -> A -> Prop) c c' : csim P c c' -> ksim P (on_model c) (on_model c').
Proof.
  intros H m m' Hm. destruct (H _ _ (ms_model _ _ Hm)) as [R S]. unfold on_model. destruct (c (mi_model m)) as [r o], (c' (mi_model m')) as [r' o']. cbn in *. split; [exact R|]. destruct Hm. constructor; cbn; auto.
Qed.
Lemma ksim_on_exc {A} (P : A -> A -> Prop) c c' : csim P c c' -> ksim P (on_exc c) (on_exc c').
Proof.
  intros H m m' Hm. destruct (H _ _ (ms_exc _ _ Hm)) as [R S]. unfold on_exc. destruct (c (mi_exc m)) as [r o], (c' (mi_exc m')) as [r' o']. cbn in *. split; [exact R|]. destruct Hm. constructor; cbn; auto.
Qed.
Lemma ksim_psfi : ksim same model_PSFi model_PSFi.
Proof.
  intros m m' Hm. unfold model_PSFi. rewrite (ms_cls _ _ Hm). destruct (csim_read al be Hal Hbe (mi_cls m) PSFi _ _ (ms_model _ _ Hm)) as [R S]. destruct (read numeric (mi_cls m) PSFi (mi_model m)) as [r o], (read numeric (mi_cls m) PSFi (mi_model m')) as [r' o']. cbn in *. split; [apply rrel_eq in R; subst; apply rrel_refl|]. destruct Hm. constructor; cbn; auto.
Qed.
Lemma ksim_otfi : ksim same model_OTFi model_OTFi.
Proof.
  intros m m' Hm. unfold model_OTFi. rewrite (ms_cls _ _ Hm). destruct (csim_read al be Hal Hbe (mi_cls m) OTFi _ _ (ms_model _ _ Hm)) as [R S]. destruct (read numeric (mi_cls m) OTFi (mi_model m)) as [r o], (read numeric (mi_cls m) OTFi (mi_model m')) as [r' o']. cbn in *. split; [apply rrel_eq in R; subst; apply rrel_refl|]. destruct Hm. constructor; cbn; auto.
Qed.
Lemma ksim_excpsfi : ksim same exc_PSFi exc_PSFi.
Proof.
  intros m m' Hm. unfold exc_PSFi. rewrite (ms_cls _ _ Hm). destruct (csim_read al be Hal Hbe (mi_cls m) PSFi _ _ (ms_exc _ _ Hm)) as [R S]. destruct (read numeric (mi_cls m) PSFi (mi_exc m)) as [r o], (read numeric (mi_cls m) PSFi (mi_exc m')) as [r' o']. cbn in *. split; [apply rrel_eq in R; subst; apply rrel_refl|]. destruct Hm. constructor; cbn; auto.
Qed.
Definition sc (q : Q) (x x' : R) : Prop := x' = Q2R q * x.
Lemma ksim_modelR a q : afactor al be a = Some q -> ksim (sc q) (model_R a) (model_R a).
Proof.
  intros E. unfold model_R. apply ksim_on_model. apply (csim_bind _ _ _ _ _ _ _ _ (csim_get al be a)). rewrite E. intros v v' Hv. apply csim_lift. exact (times_asR q v v' Hv).
Qed.
Lemma rdiv_scale k l x y : l <> 0 -> rrel (fun z z' => z' = k / l * z) (rdiv x y) (rdiv (k * x) (l * y)).
Proof.
  intros Hl. unfold rdiv. rewrite (zero_scale l) by exact Hl. destruct (Req_EM_T y 0) as [->|Hy]; cbn; [reflexivity|]. field. auto.
Qed.
Lemma rdiv_same k x y : k <> 0 -> rdiv (k * x) (k * y) = rdiv x y.
Proof. intros Hk. unfold rdiv. rewrite (zero_scale k) by exact Hk. destruct (Req_EM_T y 0); [reflexivity|]. now rewrite ratio_scale. Qed.
Lemma ksim_confocal : ksim same confocal_psf confocal_psf.
Proof.
  unfold confocal_psf. apply (ksim_bind _ _ _ _ _ _ (ksim_modelR A_wl _ eq_refl)). intros wl wl' Hwl. apply (ksim_bind _ _ _ _ _ _ (ksim_modelR A_na _ eq_refl)). intros na na' Hna. unfold sc in Hwl, Hna. rewrite Q2R_mult in Hwl.
  assert (D : rrel (fun z z' => z' = Q2R al * z) (rdiv (122 / 100 * wl) na) (rdiv (122 / 100 * wl') na')).
  { rewrite Hwl, Hna. replace (122 / 100 * (Q2R al * Q2R be * wl)) with (Q2R al * Q2R be * (122 / 100 * wl)) by ring. pose proof (rdiv_scale (Q2R al * Q2R be) (Q2R be) (122 / 100 * wl) na ltac:(lra)) as G. destruct (rdiv _ na), (rdiv _ (Q2R be * na)); cbn in *; auto. rewrite G. field. lra. }
  apply (ksim_bind _ _ _ _ _ _ (ksim_lift _ _ _ D)). intros t t' Ht. apply (ksim_bind _ _ _ _ _ _ (ksim_modelR A_res _ eq_refl)). intros rs rs' Hrs. unfold sc in Hrs.
  rewrite Ht, Hrs, rdiv_same by lra. apply (ksim_bind _ _ _ _ _ _ (ksim_same _)). intros au au' ->. apply (ksim_bind _ _ _ _ _ _ (ksim_get MPinhole)). intros ph ph' Hph. cbn in Hph. subst ph'.
  apply (ksim_bind _ _ _ _ _ _ (ksim_same _)). intros p p' ->. cbv zeta. apply (ksim_bind _ _ _ _ _ _ ksim_psfi). intros det det' ->. apply (ksim_bind same).
  - destruct (Rlt_dec _ _); [apply ksim_same|now apply ksim_ret].
  - intros x x' ->. apply (ksim_bind _ _ _ _ _ _ ksim_excpsfi). intros e e' ->. apply ksim_same.
Qed.
Lemma ksim_apotome : ksim same apotome_psf apotome_psf.
Proof.
  unfold apotome_psf. apply (ksim_bind _ _ _ _ _ _ ksim_psfi). intros p p' ->. apply (ksim_bind _ _ _ _ _ _ (ksim_same _)). intros rows rows' ->.
  apply (ksim_bind in_units); [apply ksim_asks; intros m m' Hm; apply Hm|]. intros d d' Hd.
  assert (N : rrel (sc al) (do wl <- par_R d "wl"; do na <- par_R d "na"; do q <- rdiv wl na; Ok (q / 4)) (do wl <- par_R d' "wl"; do na <- par_R d' "na"; do q <- rdiv wl na; Ok (q / 4))).
  { apply (rrel_bind _ _ _ _ _ _ (parR_units d d' "wl" _ eq_refl Hd)). intros wl wl' ->. apply (rrel_bind _ _ _ _ _ _ (parR_units d d' "na" _ eq_refl Hd)). intros na na' ->. rewrite Q2R_mult.
    apply (rrel_bind _ _ _ _ _ _ (rdiv_scale (Q2R al * Q2R be) (Q2R be) wl na ltac:(lra))). intros q q' ->. cbn. unfold sc. field. lra. }
  apply (ksim_bind _ _ _ _ _ _ (ksim_lift _ _ _ N)). intros nyq nyq' Hn. unfold sc in Hn.
  apply (ksim_bind same).
  - apply ksim_lift. apply rrel_eq. rewrite (parR_same d d' "size" eq_refl Hd). destruct (par_R d "size") as [n|]; [|reflexivity]. cbn [bind]. pose proof (parR_units d d' "res" _ eq_refl Hd) as G. destruct (par_R d "res") as [r|], (par_R d' "res") as [r'|]; cbn in G; try contradiction; [|now rewrite G]. cbn [bind]. rewrite G, Hn.
    replace (n * (Q2R al * r)) with (Q2R al * (n * r)) by ring. now rewrite rdiv_same by lra.
  - intros lim lim' ->. apply (ksim_bind _ _ _ _ _ _ (ksim_same _)). intros ax ax' ->. apply ksim_same.
Qed.
Lemma ksim_base : ksim same sim_base sim_base.
Proof.
  unfold sim_base. apply (ksim_bind same); [apply ksim_asks; intros m m' Hm; apply (ms_wiener _ _ Hm)|]. intros w w' ->.
  assert (G : ksim same (let! ok := mlift (py_ge w (VInt 0)) in
    if ok then let! o := model_OTFi in let otf := power (fst o) in
      if py_eq w (VInt 0) then mret (ifft_real (support otf), snd o)
      else match M_Val.num w with
        | Some (FFin q) => let! mx := mlift (r_max otf) in let w2 := mx * Q2R q ^ 2 in
            mret (ifft_real (amap (wiener_factor w2) otf), snd o && forallb (fun ix => if Req_EM_T (get otf ix + w2) 0 then false else true) (all_ix (shape otf)))
        | _ => let! _ := mlift (r_max otf) in mret (otf, false) end
    else mlift (Err ValueError)) (let! ok := mlift (py_ge w (VInt 0)) in
    if ok then let! o := model_OTFi in let otf := power (fst o) in
      if py_eq w (VInt 0) then mret (ifft_real (support otf), snd o)
      else match M_Val.num w with
        | Some (FFin q) => let! mx := mlift (r_max otf) in let w2 := mx * Q2R q ^ 2 in
            mret (ifft_real (amap (wiener_factor w2) otf), snd o && forallb (fun ix => if Req_EM_T (get otf ix + w2) 0 then false else true) (all_ix (shape otf)))
        | _ => let! _ := mlift (r_max otf) in mret (otf, false) end
    else mlift (Err ValueError))).
  { apply (ksim_bind _ _ _ _ _ _ (ksim_same _)). intros ok ok' ->. destruct ok; [|apply ksim_same]. apply (ksim_bind _ _ _ _ _ _ ksim_otfi). intros o o' ->. cbv zeta. destruct (py_eq w (VInt 0)); [now apply ksim_ret|].
    destruct (M_Val.num w) as [[| |]|]; (apply (ksim_bind _ _ _ _ _ _ (ksim_same _)); intros x x' ->; now apply ksim_ret). }
  destruct w; try exact G. apply ksim_psfi.
Qed.
Lemma wave_units n zsize xx xx' zz zz' freq freq' o t : (forall i, xx' i = Q2R al * xx i) -> (forall i, zz' i = Q2R al * zz i) -> freq' = / Q2R al * freq -> wave_pattern n zsize xx' zz' freq' o t = wave_pattern n zsize xx zz freq o t.
Proof.
  intros Hx Hz ->. unfold wave_pattern. f_equal. apply functional_extensionality. intros [|z [|y [|x [|]]]]; try reflexivity. rewrite !Hx, !Hz. f_equal. field. lra.
Qed.
Lemma base_units dc zsize zz zz' freq freq' sh : (forall i, zz' i = Q2R al * zz i) -> freq' = / Q2R al * freq -> base_pattern dc zsize zz' freq' sh = base_pattern dc zsize zz freq sh.
Proof.
  intros Hz ->. unfold base_pattern. destruct dc; [|reflexivity]. f_equal. apply functional_extensionality. intros [|z r]; [reflexivity|]. rewrite Hz. f_equal. field. lra.
Qed.
Lemma beams_units n zsize xx xx' zz zz' freq freq' alpha o e : (forall i, xx' i = Q2R al * xx i) -> (forall i, zz' i = Q2R al * zz i) -> freq' = / Q2R al * freq -> add_beams n zsize xx' zz' freq' alpha o e = add_beams n zsize xx zz freq alpha o e.
Proof. intros Hx Hz Hf. unfold add_beams. now rewrite !(wave_units n zsize xx xx' zz zz' freq freq'). Qed.
Lemma ksim_sim : ksim same sim_psf sim_psf.
Proof.
  unfold sim_psf. apply (ksim_bind in_units); [apply ksim_asks; intros m m' Hm; apply Hm|]. intros d d' Hd.
  rewrite (parZ_same d d' "size" eq_refl Hd), (parZ_same d d' "zsize" eq_refl Hd).
  apply (ksim_bind _ _ _ _ _ _ (ksim_same _)). intros n n' ->. apply (ksim_bind _ _ _ _ _ _ (ksim_lift _ _ _ (parR_units d d' "res" _ eq_refl Hd))). intros rs rs' Hrs. apply (ksim_bind _ _ _ _ _ _ (ksim_same _)). intros nz nz' ->.
  apply (ksim_bind _ _ _ _ _ _ (ksim_lift _ _ _ (parR_units d d' "zres" _ eq_refl Hd))). intros zr zr' Hzr. apply (ksim_bind _ _ _ _ _ _ (ksim_lift _ _ _ (parR_units d d' "ni" _ eq_refl Hd))). intros ni ni' Hni.
  apply (ksim_bind _ _ _ _ _ _ (ksim_get MWlExc)). intros w w' Hw. cbn in Hw. apply (ksim_bind (sc (al * be))); [apply ksim_lift; exact (times_asR _ _ _ Hw)|]. intros wl wl' Hwl. unfold sc in Hwl. rewrite Q2R_mult in Hwl.
  assert (F : rrel (fun f f' => f' = / Q2R al * f) (rdiv (2 * PI * ni) wl) (rdiv (2 * PI * ni') wl')).
  { rewrite Hni, Hwl. replace (2 * PI * (Q2R be * ni)) with (Q2R be * (2 * PI * ni)) by ring. pose proof (rdiv_scale (Q2R be) (Q2R al * Q2R be) (2 * PI * ni) wl ltac:(lra)) as G. destruct (rdiv _ wl), (rdiv _ (_ * wl)); cbn in *; auto. rewrite G. field. lra. }
  apply (ksim_bind _ _ _ _ _ _ (ksim_lift _ _ _ F)). intros f f' Hf. apply (ksim_bind _ _ _ _ _ _ (ksim_get MNaExc)). intros a a' Ha. cbn in Ha. apply (ksim_bind (sc be)); [apply ksim_lift; exact (times_asR _ _ _ Ha)|]. intros na na' Hna. unfold sc in Hna. rewrite Hna, Hni, rdiv_same by lra.
  apply (ksim_bind _ _ _ _ _ _ (ksim_same _)). intros s s' ->. cbv zeta. apply (ksim_bind _ _ _ _ _ _ ksim_base). intros psf psf' ->.
  apply (ksim_bind _ _ _ _ _ _ (ksim_get MDc)). intros dc dc' Hdc. cbn in Hdc. subst dc'. apply (ksim_bind _ _ _ _ _ _ (ksim_get MCoherent)). intros co co' Hco. cbn in Hco. subst co'. apply (ksim_bind _ _ _ _ _ _ (ksim_get MDcSup)). intros su su' Hsu. cbn in Hsu. subst su'.
  apply (ksim_bind same); [apply ksim_asks; intros m m' Hm; apply (ms_orient _ _ Hm)|]. intros os os' ->.
  assert (Cx : forall i, centred n rs' i = Q2R al * centred n rs i) by (intros i; unfold centred; rewrite Hrs; ring).
  assert (Cz : forall i, centred nz zr' i = Q2R al * centred nz zr i) by (intros i; unfold centred; rewrite Hzr; ring).
  rewrite (base_units (py_bool dc) nz _ _ f f' (shape (fst psf)) Cz Hf).
  assert (E1 : forall l e, coherent_field n nz (centred n rs') (centred nz zr') f' (asin s) l e = coherent_field n nz (centred n rs) (centred nz zr) f (asin s) l e).
  { induction l as [|o l IH]; intros e; cbn [coherent_field]; auto. rewrite (beams_units n nz _ _ _ _ f f' (asin s) o e Cx Cz Hf). destruct (add_beams _ _ _ _ _ _ _ _); cbn [bind]; auto. }
  assert (E2 : forall p b l e, incoherent n nz (centred n rs') (centred nz zr') f' (asin s) p b l e = incoherent n nz (centred n rs) (centred nz zr) f (asin s) p b l e).
  { intros p b. induction l as [|o l IH]; intros e; cbn [incoherent]; auto. rewrite (beams_units n nz _ _ _ _ f f' (asin s) o b Cx Cz Hf). destruct (add_beams _ _ _ _ _ _ _ _); cbn [bind]; auto. destruct (apply_pattern _ _); cbn [bind]; auto. destruct (ibop _ _ _); cbn [bind]; auto. }
  unfold coherent. rewrite E1, E2. destruct (py_bool co); apply ksim_same.
Qed.
Lemma ksim_modelpsf : ksim same model_psf model_psf.
Proof.
  intros m m' Hm. unfold model_psf. rewrite (ms_kind _ _ Hm). destruct (mi_kind m); [apply ksim_psfi|apply ksim_confocal|apply ksim_apotome|apply ksim_sim]; exact Hm.
Qed.
Lemma ksim_compute : ksim same compute_psf compute_psf.
Proof.
  unfold compute_psf. apply (ksim_bind _ _ _ _ _ _ ksim_modelpsf). intros p p' ->. apply (ksim_bind _ _ _ _ _ _ (ksim_get MOs)). intros o o' Ho. cbn in Ho. subst o'. apply (ksim_bind in_units); [apply ksim_asks; intros m m' Hm; apply Hm|]. intros d d' Hd.
  rewrite (parZ_same d d' "size" eq_refl Hd). apply (ksim_bind _ _ _ _ _ _ (ksim_same _)). intros b b' ->. now apply ksim_ret.
Qed.
Lemma ksim_PSF : ksim same m_PSF m_PSF.
Proof.
  intros m m' Hm. unfold m_PSF. rewrite (ms_psf _ _ Hm). destruct (mi_psf m); [split; [reflexivity|exact Hm]|]. apply (ksim_bind same same compute_psf compute_psf); auto using ksim_compute. intros x x' ->. intros q q' Hq. cbn. split; [reflexivity|]. destruct Hq. constructor; cbn; auto.
Qed.
Lemma ksim_OTF : ksim same m_OTF m_OTF.
Proof.
  intros m m' Hm. unfold m_OTF. rewrite (ms_otf _ _ Hm). destruct (mi_otf m); [split; [reflexivity|exact Hm]|]. apply (ksim_bind same same m_PSF m_PSF); auto using ksim_PSF. intros x x' ->. intros q q' Hq. cbn. split; [reflexivity|]. destruct Hq. constructor; cbn; auto.
Qed.

(** ** Constructing them *)
Lemma ksim_set a v v' : vrel (mfactor a) v v' -> isinstance v' (mtype a) = isinstance v (mtype a) -> ksim same (m_set a v) (m_set a v').
Proof.
  intros Hv Ht m m' Hm. unfold m_set. rewrite (ms_kind _ _ Hm). destruct (has_prop (mi_kind m) a); [|split; [reflexivity|exact Hm]]. unfold numeric_fset.
  assert (E : numeric_decide (mi_num m' a) (mtype a) v' = numeric_decide (mi_num m a) (mtype a) v).
  { unfold numeric_decide. rewrite Ht. destruct (negb _); [reflexivity|]. pose proof (ms_num _ _ Hm a) as Ha. unfold L_Unit.vrel in Hv. destruct (mfactor a) as [q|] eqn:F.
    - assert (Hq : (0 < q)%Q) by (destruct a; try discriminate F; cbn in F; injection F as <-; auto). rewrite (times_lt q Hq v v' (VInt 0) (VInt 0) Hv (times_zero q)). destruct (py_lt v (VInt 0)) as [[|]|]; cbn [bind]; auto. do 2 f_equal.
      destruct (mi_num m a) as [w|], (mi_num m' a) as [w'|]; cbn in Ha; try contradiction; apply (times_eq q Hq); auto using times_none.
    - subst v'. destruct (py_lt v (VInt 0)) as [[|]|]; cbn [bind]; auto. do 3 f_equal. destruct (mi_num m a) as [w|], (mi_num m' a) as [w'|]; cbn in Ha; try contradiction; auto. }
  rewrite E. destruct (numeric_decide (mi_num m a) (mtype a) v) as [[|]|e]; cbn [fst snd]; try (split; [reflexivity|exact Hm]). split; [reflexivity|]. destruct Hm. constructor; cbn; auto.
  intros b. destruct (mattr_eqb a b) eqn:E2; [|apply ms_num0]. assert (a = b) as <- by (destruct a, b; cbn in E2; congruence). exact Hv.
Qed.
Lemma div_units v v' n : times al v v' -> (n <> 0)%Z -> rrel (times al) (py_div_int v n) (py_div_int v' n).
Proof.
  intros H Hn. unfold py_div_int.
  assert (G : rrel (times al) (match M_Val.num v with Some f => do q <- fl_div f (FFin (inject_Z n)); Ok (VFloat q) | None => Err TypeError end) (match M_Val.num v' with Some f => do q <- fl_div f (FFin (inject_Z n)); Ok (VFloat q) | None => Err TypeError end)).
  { pose proof H as H'. unfold times in H'. destruct (M_Val.num v) as [f|], (M_Val.num v') as [f'|]; try contradiction; [|reflexivity]. pose proof (fl_div_times al 1 f f' (FFin (inject_Z n)) (FFin (inject_Z n)) Hal eq_refl H' (ftimes_one _)) as D.
    apply (rrel_bind _ _ _ _ _ _ D). intros x x' Hx. cbn. apply (ftimes_ext (al / 1)); [field|exact Hx]. }
  destruct v, v'; try exact G; try (exfalso; exact H); try (discriminate H).  reflexivity.
Qed.
Lemma params0_units a a' : wide_units al be a a' -> in_units (psf_params0 a) (psf_params0 a').
Proof.
  intros (W1 & W2 & W3 & W4 & W5 & W6 & W7 & W8). unfold psf_params0. apply dupdate_units; [exact W8|]. repeat (constructor; [split; [reflexivity|]; cbn; auto; try congruence|]). constructor.
Qed.
Lemma ksim_wide a a' : wide_units al be a a' -> ksim same (wide_init a) (wide_init a').
Proof.
  intros W. pose proof (params0_units a a' W) as P0. destruct W as (W1 & W2 & W3 & W4 & W5 & W6 & W7 & W8). unfold wide_init. rewrite W1, W5, W7.
  apply (ksim_bind same); [now apply ksim_set|]. intros _ _ _. cbv zeta. destruct (negb _); [apply ksim_same|]. apply (ksim_bind in_units).
  - destruct (as_int (w_os a) =? 1)%Z; [apply ksim_ret; apply dset_units; [apply dset_units|]; auto; reflexivity|]. destruct (1 <? as_int (w_os a))%Z eqn:L; [|apply ksim_lift; reflexivity]. apply Z.ltb_lt in L. apply ksim_lift.
    destruct (py_mul_int (w_size a) (as_int (w_os a))) as [s|]; [|reflexivity]. cbn [bind]. apply (rrel_bind _ _ _ _ _ _ (div_units _ _ (as_int (w_os a)) W6 ltac:(lia))). intros r r' Hr. cbn [rrel]. apply dset_units; [apply dset_units|]; auto; reflexivity.
  - intros d d' Hd. apply (ksim_bind same); [now apply ksim_set|]. intros _ _ _. apply (ksim_bind _ _ _ _ _ _ (ksim_same _)). intros c c' ->. apply (ksim_bind _ _ _ _ _ _ (ksim_lift _ _ _ (ctor_for_units c d d' Hd))). intros k k' Hk. apply (ksim_bind _ _ _ _ _ _ (ksim_lift _ _ _ (construct_units al be Hal Hbe c k k' Hk))). intros o o' Ho.
    intros m m' Hm. cbn. split; [reflexivity|]. destruct Hm. constructor; cbn; auto.
Qed.
Lemma empty_units k : msim (empty_micro k) (empty_micro k).
Proof. assert (E : osim (empty_obj numeric) (empty_obj numeric)) by (constructor; cbn; auto; intros; exact I). constructor; cbn; auto; try exact E; try (intros; exact I); try constructor. Qed.
Lemma make_units k c c' : ksim same c c' -> rrel msim (make k c) (make k c').
Proof. intros H. destruct (H _ _ (empty_units k)) as [R S]. unfold make. destruct (c (empty_micro k)) as [[u|e] m], (c' (empty_micro k)) as [[u'|e'] m']; cbn in *; try contradiction; auto. Qed.
Lemma ksim_confocal_init a a' w w' ph : wide_units al be a a' -> times (al * be) w w' -> ksim same (confocal_init a w ph) (confocal_init a' w' ph).
Proof.
  intros W Hw. unfold confocal_init. apply (ksim_bind _ _ _ _ _ _ (ksim_wide a a' W)). intros _ _ _. apply (ksim_bind same); [now apply ksim_set|]. intros _ _ _. apply (ksim_bind osim); [apply ksim_asks; intros m m' Hm; apply Hm|]. intros o o' Ho m m' Hm.
  rewrite (ms_cls _ _ Hm). apply ksim_on_exc; [apply (csim_assign al be Hal Hbe); split; [reflexivity|exact Hw]|]. destruct Hm. constructor; cbn; auto.
Qed.
Lemma at_bind {A B} (P : A -> A -> Prop) (Q : B -> B -> Prop) (c c' : MM A) (f f' : A -> MM B) m m' : rrel P (fst (c m)) (fst (c' m')) /\ msim (snd (c m)) (snd (c' m')) ->
  (forall x x' m1 m1', c m = (Ok x, m1) -> c' m' = (Ok x', m1') -> P x x' -> msim m1 m1' -> rrel Q (fst (f x m1)) (fst (f' x' m1')) /\ msim (snd (f x m1)) (snd (f' x' m1'))) ->
  rrel Q (fst (mbind c f m)) (fst (mbind c' f' m')) /\ msim (snd (mbind c f m)) (snd (mbind c' f' m')).
Proof.
  intros [R S] H. unfold mbind. destruct (c m) as [[x|e] m1], (c' m') as [[x'|e'] m1']; cbn in R, S; try contradiction; [|auto]. now apply H.
Qed.
Lemma dget_dupdate_other e : forall d k, dget e k = None -> dget (dupdate d e) k = dget d k.
Proof.
  induction e as [|[k1 v] e IH]; intros d k H; cbn in *; auto. destruct (String.eqb_spec k k1) as [|N]; [discriminate|]. rewrite IH by exact H. rewrite dget_dset. destruct (String.eqb_spec k k1); congruence.
Qed.
Lemma wide_params a m u m1 : wide_init a m = (Ok u, m1) -> (dget (w_kwargs a) "na" = None -> dget (mi_params m1) "na" = Some (KV (w_na a))) /\ (dget (w_kwargs a) "wl" = None -> dget (mi_params m1) "wl" = Some (KV (w_wl a))).
Proof.
  unfold wide_init. unfold mbind at 1. destruct (m_set MOs (w_os a) m) as [[?|] q1]; [|discriminate]. cbv zeta. destruct (negb _); [discriminate|].
  assert (X : forall s r, (dget (w_kwargs a) "na" = None -> dget (dset (dset (psf_params0 a) "size" s) "res" r) "na" = Some (KV (w_na a))) /\ (dget (w_kwargs a) "wl" = None -> dget (dset (dset (psf_params0 a) "size" s) "res" r) "wl" = Some (KV (w_wl a)))).
  { intros s r. split; intros H; rewrite !dget_dset; cbn [String.eqb Ascii.eqb Bool.eqb]; unfold psf_params0; rewrite (dget_dupdate_other _ _ _ H); reflexivity. }
  assert (Y : forall d q, mbind (m_set MOs (w_os a)) (fun _ => let! c := mlift (choose_model (w_model a)) in let! k := mlift (ctor_for c d) in let! o := mlift (construct numeric c k) in
    (fun m => (Ok tt, mkMicro (mi_kind m) c (mi_num m) d (w_pixel a) o (mi_exc m) (mi_orient m) (mi_wiener m) (mi_psf m) (mi_otf m)))) q = (Ok u, m1) -> mi_params m1 = d).
  { intros d q. unfold mbind, mlift. destruct (m_set MOs (w_os a) q) as [[?|] q2]; [|discriminate]. destruct (choose_model _); [|discriminate]. destruct (ctor_for _ _); [|discriminate]. destruct (construct _ _ _); [|discriminate]. now intros [= _ <-]. }
  unfold mbind at 1. destruct (as_int (w_os a) =? 1)%Z; [cbn [mret]; intros H; apply Y in H; rewrite H; apply X|]. destruct (1 <? as_int (w_os a))%Z; [|discriminate]. unfold mlift at 1. destruct (py_mul_int _ _); [|discriminate]. cbn [bind]. destruct (py_div_int _ _); [|discriminate]. cbn [bind]. intros H; apply Y in H; rewrite H; apply X.
Qed.
Lemma ksim_sim_init a a' s s' : wide_units al be a a' -> sim_units al be s s' -> same_type (w_na a) (w_na a') -> same_type (w_wl a) (w_wl a') -> same_type (s_na_exc s) (s_na_exc s') -> same_type (s_wl_exc s) (s_wl_exc s') ->
  dget (w_kwargs a) "na" = None -> dget (w_kwargs a) "wl" = None -> dget (w_kwargs a') "na" = None -> dget (w_kwargs a') "wl" = None -> ksim same (sim_init a s) (sim_init a' s').
Proof.
  intros W (S1 & S2 & S3 & S4 & S5 & S6 & S7) T1 T2 T3 T4 K1 K2 K3 K4 m m' Hm. unfold sim_init. rewrite S3, S4, S5, S6, S7.
  refine (at_bind same same _ _ _ _ m m' (ksim_wide a a' W m m' Hm) _). intros u u' m1 m1' E1 E2 _ S.
  destruct (wide_params _ _ _ _ E1) as [G1 G2]. destruct (wide_params _ _ _ _ E2) as [G3 G4]. specialize (G1 K1). specialize (G2 K2). specialize (G3 K3). specialize (G4 K4). clear E1 E2.
  assert (X : rrel (fun v v' => times be v v' /\ same_type v v') (match s_na_exc s with VNone => par_val (mi_params m1) "na" | v => Ok v end) (match s_na_exc s' with VNone => par_val (mi_params m1') "na" | v => Ok v end)).
  { unfold par_val. rewrite G1, G3. destruct W as (_ & W2 & _). destruct (s_na_exc s), (s_na_exc s'); try (discriminate S1); try contradiction; cbn [rrel as_val]; auto; split; assumption. }
  assert (Y : rrel (fun v v' => times (al * be) v v' /\ same_type v v') (match s_wl_exc s with VNone => par_val (mi_params m1) "wl" | v => Ok v end) (match s_wl_exc s' with VNone => par_val (mi_params m1') "wl" | v => Ok v end)).
  { unfold par_val. rewrite G2, G4. destruct W as (_ & _ & _ & W4 & _). destruct (s_wl_exc s), (s_wl_exc s'); try (discriminate S2); try contradiction; cbn [rrel as_val]; auto; split; assumption. }
  apply (at_bind (fun d d' => d = mi_params m1 /\ d' = mi_params m1') same); [cbn; auto|]. intros d d' q q' _ _ [-> ->] Hq. clear G1 G2 G3 G4.
  set (d := mi_params m1) in *. set (d' := mi_params m1') in *. clearbody d d'. revert q q' Hq.
  apply (ksim_bind _ _ _ _ _ _ (ksim_lift _ _ _ X)). intros v v' [V1 V2]. apply (ksim_bind same); [now apply ksim_set|]. intros _ _ _. apply (ksim_bind _ _ _ _ _ _ (ksim_lift _ _ _ Y)). intros w w' [V3 V4].
  apply (ksim_bind same); [now apply ksim_set|]. intros _ _ _. apply (ksim_bind same); [now apply ksim_set|]. intros _ _ _. apply (ksim_bind same); [now apply ksim_set|]. intros _ _ _. apply (ksim_bind same); [now apply ksim_set|]. intros _ _ _.
  apply (ksim_bind same); [intros q q' Hq; cbn; split; [reflexivity|]; destruct Hq; constructor; cbn; auto|]. intros _ _ _. apply (ksim_bind _ _ _ _ _ _ (ksim_same _)). intros n n' ->. destruct n; apply ksim_same.
Qed.
End Units.
