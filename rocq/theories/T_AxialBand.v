(** C113: the axial frequencies of microscopes with a Sheppard model. *)
From Verif Require Import S_FFT S_Hanser S_Shell S_Micro S_Confocal S_Bin S_AxialBand L_Sum L_Bin L_PSF L_Ctor L_Phase5 L_Micro T_PSF T_PSF2 T_Bin L_Array L_FFT L_FFT2 T_FFT L_Phase2 L_Polar T_Hanser T_Object T_Micro T_Micro2 T_Micro3 L_Micro2 T_Micro4 T_Micro5 T_Confocal T_Confocal2 L_Hanser L_Hanser2 L_Sheppard L_Sheppard2 L_Sheppard3 T_Sheppard L_Band L_Lateral L_ShellCap T_Lateral T_Lateral2 L_AxialBand L_Auto3 T_Auto.
Import M_Array.
Local Open Scope R_scope.

(** every pixel of the PSF, as a function of the plane *)
Lemma AS_shell p A y x : s_physical p -> M_Sheppard.gen_otf p = Ok A -> all_numbers A -> (0 <= y < s_size p)%Z -> (0 <= x < s_size p)%Z ->
  AS (s_zsize p) (planes_apart p A) (fun z => RtoC (Re (cval (get (amap ocplx (s_psfi (s_psfa A))) [z; y; x])))).
Proof.
  intros Hp HA Hf Hy Hx. pose proof (gen_otf_inv p Hp A HA) as EA. pose proof (otf_shape p) as HS. rewrite <- EA in HS. unfold all_numbers in Hf. rewrite HS in Hf.
  pose proof (proj2 (psf_finite p A HS Hf)) as V. set (n := s_size p) in *. set (nz := s_zsize p) in *. set (M := masked_size [false; true; true; true] [components (s_vec p); nz; n; n]).
  set (W := fun c l => mop kicen [true; true] [n; n] (fun ix => cval (get A (c :: l :: ix))) [y; x]). set (fld := fun c z => RtoC (/ IZR M) *c Csum (zseq nz) (fun l => kicen nz z l *c W c l)).
  apply (AS_ext nz _ (fun z => Csum (zseq (components (s_vec p))) (fun c => fld c z *c Cconj (fld c z)))).
  { intros z Hz. cbn [amap get]. rewrite V by (now apply inb3). cbn [ocplx cval RtoC Re fst]. fold (RtoC (Rsum (zseq (components (s_vec p))) (fun c => Cnorm2 (get (easy_ifft (Some [1%nat; 2%nat; 3%nat]) (amap cval A)) [c; z; y; x])))).
    rewrite Csum_RtoC. apply Csum_ext. intros c Hc. apply in_zseq in Hc. rewrite <- Cnorm2_conj. f_equal. f_equal.
    rewrite easy_ifft_mop by (cbn [amap shape]; rewrite HS; apply inb_cons; split; [exact Hc|now apply inb3]). cbn [amap shape]. rewrite HS. reflexivity. }
  apply AS_sum. intros c Hc. apply in_zseq in Hc.
  assert (F : AS nz (fun s => exists l, lit_plane p A l /\ s = (l + nz / 2)%Z) (fld c)).
  { unfold fld. apply AS_scal. apply AS_sum. intros l Hl. apply in_zseq in Hl. destruct (Classical_Prop.classic (lit_plane p A l)) as [L|L].
    - apply (AS_ext nz _ (fun z => (root nz (nz / 2 * (l + nz / 2)) *c W c l) *c root nz ((l + nz / 2) * z))).
      { intros z _. unfold kicen. replace ((l + nz / 2) * (z + nz / 2))%Z with (nz / 2 * (l + nz / 2) + (l + nz / 2) * z)%Z by ring. rewrite root_add. ring. }
      apply AS_wave. exists l. now split.
    - apply (AS_ext nz _ (fun _ => RtoC 0)); [|apply AS_null]. intros z _. replace (W c l) with (RtoC 0); [ring|]. symmetry. unfold W.
      rewrite (mop_ext _ _ _ _ (fun _ => RtoC 0 *c RtoC 0)); [rewrite mop_scal; ring|now apply inb2|]. intros js Hj. destruct (inb2_inv _ _ _ Hj) as (ky & kx & -> & H1 & H2).
      replace (get A [c; l; ky; kx]) with (Some (RtoC 0)); [cbn [cval]; ring|]. symmetry. apply Classical_Prop.NNPP. intros N. apply L. split; [exact Hl|]. exists c, ky, kx. split; [exact Hc|]. split; [now split|exact N]. }
  eapply AS_weaken; [|exact (AS_mult _ _ _ _ _ F (AS_conj _ _ _ F))]. intros s (a & b & (l & L1 & ->) & (l' & L2 & E) & ->). exists l, l'. split; [exact L1|]. split; [exact L2|]. lia.
Qed.

(** Widefield: an axial frequency that no two lit planes are apart is absent, whatever the binning. *)
Theorem C113_widefield : forall a m A,
  kwargs_ok a -> WidefieldMicroscope a = Ok m -> mi_cls m = Sheppard ->
  let p := spar_of (obj_params (mi_model m)) in
  s_physical p -> M_Sheppard.gen_otf p = Ok A -> all_numbers A -> (exists l, lit_plane p A l) ->
  exists n otf, int_value (w_size a) = Some n /\ fst (m_OTF m) = Ok otf /\ shape otf = [s_zsize p; n; n] /\
    forall kz, (0 <= kz < s_zsize p)%Z -> (forall s, planes_apart p A s -> ~ stands_for (s_zsize p) kz s) -> no_plane otf n kz.
Proof.
  intros a m A Hk Hm Hc p Hp HA Hf (l0 & Qz & c & ky & kx & Qc & Qk & N). pose proof (built_wide a m Hm) as Hb.
  destruct (built_wide_result a m Hb) as (k & f0 & q0 & c0 & kk & o & _ & _ & _ & _ & _ & _ & _ & Eo & Hc' & _ & _ & Hmod & _). rewrite Hc in Hc'. subst c0.
  destruct (C73_sheppard_objects kk o [] A Eo) as (_ & _ & E & _). { cbn [run]. rewrite <- Hmod. exact HA. } cbn [run] in E. rewrite <- Hmod, <- Hc in E.
  destruct (C30_sheppard_shape_sign p A Hp HA) as (_ & _ & S & _). destruct (sizes_pos p Hp) as [Hn0 Hnz].
  pose proof (gen_otf_inv p Hp A HA) as EA. pose proof (otf_shape p) as HS. rewrite <- EA in HS. pose proof Hf as Hf'. unfold all_numbers in Hf'. rewrite HS in Hf'. pose proof (proj2 (psf_finite p A HS Hf')) as V. clear Hf'.
  set (B := amap ocplx (s_psfi (s_psfa A))) in *.
  assert (Fin : finite_all B = true).
  { unfold finite_all. apply forallb_forall. intros ix Hix. apply in_all_ix in Hix. unfold B in *. cbn [amap get shape] in *. rewrite S in Hix. rewrite V by exact Hix. reflexivity. }
  destruct (C55_widefield a m B Hk Hm E Fin) as (nz' & n & f & Hn & Hf1 & HSB & _ & X). cbv zeta in X.
  unfold B in HSB. cbn [amap shape] in HSB. rewrite S in HSB. injection HSB as Z1' Z2' _. assert (Z1 : s_zsize p = nz') by exact Z1'. assert (Z2 : s_size p = (n * f)%Z) by exact Z2'. clear Z1' Z2'. subst nz'.
  assert (SB : shape B = [s_zsize p; n * f; n * f]%Z) by (unfold B; cbn [amap shape]; rewrite S, Z2; reflexivity).
  assert (Li : Rsum (all_ix (shape B)) (get (amap (fun v => Re (cval v)) B)) = psf_light p A).
  { unfold psf_light. rewrite SB, Z2. apply Rsum_ext. intros ix _. unfold B. cbn [amap get]. destruct (get (s_psfi (s_psfa A)) ix); reflexivity. }
  rewrite Li in X. destruct X as (r & EP & Sr & Gr & _).
  { apply Rgt_not_eq. exact (proj2 (C111_light p A Hp HA Hf) c l0 ky kx Qc Qk N). }
  exists n, (o_fft (amap (option_map RtoC) r)). split; [exact Hn|]. split.
  { destruct (C57_snapshot m [] (ex_intro _ a Hb)) as [E1 E2]. cbn [mrun snapshot] in E1, E2. rewrite E2, <- E1, EP. reflexivity. }
  split; [exact Sr|]. destruct (C54_geometry a m Hk Hb) as (f' & n' & Hf2 & Pf & _).
  assert (f' = f) by congruence. subst f'. intros kz Hz Na jy jx Hjy Hjx.
  apply (binned_vanish (amap (fun v => Re (cval v)) B) r (s_zsize p) n f (psf_light p A) (planes_apart p A)); [nia|exact Pf|exact Sr| |exact Gr|now apply inb3|].
  - intros y x Hy Hx. rewrite <- Z2 in Hy, Hx. exact (AS_shell p A y x Hp HA Hf Hy Hx).
  - intros (s & Hs & Es). exact (Na s Hs Es).
Qed.
Print Assumptions C113_widefield.

(** With one cap: no axial frequency from (ni - sqrt (ni^2 - na^2)) / wl on (up to the shell's thickness). *)
Lemma apart_below p A s : s_physical p -> s_dual p = false -> M_Sheppard.gen_otf p = Ok A -> planes_apart p A s ->
  Rabs (IZR s / (IZR (s_zsize p) * s_zres p)) < s_ni p / s_wl p + Rmax (pl p) (pz p) - cone p.
Proof.
  intros Hp Hd HA (l & l' & (Hl & c & ky & kx & Qc & (_ & Qy & Qx) & N) & (Hl' & c' & ky' & kx' & Qc' & (_ & Qy' & Qx') & N') & ->).
  destruct (cap_height p A c l ky kx Hp Hd HA Hl Qy Qx) as [E|(E1 & E2 & E3)]; [contradiction|]. destruct (cap_height p A c' l' ky' kx' Hp Hd HA Hl' Qy' Qx') as [E|(E1' & E2' & E3')]; [contradiction|].
  destruct (sizes_pos p Hp) as [_ Hnz]. assert (Pr : 0 < s_zres p) by apply Hp. assert (Pm : 0 < IZR (s_zsize p)) by now apply IZR_lt.
  replace (IZR (l - l') / (IZR (s_zsize p) * s_zres p)) with (sfz p l - sfz p l') by (unfold sfz, S_Sheppard.cfreq; rewrite !minus_IZR; field; split; lra).
  apply Rabs_def2 in E1, E1'. apply Rabs_def1; lra.
Qed.
Lemma stands_below p kz s : s_physical p -> (0 <= kz < s_zsize p)%Z -> stands_for (s_zsize p) kz s -> Rabs (sfz p kz) <= Rabs (IZR s / (IZR (s_zsize p) * s_zres p)).
Proof.
  intros Hp Hz Hs. destruct (sizes_pos p Hp) as [_ Hnz]. assert (Pr : 0 < s_zres p) by apply Hp. assert (Pm : 0 < IZR (s_zsize p)) by now apply IZR_lt.
  assert (W : (Z.abs (kz - s_zsize p / 2) <= Z.abs s)%Z) by (apply (wrap_small (s_zsize p)); [exact Hnz|lia|exact Hs]).
  unfold sfz, S_Sheppard.cfreq, Rdiv. rewrite !Rabs_mult. apply Rmult_le_compat_r; [apply Rabs_pos|]. rewrite !Rabs_Zabs. now apply IZR_le.
Qed.
Theorem C113_widefield_cutoff : forall a m A,
  kwargs_ok a -> WidefieldMicroscope a = Ok m -> mi_cls m = Sheppard ->
  let p := spar_of (obj_params (mi_model m)) in
  s_physical p -> s_dual p = false -> M_Sheppard.gen_otf p = Ok A -> all_numbers A -> (exists l, lit_plane p A l) ->
  exists n otf, int_value (w_size a) = Some n /\ fst (m_OTF m) = Ok otf /\ shape otf = [s_zsize p; n; n] /\
    forall kz, (0 <= kz < s_zsize p)%Z -> s_ni p / s_wl p + Rmax (pl p) (pz p) - cone p <= Rabs (sfz p kz) -> no_plane otf n kz.
Proof.
  intros a m A Hk Hm Hc p Hp Hd HA Hf Hl. destruct (C113_widefield a m A Hk Hm Hc Hp HA Hf Hl) as (n & otf & E1 & E2 & E3 & E4). exists n, otf. split; [exact E1|]. split; [exact E2|]. split; [exact E3|].
  intros kz Hz HB. apply (E4 kz Hz). intros s Hs Hst. pose proof (apart_below p A s Hp Hd HA Hs). pose proof (stands_below p kz s Hp Hz Hst). lra.
Qed.
Print Assumptions C113_widefield_cutoff.

(** ** Confocal: detection and excitation add up, with any pinhole. *)
Definition seen (A : array (option C)) : array R := amap (fun v => Re (cval v)) (amap ocplx (s_psfi (s_psfa A))).
Lemma shows_sheppard o p A : s_physical p -> M_Sheppard.gen_otf p = Ok A -> all_numbers A -> fst (read numeric Sheppard PSFi o) = Ok (amap ocplx (s_psfi (s_psfa A))) ->
  shows_image Sheppard o (seen A) /\ shape (seen A) = [s_zsize p; s_size p; s_size p].
Proof.
  intros Hp HA Hf E. destruct (C30_sheppard_shape_sign p A Hp HA) as (_ & _ & S & _). pose proof (gen_otf_inv p Hp A HA) as EA. pose proof (otf_shape p) as HS. rewrite <- EA in HS. unfold all_numbers in Hf. rewrite HS in Hf. pose proof (proj2 (psf_finite p A HS Hf)) as V.
  split; [|exact S]. eexists. split; [exact E|]. split; [|split; [reflexivity|]].
  - unfold finite_all. apply forallb_forall. intros ix Hix. apply in_all_ix in Hix. cbn [amap get shape] in *. rewrite S in Hix. rewrite V by exact Hix. reflexivity.
  - intros ix Hix. cbn [amap shape] in Hix. rewrite S in Hix. unfold seen. cbn [amap get]. rewrite V by exact Hix. reflexivity.
Qed.
Lemma exc_sizes a w p m : ConfocalMicroscope a w p = Ok m ->
  let d := spar_of (obj_params (mi_model m)) in let x := spar_of (obj_params (mi_exc m)) in s_zsize x = s_zsize d /\ s_size x = s_size d.
Proof.
  intros H d x. destruct (confocal_parts a w p m H) as (_ & _ & _ & A1 & _). unfold d, x, spar_of, obj_params. cbn [s_zsize s_size p_zsize p_size]. rewrite !A1 by discriminate. split; reflexivity.
Qed.
Theorem C113_confocal : forall a w p m A X qp,
  kwargs_ok a -> ConfocalMicroscope a w p = Ok m -> mi_cls m = Sheppard -> M_Val.num p = Some (FFin qp) ->
  let d := spar_of (obj_params (mi_model m)) in let x := spar_of (obj_params (mi_exc m)) in
  s_physical d -> s_physical x -> 0 < s_na d -> M_Sheppard.gen_otf d = Ok A -> all_numbers A -> M_Sheppard.gen_otf x = Ok X -> all_numbers X ->
  (forall q b, fst (model_psf m) = Ok (q, b) -> Rsum (all_ix (shape q)) (get q) <> 0) ->
  exists n otf, int_value (w_size a) = Some n /\ fst (m_OTF m) = Ok otf /\ shape otf = [s_zsize d; n; n] /\
    forall kz, (0 <= kz < s_zsize d)%Z -> (forall s s', planes_apart d A s -> planes_apart x X s' -> ~ stands_for (s_zsize d) kz (s + s')) -> no_plane otf n kz.
Proof.
  intros a w p m A X qp Hk Hm Hc Hqp d x Hp Hpx Hna HA Hf HX HfX Hl. pose proof (built_confocal a w p m Hm) as Hb.
  destruct (confocal_parts a w p m Hm) as (Kd & Pn & Ex & _). destruct (exc_sizes a w p m Hm) as [Sz Ss]. fold d x in Sz, Ss.
  destruct (C54_geometry a m Hk Hb) as (f & n & Hfc & Pf & Ef & Hn & _ & (vs & Sv & Iv) & _).
  destruct (built_wide_result a m Hb) as (k & f' & pp & c & kk & o & _ & Hf' & _ & _ & Ep & _ & _ & Eo & Hc' & Hpar & _ & Hmod & Hos). rewrite Hc in Hc'. subst c. assert (f' = f) by congruence. subst f'. rewrite <- Hmod in Eo.
  destruct (C73_sheppard_objects kk (mi_model m) [] A Eo HA) as (_ & _ & E & _). cbn [run] in E.
  destruct (C73_sheppard_objects kk (mi_model m) [Assign numeric (SetNum A_wl w)] X Eo) as (_ & _ & EX & _). { cbn [run]. rewrite <- Hc, <- Ex. exact HX. } cbn [run] in EX. rewrite <- Hc, <- Ex, Hc in EX.
  destruct (shows_sheppard (mi_model m) d A Hp HA Hf E) as [SA ShA]. destruct (shows_sheppard (mi_exc m) x X Hpx HX HfX EX) as [SX ShX]. rewrite Sz, Ss in ShX.
  assert (Hsz : s_size d = (n * f)%Z) by (unfold d; cbn [spar_of s_size obj_params p_size]; rewrite Sv; cbn [val_Z]; now apply int_value_as).
  set (nz := s_zsize d) in *. destruct (sizes_pos d Hp) as [Hn0 Hnz]. fold nz in Hnz. rewrite Hsz in ShA, ShX, Hn0.
  destruct (C59_confocal m (s_wl d) (s_na d) (s_res d) (Q2R qp) (seen A) (seen X) nz (n * f) Kd) as (q & Eq & Sq & Gq).
  - apply val_R_finite. apply Hp.
  - apply val_R_finite. exact Hna.
  - apply val_R_finite. apply Hp.
  - rewrite Pn. exists p, qp. auto.
  - lra.
  - assert (0 < s_res d) by apply Hp. lra.
  - rewrite Hc. exact SA.
  - rewrite Hc. exact SX.
  - exact ShA.
  - exact ShX.
  - assert (Pn0 : (0 < n)%Z) by nia. pose proof (Hl q true Eq) as Lq. rewrite Sq in Lq.
    assert (St : stored_size m (n * f)).
    { exists (fst pp). split; [|now apply (fine_pair_ok a f pp Pf Ep)]. rewrite Hpar, params_get by apply Hk. reflexivity. }
    destruct (C55_psf m q nz n f Eq Sq ltac:(lia) Pn0 (ex_intro _ _ (conj Hos Hfc)) Pf Ef St Lq) as (img & E1 & E2 & E3 & E4).
    assert (EP : fst (m_PSF m) = Ok img) by (rewrite <- E1; destruct (C57_snapshot m [] (ex_intro _ a Hb)) as [E0 _]; exact E0).
    exists n, (o_fft (amap (option_map RtoC) img)). split; [exact Hn|]. split.
    { destruct (C57_snapshot m [] (ex_intro _ a Hb)) as [F1 F2]. cbn [mrun snapshot] in F1, F2. rewrite F2, <- F1, EP. reflexivity. }
    split; [exact E2|]. intros kz Hz Na jy jx Hjy Hjx.
    apply (binned_vanish q img nz n f _ (sum_of (planes_apart d A) (planes_apart x X))) with (5 := E3); [exact Pn0|exact Pf|exact E2| |now apply inb3|].
    2:{ intros (s & (s1 & s2 & H1 & H2 & ->) & Es). exact (Na s1 s2 H1 H2 Es). }
    assert (PA : forall y x0, (0 <= y < n * f)%Z -> (0 <= x0 < n * f)%Z -> AS nz (planes_apart d A) (fun z => RtoC (get (seen A) [z; y; x0]))).
    { intros y x0 Hy Hx0. rewrite <- Hsz in Hy, Hx0. exact (AS_shell d A y x0 Hp HA Hf Hy Hx0). }
    assert (PX : forall y x0, (0 <= y < n * f)%Z -> (0 <= x0 < n * f)%Z -> AS nz (planes_apart x X) (fun z => RtoC (get (seen X) [z; y; x0]))).
    { intros y x0 Hy Hx0. rewrite <- Hsz, <- Ss in Hy, Hx0. rewrite <- Sz. exact (AS_shell x X y x0 Hpx HX HfX Hy Hx0). }
    intros y x0 Hy Hx0. destruct (Rle_dec (pinhole_radius (Q2R qp) (s_wl d) (s_na d) (s_res d)) (3 / 2)) as [L|L].
    + apply (AS_ext nz _ (fun z => RtoC (get (seen A) [z; y; x0]) *c RtoC (get (seen X) [z; y; x0]))).
      { intros z Hz0. rewrite (proj1 (Gq z y x0 ltac:(now apply inb3)) L). symmetry. apply RtoC_mult. }
      apply AS_mult; [now apply PA|now apply PX].
    + apply Rnot_le_lt in L. set (r := pinhole_radius _ _ _ _) in *.
      apply (AS_ext nz _ (fun z => (RtoC (/ INR (List.length (disk_list r))) *c Csum (zseq (n * f)) (fun y' => Csum (zseq (n * f)) (fun x' => if near_dec r (y - y') (x0 - x') then RtoC (get (seen A) [z; y'; x']) else RtoC 0))) *c RtoC (get (seen X) [z; y; x0]))).
      { intros z Hz0. rewrite (proj2 (Gq z y x0 ltac:(now apply inb3)) L (disk_list r)) by (apply disk_list_ok; lra). rewrite RtoC_mult. f_equal. unfold through_pinhole. rewrite RtoC_mult. f_equal.
        rewrite Csum_RtoC. apply Csum_ext. intros y' _. rewrite Csum_RtoC. apply Csum_ext. intros x' _. now destruct (near_dec _ _ _). }
      apply AS_mult; [|now apply PX]. apply AS_scal. apply AS_sum. intros y' Hy'. apply AS_sum. intros x' Hx'. apply in_zseq in Hy', Hx'.
      destruct (near_dec r _ _); [now apply PA|apply AS_null].
Qed.
Print Assumptions C113_confocal.
(** With one cap each: the two axial cut-offs add up. *)
Theorem C113_confocal_cutoff : forall a w p m A X qp,
  kwargs_ok a -> ConfocalMicroscope a w p = Ok m -> mi_cls m = Sheppard -> M_Val.num p = Some (FFin qp) ->
  let d := spar_of (obj_params (mi_model m)) in let x := spar_of (obj_params (mi_exc m)) in
  s_physical d -> s_physical x -> 0 < s_na d -> s_dual d = false -> M_Sheppard.gen_otf d = Ok A -> all_numbers A -> M_Sheppard.gen_otf x = Ok X -> all_numbers X ->
  (forall q b, fst (model_psf m) = Ok (q, b) -> Rsum (all_ix (shape q)) (get q) <> 0) ->
  exists n otf, int_value (w_size a) = Some n /\ fst (m_OTF m) = Ok otf /\ shape otf = [s_zsize d; n; n] /\
    forall kz, (0 <= kz < s_zsize d)%Z ->
      (s_ni d / s_wl d + Rmax (pl d) (pz d) - cone d) + (s_ni x / s_wl x + Rmax (pl x) (pz x) - cone x) <= Rabs (sfz d kz) -> no_plane otf n kz.
Proof.
  intros a w p m A X qp Hk Hm Hc Hqp d x Hp Hpx Hna Hd HA Hf HX HfX Hl.
  destruct (C113_confocal a w p m A X qp Hk Hm Hc Hqp Hp Hpx Hna HA Hf HX HfX Hl) as (n & otf & E1 & E2 & E3 & E4). fold d x in E3, E4.
  exists n, otf. split; [exact E1|]. split; [exact E2|]. split; [exact E3|]. intros kz Hz HB. apply (E4 kz Hz). intros s s' Hs Hs' Hst.
  destruct (exc_sizes a w p m Hm) as [Sz _]. fold d x in Sz.
  assert (Same : s_dual x = s_dual d /\ s_zres x = s_zres d).
  { destruct (confocal_parts a w p m Hm) as (_ & _ & _ & A1 & _). unfold d, x, spar_of, obj_params. cbn [s_dual s_zres p_dual p_zres]. rewrite !A1 by discriminate. split; reflexivity. }
  destruct Same as [Sd Sr]. pose proof (apart_below d A s Hp Hd HA Hs) as B1. pose proof (apart_below x X s' Hpx ltac:(congruence) HX Hs') as B2. rewrite Sz, Sr in B2.
  pose proof (stands_below d kz _ Hp Hz Hst) as B3. rewrite plus_IZR in B3. unfold Rdiv in B3. rewrite Rmult_plus_distr_r in B3. eapply Rle_trans in B3; [|exact HB].
  pose proof (Rabs_triang (IZR s * / (IZR (s_zsize d) * s_zres d)) (IZR s' * / (IZR (s_zsize d) * s_zres d))). unfold Rdiv in *. lra.
Qed.
Print Assumptions C113_confocal_cutoff.

(** ** Witness: the microscope of C111; the lowest axial frequency, -16/3200 per nm, is beyond the cut-off at every lateral frequency. *)
Example C113_witness : exists m otf, WidefieldMicroscope a1 = Ok m /\ fst (m_OTF m) = Ok otf /\ shape otf = [32; 4; 4]%Z /\ no_plane otf 4 0.
Proof.
  destruct a1_built as (m & Hm & Hc & Hp). destruct a1_spar as (c & Hs). pose proof (sdemo_physical VecNone c false) as Ph.
  destruct (C39_rejection _ Ph) as [_ H]. destruct H as [A HA]; [cbn; lra|].
  assert (F : all_numbers A) by exact (proj1 (C38_single_shell_finite _ A Ph HA eq_refl)).
  pose proof (C113_widefield_cutoff a1 m A a1_kwargs Hm Hc) as X. cbv zeta in X. rewrite Hp, Hs in X.
  destruct (X Ph eq_refl HA F) as (n & otf & Hn & E & S & K).
  - exists 24%Z. split; [cbn; lia|]. exists 0%Z, 2%Z, 2%Z. split; [cbn; lia|]. split; [unfold on_ix; cbn; lia|].
    rewrite (gen_otf_inv _ Ph A HA), otf_get. change (un _ 24) with 8%Z. change (un _ 2) with 0%Z. destruct (sdemo_valid VecNone c false) as [-> _].
    cbn. intros Q. injection Q as Q. lra.
  - cbn in Hn. injection Hn as <-. exists m, otf. split; [exact Hm|]. split; [exact E|]. split; [exact S|]. apply K; [cbn [s_zsize sdemo]; lia|].
    assert (C0 : (17 / 10000 <= cone (sdemo VecNone c false))%R).
    { unfold cone, sdemo. cbn [s_ni s_wl s_na]. rewrite <- (sqrt_pow2 (17 / 10000)) by lra. apply sqrt_le_1_alt. lra. }
    assert (P1 : pl (sdemo VecNone c false) = (1 / 400)%R) by (unfold pl, pitch; cbn; lra). assert (P2 : pz (sdemo VecNone c false) = (1 / 3200)%R) by (unfold pz, pitch; cbn; lra).
    rewrite P1, P2, (Rmax_left (1 / 400) (1 / 3200)) by lra. unfold sfz, S_Sheppard.cfreq. cbn [s_ni s_wl s_zsize s_zres sdemo]. change (0 - 32 / 2)%Z with (-16)%Z. rewrite Rabs_left by lra. lra.
Qed.
