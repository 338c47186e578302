(** C113, the light of confocal microscopes with a scalar Sheppard model, and a concrete one. *)
From Verif Require Import S_FFT S_Hanser S_Shell S_Micro S_Confocal S_Bin S_AxialBand L_Sum L_Bin L_PSF L_Ctor L_Phase5 L_Micro T_PSF T_PSF2 T_Bin L_Array L_FFT L_FFT2 T_FFT L_Phase2 L_Polar T_Hanser T_Object T_Micro T_Micro2 T_Micro3 L_Micro2 T_Micro4 T_Micro5 T_Confocal T_Confocal2 L_Hanser L_Hanser2 L_Sheppard L_Sheppard2 L_Sheppard3 T_Sheppard L_Band L_Lateral L_ShellCap T_Lateral T_Lateral2 L_AxialBand L_Auto3 T_Auto T_AxialBand.
Import M_Array.
Local Open Scope R_scope.

(** the focus pixel of a lit shell *)
Lemma seen_focus p A : s_physical p -> s_vec p = VecNone -> M_Sheppard.gen_otf p = Ok A -> all_numbers A -> (exists l, lit_plane p A l) ->
  let focus := [s_zsize p - s_zsize p / 2; s_size p - s_size p / 2; s_size p - s_size p / 2]%Z in
  inb [s_zsize p; s_size p; s_size p] focus /\ 0 < get (seen A) focus.
Proof.
  intros Hp Hv HA Hf (l0 & Qz & c & ky & kx & Qc & Qk & N) focus.
  assert (I : inb [s_zsize p; s_size p; s_size p] focus) by exact (top_in p Hp). split; [exact I|]. apply Rnot_le_lt. intros L.
  pose proof (proj2 (C111_light p A Hp HA Hf) c l0 ky kx Qc Qk N) as P. unfold psf_light in P.
  assert (P2 : 0 < Rsum (all_ix [s_zsize p; s_size p; s_size p]) (fun ix => get (seen A) ix)).
  { eapply Rlt_le_trans; [exact P|]. apply Req_le, Rsum_ext. intros ix _. unfold seen. cbn [amap get]. destruct (get (s_psfi (s_psfa A)) ix); reflexivity. }
  enough (Rsum (all_ix [s_zsize p; s_size p; s_size p]) (fun ix => get (seen A) ix) <= 0) by lra.
  rewrite <- (Rsum_zero (all_ix [s_zsize p; s_size p; s_size p]) (fun _ => 0)) by auto. apply Rsum_le. intros ix Hix. apply in_all_ix in Hix. eapply Rle_trans; [|exact L].
  destruct (C69_focus_pixel p A ix Hp Hv HA Hix) as (_ & v & w & E1 & E2 & Hvw). fold focus in E2. unfold seen. cbn [amap get]. rewrite E1, E2. exact Hvw.
Qed.

(** A microscope with a scalar model, both shells lit, sees light through every pinhole. *)
Theorem C113_confocal_light : forall a w p m A X qp,
  kwargs_ok a -> ConfocalMicroscope a w p = Ok m -> mi_cls m = Sheppard -> M_Val.num p = Some (FFin qp) ->
  let d := spar_of (obj_params (mi_model m)) in let x := spar_of (obj_params (mi_exc m)) in
  s_physical d -> s_physical x -> 0 < s_na d -> s_vec d = VecNone -> M_Sheppard.gen_otf d = Ok A -> all_numbers A -> M_Sheppard.gen_otf x = Ok X -> all_numbers X ->
  (exists l, lit_plane d A l) -> (exists l, lit_plane x X l) ->
  forall q b, fst (model_psf m) = Ok (q, b) -> 0 < Rsum (all_ix (shape q)) (get q).
Proof.
  intros a w p m A X qp Hk Hm Hc Hqp d x Hp Hpx Hna Hv HA Hf HX HfX LA LX q0 b Eq0. pose proof (built_confocal a w p m Hm) as Hb.
  destruct (confocal_parts a w p m Hm) as (Kd & Pn & Ex & A1 & _). destruct (exc_sizes a w p m Hm) as [Sz Ss]. fold d x in Sz, Ss.
  assert (Hvx : s_vec x = VecNone).
  { rewrite <- Hv. unfold d, x, spar_of, obj_params. cbn [s_vec p_vec_corr]. rewrite !A1 by discriminate. reflexivity. }
  destruct (built_wide_result a m Hb) as (k & f' & pp & c & kk & o & _ & Hf' & _ & _ & Ep & _ & _ & Eo & Hc' & Hpar & _ & Hmod & Hos). rewrite Hc in Hc'. subst c. rewrite <- Hmod in Eo.
  destruct (C73_sheppard_objects kk (mi_model m) [] A Eo HA) as (_ & _ & E & _). cbn [run] in E.
  destruct (C73_sheppard_objects kk (mi_model m) [Assign numeric (SetNum A_wl w)] X Eo) as (_ & _ & EX & _). { cbn [run]. rewrite <- Hc, <- Ex. exact HX. } cbn [run] in EX. rewrite <- Hc, <- Ex, Hc in EX.
  destruct (shows_sheppard (mi_model m) d A Hp HA Hf E) as [SA ShA]. destruct (shows_sheppard (mi_exc m) x X Hpx HX HfX EX) as [SX ShX].
  destruct (seen_focus d A Hp Hv HA Hf LA) as [I0 CA]. destruct (seen_focus x X Hpx Hvx HX HfX LX) as [_ CX]. rewrite Sz, Ss in ShX, CX.
  set (nz := s_zsize d) in *. set (n := s_size d) in *. destruct (sizes_pos d Hp) as [Hn0 Hnz]. fold nz in Hnz. fold n in Hn0.
  destruct (C59_confocal m (s_wl d) (s_na d) (s_res d) (Q2R qp) (seen A) (seen X) nz n Kd) as (q & Eq & Sq & Gq).
  - apply val_R_finite. apply Hp.
  - apply val_R_finite. exact Hna.
  - apply val_R_finite. apply Hp.
  - rewrite Pn. exists p, qp. auto.
  - lra.
  - assert (0 < s_res d) by apply Hp. lra.
  - rewrite Hc. exact SA.
  - rewrite Hc. exact SX.
  - exact ShA.
  - exact ShX.
  - assert (q0 = q) by congruence. subst q0.
    assert (Nq : nonneg q) by (apply (model_psf_nonneg m q (built_sane a m Hb)); [rewrite Kd; discriminate|exact Eq]).
    set (z0 := (nz - nz / 2)%Z) in *. set (cc := (n - n / 2)%Z) in *. assert (Qq : (0 <= z0 < nz)%Z /\ (0 <= cc < n)%Z) by (unfold inb in I0; cbn in I0; inversion I0; subst; match goal with H : Forall2 _ [_; _] _ |- _ => inversion H; subst end; split; assumption). destruct Qq as [Qz Qc].
    rewrite Sq. apply (Rsum_pos _ _ [z0; cc; cc]); [intros; apply Nq|now apply in_all_ix|]. destruct (Gq z0 cc cc I0) as [G1 G2]. destruct (Rle_dec (pinhole_radius (Q2R qp) (s_wl d) (s_na d) (s_res d)) (3 / 2)) as [L|L].
    + rewrite G1 by exact L. now apply Rmult_lt_0_compat.
    + apply Rnot_le_lt in L. set (r := pinhole_radius _ _ _ _) in *. rewrite (G2 L (disk_list r)) by (apply disk_list_ok; lra). apply Rmult_lt_0_compat; [|exact CX].
      unfold through_pinhole. apply Rmult_lt_0_compat; [apply Rinv_0_lt_compat, (disk_nonempty r); [lra|apply disk_list_ok; lra]|].
      assert (T : forall y x, In y (zseq n) -> In x (zseq n) -> 0 <= (if near_dec r (cc - y) (cc - x) then get (seen A) [z0; y; x] else 0)).
      { intros y x' Hy Hx. apply in_zseq in Hy, Hx. destruct (near_dec _ _ _); [|lra].
        assert (Iyx : inb [nz; n; n] [z0; y; x']) by (apply inb3; auto). destruct (C30_sheppard_shape_sign d A Hp HA) as (_ & _ & _ & NN).
        unfold seen. cbn [amap get]. destruct (get (s_psfi (s_psfa A)) [z0; y; x']) as [v|] eqn:Ev; [|cbn; lra]. cbn. exact (proj1 (NN _ v Iyx Ev)). }
      apply (Rsum_pos _ _ cc); [intros y Hy; apply Rsum_nonneg; intros x' Hx; now apply T|now apply in_zseq|]. apply (Rsum_pos _ _ cc); [intros x' Hx; apply T; [now apply in_zseq|exact Hx]|now apply in_zseq|].
      destruct (near_dec r _ _) as [|N]; [exact CA|]. exfalso. apply N. unfold near. rewrite !Z.sub_diag. cbn. nra.
Qed.
Print Assumptions C113_confocal_light.

(** ** Witness: 4 x 4 x 64 voxels of 100 x 100 x 50 nm, na 1, ni 4/3, detection at 500 nm, excitation at 400 nm. *)
Local Open Scope string_scope.
Local Open Scope R_scope.
Definition a2 : wargs := mkWargs (VStr "Sheppard") (VInt 1) (qv 4 3) (VInt 500) (VInt 4) (VInt 100) (VInt 1) [("zsize", KV (VInt 64)); ("zres", KV (VInt 50))].
Lemma a2_kwargs : kwargs_ok a2.
Proof.
  split; [cbn; repeat constructor; cbn; intuition discriminate|]. intros k H. cbn in H |- *. destruct (String.eqb_spec k "zsize") as [->|]; [|].
  - exfalso. cbn in H. repeat (destruct H as [H|H]; [discriminate|]). destruct H.
  - destruct (String.eqb_spec k "zres") as [->|]; [exfalso; cbn in H; repeat (destruct H as [H|H]; [discriminate|]); destruct H|reflexivity].
Qed.
Definition a2_ctor : ctor := model_ctor Sheppard a2 (VInt 4) (VInt 100) None.
Definition a2_params : params := Eval vm_compute in match construct toy Sheppard a2_ctor with Ok o => obj_params o | Err _ => obj_params (empty_obj toy) end.
Lemma a2_made (E : engine) : exists o, construct E Sheppard a2_ctor = Ok o /\ obj_params o = a2_params.
Proof. eexists. split; vm_compute; reflexivity. Qed.
Lemma a2_confocal p qp : M_Val.num p = Some (FFin qp) -> (0 <= qp)%Q -> isinstance p TFloatInt = true ->
  exists m, ConfocalMicroscope a2 (VInt 400) p = Ok m /\ mi_cls m = Sheppard /\ obj_params (mi_model m) = a2_params.
Proof.
  intros Hp Hq Ht. destruct (a2_made numeric) as (o & Ho & Po).
  assert (W : wide_init a2 (empty_micro Confocal) = (Ok tt, wide_result Confocal Sheppard a2 (VInt 4) (VInt 100) o)).
  { rewrite wide_eq. cbn [a2 w_os int_value]. change (1 <? 0)%Z with false. change (Z.even 1) with false. cbv zeta iota.
    change (fine_pair a2 1) with (@Ok (pyval * pyval) (VInt 4, VInt 100)). cbn [bind]. change (choose_model (w_model a2)) with (@Ok cls Sheppard). cbn [bind fst snd].
    rewrite ctor_for_eq; [|apply a2_kwargs|intros k [<-|[<-|[]]]; cbn; tauto]. cbn [bind]. change (model_ctor Sheppard a2 (VInt 4) (VInt 100) None) with a2_ctor. rewrite Ho. reflexivity. }
  unfold ConfocalMicroscope, make, confocal_init, mbind. rewrite W. set (m1 := wide_result _ _ _ _ _ _).
  assert (S : exists m2, m_set MPinhole p m1 = (Ok tt, m2) /\ mi_model m2 = o /\ mi_cls m2 = Sheppard).
  { unfold m_set. cbn [m1 wide_result mi_kind has_prop]. unfold numeric_fset, numeric_decide. cbn [mtype]. rewrite Ht. cbn [negb]. unfold py_lt. rewrite Hp. cbn [M_Val.num bind].
    assert (L : fl_lt (FFin qp) (FFin (inject_Z 0)) = false).
    { unfold fl_lt. cbn [fl_le fl_eq]. destruct (Qle_bool qp (inject_Z 0)) eqn:E; [|reflexivity]. apply Qle_bool_iff in E. assert (Q : (qp == inject_Z 0)%Q) by (apply Qle_antisym; [exact E|exact Hq]). apply Qeq_bool_iff in Q. rewrite Q. reflexivity. }
    rewrite L. replace (mi_num m1 MPinhole) with (@None pyval) by reflexivity. assert (Q : py_eq VNone p = false) by (unfold py_eq; cbn [M_Val.num]; rewrite Hp; reflexivity). rewrite Q. cbn [negb]. eexists. split; [reflexivity|]. split; reflexivity. }
  destruct S as (m2 & -> & M1 & M2). cbn [masks]. unfold on_exc. cbn [upd_exc mi_exc]. rewrite M1, M2.
  assert (V : exists o2, assign numeric Sheppard (SetNum A_wl (VInt 400)) o = (Ok tt, o2)).
  { cbn [assign]. unfold numeric_set, numeric_fset. assert (Wl : o_attr o A_wl = Some (VInt 500)) by (assert (Y : p_wl (obj_params o) = p_wl a2_params) by (rewrite Po; reflexivity); exact Y). rewrite Wl.
    change (numeric_decide (Some (VInt 500)) TFloatInt (VInt 400)) with (@Ok bool true). eexists. reflexivity. }
  destruct V as (o2 & ->). eexists. split; [reflexivity|]. cbn [mi_cls mi_model upd_exc]. rewrite M1, M2. split; [reflexivity|exact Po].
Qed.
Definition sd2 (wl : R) (c : cond) : spar := mkSpar wl 1 (4 / 3) 100 4 50 64 VecNone c false.
Lemma a2_spar : exists c, spar_of a2_params = sd2 500 c.
Proof. eexists. unfold sd2, spar_of. cbn [a2_params p_wl p_na p_ni p_res p_size p_zres p_zsize p_vec_corr p_condition p_dual]. f_equal; try (cbn; unfold Q2R; cbn; lra); reflexivity. Qed.
Lemma a2_exc_spar p m c : ConfocalMicroscope a2 (VInt 400) p = Ok m -> spar_of (obj_params (mi_model m)) = sd2 500 c -> spar_of (obj_params (mi_exc m)) = sd2 400 c.
Proof.
  intros H E. destruct (confocal_parts a2 (VInt 400) p m H) as (_ & _ & _ & A1 & _ & (v & V1 & V2)).
  unfold sd2, spar_of, obj_params in *. cbn [p_wl p_na p_ni p_res p_size p_zres p_zsize p_vec_corr p_condition p_dual] in *. rewrite V1, !A1 by discriminate. pose proof (f_equal s_na E) as E1. pose proof (f_equal s_ni E) as E2. pose proof (f_equal s_res E) as E3. pose proof (f_equal s_size E) as E4. pose proof (f_equal s_zres E) as E5. pose proof (f_equal s_zsize E) as E6. pose proof (f_equal s_vec E) as E7. pose proof (f_equal s_cond E) as E8. pose proof (f_equal s_dual E) as E9. cbn [s_na s_ni s_res s_size s_zres s_zsize s_vec s_cond s_dual] in *.
  f_equal; try assumption. cbn [val_R]. unfold num_or_nan. destruct V2 as [-> |V2]; [cbn; unfold Q2R; cbn; lra|]. unfold py_eq in V2. cbn [M_Val.num] in V2. destruct (M_Val.num v) as [q0|]; [|discriminate]. destruct q0 as [q| |b]; try (cbn in V2; discriminate). cbn in V2 |- *. apply Qeq_bool_eq, Qreals.Qeq_eqR in V2. rewrite V2. unfold Q2R. cbn. lra.
Qed.
Lemma sd2_physical wl c : 0 < wl <= 500 -> s_physical (sd2 wl c).
Proof. intros H. unfold s_physical, sd2; cbn. repeat split; try lra; lia. Qed.
Lemma sd2_valid wl c j : (0 < j < 32)%Z -> Rabs (IZR j / 3200 - s_kmag (sd2 wl c)) < 1 / 3200 -> s_kz_min (sd2 wl c) + 1 / 3200 < IZR j / 3200 -> s_valid (sd2 wl c) j 0 0 = true.
Proof.
  intros Hj H1 H2. assert (Ek0 : sk (sd2 wl c) 0 = 0) by (unfold sk, fftfreq, sd2, fftfreq_ix; cbn; field).
  assert (Ek1 : sk (sd2 wl c) 1 = 1 / 400) by (unfold sk, fftfreq, sd2, fftfreq_ix; cbn; field).
  assert (Ez : forall i, (0 <= i < 32)%Z -> skz (sd2 wl c) i = IZR i / 3200).
  { intros i Hi. unfold skz, fftfreq. cbn [s_zsize s_zres sd2]. replace (fftfreq_ix 64 i) with i; [field|]. unfold fftfreq_ix. change ((64 - 1) / 2 + 1)%Z with 32%Z. cbv zeta. destruct (Z.ltb_spec i 32); [reflexivity|lia]. }
  assert (Pj : 0 < IZR j) by (now apply IZR_lt).
  assert (Es : sqrt ((IZR j / 3200) ^ 2 + 0 ^ 2 + 0 ^ 2) = IZR j / 3200).
  { replace ((IZR j / 3200) ^ 2 + 0 ^ 2 + 0 ^ 2) with ((IZR j / 3200) ^ 2) by ring. apply sqrt_pow2. lra. }
  apply valid_iff. unfold s_kr, s_dkr, s_dk, s_dkz. rewrite (Ez 1%Z), (Ez 0%Z), (Ez j), Ek0, Ek1, Es by lia. 
  destruct (Req_EM_T _ _) as [E|_]; [lra|]. destruct (Z.eqb_spec j 0); [lia|]. cbn [andb]. unfold s_kr. rewrite Ek0, (Ez j), Es by lia.
  replace (sqrt ((IZR j / 3200 * (1 / 3200 - 0 / 3200)) ^ 2 + (0 * (1 / 400 - 0)) ^ 2 + (0 * (1 / 400 - 0)) ^ 2) / (IZR j / 3200)) with (1 / 3200).
  - split; [exact H1|]. unfold s_kzz. cbn [s_dual sd2]. rewrite (Ez j) by lia. exact H2.
  - replace ((IZR j / 3200 * (1 / 3200 - 0 / 3200)) ^ 2 + (0 * (1 / 400 - 0)) ^ 2 + (0 * (1 / 400 - 0)) ^ 2) with ((IZR j / 3200 * (1 / 3200)) ^ 2) by field.
    rewrite sqrt_pow2 by (apply Rmult_le_pos; lra). field. lra.
Qed.
Lemma sd2_lit wl c A j : 0 < wl <= 500 -> M_Sheppard.gen_otf (sd2 wl c) = Ok A -> (0 < j < 32)%Z ->
  Rabs (IZR j / 3200 - s_kmag (sd2 wl c)) < 1 / 3200 -> s_kz_min (sd2 wl c) + 1 / 3200 < IZR j / 3200 -> lit_plane (sd2 wl c) A (j + 32).
Proof.
  intros Hw HA Hj H1 H2. split; [cbn; lia|]. exists 0%Z, 2%Z, 2%Z. split; [cbn; lia|]. split; [unfold on_ix; cbn; lia|].
  rewrite (gen_otf_inv _ (sd2_physical wl c Hw) A HA), otf_get. cbn [s_zsize s_size sd2]. assert (U : un 64 (j + 32) = j) by (unfold un; cbn; rewrite Z.mod_small; lia). rewrite ?U.
  change (un 4 2) with 0%Z. rewrite (sd2_valid wl c j Hj H1 H2). cbn. intros Q. injection Q as Q. lra.
Qed.
Example C113_confocal_case : forall p qp, M_Val.num p = Some (FFin qp) -> (0 <= qp)%Q -> isinstance p TFloatInt = true ->
  exists m otf, ConfocalMicroscope a2 (VInt 400) p = Ok m /\ fst (m_OTF m) = Ok otf /\ shape otf = [64; 4; 4]%Z /\ no_plane otf 4 0.
Proof.
  intros p qp Np Pp Ip. destruct (a2_confocal p qp Np Pp Ip) as (m & Hm & Hc & Hp). destruct a2_spar as (c & Hs).
  assert (Hd : spar_of (obj_params (mi_model m)) = sd2 500 c) by (rewrite Hp; exact Hs). pose proof (a2_exc_spar p m c Hm Hd) as Hx.
  assert (Pd : s_physical (sd2 500 c)) by (apply sd2_physical; lra). assert (Px : s_physical (sd2 400 c)) by (apply sd2_physical; lra).
  destruct (C39_rejection _ Pd) as [_ H]. destruct H as [A HA]; [cbn; lra|]. destruct (C39_rejection _ Px) as [_ H']. destruct H' as [X HX]; [cbn; lra|].
  assert (FA : all_numbers A) by exact (proj1 (C38_single_shell_finite _ A Pd HA eq_refl)). assert (FX : all_numbers X) by exact (proj1 (C38_single_shell_finite _ X Px HX eq_refl)).
  assert (K1 : s_kmag (sd2 500 c) = 4 / 1500) by (unfold s_kmag, sd2; cbn; lra). assert (K2 : s_kmag (sd2 400 c) = 4 / 1200) by (unfold s_kmag, sd2; cbn; lra).
  assert (C1 : 17 / 10000 <= s_kz_min (sd2 500 c) <= 18 / 10000).
  { unfold s_kz_min. rewrite K1. cbn [s_wl s_na sd2]. split; [rewrite <- (sqrt_pow2 (17 / 10000)) by lra|rewrite <- (sqrt_pow2 (18 / 10000)) by lra]; apply sqrt_le_1_alt; lra. }
  assert (C2 : 22 / 10000 <= s_kz_min (sd2 400 c) <= 23 / 10000).
  { unfold s_kz_min. rewrite K2. cbn [s_wl s_na sd2]. split; [rewrite <- (sqrt_pow2 (22 / 10000)) by lra|rewrite <- (sqrt_pow2 (23 / 10000)) by lra]; apply sqrt_le_1_alt; lra. }
  assert (LA : exists l, lit_plane (sd2 500 c) A l) by (exists (8 + 32)%Z; apply sd2_lit; [lra|exact HA|lia|rewrite K1; apply Rabs_def1; lra|lra]).
  assert (LX : exists l, lit_plane (sd2 400 c) X l) by (exists (11 + 32)%Z; apply sd2_lit; [lra|exact HX|lia|rewrite K2; apply Rabs_def1; lra|lra]).
  pose proof (C113_confocal_light a2 (VInt 400) p m A X qp a2_kwargs Hm Hc Np) as Y. pose proof (C113_confocal_cutoff a2 (VInt 400) p m A X qp a2_kwargs Hm Hc Np) as Z0. cbv zeta in Y, Z0. rewrite Hd, Hx in Y, Z0.
  destruct (Z0 Pd Px) as (n & otf & Hn & E & S & K); auto; [cbn; lra| |].
  { intros q b Eq. apply Rgt_not_eq. apply (Y Pd Px ltac:(cbn; lra) eq_refl HA FA HX FX LA LX q b Eq). }
  cbn in Hn. injection Hn as <-. exists m, otf. split; [exact Hm|]. split; [exact E|]. split; [exact S|]. apply K; [cbn [s_zsize sd2]; lia|].
  change (cone (sd2 500 c)) with (s_kz_min (sd2 500 c)). change (cone (sd2 400 c)) with (s_kz_min (sd2 400 c)).
  assert (P : forall wl, pl (sd2 wl c) = 1 / 400 /\ pz (sd2 wl c) = 1 / 3200) by (intros; unfold pl, pz, pitch; cbn; lra). destruct (P 500) as [-> ->]. destruct (P 400) as [-> ->].
  rewrite (Rmax_left (1 / 400) (1 / 3200)) by lra. unfold sfz, S_Sheppard.cfreq. cbn [s_ni s_wl s_zsize s_zres sd2]. change (0 - 64 / 2)%Z with (-32)%Z. rewrite Rabs_left by lra. lra.
Qed.
