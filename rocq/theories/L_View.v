(** C90: the update in two views of one specimen. *)
From Verif Require Import S_View S_PSF L_Array L_Sum L_FFT L_FFT2 L_Polar L_PSF L_Ctor L_Hanser L_Hanser2 L_Hanser4 L_Aberr L_Phase L_Phase2 L_Phase3 L_Phase4 L_Phase5 L_Phase6 L_Phase7 L_Phase8 T_PSF T_Object T_Phase T_Phase2 T_Scale T_Exposure.
Import M_Array.
Local Open Scope R_scope.

Lemma NoDup_app_intro {A} (l l' : list A) : NoDup l -> NoDup l' -> (forall x, In x l -> In x l' -> False) -> NoDup (l ++ l').
Proof.
  intros H H' D. induction H as [|a l Ha Hl IH]; [exact H'|]. cbn. constructor.
  - rewrite in_app_iff. intros [X|X]; [contradiction|]. apply (D a); [now left|exact X].
  - apply IH. intros x X. apply D. now right.
Qed.
(** ** pixels *)
Section P.
Context (n : Z) (Hn : (1 <= n)%Z).
Lemma mirrored_in i : (0 <= mirrored n i < n)%Z. Proof. apply Z.mod_pos_bound. lia. Qed.
Lemma mirrored_inv i : (0 <= i < n)%Z -> mirrored n (mirrored n i) = i.
Proof.
  intros Hi. unfold mirrored. rewrite Zminus_mod_idemp_r. replace (2 * (n / 2) - (2 * (n / 2) - i))%Z with i by ring. now apply Z.mod_small.
Qed.
Lemma mif_in b i : (0 <= i < n)%Z -> (0 <= mirrored_if b n i < n)%Z. Proof. destruct b; [intros; apply mirrored_in|auto]. Qed.
Lemma mif_inv b i : (0 <= i < n)%Z -> mirrored_if b n (mirrored_if b n i) = i. Proof. destruct b; [apply mirrored_inv|auto]. Qed.
Lemma moved_in a b c y x : (0 <= y < n)%Z -> (0 <= x < n)%Z -> (0 <= fst (moved a b c n y x) < n)%Z /\ (0 <= snd (moved a b c n y x) < n)%Z.
Proof. intros. unfold moved. destruct c; cbn [fst snd]; split; now apply mif_in. Qed.
Lemma moved_inj a b c y x y' x' : (0 <= y < n)%Z -> (0 <= x < n)%Z -> (0 <= y' < n)%Z -> (0 <= x' < n)%Z -> moved a b c n y x = moved a b c n y' x' -> y = y' /\ x = x'.
Proof.
  intros Hy Hx Hy' Hx' E. unfold moved in E. destruct c; injection E; intros E1 E2; split.
  - rewrite <- (mif_inv a y), <- (mif_inv a y') by auto. congruence.
  - rewrite <- (mif_inv b x), <- (mif_inv b x') by auto. congruence.
  - rewrite <- (mif_inv a y), <- (mif_inv a y') by auto. congruence.
  - rewrite <- (mif_inv b x), <- (mif_inv b x') by auto. congruence.
Qed.
(** sums over the grid *)
Lemma Csum_pairs (F : Z -> Z -> C) : Csum (zseq n) (fun y => Csum (zseq n) (fun x => F y x)) = Csum (list_prod (zseq n) (zseq n)) (fun p => F (fst p) (snd p)).
Proof.
  generalize (zseq n) at 1 3. intros l. induction l as [|a l IH]; [reflexivity|]. cbn [Csum list_prod]. rewrite Csum_app, IH, Csum_map. reflexivity.
Qed.
Lemma NoDup_pairs : NoDup (list_prod (zseq n) (zseq n)).
Proof.
  pose proof (NoDup_zseq n) as H. revert H. generalize (zseq n) at 1 2. intros l H. induction H as [|a l Ha Hl IH]; [constructor|]. cbn [list_prod].
  apply NoDup_app_intro; [apply FinFun.Injective_map_NoDup; [intros ? ? [= ->]; reflexivity|apply NoDup_zseq]|exact IH|].
  intros [p q] H1 H2. apply in_map_iff in H1. destruct H1 as (x & [= <- <-] & _). apply in_prod_iff in H2. tauto.
Qed.
Lemma Csum_moved a b c (F : Z -> Z -> C) :
  Csum (zseq n) (fun y => Csum (zseq n) (fun x => F (fst (moved a b c n y x)) (snd (moved a b c n y x)))) = Csum (zseq n) (fun y => Csum (zseq n) (fun x => F y x)).
Proof.
  rewrite (Csum_pairs F). rewrite (Csum_pairs (fun y x => F (fst (moved a b c n y x)) (snd (moved a b c n y x)))).
  apply (Csum_reindex (fun p => moved a b c n (fst p) (snd p)) _ (fun p => F (fst p) (snd p))); [apply NoDup_pairs| |].
  - intros [y x] H. apply in_prod_iff in H. rewrite !in_zseq_iff in H. destruct (moved_in a b c y x) as [A B]; try tauto. cbn [fst snd]. destruct (moved a b c n y x) as [p q]. apply in_prod_iff. rewrite !in_zseq_iff. auto.
  - intros [y x] [y' x'] H H' E. apply in_prod_iff in H, H'. rewrite !in_zseq_iff in H, H'. cbn [fst snd] in E. apply moved_inj in E; try tauto. destruct E; congruence.
Qed.
End P.

(** ** waves *)
Definition sg (b : bool) : Z := if b then (-1)%Z else 1%Z.
Lemma mif_centre b n i : (1 <= n)%Z -> exists q, (mirrored_if b n i - n / 2 = sg b * (i - n / 2) + n * q)%Z.
Proof.
  intros Hn. destruct b; cbn [mirrored_if sg].
  - exists (- ((2 * (n / 2) - i) / n))%Z. unfold mirrored. rewrite Zmod_eq_full by lia. ring.
  - exists 0%Z. ring.
Qed.
Lemma sg_xorb a b : sg (xorb a b) = (sg a * sg b)%Z. Proof. destruct a, b; reflexivity. Qed.
Lemma sg_sq a : (sg a * sg a = 1)%Z. Proof. destruct a; reflexivity. Qed.
Lemma prod_centre a s n v y : (1 <= n)%Z -> exists k,
  ((mirrored_if (xorb a s) n v - n / 2) * (mirrored_if a n y - n / 2) = sg s * ((v - n / 2) * (y - n / 2)) + n * k)%Z.
Proof.
  intros Hn. destruct (mif_centre (xorb a s) n v Hn) as [q ->]. destruct (mif_centre a n y Hn) as [r ->]. rewrite sg_xorb.
  exists (sg a * sg s * (v - n / 2) * r + q * (sg a * (y - n / 2)) + n * q * r)%Z.
  replace ((sg a * sg s * (v - n / 2) + n * q) * (sg a * (y - n / 2) + n * r))%Z
    with ((sg a * sg a) * sg s * ((v - n / 2) * (y - n / 2)) + n * (sg a * sg s * (v - n / 2) * r + q * (sg a * (y - n / 2)) + n * q * r))%Z by ring.
  rewrite sg_sq. ring.
Qed.
Section W.
Context (w : view) (nz : Z) (h h' : hpar) (Hp : proper w nz) (Ho : optics w nz h h') (Hph : physical h) (Hs : h_size h' = h_size h).
Let n := h_size h.
Let a := v_unit w.
Lemma n_ge1 : (1 <= n)%Z. Proof. pose proof (n_pos h Hph). unfold n. lia. Qed.
Lemma a_pos : 0 < a. Proof. apply Hp. Qed.
Lemma cfreq_unit i : cfreq h' i = cfreq h i / a.
Proof.
  pose proof a_pos. pose proof (n_pos h Hph) as N. apply IZR_lt in N. destruct Hph as (_ & _ & _ & Hres & _). destruct Ho as (_ & _ & _ & E & _). unfold cfreq. rewrite Hs, E. fold a. field. lra.
Qed.
Lemma cfreq_mirrored b i : (0 <= i < n)%Z -> cfreq h (mirrored_if b n i) ^ 2 = cfreq h i ^ 2.
Proof.
  intros Hi. destruct b; [|reflexivity]. cbn [mirrored_if]. unfold cfreq. fold n.
  assert (E : (mirrored n i - n / 2 = - (i - n / 2) \/ mirrored n i = i)%Z).
  { unfold mirrored. pose proof (Z.div_mod n 2 ltac:(lia)) as D. pose proof (Z.mod_pos_bound n 2 ltac:(lia)) as B.
    destruct (Z.eq_dec (2 * (n / 2) - i) n) as [X|X].
    - right. rewrite X, Z_mod_same_full. lia.
    - left. rewrite Z.mod_small by lia. ring. }
  destruct E as [E|E]; [|now rewrite E]. rewrite E, opp_IZR. unfold Rdiv. ring.
Qed.
Lemma radius_moved ma mb c v u : (0 <= v < n)%Z -> (0 <= u < n)%Z ->
  cfreq h' (fst (moved ma mb c n v u)) ^ 2 + cfreq h' (snd (moved ma mb c n v u)) ^ 2 = (/ a) ^ 2 * (cfreq h v ^ 2 + cfreq h u ^ 2).
Proof.
  intros Hv Hu. pose proof a_pos. rewrite !cfreq_unit. unfold Rdiv. rewrite !Rpow_mult_distr.
  unfold moved. destruct c; cbn [fst snd]; rewrite !cfreq_mirrored by auto; ring.
Qed.
Lemma aperture_moved ma mb c v u : (0 <= v < n)%Z -> (0 <= u < n)%Z -> aperture h' (fst (moved ma mb c n v u)) (snd (moved ma mb c n v u)) = aperture h v u.
Proof.
  intros Hv Hu. unfold aperture. rewrite radius_moved by auto. pose proof a_pos as Ha. pose proof (proj1 (proj2 Hp)) as Hb. destruct Ho as (E1 & E2 & _). rewrite E1, E2. fold a.
  destruct Hph as (Hwl & _). replace (v_index w * h_na h / (a * v_index w * h_wl h)) with (/ a * (h_na h / h_wl h)) by (field; lra). rewrite Rpow_mult_distr.
  assert (0 < (/ a) ^ 2) by (apply pow_lt, Rinv_0_lt_compat, Ha). apply Rlt_dec_iff. split; intros; nra.
Qed.
Lemma kz_moved ma mb c v u : (0 <= v < n)%Z -> (0 <= u < n)%Z ->
  sqrt (Rmax 0 ((h_ni h' / h_wl h') ^ 2 - (cfreq h' (fst (moved ma mb c n v u)) ^ 2 + cfreq h' (snd (moved ma mb c n v u)) ^ 2))) =
  / a * sqrt (Rmax 0 ((h_ni h / h_wl h) ^ 2 - (cfreq h v ^ 2 + cfreq h u ^ 2))).
Proof.
  intros Hv Hu. rewrite radius_moved by auto. pose proof a_pos as Ha. pose proof (proj1 (proj2 Hp)) as Hb. destruct Ho as (E1 & _ & E3 & _). rewrite E1, E3. fold a.
  destruct Hph as (Hwl & _). replace (v_index w * h_ni h / (a * v_index w * h_wl h)) with (/ a * (h_ni h / h_wl h)) by (field; lra). rewrite Rpow_mult_distr.
  assert (Hi : 0 < / a) by (apply Rinv_0_lt_compat, Ha). rewrite <- sqrt_scale by lra. f_equal. rewrite <- Rmult_minus_distr_l. rewrite <- (Rmult_0_r ((/ a) ^ 2)) at 1.
  assert (0 < (/ a) ^ 2) by (now apply pow_lt). rewrite RmaxRmult by lra. reflexivity.
Qed.
Lemma wave_moved z y x v u : (0 <= z < nz)%Z -> (0 <= v < n)%Z -> (0 <= u < n)%Z ->
  wave h' (v_plane w z) (fst (pixel w n y x)) (snd (pixel w n y x)) (fst (pupil_pixel w n v u)) (snd (pupil_pixel w n v u)) = pupil_value w (wave h z y x v u).
Proof.
  intros Hz Hv Hu. unfold wave at 1. unfold pupil_pixel at 1 2. rewrite kz_moved by auto. destruct Ho as (_ & _ & _ & _ & Ez). rewrite Ez by auto. fold a. rewrite Hs. fold n.
  pose proof a_pos as Ha. pose proof n_ge1 as N.
  destruct (prod_centre (v_mirror_y w) (v_side w) n v y N) as [k1 E1]. destruct (prod_centre (v_mirror_x w) (v_side w) n u x N) as [k2 E2].
  assert (E : exists k, ((fst (pupil_pixel w n v u) - n / 2) * (fst (pixel w n y x) - n / 2) + (snd (pupil_pixel w n v u) - n / 2) * (snd (pixel w n y x) - n / 2) =
     sg (v_side w) * ((v - n / 2) * (y - n / 2) + (u - n / 2) * (x - n / 2)) + n * k)%Z).
  { exists (k1 + k2)%Z. unfold pupil_pixel, pixel, moved. destruct (v_swap w); cbn [fst snd]; rewrite E1, E2; ring. }
  destruct E as [k E]. rewrite <- plus_IZR, E, plus_IZR, !mult_IZR. assert (0 < IZR n) by (apply IZR_lt; lia). set (K := sqrt _). set (zz := nth _ _ _).
  replace (2 * PI * (/ a * K * ((if v_side w then - a else a) * zz) + (IZR (sg (v_side w)) * IZR ((v - n / 2) * (y - n / 2) + (u - n / 2) * (x - n / 2)) + IZR n * IZR k) / IZR n))
    with (IZR (sg (v_side w)) * (2 * PI * (K * zz + (IZR ((v - n / 2) * (y - n / 2)) + IZR ((u - n / 2) * (x - n / 2))) / IZR n)) + 2 * PI * IZR k).
  - rewrite cis_turns. unfold pupil_value, wave. fold n. destruct (v_side w); cbn [sg].
    + rewrite cis_conj. f_equal. fold K zz. ring.
    + f_equal. fold K zz. ring.
  - rewrite <- plus_IZR. destruct (v_side w); cbn [sg]; field; lra.
Qed.
End W.

(** ** fields and updates *)
Section U.
Context (w : view).
Let pv := pupil_value w.
Lemma Cconj_R r : Cconj (RtoC r) = RtoC r. Proof. unfold Cconj, RtoC; cbn. f_equal. ring. Qed.
Lemma Cmod_conj' c : Cmod (Cconj c) = Cmod c.
Proof. unfold Cmod, Cconj. cbn [fst snd]. f_equal. ring. Qed.
Lemma pv_mult c d : pv (Cmult c d) = Cmult (pv c) (pv d). Proof. unfold pv, pupil_value. destruct (v_side w); [apply Cconj_mult|reflexivity]. Qed.
Lemma pv_R r : pv (RtoC r) = RtoC r. Proof. unfold pv, pupil_value. destruct (v_side w); [apply Cconj_R|reflexivity]. Qed.
Lemma pv_sum {X} (l : list X) f : pv (Csum l f) = Csum l (fun x => pv (f x)). Proof. unfold pv, pupil_value. destruct (v_side w); [apply Csum_conj|reflexivity]. Qed.
Lemma pv_conj c : pv (Cconj c) = Cconj (pv c). Proof. unfold pv, pupil_value. destruct (v_side w); reflexivity. Qed.
Lemma pv_divR c r : r <> 0 -> pv (Cdiv c (RtoC r)) = Cdiv (pv c) (RtoC r).
Proof. intros Hr. unfold Cdiv. rewrite <- RtoC_inv by exact Hr. now rewrite pv_mult, pv_R. Qed.
Lemma pv_minus c d : pv (Cminus c d) = Cminus (pv c) (pv d).
Proof. unfold pv, pupil_value. destruct (v_side w); [|reflexivity]. unfold Cconj, Cminus, Cplus, Copp. cbn [fst snd]. f_equal. ring. Qed.
Lemma pv_mod c : Cmod (pv c) = Cmod c. Proof. unfold pv, pupil_value. destruct (v_side w); [apply Cmod_conj'|reflexivity]. Qed.
Lemma pv_unit c : unit_phase (pv c) = pv (unit_phase c).
Proof.
  unfold unit_phase. rewrite pv_mod. destruct (Req_EM_T (Cmod c) 0) as [E|E]; [now rewrite pv_R|]. now rewrite pv_divR.
Qed.
Context (nz : Z) (h h' : hpar) (Hp : proper w nz) (Ho : optics w nz h h') (Hph : physical h) (Hs : h_size h' = h_size h) (Hnz : (1 <= nz)%Z).
Let n := h_size h.
Context (P P' : Z -> Z -> C) (HP : forall v u, (0 <= v < n)%Z -> (0 <= u < n)%Z -> P' (fst (pupil_pixel w n v u)) (snd (pupil_pixel w n v u)) = pv (P v u)).
Lemma field_moved z y x : (0 <= z < nz)%Z -> field h' P' (v_plane w z) (fst (pixel w n y x)) (snd (pixel w n y x)) = pv (field h P z y x).
Proof.
  intros Hz. unfold field. rewrite Hs. fold n. rewrite pv_mult, pv_R. f_equal. rewrite pv_sum.
  set (p := pixel w n y x).
  rewrite <- (Csum_moved n (n_ge1 h Hph) (xorb (v_mirror_y w) (v_side w)) (xorb (v_mirror_x w) (v_side w)) (v_swap w) (fun v u => Cmult (P' v u) (wave h' (v_plane w z) (fst p) (snd p) v u))).
  apply Csum_ext. intros v Hv. apply in_zseq_iff in Hv. rewrite pv_sum. apply Csum_ext. intros u Hu. apply in_zseq_iff in Hu.
  change (moved (xorb (v_mirror_y w) (v_side w)) (xorb (v_mirror_x w) (v_side w)) (v_swap w) n v u) with (pupil_pixel w n v u).
  rewrite HP by auto. unfold p, n. rewrite (wave_moved w nz h h' Hp Ho Hph Hs) by auto. now rewrite pv_mult.
Qed.
Context (m m' : Z -> Z -> Z -> R) (Hm : forall z y x, (0 <= z < nz)%Z -> (0 <= y < n)%Z -> (0 <= x < n)%Z -> m' (v_plane w z) (fst (pixel w n y x)) (snd (pixel w n y x)) = m z y x).
Lemma update_moved v u : (0 <= v < n)%Z -> (0 <= u < n)%Z ->
  update h' m' nz P' (fst (pupil_pixel w n v u)) (snd (pupil_pixel w n v u)) = pv (update h m nz P v u).
Proof.
  intros Hv Hu. unfold update. rewrite Hs. fold n. unfold pupil_pixel at 1 2. rewrite (aperture_moved w nz h h' Hp Ho Hph Hs) by auto.
  assert (IZR nz <> 0) by (apply not_0_IZR; lia). rewrite pv_mult, pv_R, pv_divR by assumption. f_equal. f_equal. rewrite pv_sum.
  set (q := pupil_pixel w n v u).
  rewrite <- (Csum_reindex (v_plane w) (zseq nz)).
  2: apply NoDup_zseq. 2: { intros z Hz. apply in_zseq_iff in Hz. apply in_zseq_iff. now apply Hp. }
  2: { intros z z' Hz Hz'. apply in_zseq_iff in Hz, Hz'. now apply Hp. }
  apply Csum_ext. intros z Hz. apply in_zseq_iff in Hz.
  rewrite <- (Csum_moved n (n_ge1 h Hph) (v_mirror_y w) (v_mirror_x w) (v_swap w)
    (fun y x => Cmult (Cmult (RtoC (m' (v_plane w z) y x)) (unit_phase (field h' P' (v_plane w z) y x))) (Cconj (wave h' (v_plane w z) y x (fst q) (snd q))))).
  rewrite pv_sum. apply Csum_ext. intros y Hy. apply in_zseq_iff in Hy. rewrite pv_sum. apply Csum_ext. intros x Hx. apply in_zseq_iff in Hx.
  change (moved (v_mirror_y w) (v_mirror_x w) (v_swap w) n y x) with (pixel w n y x).
  rewrite Hm, field_moved by auto. unfold q, n. rewrite (wave_moved w nz h h' Hp Ho Hph Hs) by auto. rewrite !pv_mult, pv_R, pv_unit, pv_conj. reflexivity.
Qed.
Lemma step_moved (po : bool) v u : (0 <= v < n)%Z -> (0 <= u < n)%Z ->
  (let b := update h' m' nz P' (fst (pupil_pixel w n v u)) (snd (pupil_pixel w n v u)) in if po then Cmult (RtoC (aperture h' (fst (pupil_pixel w n v u)) (snd (pupil_pixel w n v u)))) (unit_phase b) else b) =
  pv (let b := update h m nz P v u in if po then Cmult (RtoC (aperture h v u)) (unit_phase b) else b).
Proof.
  intros Hv Hu. cbv zeta. rewrite update_moved by auto. destruct po; [|reflexivity]. unfold pupil_pixel, n. rewrite (aperture_moved w nz h h' Hp Ho Hph Hs) by auto. now rewrite pv_mult, pv_R, pv_unit.
Qed.
End U.

(** ** two runs *)
Section T.
Context (w : view) (data data' : array R) (params params' : pdict) (nz n : Z) (model model' : obj numeric)
  (Hus : usable data params nz n model) (Hus' : usable data' params' nz n model') (Hp : proper w nz)
  (Ho : optics w nz (hpar_model model) (hpar_model model')) (Hd : seen w nz n data data') (po : bool).
Let P0 := obj_params model.
Let P0' := obj_params model'.
Let sq := seqP P0 data po.
Let sq' := seqP P0' data' po.
Let h := hpar_of P0.
Let h' := hpar_of P0'.
Let pv := pupil_value w.
Let q v u := pupil_pixel w n v u.
Lemma q_in v u : (0 <= v < n)%Z -> (0 <= u < n)%Z -> (0 <= fst (q v u) < n)%Z /\ (0 <= snd (q v u) < n)%Z.
Proof. intros. apply moved_in; auto. destruct Hus as (_ & _ & X & _). lia. Qed.
Lemma sq_moved i : forall v u, (0 <= v < n)%Z -> (0 <= u < n)%Z -> get (sq' i) [row P0' (fst (q v u)); row P0' (snd (q v u))] = pv (get (sq i) [row P0 v; row P0 u]).
Proof.
  destruct (hyps _ _ _ _ _ Hus) as (Hr & Hph & Hv & Hc & Hn & Hn2 & Hnz & Hdd). destruct (hyps _ _ _ _ _ Hus') as (Hr' & Hph' & Hv' & Hc' & Hn' & Hn2' & Hnz' & Hdd').
  fold P0 h in Hr, Hph, Hv, Hc, Hn, Hn2, Hnz, Hdd. fold P0' h' in Hr', Hph', Hv', Hc', Hn', Hn2', Hnz', Hdd'.
  assert (Ez : Z.of_nat (List.length (h_zrange h)) = nz) by (destruct Hus as (X & _); congruence).
  assert (Ez' : Z.of_nat (List.length (h_zrange h')) = nz) by (destruct Hus' as (X & _); congruence).
  assert (Hs : h_size h' = h_size h) by congruence. change (hpar_model model) with h in Ho. change (hpar_model model') with h' in Ho.
  induction i as [|i IH]; intros v u Hv0 Hu0; pose proof (q_in v u Hv0 Hu0) as [Q1 Q2].
  - assert (A0 : forall v u, (0 <= v < n)%Z -> (0 <= u < n)%Z -> get (sq 0) [row P0 v; row P0 u] = RtoC (aperture h v u)).
    { intros a b Ha Hb. rewrite <- Hn in Ha, Hb. change (get (sq 0) [row P0 a; row P0 b]) with (RtoC (mkf h (row P0 a) (row P0 b))). f_equal. now apply (mkf_aperture P0 Hph Hn2). }
    assert (A0' : forall v u, (0 <= v < n)%Z -> (0 <= u < n)%Z -> get (sq' 0) [row P0' v; row P0' u] = RtoC (aperture h' v u)).
    { intros a b Ha Hb. rewrite <- Hn' in Ha, Hb. change (get (sq' 0) [row P0' a; row P0' b]) with (RtoC (mkf h' (row P0' a) (row P0' b))). f_equal. now apply (mkf_aperture P0' Hph' Hn2'). }
    rewrite A0, A0' by auto. unfold pv. rewrite pv_R. f_equal. unfold q, pupil_pixel. rewrite <- Hn. apply (aperture_moved w nz h h' Hp Ho Hph Hs); now rewrite Hn.
  - unfold sq', sq. cbn [seqP].
    destruct (nextP_ok P0' Hph' Hv' Hc' Hn2' data' Hdd' po (seqP P0' data' po i)) as (_ & _ & G'); [now apply seqP_shape|].
    destruct (nextP_ok P0 Hph Hv Hc Hn2 data Hdd po (seqP P0 data po i)) as (_ & _ & G); [now apply seqP_shape|].
    rewrite G' by now apply row_in. rewrite G by now apply row_in. fold h h' sq sq'. rewrite Ez, Ez'.
    rewrite (step_update P0' Hph' Hn2' nz data' po _ (fun a b => fn (sq' i) (row P0' a) (row P0' b))) by (first [reflexivity | fold h'; rewrite Hn'; assumption]).
    rewrite (step_update P0 Hph Hn2 nz data po _ (fun a b => fn (sq i) (row P0 a) (row P0 b))) by (first [reflexivity | fold h; rewrite Hn; assumption]).
    fold h h'. unfold q. rewrite <- Hn. apply (step_moved w nz h h' Hp Ho Hph Hs); try (rewrite Hn; assumption).
    + lia.
    + rewrite Hn. intros z y x Hz Hy Hx. now rewrite Hd.
Qed.
Lemma psf_moved i : seen w nz n (sumsq (psfa_at P0 (sq i))) (sumsq (psfa_at P0' (sq' i))).
Proof.
  destruct (hyps _ _ _ _ _ Hus) as (Hr & Hph & Hv & Hc & Hn & Hn2 & Hnz & Hdd). destruct (hyps _ _ _ _ _ Hus') as (Hr' & Hph' & Hv' & Hc' & Hn' & Hn2' & Hnz' & Hdd').
  fold P0 h in Hr, Hph, Hv, Hc, Hn, Hn2, Hnz, Hdd. fold P0' h' in Hr', Hph', Hv', Hc', Hn', Hn2', Hnz', Hdd'.
  assert (Hs : h_size h' = h_size h) by congruence. change (hpar_model model) with h in Ho. change (hpar_model model') with h' in Ho.
  intros z y x Hz Hy Hx. destruct (moved_in n ltac:(destruct Hus as (_ & _ & X & _); lia) (v_mirror_y w) (v_mirror_x w) (v_swap w) y x Hy Hx) as [M1 M2].
  change (moved (v_mirror_y w) (v_mirror_x w) (v_swap w) n y x) with (pixel w n y x) in M1, M2.
  rewrite (psfi_at P0' Hph' Hv' Hc') by (first [now apply seqP_shape | fold h'; rewrite Hn'; assumption]).
  rewrite (psfi_at P0 Hph Hv Hc) by (first [now apply seqP_shape | fold h; rewrite Hn; assumption]).
  rewrite (amp_field P0' Hph' Hn2' _ (fun a b => fn (sq' i) (row P0' a) (row P0' b))) by reflexivity.
  rewrite (amp_field P0 Hph Hn2 _ (fun a b => fn (sq i) (row P0 a) (row P0 b))) by reflexivity. fold h h'.
  rewrite <- Hn. rewrite (field_moved w nz h h' Hp Ho Hph Hs (fun a b => fn (sq i) (row P0 a) (row P0 b))); [now rewrite pv_mod| |exact Hz].
  rewrite Hn. intros a b Ha Hb. now apply sq_moved.
Qed.

(** ** the recorded numbers *)
Lemma Rsum_moved3 a b c (F G : list Z -> R) :
  (forall z y x, (0 <= z < nz)%Z -> (0 <= y < n)%Z -> (0 <= x < n)%Z -> G [v_plane w z; fst (moved a b c n y x); snd (moved a b c n y x)] = F [z; y; x]) ->
  Rsum (all_ix [nz; n; n]) G = Rsum (all_ix [nz; n; n]) F.
Proof.
  intros H. assert (N : (1 <= n)%Z) by (destruct Hus as (_ & _ & X & _); lia).
  rewrite <- (Rsum_reindex (fun ix => match ix with [z; y; x] => [v_plane w z; fst (moved a b c n y x); snd (moved a b c n y x)] | _ => ix end) (all_ix [nz; n; n]) G).
  - apply Rsum_ext. intros ix Hix. apply in_all_ix in Hix. destruct (inb3_inv _ _ _ _ Hix) as (z & y & x & -> & Hz & Hy & Hx). now apply H.
  - apply NoDup_all_ix.
  - intros ix Hix. apply in_all_ix in Hix. destruct (inb3_inv _ _ _ _ Hix) as (z & y & x & -> & Hz & Hy & Hx). apply in_all_ix. destruct (moved_in n N a b c y x Hy Hx). apply inb3; auto. now apply Hp.
  - intros ix ix' Hix Hix' E. apply in_all_ix in Hix, Hix'. destruct (inb3_inv _ _ _ _ Hix) as (z & y & x & -> & Hz & Hy & Hx). destruct (inb3_inv _ _ _ _ Hix') as (z' & y' & x' & -> & Hz' & Hy' & Hx').
    injection E. intros E3 E2 E1. apply Hp in E1; auto. assert (Em : moved a b c n y x = moved a b c n y' x') by (destruct (moved a b c n y x), (moved a b c n y' x'); cbn in *; congruence).
    apply moved_inj in Em; auto. destruct Em. congruence.
Qed.
Lemma Rsum_moved2 a b c (F G : list Z -> R) :
  (forall y x, (0 <= y < n)%Z -> (0 <= x < n)%Z -> G [fst (moved a b c n y x); snd (moved a b c n y x)] = F [y; x]) ->
  Rsum (all_ix [n; n]) G = Rsum (all_ix [n; n]) F.
Proof.
  intros H. assert (N : (1 <= n)%Z) by (destruct Hus as (_ & _ & X & _); lia).
  rewrite <- (Rsum_reindex (fun ix => match ix with [y; x] => [fst (moved a b c n y x); snd (moved a b c n y x)] | _ => ix end) (all_ix [n; n]) G).
  - apply Rsum_ext. intros ix Hix. apply in_all_ix in Hix. destruct (inb2_inv _ _ _ Hix) as (y & x & -> & Hy & Hx). now apply H.
  - apply NoDup_all_ix.
  - intros ix Hix. apply in_all_ix in Hix. destruct (inb2_inv _ _ _ Hix) as (y & x & -> & Hy & Hx). apply in_all_ix. destruct (moved_in n N a b c y x Hy Hx). apply inb2; auto.
  - intros ix ix' Hix Hix' E. apply in_all_ix in Hix, Hix'. destruct (inb2_inv _ _ _ Hix) as (y & x & -> & Hy & Hx). destruct (inb2_inv _ _ _ Hix') as (y' & x' & -> & Hy' & Hx').
    injection E. intros E3 E2. assert (Em : moved a b c n y x = moved a b c n y' x') by (destruct (moved a b c n y x), (moved a b c n y' x'); cbn in *; congruence).
    apply moved_inj in Em; auto. destruct Em. congruence.
Qed.
Lemma mse_moved i : mse_of P0' data' (sq' i) = mse_of P0 data (sq i).
Proof.
  unfold sq, sq', P0, P0'. rewrite (mse_num data' params' nz n model' Hus' po), (mse_num data params nz n model Hus po). fold P0 P0' sq sq'. f_equal. unfold mean_sq.
  assert (Sd : shape data = [nz; n; n]) by apply Hus. assert (Sd' : shape data' = [nz; n; n]) by apply Hus'. rewrite Sd, Sd'. f_equal.
  apply (Rsum_moved3 (v_mirror_y w) (v_mirror_x w) (v_swap w)). intros z y x Hz Hy Hx. change (moved _ _ _ n y x) with (pixel w n y x). rewrite Hd, (psf_moved i) by auto. reflexivity.
Qed.
Lemma dpup_moved i j : dpup (sq' i) (sq' j) = dpup (sq i) (sq j).
Proof.
  pose proof (dpup_sees data params nz n model Hus TolInf TolInf po i j _ _ _ _ (sees_cen data n model po i) (sees_cen data n model po j)) as A.
  pose proof (dpup_sees data' params' nz n model' Hus' TolInf TolInf po i j _ _ _ _ (sees_cen data' n model' po i) (sees_cen data' n model' po j)) as A'.
  fold P0 sq in A. fold P0' sq' in A'. rewrite A, A'. f_equal.
  - unfold energy_diff. cbn [shape cen]. apply (Rsum_moved2 (xorb (v_mirror_y w) (v_side w)) (xorb (v_mirror_x w) (v_side w)) (v_swap w)). intros y x Hy Hx.
    change (moved _ _ _ n y x) with (q y x). cbn [get cen]. fold P0 P0' sq sq'. rewrite !sq_moved by auto. unfold pv. now rewrite <- pv_minus, pv_mod.
  - unfold energy. cbn [shape cen]. apply (Rsum_moved2 (xorb (v_mirror_y w) (v_side w)) (xorb (v_mirror_x w) (v_side w)) (v_swap w)). intros y x Hy Hx.
    change (moved _ _ _ n y x) with (q y x). cbn [get cen]. fold P0 P0' sq sq'. rewrite sq_moved by auto. unfold pv. now rewrite pv_mod.
Qed.
Lemma line_moved i : lineAt P0' data' po i = lineAt P0 data po i.
Proof.
  destruct i as [|i]; cbn [lineAt].
  - f_equal. exact (mse_moved 0).
  - pose proof (mse_moved i) as M1. pose proof (mse_moved (S i)) as M2. pose proof (dpup_moved i (S i)) as M3. unfold sq, sq' in M1, M2, M3. now rewrite M1, M2, M3.
Qed.
End T.
