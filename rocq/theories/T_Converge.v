(** C106: phase retrieval converges. *)
From Verif Require Import S_PSF S_Converge L_Array L_Sum L_FFT L_FFT2 L_Polar L_PSF L_Ctor L_Hanser L_Hanser2 L_Hanser4 L_Aberr L_Phase L_Phase2 L_Phase3 L_Phase4 L_Phase5 L_Phase6 L_Phase7 L_Converge L_Converge2 L_Converge3 T_PSF T_PSF2 T_Ctor T_Utils T_Object T_Phase T_Phase2 T_Labview M_Labview S_Utils.
Import M_Array.
Local Open Scope R_scope.

Section W.
Context (u : array R -> array R) (data : array R) (params : pdict) (nz n : Z) (model : obj numeric) (pt mt : tol).
Local Notation after := (after u data params pt mt false model).
Local Notation run k := (retrieve_phase u data params k pt mt false).

Lemma after_sees : unwraps u -> usable data params nz n model -> forall i P psf, (1 <= i)%nat -> after i P psf ->
  exists m, stop data model pt mt false i m /\ sees data n model false (shown data model pt mt false m) P psf.
Proof.
  intros Hu Hus i P psf Hi HA. destruct (hyps _ _ _ _ _ Hus) as (Hr & Hph & Hv & Hc & Hn & Hn2 & Hnz & Hd). destruct i as [|i]; [lia|]. cbn [S_Phase.after] in HA. destruct HA as (r & E & E1 & E2).
  destruct (retrieve u Hu data params nz n model Hus pt mt false (Z.of_nat (S i)) ltac:(lia)) as (m & r' & E' & Hst & _ & _ & _ & Hres & _). rewrite E' in E. injection E as ->. rewrite Nat2Z.id in Hst.
  exists m. split; [exact Hst|]. destruct (result_pupil (obj_params model) Hph Hv Hc Hn2 data Hd false _ r Hres) as (Cp & E3 & S1 & G1). destruct (result_psf (obj_params model) Hr Hph Hv Hc Hn2 data Hd false _ r Hres) as (psf' & E4 & A1).
  rewrite E3 in E1. injection E1 as <-. rewrite E4 in E2. injection E2 as <-. rewrite Hn in S1, G1. split; [exact S1|]. split; [exact G1|exact A1].
Qed.
Lemma shown_step i m m' : stop data model pt mt false i m -> stop data model pt mt false (S i) m' ->
  shown data model pt mt false m' = shown data model pt mt false m \/ (shown data model pt mt false m = i /\ shown data model pt mt false m' = S i).
Proof.
  intros (A & B & C) (A' & B' & C'). unfold shown.
  destruct (converged pt mt (lineAt (obj_params model) data false (m - 1))) eqn:Ec.
  - left. assert (m' = m).
    { destruct (Nat.lt_trichotomy m' m) as [H|[H|H]]; [|assumption|]; exfalso.
      - rewrite B in C' by lia. discriminate C'. lia.
      - rewrite B' in Ec by lia. discriminate. }
    subst m'. now rewrite Ec.
  - assert (m = i). { destruct (Nat.eq_dec m i); [assumption|exfalso]. specialize (C ltac:(lia)). discriminate C. } subst m.
    assert (m' = S i).
    { destruct (Nat.eq_dec m' (S i)); [assumption|exfalso]. assert (H : (m' < S i)%nat) by lia. pose proof (C' H) as X. destruct (Nat.eq_dec m' i) as [->|]; [pose proof (eq_trans (eq_sym X) Ec) as Y; discriminate Y|]. pose proof (eq_trans (eq_sym X) (B (m' - 1)%nat ltac:(lia))) as Y. discriminate Y. }
    subst m'. replace (S i - 1)%nat with i by lia. destruct (converged pt mt (lineAt (obj_params model) data false i)); auto.
Qed.

(** Each iteration: the amplitude error falls by at least the distance the pupil moved, and from the first iteration on the light
    of the PSF rises by at least the same (distance as light: what the difference of the two pupils sends to the nz planes). *)
Theorem C106_each_iteration :
  unwraps u -> usable data params nz n model -> forall i P psf P' psf', after i P psf -> after (S i) P' psf' ->
    let moved := IZR nz / IZR (n * n) * energy_diff P P' in
    0 <= moved /\ amp_error data psf' + moved <= amp_error data psf /\ ((1 <= i)%nat -> light psf + moved <= light psf').
Proof.
  intros Hu Hus i P psf P' psf' HA HA'. cbv zeta. destruct (hyps _ _ _ _ _ Hus) as (Hr & Hph & Hv & Hc & Hn & Hn2 & Hnz & Hd).
  destruct (facts data params nz n model Hus) as (Fc & Fe & Fd & Fg & Fb & Fa & Ec). rewrite <- Ec.
  destruct (after_sees Hu Hus (S i) P' psf' ltac:(lia) HA') as (m' & St' & S').
  assert (Z : exists s, sees data n model false s P psf /\ (shown data model pt mt false m' = s \/ (s = i /\ shown data model pt mt false m' = S i)) ).
  { destruct i as [|i].
    - assert (R0 : reach data model pt mt false 0) by now left. exists 0%nat. split; [exact (proj2 (after_iff u Hu data params nz n model Hus pt mt false 0 P psf R0) HA)|].
      destruct St' as (B & _ & _). assert (m' = 1)%nat by lia. subst m'. unfold shown. destruct (converged _ _ _); auto.
    - destruct (after_sees Hu Hus (S i) P psf ltac:(lia) HA) as (m & St & S0). exists (shown data model pt mt false m). split; [exact S0|]. destruct (shown_step _ _ _ St St') as [E|[E1 E2]]; auto. }
  destruct Z as (s & S0 & [E|[-> E]]); rewrite E in S'.
  - rewrite (energy_diff_same data params nz n model Hus _ _ _ _ _ S0 S'). destruct S0 as (_ & _ & A0). destruct S' as (_ & _ & A1).
    rewrite !(amp_error_sq (obj_params model) Hph Hv Hc Hn2 data Hd false _ _ A0), !(amp_error_sq (obj_params model) Hph Hv Hc Hn2 data Hd false _ _ A1).
    rewrite !(light_sq (obj_params model) Hph Hv Hc Hn2 Hnz data Hd _ _ A0), !(light_sq (obj_params model) Hph Hv Hc Hn2 Hnz data Hd _ _ A1). lra.
  - rewrite (energy_diff_en data params nz n model Hus _ _ _ _ _ S0 S'). destruct S0 as (_ & _ & A0). destruct S' as (_ & _ & A1).
    rewrite !(amp_error_sq (obj_params model) Hph Hv Hc Hn2 data Hd false _ _ A0), !(amp_error_sq (obj_params model) Hph Hv Hc Hn2 data Hd false _ _ A1).
    rewrite !(light_sq (obj_params model) Hph Hv Hc Hn2 Hnz data Hd _ _ A0), !(light_sq (obj_params model) Hph Hv Hc Hn2 Hnz data Hd _ _ A1).
    split; [|split].
    + apply Rmult_le_pos; [lra|apply Fd].
    + exact (Fa i).
    + intros Hi. destruct i as [|i]; [lia|]. specialize (Fg i). rewrite <- Rmult_plus_distr_l. apply Rmult_le_compat_l; lra.
Qed.
(** The PSF of a longer run holds at least as much light; and, once one update has been made, never more than the data. *)
Theorem C106_light :
  unwraps u -> usable data params nz n model -> forall k k', (1 <= k <= k')%Z ->
  exists r r' psf psf', fst (run k) = Ok r /\ fst (run k') = Ok r' /\ generate_psf r None None None = Ok psf /\ generate_psf r' None None None = Ok psf' /\
    light psf <= light psf' /\ (light psf' <= measured data \/ stops_at pt mt r' 0).
Proof.
  intros Hu Hus k k' Hk. destruct (hyps _ _ _ _ _ Hus) as (Hr & Hph & Hv & Hc & Hn & Hn2 & Hnz & Hd).
  destruct (facts data params nz n model Hus) as (Fc & Fe & Fd & Fg & Fb & Fa & Ec).
  destruct (retrieve u Hu data params nz n model Hus pt mt false k ltac:(lia)) as (m & r & E & Hst & _ & _ & _ & Hres & _).
  destruct (retrieve u Hu data params nz n model Hus pt mt false k' ltac:(lia)) as (m' & r' & E' & Hst' & R1 & R2 & R3 & Hres' & _).
  destruct (result_psf (obj_params model) Hr Hph Hv Hc Hn2 data Hd false _ r Hres) as (psf & E1 & A1). destruct (result_psf (obj_params model) Hr Hph Hv Hc Hn2 data Hd false _ r' Hres') as (psf' & E2 & A2).
  exists r, r', psf, psf'. rewrite E, E'. repeat (split; [first [reflexivity|assumption]|]).
  rewrite (light_sq (obj_params model) Hph Hv Hc Hn2 Hnz data Hd _ _ A1), (light_sq (obj_params model) Hph Hv Hc Hn2 Hnz data Hd _ _ A2), (measured_m (obj_params model) data Hd).
  destruct (stop_mono data model pt mt false (Z.to_nat k) (Z.to_nat k') m m' ltac:(lia) Hst Hst') as (M1 & M2 & M3).
  assert (Sh : forall m, (1 <= m)%nat -> shown data model pt mt false m = 0%nat -> m = 1%nat /\ converged pt mt (lineAt (obj_params model) data false 0) = true).
  { intros q Hq. unfold shown. destruct (converged pt mt (lineAt (obj_params model) data false (q - 1))) eqn:Eq; intros; [|lia]. assert (q = 1%nat) by lia. subst q. auto. }
  destruct (Nat.eq_dec (shown data model pt mt false m') 0) as [Z'|Z'].
  - split; [(replace (shown data model pt mt false m) with 0%nat by lia; rewrite Z'; lra)|].
    right. destruct (Sh m' ltac:(destruct Hst'; lia) Z') as [-> C0]. unfold stops_at. rewrite R1, R2, R3. apply conv_iff in C0. exact C0.
  - assert (Z : shown data model pt mt false m <> 0%nat).
    { intros Z. destruct (Sh m ltac:(destruct Hst; lia) Z) as [-> C0]. apply Z'. destruct Hst' as (B1 & B2 & B3). destruct (Nat.eq_dec m' 1) as [->|N]; [exact Z|]. rewrite B2 in C0 by lia. discriminate. }
    split.
    + apply Rmult_le_compat_l; [lra|]. apply (e_mono (obj_params model) Hph Hv Hc Hn2 Hnz data Hd). lia.
    + left. destruct (shown data model pt mt false m') as [|w]; [contradiction|]. apply Fb.
Qed.
(** The number of iterations: with a pupil tolerance t > 0 and data that share light with the PSF of the unaberrated model,
    (1 + t) ^ (iterations - 3) is at most light * measured / overlap^2. *)
Theorem C106_iterations :
  unwraps u -> usable data params nz n model -> forall t, pt = Tol t -> 0 < t -> forall v, fst (read numeric Hanser PSFi model) = Ok v ->
  forall k, (1 <= k)%Z -> exists r, fst (run k) = Ok r /\
    (1 + t) ^ (List.length (r_mse r) - 3) * overlap data (reals v) ^ 2 <= light (reals v) * measured data.
Proof.
  intros Hu Hus t Et Ht v Ev k Hk. destruct (hyps _ _ _ _ _ Hus) as (Hr & Hph & Hv & Hc & Hn & Hn2 & Hnz & Hd).
  destruct (facts data params nz n model Hus) as (Fc & Fe & Fd & Fg & Fb & Fa & Ec).
  destruct (retrieve u Hu data params nz n model Hus pt mt false k Hk) as (m & r & E & Hst & R1 & _ & _ & _ & _).
  exists r. rewrite E. split; [reflexivity|]. rewrite R1, !map_length, seq_length.
  destruct (start_psf data params nz n model Hus false) as (v' & Ev' & Av). pose proof (eq_trans (eq_sym Ev') Ev) as X. injection X as ->.
  rewrite (overlap_sq (obj_params model) Hph Hv Hc Hn2 data Hd 0 _ Av), (light_sq (obj_params model) Hph Hv Hc Hn2 Hnz data Hd 0 _ Av), (measured_m (obj_params model) data Hd).
  pose proof (first_light_sq data params nz n model Hus) as F1.
  pose proof (count data params nz n model Hus pt mt 1 (Z.to_nat k) m ltac:(rewrite Et; exact Ht) ltac:(lia) Hst) as F2. unfold rate in F2. rewrite Et in F2.
  replace (m - 2 - 1)%nat with (m - 3)%nat in F2 by lia. change (hpar_model model) with (hpar_of (obj_params model)) in F1.
  set (O := osum _ _ _ _) in *. set (p := (1 + t) ^ (m - 3)) in *. assert (0 < p) by (apply pow_lt; lra).
  set (c := cc (obj_params model)) in *. set (e0 := e_ (obj_params model) data 0) in *. set (e1 := e_ (obj_params model) data 1) in *. set (M := m_ (obj_params model) data) in *.
  assert (N0 : 0 <= c * e0) by (apply Rmult_le_pos; [lra|apply Fe]).
  replace (O ^ 2) with (O * O) by ring. apply Rle_trans with (p * (c * e0 * (c * e1))); [apply Rmult_le_compat_l; lra|].
  replace (p * (c * e0 * (c * e1))) with (c * e0 * (p * (c * e1))) by ring. apply Rmult_le_compat_l; lra.
Qed.
(** With tolerances something can be below (the defaults, say) there is an allowance from which every run ends by meeting one: it
    returns one and the same result whatever larger allowance it is given. *)
Theorem C106_converges :
  unwraps u -> usable data params nz n model -> attainable pt -> attainable mt ->
  exists K r d, forall k, (K <= k)%Z -> run k = (Ok r, d) /\ (Z.of_nat (List.length (r_mse r)) <= K)%Z /\ stops_at pt mt r (List.length (r_mse r) - 1).
Proof.
  intros Hu Hus Hp Hm. destruct (runs_bounded data params nz n model Hus pt mt Hp Hm) as [N HN].
  destruct (retrieve u Hu data params nz n model Hus pt mt false (Z.of_nat (S N)) ltac:(lia)) as (m & r & E & Hst & R1 & _).
  assert (L : List.length (r_mse r) = m) by now rewrite R1, !map_length, seq_length. pose proof (HN _ _ Hst) as Hb.
  exists (Z.of_nat (S N)), r, (forced nz n params). intros k Hk.
  assert (E' : run k = (Ok r, forced nz n params)) by (apply (C45_allowance u data params (Z.of_nat (S N)) k pt mt false r (forced nz n params) E); lia).
  split; [exact E'|]. split; [lia|]. destruct (C45_bookkeeping _ _ _ _ _ _ _ _ _ E) as (_ & _ & _ & _ & _ & _ & _ & H). apply H. lia.
Qed.
End W.

(** labview(...): whatever the recorded counts, there is a max_iters from which the list of phases no longer changes. *)
Theorem C106_labview :
  forall u (data : array Z) nz ny nx wl na ni rs zres qw qn qi qr qz pt mt,
    unwraps u -> shape data = [nz; ny; nx] -> (0 < nz)%Z -> (0 < ny)%Z -> (0 < nx)%Z -> (2 <= Z.max ny nx)%Z -> (forall ix, inb (shape data) ix -> (0 <= get data ix)%Z) ->
    M_Val.num wl = Some (FFin qw) -> M_Val.num na = Some (FFin qn) -> M_Val.num ni = Some (FFin qi) -> M_Val.num rs = Some (FFin qr) -> M_Val.num zres = Some (FFin qz) ->
    (0 < qw)%Q -> (0 < qn)%Q -> (0 < qi)%Q -> (0 < qr)%Q -> (qr < qw / (2 * qn))%Q -> (0 < qz)%Q -> attainable pt -> attainable mt ->
    exists K rows, forall k, (K <= k)%Z -> labview u data wl na ni rs zres k pt mt false = Ok rows.
Proof.
  intros u data nz ny nx wl na ni rs zres qw qn qi qr qz pt mt Hu Sd P1 P2 P3 Hs Hd Hw Hn Hi Hr Hz Pw Pn Pi Pr Lr Pz Hp Hm.
  destruct (C13_prep_pad data nz ny nx None (3 # 2) (Z.max ny nx) Sd P1 P2 P3 Hd eq_refl ltac:(lia)) as (b & mode & Eb & _ & Sb & _).
  destruct (lv_usable nz (Z.max ny nx) wl na ni rs zres qw qn qi qr qz Hw Hn Hi Hr Hz (amap Q2R b) Sb P1 Hs Pw Pn Pi Pr Lr Pz) as (model & Hus & _).
  destruct (C106_converges u (amap Q2R b) _ nz (Z.max ny nx) model pt mt Hu Hus Hp Hm) as (K & r & d & HK).
  exists K, (tolist (r_phase r)). intros k Hk. destruct (HK k Hk) as (E & _). unfold labview. rewrite Eb. cbn [bind]. unfold lv_dict in E. rewrite E. reflexivity.
Qed.

(** The hypotheses are met: 64 x 64 pixels and 7 planes, data 1 everywhere, which share light with the PSF of the model. *)
Lemma Rsum_pos_inv {X} (l : list X) f : 0 < Rsum l f -> exists x, In x l /\ 0 < f x.
Proof.
  induction l as [|b l IH]; cbn; [lra|]. intros H. destruct (Rlt_dec 0 (f b)) as [Hb|Hb]; [exists b; auto|].
  destruct IH as (x & Hx & Hf); [lra|]. exists x. auto.
Qed.
Definition cdata : array R := mkArr [7; 64; 64]%Z (fun _ => 1).
Lemma cdata_usable : usable cdata wdict 7 64 (wmade numeric).
Proof. destruct usable_witness as (_ & H). split; [reflexivity|exact H]. Qed.
Example converge_witness : exists v, unwraps (fun a => a) /\ usable cdata wdict 7 64 (wmade numeric) /\ attainable (Tol (1 / 100000000)) /\
  fst (read numeric Hanser PSFi (wmade numeric)) = Ok v /\ 0 < overlap cdata (reals v) /\ 0 < light (reals v).
Proof.
  destruct (start_psf _ _ _ _ _ cdata_usable false) as (v & Ev & Av). exists v. split; [apply unwraps_witness|]. split; [apply cdata_usable|]. split; [cbn; lra|]. split; [exact Ev|].
  destruct (hyps _ _ _ _ _ cdata_usable) as (Hr & Hph & Hv & Hc & Hn & Hn2 & Hnz & Hd).
  assert (Hna : 0 < h_na (hpar_of (obj_params (wmade numeric)))) by (rewrite wmade_params; cbn; unfold Q2R; cbn; lra).
  assert (L : 0 < light (reals v)).
  { rewrite (light_sq (obj_params (wmade numeric)) Hph Hv Hc Hn2 Hnz cdata Hd 0 _ Av). apply Rmult_lt_0_compat; [now apply cc_pos|].
    set (h := hpar_of (obj_params (wmade numeric))) in *. set (f := fn (seqP (obj_params (wmade numeric)) cdata false 0)).
    assert (H0 : (0 <= 0 < h_size h)%Z) by lia.
    assert (N : forall y, In y (zseq (h_size h)) -> 0 <= Rsum (zseq (h_size h)) (fun x => Cnorm2 (f y x))) by (intros; apply Rsum_nonneg; intros; apply Cnorm2_ge_0).
    unfold e_, en, plane_sum. fold h. fold f. apply (Rsum_pos _ _ 0%Z N); [now apply in_zseq_iff|]. apply (Rsum_pos _ _ 0%Z); [intros; apply Cnorm2_ge_0|now apply in_zseq_iff|].
    assert (E : f 0%Z 0%Z = RtoC (mkf h 0 0)) by reflexivity. rewrite E. unfold mkf. rewrite ideal_spec by auto. unfold k2.
    assert (Z0 : sfreq (h_size h) (h_res h) 0 = 0).
    { unfold sfreq. replace ((0 + h_size h / 2) mod h_size h - h_size h / 2)%Z with 0%Z; [unfold Rdiv; ring|]. rewrite Z.add_0_l, Z.mod_small; [ring|]. split; [apply Z.div_pos; lia|apply Z.div_lt; lia]. }
    rewrite !Z0. pose proof Hph as Hph'. destruct (physical_nz _ Hph') as [N1 N2]. destruct (Rlt_dec _ _) as [|Hnot]; [rewrite Cnorm2_RtoC; lra|exfalso]. apply Hnot.
    replace (0 * 0 + 0 * 0) with 0 by ring. unfold physical in Hph. assert (0 < h_na h / h_wl h) by (apply Rdiv_lt_0_compat; lra). nra. }
  split; [|exact L]. destruct (Rsum_pos_inv _ _ L) as (ix & Hix & Hf). unfold overlap. destruct Av as [As _]. rewrite (psfi_shape _ Hph Hv Hc) in As by reflexivity.
  apply (Rsum_pos _ _ ix).
  - intros. apply Rmult_le_pos; apply sqrt_pos.
  - rewrite Hd, <- As. exact Hix.
  - apply Rmult_lt_0_compat; apply sqrt_lt_R0; [|exact Hf]. cbn [get cdata]. unfold Rmax. destruct (Rle_dec 0 1); lra.
Qed.
Print Assumptions C106_each_iteration.
Print Assumptions C106_light.
Print Assumptions C106_iterations.
Print Assumptions C106_converges.
Print Assumptions C106_labview.
