(** Convergence of phase retrieval: when the loop goes on, the light grows geometrically. *)
From Verif Require Import S_PSF S_Converge L_Array L_Sum L_FFT L_FFT2 L_Polar L_PSF L_Ctor L_Hanser L_Hanser2 L_Hanser4 L_Aberr L_Phase L_Phase2 L_Phase3 L_Phase4 L_Phase5 L_Phase6 L_Phase7 L_Converge L_Converge2 T_PSF T_Object.
Import M_Array.
Local Open Scope R_scope.
Section W.
Context (u : array R -> array R) (Hu : unwraps u) (data : array R) (params : pdict) (nz n : Z) (model : obj numeric) (Hus : usable data params nz n model)
  (pt mt : tol).
Let P0 := obj_params model.
Let h := hpar_model model.
Let sq := seqP P0 data false.
Let conv i := converged pt mt (lineAt P0 data false i).
Let e i := e_ P0 data i.
Let d i := d_ P0 data i.
Let c := cc P0.
Let M := m_ P0 data.
Lemma facts : 0 < c /\ (forall i, 0 <= e i) /\ (forall i, 0 <= d i) /\ (forall i, e (S i) + d (S i) <= e (S (S i))) /\ (forall i, c * e (S i) <= M) /\
  (forall i, a_ P0 data (S i) + c * d i <= a_ P0 data i) /\ c = IZR nz / IZR (n * n).
Proof.
  destruct (hyps _ _ _ _ _ Hus) as (Hr & Hph & Hv & Hc & Hn & Hn2 & Hnz & Hd). fold P0 in Hr, Hph, Hv, Hc, Hn, Hn2, Hnz, Hd. repeat split.
  - exact (cc_pos P0 Hph Hnz).
  - intros i. exact (e_nonneg P0 data i).
  - intros i. exact (d_nonneg P0 data i).
  - intros i. exact (e_grows P0 Hph Hv Hc Hn2 Hnz data Hd i).
  - intros i. exact (e_bound P0 Hph Hv Hc Hn2 Hnz data Hd i).
  - intros i. exact (a_gain P0 Hph Hv Hc Hn2 Hnz data Hd i).
  - pose proof Hus as (_ & _ & _ & _ & _ & _ & Hz). unfold c, cc. change (hpar_model model) with (hpar_of P0) in Hz. rewrite Hz, Hn. reflexivity.
Qed.
(** a run shows the pupil of some index *)
Definition img i : array C := mkArr [n; n] (fun ix => match ix with [y; x] => get (sq i) [row P0 y; row P0 x] | _ => RtoC 0 end).
Lemma img_sees i : sees data n model false i (img i) (sumsq (psfa_at P0 (sq i))).
Proof. split; [reflexivity|]. split; [reflexivity|]. split; reflexivity. Qed.
Lemma energy_en i P psf : sees data n model false i P psf -> energy P = e i.
Proof.
  intros H. rewrite (energy_sees data params nz n model Hus false i P psf H). destruct (hyps _ _ _ _ _ Hus) as (_ & _ & _ & _ & Hn & _). fold P0 in Hn.
  unfold e, e_, en. rewrite Hn, <- (plane_all n). apply plane_ext. intros y x _ _. rewrite Cnorm2_Cmod. unfold fn, sq. fold P0. ring.
Qed.
Lemma energy_diff_en i P psf Q psf' : sees data n model false i P psf -> sees data n model false (S i) Q psf' -> energy_diff P Q = d i.
Proof.
  intros H H'. rewrite (energy_diff_sees data params nz n model Hus false i (S i) P psf Q psf' H H'). destruct (hyps _ _ _ _ _ Hus) as (_ & _ & _ & _ & Hn & _). fold P0 in Hn.
  unfold d, d_, en_diff. rewrite Hn, <- (plane_all n). apply plane_ext. intros y x _ _. rewrite Cnorm2_Cmod. unfold fn, sq. fold P0. ring.
Qed.
Lemma energy_diff_same i P psf Q psf' : sees data n model false i P psf -> sees data n model false i Q psf' -> energy_diff P Q = 0.
Proof.
  intros H H'. rewrite (energy_diff_sees data params nz n model Hus false i i P psf Q psf' H H'). apply Rsum_zero. intros ix _.
  replace (Cminus _ _) with (RtoC 0); [rewrite Cmod_0; ring|]. unfold Cminus. ring.
Qed.
Lemma dpup_en i : dpup (sq i) (sq (S i)) = ratio (d i) (e i).
Proof.
  unfold sq, P0. rewrite (dpup_sees data params nz n model Hus pt mt false i (S i) _ _ _ _ (img_sees i) (img_sees (S i))).
  now rewrite (energy_diff_en i _ _ _ _ (img_sees i) (img_sees (S i))), (energy_en i _ _ (img_sees i)).
Qed.
(** going on means having moved *)
Definition rate : R := match pt with Tol t => t | _ => 1 end.
Lemma rate_pos : attainable pt -> 0 < rate.
Proof. unfold attainable, rate. destruct pt; intros; try lra; contradiction. Qed.
Lemma on_moved i : attainable pt -> conv (S i) = false -> rate * e i <= d i.
Proof.
  intros Hp Hc. unfold conv, converged in Hc. apply Bool.orb_false_iff in Hc. destruct Hc as [Hc _]. apply Bool.orb_false_iff in Hc. destruct Hc as [Hc _].
  cbn [lineAt l_pupil_diff] in Hc. change (seqP P0 data false i) with (sq i) in Hc. change (seqP P0 data false (S i)) with (sq (S i)) in Hc. rewrite dpup_en in Hc.
  destruct facts as (_ & He & Hd & _). specialize (He i). specialize (Hd i). unfold ratio in Hc. destruct (Req_EM_T (e i) 0) as [E|E]; [rewrite E; lra|].
  unfold rate. destruct pt as [t| |]; cbn [below] in Hc.
  - destruct (Rlt_dec (d i / e i) t) as [|Hn]; [discriminate|]. apply Rnot_lt_le in Hn. apply (Rmult_le_compat_r (e i)) in Hn; [|lra]. replace (d i / e i * e i) with (d i) in Hn by (field; exact E). exact Hn.
  - discriminate.
  - contradiction Hp.
Qed.
Lemma geometric j q : attainable pt -> (1 <= j)%nat -> (forall i, (j < i <= j + q)%nat -> conv i = false) -> (1 + rate) ^ q * e j <= e (j + q).
Proof.
  intros Hp Hj Hc. pose proof (rate_pos Hp) as Hr. induction q as [|q IH].
  - rewrite Nat.add_0_r. cbn. lra.
  - assert (IH' : (1 + rate) ^ q * e j <= e (j + q)) by (apply IH; intros i Hi; apply Hc; lia). clear IH.
    destruct facts as (_ & He & Hd & Hg & _). pose proof (Hc (S (j + q)) ltac:(lia)) as Hc'. pose proof (on_moved (j + q) Hp Hc') as Hm.
    replace (j + S q)%nat with (S (j + q)) by lia. destruct (j + q)%nat as [|w] eqn:Ew; [lia|]. specialize (Hg w). cbn [pow].
    assert ((1 + rate) * ((1 + rate) ^ q * e j) <= (1 + rate) * e (S w)) by (apply Rmult_le_compat_l; lra). lra.
Qed.
(** the number of iterations *)
Lemma count j k m : attainable pt -> (1 <= j)%nat -> stop data model pt mt false k m -> (1 + rate) ^ (m - 2 - j) * (c * e j) <= M.
Proof.
  intros Hp Hj (Hm & Hf & _). fold P0 in Hf. destruct facts as (Hc & He & _ & _ & Hb & _).
  assert (G : (1 + rate) ^ (m - 2 - j) * e j <= e (j + (m - 2 - j))). { apply geometric; auto. intros i Hi. apply Hf. lia. }
  destruct (j + (m - 2 - j))%nat as [|w] eqn:Ew; [lia|]. specialize (Hb w). apply (Rmult_le_compat_l c) in G; [|lra]. lra.
Qed.
Lemma first_light_sq : osum h (Z.of_nat (List.length (h_zrange h))) (mgf data) (fn (sq 0)) * osum h (Z.of_nat (List.length (h_zrange h))) (mgf data) (fn (sq 0)) <= c * e 0 * (c * e 1).
Proof.
  destruct (hyps _ _ _ _ _ Hus) as (Hr & Hph & Hv & Hc & Hn & Hn2 & Hnz & Hd). exact (e_first P0 Hph Hv Hc Hn2 Hnz data Hd).
Qed.
Lemma unbounded x B : 0 < x -> 0 < B -> exists N, forall q : nat, (1 + x) ^ q * B <= M -> (q < N)%nat.
Proof.
  intros Hx HB. destruct (Pow_x_infinity (1 + x) ltac:(rewrite Rabs_right by lra; lra) ((Rabs M + 1) / B)) as [N HN].
  exists N. intros q Hq. destruct (lt_dec q N) as [|Hge]; [assumption|exfalso]. specialize (HN q ltac:(lia)). apply Rge_le in HN.
  assert (Hp : 0 < (1 + x) ^ q) by (apply pow_lt; lra). rewrite (Rabs_right ((1 + x) ^ q)) in HN by lra. apply (Rmult_le_compat_r B) in HN; [|lra].
  replace ((Rabs M + 1) / B * B) with (Rabs M + 1) in HN by (field; lra). pose proof (Rle_abs M). lra.
Qed.
(** every run is short *)
Lemma runs_bounded : attainable pt -> attainable mt -> exists N, forall k m, stop data model pt mt false k m -> (m <= N)%nat.
Proof.
  intros Hp Hm. destruct facts as (Hc & He & _ & Hg & Hb & _). pose proof (rate_pos Hp) as Hr.
  assert (C : forall j, (1 <= j)%nat -> 0 < e j -> exists N, forall k m, stop data model pt mt false k m -> (m <= N)%nat).
  { intros j Hj Hej. destruct (unbounded rate (c * e j) Hr (Rmult_lt_0_compat _ _ Hc Hej)) as [N HN]. exists (N + 2 + j)%nat. intros k m Hs. pose proof (HN _ (count j k m Hp Hj Hs)). lia. }
  destruct (Req_dec (e 1) 0) as [E1|E1]; [|apply (C 1%nat); [lia|]; specialize (He 1%nat); lra].
  destruct (Req_dec (e 2) 0) as [E2|E2]; [|apply (C 2%nat); [lia|]; specialize (He 2%nat); lra].
  exists 3%nat. intros k m (Hk & Hf & _). destruct (le_dec m 3) as [|Hgt]; [assumption|exfalso]. fold P0 in Hf. specialize (Hf 2%nat ltac:(lia)).
  destruct (hyps _ _ _ _ _ Hus) as (_ & Hph & Hv & Hcc & Hn & Hn2 & Hnz & Hd). fold P0 in Hph, Hv, Hcc, Hn, Hn2, Hnz, Hd.
  unfold converged in Hf. apply Bool.orb_false_iff in Hf. destruct Hf as [Hf H3]. apply Bool.orb_false_iff in Hf. destruct Hf as [_ H2].
  cbn [lineAt l_mse_diff l_mse] in H2, H3. change (seqP P0 data false 2) with (sq 2%nat) in H2, H3. change (seqP P0 data false 1) with (sq 1%nat) in H2.
  pose proof (mse_zero P0 Hph Hv Hcc Hn2 Hnz data Hd 1 2 E1 E2) as E. fold sq in E. rewrite E in H2. clear E.
  pose proof (mean_sees data params nz n model Hus false 2 _ _ (img_sees 2)) as E. change (mse_of P0 data (sq 2%nat) = Some (mean_sq data (sumsq (psfa_at P0 (sq 2%nat))))) in E. rewrite E in H2, H3. clear E. cbn [mse_change olift2 odiv] in H2.
  set (v := mean_sq data _) in *. assert (H0 : forall w, w = 0 -> below (Some w) mt = true). { intros w ->. destruct mt; cbn in *; try contradiction; auto. destruct (Rlt_dec 0 r); auto. }
  destruct (Req_EM_T v 0) as [Ev|Ev]; [rewrite (H0 v Ev) in H3; discriminate|].
  rewrite H0 in H2; [discriminate|]. rewrite Rminus_diag_eq by reflexivity. rewrite Rabs_R0. unfold Rdiv. ring.
Qed.
End W.
