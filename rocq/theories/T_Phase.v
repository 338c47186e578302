(** C45-C50: what retrieve_phase does, for every input. *)
From Verif Require Import S_PSF S_Phase L_Array L_Sum L_FFT L_FFT2 L_Polar L_PSF L_Ctor L_Hanser L_Hanser2 L_Hanser4 L_Aberr L_Phase L_Phase2 L_Phase3 L_Phase4 L_Phase5 L_Phase6 L_Phase7 T_PSF T_Object.
Import M_Array.
Local Open Scope R_scope.

(** ** C45 bookkeeping *)
Lemma conv_iff pt mt l : converged pt mt l = true <-> is_below (l_pupil_diff l) pt \/ is_below (l_mse_diff l) mt \/ is_below (l_mse l) mt.
Proof. unfold converged. rewrite !Bool.orb_true_iff, !below_iff. tauto. Qed.
Lemma nth_lines {B} (f : line -> B) (d : B) lines i l : nth_error lines i = Some l -> nth i (map f lines) d = f l.
Proof. intros H. apply nth_error_nth. now apply map_nth_error. Qed.
Lemma stops_line pt mt mg ph lines o i l : nth_error lines i = Some l -> stops_at pt mt (mk_result mg ph lines o) i <-> converged pt mt l = true.
Proof. intros H. unfold stops_at. cbn [r_pupil_diff r_mse_diff r_mse mk_result]. rewrite !(nth_lines _ _ _ _ _ H). symmetry. apply conv_iff. Qed.
(** Whatever the arguments, a run that returns performed between 1 and max_iters iterations; the three records have that common
    length; there is nothing to compare in the first iteration; no iteration before the last met a tolerance; and a run shorter
    than max_iters ended because its last iteration met one. *)
Theorem C45_bookkeeping :
  forall u data params k pt mt po r d', retrieve_phase u data params k pt mt po = (Ok r, d') ->
    let L := List.length (r_mse r) in
    List.length (r_mse_diff r) = L /\ List.length (r_pupil_diff r) = L /\ (1 <= L)%nat /\ (Z.of_nat L <= k)%Z /\
    nth 0 (r_mse_diff r) None = None /\ nth 0 (r_pupil_diff r) None = None /\
    (forall i, (i < L - 1)%nat -> ~ stops_at pt mt r i) /\
    ((Z.of_nat L < k)%Z -> stops_at pt mt r (L - 1)).
Proof.
  intros u data params k pt mt po r d' H. apply retrieve_inv in H. destruct H as (nz & n & kk & model & pupil & Q & lines & o' & mg & ph & _ & Hk & _ & _ & _ & _ & Hl & _ & _ & ->).
  destruct (loop_lines data (amap psqrt data) (amap Re pupil) pt mt po (Z.to_nat k) _ _ _ _ _ _ _ ltac:(lia) Hl) as (new & E & Hn & _ & Hi & Hs & H0). cbn [app] in E. subst lines.
  cbn [r_mse r_mse_diff r_pupil_diff mk_result]. rewrite !map_length. cbv zeta.
  assert (N : forall i, (i < List.length new)%nat -> exists l, nth_error new i = Some l).
  { intros i Hlt. destruct (nth_error new i) eqn:X; [eauto|]. apply nth_error_None in X. lia. }
  split; [reflexivity|]. split; [reflexivity|]. split; [lia|]. split; [lia|].
  destruct (N 0%nat ltac:(lia)) as [l0 E0]. destruct (H0 eq_refl _ E0) as [A B].
  split; [rewrite (nth_lines _ _ _ _ _ E0); exact A|]. split; [rewrite (nth_lines _ _ _ _ _ E0); exact B|]. split.
  - intros i Hlt. destruct (N i ltac:(lia)) as [l El]. rewrite (stops_line pt mt mg ph new o' i l El). specialize (Hi i l Hlt El). unfold conv in Hi. congruence.
  - intros Hlt. destruct (N (List.length new - 1)%nat ltac:(lia)) as [l El]. rewrite (stops_line pt mt mg ph new o' _ l El). apply (Hs ltac:(lia) l El).
Qed.
Print Assumptions C45_bookkeeping.
(** A run that met a tolerance is the same run with any other allowance that is large enough: same result, same dictionary. *)
Theorem C45_allowance :
  forall u data params k k' pt mt po r d', retrieve_phase u data params k pt mt po = (Ok r, d') ->
    (Z.of_nat (List.length (r_mse r)) < k)%Z -> (Z.of_nat (List.length (r_mse r)) <= k')%Z ->
    retrieve_phase u data params k' pt mt po = (Ok r, d').
Proof.
  intros u data params k k' pt mt po r d' H Hlt Hle. apply retrieve_inv in H. destruct H as (nz & n & kk & model & pupil & Q & lines & o' & mg & ph & Hsh & Hk & -> & Hc & Hm & Hp & Hl & E1 & E2 & ->).
  destruct (loop_lines data (amap psqrt data) (amap Re pupil) pt mt po (Z.to_nat k) _ _ _ _ _ _ _ ltac:(lia) Hl) as (new & E & Hn & _). cbn [app] in E. subst lines.
  cbn [r_mse mk_result] in Hlt, Hle. rewrite map_length in Hlt, Hle.
  apply (retrieve_fwd u data params k' pt mt po nz n kk model pupil Q new o' mg ph); auto; [lia|].
  change new with ([] ++ new). apply (loop_same data (amap psqrt data) (amap Re pupil) pt mt po (Z.to_nat k)); auto; lia.
Qed.
Print Assumptions C45_allowance.
(** With a smaller allowance the records are the beginnings of the records. *)
Theorem C45_prefix :
  forall u data params k k' pt mt po r r' d d', (k <= k')%Z ->
    retrieve_phase u data params k pt mt po = (Ok r, d) -> retrieve_phase u data params k' pt mt po = (Ok r', d') ->
    r_mse r = firstn (Z.to_nat k) (r_mse r') /\ r_mse_diff r = firstn (Z.to_nat k) (r_mse_diff r') /\
    r_pupil_diff r = firstn (Z.to_nat k) (r_pupil_diff r').
Proof.
  intros u data params k k' pt mt po r r' d d' Hkk H H'. apply retrieve_inv in H, H'.
  destruct H as (nz & n & kk & model & pupil & Q & lines & o' & mg & ph & Hsh & Hk & -> & Hc & Hm & Hp & Hl & E1 & E2 & ->).
  destruct H' as (nz2 & n2 & kk2 & model2 & pupil2 & Q2 & lines2 & o2' & mg2 & ph2 & Hsh2 & Hk2 & -> & Hc2 & Hm2 & Hp2 & Hl2 & E12 & E22 & ->).
  assert (nz2 = nz /\ n2 = n) as [-> ->] by (split; congruence). assert (kk2 = kk) by congruence. subst kk2.
  pose proof (eq_trans (eq_sym Hm2) Hm) as X. injection X as ->. pose proof (eq_trans (eq_sym Hp2) Hp) as X. injection X as ->.
  change lines2 with ([] ++ lines2) in Hl2.
  destruct (loop_prefix data (amap psqrt data) (amap Re pupil) pt mt po _ _ _ _ _ _ _ _ Hl2 (Z.to_nat k) ltac:(lia)) as (Q3 & o3 & E3).
  pose proof (eq_trans (eq_sym E3) Hl) as X. injection X as <- <- <-. cbn [r_mse r_mse_diff r_pupil_diff mk_result app]. rewrite !firstn_map. auto.
Qed.
Print Assumptions C45_prefix.
(** What is refused, whatever the rest: and then the caller's dictionary is left alone. *)
Theorem C45_refused :
  forall u data params k pt mt po,
    ((k <= 0)%Z -> retrieve_phase u data params k pt mt po = (Err AssertionError, params)) /\
    ((0 < k)%Z -> (List.length (shape data) < 3)%nat -> retrieve_phase u data params k pt mt po = (Err IndexError, params)) /\
    ((0 < k)%Z -> (List.length (shape data) >= 3)%nat ->
      (nth 1 (shape data) 0 <> nth 2 (shape data) 0)%Z \/ (List.length (shape data) > 3)%nat ->
      retrieve_phase u data params k pt mt po = (Err AssertionError, params)).
Proof.
  intros u data params k pt mt po. unfold retrieve_phase. split; [|split].
  - intros Hk. replace (0 <? k)%Z with false by (symmetry; apply Z.ltb_ge; lia). reflexivity.
  - intros Hk Hl. replace (0 <? k)%Z with true by (symmetry; apply Z.ltb_lt; lia). cbn [negb]. destruct (shape data) as [|a [|b [|c l]]]; try reflexivity. cbn in Hl. lia.
  - intros Hk Hl Ho. replace (0 <? k)%Z with true by (symmetry; apply Z.ltb_lt; lia). cbn [negb]. destruct (shape data) as [|a [|b [|c l]]]; cbn in Hl, Ho; try lia.
    destruct (Z.eqb_spec b c) as [->|Hne]; cbn [negb]; [|reflexivity]. destruct l; [|reflexivity]. cbn in Ho. destruct Ho; [congruence|lia].
Qed.
Print Assumptions C45_refused.

Section W.
Context (u : array R -> array R) (data : array R) (params : pdict) (nz n : Z) (model : obj numeric) (pt mt : tol) (po : bool).
Local Notation after := (after u data params pt mt po model).
(** On usable input every allowance succeeds, and the i-th entries of the records are: the mean squared error of the PSF the
    user sees after i iterations, its change relative to the previous error, and the change of the pupil relative to the energy of
    the previous one. *)
Theorem C45_records :
  unwraps u -> usable data params nz n model -> forall k, (1 <= k)%Z ->
  exists r, fst (retrieve_phase u data params k pt mt po) = Ok r /\
    forall i, (i < List.length (r_mse r))%nat ->
      (exists P psf, after i P psf) /\
      forall P psf, after i P psf ->
        nth i (r_mse r) None = Some (mean_sq data psf) /\
        forall j P' psf', i = S j -> after j P' psf' ->
          nth i (r_mse_diff r) None = ratio (Rabs (mean_sq data psf' - mean_sq data psf)) (mean_sq data psf') /\
          nth i (r_pupil_diff r) None = ratio (energy_diff P' P) (energy P').
Proof.
  intros Hu Hus k Hk. destruct (retrieve u Hu data params nz n model Hus pt mt po k Hk) as (m & r & E & Hst & R1 & R2 & R3 & Hres & _).
  exists r. split; [now rewrite E|]. rewrite R1, R2, R3, !map_length, seq_length. intros i Hi.
  pose proof (reach_lt data model pt mt po _ _ i Hst Hi) as Hr.
  assert (Nt : nth_error (map (lineAt (obj_params model) data po) (seq 0 m)) i = Some (lineAt (obj_params model) data po i)).
  { apply map_nth_error. rewrite (nth_error_nth' _ 0%nat) by (rewrite seq_length; exact Hi). rewrite seq_nth by exact Hi. reflexivity. }
  split.
  - destruct (after_iff u Hu data params nz n model Hus pt mt po i (gen_pupil (hpar_model model)) data Hr) as [(P & psf & A & _) _]. eauto.
  - intros P psf HA. pose proof (proj2 (after_iff u Hu data params nz n model Hus pt mt po i P psf Hr) HA) as S1.
    pose proof (mean_sees data params nz n model Hus po _ _ _ S1) as M1.
    split; [rewrite (nth_lines _ _ _ _ _ Nt); destruct i; exact M1|]. intros j P' psf' -> HA'.
    pose proof (reach_lt data model pt mt po _ _ j Hst ltac:(lia)) as Hr'.
    pose proof (proj2 (after_iff u Hu data params nz n model Hus pt mt po j P' psf' Hr') HA') as S2.
    pose proof (mean_sees data params nz n model Hus po _ _ _ S2) as M2.
    rewrite !(nth_lines _ _ _ _ _ Nt). cbn [lineAt l_mse_diff l_pupil_diff]. split.
    + change (mse_change (mse_of (obj_params model) data (seqP (obj_params model) data po j)) (mse_of (obj_params model) data (seqP (obj_params model) data po (S j))) =
        ratio (Rabs (mean_sq data psf' - mean_sq data psf)) (mean_sq data psf')). rewrite M1, M2. reflexivity.
    + exact (dpup_sees data params nz n model Hus pt mt po _ _ _ _ _ _ S2 S1).
Qed.

(** ** C46 the amplitude error never grows *)
(** A larger allowance never gives a PSF whose amplitude is further from the measured amplitude (phase_only or not), and
    none is further than the PSF of the unaberrated model. *)
Theorem C46_error_never_grows :
  unwraps u -> usable data params nz n model -> forall k k', (1 <= k)%Z -> (k <= k')%Z ->
  exists r r' psf psf' v,
    fst (retrieve_phase u data params k pt mt po) = Ok r /\ fst (retrieve_phase u data params k' pt mt po) = Ok r' /\
    generate_psf r None None None = Ok psf /\ generate_psf r' None None None = Ok psf' /\ fst (read numeric Hanser PSFi model) = Ok v /\
    amp_error data psf' <= amp_error data psf /\ amp_error data psf <= amp_error data (reals v).
Proof.
  intros Hu Hus k k' Hk Hkk. destruct (hyps _ _ _ _ _ Hus) as (Hr & Hph & Hv & Hc & Hn & Hn2 & Hnz & Hd).
  destruct (retrieve u Hu data params nz n model Hus pt mt po k Hk) as (m & r & E & Hst & _ & _ & _ & Hres & _).
  destruct (retrieve u Hu data params nz n model Hus pt mt po k' ltac:(lia)) as (m' & r' & E' & Hst' & _ & _ & _ & Hres' & _).
  destruct (result_psf (obj_params model) Hr Hph Hv Hc Hn2 data Hd po _ r Hres) as (psf & E1 & A1). destruct (result_psf (obj_params model) Hr Hph Hv Hc Hn2 data Hd po _ r' Hres') as (psf' & E2 & A2).
  destruct (start_psf data params nz n model Hus po) as (v & Ev & Av).
  exists r, r', psf, psf', v. rewrite E, E'. repeat (split; [first [reflexivity|assumption]|]).
  rewrite !(amp_error_sq (obj_params model) Hph Hv Hc Hn2 data Hd po _ psf A1), !(amp_error_sq (obj_params model) Hph Hv Hc Hn2 data Hd po _ psf' A2), !(amp_error_sq (obj_params model) Hph Hv Hc Hn2 data Hd po _ (reals v) Av).
  split; apply (aerr_le (obj_params model) Hph Hv Hc Hn2 Hnz data Hd po); [|lia].
  apply (stop_mono data model pt mt po (Z.to_nat k) (Z.to_nat k') m m' ltac:(lia) Hst Hst').
Qed.

(** ** C47 the pupil lives in the aperture *)
Theorem C47_support :
  unwraps u -> usable data params nz n model -> forall k, (1 <= k)%Z ->
  exists r, fst (retrieve_phase u data params k pt mt po) = Ok r /\ shape (r_mag r) = [n; n] /\ shape (r_phase r) = [n; n] /\
    forall y x, (0 <= y < n)%Z -> (0 <= x < n)%Z ->
      0 <= get (r_mag r) [y; x] /\
      (~ inside (hpar_model model) y x -> get (r_mag r) [y; x] = 0 /\ get (r_phase r) [y; x] = 0) /\
      (po = true -> inside (hpar_model model) y x -> get (r_mag r) [y; x] = 1).
Proof.
  intros Hu Hus k Hk. destruct (hyps _ _ _ _ _ Hus) as (Hr & Hph & Hv & Hc & Hn & Hn2 & Hnz & Hd).
  destruct (retrieve u Hu data params nz n model Hus pt mt po k Hk) as (m & r & E & Hst & _ & _ & _ & (S1 & S2 & _ & G) & _). rewrite Hn in S1, S2, G.
  exists r. split; [now rewrite E|]. split; [exact S1|]. split; [exact S2|]. intros y x Hy Hx. destruct (G y x Hy Hx) as (-> & t & ->). split; [apply Cmod_ge_0|].
  assert (Hy' : (0 <= y < h_size (hpar_of (obj_params model)))%Z) by (rewrite Hn; exact Hy). assert (Hx' : (0 <= x < h_size (hpar_of (obj_params model)))%Z) by (rewrite Hn; exact Hx).
  pose proof (mkf_aperture (obj_params model) Hph Hn2 y x Hy' Hx') as A. unfold aperture in A. change (hpar_of (obj_params model)) with (hpar_model model) in A. split.
  - intros Hi. unfold inside in Hi. destruct (Rlt_dec _ _); [contradiction|].
    rewrite (off (obj_params model) Hph Hv Hc Hn2 data Hd po _ y x A). change (hpar_of (obj_params model)) with (hpar_model model). rewrite Cmod_0, A. split; [reflexivity|ring].
  - intros Hpo Hi. unfold inside in Hi. destruct (Rlt_dec _ _); [|contradiction].
    exact (sq_one (obj_params model) Hph Hv Hc Hn2 data Hd po _ _ _ (row_in (obj_params model) Hn2 y) (row_in (obj_params model) Hn2 x) Hpo A).
Qed.

(** ** C48 the pupil returned and the model returned *)
Theorem C48_model_and_pupil :
  unwraps u -> usable data params nz n model -> forall k, (1 <= k)%Z ->
  exists r v psf, fst (retrieve_phase u data params k pt mt po) = Ok r /\ generate_psf r None None None = Ok psf /\
    fst (read numeric Hanser PSFi (r_model r)) = Ok v /\
    let L := List.length (r_mse r) in
    (* the model belongs to the last recorded error *)
    nth (L - 1) (r_mse r) None = Some (mean_sq data (reals v)) /\
    (forall P q, after (L - 1) P q -> arr_eq q (reals v)) /\
    (* stopped by a tolerance: so does the pupil *)
    (stops_at pt mt r (L - 1) -> arr_eq psf (reals v)) /\
    (* otherwise the pupil is the one the next iteration would have judged *)
    (~ stops_at pt mt r (L - 1) -> Z.of_nat L = k /\
       exists r' v', fst (retrieve_phase u data params (k + 1) pt mt po) = Ok r' /\ List.length (r_mse r') = S L /\
         fst (read numeric Hanser PSFi (r_model r')) = Ok v' /\ arr_eq psf (reals v') /\ nth L (r_mse r') None = Some (mean_sq data psf)).
Proof.
  intros Hu Hus k Hk. destruct (hyps _ _ _ _ _ Hus) as (Hr & Hph & Hv & Hc & Hn & Hn2 & Hnz & Hd).
  assert (ME : forall i q, arr_eq q (sumsq (psfa_at (obj_params model) (seqP (obj_params model) data po i))) -> mse_of (obj_params model) data (seqP (obj_params model) data po i) = Some (mean_sq data q)).
  { intros i q Hq. apply (mean_sees data params nz n model Hus po i (mkArr [n; n] (fun ix => match ix with [y; x] => get (seqP (obj_params model) data po i) [row (obj_params model) y; row (obj_params model) x] | _ => RtoC 0 end)) q). split; [reflexivity|]. split; [reflexivity|exact Hq]. }
  assert (LA : forall i, l_mse (lineAt (obj_params model) data po i) = mse_of (obj_params model) data (seqP (obj_params model) data po i)) by (intros [|i]; reflexivity).
  assert (NT : forall m i, (i < m)%nat -> nth_error (map (lineAt (obj_params model) data po) (seq 0 m)) i = Some (lineAt (obj_params model) data po i)).
  { intros m i Hi. apply map_nth_error. rewrite (nth_error_nth' _ 0%nat) by (rewrite seq_length; exact Hi). rewrite seq_nth by exact Hi. reflexivity. }
  assert (RV : forall A : array R, reals (amap (fun r : R => Some (RtoC r)) A) = A) by (intros [sh g]; reflexivity).
  assert (RF : forall A : array R, arr_eq A A) by (intros A; split; reflexivity).
  destruct (retrieve u Hu data params nz n model Hus pt mt po k Hk) as (m & r & E & Hst & R1 & R2 & R3 & Hres & Hsh). destruct Hsh as (_ & Hv1 & _).
  destruct (result_psf (obj_params model) Hr Hph Hv Hc Hn2 data Hd po _ r Hres) as (psf & E1 & A1). pose proof Hst as (Hm & Hf & Hl).
  exists r, (amap (fun r => Some (RtoC r)) (sumsq (psfa_at (obj_params model) (seqP (obj_params model) data po (m - 1))))), psf.
  rewrite E. repeat (split; [first [reflexivity|assumption]|]). rewrite RV. rewrite R1, !map_length, seq_length. cbv zeta.
  assert (Q : stops_at pt mt r (m - 1) <-> converged pt mt (lineAt (obj_params model) data po (m - 1)) = true).
  { unfold stops_at. rewrite R1, R2, R3, !(nth_lines _ _ _ _ _ (NT m (m - 1)%nat ltac:(lia))). symmetry. apply conv_iff. }
  split; [|split; [|split]].
  - rewrite (nth_lines _ _ _ _ _ (NT m (m - 1)%nat ltac:(lia))), LA. apply ME, RF.
  - intros P q HA. pose proof (reach_lt data model pt mt po _ _ (m - 1)%nat Hst ltac:(lia)) as Hrc.
    exact (proj2 (proj2 (proj2 (after_iff u Hu data params nz n model Hus pt mt po _ P q Hrc) HA))).
  - intros Hs. apply Q in Hs. unfold shown in A1. rewrite Hs in A1. exact A1.
  - intros Hs. assert (Hs' : converged pt mt (lineAt (obj_params model) data po (m - 1)) = false) by (destruct (converged _ _ _); [exfalso; now apply Hs, Q|reflexivity]).
    assert (Em : m = Z.to_nat k). { destruct (Nat.eq_dec m (Z.to_nat k)); auto. rewrite Hl in Hs' by lia. discriminate. }
    split; [lia|]. destruct (retrieve u Hu data params nz n model Hus pt mt po (k + 1) ltac:(lia)) as (m' & r' & E' & Hst' & R1' & R2' & R3' & Hres' & (_ & Hv1' & _)).
    assert (Em' : m' = S m).
    { destruct Hst' as (Hm' & Hf' & Hl'). destruct (Nat.eq_dec m' (S m)); auto. exfalso. assert (Hlt : (m' < Z.to_nat (k + 1))%nat) by lia. specialize (Hl' Hlt).
      destruct (Nat.eq_dec m' m) as [->|]; [rewrite Hs' in Hl'; discriminate|]. rewrite Hf in Hl' by lia. discriminate. }
    subst m'. replace (S m - 1)%nat with m in * by lia.
    exists r', (amap (fun r => Some (RtoC r)) (sumsq (psfa_at (obj_params model) (seqP (obj_params model) data po m)))). rewrite E', R1', !map_length, seq_length. repeat (split; [first [reflexivity|assumption]|]).
    unfold shown in A1. rewrite Hs' in A1. split; [rewrite RV; exact A1|]. rewrite (nth_lines _ _ _ _ _ (NT (S m) m ltac:(lia))), LA. now apply ME.
Qed.

(** ** C50 perfect data *)
(** Data equal to the PSF of the unaberrated model: one iteration, error 0, and the clear aperture with phase 0 (up to whole turns). *)
Theorem C50_perfect_data :
  unwraps u -> usable data params nz n model -> (exists t, mt = Tol t /\ 0 < t) \/ mt = TolInf ->
  forall v, fst (read numeric Hanser PSFi model) = Ok v -> arr_eq data (reals v) -> forall k, (1 <= k)%Z ->
  exists r P, fst (retrieve_phase u data params k pt mt po) = Ok r /\ r_mse r = [Some 0] /\ r_mse_diff r = [None] /\ r_pupil_diff r = [None] /\
    complex_pupil (r_mag r) (r_phase r) = Ok P /\ shape P = [n; n] /\
    forall y x, (0 <= y < n)%Z -> (0 <= x < n)%Z ->
      get P [y; x] = RtoC (aperture (hpar_model model) y x) /\ get (r_mag r) [y; x] = aperture (hpar_model model) y x /\
      exists t : Z, get (r_phase r) [y; x] = 2 * PI * IZR t * aperture (hpar_model model) y x.
Proof.
  intros Hu Hus Hmt v Ev Hdv k Hk. destruct (hyps _ _ _ _ _ Hus) as (Hr & Hph & Hv & Hc & Hn & Hn2 & Hnz & Hd).
  destruct (start_psf data params nz n model Hus po) as (v' & Ev' & Av). pose proof (eq_trans (eq_sym Ev') Ev) as X. injection X as ->.
  assert (M0 : mse_of (obj_params model) data (seqP (obj_params model) data po 0) = Some 0).
  { rewrite (mean_sees data params nz n model Hus po 0 (mkArr [n; n] (fun ix => match ix with [y; x] => get (seqP (obj_params model) data po 0) [row (obj_params model) y; row (obj_params model) x] | _ => RtoC 0 end)) (reals v)) by (split; [reflexivity|]; split; [reflexivity|exact Av]).
    f_equal. unfold mean_sq. destruct Hdv as [_ Hg]. rewrite (Rsum_ext _ _ (fun _ => 0)), Rsum_const; [unfold Rdiv; ring|]. intros ix Hix. rewrite Hg by now apply in_all_ix. ring. }
  destruct (retrieve u Hu data params nz n model Hus pt mt po k Hk) as (m & r & E & Hst & R1 & R2 & R3 & Hres & _). destruct Hst as (Hm & Hf & Hl).
  assert (C0 : converged pt mt (lineAt (obj_params model) data po 0) = true).
  { apply conv_iff. right. right. cbn [lineAt l_mse]. change (seqP (obj_params model) data po 0) with (seqP (obj_params model) data po 0) in *. rewrite M0. destruct Hmt as [(t & -> & Ht)| ->]; cbn; [lra|exact I]. }
  assert (m = 1%nat). { destruct (Nat.eq_dec m 1); auto. rewrite Hf in C0 by lia. discriminate. } subst m.
  unfold shown in Hres. cbn [Nat.sub] in Hres. rewrite C0 in Hres.
  destruct (result_pupil (obj_params model) Hph Hv Hc Hn2 data Hd po _ r Hres) as (P & EP & SP & GP). rewrite Hn in SP, GP. destruct Hres as (_ & _ & _ & G). rewrite Hn in G.
  exists r, P. rewrite E, R1, R2, R3. cbn [map seq lineAt l_mse l_mse_diff l_pupil_diff]. rewrite M0. repeat (split; [first [reflexivity|assumption]|]).
  intros y x Hy Hx. assert (Hy' : (0 <= y < h_size (hpar_of (obj_params model)))%Z) by (rewrite Hn; exact Hy). assert (Hx' : (0 <= x < h_size (hpar_of (obj_params model)))%Z) by (rewrite Hn; exact Hx).
  pose proof (mkf_aperture (obj_params model) Hph Hn2 y x Hy' Hx') as A. change (hpar_of (obj_params model)) with (hpar_model model) in *.
  assert (V : get (seqP (obj_params model) data po 0) [row (obj_params model) y; row (obj_params model) x] = RtoC (aperture (hpar_model model) y x)) by (rewrite <- A; reflexivity).
  assert (B : 0 <= aperture (hpar_model model) y x) by (unfold aperture; destruct (Rlt_dec _ _); lra).
  rewrite GP, V by auto. split; [reflexivity|]. destruct (G y x Hy Hx) as (-> & t & ->). rewrite V, Cmod_R, Rabs_right by lra. split; [reflexivity|]. exists t. rewrite A.
  unfold aperture. destruct (Rlt_dec _ _); [|ring]. replace (angle (RtoC 1)) with 0; [ring|]. symmetry. unfold angle, RtoC. cbn [Re Im fst snd].
  unfold atan2. destruct (Rlt_dec 0 1); [|lra]. unfold Rdiv. rewrite Rmult_0_l. apply atan_0.
Qed.
End W.
Print Assumptions C45_records.
Print Assumptions C46_error_never_grows.
Print Assumptions C47_support.
Print Assumptions C48_model_and_pupil.
Print Assumptions C50_perfect_data.
