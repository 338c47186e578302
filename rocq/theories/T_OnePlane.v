(** C107: plane counts that numpy broadcasts. *)
From Verif Require Import S_OnePlane L_Array L_Sum L_FFT L_FFT2 L_Polar L_PSF L_Ctor L_Hanser L_Hanser2 L_Hanser4 L_Aberr L_Phase L_Phase2 L_Phase3 L_Phase4 L_Phase5 L_Phase6 L_OnePlane L_OnePlane2 L_OnePlane3 T_PSF T_Object T_Phase T_Phase2.
Import M_Array.
Local Open Scope R_scope.

(** One recorded plane and a zrange of m positions: the run is that for the plane recorded m times.  All three records agree, and
    so do the magnitude, the complex pupil and the PSF of the result. *)
Theorem C107_one_plane :
  forall u data params m n model k pt mt po, unwraps u -> shape data = [1; n; n]%Z -> zrange_given params -> makes params 1 n ->
    usable (repeated m data) params m n model -> (1 <= k)%Z ->
    exists r r', fst (retrieve_phase u data params k pt mt po) = Ok r /\ fst (retrieve_phase u (repeated m data) params k pt mt po) = Ok r' /\
      r_mse r = r_mse r' /\ r_mse_diff r = r_mse_diff r' /\ r_pupil_diff r = r_pupil_diff r' /\ same_pupil r r'.
Proof.
  intros u data params m n model k pt mt po Hu Sd Hz (kA & mA & EA & MA) Hus Hk.
  pose proof Hus as (_ & Hm & Hn & (kB & EB & MB) & _ & _ & Hl). destruct (hyps _ _ _ _ _ Hus) as (Hr & Hph & Hv & Hc & Hn' & Hn2 & Hnz & Hd).
  destruct (same_models params 1 m n kA mA kB model Hz EA MA EB MB) as [E Er].
  destruct (retrieve u Hu (repeated m data) params m n model Hus pt mt po k Hk) as (q' & r' & F' & St' & R1' & R2' & R3' & Res' & _).
  set (P := obj_params mA) in *. set (P' := obj_params model) in *. change (hpar_model model) with (hpar_of P') in Hl. rewrite <- E in Hl, Hph, Hv, Hc, Hn', Hn2, Hnz, Hd. rewrite <- Er in Hr.
  assert (Sd' : shape data = [1; h_size (hpar_of P); h_size (hpar_of P)]%Z) by (rewrite Hn'; exact Sd).
  assert (HN : forall a, shape a = [n; n] -> exists Q, next_pupil (amap psqrt data) (maskA (hpar_of P)) po (hpar_of P) (psfa_at P a) = Ok Q /\ shape Q = [n; n] /\
    forall j i, (0 <= j < n)%Z -> (0 <= i < n)%Z -> get Q [j; i] = step (hpar_of P) (Z.of_nat (List.length (h_zrange (hpar_of P)))) (mgf (repeated m data)) (mkf (hpar_of P)) po (fn a) j i).
  { intros a Ha. rewrite <- Hn' in Ha |- *. rewrite <- Hl. apply next_one_plane; try assumption. now apply psfa_at_ok. }
  assert (HM : forall a, shape a = [n; n] -> calc_mse data (sumsq (psfa_at P a)) = Ok (mse_of P data a)).
  { intros a Ha. rewrite <- Hn' in Ha. now apply mse_one_plane. }
  destruct (retrieveA u Hu data params 1 n kA mA (repeated m data) pt mt po Sd EA MA Hr Hph Hv Hc Hn' Hn ltac:(fold P; rewrite Hn' in Hd; exact Hd) HN HM k Hk) as (q & r & F & St & R1 & R2 & R3 & Res).
  fold P in St, R1, R2, R3, Res.
  assert (Sh : forall i, shape (seqP P data po i) = [n; n]).
  { intros i. rewrite <- Hn'. rewrite <- Hn' in HN. exact (sqA_shape P data (repeated m data) po HN i). }
  assert (Sh' : forall i, shape (seqP P (repeated m data) po i) = [n; n]). { intros i. rewrite <- Hn'. now apply seqP_shape. }
  assert (Sq : forall i j x, (0 <= j < n)%Z -> (0 <= x < n)%Z -> get (seqP P data po i) [j; x] = get (seqP P (repeated m data) po i) [j; x]).
  { intros i. rewrite <- Hn'. rewrite <- Hn' in HN. exact (sq_same P Hph Hv Hc Hn2 data (repeated m data) Hd po HN i). }
  assert (Em : forall i, mse_of P data (seqP P data po i) = mse_of P' (repeated m data) (seqP P' (repeated m data) po i)).
  { intros i. rewrite <- (seqP_hpar P P' _ po i E), <- (mse_of_hpar P P' _ _ E).
    rewrite (proj2 (mse_one_plane P Hph Hv Hc Hn2 Hnz data _ Sd' ltac:(rewrite Hn'; apply Sh))), (proj2 (mse_equal P Hph Hv Hc Hn2 Hnz (repeated m data) _ Hd ltac:(rewrite Hn'; apply Sh'))).
    f_equal. apply sq_mean_ext. intros z y x _ Hy Hx. f_equal. f_equal. f_equal. apply amp_ext; try assumption. rewrite Hn'. intros j x' Hj Hx'. now apply Sq. }
  assert (El : forall i, lineAt P data po i = lineAt P' (repeated m data) po i).
  { intros i. assert (Ep : l_pupil_diff (lineAt P data po i) = l_pupil_diff (lineAt P' (repeated m data) po i)).
    { rewrite <- Hn' in HN, HM. rewrite (pupil_diffs P Hph Hv Hc Hn2 data (repeated m data) Hd po pt mt HN HM i). destruct i; [reflexivity|]. unfold lineAt, l_pupil_diff. now rewrite !(seqP_hpar P P' _ po _ E). }
    destruct i as [|i]; cbn [lineAt] in *; [now rewrite Em|]. cbn [l_pupil_diff] in Ep. now rewrite Ep, !Em. }
  assert (q = q'). { eapply stops_alike; [|exact St|exact St']. intros i. cbv beta. now rewrite El. } subst q'.
  exists r, r'. rewrite F, F'. split; [reflexivity|]. split; [reflexivity|]. rewrite R1, R2, R3, R1', R2', R3'. fold P'. rewrite (map_ext _ _ El). repeat (split; [reflexivity|]).
  eapply (res_same P P' (repeated m data) po); try assumption; [rewrite <- Er; exact Hr|exact Res|]. unfold shown in Res'. fold P' in Res'. rewrite El. exact Res'.
Qed.
Print Assumptions C107_one_plane.

(** Several recorded planes and one position: the run is that for their planes merged into one by the mean of the amplitudes, as long
    as the errors (which differ) stop neither run. *)
Theorem C107_one_position :
  forall u data params nz n model k pt mt po, unwraps u -> shape data = [nz; n; n] -> (1 <= nz)%Z -> zrange_given params -> makes params nz n ->
    usable (merged data) params 1 n model -> never_met mt -> (1 <= k)%Z ->
    exists r r', fst (retrieve_phase u data params k pt mt po) = Ok r /\ fst (retrieve_phase u (merged data) params k pt mt po) = Ok r' /\
      List.length (r_mse r) = List.length (r_mse r') /\ r_pupil_diff r = r_pupil_diff r' /\ same_pupil r r'.
Proof.
  intros u data params nz n model k pt mt po Hu Sd Hnd Hz (kA & mA & EA & MA) Hus Hmt Hk.
  pose proof Hus as (_ & _ & Hn & (kB & EB & MB) & _ & _ & Hl). destruct (hyps _ _ _ _ _ Hus) as (Hr & Hph & Hv & Hc & Hn' & Hn2 & Hnz & Hd).
  destruct (same_models params nz 1 n kA mA kB model Hz EA MA EB MB) as [E Er].
  destruct (retrieve u Hu (merged data) params 1 n model Hus pt mt po k Hk) as (q' & r' & F' & St' & R1' & R2' & R3' & Res' & _).
  set (P := obj_params mA) in *. set (P' := obj_params model) in *. change (hpar_model model) with (hpar_of P') in Hl. rewrite <- E in Hl, Hph, Hv, Hc, Hn', Hn2, Hnz, Hd. rewrite <- Er in Hr.
  assert (Sd' : shape data = [nz; h_size (hpar_of P); h_size (hpar_of P)]%Z) by (rewrite Hn'; exact Sd).
  assert (HN : forall a, shape a = [n; n] -> exists Q, next_pupil (amap psqrt data) (maskA (hpar_of P)) po (hpar_of P) (psfa_at P a) = Ok Q /\ shape Q = [n; n] /\
    forall j i, (0 <= j < n)%Z -> (0 <= i < n)%Z -> get Q [j; i] = step (hpar_of P) (Z.of_nat (List.length (h_zrange (hpar_of P)))) (mgf (merged data)) (mkf (hpar_of P)) po (fn a) j i).
  { intros a Ha. rewrite <- Hn' in Ha |- *. rewrite Hl. apply (next_one_position (hpar_of P) Hph Hv Hc Hn2 data nz po a (psfa_at P a) Hl Hnd Sd' Ha). now apply psfa_at_ok. }
  assert (HM : forall a, shape a = [n; n] -> calc_mse data (sumsq (psfa_at P a)) = Ok (mse_of P data a)).
  { intros a Ha. rewrite <- Hn' in Ha. now apply (mse_one_position P Hph Hv Hc Hn2 data nz a Hl Hnd Sd' Ha). }
  destruct (retrieveA u Hu data params nz n kA mA (merged data) pt mt po Sd EA MA Hr Hph Hv Hc Hn' Hn ltac:(fold P; rewrite Hn' in Hd; exact Hd) HN HM k Hk) as (q & r & F & St & R1 & R2 & R3 & Res).
  fold P in St, R1, R2, R3, Res.
  assert (Sh : forall i, shape (seqP P data po i) = [n; n]).
  { intros i. rewrite <- Hn'. rewrite <- Hn' in HN. exact (sqA_shape P data (merged data) po HN i). }
  assert (Sh' : forall i, shape (seqP P' (merged data) po i) = [n; n]). { intros i. rewrite <- (seqP_hpar P P' _ po i E), <- Hn'. now apply seqP_shape. }
  assert (Ma : forall i, exists v, mse_of P data (seqP P data po i) = Some v /\ 0 <= v).
  { intros i. eexists. split; [exact (proj2 (mse_one_position P Hph Hv Hc Hn2 data nz _ Hl Hnd Sd' ltac:(rewrite Hn'; apply Sh)))|now apply sq_mean_pos]. }
  assert (Mb : forall i, exists v, mse_of P' (merged data) (seqP P' (merged data) po i) = Some v /\ 0 <= v).
  { intros i. rewrite <- (mse_of_hpar P P' _ _ E). eexists. split; [exact (proj2 (mse_equal P Hph Hv Hc Hn2 Hnz (merged data) _ Hd ltac:(rewrite Hn'; apply Sh')))|now apply sq_mean_pos]. }
  assert (Ep : forall i, l_pupil_diff (lineAt P data po i) = l_pupil_diff (lineAt P' (merged data) po i)).
  { intros i. rewrite <- Hn' in HN, HM. rewrite (pupil_diffs P Hph Hv Hc Hn2 data (merged data) Hd po pt mt HN HM i). destruct i; [reflexivity|]. unfold lineAt, l_pupil_diff. now rewrite !(seqP_hpar P P' _ po _ E). }
  assert (Ec : forall i, converged pt mt (lineAt P data po i) = converged pt mt (lineAt P' (merged data) po i)).
  { intros i. unfold converged. rewrite Ep. destruct i as [|i]; cbn [lineAt l_mse l_mse_diff].
    - destruct (Ma 0%nat) as (v & -> & Hv'). destruct (Mb 0%nat) as (w & -> & Hw). now rewrite !never_below by assumption.
    - destruct (Ma (S i)) as (v & -> & Hv'). destruct (Mb (S i)) as (w & -> & Hw). destruct (Ma i) as (v0 & -> & Hv0). destruct (Mb i) as (w0 & -> & Hw0). now rewrite !never_below, !never_change by assumption. }
  assert (q = q'). { eapply stops_alike; [|exact St|exact St']. exact Ec. } subst q'.
  exists r, r'. rewrite F, F'. split; [reflexivity|]. split; [reflexivity|]. rewrite R1, R2, R1', R2', !map_length, !map_map. fold P'. rewrite (map_ext _ _ Ep). repeat (split; [reflexivity|]).
  eapply (res_same P P' (merged data) po); try assumption; [rewrite <- Er; exact Hr|exact Res|]. unfold shown in Res'. fold P' in Res'. rewrite Ec. exact Res'.
Qed.
Print Assumptions C107_one_position.

(** The hypotheses are met: one plane and three positions; seven planes and one position. *)
Definition odict (l : list fl) : pdict := wdict ++ [("zrange", KZ (ZList l))]%string.
Definition octor (nz : Z) (l : list fl) : ctor :=
  mkCtor (VInt 520) (qf 6 5) (qf 3 2) (VInt 90) (VInt 64) (Some (VInt 100)) (Some (VInt nz)) (VStr "none") (VStr "none") (Some (ZList l)) (VBool false).
Definition omade (E : engine) (nz : Z) (l : list fl) : obj E := match construct E Hanser (octor nz l) with Ok o => o | Err _ => empty_obj E end.
Definition three : list fl := [FFin 0; FFin 1; FFin 2].
Lemma omade_makes nz l : (forall E, construct E Hanser (octor nz l) = Ok (omade E nz l)) -> makes (odict l) nz 64.
Proof. intros A. exists (octor nz l), (omade numeric nz l). split; [reflexivity|apply A]. Qed.
Lemma made_three nz : nz = 1%Z \/ nz = 3%Z -> forall E, construct E Hanser (octor nz three) = Ok (omade E nz three).
Proof. intros [->| ->] E; vm_compute; reflexivity. Qed.
Lemma made_one nz : nz = 1%Z \/ nz = 7%Z -> forall E, construct E Hanser (octor nz [FFin 1]) = Ok (omade E nz [FFin 1]).
Proof. intros [->| ->] E; vm_compute; reflexivity. Qed.
Example one_plane_witness : zrange_given (odict three) /\ makes (odict three) 1 64 /\
  usable (repeated 3 (mkArr [1; 64; 64]%Z (fun _ => 1))) (odict three) 3 64 (omade numeric 3 three).
Proof.
  split; [exact I|]. split; [apply omade_makes, made_three; auto|].
  assert (B : forall E, obj_params (omade E 3 three) = obj_params (omade toy 3 three)) by (intros E; vm_compute; reflexivity).
  assert (C1 : forall E a, o_attr (omade E 3 three) a = o_attr (omade toy 3 three) a) by (intros E []; vm_compute; reflexivity).
  assert (D : forall E, o_zrange (omade E 3 three) = Some three) by (intros E; vm_compute; reflexivity).
  split; [reflexivity|]. split; [lia|]. split; [lia|]. split; [eexists; split; [reflexivity|apply made_three; auto]|]. unfold hpar_model. split.
  - unfold finite_model. rewrite !C1, D. repeat (split; [vm_compute; eauto|]). eexists. split; [reflexivity|]. repeat constructor; eexists; reflexivity.
  - rewrite B. set (q := obj_params (omade toy 3 three)). vm_compute in q. subst q. split; [|reflexivity]. unfold physical. cbn. unfold Q2R. cbn. repeat split; try lia; try lra.
Qed.
Example one_position_witness : zrange_given (odict [FFin 1]) /\ makes (odict [FFin 1]) 7 64 /\ never_met (Tol 0) /\
  usable (merged (mkArr [7; 64; 64]%Z (fun ix => IZR (hd 0%Z ix)))) (odict [FFin 1]) 1 64 (omade numeric 1 [FFin 1]).
Proof.
  split; [exact I|]. split; [apply omade_makes, made_one; auto|]. split; [apply Rle_refl|].
  assert (B : forall E, obj_params (omade E 1 [FFin 1]) = obj_params (omade toy 1 [FFin 1])) by (intros E; vm_compute; reflexivity).
  assert (C1 : forall E a, o_attr (omade E 1 [FFin 1]) a = o_attr (omade toy 1 [FFin 1]) a) by (intros E []; vm_compute; reflexivity).
  assert (D : forall E, o_zrange (omade E 1 [FFin 1]) = Some [FFin 1]) by (intros E; vm_compute; reflexivity).
  split; [reflexivity|]. split; [lia|]. split; [lia|]. split; [eexists; split; [reflexivity|apply made_one; auto]|]. unfold hpar_model. split.
  - unfold finite_model. rewrite !C1, D. repeat (split; [vm_compute; eauto|]). eexists. split; [reflexivity|]. repeat constructor; eexists; reflexivity.
  - rewrite B. set (q := obj_params (omade toy 1 [FFin 1])). vm_compute in q. subst q. split; [|reflexivity]. unfold physical. cbn. unfold Q2R. cbn. repeat split; try lia; try lra.
Qed.
