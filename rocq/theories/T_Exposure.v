(** C87: what the brightness of the data changes in a phase retrieval, and what it does not. *)
From Verif Require Import S_PSF S_Phase L_Array L_Sum L_FFT L_FFT2 L_Polar L_PSF L_Ctor L_Hanser L_Hanser2 L_Hanser4 L_Aberr L_Phase L_Phase2 L_Phase3 L_Phase4 L_Phase5 L_Phase6 L_Phase7 L_Phase8 T_PSF T_Object T_Phase T_Phase2.
Import M_Array.
Local Open Scope R_scope.

(** The same stack at another brightness. *)
Definition brighter (c : R) (data data' : array R) : Prop :=
  shape data' = shape data /\ forall ix, inb (shape data) ix -> get data' ix = c * get data ix.
(** A tolerance nothing (no error, no change: these are never negative) is below. *)
Definition never (t : tol) : Prop := match t with Tol r => r <= 0 | TolInf => False | TolNever => True end.

Lemma atan2_scale l y x : 0 < l -> atan2 (l * y) (l * x) = atan2 y x.
Proof.
  intros Hl. unfold atan2.
  assert (S1 : 0 < l * x <-> 0 < x). { split; intros H; [|now apply Rmult_lt_0_compat]. apply (Rmult_lt_reg_l l); [exact Hl|]. now rewrite Rmult_0_r. }
  assert (S2 : l * x < 0 <-> x < 0). { split; intros H; [apply (Rmult_lt_reg_l l); [exact Hl|]; now rewrite Rmult_0_r|]. rewrite <- (Rmult_0_r l). now apply Rmult_lt_compat_l. }
  assert (S3 : 0 < l * y <-> 0 < y). { split; intros H; [|now apply Rmult_lt_0_compat]. apply (Rmult_lt_reg_l l); [exact Hl|]. now rewrite Rmult_0_r. }
  assert (S4 : l * y < 0 <-> y < 0). { split; intros H; [apply (Rmult_lt_reg_l l); [exact Hl|]; now rewrite Rmult_0_r|]. rewrite <- (Rmult_0_r l). now apply Rmult_lt_compat_l. }
  assert (D : x <> 0 -> l * y / (l * x) = y / x) by (intros; field; lra).
  repeat match goal with |- context [Rlt_dec ?a ?b] => destruct (Rlt_dec a b) | |- context [Rle_dec ?a ?b] => destruct (Rle_dec a b) end; try tauto; try (exfalso; lra); try (rewrite D by lra; reflexivity); try (exfalso; tauto).
Qed.
Lemma angle_scale l w : 0 < l -> angle (Cmult (RtoC l) w) = angle w.
Proof. intros Hl. destruct w as [a b]. unfold angle, RtoC, Cmult. cbn [Re Im fst snd]. rewrite <- (atan2_scale l b a Hl). f_equal; ring. Qed.
Lemma psqrt_scale c d : 0 < c -> psqrt (c * d) = sqrt c * psqrt d.
Proof.
  intros Hc. unfold psqrt. rewrite <- sqrt_mult by (try lra; apply Rmax_l). f_equal. rewrite <- (Rmult_0_r c) at 1. apply RmaxRmult. lra.
Qed.

Section A.
Context (h : hpar) (Hph : physical h).
Let n := h_size h.
Lemma amp_scale l P Q z y x : (0 <= y < n)%Z -> (0 <= x < n)%Z -> (forall j i, (0 <= j < n)%Z -> (0 <= i < n)%Z -> Q j i = Cmult (RtoC l) (P j i)) ->
  amp h Q z y x = Cmult (RtoC l) (amp h P z y x).
Proof.
  intros Hy Hx H. rewrite (amp_ext h Q (fun j i => Cmult (RtoC l) (P j i)) z y x Hy Hx H). unfold amp.
  rewrite (mop_ext' _ _ _ _ (fun js => Cmult (RtoC l) (fl2 (fun j i => Cmult (P j i) (defocus h z j i)) js))).
  - rewrite mop_scal. ring.
  - intros js. unfold fl2. destruct js as [|a [|b [|? ?]]]; ring.
Qed.
Lemma back_scale l B B' z j i : (0 <= j < n)%Z -> (0 <= i < n)%Z -> (forall y x, (0 <= y < n)%Z -> (0 <= x < n)%Z -> B' y x = Cmult (RtoC l) (B y x)) ->
  back h B' z j i = Cmult (RtoC l) (back h B z j i).
Proof.
  intros Hj Hi H. unfold back. fold n. rewrite (mop_ext kadj [true; true] [n; n] (fl2 B') (fun js => Cmult (RtoC l) (fl2 B js))).
  - rewrite mop_scal. unfold Cdiv. ring.
  - now apply inb2.
  - intros js Hjs. destruct (inb2_inv _ _ _ Hjs) as (y & x & -> & Hy & Hx). cbn [fl2]. now apply H.
Qed.
Context (nz : Z) (Hnz : (0 < nz)%Z) (mg mg' : Z -> Z -> Z -> R) (mk : Z -> Z -> R) (s : R) (Hs : 0 < s)
  (Hmg : forall z y x, (0 <= z < nz)%Z -> (0 <= y < n)%Z -> (0 <= x < n)%Z -> mg' z y x = s * mg z y x).
Lemma step_scale l po P Q j i : 0 < l -> (0 <= j < n)%Z -> (0 <= i < n)%Z -> (forall j i, (0 <= j < n)%Z -> (0 <= i < n)%Z -> Q j i = Cmult (RtoC l) (P j i)) ->
  step h nz mg' mk po Q j i = Cmult (RtoC (if po then 1 else s)) (step h nz mg mk po P j i).
Proof.
  intros Hl Hj Hi H.
  assert (A : avg h nz mg' Q j i = Cmult (RtoC s) (avg h nz mg P j i)).
  { unfold avg, Cdiv. rewrite (Csum_ext (zseq nz) _ (fun z => Cmult (RtoC s) (back h (fix_mag h mg P z) z j i))).
    - rewrite Csum_scal_l. ring.
    - intros z Hz. apply in_zseq_iff in Hz. apply back_scale; auto. intros y x Hy Hx. unfold fix_mag. rewrite Hmg by auto.
      rewrite (amp_scale l P Q z y x Hy Hx H), angle_scale by exact Hl. rewrite RtoC_mult. ring. }
  unfold step. rewrite A. cbv zeta. rewrite <- Cmult_assoc. destruct po; [|reflexivity]. rewrite angle_scale by exact Hs. ring.
Qed.
End A.

(** ** the recorded numbers *)
Section V.
Context (data : array R) (params : pdict) (nz n : Z) (model : obj numeric) (Hus : usable data params nz n model) (po : bool).
Let P0 := obj_params model.
Let sq := seqP P0 data po.
Definition cen (i : nat) : array C := mkArr [n; n] (fun ix => match ix with [y; x] => get (sq i) [row P0 y; row P0 x] | _ => RtoC 0 end).
Lemma sees_cen i : sees data n model po i (cen i) (sumsq (psfa_at P0 (sq i))).
Proof. split; [reflexivity|]. split; [reflexivity|]. split; reflexivity. Qed.
Lemma mse_num i : mse_of P0 data (sq i) = Some (mean_sq data (sumsq (psfa_at P0 (sq i)))).
Proof. exact (mean_sees data params nz n model Hus po i _ _ (sees_cen i)). Qed.
Lemma dpup_num i j : dpup (sq i) (sq j) = ratio (Rsum (all_ix [n; n]) (fun ix => Cmod (Cminus (get (sq i) ix) (get (sq j) ix)) ^ 2)) (Rsum (all_ix [n; n]) (fun ix => Cmod (get (sq i) ix) ^ 2)).
Proof.
  pose proof (dpup_sees data params nz n model Hus TolInf TolInf po i j _ _ _ _ (sees_cen i) (sees_cen j)) as H. fold P0 in H. fold sq in H. rewrite H.
  now rewrite (energy_diff_sees data params nz n model Hus po i j _ _ _ _ (sees_cen i) (sees_cen j)), (energy_sees data params nz n model Hus po i _ _ (sees_cen i)).
Qed.
Lemma mean_sq_pos a b : 0 <= mean_sq a b \/ (size (shape a) <= 0)%Z.
Proof.
  destruct (Z_le_gt_dec (size (shape a)) 0); [now right|left]. unfold mean_sq. apply Rmult_le_pos.
  - apply Rsum_nonneg. intros ix _. apply pow2_ge_0.
  - left. apply Rinv_0_lt_compat, IZR_lt. lia.
Qed.
Lemma ratio_below x y t : 0 <= x -> 0 <= y -> never t -> below (ratio x y) t = false.
Proof.
  intros Hx Hy Ht. unfold ratio. destruct (Req_EM_T y 0); [reflexivity|]. cbn [below]. destruct t as [r| |]; [|contradiction|reflexivity]. cbn in Ht.
  destruct (Rlt_dec (x / y) r) as [q|]; [|reflexivity]. exfalso. assert (0 <= x / y) by (apply Rmult_le_pos; [exact Hx|]; left; apply Rinv_0_lt_compat; lra). lra.
Qed.
Lemma never_conv pt mt i : never pt -> never mt -> converged pt mt (lineAt P0 data po i) = false.
Proof.
  intros Hp Hm.
  assert (Sz : forall k, 0 <= mean_sq data (sumsq (psfa_at P0 (sq k)))).
  { intros k. destruct (mean_sq_pos data (sumsq (psfa_at P0 (sq k)))) as [H|H]; [exact H|exfalso]. destruct Hus as (Hs & H1 & H2 & _). rewrite Hs in H. unfold size in H. cbn in H. nia. }
  assert (B : forall k, below (mse_of P0 data (sq k)) mt = false).
  { intros k. rewrite mse_num. specialize (Sz k). destruct mt as [r| |]; [|contradiction|reflexivity]. cbn in Hm |- *. destruct (Rlt_dec _ _); [exfalso; lra|reflexivity]. }
  unfold converged. destruct i as [|j]; cbn [lineAt l_mse l_mse_diff l_pupil_diff].
  - change (below (mse_of P0 data (seqP P0 data po 0)) mt) with (below (mse_of P0 data (sq 0)) mt). rewrite B. reflexivity.
  - change (mse_of P0 data (seqP P0 data po (S j))) with (mse_of P0 data (sq (S j))). rewrite B. change (dpup (seqP P0 data po j) (seqP P0 data po (S j))) with (dpup (sq j) (sq (S j))).
    change (mse_of P0 data (seqP P0 data po j)) with (mse_of P0 data (sq j)). rewrite dpup_num, !mse_num.
    rewrite ratio_below by (try exact Hp; apply Rsum_nonneg; intros; apply pow2_ge_0). cbn [orb].
    change (mse_change (Some ?a) (Some ?b)) with (ratio (Rabs (a - b)) a).
    rewrite ratio_below; [reflexivity|apply Rabs_pos|apply Sz|exact Hm].
Qed.
Lemma never_stop pt mt k m : never pt -> never mt -> stop data model pt mt po k m -> m = k /\ shown data model pt mt po m = m.
Proof.
  intros Hp Hm (A & B & C). assert (E : m = k). { destruct (Nat.eq_dec m k); auto. fold P0 in C. rewrite never_conv in C by auto. discriminate C. lia. }
  split; [exact E|]. unfold shown. fold P0. now rewrite never_conv.
Qed.
End V.

(** ** two exposures of one stack *)
Section E.
Context (data data' : array R) (params : pdict) (nz n : Z) (model : obj numeric) (Hus : usable data params nz n model) (po : bool)
  (c : R) (Hc0 : 0 < c) (Hb : brighter c data data').
Let P0 := obj_params model.
Let sq := seqP P0 data po.
Let sq' := seqP P0 data' po.
Lemma usable' : usable data' params nz n model.
Proof. destruct Hb as [Hs _]. destruct Hus as (H & R). split; [congruence|exact R]. Qed.
Definition lam (i : nat) : R := if po then 1 else match i with 0%nat => 1 | _ => sqrt c end.
Lemma lam_pos i : 0 < lam i. Proof. unfold lam. pose proof (sqrt_lt_R0 c Hc0). destruct po; [lra|]. destruct i; lra. Qed.
Lemma sq_scale i j x : (0 <= j < n)%Z -> (0 <= x < n)%Z -> get (sq' i) [j; x] = Cmult (RtoC (lam i)) (get (sq i) [j; x]).
Proof.
  destruct (hyps _ _ _ _ _ Hus) as (Hr & Hph & Hv & Hc & Hn & Hn2 & Hnz & Hd). destruct (hyps _ _ _ _ _ usable') as (_ & _ & _ & _ & _ & _ & _ & Hd'). fold P0 in Hr, Hph, Hv, Hc, Hn, Hn2, Hnz, Hd, Hd'.
  revert j x. induction i as [|i IH]; intros j x Hj Hx.
  - unfold lam. destruct po; cbn; ring.
  - unfold sq', sq. cbn [seqP].
    destruct (nextP_ok P0 Hph Hv Hc Hn2 data' Hd' po (seqP P0 data' po i)) as (_ & _ & G'); [now apply seqP_shape|].
    destruct (nextP_ok P0 Hph Hv Hc Hn2 data Hd po (seqP P0 data po i)) as (_ & _ & G); [now apply seqP_shape|].
    rewrite Hn in G, G'. rewrite G', G by auto.
    rewrite (step_scale (hpar_of P0) _ (mgf data) (mgf data') _ (sqrt c) (sqrt_lt_R0 c Hc0)) with (l := lam i) (P := fn (seqP P0 data po i)).
    + unfold lam. destruct po; reflexivity.
    + intros z y x' Hz Hy Hx'. unfold mgf. destruct Hb as [_ Hg]. rewrite Hg; [now apply psqrt_scale|]. rewrite Hd. now apply inb3.
    + apply lam_pos.
    + now rewrite Hn.
    + now rewrite Hn.
    + rewrite Hn. intros a b Ha Hb'. now apply IH.
Qed.
Lemma psf_scale i z y x : (0 <= y < n)%Z -> (0 <= x < n)%Z ->
  get (sumsq (psfa_at P0 (sq' i))) [z; y; x] = lam i ^ 2 * get (sumsq (psfa_at P0 (sq i))) [z; y; x].
Proof.
  destruct (hyps _ _ _ _ _ Hus) as (Hr & Hph & Hv & Hc & Hn & Hn2 & Hnz & Hd). destruct (hyps _ _ _ _ _ usable') as (_ & _ & _ & _ & _ & _ & _ & Hd'). fold P0 in Hr, Hph, Hv, Hc, Hn, Hn2, Hnz, Hd, Hd'.
  intros Hy Hx. rewrite !(psfi_at P0 Hph Hv Hc) by (first [now apply seqP_shape | rewrite Hn; assumption]).
  rewrite (amp_scale (hpar_of P0) (lam i) (fn (sq i)) (fn (sq' i)) z y x) by (first [rewrite Hn; assumption | rewrite Hn; intros; now apply sq_scale]).
  rewrite Cmod_mult, Cmod_R, Rabs_right by (pose proof (lam_pos i); lra). ring.
Qed.
Lemma lam_sq i : po = false -> (1 <= i)%nat -> lam i ^ 2 = c.
Proof. intros Hp Hi. unfold lam. rewrite Hp. destruct i; [lia|]. rewrite <- Rsqr_pow2. apply Rsqr_sqrt. lra. Qed.
Lemma mse_scale i : po = false -> (1 <= i)%nat -> mean_sq data' (sumsq (psfa_at P0 (sq' i))) = c ^ 2 * mean_sq data (sumsq (psfa_at P0 (sq i))).
Proof.
  intros Hpo Hi. unfold mean_sq. destruct Hb as [Hs Hg]. rewrite Hs. unfold Rdiv. rewrite <- Rmult_assoc. f_equal. rewrite <- Rsum_scal_l. apply Rsum_ext. intros ix Hix. apply in_all_ix in Hix.
  rewrite Hg by exact Hix. destruct Hus as (Hd & _). rewrite Hd in Hix. destruct (inb3_inv _ _ _ _ Hix) as (z & y & x & -> & Hz & Hy & Hx). rewrite psf_scale, lam_sq by auto. ring.
Qed.
Lemma lam_step i : po = true \/ (1 <= i)%nat -> lam (S i) = lam i.
Proof. unfold lam. destruct po; [reflexivity|]. intros [|]; [discriminate|]. destruct i; [lia|reflexivity]. Qed.
Lemma dpup_scale i : po = true \/ (1 <= i)%nat -> dpup (sq' i) (sq' (S i)) = dpup (sq i) (sq (S i)).
Proof.
  intros Hi. unfold sq', sq, P0. rewrite (dpup_num data' params nz n model usable' po), (dpup_num data params nz n model Hus po). fold P0 sq sq'.
  pose proof (lam_pos i) as Hl. set (a := Rsum _ (fun ix => Cmod (Cminus (get (sq i) ix) _) ^ 2)). set (b := Rsum _ (fun ix => Cmod (get (sq i) ix) ^ 2)).
  assert (V : forall ix, In ix (all_ix [n; n]) -> forall k, lam k = lam i -> get (sq' k) ix = Cmult (RtoC (lam i)) (get (sq k) ix)).
  { intros ix Hix k Hk. apply in_all_ix in Hix. destruct (inb2_inv _ _ _ Hix) as (y & x & -> & Hy & Hx). rewrite sq_scale by auto. now rewrite Hk. }
  replace (Rsum _ (fun ix => Cmod (Cminus (get (sq' i) ix) (get (sq' (S i)) ix)) ^ 2)) with (lam i ^ 2 * a).
  2: { unfold a. rewrite <- Rsum_scal_l. apply Rsum_ext. intros ix Hix. rewrite (V ix Hix i eq_refl), (V ix Hix (S i) (lam_step i Hi)).
       replace (Cminus (Cmult (RtoC (lam i)) (get (sq i) ix)) (Cmult (RtoC (lam i)) (get (sq (S i)) ix))) with (Cmult (RtoC (lam i)) (Cminus (get (sq i) ix) (get (sq (S i)) ix))) by ring. rewrite Cmod_mult, Cmod_R, Rabs_right by lra. ring. }
  replace (Rsum _ (fun ix => Cmod (get (sq' i) ix) ^ 2)) with (lam i ^ 2 * b).
  2: { unfold b. rewrite <- Rsum_scal_l. apply Rsum_ext. intros ix Hix. rewrite (V ix Hix i eq_refl), Cmod_mult, Cmod_R, Rabs_right by lra. ring. }
  unfold ratio. assert (0 < lam i ^ 2) by (apply pow_lt; exact Hl).
  destruct (Req_EM_T b 0) as [Eb|Eb]; destruct (Req_EM_T (lam i ^ 2 * b) 0) as [Eb'|Eb'].
  - reflexivity.
  - exfalso. apply Eb'. rewrite Eb. ring.
  - exfalso. apply Rmult_integral in Eb'. lra.
  - f_equal. field. split; [exact Eb|lra].
Qed.
Lemma dmse_scale i : po = false -> (1 <= i)%nat ->
  mse_change (mse_of P0 data' (sq' i)) (mse_of P0 data' (sq' (S i))) = mse_change (mse_of P0 data (sq i)) (mse_of P0 data (sq (S i))).
Proof.
  intros Hpo Hi. unfold sq', sq, P0. rewrite !(mse_num data' params nz n model usable' po), !(mse_num data params nz n model Hus po). fold P0 sq sq'. rewrite !mse_scale by (auto; lia).
  change (mse_change (Some ?a) (Some ?b)) with (ratio (Rabs (a - b)) a). generalize (mean_sq data (sumsq (psfa_at P0 (sq i)))) (mean_sq data (sumsq (psfa_at P0 (sq (S i))))). intros a b.
  assert (0 < c ^ 2) by (apply pow_lt; exact Hc0). rewrite <- Rmult_minus_distr_l, Rabs_mult, (Rabs_right (c ^ 2)) by lra. unfold ratio.
  destruct (Req_EM_T a 0) as [Eb|Eb]; destruct (Req_EM_T (c ^ 2 * a) 0) as [Eb'|Eb'].
  - reflexivity.
  - exfalso. apply Eb'. rewrite Eb. ring.
  - exfalso. apply Rmult_integral in Eb'. lra.
  - f_equal. field. split; [exact Eb|lra].
Qed.
End E.

(** When no tolerance ever stops the run, a stack [c] times as bright gives, after every number of iterations: the same pupil
    times the square root of [c] (phase_only: the same pupil), a PSF [c] times as bright (phase_only: the same PSF), an error
    [c]^2 times as large from the second entry on, and from the third entry on the same relative changes. *)
Theorem C87_exposure :
  forall u data data' params nz n model c pt mt po,
  0 < c -> unwraps u -> usable data params nz n model -> brighter c data data' -> never pt -> never mt ->
  forall k, (1 <= k)%Z ->
  exists r r' P P' psf psf',
    fst (retrieve_phase u data params k pt mt po) = Ok r /\ fst (retrieve_phase u data' params k pt mt po) = Ok r' /\
    complex_pupil (r_mag r) (r_phase r) = Ok P /\ complex_pupil (r_mag r') (r_phase r') = Ok P' /\ shape P = [n; n] /\ shape P' = [n; n] /\
    generate_psf r None None None = Ok psf /\ generate_psf r' None None None = Ok psf' /\ shape psf = [nz; n; n] /\ shape psf' = [nz; n; n] /\
    (forall y x, (0 <= y < n)%Z -> (0 <= x < n)%Z -> get P' [y; x] = if po then get P [y; x] else Cmult (RtoC (sqrt c)) (get P [y; x])) /\
    (forall z y x, (0 <= z < nz)%Z -> (0 <= y < n)%Z -> (0 <= x < n)%Z -> get psf' [z; y; x] = if po then get psf [z; y; x] else c * get psf [z; y; x]) /\
    Z.of_nat (List.length (r_mse r)) = k /\ Z.of_nat (List.length (r_mse r')) = k /\
    (po = false -> forall i, (1 <= i < Z.to_nat k)%nat -> exists e, nth i (r_mse r) None = Some e /\ nth i (r_mse r') None = Some (c ^ 2 * e)) /\
    (forall i, (2 <= i < Z.to_nat k)%nat -> nth i (r_pupil_diff r') None = nth i (r_pupil_diff r) None /\
       (po = false -> nth i (r_mse_diff r') None = nth i (r_mse_diff r) None)).
Proof.
  intros u data data' params nz n model c pt mt po Hc0 Hu Hus Hb Hp Hm k Hk. pose proof (usable' data data' params nz n model Hus c Hb) as Hus'.
  destruct (hyps _ _ _ _ _ Hus) as (Hr & Hph & Hv & Hc & Hn & Hn2 & Hnz & Hd). destruct (hyps _ _ _ _ _ Hus') as (_ & _ & _ & _ & _ & _ & _ & Hd').
  assert (Enz : Z.of_nat (List.length (h_zrange (hpar_of (obj_params model)))) = nz) by (destruct Hus as (_ & _ & _ & _ & _ & _ & X); exact X).
  destruct (retrieve u Hu data params nz n model Hus pt mt po k Hk) as (m & r & E & Hst & R1 & R2 & R3 & Hres & _).
  destruct (retrieve u Hu data' params nz n model Hus' pt mt po k Hk) as (m' & r' & E' & Hst' & R1' & R2' & R3' & Hres' & _).
  destruct (never_stop data params nz n model Hus po pt mt _ _ Hp Hm Hst) as [Em Sm]. destruct (never_stop data' params nz n model Hus' po pt mt _ _ Hp Hm Hst') as [Em' Sm'].
  rewrite Sm in Hres. rewrite Sm' in Hres'. subst m m'.
  destruct (result_pupil (obj_params model) Hph Hv Hc Hn2 data Hd po _ r Hres) as (P & EP & SP & GP). destruct (result_pupil (obj_params model) Hph Hv Hc Hn2 data' Hd' po _ r' Hres') as (P' & EP' & SP' & GP').
  destruct (result_psf (obj_params model) Hr Hph Hv Hc Hn2 data Hd po _ r Hres) as (psf & Ef & Sf & Gf). destruct (result_psf (obj_params model) Hr Hph Hv Hc Hn2 data' Hd' po _ r' Hres') as (psf' & Ef' & Sf' & Gf').
  rewrite Hn in SP, GP, SP', GP'.
  rewrite (psfi_shape (obj_params model) Hph Hv Hc) in Sf by now apply seqP_shape. rewrite (psfi_shape (obj_params model) Hph Hv Hc) in Sf' by now apply seqP_shape.
  rewrite Hn, Enz in Sf, Sf'. rewrite Sf in Gf. rewrite Sf' in Gf'.
  assert (HN : (1 <= Z.to_nat k)%nat) by lia.
  assert (NT : forall {B} (f : line -> B) (d : B) dat i, (i < Z.to_nat k)%nat -> nth i (map f (map (lineAt (obj_params model) dat po) (seq 0 (Z.to_nat k)))) d = f (lineAt (obj_params model) dat po i)).
  { intros B f d dat i Hi. apply nth_lines. apply map_nth_error. rewrite (nth_error_nth' _ 0%nat) by (rewrite seq_length; exact Hi). rewrite seq_nth by exact Hi. reflexivity. }
  exists r, r', P, P', psf, psf'. rewrite E, E'. cbn [fst]. repeat (split; [first [reflexivity|assumption]|]).
  split; [|split; [|split; [|split; [|split]]]].
  - intros y x Hy Hx. rewrite GP, GP' by auto.
    assert (Hrow : forall a, (0 <= row (obj_params model) a < n)%Z) by (intros a; rewrite <- Hn; now apply row_in).
    rewrite (sq_scale data data' params nz n model Hus po c Hc0 Hb) by apply Hrow. unfold lam. destruct po; [ring|]. destruct (Z.to_nat k); [lia|reflexivity].
  - intros z y x Hz Hy Hx. rewrite Gf, Gf' by now apply inb3. rewrite (psf_scale data data' params nz n model Hus po c Hc0 Hb) by auto.
    destruct po eqn:Epo; [unfold lam; ring|]. rewrite lam_sq by (first [exact Hc0|reflexivity|exact HN]). reflexivity.
  - rewrite R1, !map_length, seq_length. lia.
  - rewrite R1', !map_length, seq_length. lia.
  - intros Hpo i Hi. rewrite R1, R1', !NT by lia. destruct i as [|i]; [lia|]. cbn [lineAt l_mse].
    eexists. split; [exact (mse_num data params nz n model Hus po (S i))|].
    etransitivity; [exact (mse_num data' params nz n model Hus' po (S i))|]. f_equal. apply (mse_scale data data' params nz n model Hus po c Hc0 Hb); auto; lia.
  - intros i Hi. rewrite R2, R2', R3, R3', !NT by lia. destruct i as [|i]; [lia|]. cbn [lineAt l_mse_diff l_pupil_diff]. split.
    + apply (dpup_scale data data' params nz n model Hus po c Hc0 Hb). right. lia.
    + intros Hpo. apply (dmse_scale data data' params nz n model Hus po c Hc0 Hb); auto; lia.
Qed.
Print Assumptions C87_exposure.

(** The test against mse_tol is not relative to the brightness: the same stack recorded dimly enough is never iterated more
    than twice, whatever the allowance. *)
Theorem C87_dim_data_stops_at_once :
  forall u data params nz n model pt t, unwraps u -> usable data params nz n model -> 0 < t ->
  exists c0, 0 < c0 /\ forall c data', 0 < c < c0 -> brighter c data data' -> forall k, (1 <= k)%Z ->
    exists r, fst (retrieve_phase u data' params k pt (Tol t) false) = Ok r /\ (List.length (r_mse r) <= 2)%nat.
Proof.
  intros u data params nz n model pt t Hu Hus Ht. set (P0 := obj_params model). set (e := mean_sq data (sumsq (psfa_at P0 (seqP P0 data false 1)))).
  assert (He : 0 <= e). { destruct (mean_sq_pos data (sumsq (psfa_at P0 (seqP P0 data false 1)))) as [H|H]; [exact H|exfalso]. destruct Hus as (Hs & H1 & H2 & _). rewrite Hs in H. unfold size in H. cbn in H. nia. }
  assert (Hq : 0 < t / (e + 1)) by (apply Rmult_lt_0_compat; [exact Ht|apply Rinv_0_lt_compat; lra]).
  exists (Rmin 1 (t / (e + 1))). split; [apply Rmin_pos; lra|]. intros c data' [Hc0 Hc1] Hb k Hk. pose proof (usable' data data' params nz n model Hus c Hb) as Hus'.
  assert (C1 : c < 1) by (eapply Rlt_le_trans; [exact Hc1|apply Rmin_l]). assert (C2 : c < t / (e + 1)) by (eapply Rlt_le_trans; [exact Hc1|apply Rmin_r]).
  destruct (retrieve u Hu data' params nz n model Hus' pt (Tol t) false k Hk) as (m & r & E & (Hm & Hf & Hl) & R1 & _). exists r. rewrite E. split; [reflexivity|].
  rewrite R1, !map_length, seq_length. destruct (le_lt_dec m 2) as [|L]; [assumption|exfalso].
  specialize (Hf 1%nat ltac:(lia)). assert (X : converged pt (Tol t) (lineAt (obj_params model) data' false 1) = true); [|congruence].
  apply conv_iff. right. right. cbn [lineAt l_mse].
  pose proof (mse_num data' params nz n model Hus' false 1) as M.
  pose proof (mse_scale data data' params nz n model Hus false c Hc0 Hb 1 eq_refl (le_n 1)) as M2. fold P0 in M, M2 |- *.
  match goal with |- is_below ?v _ => replace v with (Some (c ^ 2 * e)) by (symmetry; rewrite M2 in M; exact M) end. cbn [is_below].
  assert (c * (e + 1) < t). { apply (Rmult_lt_reg_r (/ (e + 1))); [apply Rinv_0_lt_compat; lra|]. rewrite Rmult_assoc, Rinv_r, Rmult_1_r by lra. exact C2. }
  assert (c ^ 2 * e <= c * e) by (replace (c ^ 2 * e) with (c * (c * e)) by ring; rewrite <- (Rmult_1_l (c * e)) at 2; apply Rmult_le_compat_r; [apply Rmult_le_pos; lra|lra]). nra.
Qed.
Print Assumptions C87_dim_data_stops_at_once.

(** The hypotheses are met: the stack of T_Phase2, three times as bright, tolerances 0. *)
Example exposure_witness : unwraps (fun a => a) /\ usable wdata wdict 7 64 (wmade numeric) /\
  brighter 3 wdata (amap (fun v => 3 * v) wdata) /\ never (Tol 0) /\ get wdata [2; 3; 4]%Z <> 0.
Proof.
  split; [apply unwraps_witness|]. split; [exact usable_witness|]. split; [split; reflexivity|]. split; [cbn; lra|]. cbn. lra.
Qed.
