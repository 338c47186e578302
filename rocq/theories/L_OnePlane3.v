(** Phase retrieval with data and model of different plane counts: comparing the two runs. *)
From Verif Require Import S_OnePlane L_Array L_Sum L_FFT L_FFT2 L_Polar L_PSF L_Ctor L_Hanser L_Hanser2 L_Hanser4 L_Aberr L_Phase L_Phase2 L_Phase3 L_Phase4 L_Phase5 L_Phase6 L_OnePlane L_OnePlane2 T_PSF T_Object.
Import M_Array.
Local Open Scope R_scope.

(** ** the models are the same, apart from zsize *)
Lemma same_models params a b n kA mA kB mB : zrange_given params ->
  ctor_of (forced a n params) = Ok kA -> construct numeric Hanser kA = Ok mA -> ctor_of (forced b n params) = Ok kB -> construct numeric Hanser kB = Ok mB ->
  hpar_of (obj_params mA) = hpar_of (obj_params mB) /\ h_ready (obj_params mA) = h_ready (obj_params mB).
Proof.
  intros Hz EA MA EB MB.
  destruct (imposed_ctor a n params _ kA (forced_imposed a n params) EA) as (A1 & A2 & A3 & _ & A5 & A6 & A7 & A8 & _ & A10).
  destruct (imposed_ctor b n params _ kB (forced_imposed b n params) EB) as (B1 & B2 & B3 & _ & B5 & B6 & B7 & B8 & _ & B10).
  rewrite A5 in B5. rewrite A6 in B6. rewrite A7 in B7. rewrite A8 in B8. rewrite A10 in B10. injection B5 as W1. injection B6 as W2. injection B7 as W3. injection B8 as W4. injection B10 as W5.
  destruct (C74_constructor_arguments _ _ _ _ MA) as (C1 & C2 & C3 & C4 & C5 & _ & _ & C8 & C9 & _ & C11). destruct (C74_constructor_arguments _ _ _ _ MB) as (D1 & D2 & D3 & D4 & D5 & _ & _ & D8 & D9 & _ & D11).
  specialize (C11 eq_refl). specialize (D11 eq_refl).
  assert (Z : exists z, k_zrange kA = Some z).
  { unfold zrange_given in Hz. unfold zrange_kw in A10. destruct (dget params "zrange") as [[v|z]|]; [| |contradiction].
    - destruct v; try contradiction; match type of A10 with match ?t with _ => _ end = _ => destruct t end; try discriminate; injection A10 as <-; eauto.
    - injection A10 as <-. eauto. }
  destruct Z as [z Ez]. rewrite <- W5, Ez in D11. rewrite Ez in C11.
  assert (E : o_zrange mA = o_zrange mB) by congruence.
  unfold hpar_of, h_ready, obj_params. cbn [p_wl p_na p_ni p_res p_size p_vec_corr p_condition p_zrange]. rewrite C1, C2, C3, C4, C5, C8, C9, D1, D2, D3, D4, D5, D8, D9, E, A1, A2, A3, B1, B2, B3, W1, W2, W3, W4. split; reflexivity.
Qed.

(** ** stopping *)
Lemma stops_alike (cA cB : nat -> bool) k m m' : (forall i, cA i = cB i) ->
  (1 <= m <= k)%nat /\ (forall i, (i < m - 1)%nat -> cA i = false) /\ ((m < k)%nat -> cA (m - 1)%nat = true) ->
  (1 <= m' <= k)%nat /\ (forall i, (i < m' - 1)%nat -> cB i = false) /\ ((m' < k)%nat -> cB (m' - 1)%nat = true) -> m = m'.
Proof.
  intros E (A & B & C) (A' & B' & C'). destruct (Nat.lt_trichotomy m m') as [H|[H|H]]; auto; exfalso.
  - specialize (C ltac:(lia)). rewrite E, B' in C by lia. discriminate C.
  - specialize (C' ltac:(lia)). rewrite <- E, B in C' by lia. discriminate C'.
Qed.
Lemma never_below v t : 0 <= v -> never_met t -> below (Some v) t = false.
Proof. intros Hv Ht. destruct t as [r| |]; cbn in *; [|contradiction|reflexivity]. destruct (Rlt_dec v r); [lra|reflexivity]. Qed.
Lemma never_change a b t : 0 <= a -> never_met t -> below (mse_change (Some a) (Some b)) t = false.
Proof.
  intros Ha Ht. unfold mse_change. cbn [olift2 odiv]. destruct (Req_EM_T a 0); [reflexivity|]. apply never_below; [|exact Ht].
  apply Rmult_le_pos; [apply Rabs_pos|]. left. apply Rinv_0_lt_compat. lra.
Qed.

(** ** results that show the same pupil *)
Lemma res_same P P' dB po s r r' : hpar_of P = hpar_of P' -> h_ready P = true -> h_ready P' = true -> physical (hpar_of P) -> h_vec (hpar_of P) = VecNone -> h_cond (hpar_of P) = CondNone ->
  (2 <= h_size (hpar_of P))%Z -> shape dB = [Z.of_nat (List.length (h_zrange (hpar_of P))); h_size (hpar_of P); h_size (hpar_of P)] ->
  is_result P dB po s r -> is_result P' dB po s r' -> same_pupil r r'.
Proof.
  intros E Hr Hr' Hph Hv Hc Hn2 Hd H H'. pose proof E as E0.
  assert (Hph' : physical (hpar_of P')) by now rewrite <- E. assert (Hv' : h_vec (hpar_of P') = VecNone) by now rewrite <- E. assert (Hc' : h_cond (hpar_of P') = CondNone) by now rewrite <- E.
  assert (Hn2' : (2 <= h_size (hpar_of P'))%Z) by now rewrite <- E. assert (Hd' : shape dB = [Z.of_nat (List.length (h_zrange (hpar_of P'))); h_size (hpar_of P'); h_size (hpar_of P')]) by now rewrite <- E.
  assert (Er : forall y, row P y = row P' y) by (intros; unfold row; now rewrite E). pose proof (seqP_hpar P P' dB po s E) as Es.
  destruct (result_pupil P Hph Hv Hc Hn2 dB Hd po s r H) as (C1 & F1 & S1 & G1). destruct (result_pupil P' Hph' Hv' Hc' Hn2' dB Hd' po s r' H') as (C2 & F2 & S2 & G2).
  destruct (result_psf P Hr Hph Hv Hc Hn2 dB Hd po s r H) as (p1 & I1 & J1). destruct (result_psf P' Hr' Hph' Hv' Hc' Hn2' dB Hd' po s r' H') as (p2 & I2 & J2).
  split; [|split].
  - destruct H as (M1 & _ & _ & V1). destruct H' as (M2 & _ & _ & V2). split; [rewrite M1, M2; now rewrite E|]. intros ix Hix. rewrite M1 in Hix. destruct (inb2_inv _ _ _ Hix) as (y & x & -> & Hy & Hx).
    destruct (V1 y x Hy Hx) as [-> _]. rewrite E in Hy, Hx. destruct (V2 y x Hy Hx) as [-> _]. now rewrite Es, !Er.
  - exists C1, C2. split; [exact F1|]. split; [exact F2|]. split; [rewrite S1, S2; now rewrite E|]. intros ix Hix. rewrite S1 in Hix. destruct (inb2_inv _ _ _ Hix) as (y & x & -> & Hy & Hx).
    rewrite (G1 y x Hy Hx). rewrite E in Hy, Hx. rewrite (G2 y x Hy Hx). now rewrite Es, !Er.
  - exists p1, p2. split; [exact I1|]. split; [exact I2|]. rewrite Es, (psfa_at_hpar P P' _ E) in J1. destruct J1 as [J1 K1], J2 as [J2 K2]. split; [congruence|]. intros ix Hix. rewrite K1 by exact Hix. symmetry. apply K2. congruence.
Qed.

(** ** errors *)
Section M.
Context (P0 : params).
Let h := hpar_of P0.
Context (Hph : physical h) (Hv : h_vec h = VecNone) (Hc : h_cond h = CondNone) (Hn2 : (2 <= h_size h)%Z).
Let n := h_size h.
Let nz := Z.of_nat (List.length (h_zrange h)).
Context (Hnz : (1 <= nz)%Z).
Definition sq_mean (K : Z) (F : Z -> Z -> Z -> R) : R := Rsum (all_ix [K; n; n]) (fun ix => match ix with [z; y; x] => F z y x ^ 2 | _ => 0 end) / IZR (K * (n * n)).
Lemma sq_mean_pos K F : (1 <= K)%Z -> 0 <= sq_mean K F.
Proof.
  intros HK. apply Rmult_le_pos.
  - apply Rsum_nonneg. intros ix _. destruct ix as [|z [|y [|x [|]]]]; try apply Rle_refl. apply pow2_ge_0.
  - left. apply Rinv_0_lt_compat. apply IZR_lt. assert (2 <= n)%Z by exact Hn2. nia.
Qed.
Lemma sq_mean_ext K F G : (forall z y x, (0 <= z < K)%Z -> (0 <= y < n)%Z -> (0 <= x < n)%Z -> F z y x = G z y x) -> sq_mean K F = sq_mean K G.
Proof.
  intros E. unfold sq_mean. f_equal. apply Rsum_ext. intros ix Hix. apply in_all_ix in Hix. destruct (inb3_inv _ _ _ _ Hix) as (z & y & x & -> & Hz & Hy & Hx). now rewrite E.
Qed.
Lemma mean_sq_mean (c : array R) K F : (1 <= K)%Z -> shape c = [K; n; n] -> (forall z y x, (0 <= z < K)%Z -> (0 <= y < n)%Z -> (0 <= x < n)%Z -> get c [z; y; x] = F z y x ^ 2) ->
  mean c = Some (sq_mean K F).
Proof.
  intros HK Sc Gc. unfold mean. rewrite Sc. replace (size [K; n; n]) with (K * (n * n))%Z by (unfold size; cbn; ring). assert (2 <= n)%Z by exact Hn2.
  destruct (Z.eqb_spec (K * (n * n)) 0); [nia|]. f_equal. unfold sq_mean. f_equal. apply Rsum_ext. intros ix Hix. apply in_all_ix in Hix. destruct (inb3_inv _ _ _ _ Hix) as (z & y & x & -> & Hz & Hy & Hx). now apply Gc.
Qed.
Lemma sample P z y x : shape P = [n; n] -> (0 <= y < n)%Z -> (0 <= x < n)%Z -> get (sumsq (psfa_at P0 P)) [z; y; x] = Cmod (amp h (fn P) z y x) ^ 2.
Proof. exact (psfi_at P0 Hph Hv Hc P z y x). Qed.
(** equal counts *)
Lemma mse_equal data P : shape data = [nz; n; n] -> shape P = [n; n] ->
  calc_mse data (sumsq (psfa_at P0 P)) = Ok (mse_of P0 data P) /\ mse_of P0 data P = Some (sq_mean nz (fun z y x => get data [z; y; x] - Cmod (amp h (fn P) z y x) ^ 2)).
Proof.
  intros Sd HP. pose proof (psfi_shape P0 Hph Hv Hc P HP) as Ss. fold h n nz in Ss. unfold mse_of, calc_mse.
  destruct (bop_eq (fun a b => (a - b) ^ 2) data (sumsq (psfa_at P0 P))) as (c & E & Sc & Gc); [congruence|]. rewrite E. cbn [bind]. split; [reflexivity|]. rewrite Sd in Sc, Gc.
  apply mean_sq_mean; [exact Hnz|exact Sc|]. intros z y x Hz Hy Hx. rewrite Gc by now apply inb3. now rewrite sample.
Qed.
(** one measured plane *)
Lemma mse_one_plane data P : shape data = [1; n; n]%Z -> shape P = [n; n] ->
  calc_mse data (sumsq (psfa_at P0 P)) = Ok (mse_of P0 data P) /\ mse_of P0 data P = Some (sq_mean nz (fun z y x => get data [0%Z; y; x] - Cmod (amp h (fn P) z y x) ^ 2)).
Proof.
  intros Sd HP. pose proof (psfi_shape P0 Hph Hv Hc P HP) as Ss. fold h n nz in Ss. unfold mse_of, calc_mse.
  destruct (bop_first (fun a b => (a - b) ^ 2) data (sumsq (psfa_at P0 P)) nz n Sd Ss) as (c & E & Sc & Gc). rewrite E. cbn [bind]. split; [reflexivity|].
  apply mean_sq_mean; [exact Hnz|exact Sc|]. intros z y x Hz Hy Hx. rewrite Gc by auto. now rewrite sample.
Qed.
(** one position *)
Lemma mse_one_position data nd P : nz = 1%Z -> (1 <= nd)%Z -> shape data = [nd; n; n]%Z -> shape P = [n; n] ->
  calc_mse data (sumsq (psfa_at P0 P)) = Ok (mse_of P0 data P) /\ mse_of P0 data P = Some (sq_mean nd (fun z y x => get data [z; y; x] - Cmod (amp h (fn P) 0 y x) ^ 2)).
Proof.
  intros E1 Hnd Sd HP. pose proof (psfi_shape P0 Hph Hv Hc P HP) as Ss. fold h n nz in Ss. rewrite E1 in Ss. unfold mse_of, calc_mse.
  destruct (bop_second (fun a b => (a - b) ^ 2) data (sumsq (psfa_at P0 P)) nd n Sd Ss) as (c & E & Sc & Gc). rewrite E. cbn [bind]. split; [reflexivity|].
  apply mean_sq_mean; [exact Hnd|exact Sc|]. intros z y x Hz Hy Hx. rewrite Gc by auto. now rewrite sample.
Qed.
End M.
