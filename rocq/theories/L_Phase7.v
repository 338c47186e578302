(** Phase retrieval: the iterates as a user sees them. *)
From Verif Require Import S_PSF S_Phase L_Array L_Sum L_FFT L_FFT2 L_Polar L_PSF L_Ctor L_Hanser L_Hanser2 L_Hanser4 L_Aberr L_Phase L_Phase2 L_Phase3 L_Phase4 L_Phase5 L_Phase6 T_PSF T_Object.
Import M_Array.
Local Open Scope R_scope.
Lemma ratio_scale a b c : 0 < c -> (if Req_EM_T (b / c) 0 then None else Some (a / c / (b / c))) = ratio a b.
Proof.
  intros Hc. unfold ratio. destruct (Req_EM_T (b / c) 0) as [e|e], (Req_EM_T b 0) as [e'|e']; try reflexivity.
  - exfalso. apply e'. apply (Rmult_eq_compat_r c) in e. unfold Rdiv in e. rewrite Rmult_assoc, Rinv_l, Rmult_1_r, Rmult_0_l in e by lra. exact e.
  - exfalso. apply e. rewrite e'. unfold Rdiv. ring.
  - f_equal. field. split; [exact e'|lra].
Qed.
Section W.
Context (u : array R -> array R) (Hu : unwraps u) (data : array R) (params : pdict) (nz n : Z) (model : obj numeric) (Hus : usable data params nz n model)
  (pt mt : tol) (po : bool).
Let P0 := obj_params model.
Let h := hpar_model model.
Let sq := seqP P0 data po.
Let conv i := converged pt mt (lineAt P0 data po i).
Definition sees (i : nat) (P : array C) (psf : array R) : Prop :=
  shape P = [n; n] /\ (forall y x, (0 <= y < n)%Z -> (0 <= x < n)%Z -> get P [y; x] = get (sq i) [row P0 y; row P0 x]) /\ arr_eq psf (sumsq (psfa_at P0 (sq i))).
Definition reach (i : nat) : Prop := i = 0%nat \/ (stop data model pt mt po i i /\ shown data model pt mt po i = i).
Lemma arr_eq_trans' {A} (a b c : array A) : arr_eq a b -> arr_eq c b -> arr_eq a c.
Proof. intros [E1 F1] [E2 F2]. split; [congruence|]. intros ix H. rewrite F1 by auto. symmetry. apply F2. rewrite E2, <- E1. exact H. Qed.
Lemma start_psf : exists v, fst (read numeric Hanser PSFi model) = Ok v /\ arr_eq (reals v) (sumsq (psfa_at P0 (sq 0))).
Proof.
  destruct (hyps _ _ _ _ _ Hus) as (Hr & Hph & Hv & Hc & Hn & Hn2 & Hnz & Hd). fold P0 in Hr, Hph, Hv, Hc, Hn, Hn2, Hnz, Hd. pose proof Hus as (_ & _ & _ & (k & _ & Em) & _).
  destruct (gen_psf_ok (hpar_of P0) Hph None) as [A HA]; [discriminate|].
  destruct (C73_hanser_objects k model [] A Em HA) as (_ & E & _). cbn [run] in E. eexists. split; [exact E|].
  destruct (amp_none _ Hph Hv Hc A HA) as [SA GA].
  assert (Sg : shape (sq 0%nat) = [h_size (hpar_of P0); h_size (hpar_of P0)]) by reflexivity.
  assert (SS : shape (sumsq A) = shape (sumsq (psfa_at P0 (sq 0%nat)))) by (rewrite (psfi_shape P0 Hph Hv Hc (sq 0%nat) Sg); unfold sumsq; cbn [shape]; now rewrite SA).
  split; [exact SS|]. intros ix Hix. change (inb (shape (sumsq A)) ix) in Hix. change (get (sumsq A) ix = get (sumsq (psfa_at P0 (sq 0%nat))) ix). rewrite SS, (psfi_shape P0 Hph Hv Hc (sq 0%nat) Sg) in Hix.
  destruct (inb3_inv _ _ _ _ Hix) as (z & y & x & -> & Hz & Hy & Hx). rewrite (psfi_at P0 Hph Hv Hc (sq 0%nat) z y x Sg Hy Hx).
  unfold sumsq. cbn [get]. rewrite SA. cbn [hd]. change (zseq 1) with [0%Z]. cbn [Rsum]. rewrite GA by auto. rewrite Cnorm2_Cmod, Rplus_0_r. change (sq 0%nat) with (gen_pupil (hpar_of P0)). ring.
Qed.
Lemma after_iff i P psf : reach i -> (exists P psf, after u data params pt mt po model i P psf /\ sees i P psf) /\
  (after u data params pt mt po model i P psf -> sees i P psf).
Proof.
  destruct (hyps _ _ _ _ _ Hus) as (Hr & Hph & Hv & Hc & Hn & Hn2 & Hnz & Hd). fold P0 in Hr, Hph, Hv, Hc, Hn, Hn2, Hnz, Hd. intros Hreach. destruct i as [|i].
  - clear Hreach. destruct start_psf as (v & Ev & Sv). cbn [after]. change (h_size (hpar_model model)) with (h_size (hpar_of P0)). change (hpar_model model) with (hpar_of P0). rewrite Hn.
    assert (V : forall y x, (0 <= y < n)%Z -> (0 <= x < n)%Z -> RtoC (aperture (hpar_of P0) y x) = get (sq 0%nat) [row P0 y; row P0 x]).
    { intros y x Hy Hx. rewrite <- (mkf_aperture P0 Hph Hn2) by (rewrite Hn; auto). reflexivity. }
    split.
    + exists (mkArr [n; n] (fun ix => match ix with [y; x] => RtoC (aperture (hpar_of P0) y x) | _ => RtoC 0 end)), (reals v).
      split; [split; [reflexivity|]; split; [reflexivity|]; eauto|]. split; [reflexivity|]. split; [|exact Sv]. intros y x Hy Hx. cbn [get]. auto.
    + intros (S1 & G1 & v' & Ev' & ->). split; [exact S1|]. split; [intros; rewrite G1; auto|]. pose proof (eq_trans (eq_sym Ev') Ev) as X. injection X as ->. exact Sv.
  - destruct Hreach as [|[St Sh]]; [discriminate|]. destruct (retrieve u Hu data params nz n model Hus pt mt po (Z.of_nat (S i)) ltac:(lia)) as (m & r & E & Hst & _ & _ & _ & Hres & _).
    rewrite Nat2Z.id in Hst. assert (m = S i) by (eapply stop_fun; eassumption). subst m. rewrite Sh in Hres. fold P0 in Hres.
    destruct (result_pupil P0 Hph Hv Hc Hn2 data Hd po _ r Hres) as (Cp & E1 & S1 & G1). destruct (result_psf P0 Hr Hph Hv Hc Hn2 data Hd po _ r Hres) as (psf' & E2 & A2). rewrite Hn in S1, G1.
    assert (Z' : sees (S i) Cp psf') by (split; [exact S1|]; split; [exact G1|exact A2]). cbn [after]. rewrite E. cbn [fst]. split.
    + exists Cp, psf'. split; [|exact Z']. exists r. auto.
    + intros (r' & [= <-] & E3 & E4). rewrite E1 in E3. injection E3 as <-. rewrite E2 in E4. injection E4 as <-. exact Z'.
Qed.
Lemma reach_lt k m i : stop data model pt mt po k m -> (i < m)%nat -> reach i.
Proof. intros Hs Hi. destruct i; [now left|]. right. eapply stop_before; [eassumption|lia]. Qed.
Lemma reach_end k m : stop data model pt mt po k m -> conv (m - 1) = false -> reach m.
Proof.
  intros (A & B & C) Hc. right. split; [split; [lia|]; split; [exact B|lia]|]. unfold shown. fold P0. unfold conv in Hc. now rewrite Hc.
Qed.
(** the numbers recorded *)
Lemma mean_sees i P psf : sees i P psf -> mse_of P0 data (sq i) = Some (mean_sq data psf).
Proof.
  destruct (hyps _ _ _ _ _ Hus) as (Hr & Hph & Hv & Hc & Hn & Hn2 & Hnz & Hd). fold P0 in Hr, Hph, Hv, Hc, Hn, Hn2, Hnz, Hd. intros (_ & _ & [Es Eg]).
  assert (Ss : shape (sq i) = [h_size (hpar_of P0); h_size (hpar_of P0)]) by now apply seqP_shape.
  rewrite (mse_val P0 Hph Hv Hc Hn2 Hnz data Hd (sq i) Ss). f_equal. unfold mean_sq. rewrite Hd, size3. f_equal. apply Rsum_ext. intros ix Hix. f_equal. f_equal.
  symmetry. apply Eg. rewrite Es, (psfi_shape P0 Hph Hv Hc (sq i) Ss). now apply in_all_ix.
Qed.
Lemma plane_row (F : Z -> Z -> R) : plane_sum n (fun y x => F (row P0 y) (row P0 x)) = plane_sum n F.
Proof.
  destruct (hyps _ _ _ _ _ Hus) as (Hr & Hph & Hv & Hc & Hn & Hn2 & Hnz & Hd). fold P0 in Hr, Hph, Hv, Hc, Hn, Hn2, Hnz, Hd.
  assert (Q : forall G : Z -> R, Rsum (zseq n) (fun y => G (row P0 y)) = Rsum (zseq n) G).
  { intros G. apply (Rsum_reindex (row P0)); [apply NoDup_zseq| |].
    - intros x _. apply in_zseq_iff. rewrite <- Hn. now apply row_in.
    - intros a b Ha Hb E. apply in_zseq_iff in Ha, Hb. unfold row in E. rewrite Hn in E.
      assert (H : forall c, (0 <= c < n)%Z -> (((c + -1 * (n / 2)) mod n + n / 2) mod n = c)%Z).
      { intros c Hcc. rewrite Zplus_mod_idemp_l. replace (c + -1 * (n / 2) + n / 2)%Z with c by ring. now apply Z.mod_small. }
      rewrite <- (H a Ha), <- (H b Hb), E. reflexivity. }
  unfold plane_sum. rewrite <- (Q (fun y => Rsum (zseq n) (fun x => F y x))). apply Rsum_ext. intros y _. apply (Q (fun x => F (row P0 y) x)).
Qed.
Lemma energy_sees i P psf : sees i P psf -> energy P = Rsum (all_ix [n; n]) (fun ix => Cmod (get (sq i) ix) ^ 2).
Proof.
  intros (S1 & G1 & _). unfold energy. rewrite S1, <- !(plane_all n), <- (plane_row (fun y x => Cmod (get (sq i) [y; x]) ^ 2)). apply plane_ext. intros y x Hy Hx. now rewrite G1.
Qed.
Lemma energy_diff_sees i j P psf Q psf' : sees i P psf -> sees j Q psf' -> energy_diff P Q = Rsum (all_ix [n; n]) (fun ix => Cmod (Cminus (get (sq i) ix) (get (sq j) ix)) ^ 2).
Proof.
  intros (S1 & G1 & _) (S2 & G2 & _). unfold energy_diff. rewrite S1, <- !(plane_all n), <- (plane_row (fun y x => Cmod (Cminus (get (sq i) [y; x]) (get (sq j) [y; x])) ^ 2)). apply plane_ext. intros y x Hy Hx. now rewrite G1, G2.
Qed.
Lemma dpup_sees i j P psf Q psf' : sees i P psf -> sees j Q psf' -> dpup (sq i) (sq j) = ratio (energy_diff P Q) (energy P).
Proof.
  intros H1 H2. rewrite (energy_diff_sees _ _ _ _ _ _ H1 H2), (energy_sees _ _ _ H1). destruct (hyps _ _ _ _ _ Hus) as (Hr & Hph & Hv & Hc & Hn & Hn2 & Hnz & Hd). fold P0 in Hr, Hph, Hv, Hc, Hn, Hn2, Hnz, Hd.
  assert (Si : shape (sq i) = [n; n]) by (rewrite <- Hn; now apply seqP_shape). assert (Sj : shape (sq j) = [n; n]) by (rewrite <- Hn; now apply seqP_shape).
  unfold dpup, pupil_change. destruct (bop_eq (fun o n0 : C => Cmod (Cminus o n0) ^ 2) (sq i) (sq j)) as (c & E & Sc & Gc); [congruence|]. rewrite E. cbn [bind].
  unfold mean. cbn [shape amap get]. rewrite Sc, Si in *. assert (Zs : size [n; n] = (n * n)%Z) by (unfold size; cbn; ring). rewrite Zs.
  assert (Np : (0 < n * n)%Z) by nia. destruct (Z.eqb_spec (n * n) 0); [lia|]. cbn [odiv olift2].
  rewrite (Rsum_ext (all_ix [n; n]) (get c) (fun ix => Cmod (Cminus (get (sq i) ix) (get (sq j) ix)) ^ 2)) by (intros ix Hix; apply Gc; now apply in_all_ix).
  apply ratio_scale. apply IZR_lt; lia.
Qed.
End W.
