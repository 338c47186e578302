(** Phase retrieval: the step in centred coordinates. *)
From Verif Require Import S_PSF S_Phase L_Array L_Sum L_FFT L_FFT2 L_Polar L_PSF L_Ctor L_Hanser L_Hanser2 L_Hanser4 L_Aberr L_Phase L_Phase2 L_Phase3 L_Phase4 L_Phase5 L_Phase6 L_Phase7 T_PSF T_Object.
Import M_Array.
Local Open Scope R_scope.
Lemma unit_cis w : unit_phase w = cis (angle w).
Proof.
  unfold unit_phase. destruct (Req_EM_T (Cmod w) 0) as [e|e].
  - apply Cmod_eq_0 in e. subst w. unfold angle, RtoC. cbn [Re Im fst snd]. unfold atan2. destruct (Rlt_dec 0 0); [lra|]. try (destruct (Rlt_dec 0 0); [lra|]). try (destruct (Rle_dec 0 0); [|lra]). try (destruct (Req_EM_T 0 0); [|lra]). unfold cis. now rewrite cos_0, sin_0.
  - rewrite (angle_polar w) at 1. field. intros X. apply e. now injection X.
Qed.
Section F.
Context (P0 : params).
Let h := hpar_of P0.
Context (Hph : physical h) (Hn2 : (2 <= h_size h)%Z).
Let n := h_size h.
Lemma Csum_row (G : Z -> C) : Csum (zseq n) (fun y => G (row P0 y)) = Csum (zseq n) G.
Proof.
  apply (Csum_reindex (row P0)); [apply NoDup_zseq| |].
  - intros x _. apply in_zseq_iff. now apply row_in.
  - intros a b Ha Hb E. apply in_zseq_iff in Ha, Hb. unfold row in E. fold h n in E.
    assert (H : forall c, (0 <= c < n)%Z -> (((c + -1 * (n / 2)) mod n + n / 2) mod n = c)%Z).
    { intros c Hcc. rewrite Zplus_mod_idemp_l. replace (c + -1 * (n / 2) + n / 2)%Z with c by ring. now apply Z.mod_small. }
    rewrite <- (H a Ha), <- (H b Hb), E. reflexivity.
Qed.
Lemma sfreq_row i : (0 <= i < n)%Z -> sfreq n (h_res h) (row P0 i) = cfreq h i.
Proof.
  intros Hi. unfold sfreq, cfreq. fold n. f_equal. f_equal. unfold row. fold h n. rewrite Zplus_mod_idemp_l. replace (i + -1 * (n / 2) + n / 2)%Z with i by ring. now rewrite Z.mod_small.
Qed.
Lemma kpsf_row v y : kpsf n y (row P0 v) = cis (2 * PI * (IZR ((v - n / 2) * (y - n / 2)) / IZR n)).
Proof.
  unfold kpsf. transitivity (root n ((v - n / 2) * (y - n / 2))); [|reflexivity]. apply root_cong; [unfold n; lia|]. unfold row. fold h n.
  replace ((v + -1 * (n / 2)) mod n * (y - n / 2) - (v - n / 2) * (y - n / 2))%Z with (((v + -1 * (n / 2)) mod n - (v + -1 * (n / 2))) * (y - n / 2))%Z by ring.
  set (q := (v + -1 * (n / 2))%Z). rewrite <- (Zmult_mod_idemp_l (q mod n - q)), Zminus_mod, Zmod_mod, Z.sub_diag. rewrite (Zmod_0_l n). apply (Zmod_0_l n).
Qed.
Lemma defocus_row z v w : (0 <= v < n)%Z -> (0 <= w < n)%Z ->
  defocus h z (row P0 v) (row P0 w) = cis (2 * PI * (sqrt (Rmax 0 ((h_ni h / h_wl h) ^ 2 - (cfreq h v ^ 2 + cfreq h w ^ 2))) * nth (Z.to_nat z) (h_zrange h) 0)).
Proof.
  intros Hv Hw. unfold defocus. rewrite (kz_spec h Hph) by now apply row_in. unfold k2. fold n. rewrite !sfreq_row by auto. f_equal.
  replace (cfreq h v * cfreq h v + cfreq h w * cfreq h w) with (cfreq h v ^ 2 + cfreq h w ^ 2) by ring. ring.
Qed.
Lemma wave_row z y x v w : (0 <= v < n)%Z -> (0 <= w < n)%Z ->
  wave h z y x v w = Cmult (kpsf n y (row P0 v)) (Cmult (kpsf n x (row P0 w)) (defocus h z (row P0 v) (row P0 w))).
Proof.
  intros Hv Hw. rewrite defocus_row, !kpsf_row by auto. unfold wave. fold n. rewrite <- !cis_add. f_equal. unfold Rdiv. ring.
Qed.
Lemma amp_field (P Pc : Z -> Z -> C) z y x : (forall v w, (0 <= v < n)%Z -> (0 <= w < n)%Z -> Pc v w = P (row P0 v) (row P0 w)) ->
  amp h P z y x = field h Pc z y x.
Proof.
  intros HP. unfold amp, field. fold n. f_equal. cbn [mop fl2].
  rewrite <- Csum_row. apply Csum_ext. intros v Hv. apply in_zseq_iff in Hv. rewrite <- Csum_row, <- Csum_scal_l. apply Csum_ext. intros w Hw. apply in_zseq_iff in Hw.
  rewrite HP, wave_row by auto. ring.
Qed.
Lemma back_wave (B : Z -> Z -> C) z v w : (0 <= v < n)%Z -> (0 <= w < n)%Z ->
  back h B z (row P0 v) (row P0 w) = Csum (zseq n) (fun y => Csum (zseq n) (fun x => Cmult (B y x) (Cconj (wave h z y x v w)))).
Proof.
  intros Hv Hw. unfold back. fold n. cbn [mop fl2]. unfold Cdiv. rewrite <- Csum_scal_r. apply Csum_ext. intros y _. rewrite <- Csum_scal_l, <- Csum_scal_r. apply Csum_ext. intros x _.
  rewrite wave_row by auto. unfold kadj. rewrite !Cconj_mult. replace (Cinv (defocus h z (row P0 v) (row P0 w))) with (Cconj (defocus h z (row P0 v) (row P0 w))); [ring|].
  unfold defocus. set (t := 2 * PI * _ * _). assert (E : Cmult (Cconj (cis t)) (cis t) = RtoC 1) by (rewrite cis_conj, <- cis_add; replace (- t + t) with 0 by ring; apply cis_0).
  rewrite <- (Cmult_1_r (Cconj (cis t))), <- (Cinv_r (cis t)) by apply cis_neq_0. rewrite Cmult_assoc, E. ring.
Qed.
Context (nz : Z) (data : array R) (po : bool).
Lemma step_update (P Pc : Z -> Z -> C) v w : (forall v w, (0 <= v < n)%Z -> (0 <= w < n)%Z -> Pc v w = P (row P0 v) (row P0 w)) ->
  (0 <= v < n)%Z -> (0 <= w < n)%Z ->
  step h nz (mgf data) (mkf h) po P (row P0 v) (row P0 w) =
    let b := update h (fun z y x => sqrt (Rmax 0 (get data [z; y; x]))) nz Pc v w in if po then Cmult (RtoC (aperture h v w)) (unit_phase b) else b.
Proof.
  intros HP Hv Hw. assert (A : mkf h (row P0 v) (row P0 w) = aperture h v w) by (apply (mkf_aperture P0 Hph Hn2); auto).
  unfold step. cbv zeta. rewrite A.
  assert (E : Cmult (avg h nz (mgf data) P (row P0 v) (row P0 w)) (RtoC (aperture h v w)) = update h (fun z y x => sqrt (Rmax 0 (get data [z; y; x]))) nz Pc v w).
  { unfold avg, update. rewrite Cmult_comm. f_equal. f_equal. apply Csum_ext. intros z _. rewrite back_wave by auto. fold n. apply Csum_ext. intros y _. apply Csum_ext. intros x _.
    f_equal. unfold fix_mag. rewrite (amp_field P Pc) by auto. now rewrite unit_cis. }
  rewrite E. destruct po; [rewrite unit_cis; ring|reflexivity].
Qed.
End F.
