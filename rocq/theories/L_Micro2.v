(** Models inside microscopes stay reachable; their intensities are non-negative. *)
From Verif Require Import S_Micro S_Bin L_Sum L_Bin L_PSF L_Ctor L_Phase5 L_Micro T_PSF T_Bin L_Array L_Phase2 T_Object T_Micro T_Micro3.
Import M_Array.
Local Open Scope R_scope.

Lemma reached_exec c o x : reached c o -> reached c (snd (exec numeric c x o)).
Proof. intros (k & o0 & h & H1 & ->). exists k, o0, (h ++ [x]). split; [exact H1|]. rewrite T_PSF.run_app. reflexivity. Qed.
Lemma reached_read c o s : reached c o -> reached c (snd (read numeric c s o)).
Proof. intros H. apply (reached_exec c o (Read numeric s)) in H. cbn [exec] in H. destruct (read numeric c s o) as [[?|?] ?]; exact H. Qed.
Definition sane (m : micro) : Prop := reached (mi_cls m) (mi_model m) /\ (mi_kind m = Confocal -> reached (mi_cls m) (mi_exc m)).
Definition hold {A} (c : MM A) : Prop := forall m, sane m -> sane (snd (c m)) /\ mi_cls (snd (c m)) = mi_cls m /\ mi_kind (snd (c m)) = mi_kind m.
Lemma hold_bind {A B} (c : MM A) (f : A -> MM B) : hold c -> (forall x, hold (f x)) -> hold (mbind c f).
Proof.
  intros H1 H2 q Hq. unfold mbind. specialize (H1 q Hq). destruct (c q) as [[x|e] q']; cbn [fst snd] in *; [|exact H1]. destruct H1 as (S1 & C1 & K1). destruct (H2 x q' S1) as (S2 & C2 & K2). split; [exact S2|]. split; congruence.
Qed.
Lemma hold_ret {A} (x : A) : hold (mret x). Proof. intros q H; auto. Qed.
Lemma hold_lift {A} (x : res A) : hold (mlift x). Proof. intros q H; auto. Qed.
Lemma hold_asks {A} (f : micro -> A) : hold (masks f). Proof. intros q H; auto. Qed.
Lemma hold_get a : hold (m_get a). Proof. intros q H; unfold m_get; destruct (mi_num q a); auto. Qed.
Lemma hold_model_R a : hold (model_R a).
Proof.
  intros q H. unfold model_R, on_model, bindM, getattr, lift. destruct (o_attr (mi_model q) a); cbn; [|destruct q; auto]. destruct q; auto.
Qed.
Lemma hold_psfi : hold model_PSFi.
Proof. intros q [H1 H2]. unfold model_PSFi. pose proof (reached_read _ _ PSFi H1) as R. destruct (read _ _ _ _) as [r o]. cbn in *. split; [split; auto|auto]. Qed.
Lemma hold_otfi : hold model_OTFi.
Proof. intros q [H1 H2]. unfold model_OTFi. pose proof (reached_read _ _ OTFi H1) as R. destruct (read _ _ _ _) as [r o]. cbn in *. split; [split; auto|auto]. Qed.
Lemma hold_exci : hold exc_PSFi.
Proof.
  intros q [H1 H2]. unfold exc_PSFi. destruct (read numeric (mi_cls q) PSFi (mi_exc q)) as [r o] eqn:E. cbn. split; [|auto]. split; [exact H1|]. cbn. intros K. specialize (H2 K). pose proof (reached_read _ _ PSFi H2) as R. rewrite E in R. exact R.
Qed.
Ltac hold_tac := repeat match goal with
  | |- hold (mbind _ _) => apply hold_bind; [|intros ?] | |- hold (mret _) => apply hold_ret | |- hold (mlift _) => apply hold_lift | |- hold (m_get _) => apply hold_get
  | |- hold (model_R _) => apply hold_model_R | |- hold model_PSFi => apply hold_psfi | |- hold exc_PSFi => apply hold_exci | |- hold model_OTFi => apply hold_otfi
  | |- hold (masks _) => apply hold_asks | |- hold (if ?b then _ else _) => destruct b | |- hold (match ?b with _ => _ end) => destruct b end.
Lemma hold_model_psf : hold model_psf.
Proof.
  assert (H1 : hold confocal_psf) by (unfold confocal_psf; hold_tac).
  assert (H2 : hold apotome_psf) by (unfold apotome_psf; hold_tac).
  assert (H3 : hold sim_psf) by (unfold sim_psf, sim_base; cbv zeta; hold_tac).
  intros q. unfold model_psf. destruct (mi_kind q) eqn:E; intros Hq; [specialize (hold_psfi q Hq)|specialize (H1 q Hq)|specialize (H2 q Hq)|specialize (H3 q Hq)]; rewrite E in *; auto.
Qed.
Lemma hold_PSF : hold m_PSF.
Proof.
  assert (H : hold compute_psf) by (unfold compute_psf; apply hold_bind; [apply hold_model_psf|intros ?]; hold_tac).
  intros q Hq. unfold m_PSF. destruct (mi_psf q); [auto|]. unfold mbind. specialize (H q Hq). destruct (compute_psf q) as [[a|e] q']; cbn in *; [|exact H]. exact H.
Qed.
Lemma hold_OTF : hold m_OTF.
Proof.
  intros q Hq. unfold m_OTF. destruct (mi_otf q); [auto|]. unfold mbind. pose proof (hold_PSF q Hq) as H. destruct (m_PSF q) as [[a|e] q']; cbn in *; exact H.
Qed.
Lemma hold_set a v : hold (m_set a v).
Proof. intros q Hq. unfold m_set, numeric_fset. destruct (has_prop _ _); [|auto]. destruct (numeric_decide _ _ _) as [[|]|]; auto. Qed.
Lemma sane_step x m : sane m -> (forall o, x = MReplaceModel o -> reached (mi_cls m) o) -> sane (mexec x m) /\ mi_cls (mexec x m) = mi_cls m /\ mi_kind (mexec x m) = mi_kind m.
Proof.
  intros [H1 H2] Hx. destruct x as [a v|y|y|o|v|v|l| |]; cbn [mexec].
  - now apply hold_set.
  - split; [split; [now apply reached_exec|exact H2]|auto].
  - split; [split; [exact H1|]|auto]. cbn. intros K. apply reached_exec. auto.
  - split; [split; [now apply Hx|exact H2]|auto].
  - split; [split; [exact H1|exact H2]|auto].
  - split; [split; [exact H1|exact H2]|auto].
  - split; [split; [exact H1|exact H2]|auto].
  - now apply hold_PSF.
  - now apply hold_OTF.
Qed.
Lemma sane_run h : forall m, sane m -> decent (mi_cls m) h -> sane (mrun h m) /\ mi_cls (mrun h m) = mi_cls m /\ mi_kind (mrun h m) = mi_kind m.
Proof.
  induction h as [|x h IH]; intros m Hm Hd; [auto|]. cbn [mrun]. destruct (sane_step x m Hm) as (S1 & C1 & K1); [intros o ->; apply Hd; now left|].
  destruct (IH _ S1) as (S2 & C2 & K2); [intros o Ho; rewrite C1; apply Hd; now right|]. split; [exact S2|]. split; congruence.
Qed.
Definition same_kind {A} (c : MM A) : Prop := forall m, mi_kind (snd (c m)) = mi_kind m.
Lemma same_kind_bind {A B} (c : MM A) (f : A -> MM B) : same_kind c -> (forall x, same_kind (f x)) -> same_kind (mbind c f).
Proof. intros H1 H2 m. unfold mbind. specialize (H1 m). destruct (c m) as [[x|e] m']; cbn in *; [|exact H1]. now rewrite H2. Qed.
Lemma same_kind_set a v : same_kind (m_set a v).
Proof. intros m. unfold m_set, numeric_fset. destruct (has_prop _ _); [|reflexivity]. destruct (numeric_decide _ _ _) as [[|]|]; reflexivity. Qed.
Ltac kind_tac := repeat match goal with
  | |- same_kind (mbind _ _) => apply same_kind_bind; [|intros ?] | |- same_kind (m_set _ _) => apply same_kind_set
  | |- same_kind (mret _) => intros ?; reflexivity | |- same_kind (mlift _) => intros ?; reflexivity | |- same_kind (masks _) => intros ?; reflexivity
  | |- same_kind (if ?b then _ else _) => destruct b | |- same_kind (match ?b with _ => _ end) => destruct b end.
Lemma wide_kind a : same_kind (wide_init a).
Proof. unfold wide_init. cbv zeta. kind_tac. intros m. reflexivity. Qed.
Lemma made_kind k i m : same_kind i -> make k i = Ok m -> mi_kind m = k.
Proof. intros H E. unfold make in E. specialize (H (empty_micro k)). destruct (i (empty_micro k)) as [[u|e] m']; [|discriminate]. injection E as <-. exact H. Qed.
Lemma confocal_kind a w p : same_kind (confocal_init a w p).
Proof. unfold confocal_init. apply same_kind_bind; [apply wide_kind|intros _]. kind_tac. intros m. unfold on_exc. destruct (assign numeric _ _ _). reflexivity. Qed.
Lemma sim_kind a s : same_kind (sim_init a s).
Proof. unfold sim_init. apply same_kind_bind; [apply wide_kind|intros _]. kind_tac. intros m. reflexivity. Qed.
Lemma built_sane a m : built_from a m -> sane m.
Proof.
  intros Hb. destruct (built_wide_result a m Hb) as (k & f & p & c & kk & o & Hk & _ & _ & _ & _ & _ & _ & Eo & Hc & _ & _ & Hm & _).
  assert (R : reached (mi_cls m) (mi_model m)) by (exists kk, o, []; rewrite Hc, Hm; auto). split; [exact R|]. intros K.
  destruct Hb as [m' H|w q m' H|m' H|s m' H].
  - rewrite (made_kind _ _ _ (wide_kind a) H) in K. discriminate.
  - unfold ConfocalMicroscope, make in H. destruct (confocal_init a _ _ _) as [[u|e] m1] eqn:E; [|discriminate]. injection H as ->. unfold confocal_init, mbind in E.
    destruct (wide_init a _) as [[u1|e] m1] eqn:E1; [|discriminate]. destruct (m_set MPinhole q m1) as [[u2|e] m2]; [|discriminate]. cbn [masks] in E. unfold on_exc in E. cbn [upd_exc mi_exc] in E.
    destruct (assign numeric (mi_cls m2) (SetNum A_wl w) (mi_model m2)) as [r o1] eqn:Ea. injection E as -> <-. cbn [mi_exc mi_cls upd_exc mi_model] in *.
    pose proof (reached_exec _ _ (Assign numeric (SetNum A_wl w)) R) as R1. cbn [exec] in R1. rewrite Ea in R1. exact R1.
  - rewrite (made_kind _ _ _ (wide_kind a) H) in K. discriminate.
  - rewrite (made_kind _ _ _ (sim_kind a s) H) in K. discriminate.
Qed.

(** ** Intensities *)
Definition nonneg (a : array R) : Prop := forall ix, 0 <= get a ix.
Lemma sumsq_nonneg A : nonneg (reals (e_sumsq numeric A)).
Proof.
  intros ix. cbn [numeric e_sumsq reals amap get]. unfold s_psfi. cbn [get shape]. destruct (forallb _ _); cbn; [|lra]. apply Rsum_nonneg. intros j _. unfold Cnorm2. nra.
Qed.
Lemma read_nonneg c o A : reached c o -> fst (read numeric c PSFi o) = Ok A -> nonneg (reals A).
Proof.
  intros (k & o0 & h & H1 & ->) E. pose proof (C24_reads_are_fresh numeric c k o0 h PSFi H1) as F. cbv zeta in F. rewrite F in E. cbn [scratch] in E.
  destruct (scratch_PSFa numeric c _ _) as [B|e]; cbn [rmap] in E; [|discriminate]. injection E as <-. apply sumsq_nonneg.
Qed.
Lemma psfi_nonneg m p b : sane m -> fst (model_PSFi m) = Ok (p, b) -> nonneg p.
Proof.
  intros [H _] E. unfold model_PSFi in E. destruct (read numeric (mi_cls m) PSFi (mi_model m)) as [[A|e] o] eqn:R; cbn in E; [|discriminate]. injection E as <- _.
  apply (read_nonneg (mi_cls m) (mi_model m)); [exact H|]. now rewrite R.
Qed.
Lemma exci_nonneg m p b : sane m -> mi_kind m = Confocal -> fst (exc_PSFi m) = Ok (p, b) -> nonneg p.
Proof.
  intros [_ H] K E. unfold exc_PSFi in E. destruct (read numeric (mi_cls m) PSFi (mi_exc m)) as [[A|e] o] eqn:R; cbn in E; [|discriminate]. injection E as <- _.
  apply (read_nonneg (mi_cls m) (mi_exc m)); [auto|]. now rewrite R.
Qed.
Lemma bop_mult_nonneg a b c : nonneg a -> nonneg b -> bop Rmult a b = Ok c -> nonneg c.
Proof. intros Ha Hb. unfold bop. destruct (bshape _ _); cbn [bind]; [|discriminate]. intros [= <-] ix. cbn [get]. unfold bget. apply Rmult_le_pos; auto. Qed.
Lemma conv_nonneg a k c : nonneg a -> nonneg k -> fftconvolve_same a k = Ok c -> nonneg c.
Proof.
  intros Ha Hk. unfold fftconvolve_same. destruct (shape a) as [|nz [|ny [|nx [|]]]]; try discriminate. destruct (shape k) as [|hy [|hx [|]]]; try discriminate. intros [= <-] ix. cbn [get].
  destruct ix as [|z [|y [|x [|]]]]; try lra. apply Rsum_nonneg. intros j _. apply Rsum_nonneg. intros i _. destruct (_ && _); [|lra]. apply Rmult_le_pos; auto.
Qed.
Lemma disk_hit_01 r y x : disk_hit r y x = 0 \/ disk_hit r y x = 1.
Proof. unfold disk_hit. destruct (Rlt_dec _ _); auto. Qed.
Lemma disk_sum_nonneg r : 0 <= disk_sum r.
Proof. unfold disk_sum. apply Rsum_nonneg. intros y _. apply Rsum_nonneg. intros x _. destruct (disk_hit_01 r y x) as [-> | ->]; lra. Qed.
Lemma kernel_nonneg r : snd (disk_kernel r) = true -> nonneg (fst (disk_kernel r)).
Proof.
  unfold disk_kernel. cbn [fst snd]. destruct (Req_EM_T (disk_sum r) 0) as [|N]; [discriminate|]. intros _ ix. cbn [get]. pose proof (disk_sum_nonneg r).
  destruct ix as [|y [|x [|]]]; try lra. destruct (disk_hit_01 r y x) as [-> | ->]; [unfold Rdiv; lra|]. unfold Rdiv. rewrite Rmult_1_l. apply Rlt_le, Rinv_0_lt_compat. lra.
Qed.
Lemma mbind_ok {A B} (c : MM A) (f : A -> MM B) m r : fst (mbind c f m) = Ok r -> exists x, fst (c m) = Ok x /\ fst (f x (snd (c m))) = Ok r.
Proof. unfold mbind. destruct (c m) as [[x|e] m']; cbn [fst snd]; [eauto|discriminate]. Qed.
Lemma model_psf_nonneg m p : sane m -> mi_kind m <> SIM -> fst (model_psf m) = Ok (p, true) -> nonneg p.
Proof.
  intros Hs Hk. unfold model_psf. destruct (mi_kind m) eqn:K; [| | |congruence]; clear Hk.
  - now apply psfi_nonneg.
  - intros H. unfold confocal_psf in H.
    apply mbind_ok in H. destruct H as (v1 & _ & H). destruct (hold_model_R A_wl m Hs) as (S1 & C1 & K1). set (m1 := snd (model_R A_wl m)) in *.
    apply mbind_ok in H. destruct H as (v2 & _ & H). destruct (hold_model_R A_na m1 S1) as (S2 & C2 & K2). set (m2 := snd (model_R A_na m1)) in *.
    apply mbind_ok in H. destruct H as (v3 & _ & H). cbn [mlift snd] in H.
    apply mbind_ok in H. destruct H as (v4 & _ & H). destruct (hold_model_R A_res m2 S2) as (S3 & C3 & K3). set (m3 := snd (model_R A_res m2)) in *.
    apply mbind_ok in H. destruct H as (v5 & _ & H). cbn [mlift snd] in H.
    apply mbind_ok in H. destruct H as (v6 & _ & H). destruct (hold_get MPinhole m3 S3) as (S4 & C4 & K4). set (m4 := snd (m_get MPinhole m3)) in *.
    apply mbind_ok in H. destruct H as (v7 & _ & H). cbn [mlift snd] in H. cbv zeta in H.
    apply mbind_ok in H. destruct H as ([d bd] & Ed & H). pose proof (psfi_nonneg m4 d bd S4 Ed) as Nd. destruct (hold_psfi m4 S4) as (S5 & C5 & K5). set (m5 := snd (model_PSFi m4)) in *.
    apply mbind_ok in H. destruct H as ([d' bd'] & Ed' & H).
    match type of H with context [snd (?c m5)] => assert (E6 : snd (c m5) = m5) by (destruct (Rlt_dec _ _); reflexivity) end. rewrite E6 in H.
    apply mbind_ok in H. destruct H as ([x bx] & Ex & H). assert (Nx : nonneg x) by (apply (exci_nonneg m5 x bx S5); [congruence|exact Ex]).
    cbn [mlift fst snd] in H. destruct (bop Rmult d' x) as [q|e] eqn:Eq; cbn [bind] in H; [|discriminate]. injection H as <- Hb. apply andb_true_iff in Hb. destruct Hb as [Hb _].
    refine (bop_mult_nonneg d' x q _ Nx Eq). destruct (Rlt_dec _ _) as [L|L]; cbn [mret mlift fst snd] in Ed'; [|injection Ed' as <- _; exact Nd].
    destruct (fftconvolve_same d _) as [cv|e] eqn:Ec; cbn [bind] in Ed'; [|discriminate]. injection Ed' as <- <-. apply andb_true_iff in Hb. destruct Hb as [_ Hb].
    refine (conv_nonneg d _ cv Nd _ Ec). apply kernel_nonneg. exact Hb.
  - intros H. unfold apotome_psf in H.
    apply mbind_ok in H. destruct H as ([d bd] & Ed & H). pose proof (psfi_nonneg m d bd Hs Ed) as Nd. cbn [fst snd] in H.
    apply mbind_ok in H. destruct H as (rows & _ & H). apply mbind_ok in H. destruct H as (dd & _ & H). apply mbind_ok in H. destruct H as (ny & _ & H). apply mbind_ok in H. destruct H as (lim & _ & H).
    apply mbind_ok in H. destruct H as ([ax bax] & Eax & H). cbn [mlift fst snd] in *. destruct (bop Rmult (column ax) d) as [q|e] eqn:Eq; cbn [bind] in H; [|discriminate]. injection H as <- Hb.
    refine (bop_mult_nonneg _ d q _ Nd Eq). intros ix. unfold column. cbn [get]. destruct ix as [|i ix]; [lra|].
    assert (Pos : forall v, In v ax -> 0 <= v).
    { intros v Hv. unfold axial_profile in Eax. destruct (all_some _); [|injection Eax as <- _; apply in_map_iff in Hv; destruct Hv as (? & <- & _); lra].
      destruct (c_max _); cbn [bind] in Eax; [|discriminate]. cbv zeta in Eax. destruct (forallb _ rows); [|discriminate]. injection Eax as <- _. apply in_map_iff in Hv. destruct Hv as (r & <- & _). apply Cmod_ge_0. }
    destruct (nth_in_or_default (Z.to_nat i) ax 0) as [I|E]; [now apply Pos|rewrite E; lra].
Qed.
