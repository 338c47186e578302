(** C101: operations on microscopes that are interrupted; C102: threads that read microscopes. *)
From Verif Require Import S_FFT S_Hanser S_Bin L_Sum L_Bin L_Ctor L_Phase5 T_PSF T_Bin L_Array L_FFT L_FFT2 L_Phase2 L_Polar T_Hanser T_Object L_Micro2 M_PSF M_Micro S_PSF S_Micro S_Steps S_MicroSteps L_PSF L_Micro L_Steps L_Steps2 L_MicroSteps L_MicroSteps2 L_MicroSteps3 L_MicroThreads T_Micro T_Micro2 T_Micro3 T_Micro4 T_Micro5.
Import M_Array.
Local Open Scope R_scope.

Lemma in_use_start m : in_use m -> exists g gx, Inv numeric (mi_cls m) (mi_model m) g /\ Inv numeric (mi_cls m) (mi_exc m) gx.
Proof. intros H. destruct (in_use_Sim m H) as [_ _ _ _ _ (g & _ & I) (gx & _ & Ix)]. eauto. Qed.
Lemma ask_answer x m : fst (m_ask x m) = answer x m.
Proof.
  destruct x; unfold m_ask, mbind; cbn [answer].
  - destruct (m_PSF m) as [[]]; reflexivity.
  - destruct (m_OTF m) as [[]]; reflexivity.
  - destruct (model_psf m) as [[]]; reflexivity.
Qed.

(** ** C101 *)
(** The steps, taken without a break, do what the whole read or assignment does (C57 and others). *)
Theorem C101_steps :
  forall (X : mixture numeric) (locking : bool) (s : mmem), lawful numeric X ->
    (forall x, fst (qfinish (qask X locking x) s) = answer x (q_m s)) /\
    q_m (snd (qfinish (qask X locking AskPSF) s)) = snd (m_PSF (q_m s)) /\
    q_m (snd (qfinish (qask X locking AskOTF) s)) = snd (m_OTF (q_m s)) /\
    forall a v, fst (qfinish (qset a v) s) = fst (m_set a v (q_m s)) /\ q_m (snd (qfinish (qset a v) s)) = snd (m_set a v (q_m s)).
Proof.
  intros X b s LX. split; [|split; [|split]].
  - intros x. rewrite (proj1 (QRef_ask X LX b x s)). apply ask_answer.
  - rewrite (proj2 (QRef_ask X LX b AskPSF s)). unfold m_ask, mbind. destruct (m_PSF (q_m s)) as [[]]; reflexivity.
  - rewrite (proj2 (QRef_ask X LX b AskOTF s)). unfold m_ask, mbind. destruct (m_OTF (q_m s)) as [[]]; reflexivity.
  - intros a v. apply (QRef_set a v s).
Qed.
Print Assumptions C101_steps.

(** A read broken off anywhere leaves a microscope that answers every read as before; it has kept its arrays or gained
    the right ones. *)
Theorem C101_interrupted_read :
  forall (X : mixture numeric) (locking : bool) (m : micro) (s : mmem) (x : mquery) (n : nat),
    lawful numeric X -> in_use m -> q_m s = m ->
    let s' := qcut n (qask X locking x) s in
    let m' := q_m s' in
    alike m' m /\
    (mi_psf m' = mi_psf m \/ exists a, mi_psf m' = Some a /\ fst (m_PSF m) = Ok a) /\
    (mi_otf m' = mi_otf m \/ exists a, mi_otf m' = Some a /\ fst (m_OTF m) = Ok a) /\
    (forall y, answer y m' = answer y m) /\
    (forall y, fst (qfinish (qask X locking y) s') = answer y m).
Proof.
  intros X b m s x n LX Hu <-. cbn zeta. destruct (in_use_start _ Hu) as (g & gx & I & Ix).
  pose proof (JM_cut X LX b (q_m s) g gx I Ix x n s eq_refl) as J. pose proof (JM_start (q_m s) g gx I Ix) as J0.
  pose proof (fun y => JM_answer X LX b (q_m s) g gx I Ix y _ J) as A. pose proof (fun y => JM_answer X LX b (q_m s) g gx I Ix y _ J0) as A0.
  split; [apply same_alike, (jm_same _ _ _ _ J)|]. split; [|split; [|split]].
  - pose proof (jm_psf _ _ _ _ J) as P. destruct (mi_psf (q_m (qcut n (qask X b x) s))) as [a|]; [right|left; symmetry; exact P].
    exists a. split; [reflexivity|]. rewrite <- P. apply (JM_psf X LX b (q_m s) g gx I Ix _ J0).
  - pose proof (jm_otf _ _ _ _ J) as P. destruct (mi_otf (q_m (qcut n (qask X b x) s))) as [a|]; [right|left; symmetry; exact P].
    exists a. split; [reflexivity|]. rewrite <- P. apply (JM_otf X LX b (q_m s) g gx I Ix _ J0).
  - intros y. now rewrite A, A0.
  - intros y. rewrite (proj1 (C101_steps X b _ LX)). now rewrite A, A0.
Qed.
Print Assumptions C101_interrupted_read.

(** Histories with any number of broken reads: the microscope is one that an unbroken history could have produced, in which
    each broken read is left out or completed. *)
Theorem C101_interrupted_history :
  forall (X : mixture numeric) (locking : bool) (a : wargs) (m : micro) (s : mmem) (h : list mievent),
    lawful numeric X -> built_from a m -> q_m s = m -> Forall (sensible_i m) h ->
    exists h', as_if h h' /\
      let now := q_m (mrun_broken X locking h s) in
      alike now (mrun h' m) /\ mi_psf now = mi_psf (mrun h' m) /\ mi_otf now = mi_otf (mrun h' m) /\
      forall x, answer x now = answer x (mrun h' m).
Proof.
  intros X b a m s h LX Hb Hs Hh. assert (S0 : SimM (q_m s) m) by (rewrite Hs; now apply (built_Sim a)).
  destruct (Sim_history X LX b h s m S0 Hh) as (h' & Ha & HS). exists h'. split; [exact Ha|]. cbn zeta.
  split; [apply HS|]. split; [apply HS|]. split; [apply HS|]. intros x. now apply (Sim_answer X LX b).
Qed.
Print Assumptions C101_interrupted_history.

Lemma effective_decide m a v : m_effective m (MSet a v) = true <-> has_prop (mi_kind m) a = true /\ numeric_decide (mi_num m a) (mtype a) v = Ok true.
Proof.
  unfold m_effective, acceptable, numeric_decide, py_lt, differs. destruct (has_prop (mi_kind m) a); cbn [andb]; [|split; [discriminate|intros [? _]; discriminate]].
  destruct (isinstance v (mtype a)); cbn [negb andb]; [|split; [discriminate|intros [_ ?]; discriminate]].
  destruct (M_Val.num v) as [f|] eqn:En; cbn [bind andb]; [|split; [discriminate|intros [_ ?]; discriminate]].
  change (M_Val.num (VInt 0)) with (Some (FFin (inject_Z 0))). cbn [bind]. change (FFin (inject_Z 0)) with (FFin 0).
  destruct (fl_lt f (FFin 0)); cbn [negb andb bind]; [split; [discriminate|intros [_ ?]; discriminate]|].
  destruct (mi_num m a) as [w|].
  - split; [intros ->; auto|now intros [_ [= ->]]].
  - assert (py_eq VNone v = false) as ->. { unfold py_eq. cbn [M_Val.num]. rewrite En. reflexivity. } split; auto.
Qed.
Lemma mattr_eqb_same a : mattr_eqb a a = true. Proof. destruct a; reflexivity. Qed.
Lemma mattr_eqb_eq a p : mattr_eqb a p = true -> p = a. Proof. destruct a, p; cbn; congruence. Qed.
(** the states an assignment goes through *)
Definition stages (a : mattr) (v : pyval) (s : mmem) (k : nat) : mmem :=
  match k with 0%nat => s | 1%nat => w_num a v s | 2%nat => w_del_psf (w_num a v s) | _ => w_del_otf (w_del_psf (w_num a v s)) end.
Lemma cut_set a v n s :
  (m_effective (q_m s) (MSet a v) = true /\ qcut n (qset a v) s = stages a v s (n - 1)) \/
  (m_effective (q_m s) (MSet a v) = false /\ qcut n (qset a v) s = s).
Proof.
  destruct (m_effective (q_m s) (MSet a v)) eqn:He; [left|right]; (split; [reflexivity|]).
  - apply effective_decide in He. destruct He as [Hp Hd]. unfold qset, qlook. destruct n as [|n]; [reflexivity|]. cbn [qcut]. rewrite Hp, Hd.
    replace (S n - 1)%nat with n by lia. destruct n as [|[|[|n]]]; try reflexivity. unfold qdo. cbn [qcut]. unfold qret. now rewrite qcut_done.
  - unfold qset, qlook. destruct n as [|n]; [reflexivity|]. cbn [qcut].
    destruct (has_prop (mi_kind (q_m s)) a) eqn:Hp; [|unfold qret; now rewrite qcut_done].
    destruct (numeric_decide (mi_num (q_m s) a) (mtype a) v) as [[|]|e] eqn:Hd; unfold qret; rewrite ?qcut_done; auto.
    rewrite (proj2 (effective_decide (q_m s) a v) (conj Hp Hd)) in He. discriminate.
Qed.
Lemma finish_set a v s : m_effective (q_m s) (MSet a v) = true -> qfinish (qset a v) s = (Ok tt, stages a v s 3).
Proof. intros He. apply effective_decide in He. destruct He as [Hp Hd]. unfold qset, qlook. cbn [qfinish]. now rewrite Hp, Hd. Qed.

(** An assignment broken off: the old value or the new one, and for each array the old one or none; nothing else changes. *)
Theorem C101_interrupted_assignment :
  forall (s : mmem) (a : mattr) (v : pyval) (n : nat),
    let m := q_m s in
    let m' := q_m (qcut n (qset a v) s) in
    (m_effective m (MSet a v) = false -> m' = m) /\
    (forall p, mi_num m' p = mi_num m p \/ (p = a /\ mi_num m' p = Some v /\ m_effective m (MSet a v) = true)) /\
    (mi_psf m' = mi_psf m \/ mi_psf m' = None) /\ (mi_otf m' = mi_otf m \/ mi_otf m' = None) /\
    (* no array goes before the value is stored, and the PSF goes first *)
    (mi_psf m' <> mi_psf m -> mi_num m' a = Some v) /\
    (mi_otf m' <> mi_otf m -> mi_psf m' = None /\ m' = snd (m_set a v m)) /\
    alike (upd_num (mi_num m) m') m /\ mi_model m' = mi_model m /\ mi_exc m' = mi_exc m.
Proof.
  intros s a v n. cbn zeta. destruct (cut_set a v n s) as [[He ->]|[He ->]].
  - assert (Hset : snd (m_set a v (q_m s)) = q_m (stages a v s 3)). { destruct (QRef_set a v s) as [_ R]. rewrite <- R, finish_set by exact He. reflexivity. }
    split; [rewrite He; discriminate|]. rewrite Hset. set (m := q_m s).
    assert (G : forall p, (if mattr_eqb a p then Some v else mi_num m p) = mi_num m p \/ (p = a /\ (if mattr_eqb a p then Some v else mi_num m p) = Some v /\ m_effective m (MSet a v) = true)).
    { intros p. destruct (mattr_eqb a p) eqn:E; [right; split; [now apply mattr_eqb_eq|auto]|auto]. }
    destruct (n - 1)%nat as [|[|[|k]]]; cbn [stages w_num w_del_psf w_del_otf q_m upd_num upd_cache mi_num mi_psf mi_otf mi_model mi_exc]; fold m;
      (split; [first [exact G | auto]|]); repeat split; auto; try (intros H; now elim H); try (match goal with H : ?x <> ?x |- _ => now elim H end); rewrite ?mattr_eqb_same; auto.
  - repeat split; auto; try (intros H; now elim H); match goal with H : ?x <> ?x |- _ => now elim H end.
Qed.
Print Assumptions C101_interrupted_assignment.

(** Any later assignment that changes something repairs the arrays, whatever they are by then. *)
Theorem C101_a_change_repairs :
  forall (s : mmem) (a : mattr) (v : pyval), m_effective (q_m s) (MSet a v) = true ->
    let '(r, s') := qfinish (qset a v) s in
    r = Ok tt /\ mi_num (q_m s') a = Some v /\
    fst (m_PSF (q_m s')) = S_Micro.fresh (q_m s') /\
    fst (m_OTF (q_m s')) = (do p <- S_Micro.fresh (q_m s'); Ok (o_fft (amap (option_map RtoC) p))).
Proof.
  intros s a v H. rewrite finish_set by exact H. split; [reflexivity|]. split; [cbn; now rewrite mattr_eqb_same|].
  assert (Pr : shot (q_m (stages a v s 3)) None) by (split; reflexivity). split; [apply (shot_psf _ _ Pr)|apply (shot_otf _ _ Pr)].
Qed.
Print Assumptions C101_a_change_repairs.

(** Repeating an assignment that was broken off after the value was stored does nothing: the old arrays stay. *)
Theorem C101_retry_is_skipped :
  forall (s : mmem) (a : mattr) (v : pyval), m_effective (q_m s) (MSet a v) = true -> py_eq v v = true ->
    let once := qcut 2 (qset a v) s in
    qfinish (qset a v) once = (Ok tt, once) /\ mi_num (q_m once) a = Some v /\
    mi_psf (q_m once) = mi_psf (q_m s) /\ mi_otf (q_m once) = mi_otf (q_m s) /\
    forall p, mi_psf (q_m s) = Some p -> answer AskPSF (q_m once) = Ok (SeePSF p).
Proof.
  intros s a v He Hv. cbn zeta. destruct (cut_set a v 2 s) as [[_ ->]|[He' _]]; [|congruence]. cbn [Nat.sub stages].
  apply effective_decide in He. destruct He as [Hp Hd]. split; [|split; [|split; [reflexivity|split; [reflexivity|]]]].
  - unfold qset, qlook. cbn [qfinish w_num q_m upd_num mi_num mi_kind]. rewrite Hp, mattr_eqb_same. unfold numeric_decide in *.
    destruct (negb (isinstance v (mtype a))); [discriminate|]. destruct (py_lt v (VInt 0)) as [[|]|]; cbn [bind] in *; try discriminate. rewrite Hv. reflexivity.
  - cbn. now rewrite mattr_eqb_same.
  - intros p E. cbn [answer]. unfold m_PSF. cbn [w_num q_m upd_num mi_psf]. rewrite E. reflexivity.
Qed.
Print Assumptions C101_retry_is_skipped.

Lemma wide_is_wide a m : WidefieldMicroscope a = Ok m -> mi_kind m = Widefield.
Proof. intros H. exact (made_kind _ _ _ (wide_kind a) H). Qed.
Lemma model_wide_num m f : mi_kind m = Widefield -> fst (model_psf (upd_num f m)) = fst (model_psf m).
Proof.
  intros K. unfold model_psf. change (mi_kind (upd_num f m)) with (mi_kind m). rewrite K. unfold model_PSFi.
  change (mi_cls (upd_num f m)) with (mi_cls m). change (mi_model (upd_num f m)) with (mi_model m).
  destruct (read numeric (mi_cls m) PSFi (mi_model m)) as [r o]. reflexivity.
Qed.
(** So a retry does not repair: a wide-field microscope whose PSF has been read, an assignment of oversample_factor that
    is interrupted once and then repeated. *)
Theorem C101_retry_does_not_repair_refuted :
  exists (m : micro) (s : mmem) (p : array (option R)),
    WidefieldMicroscope a0 = Ok m /\ q_m s = mrun [MReadPSF] m /\ fst (m_PSF m) = Ok p /\
    let once := qcut 2 (qset MOs (VInt 5)) s in
    let '(r, twice) := qfinish (qset MOs (VInt 5)) once in
    r = Ok tt /\ mi_num (q_m twice) MOs = Some (VInt 5) /\
    fst (m_PSF (q_m twice)) = Ok p /\ shape p = [16; 64; 64]%Z /\
    exists p', S_Micro.fresh (q_m twice) = Ok p' /\ shape p' = [16; 38; 38]%Z.
Proof.
  destruct a0_built as (m & Hm & Hc & Hpar). destruct a0_physical as (P1 & P2 & P3 & P4). pose proof (built_wide a0 m Hm) as Hb.
  pose proof (C55_hanser a0 m a0_kwargs Hm Hc) as X. cbv zeta in X. rewrite Hpar in X. set (h := hpar_of a0_params) in *.
  assert (Nv : h_vec h <> VecZ) by (rewrite P3; discriminate). assert (Nz : h_zrange h <> []) by (intros E; rewrite E in P4; discriminate P4).
  destruct (X P1 P2 Nv Nz) as (A & n & f & r & HA & Hn & Hf & Hs & Er & Sr & _ & _ & _). clear X. rewrite P4 in Sr. cbn in Hn. injection Hn as <-. cbn in Hf. injection Hf as <-.
  pose proof (C30_shape_sign h None A P1 ltac:(discriminate) HA) as (_ & SS & _). rewrite Hs, P4 in SS. change (64 * 3)%Z with 192%Z in SS. change (Z.of_nat 16) with 16%Z in Sr, SS.
  destruct (built_wide_result a0 m Hb) as (k & f0 & p & c & kk & o & _ & Hf0 & _ & _ & Ep & _ & _ & Eo & Hc' & Hpm & _ & Hmod & Hos). rewrite Hc in Hc'. subst c. cbn in Hf0. injection Hf0 as <-.
  pose proof (wide_is_wide a0 m Hm) as Kd.
  assert (Mp : exists fine, fst (model_psf m) = Ok (fine, true) /\ shape fine = [16; 192; 192]%Z).
  { assert (Sh : shows (mi_model m) A). { rewrite Hmod. apply (C73_hanser_objects kk o [] A Eo). cbn [run in_force]. rewrite <- Hmod, Hpar. exact HA. }
    destruct Sh as (_ & S2 & _). unfold model_psf. rewrite Kd. unfold model_PSFi. rewrite Hc. destruct (read numeric Hanser PSFi (mi_model m)) as [r0 o1]. cbn [fst] in S2. rewrite S2. cbn [fst snd bind]. unfold farr_of.
    set (B := amap (fun r => Some (RtoC r)) (sumsq A)). assert (Fin : finite_all B = true) by (unfold finite_all; apply forallb_forall; reflexivity).
    rewrite Fin. eexists. split; [reflexivity|]. exact SS. }
  destruct Mp as (fine & Mp & Sf).
  assert (Hu : in_use m) by (exists a0, m, []; auto). destruct (in_use_start m Hu) as (g & gx & I & Ix). pose proof (JM_start m g gx I Ix) as J0.
  destruct (JM_psf no_mix no_mix_lawful false m g gx I Ix m J0) as [_ J1].
  pose proof (JM_answer no_mix no_mix_lawful false m g gx I Ix AskModelPSF _ J1) as Q1. rewrite <- (JM_answer no_mix no_mix_lawful false m g gx I Ix AskModelPSF _ J0) in Q1.
  destruct (psf_effect m) as [_ PE]. rewrite Er in PE. set (m1 := snd (m_PSF m)) in *. cbn [answer] in Q1. rewrite Mp in Q1.
  assert (Mp1 : fst (model_psf m1) = Ok (fine, true)). { destruct (fst (model_psf m1)) as [x|]; cbn [bind] in Q1; [|discriminate]. now injection Q1 as ->. }
  pose proof (jm_same _ _ _ _ J1) as SM. assert (N1 : mi_num m1 MOs = Some (VInt 3)) by (rewrite (sm_num _ _ SM); exact Hos).
  assert (K1 : mi_kind m1 = Widefield) by (rewrite (sm_kind _ _ SM); exact Kd).
  set (s := mkMMem m1 (fun _ => None) (fun _ => None)). exists m, s, r. split; [exact Hm|]. split; [reflexivity|]. split; [exact Er|]. cbv zeta.
  assert (He : m_effective (q_m s) (MSet MOs (VInt 5)) = true). { cbn [q_m s]. unfold m_effective. rewrite N1, K1. reflexivity. }
  destruct (C101_retry_is_skipped s MOs (VInt 5) He eq_refl) as (R1 & R2 & R3 & _). cbv zeta in R1. rewrite R1. split; [reflexivity|]. split; [exact R2|].
  split; [unfold m_PSF; rewrite R3; cbn [q_m s]; now rewrite PE|]. split; [exact Sr|].
  destruct (cut_set MOs (VInt 5) 2 s) as [[_ Ec]|[He' _]]; [|congruence]. rewrite Ec in *. cbn [Nat.sub stages] in *.
  destruct (C55_any_factor (q_m (w_num MOs (VInt 5) s)) fine 16 192 5 192) as (p' & F1 & F2 & _); try lia; auto.
  - cbn [w_num q_m s]. rewrite model_wide_num by exact K1. exact Mp1.
  - exists (VInt 5). split; [exact R2|reflexivity].
  - exists (fst p). split; [|exact (proj1 (fine_pair_ok a0 3 p ltac:(lia) Ep) 64%Z eq_refl)]. cbn [w_num q_m s upd_num mi_params]. rewrite (sm_params _ _ SM), Hpm, params_get by apply a0_kwargs. reflexivity.
  - exists p'. split; [exact F1|]. exact F2.
Qed.
Print Assumptions C101_retry_does_not_repair_refuted.

(** ** C102 *)
Section C102.
Context (X : mixture numeric) (locking : bool) (objects : nat -> mmem).
Context (LX : lawful numeric X) (Hu : forall x, in_use (q_m (objects x))).
Lemma start_inv jobs sched : exists H, MInv (fun x => q_m (objects x)) H (mplay X locking sched (mstart objects jobs)).
Proof.
  apply (minv_play X LX locking (fun x => q_m (objects x))) with (H := fun _ => []); [|apply minv_start].
  - intros x. destruct (in_use_start _ (Hu x)) as (g & gx & H1 & H2). exists g, gx. now split.
  - intros x g gx [V1 V2]. now apply JM_start.
Qed.

(** Any number of microscopes of all four kinds, each after any history; any number of threads, each with any list of reads
    of PSF, OTF and model_psf; any interleaving of their atomic steps, with or without the lock of cached_property: every
    read that is completed gives what it would have given alone. *)
Theorem C102_concurrent_reads_are_right :
  forall (jobs : list (list mjob)) (sched : list nat) i t x q r,
    nth_error (mw_threads (mplay X locking sched (mstart objects jobs))) i = Some t ->
    In ((x, q), r) (mt_log t) -> r = answer q (q_m (objects x)).
Proof.
  intros jobs sched i t x q r Ht Hr. destruct (start_inv jobs sched) as [H HI].
  destruct (mi_thr _ _ _ HI i t Ht) as [Hl _]. rewrite Forall_forall in Hl. specialize (Hl _ Hr). unfold mright in Hl. cbn [fst snd] in Hl. rewrite Hl.
  destruct (in_use_start _ (Hu x)) as (g & gx & I & Ix). symmetry. apply (JM_answer X LX locking _ g gx I Ix). now apply JM_start.
Qed.

(** Meanwhile and afterwards the microscopes are as good as untouched. *)
Theorem C102_microscopes_stay_right :
  forall (jobs : list (list mjob)) (sched : list nat) (x : nat),
    let m := q_m (objects x) in
    let m' := q_m (mw_mem (mplay X locking sched (mstart objects jobs)) x) in
    alike m' m /\ (forall q, answer q m' = answer q m) /\
    (mi_psf m' = mi_psf m \/ exists a, mi_psf m' = Some a /\ fst (m_PSF m) = Ok a) /\
    (mi_otf m' = mi_otf m \/ exists a, mi_otf m' = Some a /\ fst (m_OTF m) = Ok a).
Proof.
  intros jobs sched x. cbn zeta. destruct (start_inv jobs sched) as [H HI]. destruct (in_use_start _ (Hu x)) as (g & gx & I & Ix).
  pose proof (mi_mem _ _ _ HI x g gx (conj I Ix)) as J. pose proof (JM_start _ g gx I Ix) as J0. set (m' := q_m (mw_mem _ x)) in *.
  split; [apply same_alike, (jm_same _ _ _ _ J)|]. split; [|split].
  - intros q. now rewrite (JM_answer X LX locking _ g gx I Ix q _ J), (JM_answer X LX locking _ g gx I Ix q _ J0).
  - pose proof (jm_psf _ _ _ _ J) as P. destruct (mi_psf m') as [a|]; [right|left; symmetry; exact P].
    exists a. split; [reflexivity|]. rewrite <- P. apply (JM_psf X LX locking _ g gx I Ix _ J0).
  - pose proof (jm_otf _ _ _ _ J) as P. destruct (mi_otf m') as [a|]; [right|left; symmetry; exact P].
    exists a. split; [reflexivity|]. rewrite <- P. apply (JM_otf X LX locking _ g gx I Ix _ J0).
Qed.

(** No deadlock: as long as a thread has not finished, some thread can move. *)
Theorem C102_no_deadlock :
  forall (jobs : list (list mjob)) (sched : list nat),
    let w := mplay X locking sched (mstart objects jobs) in
    forall i t, nth_error (mw_threads w) i = Some t -> ~ (mt_now t = None /\ mt_todo t = []) ->
    exists j w', mstep X locking j w = Some w'.
Proof.
  intros jobs sched w i t Ht Hf. destruct (start_inv jobs sched) as [H HI].
  assert (V : forall x, exists g gx, pupils_of (fun x => q_m (objects x)) x g gx).
  { intros x. destruct (in_use_start _ (Hu x)) as (g & gx & H1 & H2). exists g, gx. now split. }
  destruct (mprogress X locking _ V H w i t HI Ht Hf) as [j Hj]. exists j. destruct (mstep X locking j w) as [w'|]; [eauto|congruence].
Qed.

(** When no thread can move any more, each has done exactly its reads, in order. *)
Theorem C102_all_reads_done :
  forall (jobs : list (list mjob)) (sched : list nat),
    let w := mplay X locking sched (mstart objects jobs) in
    (forall i, mstep X locking i w = None) ->
    map (fun t => rev (map fst (mt_log t))) (mw_threads w) = jobs.
Proof.
  intros jobs sched w Hw.
  pose proof (masked_play X locking sched (mstart objects jobs)) as Ha. rewrite masked_start in Ha. fold w in Ha. rewrite <- Ha.
  apply map_ext_in. intros t Ht. unfold masked. apply In_nth_error in Ht. destruct Ht as [i Hi].
  assert (Hd : mt_now t = None /\ mt_todo t = []).
  { destruct (mt_now t) as [p|] eqn:En, (mt_todo t) as [|j l] eqn:Et; auto; exfalso;
    (destruct (C102_no_deadlock jobs sched i t Hi) as (j' & w' & Hj); [rewrite ?En, ?Et; intros [? ?]; discriminate|]);
    fold w in Hj; rewrite Hw in Hj; discriminate. }
  destruct Hd as [-> ->]. cbn. now rewrite app_nil_r.
Qed.
End C102.

(** The threads finish: at most 85 moves for each read are possible, in any schedule and from any microscopes. *)
Theorem C102_bounded_work :
  forall (X : mixture numeric) (locking : bool) (objects : nat -> mmem) (jobs : list (list mjob)) (sched : list nat),
    (mturns_used X locking sched (mstart objects jobs) <= 85 * List.length (List.concat jobs))%nat.
Proof.
  intros X locking objects jobs sched.
  assert (G : forall s w n, mleft_w w n -> (mturns_used X locking s w <= n)%nat).
  { induction s as [|i s IH]; intros w n Hn; cbn [mturns_used]; [lia|]. destruct (mstep X locking i w) as [w'|] eqn:Es; [|auto].
    destruct (mleft_step X locking w i w' n Hn Es) as (n' & Hn' & Hlt). specialize (IH w' n' Hn'). lia. }
  apply G. exists (map (fun l => (85 * List.length l)%nat) jobs). split.
  - cbn [mstart mw_threads]. induction jobs as [|l jobs IH]; cbn [map]; constructor; auto. constructor.
  - induction jobs as [|l jobs IH]; cbn [List.concat map list_sum fold_right]; [reflexivity|]. rewrite app_length. change (fold_right Nat.add 0%nat ?l) with (list_sum l). lia.
Qed.
Print Assumptions C102_concurrent_reads_are_right.
Print Assumptions C102_microscopes_stay_right.
Print Assumptions C102_no_deadlock.
Print Assumptions C102_all_reads_done.
Print Assumptions C102_bounded_work.

(** *** Cases: a wide-field microscope of 64 pixels, its PSF already read, a broken read of OTF in its history; and two
    threads, one of which finds the lock of PSF taken. *)
Example C101_case : exists m (s : mmem) h,
  built_from a0 m /\ q_m s = m /\ lawful numeric no_mix /\
  h = [MWhole MReadPSF; MBroken AskOTF 4; MWhole (MSet MOs (VInt 5)); MBroken AskModelPSF 7; MWhole (MModelOp (Assign numeric (SetNum A_wl (VFloat (FFin (1 # 2))))))] /\
  Forall (sensible_i m) h /\ in_use (mrun [MReadPSF] m).
Proof.
  destruct a0_built as (m & Hm & _). exists m, (mkMMem m (fun _ => None) (fun _ => None)). eexists. split; [now apply built_wide|]. split; [reflexivity|].
  split; [apply no_mix_lawful|]. split; [reflexivity|]. split; [repeat constructor|]. exists a0, m, [MReadPSF]. split; [now apply built_wide|]. split; [repeat constructor|reflexivity].
Qed.

Example C102_case : exists objects : nat -> mmem,
  (forall x, in_use (q_m (objects x))) /\
  let jobs := [[(0%nat, AskOTF); (1%nat, AskPSF)]; [(0%nat, AskPSF); (0%nat, AskModelPSF)]] in
  (* thread 0 has taken the locks of OTF and of PSF; thread 1 waits for the lock of PSF, thread 0 does not *)
  let w := mplay no_mix true [0; 0; 0; 0; 0; 0; 1; 1]%nat (mstart objects jobs) in
  mw_owner w LOTF = Some 0%nat /\ mw_owner w LPSF = Some 0%nat /\ mstep no_mix true 1 w = None /\ mstep no_mix true 0 w <> None.
Proof.
  destruct a0_built as (m & Hm & _). exists (fun _ => mkMMem m (fun _ => None) (fun _ => None)).
  assert (Hu : in_use m) by (exists a0, m, []; split; [now apply built_wide|split; [constructor|reflexivity]]). split; [auto|].
  destruct (built_pristine m) as [P O]; [exists a0; now apply built_wide|]. generalize no_mix. intros X. cbv zeta.
  clear Hm Hu. destruct m as [k c n pr px ori wi md ex ps ot]. cbn [mi_psf mi_otf] in P, O. subst ps ot.
  repeat split; try reflexivity. lazy -[qcompute numeric w_psf w_otf o_fft]. discriminate.
Qed.
