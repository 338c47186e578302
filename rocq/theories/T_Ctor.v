(** C82: which constructor calls are accepted. *)
From Verif Require Import M_PSF S_PSF L_PSF L_Ctor T_PSF T_PSF2.
Local Open Scope Q_scope.

(** A whole number of samples: a non-negative int, or a bool (an int in Python). *)
Definition whole_samples (v : pyval) : Prop := (exists n, v = VInt n /\ (0 <= n)%Z) \/ exists b, v = VBool b.
Definition one_of (v : pyval) (l : list string) : Prop := exists s, v = VStr s /\ In s l.

Section C.
Context (E : engine).
Lemma run_seq (m k : M E unit) o o1 : m o = (Ok tt, o1) -> bindM E m (fun _ => k) o = k o1.
Proof. intros H. unfold bindM. rewrite H. reflexivity. Qed.
Lemma numeric_ok a t v q o : isinstance v t = true -> num v = Some (FFin q) -> 0 <= q -> exists o', numeric_set E a t v o = (Ok tt, o').
Proof.
  intros Hi Hn Hq. unfold numeric_set, numeric_fset, numeric_decide. rewrite Hi. cbn [negb]. unfold py_lt. rewrite Hn. cbn [num bind].
  assert (X : fl_lt (FFin q) (FFin (inject_Z 0)) = false). { unfold fl_lt. cbn [fl_le fl_eq]. destruct (Qle_bool q (inject_Z 0)) eqn:L; [|reflexivity]. apply Qle_bool_iff in L. replace (Qeq_bool q (inject_Z 0)) with true; [reflexivity|]. symmetry. apply Qeq_bool_iff. apply Qle_antisym; assumption. }
  rewrite X. destruct (negb _); eexists; reflexivity.
Qed.
Lemma real_fi v q : num v = Some (FFin q) -> isinstance v TFloatInt = true.
Proof. destruct v; cbn; intros H; try discriminate; reflexivity. Qed.
Lemma whole_ok v : whole_samples v -> isinstance v TInt = true /\ exists q, num v = Some (FFin q) /\ 0 <= q.
Proof. intros [(n & -> & Hn)|(b & ->)]; (split; [reflexivity|]); eexists; (split; [reflexivity|]); [unfold Qle; cbn; lia|destruct b; discriminate]. Qed.
Lemma choice_ok a l v o : one_of v l -> exists o', choice_set E a l v o = (Ok tt, o').
Proof.
  intros (s & -> & Hs). unfold choice_set, bindM, lift, in_set. replace (existsb (String.eqb s) l) with true; [eexists; reflexivity|].
  symmetry. apply existsb_exists. exists s. split; [exact Hs|apply String.eqb_refl].
Qed.
Lemma base_zres_ok v q o : num v = Some (FFin q) -> 0 < q -> exists o', base_zres_set E v o = (Ok tt, o').
Proof.
  intros Hn Hq. unfold base_zres_set, bindM, lift, py_gt, py_lt. rewrite Hn. cbn [num].
  assert (X : fl_lt (FFin (inject_Z 0)) (FFin q) = true). { unfold fl_lt. cbn [fl_le fl_eq]. replace (Qle_bool (inject_Z 0) q) with true by (symmetry; apply Qle_bool_iff, Qlt_le_weak; exact Hq). destruct (Qeq_bool (inject_Z 0) q) eqn:Q; [|reflexivity]. apply Qeq_bool_iff in Q. rewrite <- Q in Hq. discriminate. }
  rewrite X. eexists. reflexivity.
Qed.
Lemma then_zrange_ok m o o1 : m o = (Ok tt, o1) -> exists o', bindM E m (fun _ => ignore_attribute_error E (gen_zrange E)) o = (Ok tt, o').
Proof. intros H. rewrite (run_seq _ _ _ _ H). unfold ignore_attribute_error. destruct (gen_zrange_cases E o1) as [(n & d & _ & _ & Hg)|[_ Hg]]; rewrite Hg; eexists; reflexivity. Qed.

Lemma zero_le_notpos q : 0 <= q -> ~ q == 0 -> 0 < q.
Proof. intros H N. apply Qle_lteq in H. destruct H as [H|H]; [exact H|]. exfalso. apply N. symmetry. exact H. Qed.
Lemma construct_nonzero c k o qw qn : construct E c k = Ok o -> num (k_wl k) = Some (FFin qw) -> num (k_na k) = Some (FFin qn) -> ~ qw == 0 /\ ~ qn == 0.
Proof.
  intros H Hw Hn. destruct (construct_res E c k o H) as (o3 & o4 & A & W & N). cbn [assign] in A. unfold res_set, bindM, getattr, lift in A. rewrite N, W in A. unfold num_or_nan in A. rewrite Hw, Hn in A. cbn [fl_mul] in A. unfold fl_div at 1 in A. cbn [fl_zero] in A.
  destruct (Qeq_bool qw 0) eqn:Z1; [discriminate|]. split; [intros X; apply Qeq_bool_iff in X; congruence|].
  unfold fl_div in A. cbn [fl_zero] in A. intros X. destruct (Qeq_bool (2 * qn / qw) 0) eqn:Z2; [discriminate A|]. assert (Qeq_bool (2 * qn / qw) 0 = true); [|congruence]. apply Qeq_bool_iff. rewrite X. unfold Qdiv. ring.
Qed.
Lemma construct_ni k o qi : construct E Sheppard k = Ok o -> num (k_ni k) = Some (FFin qi) -> ~ qi == 0.
Proof.
  intros H Hi X. destruct (construct_zres E k o H) as (o3 & o4 & A & W & N). cbn [assign] in A. unfold sheppard_zres_set, bindM, getattr, lift in A. rewrite W, N in A. unfold num_or_nan in A. rewrite Hi in A.
  unfold fl_div in A. cbn [fl_zero] in A. change (Qeq_bool 2 0) with false in A. cbn match in A. apply Qeq_bool_iff in X. rewrite X in A. discriminate.
Qed.
End C.

(** For real numbers wl, na, ni, res and zres (an omitted zres is res, an omitted zsize is size): the call succeeds exactly
    when wl and na are positive, ni is not negative (SheppardPSF: positive), res is below the Abbe limit, zres is positive
    (SheppardPSF: also below wl / (2 ni)), size and zsize are whole, vec_corr and condition are among the documented names, and
    (SheppardPSF) dual is a bool. *)
Theorem C82_constructor_accepts :
  forall (E : engine) (c : cls) (k : ctor) qw qn qi qr qz,
    let zres := match k_zres k with Some v => v | None => k_res k end in
    let zsize := match k_zsize k with Some v => v | None => k_size k end in
    num (k_wl k) = Some (FFin qw) -> num (k_na k) = Some (FFin qn) -> num (k_ni k) = Some (FFin qi) ->
    num (k_res k) = Some (FFin qr) -> num zres = Some (FFin qz) ->
    ((exists o, construct E c k = Ok o) <->
     0 < qw /\ 0 < qn /\ 0 <= qi /\ qr < qw / (2 * qn) /\ whole_samples (k_size k) /\ 0 < qz /\ whole_samples zsize /\
     one_of (k_vec_corr k) ["none"; "x"; "y"; "z"; "total"]%string /\ one_of (k_condition k) ["none"; "sine"; "herschel"]%string /\
     (c = Sheppard -> 0 < qi /\ qz < qw / (2 * qi) /\ exists b, k_dual k = VBool b)).
Proof.
  intros E c k qw qn qi qr qz zres zsize Hw Hn Hi Hr Hz. split.
  - intros (o & H).
    assert (V : forall a, (a = A_dual -> c = Sheppard) -> valid_value a (given k a)).
    { intros a Ha. destruct (C26_parameters_valid E c k o [] a H Ha) as (v & Ev & Hv). cbn [run] in Ev. rewrite (construct_stores E c k o H a Ha) in Ev. injection Ev as <-. exact Hv. }
    destruct (construct_nonzero E c k o qw qn H Hw Hn) as [Nw Nn].
    assert (Pw : 0 < qw). { destruct (V A_wl) as (f & Ef & Hf); [discriminate|]. cbn [given] in Ef. rewrite Hw in Ef. injection Ef as <-. now apply zero_le_notpos. }
    assert (Pn : 0 < qn). { destruct (V A_na) as (f & Ef & Hf); [discriminate|]. cbn [given] in Ef. rewrite Hn in Ef. injection Ef as <-. now apply zero_le_notpos. }
    assert (Pi : 0 <= qi). { destruct (V A_ni) as (f & Ef & Hf); [discriminate|]. cbn [given] in Ef. rewrite Hi in Ef. injection Ef as <-. exact Hf. }
    assert (Pz : 0 < qz). { destruct (V A_zres) as (f & Ef & Hf); [discriminate|]. cbn [given] in Ef. change (default (k_res k) (k_zres k)) with zres in Ef. rewrite Hz in Ef. injection Ef as <-. exact Hf. }
    assert (WH : forall v, isinstance v TInt = true /\ (0 <= as_int v)%Z -> whole_samples v). { intros [z|b|f|s| | |] [I B]; try discriminate I; [left; exists z; auto|right; exists b; reflexivity]. }
    split; [exact Pw|]. split; [exact Pn|]. split; [exact Pi|].
    split; [exact (proj1 (C26_constructed_within_limits E c k o qw qn H Hw Pw) Hn Pn qr Hr)|].
    split; [apply WH, (V A_size); discriminate|]. split; [exact Pz|]. split; [apply WH, (V A_zsize); discriminate|].
    split; [apply (V A_vec_corr); discriminate|]. split; [apply (V A_condition); discriminate|].
    intros ->. assert (Ni : 0 < qi) by (apply zero_le_notpos; [exact Pi|exact (construct_ni E k o qi H Hi)]). split; [exact Ni|].
    destruct (proj2 (C26_constructed_within_limits E Sheppard k o qw qi H Hw Pw) eq_refl Hi Ni) as (q' & E' & _ & L). fold zres in E'. rewrite Hz in E'. injection E' as <-. split; [exact L|]. apply (V A_dual). reflexivity.
  - intros (Pw & Pn & Pi & Lr & Ws & Pz & Wz & Vv & Vc & Sh). unfold construct, init, base_init.
    pose proof (step E) as ST.
    destruct (numeric_ok E A_wl TFloatInt (k_wl k) qw (empty_obj E) (real_fi _ _ Hw) Hw (Qlt_le_weak _ _ Pw)) as (o1 & A1).
    assert (A1' : assign E c (SetNum A_wl (k_wl k)) (empty_obj E) = (Ok tt, o1)) by (destruct c; exact A1). destruct (ST _ _ _ _ _ A1' ltac:(discriminate) eq_refl) as [V1 K1].
    destruct (numeric_ok E A_na TFloatInt (k_na k) qn o1 (real_fi _ _ Hn) Hn (Qlt_le_weak _ _ Pn)) as (o2 & A2).
    assert (A2' : assign E c (SetNum A_na (k_na k)) o1 = (Ok tt, o2)) by (destruct c; exact A2). destruct (ST _ _ _ _ _ A2' ltac:(discriminate) ltac:(now rewrite K1 by discriminate)) as [V2 K2].
    destruct (numeric_ok E A_ni TFloatInt (k_ni k) qi o2 (real_fi _ _ Hi) Hi Pi) as (o3 & A3).
    assert (A3' : assign E c (SetNum A_ni (k_ni k)) o2 = (Ok tt, o3)) by (destruct c; exact A3). destruct (ST _ _ _ _ _ A3' ltac:(discriminate) ltac:(now rewrite K2, K1 by discriminate)) as [V3 K3].
    assert (W3 : o_attr o3 A_wl = Some (k_wl k)) by (rewrite K3, K2 by discriminate; exact V1). assert (N3 : o_attr o3 A_na = Some (k_na k)) by (rewrite K3 by discriminate; exact V2).
    pose proof (C26_res_limit E c o3 _ _ qw qn (k_res k) W3 N3 Hw Hn Pw Pn) as RL. rewrite Hr in RL. destruct (Qlt_le_dec qr (qw / (2 * qn))) as [_|Bad]; [|exfalso; exact (Qlt_irrefl _ (Qlt_le_trans _ _ _ Lr Bad))].
    destruct (assign E c (SetNum A_res (k_res k)) o3) as [rr o4] eqn:A4. cbn [fst] in RL. subst rr. destruct (ST _ _ _ _ _ A4 ltac:(discriminate) ltac:(now rewrite K3, K2, K1 by discriminate)) as [V4 K4].
    destruct (whole_ok _ Ws) as (Is & qs & Ns & Ps). destruct (numeric_ok E A_size TInt (k_size k) qs o4 Is Ns Ps) as (o5 & A5).
    assert (A5' : assign E c (SetNum A_size (k_size k)) o4 = (Ok tt, o5)) by (destruct c; exact A5). destruct (ST _ _ _ _ _ A5' ltac:(discriminate) ltac:(now rewrite K4, K3, K2, K1 by discriminate)) as [V5 K5].
    assert (W5 : o_attr o5 A_wl = Some (k_wl k)) by (now rewrite K5, K4 by discriminate). assert (I5 : o_attr o5 A_ni = Some (k_ni k)) by (now rewrite K5, K4 by discriminate).
    assert (S6 : exists o6, assign E c (SetNum A_zres zres) o5 = (Ok tt, o6)).
    { destruct c.
      - cbn [assign]. unfold hanser_zres_set. destruct (base_zres_ok E zres qz o5 Hz Pz) as (ob & Hb). exact (then_zrange_ok E _ _ _ Hb).
      - destruct (Sh eq_refl) as (Pi' & Lz & _). pose proof (C26_sheppard_zres_limit E o5 _ _ qw qi zres W5 I5 Hw Hi (Qlt_le_weak _ _ Pw) Pi') as ZL. rewrite Hz in ZL.
        destruct (Qlt_le_dec 0 qz) as [_|Bad]; [|exfalso; exact (Qlt_irrefl _ (Qlt_le_trans _ _ _ Pz Bad))]. destruct (Qlt_le_dec qz _) as [_|Bad]; [|exfalso; exact (Qlt_irrefl _ (Qlt_le_trans _ _ _ Lz Bad))].
        destruct (assign E Sheppard _ o5) as [r6 o6]. cbn [fst] in ZL. subst r6. eexists. reflexivity. }
    destruct S6 as (o6 & A6). destruct (ST _ _ _ _ _ A6 ltac:(discriminate) ltac:(now rewrite K5, K4, K3, K2, K1 by discriminate)) as [V6 K6].
    destruct (whole_ok _ Wz) as (Iz & q7 & N7 & P7). destruct (numeric_ok E A_zsize TInt zsize q7 o6 Iz N7 P7) as (o7 & A7).
    assert (S7 : exists o7', assign E c (SetNum A_zsize zsize) o6 = (Ok tt, o7')).
    { destruct c; [|eexists; exact A7]. cbn [assign]. unfold hanser_zsize_set. exact (then_zrange_ok E _ _ _ A7). }
    destruct S7 as (o7' & A7'). destruct (ST _ _ _ _ _ A7' ltac:(discriminate) ltac:(now rewrite K6, K5, K4, K3, K2, K1 by discriminate)) as [V7 K7].
    destruct (choice_ok E A_vec_corr vec_corr_values (k_vec_corr k) o7' Vv) as (o8 & A8).
    assert (A8' : assign E c (SetNum A_vec_corr (k_vec_corr k)) o7' = (Ok tt, o8)) by (destruct c; exact A8). destruct (ST _ _ _ _ _ A8' ltac:(discriminate) ltac:(now rewrite K7, K6, K5, K4, K3, K2, K1 by discriminate)) as [V8 K8].
    destruct (choice_ok E A_condition condition_values (k_condition k) o8 Vc) as (o9 & A9).
    assert (A9' : assign E c (SetNum A_condition (k_condition k)) o8 = (Ok tt, o9)) by (destruct c; exact A9). destruct (ST _ _ _ _ _ A9' ltac:(discriminate) ltac:(now rewrite K8, K7, K6, K5, K4, K3, K2, K1 by discriminate)) as [V9 K9].
    assert (FIN : exists oo, match c with Hanser => match k_zrange k with None => gen_zrange E | Some z => zrange_set E z end | Sheppard => dual_set E (k_dual k) end o9 = (Ok tt, oo)).
    { destruct c.
      - destruct (k_zrange k) as [z|]; [eexists; reflexivity|]. destruct (gen_zrange_cases E o9) as [(n & d & _ & _ & Hg)|[Hg _]]; [rewrite Hg; eexists; reflexivity|].
        exfalso. rewrite K9, K8, V7 in Hg by discriminate. rewrite (K9 A_zres), (K8 A_zres), (K7 A_zres), V6 in Hg by discriminate. destruct Hg as [Hg|Hg]; discriminate Hg.
      - destruct (Sh eq_refl) as (_ & _ & b & ->). eexists. reflexivity. }
    destruct FIN as (oo & AF).
    assert (ALL : forall m1, m1 = (bindM E (bindM E (assign E c (SetNum A_wl (k_wl k))) (fun _ => bindM E (assign E c (SetNum A_na (k_na k))) (fun _ => bindM E (assign E c (SetNum A_ni (k_ni k))) (fun _ => bindM E (assign E c (SetNum A_res (k_res k))) (fun _ => bindM E (assign E c (SetNum A_size (k_size k))) (fun _ => bindM E (assign E c (SetNum A_zres zres)) (fun _ => bindM E (assign E c (SetNum A_zsize zsize)) (fun _ => bindM E (assign E c (SetNum A_vec_corr (k_vec_corr k))) (fun _ => assign E c (SetNum A_condition (k_condition k)))))))))))
      (fun _ => match c with Hanser => match k_zrange k with None => gen_zrange E | Some z => zrange_set E z end | Sheppard => dual_set E (k_dual k) end)) -> m1 (empty_obj E) = (Ok tt, oo)).
    { intros m1 ->. rewrite (run_seq E _ _ (empty_obj E) o9); [exact AF|].
      rewrite (run_seq E _ _ _ _ A1'), (run_seq E _ _ _ _ A2'), (run_seq E _ _ _ _ A3'), (run_seq E _ _ _ _ A4), (run_seq E _ _ _ _ A5'), (run_seq E _ _ _ _ A6), (run_seq E _ _ _ _ A7'), (run_seq E _ _ _ _ A8'). exact A9'. }
    specialize (ALL _ eq_refl). unfold zres, zsize in ALL. exists oo. rewrite ALL. reflexivity.
Qed.
Print Assumptions C82_constructor_accepts.

(** Both outcomes occur, for both classes: the default arguments are accepted; 300 nm pixels at 520 nm, NA 1.2 are not. *)
Example C82_accepted : forall E c, exists o, construct E c (kw c) = Ok o.
Proof. intros E c. eexists. apply kw_constructs. Qed.
Definition coarse : ctor := mkCtor (VInt 520) (qf 6 5) (qf 3 2) (VInt 300) (VInt 64) None None (VStr "none") (VStr "sine") None (VBool false).
Example C82_refused : forall E c, ~ exists o, construct E c coarse = Ok o.
Proof.
  intros E c H. apply (C82_constructor_accepts E c coarse 520 (6 # 5) (3 # 2) 300 300) in H; try reflexivity.
  destruct H as (_ & _ & _ & H & _). discriminate H.
Qed.
