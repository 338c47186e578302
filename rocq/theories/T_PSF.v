(** Properties of the PSF objects (pyotf/otf.py) as state machines. *)
From Verif Require Import M_PSF S_PSF L_PSF L_Ctor.
From Coq Require Import Lqa.
Local Open Scope Z_scope.

(** ** C09: numeric properties.  The four outcomes are exhaustive and exclusive; the object type, its
    backing attribute and its change hook are arbitrary. *)
Definition negative (v : pyval) : Prop :=
  exists f, num v = Some f /\ match f with FFin q => (q < 0)%Q | FInf n => n = true | FNaN => False end.

Lemma lt_zero_negative v f : num v = Some f -> (fl_lt f (FFin (inject_Z 0)) = true <-> negative v).
Proof.
  intros Hf. unfold negative. split.
  - intros H. exists f. split; auto. destruct f as [q| |[|]]; try discriminate; auto.
    unfold fl_lt in H. cbn in H. apply andb_true_iff in H. destruct H as [H1 H2].
    apply Qle_bool_iff in H1. apply negb_true_iff in H2. apply Qnot_le_lt. intros H3.
    assert (E : (q == 0)%Q) by (apply Qle_antisym; auto).
    apply Qeq_bool_iff in E. change (inject_Z 0) with 0%Q in H2. congruence.
  - intros (g & Hg & H). rewrite Hf in Hg. injection Hg as <-. destruct f as [q| |[|]]; try discriminate; auto.
    + unfold fl_lt. cbn. change (inject_Z 0) with 0%Q. rewrite (proj2 (Qle_bool_iff q 0)) by lra.
      destruct (Qeq_bool q 0) eqn:Z; auto. apply Qeq_bool_iff in Z. lra.
Qed.

Theorem C09_numeric_property :
  forall (O : Type) (get : O -> option pyval) (put : pyval -> O -> O) (hook : O -> O)
         (t : vartype) (v : pyval) (o : O),
    (isinstance v t = false -> numeric_fset get put hook t v o = (Err TypeError, o)) /\
    (isinstance v t = true -> negative v -> numeric_fset get put hook t v o = (Err ValueError, o)) /\
    (isinstance v t = true -> ~ negative v ->
       (exists w, get o = Some w /\ py_eq w v = true) ->
       numeric_fset get put hook t v o = (Ok tt, o)) /\
    (isinstance v t = true -> ~ negative v ->
       ~ (exists w, get o = Some w /\ py_eq w v = true) ->
       numeric_fset get put hook t v o = (Ok tt, hook (put v o))).
Proof.
  intros O get put hook t v o. unfold numeric_fset, numeric_decide.
  assert (Hnum : isinstance v t = true -> exists f, num v = Some f).
  { destruct t, v; cbn; intros H; try discriminate; eauto. }
  destruct (isinstance v t) eqn:Ei; cbn [negb].
  2:{ repeat split; intros; auto; discriminate. }
  destruct (Hnum eq_refl) as [f Hf].
  unfold py_lt. rewrite Hf. change (num (VInt 0)) with (Some (FFin (inject_Z 0))). cbn [bind].
  pose proof (lt_zero_negative v f Hf) as Hneg.
  destruct (fl_lt f (FFin (inject_Z 0))) eqn:El.
  - repeat split; intros; auto; try discriminate; exfalso; tauto.
  - assert (Hn : ~ negative v). { intros Hx. apply Hneg in Hx. discriminate. }
    repeat split; intros; try discriminate; try tauto.
    + destruct H1 as (w & -> & ->). reflexivity.
    + destruct (get o) as [w|] eqn:Eg.
      * destruct (py_eq w v) eqn:Ee; [exfalso; eauto|reflexivity].
      * replace (py_eq VNone v) with false; [reflexivity|]. unfold py_eq. rewrite Hf. reflexivity.
Qed.
Print Assumptions C09_numeric_property.

(** Reading back after an accepted assignment: equal to what was assigned, unless that was NaN. *)
Theorem C09_reads_back :
  forall (O : Type) (get : O -> option pyval) (put : pyval -> O -> O) (hook : O -> O) t v o o',
    (forall w x, get (put w x) = Some w) -> (forall x, get (hook x) = get x) ->
    numeric_fset get put hook t v o = (Ok tt, o') ->
    exists w, get o' = Some w /\ (w = v \/ py_eq w v = true).
Proof.
  intros O get put hook t v o o' Hp Hh. unfold numeric_fset. destruct (numeric_decide (get o) t v) as [[|]|] eqn:Ed; intros H; try discriminate; injection H as <-.
  - exists v. rewrite Hh, Hp. auto.
  - revert Ed. unfold numeric_decide. destruct (negb (isinstance v t)); [discriminate|].
    destruct (py_lt v (VInt 0)) as [[|]|] eqn:El; cbn [bind]; try discriminate.
    intros H. injection H as H. apply negb_false_iff in H. destruct (get o) as [w|]; [eauto|].
    unfold py_lt in El. unfold py_eq in H. destruct (num v); discriminate.
Qed.
Print Assumptions C09_reads_back.

(** Zero, bools and NaN are accepted. *)
Example C09_zero_bool_nan :
  numeric_decide None TInt (VInt 0) = Ok true /\ numeric_decide (Some (VInt 1)) TInt (VBool true) = Ok false /\
  numeric_decide None TFloatInt (VFloat FNaN) = Ok true /\ numeric_decide (Some (VFloat FNaN)) TFloatInt (VFloat FNaN) = Ok true /\
  numeric_decide None TInt (VFloat (FFin 1)) = Err TypeError /\ numeric_decide None TInt (VInt (-1)) = Err ValueError.
Proof. repeat split. Qed.

(** The numeric attributes of a PSF are instances of it. *)
Theorem C09_psf_attributes : forall (E : engine) (o : obj E) v,
  let clear o := mkObj (o_attr o) (o_zrange o) (fun _ => @None (arr E)) in
  let put a v o := @mkObj E (fun b => if attr_eqb a b then Some v else o_attr o b) (o_zrange o) (o_cache o) in
  (forall c a, In a [A_wl; A_na; A_ni] ->
     assign E c (SetNum a v) o = numeric_fset (fun o => o_attr o a) (put a) clear TFloatInt v o) /\
  (forall c, assign E c (SetNum A_size v) o = numeric_fset (fun o => o_attr o A_size) (put A_size) clear TInt v o) /\
  assign E Sheppard (SetNum A_zsize v) o = numeric_fset (fun o => o_attr o A_zsize) (put A_zsize) clear TInt v o.
Proof.
  intros E o v clear put. split; [|split].
  - intros c a [<-|[<-|[<-|[]]]]; reflexivity.
  - reflexivity.
  - reflexivity.
Qed.
Print Assumptions C09_psf_attributes.

(** ** A constructor call used as a witness below. *)
Definition qf (a : Z) (b : BinNums.positive) : pyval := VFloat (FFin (a # b)).
Definition kw (c : cls) : ctor :=
  mkCtor (VInt 520) (qf 6 5) (qf 3 2) (VInt 90) (VInt 64) (Some (VInt 100)) (Some (VInt 7))
         (VStr "none") (VStr "sine") None (VBool false).
(** an engine whose arrays record how they were made *)
Inductive made := Gen (P : params) (p : option Z) | F3 (a : made) | O (P : params) | I3 (a : made) | SS (a : made) | F (a : made).
Definition toy : engine := mkEngine made Z (fun P p => Ok (Gen P p)) F3 (fun P => Ok (O P)) I3 SS F.
Definition made_of (E : engine) (c : cls) : obj E :=
  match construct E c (kw c) with Ok o => o | Err _ => empty_obj E end.
Lemma kw_constructs : forall E c, construct E c (kw c) = Ok (made_of E c).
Proof. intros E []; vm_compute; reflexivity. Qed.

(** ** C24: no stale arrays *)
Theorem C24_reads_are_fresh :
  forall (E : engine) (c : cls) (k : ctor) (o0 : obj E) (h : list (op E)) (s : slot),
    construct E c k = Ok o0 ->
    let o := run E c h o0 in
    fst (read E c s o) = scratch E c s (obj_params o) (in_force E c h o0 None).
Proof. intros. now apply reachable_reads with k. Qed.
Print Assumptions C24_reads_are_fresh.

(** Against a second object: when no pupil is in force, any object constructed with what are now the
    parameters reads the same, whatever the histories. *)
Theorem C24_same_as_new_object :
  forall (E : engine) (c : cls) (k k1 : ctor) (o0 o1 : obj E) (h : list (op E)) (s : slot),
    construct E c k = Ok o0 -> construct E c k1 = Ok o1 ->
    in_force E c h o0 None = None ->
    obj_params o1 = obj_params (run E c h o0) ->
    fst (read E c s (run E c h o0)) = fst (read E c s o1).
Proof.
  intros E c k k1 o0 o1 h s H0 H1 Hg Hp.
  rewrite (reachable_reads E c k o0 h s H0), Hg, <- Hp.
  symmetry. apply (reachable_reads E c k1 o1 [] s H1).
Qed.
Print Assumptions C24_same_as_new_object.

(** Reading is idempotent and does not disturb the other arrays. *)
Theorem C24_reads_do_not_interfere :
  forall (E : engine) (c : cls) (k : ctor) (o0 : obj E) (h : list (op E)) (s t : slot),
    construct E c k = Ok o0 ->
    fst (read E c s (run E c (h ++ [Read E t]) o0)) = fst (read E c s (run E c h o0)).
Proof.
  intros E c k o0 h s t H.
  rewrite !(reachable_reads E c k o0 _ s H).
  assert (Hr : forall h' o g, run E c (h' ++ [Read E t]) o = snd (exec E c (Read E t) (run E c h' o)) /\
             in_force E c (h' ++ [Read E t]) o g = in_force E c h' o g).
  { induction h' as [|x h' IH]; intros o g; cbn [app run in_force]; auto. }
  destruct (Hr h o0 None) as [-> ->]. f_equal. cbn [exec].
  pose proof (read_same E c t (run E c h o0)) as Hs.
  transitivity (obj_params (snd (read E c t (run E c h o0)))).
  { destruct (read E c t (run E c h o0)) as [[|]]; reflexivity. }
  now apply same_params.
Qed.
Print Assumptions C24_reads_do_not_interfere.

(** A mixed history: the wavelength changed after a read, a rejected assignment, a pupil applied and
    thrown away by a new zres. *)
Definition story : list (op toy) :=
  [Read toy PSFi; Assign toy (SetNum A_wl (VInt 600)); Assign toy (SetNum A_vec_corr (VStr "w"));
   Apply toy 5; Read toy OTFi; Assign toy (SetNum A_zres (VInt 110))].
Example C24_story : let o0 := made_of toy Hanser in construct toy Hanser (kw Hanser) = Ok o0 /\
  in_force toy Hanser story o0 None = None /\ in_force toy Hanser (firstn 5 story) o0 None = Some 5 /\
  exists P, fst (read toy Hanser OTFi (run toy Hanser story o0)) = Ok (F (SS (Gen P None))) /\
            p_wl P = Some (VInt 600) /\ p_vec_corr P = Some (VStr "none") /\ p_zres P = Some (VInt 110).
Proof.
  split; [apply kw_constructs|]. split; [vm_compute; reflexivity|]. split; [vm_compute; reflexivity|].
  eexists. split; [vm_compute; reflexivity|]. repeat split; reflexivity.
Qed.

(** ** C25: a rejected assignment changes nothing at all *)
Theorem C25_rejected_assignment_is_atomic :
  forall (E : engine) (c : cls) (s : assignment) (o : obj E) e o',
    assign E c s o = (Err e, o') -> o' = o.
Proof. intros E c s o e o'. apply assign_atomic. Qed.
Print Assumptions C25_rejected_assignment_is_atomic.

(** In a history a rejected assignment can be deleted without changing the final object. *)
Theorem C25_rejected_assignments_can_be_dropped :
  forall (E : engine) (c : cls) (h1 h2 : list (op E)) (s : assignment) (o : obj E),
    raised (fst (assign E c s (run E c h1 o))) = true ->
    run E c (h1 ++ Assign E s :: h2) o = run E c (h1 ++ h2) o.
Proof.
  intros E c h1. induction h1 as [|x h1 IH]; intros h2 s o H; cbn [app run] in *.
  - destruct (assign E c s o) as [[|e] o'] eqn:Ea; [discriminate|].
    cbn [exec]. rewrite Ea. cbn [snd]. now rewrite (assign_atomic E c s o e o' Ea).
  - now apply IH.
Qed.
Print Assumptions C25_rejected_assignments_can_be_dropped.

(** apply_pupil is not atomic: when it raises, the arrays and any pupil applied before are gone (but
    the parameters are untouched). *)
Theorem C25_failed_apply_pupil_discards :
  forall (E : engine) (p : pupil E) (o : obj E) e o',
    apply_pupil E p o = (Err e, o') ->
    (forall s, o_cache o' s = None) /\ o_attr o' = o_attr o /\ o_zrange o' = o_zrange o.
Proof.
  intros E p o e o' H. destruct (apply_cases E p o) as [(y & _ & H')|(e' & _ & H')]; rewrite H' in H; [discriminate|].
  injection H as _ <-. repeat split.
Qed.
Print Assumptions C25_failed_apply_pupil_discards.

Example C25_witness : let o0 := made_of toy Sheppard in construct toy Sheppard (kw Sheppard) = Ok o0 /\
  assign toy Sheppard (SetNum A_zres (VInt 600)) o0 = (Err ValueError, o0) /\
  assign toy Sheppard (SetNum A_dual (VInt 1)) o0 = (Err TypeError, o0).
Proof. split; [apply kw_constructs|]. split; vm_compute; reflexivity. Qed.

(** ** C26: reachable parameters are valid *)
Theorem C26_parameters_valid :
  forall (E : engine) (c : cls) (k : ctor) (o0 : obj E) (h : list (op E)) (a : attr),
    construct E c k = Ok o0 ->
    (a = A_dual -> c = Sheppard) ->
    exists v, o_attr (run E c h o0) a = Some v /\ valid_value a v.
Proof.
  intros E c k o0 h a H Ha. destruct (reachable_valid E c k o0 h H) as [Hw [Hc _]].
  destruct (o_attr (run E c h o0) a) as [v|] eqn:Ea; [exists v; split; auto|].
  exfalso. refine (Hc a _ Ea). unfold needed. destruct a, c; auto. specialize (Ha eq_refl). discriminate.
Qed.
Print Assumptions C26_parameters_valid.

(** res is tested against the wl and na of the moment. *)
Theorem C26_res_limit :
  forall (E : engine) (c : cls) (o : obj E) wl na qw qn v,
    o_attr o A_wl = Some wl -> o_attr o A_na = Some na ->
    num wl = Some (FFin qw) -> num na = Some (FFin qn) -> (0 < qw)%Q -> (0 < qn)%Q ->
    fst (assign E c (SetNum A_res v) o) =
      match num v with
      | None => Err TypeError
      | Some (FFin q) => if Qlt_le_dec q (qw / (2 * qn)) then Ok tt else Err ValueError
      | Some (FInf false) => Err ValueError
      | Some _ => Ok tt                                            (* NaN, -inf *)
      end.
Proof. intros. eapply res_accepts; eauto. Qed.
Print Assumptions C26_res_limit.

Theorem C26_sheppard_zres_limit :
  forall (E : engine) (o : obj E) wl ni qw qn v,
    o_attr o A_wl = Some wl -> o_attr o A_ni = Some ni ->
    num wl = Some (FFin qw) -> num ni = Some (FFin qn) -> (0 <= qw)%Q -> (0 < qn)%Q ->
    fst (assign E Sheppard (SetNum A_zres v) o) =
      match num v with
      | None => Err TypeError
      | Some (FFin q) => if Qlt_le_dec 0 q then (if Qlt_le_dec q (qw / (2 * qn)) then Ok tt else Err ValueError)
                         else Err ValueError
      | Some _ => Err ValueError
      end.
Proof. intros. eapply sheppard_zres_accepts; eauto. Qed.
Print Assumptions C26_sheppard_zres_limit.

(** The limits are not invariants: raising na (or lowering wl) afterwards breaks them, silently, and
    a negative res is accepted. *)
Theorem C26_limits_are_not_invariant_refuted :
  forall E : engine, exists (k : ctor) (o0 : obj E) (h : list (op E)) res wl na qr qw qn,
    construct E Hanser k = Ok o0 /\
    let o := run E Hanser h o0 in
    o_attr o A_res = Some res /\ num res = Some (FFin qr) /\
    o_attr o A_wl = Some wl /\ num wl = Some (FFin qw) /\
    o_attr o A_na = Some na /\ num na = Some (FFin qn) /\
    (0 < qn)%Q /\ (qw / (2 * qn) < qr)%Q /\
    raised (fst (assign E Hanser (SetNum A_res (VInt (-5))) o)) = false.
Proof.
  intros E. exists (kw Hanser), (made_of E Hanser), [Assign E (SetNum A_wl (VInt 100))].
  exists (VInt 90), (VInt 100), (qf 6 5), 90%Q, 100%Q, (6 # 5)%Q.
  split; [apply kw_constructs|]. cbn zeta. repeat split; vm_compute; reflexivity.
Qed.
Print Assumptions C26_limits_are_not_invariant_refuted.

(** ** C27: zrange *)
Theorem C27_zrange_history :
  forall (E : engine) (k : ctor) (o0 : obj E) (h : list (op E)),
    construct E Hanser k = Ok o0 ->
    o_zrange o0 = match k_zrange k with
                  | Some (ZScalar z) => Some [z] | Some (ZList l) => Some l
                  | None => gen_range (o_attr o0 A_zsize) (o_attr o0 A_zres)
                  end /\
    o_zrange (run E Hanser h o0) = zrange_after E h o0 (o_zrange o0).
Proof.
  intros E k o0 h H. split; [now apply construct_zrange|].
  apply run_zrange. now apply (construct_ok E Hanser k o0 H).
Qed.
Print Assumptions C27_zrange_history.

(** The generated range. *)
Theorem C27_generated_range :
  forall (n : Z) (d : pyval) (q : Q), 0 <= n -> num d = Some (FFin q) ->
    exists l, gen_range (Some (VInt n)) (Some d) = Some l /\ Z.of_nat (List.length l) = n /\
      forall i, 0 <= i < n ->
        exists z, nth_error l (Z.to_nat i) = Some (FFin z) /\ (z == inject_Z (i - (n + 1) / 2) * q)%Q.
Proof.
  intros n d q Hn Hd. unfold gen_range. eexists. split; [reflexivity|]. cbn [as_int]. split.
  - unfold zseq. rewrite !map_length, seq_length. lia.
  - intros i Hi. unfold num_or_nan. rewrite Hd. exists (inject_Z (i - (n + 1) / 2) * q)%Q. split; [|reflexivity].
    rewrite !nth_error_map. unfold zseq. rewrite nth_error_map.
      rewrite (nth_error_nth' _ 0%nat) by (rewrite seq_length; lia).
      rewrite seq_nth by lia. cbn [option_map fl_mul].
      replace (Z.of_nat (0 + Z.to_nat i)) with i by lia. reflexivity.
Qed.
Print Assumptions C27_generated_range.

(** Where it is in focus, and how far it reaches: first and last offsets in units of zres. *)
Theorem C27_focus_and_extent : forall n : Z, 1 <= n ->
  (n >= 2 -> 0 <= (n + 1) / 2 < n /\ (forall i, 0 <= i < n -> (i - (n + 1) / 2 = 0 <-> i = (n + 1) / 2))) /\
  (n = 1 -> forall i, 0 <= i < n -> i - (n + 1) / 2 = -1) /\
  (Z.odd n = true -> 0 - (n + 1) / 2 = - ((n + 1) / 2) /\ (n - 1) - (n + 1) / 2 = (n - 3) / 2 /\
                      2 * ((n + 1) / 2) = n + 1) /\
  (Z.even n = true -> 0 - (n + 1) / 2 = - (n / 2) /\ (n - 1) - (n + 1) / 2 = n / 2 - 1 /\ (n + 1) / 2 = n / 2).
Proof.
  intros n Hn. pose proof (Zmod_odd n) as Ho. pose proof (Zmod_even n) as He.
  split; [|split; [|split]].
  - intros H. split; [lia|]. intros i Hi. lia.
  - intros -> i Hi. assert (i = 0) as -> by lia. reflexivity.
  - intros H. rewrite H in Ho. lia.
  - intros H. rewrite H in He. lia.
Qed.
Print Assumptions C27_focus_and_extent.

Example C27_story : let o0 := made_of toy Hanser in construct toy Hanser (kw Hanser) = Ok o0 /\
  o_zrange (run toy Hanser [Assign toy (SetZrange (ZScalar (FFin 3))); Assign toy (SetNum A_na (qf 1 1))] o0) = Some [FFin 3] /\
  option_map (@List.length fl) (o_zrange (run toy Hanser [Assign toy (SetZrange (ZScalar (FFin 3))); Assign toy (SetNum A_zsize (VInt 7))] o0)) = Some 7%nat.
Proof. split; [apply kw_constructs|]. split; vm_compute; reflexivity. Qed.

(** ** C28: life time of a pupil *)
Lemma run_app E c h1 h2 o : run E c (h1 ++ h2) o = run E c h2 (run E c h1 o).
Proof. revert o. induction h1; intros o; cbn; auto. Qed.
Lemma in_force_app E c h1 : forall h2 o g, in_force E c (h1 ++ h2) o g = in_force E c h2 (run E c h1 o) (in_force E c h1 o g).
Proof. induction h1; intros; cbn; auto. Qed.

(** Nothing but reads, rejected assignments and assignments of an equal value to a numeric property. *)
Definition quiet (E : engine) (x : op E) (o : obj E) : Prop :=
  match x with
  | Read _ _ => True
  | Assign _ s => raised (fst (assign E Hanser s o)) = true \/
      exists a v w, s = SetNum a v /\ In a [A_wl; A_na; A_ni; A_size] /\ o_attr o a = Some w /\ py_eq w v = true
  | Apply _ _ => False
  end.
Fixpoint all_quiet (E : engine) (h : list (op E)) (o : obj E) : Prop :=
  match h with [] => True | x :: h' => quiet E x o /\ all_quiet E h' (snd (exec E Hanser x o)) end.

Theorem C28_pupil_stays :
  forall (E : engine) (k : ctor) (o0 : obj E) (h1 h2 : list (op E)) (p : pupil E) (s : slot),
    construct E Hanser k = Ok o0 ->
    raised (fst (exec E Hanser (Apply E p) (run E Hanser h1 o0))) = false ->
    all_quiet E h2 (run E Hanser (h1 ++ [Apply E p]) o0) ->
    fst (read E Hanser s (run E Hanser (h1 ++ [Apply E p] ++ h2) o0)) =
      scratch E Hanser s (obj_params (run E Hanser (h1 ++ [Apply E p] ++ h2) o0)) (Some p).
Proof.
  intros E k o0 h1 h2 p s H0 Ha Hq. rewrite (reachable_reads E Hanser k o0 _ s H0). f_equal.
  rewrite in_force_app. cbn [app in_force in_force_step]. rewrite Ha. clear Ha.
  rewrite run_app in Hq. cbn [run] in Hq. revert Hq.
  generalize (snd (exec E Hanser (Apply E p) (run E Hanser h1 o0))). clear.
  induction h2 as [|x h2 IH]; intros o Hq; cbn [in_force]; auto.
  destruct Hq as [Hx Hq]. destruct x as [t|t|q]; cbn [quiet in_force_step] in *; [| |contradiction].
  - destruct Hx as [Hx|(a & v & w & -> & Hin & Hw & He)].
    + cbn [exec]. rewrite Hx. cbn [negb andb]. now apply IH.
    + assert (Hd : changes E Hanser (SetNum a v) o = false).
      { destruct Hin as [<-|[<-|[<-|[<-|[]]]]]; unfold changes, differs; rewrite Hw, He; reflexivity. }
      rewrite Hd, andb_false_r. now apply IH.
  - now apply IH.
Qed.
Print Assumptions C28_pupil_stays.

(** An accepted assignment of zsize, zres, zrange, res, vec_corr or condition, or of a new value to
    wl, na, ni or size, restores the ideal pupil. *)
Definition effective (E : engine) (s : assignment) (o : obj E) : Prop :=
  raised (fst (assign E Hanser s o)) = false /\
  match s with
  | SetZrange _ => True
  | SetNum (A_zsize | A_zres | A_res | A_vec_corr | A_condition) _ => True
  | SetNum A_dual _ => False
  | SetNum a v => match o_attr o a with Some w => py_eq w v = false | None => True end
  end.
Theorem C28_change_discards_pupil :
  forall (E : engine) (k : ctor) (o0 : obj E) (h : list (op E)) (a : assignment) (s : slot),
    construct E Hanser k = Ok o0 ->
    effective E a (run E Hanser h o0) ->
    let o := run E Hanser (h ++ [Assign E a]) o0 in
    fst (read E Hanser s o) = scratch E Hanser s (obj_params o) None.
Proof.
  intros E k o0 h a s H0 [Hr He]. cbn zeta. rewrite (reachable_reads E Hanser k o0 _ s H0). f_equal.
  rewrite in_force_app. cbn [in_force in_force_step exec]. rewrite Hr. cbn [negb andb].
  assert (Hc : changes E Hanser a (run E Hanser h o0) = true); [|now rewrite Hc].
  destruct a as [a v|z]; [|reflexivity].
  destruct a; cbn [changes]; unfold differs; auto; try contradiction;
    match goal with |- match ?x with _ => _ end = _ => destruct x as [w|]; auto end; now rewrite He.
Qed.
Print Assumptions C28_change_discards_pupil.

Example C28_witness : let o0 := made_of toy Hanser in construct toy Hanser (kw Hanser) = Ok o0 /\
  all_quiet toy [Read toy PSFi; Assign toy (SetNum A_wl (VFloat (FFin 520))); Assign toy (SetNum A_zres (VInt 0))]
     (run toy Hanser ([] ++ [Apply toy 3]) o0) /\
  effective toy (SetNum A_zsize (VInt 7)) (run toy Hanser [Apply toy 3] o0).
Proof.
  split; [apply kw_constructs|]. split; [|split; [vm_compute; reflexivity|exact I]].
  cbn [all_quiet quiet]. split; auto. split.
  - right. exists A_wl, (VFloat (FFin 520)), (VInt 520). repeat split; auto; vm_compute; auto.
  - split; auto.
Qed.

(** ** C74: a new object's attributes are the arguments it was made from; an omitted zres is res, an omitted zsize is size. *)
Theorem C74_constructor_arguments :
  forall (E : engine) (c : cls) (k : ctor) (o : obj E),
    construct E c k = Ok o ->
    o_attr o A_wl = Some (k_wl k) /\ o_attr o A_na = Some (k_na k) /\ o_attr o A_ni = Some (k_ni k) /\
    o_attr o A_res = Some (k_res k) /\ o_attr o A_size = Some (k_size k) /\
    o_attr o A_zres = Some (match k_zres k with Some v => v | None => k_res k end) /\
    o_attr o A_zsize = Some (match k_zsize k with Some v => v | None => k_size k end) /\
    o_attr o A_vec_corr = Some (k_vec_corr k) /\ o_attr o A_condition = Some (k_condition k) /\
    (c = Sheppard -> o_attr o A_dual = Some (k_dual k)) /\
    (c = Hanser -> o_zrange o = (match k_zrange k with
       | Some (ZScalar z) => Some [z] | Some (ZList l) => Some l
       | None => gen_range (o_attr o A_zsize) (o_attr o A_zres) end)).
Proof.
  intros E c k o H. pose proof (construct_stores E c k o H) as S.
  rewrite (S A_wl), (S A_na), (S A_ni), (S A_res), (S A_size), (S A_zres), (S A_zsize), (S A_vec_corr), (S A_condition) by discriminate.
  repeat (split; [reflexivity|]). split; [intros ->; now apply S|]. intros ->. rewrite <- (S A_zsize), <- (S A_zres) by discriminate. now apply construct_zrange.
Qed.
Print Assumptions C74_constructor_arguments.
Definition kw0 : ctor :=
  mkCtor (VInt 520) (qf 6 5) (qf 3 2) (VInt 90) (VInt 64) None None (VStr "none") (VStr "sine") None (VBool false).
Example C74_witness : exists o, construct toy Hanser kw0 = Ok o /\ o_attr o A_zres = Some (VInt 90) /\ o_attr o A_zsize = Some (VInt 64).
Proof. eexists. split; [vm_compute; reflexivity|]. split; vm_compute; reflexivity. Qed.
