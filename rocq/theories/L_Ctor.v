(** What a constructor leaves in the attributes. *)
From Verif Require Import M_PSF S_PSF L_PSF.
Section C.
Context (E : engine).
Local Notation obj := (obj E).
Definition stores (m : M E unit) (a : attr) (v : pyval) : Prop :=
  forall o o', m o = (Ok tt, o') -> o_attr o a = None ->
    o_attr o' a = Some v /\ forall b, b <> a -> o_attr o' b = o_attr o b.
Lemma numeric_stores a t v : stores (numeric_set E a t v) a v.
Proof.
  intros o o'. unfold numeric_set, numeric_fset, numeric_decide. intros H Hn. rewrite Hn in H. destruct (isinstance v t) eqn:Ei; cbn [negb] in H; [|discriminate].
  unfold py_lt in H. destruct (num v) as [f|] eqn:En; cbn [num bind] in H; [|discriminate]. destruct (fl_lt f _); [discriminate|].
  assert (Q : py_eq VNone v = false) by (unfold py_eq; cbn [num]; rewrite En; reflexivity). rewrite Q in H. cbn [negb] in H. injection H as <-. destruct (set_effect E a v o) as [S1 S2]. split; auto.
Qed.
Lemma base_zres_stores v : stores (base_zres_set E v) A_zres v.
Proof.
  intros o o'. unfold base_zres_set, bindM, lift. destruct (py_gt _ _) as [[|]|]; cbn [negb]; try discriminate.
  intros H _. injection H as <-. destruct (set_effect E A_zres v o) as [S1 S2]. split; auto.
Qed.
Lemma then_zrange_stores m a v : stores m a v -> stores (bindM E m (fun _ => ignore_attribute_error E (gen_zrange E))) a v.
Proof.
  intros Hm o o'. unfold bindM. destruct (m o) as [[[]|e] o1] eqn:Em; [|discriminate]. intros H Hn. destruct (Hm o o1 Em Hn) as [H1 H2]. revert H. unfold ignore_attribute_error.
  destruct (gen_zrange_cases E o1) as [(n & d & _ & _ & Hg)|[_ Hg]]; rewrite Hg; intros H; injection H as <-; cbn [o_attr]; auto.
Qed.
Lemma choice_stores a l v : stores (choice_set E a l v) a v.
Proof.
  intros o o'. unfold choice_set, bindM, lift. destruct (in_set v l) as [[|]|]; cbn [negb]; try discriminate.
  intros H _. injection H as <-. destruct (set_effect E a v o) as [S1 S2]. split; auto.
Qed.
Lemma assign_stores c a v : a <> A_dual -> stores (assign E c (SetNum a v)) a v.
Proof.
  intros Hd. destruct a; cbn [assign]; try apply numeric_stores; try apply choice_stores; try congruence.
  - intros o o'. unfold res_set, bindM, lift, getattr. destruct (o_attr o A_na); [|discriminate]. destruct (o_attr o A_wl); [|discriminate].
    destruct (fl_div _ _) as [t|]; [|discriminate]. destruct (fl_div _ t); [|discriminate]. destruct (py_ge _ _) as [[|]|]; try discriminate.
    intros H _. injection H as <-. destruct (set_effect E A_res v o) as [S1 S2]. split; auto.
  - destruct c; [apply then_zrange_stores, base_zres_stores|]. intros o o'. unfold sheppard_zres_set, bindM, lift, getattr.
    destruct (o_attr o A_wl); [|discriminate]. destruct (o_attr o A_ni); [|discriminate]. destruct (fl_div _ _); [|discriminate]. destruct (fl_div _ _); [|discriminate].
    destruct (py_ge _ _) as [[|]|]; try discriminate. apply base_zres_stores.
  - destruct c; [apply then_zrange_stores|]; apply numeric_stores.
Qed.
Definition default (d : pyval) (v : option pyval) : pyval := match v with Some w => w | None => d end.
(** what each attribute is after construction *)
Definition given (k : ctor) (a : attr) : pyval :=
  match a with
  | A_wl => k_wl k | A_na => k_na k | A_ni => k_ni k | A_res => k_res k | A_size => k_size k
  | A_zres => default (k_res k) (k_zres k) | A_zsize => default (k_size k) (k_zsize k)
  | A_vec_corr => k_vec_corr k | A_condition => k_condition k | A_dual => k_dual k
  end.
Lemma construct_stores c k o : construct E c k = Ok o ->
  forall a, (a = A_dual -> c = Sheppard) -> o_attr o a = Some (given k a).
Proof.
  unfold construct. destruct (init E c k (empty_obj E)) as [[[]|e] oo] eqn:H; [|discriminate]. intros [= <-]. unfold init, base_init in H.
  apply seq_ok in H. destruct H as (ob & Hb & Hl).
  assert (step : forall a v oa ob, assign E c (SetNum a v) oa = (Ok tt, ob) -> a <> A_dual -> o_attr oa a = None ->
            o_attr ob a = Some v /\ forall b, b <> a -> o_attr ob b = o_attr oa b).
  { intros a v oa ob' He Ha Hn. exact (assign_stores c a v Ha oa ob' He Hn). }
  apply seq_ok in Hb. destruct Hb as (o1 & S1 & Hb). apply step in S1; [|discriminate|reflexivity]. destruct S1 as [V1 K1].
  apply seq_ok in Hb. destruct Hb as (o2 & S2 & Hb). apply step in S2; [|discriminate|rewrite ?K1 by discriminate; reflexivity]. destruct S2 as [V2 K2].
  apply seq_ok in Hb. destruct Hb as (o3 & S3 & Hb). apply step in S3; [|discriminate|rewrite ?K2, ?K1 by discriminate; reflexivity]. destruct S3 as [V3 K3].
  apply seq_ok in Hb. destruct Hb as (o4 & S4 & Hb). apply step in S4; [|discriminate|rewrite ?K3, ?K2, ?K1 by discriminate; reflexivity]. destruct S4 as [V4 K4].
  apply seq_ok in Hb. destruct Hb as (o5 & S5 & Hb). apply step in S5; [|discriminate|rewrite ?K4, ?K3, ?K2, ?K1 by discriminate; reflexivity]. destruct S5 as [V5 K5].
  apply seq_ok in Hb. destruct Hb as (o6 & S6 & Hb). apply step in S6; [|discriminate|rewrite ?K5, ?K4, ?K3, ?K2, ?K1 by discriminate; reflexivity]. destruct S6 as [V6 K6].
  apply seq_ok in Hb. destruct Hb as (o7 & S7 & Hb). apply step in S7; [|discriminate|rewrite ?K6, ?K5, ?K4, ?K3, ?K2, ?K1 by discriminate; reflexivity]. destruct S7 as [V7 K7].
  apply seq_ok in Hb. destruct Hb as (o8 & S8 & Hb). apply step in S8; [|discriminate|rewrite ?K7, ?K6, ?K5, ?K4, ?K3, ?K2, ?K1 by discriminate; reflexivity]. destruct S8 as [V8 K8].
  apply step in Hb; [|discriminate|rewrite ?K8, ?K7, ?K6, ?K5, ?K4, ?K3, ?K2, ?K1 by discriminate; reflexivity]. destruct Hb as [V9 K9].
  assert (All : forall a, a <> A_dual -> o_attr ob a = Some (given k a)).
  { intros a Ha. destruct a; cbn [given]; unfold default in *; try congruence;
      repeat first [exact V1|exact V2|exact V3|exact V4|exact V5|exact V6|exact V7|exact V8|exact V9|rewrite K9 by discriminate|rewrite K8 by discriminate|rewrite K7 by discriminate|rewrite K6 by discriminate|rewrite K5 by discriminate|rewrite K4 by discriminate|rewrite K3 by discriminate|rewrite K2 by discriminate]. }
  destruct c.
  - assert (Same : forall a, o_attr oo a = o_attr ob a).
    { destruct (k_zrange k) as [z|].
      - cbn in Hl. injection Hl as <-. reflexivity.
      - destruct (gen_zrange_cases E ob) as [(n & d & _ & _ & Hg)|[_ Hg]]; rewrite Hg in Hl; [|discriminate]. injection Hl as <-. reflexivity. }
    intros a Ha. rewrite Same. apply All. intro X. specialize (Ha X). discriminate.
  - intros a _. unfold dual_set in Hl. destruct (negb _); [discriminate|]. cbn in Hl. injection Hl as <-.
    destruct (set_effect E A_dual (k_dual k) ob) as [S1 S2]. cbn in S1, S2 |- *. destruct a; try reflexivity; apply All; discriminate.
Qed.
End C.
