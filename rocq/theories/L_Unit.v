(** Objects whose parameters are measured in other units behave alike (used by T_Unit.v). *)
From Coq Require Import FunctionalExtensionality.
From Verif Require Import S_Unit S_PSF S_Hanser L_PSF T_PSF T_Object T_Scale.
Import M_Array.
Local Open Scope R_scope.

(** ** Numbers *)
Section Fl.
Context (q : Q) (Hq : (0 < q)%Q).
Lemma q_ne : ~ (q == 0)%Q. Proof. intros H. rewrite H in Hq. now apply Qlt_irrefl in Hq. Qed.
Lemma fl_le_times x x' y y' : ftimes q x x' -> ftimes q y y' -> fl_le x' y' = fl_le x y.
Proof.
  destruct x as [x| |s], x' as [x'| |s'], y as [y| |t], y' as [y'| |t']; cbn; try contradiction; try (intros; subst; reflexivity); intros E1 E2; try (subst; reflexivity).
  apply eq_true_iff_eq. rewrite !Qle_bool_iff, E1, E2. now rewrite Qmult_le_l.
Qed.
Lemma fl_eq_times x x' y y' : ftimes q x x' -> ftimes q y y' -> fl_eq x' y' = fl_eq x y.
Proof.
  destruct x as [x| |s], x' as [x'| |s'], y as [y| |t], y' as [y'| |t']; cbn; try contradiction; try (intros; subst; reflexivity); intros E1 E2; try (subst; reflexivity).
  apply eq_true_iff_eq. rewrite !Qeq_bool_iff, E1, E2. split; [|intros ->; reflexivity]. intros H. apply (Qmult_inj_l x y q) in H; auto using q_ne.
Qed.
Lemma fl_lt_times x x' y y' : ftimes q x x' -> ftimes q y y' -> fl_lt x' y' = fl_lt x y.
Proof. intros H1 H2. unfold fl_lt. now rewrite (fl_le_times x x' y y'), (fl_eq_times x x' y y'). Qed.
Lemma fl_zero_times x x' : ftimes q x x' -> fl_zero x' = fl_zero x.
Proof.
  destruct x as [x| |s], x' as [x'| |s']; cbn; try contradiction; auto. intros E. apply eq_true_iff_eq. rewrite !Qeq_bool_iff, E. split; [|intros ->; ring]. intros H. apply Qmult_integral in H. destruct H as [H|H]; [elim (q_ne H)|auto].
Qed.
Lemma fl_neg_times x x' : ftimes q x x' -> fl_neg x' = fl_neg x.
Proof.
  destruct x as [x| |s], x' as [x'| |s']; cbn; try contradiction; auto. intros E. f_equal. apply eq_true_iff_eq. rewrite !Qle_bool_iff, E. rewrite <- (Qmult_0_r q) at 1. now rewrite Qmult_le_l.
Qed.
Lemma fl_R_times x x' : ftimes q x x' -> fl_R x' = Q2R q * fl_R x.
Proof.
  destruct x as [x| |s], x' as [x'| |s']; cbn; try contradiction; intros E; try ring. rewrite (Qeq_eqR _ _ E). apply Q2R_mult.
Qed.
Lemma zero_times : ftimes q (FFin 0) (FFin 0). Proof. cbn. ring. Qed.
End Fl.
Lemma fl_mul_times q r x x' y y' : (0 < q)%Q -> (0 < r)%Q -> ftimes q x x' -> ftimes r y y' -> ftimes (q * r) (fl_mul x y) (fl_mul x' y').
Proof.
  intros Hq Hr H1 H2. pose proof (fl_zero_times q Hq _ _ H1) as Z1. pose proof (fl_zero_times r Hr _ _ H2) as Z2. pose proof (fl_neg_times q Hq _ _ H1) as N1. pose proof (fl_neg_times r Hr _ _ H2) as N2.
  destruct x as [x| |s], x' as [x'| |s'], y as [y| |t], y' as [y'| |t']; cbn [ftimes] in H1, H2; try contradiction; try exact I; unfold fl_mul;
  try (rewrite Z1, Z2, N1, N2; destruct (orb _ _); cbn; auto; fail).
  cbn. rewrite H1, H2. ring.
Qed.
Lemma fl_div_times q r x x' y y' : (0 < q)%Q -> (0 < r)%Q -> ftimes q x x' -> ftimes r y y' ->
  match fl_div x y, fl_div x' y' with Ok z, Ok z' => ftimes (q / r) z z' | Err e, Err e' => e' = e | _, _ => False end.
Proof.
  intros Hq Hr H1 H2. pose proof (fl_zero_times r Hr _ _ H2) as Z2. pose proof (fl_neg_times r Hr _ _ H2) as N2. unfold fl_div. rewrite Z2. destruct (fl_zero y) eqn:Z; [reflexivity|].
  destruct x as [x| |s], x' as [x'| |s'], y as [y| |t], y' as [y'| |t']; cbn [ftimes] in H1, H2; try contradiction; try exact I; cbn [ftimes]; try (rewrite N2; congruence); try (subst; reflexivity); try ring.
  rewrite H1, H2. cbn in Z. assert (~ (y == 0)%Q) by (intros E; apply Qeq_bool_iff in E; congruence). pose proof (q_ne r Hr). field. auto.
Qed.
Lemma ftimes_ext q r x x' : (q == r)%Q -> ftimes q x x' -> ftimes r x x'.
Proof. intros E. destruct x, x'; cbn; auto. now rewrite E. Qed.
Lemma ftimes_one x : ftimes 1 x x.
Proof. destruct x; cbn; auto. ring. Qed.

(** ** Values *)
Section Val.
Context (q : Q) (Hq : (0 < q)%Q).
Lemma times_num v v' : times q v v' -> ftimes q (num_or_nan v) (num_or_nan v').
Proof. unfold times, num_or_nan. destruct (M_Val.num v), (M_Val.num v'); cbn; try contradiction; auto. Qed.
Lemma times_isnum v v' : times q v v' -> isinstance v' TFloatInt = isinstance v TFloatInt.
Proof. unfold times. destruct v, v'; cbn; try contradiction; try reflexivity; discriminate. Qed.
Lemma times_lt v v' w w' : times q v v' -> times q w w' -> py_lt v' w' = py_lt v w.
Proof.
  unfold times, py_lt. intros H1 H2. destruct (M_Val.num v) as [x|], (M_Val.num v') as [x'|]; try contradiction; destruct (M_Val.num w) as [y|], (M_Val.num w') as [y'|]; try contradiction; auto. now rewrite (fl_lt_times q Hq x x' y y').
Qed.
Lemma times_ge v v' w w' : times q v v' -> times q w w' -> py_ge v' w' = py_ge v w.
Proof.
  unfold times, py_ge. intros H1 H2. destruct (M_Val.num v) as [x|], (M_Val.num v') as [x'|]; try contradiction; destruct (M_Val.num w) as [y|], (M_Val.num w') as [y'|]; try contradiction; auto. now rewrite (fl_le_times q Hq y y' x x').
Qed.
Lemma times_eq v v' w w' : times q v v' -> times q w w' -> py_eq v' w' = py_eq v w.
Proof.
  unfold times, py_eq. intros H1 H2. destruct (M_Val.num v) as [x|] eqn:V, (M_Val.num v') as [x'|] eqn:V'; try contradiction; destruct (M_Val.num w) as [y|] eqn:W, (M_Val.num w') as [y'|] eqn:W'; try contradiction; subst; auto. now rewrite (fl_eq_times q Hq x x' y y').
Qed.
Lemma times_zero : times q (VInt 0) (VInt 0). Proof. cbn. ring. Qed.
Lemma times_none : times q VNone VNone. Proof. reflexivity. Qed.
Lemma times_R v v' : times q v v' -> fl_R (num_or_nan v') = Q2R q * fl_R (num_or_nan v).
Proof. intros H. apply fl_R_times. now apply times_num. Qed.
Lemma times_asR v v' : times q v v' -> match as_R v, as_R v' with Ok x, Ok x' => x' = Q2R q * x | Err e, Err e' => e' = e | _, _ => False end.
Proof. unfold times, as_R. destruct (M_Val.num v), (M_Val.num v'); auto. intros H. now apply fl_R_times. Qed.
Lemma times_notnone v v' : times q v v' -> match not_none v, not_none v' with Some w, Some w' => w = v /\ w' = v' | None, None => True | _, _ => False end.
Proof. unfold times. destruct v, v'; cbn; try contradiction; try discriminate; auto. Qed.
End Val.

(** outcomes *)
Definition rrel {A B} (P : A -> B -> Prop) (r : res A) (r' : res B) : Prop :=
  match r, r' with Ok x, Ok x' => P x x' | Err e, Err e' => e' = e | _, _ => False end.
Lemma rrel_bind {A B A' B'} (P : A -> A' -> Prop) (Q : B -> B' -> Prop) r r' f f' : rrel P r r' -> (forall x x', P x x' -> rrel Q (f x) (f' x')) -> rrel Q (bind r f) (bind r' f').
Proof. destruct r, r'; cbn; try contradiction; auto. Qed.
Lemma rrel_eq {A} (r r' : res A) : rrel (fun x x' => x' = x) r r' <-> r' = r.
Proof. split; [|intros ->; destruct r; cbn; auto]. destruct r, r'; cbn; try contradiction; congruence. Qed.
Lemma rrel_refl {A} (r : res A) : rrel (fun x x' => x' = x) r r.
Proof. now apply rrel_eq. Qed.

Lemma Q2R_pos q : (0 < q)%Q -> 0 < Q2R q.
Proof. intros H. replace 0 with (Q2R 0) by (unfold Q2R; cbn; lra). now apply Qlt_Rlt. Qed.
Section Units.
Context (al be : Q) (Hal : (0 < al)%Q) (Hbe : (0 < be)%Q).
Let Hab : (0 < al * be)%Q := Qmult_lt_0_compat al be Hal Hbe.
Let Ral : 0 < Q2R al := Q2R_pos al Hal.
Let Rbe : 0 < Q2R be := Q2R_pos be Hbe.

(** ** PSF objects *)
(** the factor of each attribute *)
Definition afactor (a : attr) : option Q :=
  match a with A_wl => Some (al * be)%Q | A_na | A_ni => Some be | A_res | A_zres => Some al | _ => None end.
Definition vrel (u : option Q) (v v' : pyval) : Prop := match u with Some q => times q v v' | None => v' = v end.
Definition orel (u : option Q) (v v' : option pyval) : Prop := match v, v' with Some w, Some w' => vrel u w w' | None, None => True | _, _ => False end.
Definition zrel (z z' : option (list fl)) : Prop := match z, z' with Some l, Some l' => Forall2 (ftimes al) l l' | None, None => True | _, _ => False end.
Record osim (o o' : obj numeric) : Prop := mkOsim {
  os_attr : forall a, orel (afactor a) (o_attr o a) (o_attr o' a);
  os_z : zrel (o_zrange o) (o_zrange o');
  os_cache : forall s, o_cache o' s = o_cache o s }.
Lemma apos a q : afactor a = Some q -> (0 < q)%Q.
Proof. destruct a; cbn; intros [= <-]; auto. Qed.
Definition csim {A} (P : A -> A -> Prop) (c c' : M numeric A) : Prop := forall o o', osim o o' -> rrel P (fst (c o)) (fst (c' o')) /\ osim (snd (c o)) (snd (c' o')).
Definition same {A} : A -> A -> Prop := fun x x' => x' = x.
Lemma csim_bind {A B} (P : A -> A -> Prop) (Q : B -> B -> Prop) c c' f f' : csim P c c' -> (forall x x', P x x' -> csim Q (f x) (f' x')) -> csim Q (bindM numeric c f) (bindM numeric c' f').
Proof.
  intros H1 H2 o o' Ho. destruct (H1 o o' Ho) as [R S]. unfold bindM. destruct (c o) as [[x|e] o1], (c' o') as [[x'|e'] o1']; cbn in R |- *; try contradiction; cbn in S; [|auto]. now apply H2.
Qed.
Lemma csim_lift {A} (P : A -> A -> Prop) r r' : rrel P r r' -> csim P (lift numeric r) (lift numeric r').
Proof. intros H o o' Ho. cbn. auto. Qed.
Lemma csim_ret {A} (P : A -> A -> Prop) x x' : P x x' -> csim P (ret numeric x) (ret numeric x').
Proof. intros H o o' Ho. cbn. auto. Qed.
Lemma csim_raise {A} (P : A -> A -> Prop) e : csim P (raise numeric e) (raise numeric e).
Proof. intros o o' Ho. cbn. auto. Qed.
Lemma csim_get a : csim (vrel (afactor a)) (getattr numeric a) (getattr numeric a).
Proof.
  intros o o' Ho. pose proof (os_attr _ _ Ho a) as H. unfold getattr. destruct (o_attr o a), (o_attr o' a); cbn in H; try contradiction; cbn; auto.
Qed.
Lemma csim_changed : csim same (attribute_changed numeric) (attribute_changed numeric).
Proof. intros o o' [H1 H2 H3]. cbn. split; [reflexivity|]. constructor; cbn; auto. Qed.
Lemma csim_setattr a v v' : vrel (afactor a) v v' -> csim same (setattr numeric a v) (setattr numeric a v').
Proof.
  intros Hv o o' [H1 H2 H3]. cbn. split; [reflexivity|]. constructor; cbn; auto. intros b. destruct (attr_eqb a b) eqn:E; [|apply H1]. assert (a = b) as <- by (destruct a, b; cbn in E; congruence). exact Hv.
Qed.
Lemma csim_cache s x : csim same (set_cache numeric s x) (set_cache numeric s x).
Proof. intros o o' [H1 H2 H3]. cbn. split; [reflexivity|]. constructor; cbn; auto. intros t. destruct (slot_eqb s t); auto. Qed.
Lemma csim_seq {B} (Q : B -> B -> Prop) c c' f f' : csim (@same unit) c c' -> csim Q f f' -> csim Q (bindM numeric c (fun _ => f)) (bindM numeric c' (fun _ => f')).
Proof. intros H1 H2. apply (csim_bind same); auto. Qed.
Lemma csim_numeric a t v v' : vrel (afactor a) v v' -> isinstance v' t = isinstance v t -> csim same (numeric_set numeric a t v) (numeric_set numeric a t v').
Proof.
  intros Hv Ht o o' Ho. unfold numeric_set, numeric_fset.
  assert (E : numeric_decide (o_attr o' a) t v' = numeric_decide (o_attr o a) t v).
  { unfold numeric_decide. rewrite Ht. destruct (negb _); [reflexivity|]. pose proof (os_attr _ _ Ho a) as Ha. unfold vrel in Hv. destruct (afactor a) as [q|] eqn:F.
    - pose proof (apos _ _ F) as Hq. rewrite (times_lt q Hq v v' (VInt 0) (VInt 0) Hv (times_zero q)). destruct (py_lt v (VInt 0)) as [[|]|]; cbn [bind]; auto. do 2 f_equal.
      destruct (o_attr o a) as [w|], (o_attr o' a) as [w'|]; cbn in Ha; try contradiction; apply (times_eq q Hq); auto using times_none.
    - subst v'. destruct (py_lt v (VInt 0)) as [[|]|]; cbn [bind]; auto. do 3 f_equal. destruct (o_attr o a) as [w|], (o_attr o' a) as [w'|]; cbn in Ha; try contradiction; auto. }
  rewrite E. destruct (numeric_decide (o_attr o a) t v) as [[|]|e]; cbn [fst snd]; try (split; [reflexivity|exact Ho]).
  destruct (csim_setattr a v v' Hv o o' Ho) as [_ S1]. destruct (csim_changed _ _ S1) as [_ S2]. split; [reflexivity|exact S2].
Qed.
Lemma csim_base_zres v v' : times al v v' -> csim same (base_zres_set numeric v) (base_zres_set numeric v').
Proof.
  intros Hv. unfold base_zres_set. apply (csim_bind same).
  - apply csim_lift. unfold py_gt. rewrite (times_lt al Hal (VInt 0) (VInt 0) v v' (times_zero al) Hv). apply rrel_refl.
  - intros b b' ->. destruct (negb b); [apply csim_raise|]. apply csim_seq; [now apply csim_setattr|apply csim_changed].
Qed.
Lemma csim_res v v' : times al v v' -> csim same (res_set numeric v) (res_set numeric v').
Proof.
  intros Hv. unfold res_set. apply (csim_bind _ _ _ _ _ _ (csim_get A_na)). intros na na' Hna. apply (csim_bind _ _ _ _ _ _ (csim_get A_wl)). intros wl wl' Hwl. cbn [afactor vrel] in Hna, Hwl.
  apply times_num in Hna. apply times_num in Hwl. 
  assert (D : rrel (ftimes (be / (al * be))) (fl_div (fl_mul (FFin 2) (num_or_nan na)) (num_or_nan wl)) (fl_div (fl_mul (FFin 2) (num_or_nan na')) (num_or_nan wl'))).
  { apply fl_div_times; auto. apply (ftimes_ext (1 * be)); [ring|]. apply fl_mul_times; auto using ftimes_one. reflexivity. }
  apply (csim_bind _ _ _ _ _ _ (csim_lift _ _ _ D)). intros t t' Ht.
  assert (Hr : (0 < be / (al * be))%Q) by (apply Qlt_shift_div_l; auto; now rewrite Qmult_0_l).
  assert (D2 : rrel (ftimes (1 / (be / (al * be)))) (fl_div (FFin 1) t) (fl_div (FFin 1) t')) by (apply fl_div_times; auto using ftimes_one; reflexivity).
  apply (csim_bind _ _ _ _ _ _ (csim_lift _ _ _ D2)). intros ab ab' Hb. apply (ftimes_ext _ al) in Hb; [|pose proof (q_ne al Hal); pose proof (q_ne be Hbe); field; auto].
  apply (csim_bind same); [apply csim_lift; rewrite (times_ge al Hal v v' (VFloat ab) (VFloat ab') Hv Hb); apply rrel_refl|]. intros b b' ->. destruct b; [apply csim_raise|]. apply csim_seq; [now apply csim_setattr|apply csim_changed].
Qed.
Lemma csim_choice a valid v : afactor a = None -> csim same (choice_set numeric a valid v) (choice_set numeric a valid v).
Proof.
  intros Ha. unfold choice_set. apply (csim_bind same); [apply csim_lift, rrel_refl|]. intros b b' ->. destruct (negb b); [apply csim_raise|]. apply csim_seq; [|apply csim_changed]. apply csim_setattr. now rewrite Ha.
Qed.
Lemma csim_zrange z z' : ztimes al z z' -> csim same (zrange_set numeric z) (zrange_set numeric z').
Proof.
  intros Hz. unfold zrange_set. apply csim_seq; [|apply csim_changed]. intros o o' [H1 H2 H3]. cbn. split; [reflexivity|]. constructor; cbn; auto. destruct z, z'; cbn in Hz |- *; try contradiction; auto.
Qed.
Lemma Forall2_map_same {A B D} (P : B -> D -> Prop) (f : A -> B) (g : A -> D) l : (forall x, P (f x) (g x)) -> Forall2 P (map f l) (map g l).
Proof. intros H. induction l; cbn; constructor; auto. Qed.
Lemma csim_gen_zrange : csim same (gen_zrange numeric) (gen_zrange numeric).
Proof.
  unfold gen_zrange. apply (csim_bind _ _ _ _ _ _ (csim_get A_zsize)). intros n n' Hn. cbn in Hn. subst n'. apply (csim_bind _ _ _ _ _ _ (csim_get A_zres)). intros r r' Hr. cbn in Hr. apply csim_zrange. cbn [ztimes]. apply Forall2_map_same.
  intros i. apply (ftimes_ext (1 * al)); [ring|]. apply fl_mul_times; auto using ftimes_one; [reflexivity|]. now apply times_num.
Qed.
Lemma csim_ignore c : csim same c c -> csim same (ignore_attribute_error numeric c) (ignore_attribute_error numeric c).
Proof.
  intros H o o' Ho. destruct (H o o' Ho) as [R S]. unfold ignore_attribute_error. destruct (c o) as [[x|e] o1], (c o') as [[x'|e'] o1']; cbn in R; try contradiction; cbn in S; [split; auto|]. subst e'. destruct e; cbn; split; auto; reflexivity.
Qed.
(** assignments in other units *)
Definition asg_units (s s' : assignment) : Prop :=
  match s, s' with
  | SetNum a v, SetNum a' v' => a' = a /\ vrel (afactor a) v v'
  | SetZrange z, SetZrange z' => ztimes al z z'
  | _, _ => False
  end.
Lemma csim_assign c s s' : asg_units s s' -> csim same (assign numeric c s) (assign numeric c s').
Proof.
  destruct s as [a v|z], s' as [a' v'|z']; cbn; try contradiction; [intros [-> Hv]|intros Hz; destruct c; [now apply csim_zrange|now apply csim_ret]].
  destruct a; cbn [assign]; cbn in Hv.
  - apply csim_numeric; [exact Hv|]. apply (times_isnum _ _ _ Hv).
  - apply csim_numeric; [exact Hv|]. apply (times_isnum _ _ _ Hv).
  - apply csim_numeric; [exact Hv|]. apply (times_isnum _ _ _ Hv).
  - now apply csim_res.
  - subst v'. now apply csim_numeric.
  - destruct c; [unfold hanser_zres_set; apply csim_seq; [now apply csim_base_zres|apply csim_ignore, csim_gen_zrange]|].
    unfold sheppard_zres_set. apply (csim_bind _ _ _ _ _ _ (csim_get A_wl)). intros wl wl' Hwl. apply (csim_bind _ _ _ _ _ _ (csim_get A_ni)). intros ni ni' Hni. cbn in Hwl, Hni. apply times_num in Hwl. apply times_num in Hni.
    assert (D : rrel (ftimes (al * be / 1)) (fl_div (num_or_nan wl) (FFin 2)) (fl_div (num_or_nan wl') (FFin 2))) by (apply fl_div_times; auto using ftimes_one; reflexivity).
    apply (csim_bind _ _ _ _ _ _ (csim_lift _ _ _ D)). intros t t' Ht. apply (ftimes_ext _ (al * be)) in Ht; [|field].
    assert (D2 : rrel (ftimes (al * be / be)) (fl_div t (num_or_nan ni)) (fl_div t' (num_or_nan ni'))) by (apply fl_div_times; auto).
    apply (csim_bind _ _ _ _ _ _ (csim_lift _ _ _ D2)). intros m m' Hm. apply (ftimes_ext _ al) in Hm; [|pose proof (q_ne be Hbe); field; auto].
    apply (csim_bind same); [apply csim_lift; rewrite (times_ge al Hal v v' (VFloat m) (VFloat m') Hv Hm); apply rrel_refl|]. intros b b' ->. destruct b; [apply csim_raise|now apply csim_base_zres].
  - subst v'. destruct c; [unfold hanser_zsize_set; apply csim_seq; [now apply csim_numeric|apply csim_ignore, csim_gen_zrange]|now apply csim_numeric].
  - subst v'. now apply csim_choice.
  - subst v'. now apply csim_choice.
  - subst v'. destruct c; [now apply csim_ret|]. unfold dual_set. destruct (negb _); [apply csim_raise|]. apply csim_seq; [now apply csim_setattr|apply csim_changed].
Qed.

(** ** Constructors *)
Definition optrel (u : option Q) (v v' : option pyval) : Prop := orel u v v'.
Record ctor_units (k k' : ctor) : Prop := mkCU {
  cu_wl : times (al * be) (k_wl k) (k_wl k'); cu_na : times be (k_na k) (k_na k'); cu_ni : times be (k_ni k) (k_ni k'); cu_res : times al (k_res k) (k_res k');
  cu_size : k_size k' = k_size k; cu_zres : orel (Some al) (k_zres k) (k_zres k'); cu_zsize : k_zsize k' = k_zsize k; cu_vec : k_vec_corr k' = k_vec_corr k; cu_cond : k_condition k' = k_condition k;
  cu_z : match k_zrange k, k_zrange k' with Some z, Some z' => ztimes al z z' | None, None => True | _, _ => False end; cu_dual : k_dual k' = k_dual k }.
Lemma construct_units c k k' : ctor_units k k' -> rrel osim (construct numeric c k) (construct numeric c k').
Proof.
  intros [U1 U2 U3 U4 U5 U6 U7 U8 U9 U10 U11].
  assert (I : csim same (init numeric c k) (init numeric c k')).
  { unfold init, base_init. apply csim_seq.
    - apply csim_seq; [apply csim_assign; split; [reflexivity|exact U1]|]. apply csim_seq; [apply csim_assign; split; [reflexivity|exact U2]|]. apply csim_seq; [apply csim_assign; split; [reflexivity|exact U3]|]. apply csim_seq; [apply csim_assign; split; [reflexivity|exact U4]|].
      apply csim_seq; [apply csim_assign; split; [reflexivity|exact U5]|]. apply csim_seq; [apply csim_assign; split; [reflexivity|]; destruct (k_zres k), (k_zres k'); cbn in U6; try contradiction; assumption|].
      apply csim_seq; [apply csim_assign; split; [reflexivity|]; rewrite U7, U5; reflexivity|]. apply csim_seq; [apply csim_assign; split; [reflexivity|exact U8]|]. apply csim_assign; split; [reflexivity|exact U9].
    - destruct c; [destruct (k_zrange k), (k_zrange k'); try contradiction; [now apply csim_zrange|apply csim_gen_zrange]|]. rewrite U11. unfold dual_set. destruct (negb _); [apply csim_raise|]. apply csim_seq; [now apply csim_setattr|apply csim_changed]. }
  unfold construct. destruct (I (empty_obj numeric) (empty_obj numeric)) as [R S]; [constructor; cbn; auto; intros; exact Logic.I|]. destruct (init numeric c k _) as [[u|e] o], (init numeric c k' _) as [[u'|e'] o']; cbn in R |- *; try contradiction; auto.
Qed.

(** ** Reading *)
Lemma valR_units u v v' q : u = Some q -> orel u v v' -> val_R v' = Q2R q * val_R v.
Proof. intros ->. destruct v, v'; cbn; try contradiction; [apply times_R|intros _; ring]. Qed.
Lemma set_units u v v' : orel u v v' -> (match v' with Some _ => true | None => false end) = (match v with Some _ => true | None => false end).
Proof. destruct v, v'; cbn; try contradiction; auto. Qed.
Lemma same_units v v' : orel None v v' -> v' = v.
Proof. destruct v, v'; cbn; try contradiction; auto. now intros ->. Qed.
Lemma params_units o o' : osim o o' -> h_ready (obj_params o') = h_ready (obj_params o) /\ s_ready (obj_params o') = s_ready (obj_params o) /\
  rescaled (Q2R al) (Q2R be) (hpar_of (obj_params o)) (hpar_of (obj_params o')) /\ s_rescaled (Q2R al) (Q2R be) (spar_of (obj_params o)) (spar_of (obj_params o')).
Proof.
  intros [A Z _]. pose proof (A A_wl) as A1. pose proof (A A_na) as A2. pose proof (A A_ni) as A3. pose proof (A A_res) as A4. pose proof (A A_size) as A5. pose proof (A A_zres) as A6. pose proof (A A_zsize) as A7. pose proof (A A_vec_corr) as A8. pose proof (A A_condition) as A9. pose proof (A A_dual) as A10.
  cbn [afactor] in *. unfold h_ready, s_ready, all_set, hpar_of, spar_of, rescaled, s_rescaled, obj_params.
  cbn [forallb p_wl p_na p_ni p_res p_size p_zres p_zsize p_vec_corr p_condition p_dual p_zrange h_wl h_na h_ni h_res h_size h_zrange h_vec h_cond s_wl s_na s_ni s_res s_size s_zres s_zsize s_vec s_cond s_dual].
  rewrite (set_units _ _ _ A1), (set_units _ _ _ A2), (set_units _ _ _ A3), (set_units _ _ _ A4), (set_units _ _ _ A6).
  rewrite (same_units _ _ A5), (same_units _ _ A7), (same_units _ _ A8), (same_units _ _ A9), (same_units _ _ A10).
  rewrite (valR_units _ _ _ _ eq_refl A1), (valR_units _ _ _ _ eq_refl A2), (valR_units _ _ _ _ eq_refl A3), (valR_units _ _ _ _ eq_refl A4), (valR_units _ _ _ _ eq_refl A6). rewrite Q2R_mult.
  split; [f_equal; destruct (o_zrange o), (o_zrange o'); cbn in Z; try contradiction; auto|]. split; [reflexivity|].
  split; [|repeat split]. repeat split. destruct (o_zrange o) as [l|], (o_zrange o') as [l'|]; cbn in Z; try contradiction; auto. induction Z as [|x x' l l' F Z IH]; cbn; auto. f_equal; auto. now apply fl_R_times.
Qed.
Lemma csim_gen_psf p : csim same (M_PSF.gen_psf numeric p) (M_PSF.gen_psf numeric p).
Proof.
  unfold M_PSF.gen_psf. apply csim_seq; [apply csim_changed|]. intros o o' Ho. split; [|exact Ho]. cbn [fst]. destruct (params_units o o' Ho) as (E1 & _ & E3 & _). apply rrel_eq. cbn [numeric e_gen_psf]. now rewrite E1, (C85_hanser _ _ _ _ p Ral Rbe E3).
Qed.
Lemma csim_gen_otf : csim same (M_PSF.gen_otf numeric) (M_PSF.gen_otf numeric).
Proof.
  unfold M_PSF.gen_otf. apply csim_seq; [apply csim_changed|]. intros o o' Ho. split; [|exact Ho]. cbn [fst]. destruct (params_units o o' Ho) as (_ & E2 & _ & E4). apply rrel_eq. cbn [numeric e_gen_otf]. now rewrite E2, (C85_sheppard _ _ _ _ Ral Rbe E4).
Qed.
Lemma csim_cached s c : csim same c c -> csim same (cached numeric s c) (cached numeric s c).
Proof.
  intros H o o' Ho. unfold cached. rewrite (os_cache _ _ Ho s). destruct (o_cache o s); [split; [reflexivity|exact Ho]|].
  apply (csim_bind same same); auto. intros x x' ->. apply csim_seq; [apply csim_cache|now apply csim_ret].
Qed.
Lemma csim_map {A B} (f : A -> B) c : csim same c c -> csim same (bindM numeric c (fun x => ret numeric (f x))) (bindM numeric c (fun x => ret numeric (f x))).
Proof. intros H. apply (csim_bind same); auto. intros x x' ->. now apply csim_ret. Qed.
Lemma csim_read c s : csim same (read numeric c s) (read numeric c s).
Proof.
  assert (H1 : csim same (read_PSFa numeric c) (read_PSFa numeric c)) by (destruct c; cbn [read_PSFa]; apply csim_cached; [apply csim_gen_psf|apply csim_map, csim_cached, csim_gen_otf]).
  assert (H2 : csim same (read_PSFi numeric c) (read_PSFi numeric c)) by (apply csim_cached, csim_map, H1).
  destruct s; cbn [read]; auto.
  - destruct c; cbn [read_OTFa]; apply csim_cached; [apply csim_map, csim_cached, csim_gen_psf|apply csim_gen_otf].
  - apply csim_cached, csim_map, H2.
Qed.
Lemma csim_apply p : csim same (apply_pupil numeric p) (apply_pupil numeric p).
Proof. unfold apply_pupil. apply csim_seq; [apply csim_changed|]. apply (csim_bind same); [apply csim_gen_psf|]. intros x x' ->. apply csim_cache. Qed.
End Units.
