(** Simulation of the heap objects by the value-level machine, with frame conditions. *)
From Verif Require Import M_Heap S_Heap.
From Coq Require Import FunctionalExtensionality.

Section S.
Context (E : engine).
Notation heap := (heap E).

(** arrays that existed keep existing with the same contents (a 0-d range may have been reshaped) *)
Definition grows (H H' : heap) : Prop :=
  (exists t, hp_arr E H' = hp_arr E H ++ t) /\
  (List.length (hp_rng E H) <= List.length (hp_rng E H'))%nat /\
  (forall r xs, nth_error (hp_rng E H) r = Some (R1 xs) -> nth_error (hp_rng E H') r = Some (R1 xs)).
Lemma grows_refl H : grows H H.
Proof. split; [exists []; now rewrite app_nil_r|]. split; auto. Qed.
Lemma grows_trans H1 H2 H3 : grows H1 H2 -> grows H2 H3 -> grows H1 H3.
Proof.
  intros ([t1 A1] & B1 & C1) ([t2 A2] & B2 & C2). split; [exists (t1 ++ t2); now rewrite A2, A1, app_assoc|]. split; [lia|auto].
Qed.
Lemma grows_arr H H' r x : grows H H' -> nth_error (hp_arr E H) r = Some x -> nth_error (hp_arr E H') r = Some x.
Proof. intros ([t A] & _) Hx. rewrite A, nth_error_app1; auto. apply nth_error_Some. congruence. Qed.

(** only object [l] changes, and keeps its class *)
Definition local (l : nat) (H H' : heap) : Prop :=
  grows H H' /\ List.length (hp_obj E H') = List.length (hp_obj E H) /\
  (forall l', l' <> l -> nth_error (hp_obj E H') l' = nth_error (hp_obj E H) l') /\
  class_of E H' l = class_of E H l.
Lemma local_refl l H : local l H H.
Proof. split; [apply grows_refl|]. auto. Qed.
Lemma local_trans l H1 H2 H3 : local l H1 H2 -> local l H2 H3 -> local l H1 H3.
Proof. intros (A1 & B1 & C1 & D1) (A2 & B2 & C2 & D2). split; [eapply grows_trans; eauto|]. split; [congruence|]. split; [|congruence]. intros l' Hl. rewrite C2, C1; auto. Qed.

Lemma obj_ok_grows H H' o : grows H H' -> obj_ok E H o -> obj_ok E H' o.
Proof.
  intros ([t A] & B & C) [O1 O2]. split.
  - intros r Hr. destruct (O1 r Hr) as [xs Hx]. exists xs. auto.
  - intros s r Hr. rewrite A, app_length. specialize (O2 s r Hr). lia.
Qed.
Lemma view_grows H H' l : grows H H' -> wf E H -> nth_error (hp_obj E H') l = nth_error (hp_obj E H) l -> view E H' l = view E H l.
Proof.
  intros G W Hn. unfold view. rewrite Hn. destruct (nth_error (hp_obj E H) l) as [o|] eqn:Ho; [|reflexivity]. destruct (W l o Ho) as [O1 O2].
  f_equal. f_equal.
  - destruct (ho_zrange o) as [r|]; [|reflexivity]. destruct (O1 r eq_refl) as [xs Hx]. unfold deref_rng. destruct G as (_ & _ & C). now rewrite Hx, (C _ _ Hx).
  - apply functional_extensionality. intros s. destruct (ho_cache o s) as [r|] eqn:Hc; [|reflexivity]. specialize (O2 _ _ Hc).
    destruct (nth_error (hp_arr E H) r) eqn:Ea; [eapply grows_arr; eauto|]. apply nth_error_None in Ea. lia.
Qed.
Lemma view_other l l' H H' : local l H H' -> wf E H -> l' <> l -> view E H' l' = view E H l'.
Proof. intros (G & _ & O & _) W Hl. apply view_grows; auto. Qed.

(** [hm] on object [l] behaves like [m] on its value *)
Definition sim {A B} (l : nat) (Pre : heap -> Prop) (hm : HM E A) (m : M E B) (R : heap -> A -> B -> Prop) : Prop :=
  forall H o, wf E H -> view E H l = Some o -> Pre H ->
    let H' := snd (hm H) in
    wf E H' /\ local l H H' /\ view E H' l = Some (snd (m o)) /\
    match fst (hm H), fst (m o) with Ok a, Ok b => R H' a b | Err e, Err e' => e = e' | _, _ => False end.
Definition top (H : heap) : Prop := True.
Definition same {A} (H : heap) (a b : A) : Prop := a = b.
Definition is_ref (H : heap) (r : nat) (x : arr E) : Prop := nth_error (hp_arr E H) r = Some x.

Lemma sim_bind {A B A' B'} l Pre (hm : HM E A) (m : M E B) R (hf : A -> HM E A') (f : B -> M E B') R' :
  sim l Pre hm m R -> (forall a b, sim l (fun H => R H a b) (hf a) (f b) R') -> sim l Pre (hbind E hm hf) (bindM E m f) R'.
Proof.
  intros S1 S2 H o W V P. specialize (S1 H o W V P). cbv zeta in *. unfold hbind, bindM.
  destruct (hm H) as [[a|e] H'], (m o) as [[b|e'] o']; cbn [fst snd] in *; destruct S1 as (W' & L' & V' & X); try contradiction.
  - specialize (S2 a b H' o' W' V' X). cbv zeta in S2. destruct S2 as (W2 & L2 & V2 & X2). split; [exact W2|]. split; [eapply local_trans; eauto|]. split; [exact V2|exact X2].
  - split; [exact W'|]. split; [exact L'|]. split; [exact V'|exact X].
Qed.
Lemma sim_ret {A B} l (Pre : heap -> Prop) (a : A) (b : B) (R : heap -> A -> B -> Prop) : (forall H, Pre H -> R H a b) -> sim l Pre (hret E a) (ret E b) R.
Proof. intros HR H o W V P. cbn. split; [exact W|]. split; [apply local_refl|]. split; [exact V|auto]. Qed.
Lemma sim_raise {A B} l Pre e (R : heap -> A -> B -> Prop) : sim l Pre (hraise E e) (raise E e) R.
Proof. intros H o W V P. cbn. split; [exact W|]. split; [apply local_refl|]. split; [exact V|reflexivity]. Qed.
Lemma sim_lift {A} l Pre (r : res A) : sim l Pre (hlift E r) (lift E r) same.
Proof. intros H o W V P. cbn. split; auto. split; [apply local_refl|]. split; auto. destruct r; reflexivity. Qed.
Lemma sim_weaken {A B} l (P P' : heap -> Prop) (hm : HM E A) (m : M E B) R : (forall H, P' H -> P H) -> sim l P hm m R -> sim l P' hm m R.
Proof. intros HP S H o W V K. apply S; auto. Qed.
Lemma sim_if {A B} l P (b : bool) (h1 h2 : HM E A) (m1 m2 : M E B) R : sim l P h1 m1 R -> sim l P h2 m2 R -> sim l P (if b then h1 else h2) (if b then m1 else m2) R.
Proof. now destruct b. Qed.

(** ** objects *)
Lemma replace_length {A} n (x : A) l : List.length (replace n x l) = List.length l.
Proof. revert n. induction l as [|y l IH]; intros [|n]; cbn; auto. Qed.
Lemma nth_replace_same {A} n (x : A) l : (n < List.length l)%nat -> nth_error (replace n x l) n = Some x.
Proof. revert n. induction l as [|y l IH]; intros [|n] Hn; cbn in *; try lia; auto. apply IH. lia. Qed.
Lemma nth_replace_other {A} n m (x : A) l : m <> n -> nth_error (replace n x l) m = nth_error l m.
Proof. revert n m. induction l as [|y l IH]; intros [|n] [|m] Hn; cbn in *; auto; try congruence. Qed.

Lemma view_dict H l o : view E H l = Some o -> exists d, nth_error (hp_obj E H) l = Some d /\ dict E l H = (Ok d, H) /\
  o_attr o = ho_attr d /\ o_zrange o = (match ho_zrange d with Some r => deref_rng E H r | None => None end) /\
  o_cache o = (fun s => match ho_cache d s with Some r => nth_error (hp_arr E H) r | None => None end).
Proof.
  unfold view, dict. destruct (nth_error (hp_obj E H) l) as [d|]; [|discriminate]. intros [= <-]. exists d. repeat split.
Qed.
Definition view_of (H : heap) (d : hobj) : obj E :=
  mkObj (ho_attr d) (match ho_zrange d with Some r => deref_rng E H r | None => None end)
        (fun s => match ho_cache d s with Some r => nth_error (hp_arr E H) r | None => None end).
Lemma view_dict' H l o : view E H l = Some o -> exists d, nth_error (hp_obj E H) l = Some d /\ o = view_of H d.
Proof. unfold view. destruct (nth_error (hp_obj E H) l) as [d|]; [|discriminate]. intros [= <-]. eauto. Qed.

(** replacing the dictionary of [l] *)
Lemma update_spec H l d d' : wf E H -> nth_error (hp_obj E H) l = Some d -> ho_cls d' = ho_cls d -> obj_ok E H d' ->
  let H' := snd (update E l d' H) in wf E H' /\ local l H H' /\ view E H' l = Some (view_of H d').
Proof.
  intros W Hd Hc Ok'. cbn. assert (Hl : (l < List.length (hp_obj E H))%nat) by (apply nth_error_Some; congruence).
  set (H' := mkHeap E (replace l d' (hp_obj E H)) (hp_rng E H) (hp_arr E H)).
  assert (G : grows H H') by (split; [exists []; now rewrite app_nil_r|split; auto]).
  split; [|split; [split; [exact G|split; [apply replace_length|split]]|]].
  - intros l' o Hn. cbn in Hn. destruct (Nat.eq_dec l' l) as [->|Hne].
    + rewrite nth_replace_same in Hn by auto. injection Hn as <-. exact Ok'.
    + rewrite nth_replace_other in Hn by auto. exact (W l' o Hn).
  - intros l' Hne. cbn. now apply nth_replace_other.
  - unfold class_of. cbn. rewrite nth_replace_same, Hd by auto. cbn. now rewrite Hc.
  - unfold view. cbn. now rewrite nth_replace_same by auto.
Qed.

Lemma sim_getattr l P a : sim l P (h_getattr E l a) (getattr E a) same.
Proof.
  intros H o W V _. destruct (view_dict' H l o V) as (d & Hd & ->). unfold h_getattr, hbind, dict, getattr. rewrite Hd. cbn [o_attr view_of].
  destruct (ho_attr d a) as [v|]; cbn; (split; [exact W|]; split; [apply local_refl|]; split; [exact V|]); reflexivity.
Qed.
Lemma sim_setattr l P a v : sim l P (h_setattr E l a v) (setattr E a v) same.
Proof.
  intros H o W V _. destruct (view_dict' H l o V) as (d & Hd & ->). unfold h_setattr, hbind, dict. rewrite Hd.
  set (d' := mkHobj _ _ _ _). pose proof (update_spec H l d d' W Hd eq_refl (W l d Hd)) as U. cbn in *. destruct U as (A & B & C). split; [exact A|split; [exact B|split; [exact C|reflexivity]]].
Qed.
Lemma sim_changed l P : sim l P (h_changed E l) (attribute_changed E) same.
Proof.
  intros H o W V _. destruct (view_dict' H l o V) as (d & Hd & ->). unfold h_changed, hbind, dict. rewrite Hd.
  set (d' := mkHobj _ _ _ _). assert (O : obj_ok E H d') by (split; [apply (W l d Hd)|discriminate]).
  pose proof (update_spec H l d d' W Hd eq_refl O) as U. cbn in *. destruct U as (A & B & C). split; [exact A|split; [exact B|split; [exact C|reflexivity]]].
Qed.
Lemma sim_set_cache l s r x : sim l (fun H => is_ref H r x) (h_set_cache E l s r) (set_cache E s x) same.
Proof.
  intros H o W V P. destruct (view_dict' H l o V) as (d & Hd & ->). unfold h_set_cache, hbind, dict. rewrite Hd.
  set (d' := mkHobj _ _ _ _).
  assert (O : obj_ok E H d').
  { split; [apply (W l d Hd)|]. intros t r'. cbn. destruct (slot_eqb s t); [intros [= <-]; apply nth_error_Some; unfold is_ref in P; congruence|apply (W l d Hd)]. }
  pose proof (update_spec H l d d' W Hd eq_refl O) as U. cbn in *. destruct U as (A & B & C). split; [exact A|]. split; [exact B|]. split; [|reflexivity].
  rewrite C. unfold view_of, d'. cbn. f_equal. f_equal. apply functional_extensionality. intros t. destruct (slot_eqb s t); auto.
Qed.

(** sequencing, the common shapes *)
Ltac step := apply (sim_bind _ _ _ _ same); [|intros ? ? ]; [solve [apply sim_getattr | apply sim_setattr | apply sim_changed | apply sim_lift]|].
Lemma sim_same {A B C} l (a b : A) (hm : A -> HM E B) (m : A -> M E C) R : (forall x, sim l top (hm x) (m x) R) -> sim l (fun H => same H a b) (hm a) (m b) R.
Proof. intros S H o W V P. unfold same in P. subst b. now apply S. Qed.
Lemma sim_seq {A B A'} l Pre (hm : HM E A) (m : M E A) (hf : A -> HM E A') (f : A -> M E B) R :
  sim l top hm m same -> (forall a, sim l top (hf a) (f a) R) -> sim l Pre (hbind E hm hf) (bindM E m f) R.
Proof. intros S1 S2. apply (sim_bind l Pre hm m same); [eapply sim_weaken; [|exact S1]; unfold top; auto|]. intros a b. apply (sim_same l a b hf f R S2). Qed.

Lemma sim_set_then_changed l P a v : sim l P (hbind E (h_setattr E l a v) (fun _ => h_changed E l)) (bindM E (setattr E a v) (fun _ => attribute_changed E)) same.
Proof. apply sim_seq; [apply sim_setattr|intros _; apply sim_changed]. Qed.
Lemma numeric_eq l a t v H d : nth_error (hp_obj E H) l = Some d -> h_numeric_set E l a t v H =
  match numeric_decide (ho_attr d a) t v with
  | Ok true => hbind E (h_setattr E l a v) (fun _ => h_changed E l) H
  | Ok false => (Ok tt, H)
  | Err e => (Err e, H)
  end.
Proof.
  intros Hd. unfold h_numeric_set. unfold hbind at 1, dict at 1. rewrite Hd. unfold hbind at 1, hlift. destruct (numeric_decide (ho_attr d a) t v) as [[|]|e]; reflexivity.
Qed.
Lemma sim_numeric l P a t v : sim l P (h_numeric_set E l a t v) (numeric_set E a t v) same.
Proof.
  intros H o W V K. pose proof (sim_set_then_changed l P a v H o W V K) as S. destruct (view_dict' H l o V) as (d & Hd & ->).
  rewrite (numeric_eq l a t v H d Hd). unfold numeric_set, numeric_fset. cbn [o_attr view_of].
  destruct (numeric_decide (ho_attr d a) t v) as [[|]|e]; cbn [fst snd] in *.
  - exact S.
  - split; [exact W|]. split; [apply local_refl|]. split; [exact V|reflexivity].
  - split; [exact W|]. split; [apply local_refl|]. split; [exact V|reflexivity].
Qed.
Lemma sim_base_zres l P v : sim l P (h_base_zres_set E l v) (base_zres_set E v) same.
Proof.
  unfold h_base_zres_set, base_zres_set. apply sim_seq; [apply sim_lift|]. intros b. apply sim_if; [apply sim_raise|apply sim_set_then_changed].
Qed.
Lemma sim_res l P v : sim l P (h_res_set E l v) (res_set E v) same.
Proof.
  unfold h_res_set, res_set. apply sim_seq; [apply sim_getattr|intros na]. apply sim_seq; [apply sim_getattr|intros wl].
  apply sim_seq; [apply sim_lift|intros t]. apply sim_seq; [apply sim_lift|intros abbe]. apply sim_seq; [apply sim_lift|intros bad].
  apply sim_if; [apply sim_raise|apply sim_set_then_changed].
Qed.
Lemma sim_choice l P a valid v : sim l P (h_choice_set E l a valid v) (choice_set E a valid v) same.
Proof. unfold h_choice_set, choice_set. apply sim_seq; [apply sim_lift|intros b]. apply sim_if; [apply sim_raise|apply sim_set_then_changed]. Qed.
Lemma sim_dual l P v : sim l P (h_dual_set E l v) (dual_set E v) same.
Proof. unfold h_dual_set, dual_set. apply sim_if; [apply sim_raise|apply sim_set_then_changed]. Qed.

(** the z range *)
Definition zval (H : heap) (z : zarg) : zrange_arg :=
  match z with
  | ZVal z => z
  | ZRef r => match nth_error (hp_rng E H) r with Some (R0 x) => ZScalar x | Some (R1 xs) => ZList xs | None => ZList [] end
  end.
Lemma sim_zrange_set l z v : sim l (fun H => zarg_ok E H z /\ zval H z = v) (h_zrange_set E l z) (zrange_set E v) same.
Proof.
  intros H o W V [Kz Kv]. destruct (view_dict' H l o V) as (d & Hd & ->).
  (* after asarray: a heap H1 that only gained a range, and the reference r *)
  assert (exists H1 r c, asarray E z H = (Ok r, H1) /\ hp_obj E H1 = hp_obj E H /\ hp_arr E H1 = hp_arr E H /\ (exists t, hp_rng E H1 = hp_rng E H ++ t) /\
            nth_error (hp_rng E H1) r = Some c /\ v = match c with R0 x => ZScalar x | R1 xs => ZList xs end) as (H1 & r & c & EA & EO & ER & [t ET] & Er & Ev).
  { destruct z as [[x|xs]|r]; cbn in Kv, Kz.
    - exists (snd (alloc_rng E (R0 x) H)), (List.length (hp_rng E H)), (R0 x). cbn. rewrite nth_error_app2, Nat.sub_diag by lia. repeat split; eauto.
    - exists (snd (alloc_rng E (R1 xs) H)), (List.length (hp_rng E H)), (R1 xs). cbn. rewrite nth_error_app2, Nat.sub_diag by lia. repeat split; eauto.
    - destruct (nth_error (hp_rng E H) r) as [c|] eqn:Er; [|apply nth_error_None in Er; lia]. exists H, r, c. cbn. split; [reflexivity|]. split; [reflexivity|]. split; [reflexivity|]. split; [exists []; now rewrite app_nil_r|]. split; [exact Er|]. subst v. now destruct c. }
  assert (Hr : (r < List.length (hp_rng E H1))%nat) by (apply nth_error_Some; congruence).
  assert (Hl : (l < List.length (hp_obj E H))%nat) by (apply nth_error_Some; congruence).
  (* the final heap *)
  set (xs := match c with R0 x => [x] | R1 xs => xs end).
  set (d' := mkHobj (ho_cls d) (ho_attr d) (Some r) (fun _ => None)).
  set (rr := match c with R0 x => replace r (R1 [x]) (hp_rng E H1) | R1 _ => hp_rng E H1 end).
  assert (Rr : nth_error rr r = Some (R1 xs)) by (unfold rr, xs; destruct c; [now apply nth_replace_same|exact Er]).
  assert (Ro : forall r' ys, nth_error (hp_rng E H) r' = Some (R1 ys) -> nth_error rr r' = Some (R1 ys)).
  { intros r' ys Hy. assert (Hy1 : nth_error (hp_rng E H1) r' = Some (R1 ys)) by (rewrite ET, nth_error_app1; auto; apply nth_error_Some; congruence).
    unfold rr. destruct c; [|exact Hy1]. destruct (Nat.eq_dec r' r) as [->|Hne]; [congruence|]. now rewrite nth_replace_other. }
  assert (Rl : (List.length (hp_rng E H) <= List.length rr)%nat).
  { unfold rr. destruct c; rewrite ?replace_length, ET, app_length; lia. }
  set (HF := mkHeap E (replace l d' (hp_obj E H)) rr (hp_arr E H)).
  assert (RR : forall x y, replace l y (replace l x (hp_obj E H)) = replace l y (hp_obj E H)).
  { clear. intros x y. revert l. induction (hp_obj E H) as [|w k IH]; intros [|l]; cbn; auto. now f_equal. }
  assert (EX : h_zrange_set E l z H = (Ok tt, HF)).
  { unfold h_zrange_set, hbind. rewrite EA. unfold dict at 1. rewrite EO, Hd. unfold update at 1. cbn [hp_rng hp_obj hp_arr]. rewrite Er, EO, ER.
    unfold HF, rr, h_changed, hbind, dict, update. destruct c; cbn [write_rng hp_rng hp_obj hp_arr]; rewrite nth_replace_same by auto; cbn [ho_cls ho_attr ho_zrange]; cbn [hp_rng hp_obj hp_arr]; now rewrite RR. }
  rewrite EX. cbn [fst snd].
  assert (G : grows H HF) by (split; [exists []; now rewrite app_nil_r|]; split; [exact Rl|exact Ro]).
  assert (O' : obj_ok E HF d') by (split; [intros r' [= <-]; eauto|discriminate]).
  split; [|split; [split; [exact G|split; [apply replace_length|split]]|split]].
  - intros l' o Hn. cbn in Hn. destruct (Nat.eq_dec l' l) as [->|Hne].
    + rewrite nth_replace_same in Hn by auto. injection Hn as <-. exact O'.
    + rewrite nth_replace_other in Hn by auto. eapply obj_ok_grows; eauto. 
  - intros l' Hne. cbn. now apply nth_replace_other.
  - unfold class_of. cbn. now rewrite nth_replace_same, Hd by auto.
  - unfold view. cbn. rewrite nth_replace_same by auto. cbn. unfold deref_rng. cbn [hp_rng HF]. rewrite Rr. unfold xs. rewrite Ev. clear. now destruct c.
  - subst v. reflexivity.
Qed.
Lemma sim_zrange_val l P z : sim l P (h_zrange_set E l (ZVal z)) (zrange_set E z) same.
Proof. eapply sim_weaken; [|apply (sim_zrange_set l (ZVal z) z)]. intros H _. cbn. auto. Qed.
Lemma sim_gen_zrange l P : sim l P (h_gen_zrange E l) (gen_zrange E) same.
Proof. unfold h_gen_zrange, gen_zrange. apply sim_seq; [apply sim_getattr|intros zs]. apply sim_seq; [apply sim_getattr|intros zr]. apply sim_zrange_val. Qed.
Lemma sim_ignore l P hm m : sim l P hm m same -> sim l P (h_ignore E hm) (ignore_attribute_error E m) same.
Proof.
  intros S H o W V K. specialize (S H o W V K). cbv zeta in *. unfold h_ignore, ignore_attribute_error.
  destruct (hm H) as [[[]|e] H'], (m o) as [[[]|e'] o']; cbn [fst snd] in *; destruct S as (W' & L' & V' & X); try contradiction.
  - split; [exact W'|split; [exact L'|split; [exact V'|reflexivity]]].
  - subst e'. destruct e; cbn [fst snd]; (split; [exact W'|split; [exact L'|split; [exact V'|reflexivity]]]).
Qed.
Lemma sim_hanser_zsize l P v : sim l P (h_hanser_zsize_set E l v) (hanser_zsize_set E v) same.
Proof. apply sim_seq; [apply sim_numeric|intros _; apply sim_ignore, sim_gen_zrange]. Qed.
Lemma sim_hanser_zres l P v : sim l P (h_hanser_zres_set E l v) (hanser_zres_set E v) same.
Proof. apply sim_seq; [apply sim_base_zres|intros _; apply sim_ignore, sim_gen_zrange]. Qed.
Lemma sim_sheppard_zres l P v : sim l P (h_sheppard_zres_set E l v) (sheppard_zres_set E v) same.
Proof.
  unfold h_sheppard_zres_set, sheppard_zres_set. apply sim_seq; [apply sim_getattr|intros wl]. apply sim_seq; [apply sim_getattr|intros ni].
  apply sim_seq; [apply sim_lift|intros t]. apply sim_seq; [apply sim_lift|intros mx]. apply sim_seq; [apply sim_lift|intros bad].
  apply sim_if; [apply sim_raise|apply sim_base_zres].
Qed.
Lemma sim_assign_num l P c a v : sim l P (h_assign E l c (HSetNum a v)) (assign E c (SetNum a v)) same.
Proof.
  destruct a, c; cbn [h_assign assign]; first [apply sim_numeric | apply sim_res | apply sim_choice | apply sim_dual | apply sim_hanser_zsize | apply sim_hanser_zres | apply sim_sheppard_zres | apply sim_ret; intros; reflexivity].
Qed.
Lemma sim_assign l c s v : sim l (fun H => (forall z, s = HSetZrange z -> zarg_ok E H z) /\ as_value E H s = v) (h_assign E l c s) (assign E c v) same.
Proof.
  destruct s as [a w|z].
  - intros H o W V [_ <-]. cbn [as_value]. exact (sim_assign_num l top c a w H o W V I).
  - destruct c; cbn [h_assign].
    + intros H o W V [Kz <-]. specialize (Kz z eq_refl). assert (Ez : as_value E H (HSetZrange z) = SetZrange (zval H z)) by (destruct z; reflexivity). rewrite Ez. cbn [assign].
      exact (sim_zrange_set l z (zval H z) H o W V (conj Kz eq_refl)).
    + intros H o W V [Kz <-]. assert (exists w, as_value E H (HSetZrange z) = SetZrange w) as [w ->] by (destruct z; eexists; reflexivity). cbn. split; [exact W|]. split; [apply local_refl|]. split; [exact V|reflexivity].
Qed.

(** ** arrays *)
Lemma params_val l H o : view E H l = Some o -> h_params E l H = (Ok (obj_params o), H).
Proof. intros V. destruct (view_dict' H l o V) as (d & Hd & ->). unfold h_params. now rewrite Hd. Qed.
Lemma grows_alloc_arr H a : let H' := snd (alloc_arr E a H) in grows H H' /\ nth_error (hp_arr E H') (List.length (hp_arr E H)) = Some a.
Proof.
  cbn. split; [split; [eexists; reflexivity|split; auto]|]. now rewrite nth_error_app2, Nat.sub_diag by lia.
Qed.
Lemma alloc_sim l P a : sim l P (alloc_arr E a) (ret E a) is_ref.
Proof.
  intros H o W V _. destruct (grows_alloc_arr H a) as [G N]. cbn in *. set (H' := mkHeap E _ _ _) in *.
  split; [|split; [|split]].
  - intros l' d Hd. eapply obj_ok_grows; eauto.
  - split; [exact G|]. repeat split.
  - rewrite <- V. apply view_grows; auto.
  - exact N.
Qed.
Lemma sim_engine l P (f : params -> res (arr E)) :
  sim l P (hbind E (h_params E l) (fun Q => hbind E (hlift E (f Q)) (alloc_arr E))) (fun o => (f (obj_params o), o)) is_ref.
Proof.
  intros H o W V K. unfold hbind. rewrite (params_val l H o V). unfold hlift. cbn [fst snd]. destruct (f (obj_params o)) as [a|e].
  - exact (alloc_sim l P a H o W V K).
  - cbn. split; [exact W|]. split; [apply local_refl|]. auto.
Qed.
Lemma sim_gen_psf l P p : sim l P (h_gen_psf E l p) (gen_psf E p) is_ref.
Proof. unfold h_gen_psf, gen_psf. apply sim_seq; [apply sim_changed|intros _]. apply (sim_engine l top (fun Q => e_gen_psf E Q p)). Qed.
Lemma sim_gen_otf l P : sim l P (h_gen_otf E l) (gen_otf E) is_ref.
Proof. unfold h_gen_otf, gen_otf. apply sim_seq; [apply sim_changed|intros _]. apply (sim_engine l top (fun Q => e_gen_otf E Q)). Qed.
Lemma cached_eq l s hc H d : nth_error (hp_obj E H) l = Some d -> h_cached E l s hc H =
  match ho_cache d s with
  | Some r => (Ok r, H)
  | None => hbind E hc (fun r => hbind E (h_set_cache E l s r) (fun _ => hret E r)) H
  end.
Proof. intros Hd. unfold h_cached. unfold hbind at 1, dict at 1. rewrite Hd. now destruct (ho_cache d s). Qed.
Lemma sim_cached l P s hc c : sim l top hc c is_ref -> sim l P (h_cached E l s hc) (cached E s c) is_ref.
Proof.
  intros S H o W V K.
  assert (S2 : sim l top (hbind E hc (fun r => hbind E (h_set_cache E l s r) (fun _ => hret E r))) (bindM E c (fun x => bindM E (set_cache E s x) (fun _ => ret E x))) is_ref).
  { apply (sim_bind l top hc c is_ref); [exact S|]. intros r x. intros H1 o1 W1 V1 K1.
    pose proof (sim_set_cache l s r x H1 o1 W1 V1 K1) as T. unfold hbind, bindM. unfold h_set_cache, hbind, dict in *. destruct (view_dict' H1 l o1 V1) as (d & Hd & ->). rewrite Hd in *.
    cbn in T |- *. destruct T as (A & B & C & _). split; [exact A|]. split; [exact B|]. split; [exact C|]. exact K1. }
  specialize (S2 H o W V I). destruct (view_dict' H l o V) as (d & Hd & ->). rewrite (cached_eq l s hc H d Hd). unfold cached. cbn [o_cache view_of].
  destruct (ho_cache d s) as [r|] eqn:Er; [|exact S2]. destruct (W l d Hd) as [_ O2]. specialize (O2 _ _ Er).
  destruct (nth_error (hp_arr E H) r) as [x|] eqn:Ex; [|apply nth_error_None in Ex; lia].
  cbn. split; [exact W|]. split; [apply local_refl|]. split; [exact V|exact Ex].
Qed.
Lemma sim_map l P f hm m : sim l top hm m is_ref -> sim l P (h_map E f hm) (bindM E m (fun x => ret E (f x))) is_ref.
Proof.
  intros S. unfold h_map. apply (sim_bind l P hm m is_ref); [eapply sim_weaken; [|exact S]; unfold top; auto|]. intros r x H o W V K. unfold is_ref in K. rewrite K.
  exact (alloc_sim l top (f x) H o W V I).
Qed.
Lemma sim_read l P c s : sim l P (h_read E l c s) (read E c s) is_ref.
Proof.
  assert (P1 : forall P, sim l P (h_read_PSFa_h E l) (read_PSFa_h E) is_ref) by (intros; apply sim_cached, sim_gen_psf).
  assert (P2 : forall P, sim l P (h_read_OTFa_s E l) (read_OTFa_s E) is_ref) by (intros; apply sim_cached, sim_gen_otf).
  assert (P3 : forall P, sim l P (h_read_PSFa E l c) (read_PSFa E c) is_ref) by (intros; destruct c; [apply P1|apply sim_cached, sim_map, P2]).
  assert (P4 : forall P, sim l P (h_read_OTFa E l c) (read_OTFa E c) is_ref) by (intros; destruct c; [apply sim_cached, sim_map, P1|apply P2]).
  assert (P5 : forall P, sim l P (h_read_PSFi E l c) (read_PSFi E c) is_ref) by (intros; apply sim_cached, sim_map, P3).
  destruct s; cbn [h_read read]; [apply P3|apply P4|apply P5|apply sim_cached, sim_map, P5].
Qed.
Lemma sim_apply l P p : sim l P (h_apply_pupil E l p) (apply_pupil E p) same.
Proof.
  unfold h_apply_pupil, apply_pupil. apply sim_seq; [apply sim_changed|intros _]. apply (sim_bind l top _ _ is_ref); [apply sim_gen_psf|]. intros r x. apply sim_set_cache.
Qed.
End S.

(** ** programs *)
Section Prog.
Context (E : engine).
Notation heap := (heap E).

Definition mono (P : heap -> Prop) : Prop := forall H H', grows E H H' -> P H -> P H'.
Definition tame {A} (m : nat) (P : heap -> Prop) (hm : HM E A) : Prop :=
  forall H, wf E H -> (m < List.length (hp_obj E H))%nat -> P H -> wf E (snd (hm H)) /\ local E m H (snd (hm H)).
Lemma view_some H l : (l < List.length (hp_obj E H))%nat -> exists o, view E H l = Some o.
Proof. intros Hl. unfold view. destruct (nth_error (hp_obj E H) l) eqn:Ho; [eauto|]. apply nth_error_None in Ho. lia. Qed.
Lemma view_lt H l o : view E H l = Some o -> (l < List.length (hp_obj E H))%nat.
Proof. unfold view. destruct (nth_error (hp_obj E H) l) eqn:Ho; [|discriminate]. intros _. apply nth_error_Some. congruence. Qed.
Lemma sim_tame {A B} m P (hm : HM E A) (mm : M E B) R : sim E m P hm mm R -> tame m P hm.
Proof. intros S H W Hl K. destruct (view_some H m Hl) as [o V]. destruct (S H o W V K) as (A1 & A2 & _). auto. Qed.
Lemma tame_ret {A} m P (x : A) : tame m P (hret E x).
Proof. intros H W Hl K. split; [exact W|apply local_refl]. Qed.
Lemma tame_lift {A} m P (r : res A) : tame m P (hlift E r).
Proof. intros H W Hl K. split; [exact W|apply local_refl]. Qed.
Lemma tame_bind {A B} m P (hm : HM E A) (f : A -> HM E B) : mono P -> tame m P hm -> (forall a, tame m P (f a)) -> tame m P (hbind E hm f).
Proof.
  intros HP T1 T2 H W Hl K. destruct (T1 H W Hl K) as [W1 L1]. unfold hbind. destruct (hm H) as [[a|e] H1]; cbn [snd] in *; [|auto].
  destruct L1 as (G & Len & O & C) eqn:EL. assert (Hl1 : (m < List.length (hp_obj E H1))%nat) by lia.
  destruct (T2 a H1 W1 Hl1 (HP _ _ G K)) as [W2 L2]. split; [exact W2|]. eapply local_trans; [|exact L2]. split; auto.
Qed.
Lemma mono_top : mono (top E). Proof. intros H H' _ _. exact I. Qed.
Lemma mono_zarg z : mono (fun H => zarg_ok E H z).
Proof. intros H H' (_ & B & _). destruct z; cbn; auto. lia. Qed.
Lemma mono_all (z : option zarg) : mono (fun H => forall y, z = Some y -> zarg_ok E H y).
Proof. intros H H' G K y Hy. eapply mono_zarg; eauto. Qed.
Lemma tame_assign m (P : heap -> Prop) c s : (forall H z, P H -> s = HSetZrange z -> zarg_ok E H z) -> tame m P (h_assign E m c s).
Proof.
  intros HP H W Hl K. destruct (view_some H m Hl) as [o V].
  destruct (sim_assign E m c s (as_value E H s) H o W V (conj (fun z => HP H z K) eq_refl)) as (A1 & A2 & _). auto.
Qed.
Lemma tame_params m P : tame m P (h_params E m).
Proof. intros H W Hl K. unfold h_params. destruct (nth_error (hp_obj E H) m); (split; [exact W|apply local_refl]). Qed.
Lemma tame_apply m P p : tame m P (h_apply_pupil E m p).
Proof. eapply sim_tame, sim_apply. Qed.

(** nothing that existed changes *)
Definition only_new (H H' : heap) : Prop :=
  grows E H H' /\ (List.length (hp_obj E H) <= List.length (hp_obj E H'))%nat /\
  forall l, (l < List.length (hp_obj E H))%nat -> nth_error (hp_obj E H') l = nth_error (hp_obj E H) l.
Lemma only_new_refl H : only_new H H. Proof. split; [apply grows_refl|]. auto. Qed.
Lemma only_new_view H H' l : only_new H H' -> wf E H -> (l < List.length (hp_obj E H))%nat -> view E H' l = view E H l.
Proof. intros (G & _ & O) W Hl. apply view_grows; auto. Qed.
Definition with_new (H : heap) (o : hobj) : heap := mkHeap E (hp_obj E H ++ [o]) (hp_rng E H) (hp_arr E H).
Lemma new_spec H o : wf E H -> obj_ok E H o -> wf E (with_new H o) /\ grows E H (with_new H o) /\
  nth_error (hp_obj E (with_new H o)) (List.length (hp_obj E H)) = Some o.
Proof.
  intros W O. assert (G : grows E H (with_new H o)) by (split; [exists []; cbn; now rewrite app_nil_r|split; cbn; auto]). split; [|split; [exact G|]].
  - intros l d Hd. cbn in Hd. apply (obj_ok_grows E H); auto. destruct (Nat.lt_ge_cases l (List.length (hp_obj E H))).
    + rewrite nth_error_app1 in Hd by auto. eauto.
    + rewrite nth_error_app2 in Hd by auto. destruct (l - _)%nat as [|[]]; cbn in Hd; try discriminate. now injection Hd as <-.
  - cbn. now rewrite nth_error_app2, Nat.sub_diag by lia.
Qed.
Lemma new_then {A} H o (hm : HM E A) P : wf E H -> obj_ok E H o -> tame (List.length (hp_obj E H)) P hm -> P (with_new H o) ->
  wf E (snd (hm (with_new H o))) /\ only_new H (snd (hm (with_new H o))).
Proof.
  intros W O T K. destruct (new_spec H o W O) as (W1 & G1 & N1). destruct (T (with_new H o) W1) as [W2 (G2 & Len & Oth & _)]; auto.
  { cbn. rewrite app_length. cbn. lia. }
  split; [exact W2|]. split; [exact (grows_trans E _ _ _ G1 G2)|]. split; [rewrite Len; cbn; rewrite app_length; lia|].
  intros l Hl. rewrite Oth by lia. cbn. now rewrite nth_error_app1.
Qed.

Lemma copy_eq H l d : nth_error (hp_obj E H) l = Some d -> h_copy E l H = (Ok (List.length (hp_obj E H)), with_new H d).
Proof. intros Hd. unfold h_copy, hbind, dict. now rewrite Hd. Qed.
Lemma drop_snd {A} (m : HM E A) H : snd (drop E m H) = snd (m H).
Proof. unfold drop. now destruct (m H) as [[]]. Qed.

Lemma bind_ok {A B} (hm : HM E A) (f : A -> HM E B) H a H1 : hm H = (Ok a, H1) -> hbind E hm f H = f a H1.
Proof. intros K. unfold hbind. now rewrite K. Qed.
Lemma aberrate_new H l ab : wf E H -> (l < List.length (hp_obj E H))%nat ->
  wf E (snd (h_aberrate E ab l H)) /\ only_new H (snd (h_aberrate E ab l H)).
Proof.
  intros W Hl. destruct (nth_error (hp_obj E H) l) as [d|] eqn:Hd; [|apply nth_error_None in Hd; lia].
  unfold h_aberrate. rewrite (bind_ok _ _ H (ho_cls d) H) by (unfold h_cls, hbind, dict; now rewrite Hd).
  destruct (ho_cls d); [|cbn; split; [exact W|apply only_new_refl]].
  rewrite (bind_ok _ _ H _ _ (copy_eq H l d Hd)). apply (new_then H d _ (top E) W (W l d Hd)); [|exact I].
  apply tame_bind; [exact mono_top|apply tame_params|intros P]. apply tame_bind; [exact mono_top|apply tame_lift|intros [q|]]; [|apply tame_ret].
  apply tame_bind; [exact mono_top|apply tame_apply|intros _; apply tame_ret].
Qed.
Lemma generate_new H l p zs zr : wf E H -> (l < List.length (hp_obj E H))%nat -> (forall z, zr = Some z -> zarg_ok E H z) ->
  wf E (snd (h_generate E p zs zr l H)) /\ only_new H (snd (h_generate E p zs zr l H)).
Proof.
  intros W Hl Kz. destruct (nth_error (hp_obj E H) l) as [d|] eqn:Hd; [|apply nth_error_None in Hd; lia].
  unfold h_generate. rewrite (bind_ok _ _ H _ _ (copy_eq H l d Hd)).
  set (P := fun H : heap => forall z, zr = Some z -> zarg_ok E H z). assert (MP : mono P) by apply mono_all.
  apply (new_then H d _ P W (W l d Hd)); [|exact Kz].
  apply tame_bind; [exact MP| |intros _]. { destruct zs; [|apply tame_ret]. apply tame_assign. discriminate. }
  apply tame_bind; [exact MP| |intros _]. { destruct zr as [z|]; [|apply tame_ret]. apply tame_assign. intros H' z' K [= <-]. now apply K. }
  apply tame_bind; [exact MP|apply tame_apply|intros _]. eapply sim_tame. apply (sim_read E _ P Hanser PSFi).
Qed.
Lemma construct_new H c k zr : wf E H -> (forall z, zr = Some z -> zarg_ok E H z) ->
  wf E (snd (h_construct E c k zr H)) /\ only_new H (snd (h_construct E c k zr H)).
Proof.
  intros W Kz. unfold h_construct. rewrite (bind_ok _ _ H (List.length (hp_obj E H)) (with_new H (blank c))) by reflexivity.
  set (P := fun H : heap => forall z, zr = Some z -> zarg_ok E H z). assert (MP : mono P) by apply mono_all.
  assert (O : obj_ok E H (blank c)) by (split; discriminate). apply (new_then H (blank c) _ P W O); [|exact Kz].
  do 9 (apply tame_bind; [exact MP|apply tame_assign; discriminate|intros _]).
  apply tame_bind; [exact MP| |intros _; apply tame_ret].
  destruct c.
  - destruct zr as [z|]; [|eapply sim_tame, sim_gen_zrange]. intros H' W' Hl K. destruct (view_some H' _ Hl) as [o V].
    destruct (sim_zrange_set E _ z (zval E H' z) H' o W' V (conj (K z eq_refl) eq_refl)) as (A1 & A2 & _). auto.
  - eapply sim_tame, sim_dual.
Qed.

Lemma class_some H l : (l < List.length (hp_obj E H))%nat -> exists c, class_of E H l = Some c.
Proof. intros Hl. unfold class_of. destruct (nth_error (hp_obj E H) l) eqn:Ho; [cbn; eauto|]. apply nth_error_None in Ho. lia. Qed.
Lemma class_lt H l c : class_of E H l = Some c -> (l < List.length (hp_obj E H))%nat.
Proof. unfold class_of. destruct (nth_error (hp_obj E H) l) eqn:Ho; [|discriminate]. intros _. apply nth_error_Some. congruence. Qed.
Lemma only_new_class H H' l : only_new H H' -> (l < List.length (hp_obj E H))%nat -> class_of E H' l = class_of E H l.
Proof. intros (_ & _ & O) Hl. unfold class_of. now rewrite O. Qed.

(** one step, seen from object [l] *)
Lemma step_view x H l c o : wf E H -> legal_step E H x -> view E H l = Some o -> class_of E H l = Some c ->
  let H' := snd (do_step E x H) in
  wf E H' /\ grows E H H' /\ (List.length (hp_obj E H) <= List.length (hp_obj E H'))%nat /\ class_of E H' l = Some c /\
  view E H' l = Some (run E c (own_op E l x H) o) /\
  (~ addressed E l x -> nth_error (hp_obj E H') l = nth_error (hp_obj E H) l).
Proof.
  intros W L V Cl. pose proof (view_lt _ _ _ V) as Hl. cbv zeta.
  assert (NEW : forall H', wf E H' -> only_new H H' -> wf E H' /\ grows E H H' /\ (List.length (hp_obj E H) <= List.length (hp_obj E H'))%nat /\ class_of E H' l = Some c /\
                  view E H' l = Some (run E c [] o) /\ (nth_error (hp_obj E H') l = nth_error (hp_obj E H) l)).
  { intros H' W' ON. split; [exact W'|]. split; [apply ON|]. split; [apply ON|]. split; [now rewrite (only_new_class H H' l ON Hl)|]. split; [now rewrite (only_new_view H H' l ON W Hl)|]. now apply ON. }
  assert (LOC : forall l' H' o1, wf E H' -> local E l' H H' -> (l' = l -> view E H' l = Some o1) ->
            wf E H' /\ grows E H H' /\ (List.length (hp_obj E H) <= List.length (hp_obj E H'))%nat /\ class_of E H' l = Some c /\
            view E H' l = Some (if Nat.eqb l' l then o1 else o) /\ (l' <> l -> nth_error (hp_obj E H') l = nth_error (hp_obj E H) l)).
  { intros l' H' o1 W' (G & Len & Oth & Cls) Vo. split; [exact W'|]. split; [exact G|]. split; [lia|]. destruct (Nat.eqb_spec l' l) as [->|Hne].
    - rewrite Cls. split; [exact Cl|]. split; [auto|]. congruence.
    - unfold class_of. rewrite Oth by auto. split; [exact Cl|]. split; [|auto]. rewrite <- V. apply view_grows; auto. }
  destruct x as [r|k ctr zr|l'|l' s|l' s|l' p|l' ab|l' p zs zr]; cbn [legal_step] in L.
  - cbn [do_step]. rewrite drop_snd. destruct (NEW (snd (alloc_rng E r H))) as (A1 & A2 & A3 & A4 & A5 & A6).
    + intros l1 d Hd. cbn in Hd |- *. destruct (W l1 d Hd) as [O1 O2]. split; [|exact O2]. intros r1 Hr. destruct (O1 r1 Hr) as [xs Hx]. exists xs. cbn. rewrite nth_error_app1; auto. apply nth_error_Some. congruence.
    + split; [|cbn; auto]. split; [exists []; cbn; now rewrite app_nil_r|]. cbn. split; [rewrite app_length; lia|]. intros r1 xs Hx. rewrite nth_error_app1; auto. apply nth_error_Some. congruence.
    + repeat (split; auto).
  - cbn [do_step]. rewrite drop_snd. destruct (construct_new H k ctr zr W L) as [W' ON]. destruct (NEW _ W' ON) as (A1 & A2 & A3 & A4 & A5 & A6). repeat (split; auto).
  - cbn [do_step]. rewrite drop_snd. destruct (nth_error (hp_obj E H) l') as [d|] eqn:Hd; [|apply nth_error_None in Hd; lia].
    rewrite (copy_eq H l' d Hd). cbn [snd]. destruct (new_then H d (hret E tt) (top E) W (W l' d Hd) (tame_ret _ _ _) I) as [W' ON]. cbn in W', ON.
    destruct (NEW _ W' ON) as (A1 & A2 & A3 & A4 & A5 & A6). repeat (split; auto).
  - destruct L as [Hl' Kz]. cbn [do_step]. destruct (class_some H l' Hl') as [c' Hc']. rewrite Hc'. destruct (view_some H l' Hl') as [o' V'].
    destruct (sim_assign E l' c' s (as_value E H s) H o' W V' (conj Kz eq_refl)) as (W1 & L1 & V1 & _).
    destruct (LOC l' _ (snd (assign E c (as_value E H s) o)) W1 L1) as (A1 & A2 & A3 & A4 & A5 & A6).
    { intros ->. assert (c' = c) by congruence. assert (o' = o) by congruence. subst. exact V1. }
    repeat (split; [assumption|]). split; [|intros Hn; apply A6; exact Hn]. rewrite A5. cbn [own_op]. destruct (Nat.eqb l' l); reflexivity.
  - cbn [do_step]. destruct (class_some H l' L) as [c' Hc']. rewrite Hc'. destruct (view_some H l' L) as [o' V']. rewrite drop_snd.
    destruct (sim_read E l' (top E) c' s H o' W V' I) as (W1 & L1 & V1 & _).
    destruct (LOC l' _ (snd (read E c s o)) W1 L1) as (A1 & A2 & A3 & A4 & A5 & A6).
    { intros ->. assert (c' = c) by congruence. assert (o' = o) by congruence. subst. exact V1. }
    repeat (split; [assumption|]). split; [|intros Hn; apply A6; exact Hn]. rewrite A5. cbn [own_op]. destruct (Nat.eqb l' l); [|reflexivity]. cbn [run exec]. now destruct (read E c s o) as [[]].
  - cbn [do_step]. destruct (view_some H l' (class_lt _ _ _ L)) as [o' V'].
    destruct (sim_apply E l' (top E) p H o' W V' I) as (W1 & L1 & V1 & _).
    destruct (LOC l' _ (snd (apply_pupil E p o)) W1 L1) as (A1 & A2 & A3 & A4 & A5 & A6).
    { intros ->. assert (o' = o) by congruence. subst. exact V1. }
    repeat (split; [assumption|]). split; [|intros Hn; apply A6; exact Hn]. rewrite A5. cbn [own_op]. destruct (Nat.eqb_spec l' l) as [->|]; [|reflexivity]. cbn [run exec]. assert (c = Hanser) by congruence. subst. reflexivity.
  - cbn [do_step]. rewrite drop_snd. destruct (aberrate_new H l' ab W L) as [W' ON]. destruct (NEW _ W' ON) as (A1 & A2 & A3 & A4 & A5 & A6). repeat (split; auto).
  - cbn [do_step]. rewrite drop_snd. destruct L as [Hc Kz]. destruct (generate_new H l' p zs zr W (class_lt _ _ _ Hc) Kz) as [W' ON]. destruct (NEW _ W' ON) as (A1 & A2 & A3 & A4 & A5 & A6). repeat (split; auto).
Qed.
Lemma step_wf x H : wf E H -> legal_step E H x -> wf E (snd (do_step E x H)).
Proof.
  intros W L. destruct x as [r|k ctr zr|l'|l' s|l' s|l' p|l' ab|l' p zs zr]; cbn [legal_step] in L; cbn [do_step]; rewrite ?drop_snd.
  - intros l1 d Hd. cbn in Hd |- *. destruct (W l1 d Hd) as [O1 O2]. split; [|exact O2]. intros r1 Hr. destruct (O1 r1 Hr) as [xs Hx]. exists xs. cbn. rewrite nth_error_app1; auto. apply nth_error_Some. congruence.
  - now apply construct_new.
  - destruct (nth_error (hp_obj E H) l') as [d|] eqn:Hd; [|apply nth_error_None in Hd; lia].
    rewrite (copy_eq H l' d Hd). cbn [snd]. apply (new_spec H d W (W l' d Hd)).
  - destruct L as [Hl' Kz]. destruct (class_some H l' Hl') as [c' ->]. destruct (view_some H l' Hl') as [o' V']. apply (sim_assign E l' c' s (as_value E H s) H o' W V' (conj Kz eq_refl)).
  - destruct (class_some H l' L) as [c' ->]. rewrite drop_snd. destruct (view_some H l' L) as [o' V']. apply (sim_read E l' (top E) c' s H o' W V' I).
  - destruct (view_some H l' (class_lt _ _ _ L)) as [o' V']. apply (sim_apply E l' (top E) p H o' W V' I).
  - now apply aberrate_new.
  - destruct L as [Hc Kz]. now apply generate_new; [|apply (class_lt _ _ _ Hc)|].
Qed.
Lemma run_app' c h1 h2 (o : obj E) : run E c (h1 ++ h2) o = run E c h2 (run E c h1 o).
Proof. revert o. induction h1 as [|x h1 IH]; intros o; cbn; auto. Qed.
Lemma prog_view h : forall H l c o, wf E H -> legal E H h -> view E H l = Some o -> class_of E H l = Some c ->
  wf E (prog E h H) /\ grows E H (prog E h H) /\ class_of E (prog E h H) l = Some c /\ view E (prog E h H) l = Some (run E c (own_ops E l h H) o) /\
  ((forall x, In x h -> ~ addressed E l x) -> nth_error (hp_obj E (prog E h H)) l = nth_error (hp_obj E H) l).
Proof.
  induction h as [|x h IH]; intros H l c o W L V Cl; cbn [prog own_ops].
  - repeat (split; auto). apply grows_refl.
  - inversion L as [|? ? ? L1 L2]; subst. destruct (step_view x H l c o W L1 V Cl) as (W1 & G1 & _ & C1 & V1 & N1). cbv zeta in *.
    destruct (IH _ l c _ W1 L2 V1 C1) as (W2 & G2 & C2 & V2 & N2). split; [exact W2|]. split; [exact (grows_trans E _ _ _ G1 G2)|]. split; [exact C2|].
    split; [rewrite V2; now rewrite run_app'|]. intros Hn. rewrite N2; [apply N1; apply Hn; now left|]. intros y Hy. apply Hn. now right.
Qed.
Lemma prog_wf h : forall H, wf E H -> legal E H h -> wf E (prog E h H).
Proof. induction h as [|x h IH]; intros H W L; cbn [prog]; auto. inversion L; subst. apply IH; auto. now apply step_wf. Qed.
End Prog.
