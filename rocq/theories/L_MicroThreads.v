(** Lemmas about threads that read microscopes (after L_Threads.v). *)
From Verif Require Export L_MicroSteps3 L_Threads.
Import M_Array.
Local Open Scope R_scope.

Lemma nth_set_same {A} (l : list A) : forall i x, (i < List.length l)%nat -> nth_error (set_nth i x l) i = Some x.
Proof. induction l as [|y l IH]; intros [|i] x H; cbn in *; try lia; auto. apply IH. lia. Qed.
Lemma nth_set_other {A} (l : list A) : forall i j x, i <> j -> nth_error (set_nth i x l) j = nth_error l j.
Proof. induction l as [|y l IH]; intros [|i] [|j] x H; cbn; auto; try congruence. Qed.
Lemma mlk_eqb_eq a b : mlk_eqb a b = true <-> a = b.
Proof.
  split; [|intros <-; destruct a as [l| |]; cbn; auto; now apply lk_eqb_eq].
  destruct a as [l| |], b as [l'| |]; cbn; intros H; try discriminate; try reflexivity. apply lk_eqb_eq in H. now subst.
Qed.

Section T.
Context (X : mixture numeric) (LX : lawful numeric X) (b : bool).
Context (M0 : nat -> micro).
Definition pupils_of (x : nat) (g gx : option (pupil numeric)) : Prop :=
  Inv numeric (mi_cls (M0 x)) (mi_model (M0 x)) g /\ Inv numeric (mi_cls (M0 x)) (mi_exc (M0 x)) gx.
Context (IM : forall x, exists g gx, pupils_of x g gx).
Notation mstep := (mstep X b).
Notation mplay := (mplay X b).

Definition mright (j : mjob) (r : res mview) : Prop := r = right_answer (M0 (fst j)) (snd j).
Definition MJ (x : nat) (s : mmem) : Prop := forall g gx, pupils_of x g gx -> JM (M0 x) g gx (q_m s).
Definition MK (x : nat) := know (M0 x).

Definition mthread_ok (mm : nat -> mmem) (h : list mlk) (t : mthread) : Prop :=
  Forall (fun jr => mright (fst jr) (snd jr)) (mt_log t) /\
  match mt_now t with
  | None => h = []
  | Some (j, p) => forall g gx, pupils_of (fst j) g gx -> exists n x, MGood (M0 (fst j)) g gx (mright j) [] n x h p /\ MK (fst j) n x (mm (fst j))
  end.
Record MInv (H : nat -> list mlk) (w : mworld) : Prop := {
  mi_mem : forall x, MJ x (mw_mem w x);
  mi_thr : forall i t, nth_error (mw_threads w) i = Some t -> mthread_ok (mw_mem w) (H i) t;
  mi_out : forall i, nth_error (mw_threads w) i = None -> H i = [];
  mi_own : forall l i, mw_owner w l = Some i <-> In l (H i);
  mi_nodup : forall i, NoDup (H i) }.
Definition set_h (i : nat) (h : list mlk) (H : nat -> list mlk) : nat -> list mlk := fun j => if Nat.eqb i j then h else H j.
Lemma set_h_same i h H : set_h i h H i = h. Proof. unfold set_h. now rewrite Nat.eqb_refl. Qed.
Lemma set_h_other i j h H : i <> j -> set_h i h H j = H j.
Proof. unfold set_h. intros. destruct (Nat.eqb_spec i j); congruence. Qed.
Lemma mthread_ok_stable mm mm' h t : (forall x, L_MicroSteps.keeps (M0 x) (mm x) (mm' x)) -> mthread_ok mm h t -> mthread_ok mm' h t.
Proof.
  intros Hs [Hl Hn]. split; auto. destruct (mt_now t) as [[j p]|]; auto. intros g gx V. destruct (Hn g gx V) as (n & x & Hg & Hf). exists n, x. split; auto.
  eapply know_keeps; [apply Hs|exact Hf].
Qed.
Lemma minv_local H w i t t' :
  MInv H w -> nth_error (mw_threads w) i = Some t -> mthread_ok (mw_mem w) (H i) t' ->
  MInv H (mkMWorld (mw_mem w) (mw_owner w) (set_nth i t' (mw_threads w))).
Proof.
  intros [I1 I2 I3 I4 I5] Ht Ht'. pose proof (nth_lt _ _ _ Ht) as Hlt. constructor; cbn; auto.
  - intros j u Hj. destruct (Nat.eq_dec i j) as [<-|Hne].
    + rewrite nth_set_same in Hj by auto. now injection Hj as <-.
    + rewrite nth_set_other in Hj by auto. now apply I2.
  - intros j Hj. apply I3. destruct (Nat.eq_dec i j) as [<-|Hne].
    + rewrite nth_set_same in Hj by auto. discriminate.
    + now rewrite nth_set_other in Hj.
Qed.
Lemma minv_step H w i w' : MInv H w -> mstep i w = Some w' -> exists H', MInv H' w'.
Proof.
  intros HI Hs. unfold M_MicroSteps.mstep in Hs. destruct (nth_error (mw_threads w) i) as [t|] eqn:Ht; [|discriminate].
  pose proof (nth_lt _ _ _ Ht) as Hlt. pose proof (mi_thr _ _ HI i t Ht) as [Hlog Hnow].
  destruct (mt_now t) as [[j p]|] eqn:Enow.
  - destruct (IM (fst j)) as (g0 & gx0 & V0). destruct (Hnow g0 gx0 V0) as (n0 & x0 & Hg0 & Hf0). destruct p as [r|f k|l k|l k].
    + injection Hs as <-. exists H. apply minv_local with t; auto.
      assert (HQ : mright j r /\ H i = []) by (inversion Hg0; auto). destruct HQ as [HQ Hh]. split; cbn [mt_log mt_now]; auto.
    + injection Hs as <-.
      assert (W : forall g gx, pupils_of (fst j) g gx -> JM (M0 (fst j)) g gx (q_m (f (mw_mem w (fst j)))) /\ L_MicroSteps.keeps (M0 (fst j)) (mw_mem w (fst j)) (f (mw_mem w (fst j))) /\
        exists n x, MGood (M0 (fst j)) g gx (mright j) [] n x (H i) (k (mw_mem w (fst j))) /\ MK (fst j) n x (f (mw_mem w (fst j)))).
      { intros g gx V. destruct (Hnow g gx V) as (n & x & Hg & Hf).
        destruct (MG_step_inv _ _ _ _ _ _ _ _ _ _ Hg (mw_mem w (fst j)) (mi_mem _ _ HI (fst j) g gx V) Hf) as (W1 & W2 & n2 & x2 & W3 & W4). eauto 8. }
      pose proof (proj1 (proj2 (W g0 gx0 V0))) as W2.
      destruct HI as [I1 I2 I3 I4 I5].
      assert (St : forall x, L_MicroSteps.keeps (M0 x) (mw_mem w x) (set_mem (fst j) (f (mw_mem w (fst j))) (mw_mem w) x)).
      { intros y. unfold set_mem. destruct (Nat.eqb_spec (fst j) y) as [<-|]; [exact W2|apply keeps_refl]. }
      exists H. constructor; cbn; auto.
      * intros y. unfold set_mem. destruct (Nat.eqb_spec (fst j) y) as [<-|]; [intros g gx V; apply (W g gx V)|apply I1].
      * intros q u Hq. destruct (Nat.eq_dec i q) as [<-|Hne].
        -- rewrite nth_set_same in Hq by auto. injection Hq as <-. split; cbn [mt_log mt_now]; auto. intros g gx V.
           unfold set_mem. rewrite Nat.eqb_refl. apply (W g gx V).
        -- rewrite nth_set_other in Hq by auto. eapply mthread_ok_stable; [exact St|]. now apply I2.
      * intros q Hq. apply I3. destruct (Nat.eq_dec i q) as [<-|Hne].
        -- rewrite nth_set_same in Hq by auto. discriminate.
        -- now rewrite nth_set_other in Hq.
    + destruct (mw_owner w l) eqn:Eo; [discriminate|]. injection Hs as <-. destruct HI as [I1 I2 I3 I4 I5].
      assert (Hin : forall q, ~ In l (H q)) by (intros q Hq; apply I4 in Hq; congruence).
      exists (set_h i (l :: H i) H). constructor; cbn; auto.
      * intros q u Hq. destruct (Nat.eq_dec i q) as [<-|Hne].
        -- rewrite nth_set_same in Hq by auto. injection Hq as <-. rewrite set_h_same. split; cbn [mt_log mt_now]; auto. intros g gx V. destruct (Hnow g gx V) as (n & x & Hg & Hf). exists n, x. split; auto.
           inversion Hg; auto.
        -- rewrite nth_set_other in Hq by auto. rewrite set_h_other by auto. now apply I2.
      * intros q Hq. destruct (Nat.eq_dec i q) as [<-|Hne].
        -- rewrite nth_set_same in Hq by auto. discriminate.
        -- rewrite nth_set_other in Hq by auto. rewrite set_h_other by auto. auto.
      * intros l' q. unfold set_owner. destruct (mlk_eqb l l') eqn:El.
        -- apply mlk_eqb_eq in El. subst l'. split.
           ++ intros [= <-]. rewrite set_h_same. now left.
           ++ destruct (Nat.eq_dec i q) as [<-|Hne]; auto. rewrite set_h_other by auto. intros Hq. now elim (Hin q).
        -- rewrite I4. destruct (Nat.eq_dec i q) as [<-|Hne]; [|now rewrite set_h_other]. rewrite set_h_same. cbn. split; auto.
           intros [->|]; auto. pose proof (proj2 (mlk_eqb_eq l' l') eq_refl). congruence.
      * intros q. destruct (Nat.eq_dec i q) as [<-|Hne]; [|rewrite set_h_other by auto; auto]. rewrite set_h_same. constructor; auto.
    + injection Hs as <-. destruct HI as [I1 I2 I3 I4 I5].
      assert (Hh : exists h, H i = l :: h) by (inversion Hg0; subst; eauto). destruct Hh as (h & Hh).
      pose proof (I5 i) as Hnd. rewrite Hh in Hnd. inversion Hnd as [|? ? Hni Hnd']; subst.
      assert (Hq : forall q, i <> q -> ~ In l (H q)).
      { intros q Hne Hq. apply I4 in Hq. assert (mw_owner w l = Some i) by (apply I4; rewrite Hh; now left). congruence. }
      exists (set_h i h H). constructor; cbn; auto.
      * intros q u Hu. destruct (Nat.eq_dec i q) as [<-|Hne].
        -- rewrite nth_set_same in Hu by auto. injection Hu as <-. rewrite set_h_same. split; cbn [mt_log mt_now]; auto. intros g gx V. destruct (Hnow g gx V) as (n & x & Hg & Hf). exists n, x. split; auto.
           rewrite Hh in Hg. inversion Hg; subst; auto.
        -- rewrite nth_set_other in Hu by auto. rewrite set_h_other by auto. now apply I2.
      * intros q Hu. destruct (Nat.eq_dec i q) as [<-|Hne].
        -- rewrite nth_set_same in Hu by auto. discriminate.
        -- rewrite nth_set_other in Hu by auto. rewrite set_h_other by auto. auto.
      * intros l' q. unfold set_owner. destruct (mlk_eqb l l') eqn:El.
        -- apply mlk_eqb_eq in El. subst l'. split; [discriminate|]. destruct (Nat.eq_dec i q) as [<-|Hne].
           ++ rewrite set_h_same. intros. contradiction.
           ++ rewrite set_h_other by auto. intros Hx. now elim (Hq q).
        -- rewrite I4. destruct (Nat.eq_dec i q) as [<-|Hne]; [|now rewrite set_h_other]. rewrite set_h_same, Hh. cbn. split; auto.
           intros [->|]; auto. pose proof (proj2 (mlk_eqb_eq l' l') eq_refl). congruence.
      * intros q. destruct (Nat.eq_dec i q) as [<-|Hne]; [|rewrite set_h_other by auto; auto]. rewrite set_h_same. auto.
  - destruct (mt_todo t) as [|j todo] eqn:Etodo; [discriminate|]. injection Hs as <-. exists H. apply minv_local with t; auto.
    split; cbn [mt_log mt_now]; auto. intros g gx [V1 V2]. exists 0%nat, 0%nat. split; [|apply know0]. rewrite Hnow. apply (MG_ask X LX b (M0 (fst j)) g gx V1 V2).
Qed.
Lemma minv_play s : forall H w, MInv H w -> exists H', MInv H' (mplay s w).
Proof.
  induction s as [|i s IH]; intros H w HI; cbn [M_MicroSteps.mplay]; [eauto|]. destruct (mstep i w) as [w'|] eqn:Es; [|eauto].
  destruct (minv_step H w i w' HI Es) as [H' HI']. eauto.
Qed.
Lemma minv_start objects jobs : (forall x, MJ x (objects x)) -> MInv (fun _ => []) (mstart objects jobs).
Proof.
  intros Hj. constructor; cbn; auto.
  - intros i t Hi. rewrite nth_error_map in Hi. destruct (nth_error jobs i); [|discriminate]. injection Hi as <-. split; cbn; auto.
  - intros l i. split; [discriminate|intros []].
  - intros i. constructor.
Qed.
Lemma mwaits_progress H w : MInv H w -> forall n i t j l k,
  (mrank l < n)%nat -> nth_error (mw_threads w) i = Some t -> mt_now t = Some (j, QLock l k) -> exists q, mstep q w <> None.
Proof.
  intros HI. induction n as [|n IH]; intros i t j l k Hr Ht Hn; [lia|].
  destruct (mw_owner w l) as [q|] eqn:Eo.
  - assert (Hq : In l (H q)) by now apply (mi_own _ _ HI).
    destruct (nth_error (mw_threads w) q) as [u|] eqn:Eu; [|rewrite (mi_out _ _ HI q Eu) in Hq; destruct Hq].
    destruct (mi_thr _ _ HI q u Eu) as [_ Hu]. destruct (mt_now u) as [[j' p]|] eqn:En; [|rewrite Hu in Hq; destruct Hq].
    destruct (IM (fst j')) as (g0 & gx0 & V0). destruct (Hu g0 gx0 V0) as (n' & x' & Hg & _). destruct p as [r|f k'|l' k'|l' k'].
    + assert (Hz : H q = []) by (inversion Hg; auto). rewrite Hz in Hq. destruct Hq.
    + exists q. unfold M_MicroSteps.mstep. rewrite Eu, En. discriminate.
    + apply (IH q u j' l' k'); auto. inversion Hg; subst. match goal with F : Forall _ _ |- _ => rewrite Forall_forall in F; specialize (F l Hq) end. lia.
    + exists q. unfold M_MicroSteps.mstep. rewrite Eu, En. discriminate.
  - exists i. unfold M_MicroSteps.mstep. rewrite Ht, Hn, Eo. discriminate.
Qed.
Lemma mprogress H w i t : MInv H w -> nth_error (mw_threads w) i = Some t -> ~ (mt_now t = None /\ mt_todo t = []) -> exists q, mstep q w <> None.
Proof.
  intros HI Ht Hf. destruct (mt_now t) as [[j p]|] eqn:En.
  - destruct p as [r|f k|l k|l k]; try (exists i; unfold M_MicroSteps.mstep; rewrite Ht, En; discriminate).
    eapply mwaits_progress with (n := S (mrank l)); eauto.
  - destruct (mt_todo t) as [|j todo] eqn:Et; [elim Hf; now split|]. exists i. unfold M_MicroSteps.mstep. rewrite Ht, En, Et. discriminate.
Qed.
End T.

(** ** Every read takes a bounded number of steps *)
Section Bd.
Context (X : mixture numeric) (b : bool).
Inductive MBound {A} : nat -> qprog A -> Prop :=
| MB_done n r : MBound n (QDone r)
| MB_step n f k : (forall s, MBound n (k s)) -> MBound (S n) (QStep f k)
| MB_lock n l k : MBound n k -> MBound (S n) (QLock l k)
| MB_unlock n l k : MBound n k -> MBound (S n) (QUnlock l k).
Lemma MB_mono {A} (p : qprog A) : forall n n', MBound n p -> (n <= n')%nat -> MBound n' p.
Proof.
  induction p as [r|f k IH|l k IH|l k IH]; intros n n' H Hn; inversion H; subst; [constructor|..]; (destruct n' as [|n']; [lia|]); constructor; intros; eapply IH; eauto; lia.
Qed.
Lemma MB_bind {A B} (p : qprog A) (f : A -> qprog B) n d : MBound n p -> (forall x, MBound d (f x)) -> MBound (n + d) (qbind p f).
Proof.
  intros H Hf. revert n H. induction p as [[x|e]|g k IH|l k IH|l k IH]; intros n H; cbn [qbind]; try (inversion H; subst; cbn; constructor; intros; apply IH; auto; fail).
  eapply MB_mono; [apply Hf|lia].
Qed.
Lemma MB_release {A} l (p : qprog A) : forall n, MBound n p -> MBound (S n) (qrelease l p).
Proof.
  induction p as [r|g k IH|l' k IH|l' k IH]; intros n H; cbn [qrelease]; inversion H; subst; repeat constructor; intros; apply IH; auto.
Qed.
Lemma MB_model {A} (p : prog numeric A) : forall n, Bounded numeric n p -> MBound n (qmodel p).
Proof. induction p as [r|f k IH|l k IH|l k IH]; intros n H; inversion H; subst; cbn [qmodel]; constructor; auto. Qed.
Lemma MB_exc {A} (p : prog numeric A) : forall n, Bounded numeric n p -> MBound n (qexc p).
Proof. induction p as [r|f k IH|l k IH|l k IH]; intros n H; inversion H; subst; cbn [qexc]; constructor; auto. Qed.
Lemma MB_read_model t {A} (k : arr numeric -> A) :
  MBound 33 (qlook (fun s => qbind (qmodel (pread numeric X b (mi_cls (q_m s)) t)) (fun a => qret (k a)))).
Proof. constructor. intros s. apply (MB_bind _ _ 32 0); [apply MB_model, (Bounded_read numeric X b (fun _ => Hanser) (fun _ _ => None) (fun _ => None) (fun _ => None))|intros; constructor]. Qed.
Lemma MB_PSFi : MBound 33 (qmodel_PSFi X b). Proof. apply MB_read_model. Qed.
Lemma MB_OTFi : MBound 33 (qmodel_OTFi X b). Proof. apply (MB_read_model OTFi (fun a => (complexes a, finite_all a))). Qed.
Lemma MB_excPSFi : MBound 33 (qexc_PSFi X b).
Proof. constructor. intros s. apply (MB_bind _ _ 32 0); [apply MB_exc, (Bounded_read numeric X b (fun _ => Hanser) (fun _ _ => None) (fun _ => None) (fun _ => None))|intros; constructor]. Qed.
Lemma MB_get a : MBound 1 (qget a). Proof. constructor. intros s. destruct (mi_num (q_m s) a); constructor. Qed.
Lemma MB_asks {A} (f : micro -> A) : MBound 1 (qasks f). Proof. constructor. intros s. constructor. Qed.
Lemma MB_model_R a : MBound 1 (qmodel_R a).
Proof. apply (MB_bind _ _ 1 0); [|intros; constructor]. apply MB_model. constructor. intros m. destruct (o_attr (m_obj m) a); constructor. Qed.
Ltac mb n := apply (MB_bind _ _ n); [first [apply MB_get | apply MB_asks | apply MB_model_R | apply MB_PSFi | apply MB_OTFi | apply MB_excPSFi | apply MB_done]|intros ?].
Lemma MB_confocal : MBound 70 (qconfocal X b).
Proof.
  unfold qconfocal. cbv zeta. apply (MB_bind _ _ 1 69); [apply MB_model_R|intros ?]. apply (MB_bind _ _ 1 68); [apply MB_model_R|intros ?].
  apply (MB_bind _ _ 0 68); [constructor|intros ?]. apply (MB_bind _ _ 1 67); [apply MB_model_R|intros ?]. apply (MB_bind _ _ 0 67); [constructor|intros ?].
  apply (MB_bind _ _ 1 66); [apply MB_get|intros ?]. apply (MB_bind _ _ 0 66); [constructor|intros ?]. apply (MB_bind _ _ 33 33); [apply MB_PSFi|intros ?].
  apply (MB_bind _ _ 0 33); [destruct (Rlt_dec _ _); constructor|intros ?]. apply (MB_bind _ _ 33 0); [apply MB_excPSFi|intros ?]. constructor.
Qed.
Lemma MB_apotome : MBound 34 (qapotome X b).
Proof.
  unfold qapotome. apply (MB_bind _ _ 33 1); [apply MB_PSFi|intros ?]. apply (MB_bind _ _ 0 1); [constructor|intros ?]. apply (MB_bind _ _ 1 0); [apply MB_asks|intros ?].
  repeat (apply (MB_bind _ _ 0 0); [constructor|intros ?]). constructor.
Qed.
Lemma MB_sim_base : MBound 34 (qsim_base X b).
Proof.
  unfold qsim_base. cbv zeta. apply (MB_bind _ _ 1 33); [apply MB_asks|intros w].
  assert (G : forall w, MBound 33 (qbind (QDone (py_ge w (VInt 0))) (fun ok => if ok : bool then
        qbind (qmodel_OTFi X b) (fun o => if py_eq w (VInt 0) then qret (ifft_real (support (power (fst o))), snd o)
        else match M_Val.num w with
             | Some (FFin q) =>
                 qbind (QDone (r_max (power (fst o)))) (fun mx =>
                 qret (ifft_real (amap (wiener_factor (mx * Q2R q ^ 2)) (power (fst o))),
                       snd o && forallb (fun ix => if Req_EM_T (get (power (fst o)) ix + mx * Q2R q ^ 2) 0 then false else true) (all_ix (shape (power (fst o))))))
             | _ => qbind (QDone (r_max (power (fst o)))) (fun _ => qret (power (fst o), false))
             end) else QDone (Err ValueError)))).
  { intros u. apply (MB_bind _ _ 0 33); [constructor|intros [|]; [|constructor]]. apply (MB_bind _ _ 33 0); [apply MB_OTFi|intros o].
    destruct (py_eq u (VInt 0)); [constructor|]. destruct (M_Val.num u) as [[]|]; apply (MB_bind _ _ 0 0); intros; constructor. }
  destruct w; first [apply MB_PSFi | apply G].
Qed.
Lemma MB_sim : MBound 41 (qsim X b).
Proof.
  unfold qsim. cbv zeta. apply (MB_bind _ _ 1 40); [apply MB_asks|intros ?]. do 5 (apply (MB_bind _ _ 0 40); [constructor|intros ?]).
  apply (MB_bind _ _ 1 39); [apply MB_get|intros ?]. do 2 (apply (MB_bind _ _ 0 39); [constructor|intros ?]). apply (MB_bind _ _ 1 38); [apply MB_get|intros ?].
  do 2 (apply (MB_bind _ _ 0 38); [constructor|intros ?]). apply (MB_bind _ _ 34 4); [apply MB_sim_base|intros ?].
  apply (MB_bind _ _ 1 3); [apply MB_get|intros ?]. apply (MB_bind _ _ 1 2); [apply MB_get|intros ?]. apply (MB_bind _ _ 1 1); [apply MB_get|intros ?]. apply (MB_bind _ _ 1 0); [apply MB_asks|intros ?].
  destruct (py_bool _); constructor.
Qed.
Lemma MB_model_psf : MBound 71 (qmodel_psf X b).
Proof.
  constructor. intros s. destruct (mi_kind (q_m s)); [eapply MB_mono; [apply MB_PSFi|lia]|apply MB_confocal|eapply MB_mono; [apply MB_apotome|lia]|eapply MB_mono; [apply MB_sim|lia]].
Qed.
Lemma MB_compute : MBound 73 (qcompute X b).
Proof.
  apply (MB_bind _ _ 71 2); [apply MB_model_psf|intros ?]. apply (MB_bind _ _ 1 1); [apply MB_get|intros ?]. apply (MB_bind _ _ 1 0); [apply MB_asks|intros ?].
  apply (MB_bind _ _ 0 0); intros; constructor.
Qed.
Lemma MB_cached {A} l (found : micro -> option A) store p n : MBound n p -> MBound (n + 5) (qcached b l found store p).
Proof.
  intros H. unfold qcached. replace (n + 5)%nat with (S (n + 4)) by lia. constructor. intros m.
  assert (F : MBound (n + 1) (qbind p (fun x => qdo (store x) (qret x)))) by (apply MB_bind; auto; repeat constructor).
  destruct (found (q_m m)); [constructor|]. destruct b; [|eapply MB_mono; [exact F|lia]].
  replace (n + 4)%nat with (S (S (S (n + 1)))) by lia. constructor. apply MB_release. constructor. intros m'.
  destruct (found (q_m m')); [constructor|exact F].
Qed.
Lemma MB_PSF : MBound 78 (qPSF X b). Proof. apply (MB_cached _ _ _ _ 73), MB_compute. Qed.
Lemma MB_OTF : MBound 83 (qOTF X b).
Proof. apply (MB_cached _ _ _ _ 78). apply (MB_bind _ _ 78 0); [apply MB_PSF|intros; constructor]. Qed.
Lemma MB_ask x : MBound 83 (qask X b x).
Proof.
  destruct x; cbn [qask].
  - apply (MB_bind _ _ 83 0); [eapply MB_mono; [apply MB_PSF|lia]|intros; constructor].
  - apply (MB_bind _ _ 83 0); [apply MB_OTF|intros; constructor].
  - apply (MB_bind _ _ 83 0); [eapply MB_mono; [apply MB_model_psf|lia]|intros; constructor].
Qed.
Inductive mleft_t : mthread -> nat -> Prop :=
| mleft_idle todo log : mleft_t (mkMThread None todo log) (85 * List.length todo)
| mleft_busy j p n todo log : MBound n p -> mleft_t (mkMThread (Some (j, p)) todo log) (S n + 85 * List.length todo).
Definition mleft_w (w : mworld) (n : nat) : Prop := exists ns, Forall2 mleft_t (mw_threads w) ns /\ n = list_sum ns.
Lemma mleft_upd ts : forall ns i t t', Forall2 mleft_t ts ns -> nth_error ts i = Some t ->
  (forall n, mleft_t t n -> exists n', mleft_t t' n' /\ (n' < n)%nat) ->
  exists ns', Forall2 mleft_t (set_nth i t' ts) ns' /\ (list_sum ns' < list_sum ns)%nat.
Proof.
  induction ts as [|u ts IH]; intros ns [|i] t t' Hf Ht Hd; cbn in Ht; try discriminate; inversion Hf as [|? n ? ns0 Hu Hr]; subst; cbn [set_nth].
  - injection Ht as ->. destruct (Hd n Hu) as (n' & Hn' & Hlt). exists (n' :: ns0). split; [constructor; auto|]. cbn. lia.
  - destruct (IH ns0 i t t' Hr Ht Hd) as (ns' & Hf' & Hlt). exists (n :: ns'). split; [constructor; auto|]. cbn. unfold list_sum in Hlt. lia.
Qed.
Lemma mleft_step w i w' n : mleft_w w n -> mstep X b i w = Some w' -> exists n', mleft_w w' n' /\ (n' < n)%nat.
Proof.
  intros (ns & Hf & ->) Hs. unfold mstep in Hs. destruct (nth_error (mw_threads w) i) as [t|] eqn:Ht; [|discriminate].
  assert (G : forall t' mm oo, (forall n, mleft_t t n -> exists n', mleft_t t' n' /\ (n' < n)%nat) ->
            exists n', mleft_w (mkMWorld mm oo (set_nth i t' (mw_threads w))) n' /\ (n' < list_sum ns)%nat).
  { intros t' mm oo Hd. destruct (mleft_upd _ ns i t t' Hf Ht Hd) as (ns' & H1 & H2). exists (list_sum ns'). split; [exists ns'; auto|exact H2]. }
  destruct t as [[[j p]|] todo log]; cbn [mt_now mt_todo mt_log] in Hs.
  - destruct p as [r|f k|l k|l k]; [..|destruct (mw_owner w l); [discriminate|]|]; injection Hs as <-; apply G; intros n Hn; inversion Hn; subst.
    + exists (85 * List.length todo)%nat. split; [constructor|lia].
    + match goal with B : MBound _ _ |- _ => inversion B; subst end. eexists. split; [constructor; eauto|lia].
    + match goal with B : MBound _ _ |- _ => inversion B; subst end. eexists. split; [constructor; eauto|lia].
    + match goal with B : MBound _ _ |- _ => inversion B; subst end. eexists. split; [constructor; eauto|lia].
  - destruct todo as [|j todo]; [discriminate|]. injection Hs as <-. apply G. intros n Hn. inversion Hn; subst.
    exists (S 83 + 85 * List.length todo)%nat. split; [constructor; apply MB_ask|]. cbn [List.length]. lia.
Qed.
Definition masked (t : mthread) : list mjob :=
  (rev (map fst (mt_log t)) ++ match mt_now t with Some (j, _) => [j] | None => [] end ++ mt_todo t)%list.
Lemma masked_step w i w' : mstep X b i w = Some w' -> map masked (mw_threads w') = map masked (mw_threads w).
Proof.
  intros Hs. unfold mstep in Hs. destruct (nth_error (mw_threads w) i) as [t|] eqn:Ht; [|discriminate].
  assert (G : forall (ts : list mthread) i t', nth_error ts i = Some t -> masked t' = masked t -> map masked (set_nth i t' ts) = map masked ts).
  { induction ts as [|u ts IH]; intros [|q] t' Hq Ha; cbn in *; try discriminate; [injection Hq as ->|]; f_equal; auto. }
  destruct t as [[[j p]|] todo log]; cbn [mt_now mt_todo mt_log] in Hs.
  - destruct p as [r|f k|l k|l k]; [..|destruct (mw_owner w l); [discriminate|]|]; injection Hs as <-; cbn [mw_threads]; apply G; auto.
    unfold masked; cbn. now rewrite <- app_assoc.
  - destruct todo as [|j todo]; [discriminate|]. injection Hs as <-; cbn [mw_threads]. apply G; auto.
Qed.
Lemma masked_play s : forall w, map masked (mw_threads (mplay X b s w)) = map masked (mw_threads w).
Proof.
  induction s as [|i s IH]; intros w; cbn [mplay]; auto. rewrite IH. destruct (mstep X b i w) as [w'|] eqn:Es; auto. eapply masked_step; eauto.
Qed.
Lemma masked_start objects jobs : map masked (mw_threads (mstart objects jobs)) = jobs.
Proof. cbn. rewrite map_map. rewrite <- (map_id jobs) at 2. apply map_ext. reflexivity. Qed.
End Bd.
