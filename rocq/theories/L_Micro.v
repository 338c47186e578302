(** Construction of microscopes. *)
From Verif Require Import S_Micro L_PSF L_Ctor L_Phase5 T_PSF.
Import M_Array.
Local Open Scope string_scope.

Lemma dget_dupdate e : forall d k, NoDup (map fst e) -> dget (dupdate d e) k = match dget e k with Some v => Some v | None => dget d k end.
Proof.
  induction e as [|[k' v] e IH]; intros d k H; [reflexivity|]. cbn [dupdate dget]. inversion H as [|? ? Hn Hd]. subst. rewrite IH by assumption. rewrite dget_dset.
  destruct (String.eqb_spec k k') as [->|E]; [|reflexivity].
  assert (N : dget e k' = None). { clear - Hn. induction e as [|[a b] e IH]; [reflexivity|]. cbn in *. destruct (String.eqb_spec k' a) as [->|]; [tauto|]. apply IH. tauto. }
  now rewrite N.
Qed.
(** the dictionary psf_params *)
Definition params_spec (a : wargs) (size res : pyval) (k : string) : option kval :=
  if String.eqb k "size" then Some (KV size) else if String.eqb k "res" then Some (KV res)
  else match dget (w_kwargs a) k with
       | Some v => Some v
       | None => if String.eqb k "na" then Some (KV (w_na a)) else if String.eqb k "ni" then Some (KV (w_ni a)) else if String.eqb k "wl" then Some (KV (w_wl a))
                 else if String.eqb k "zres" then Some (KV (w_pixel a)) else if String.eqb k "zsize" then Some (KV (w_size a)) else None
       end.
Lemma params_get a sz rs k : NoDup (map fst (w_kwargs a)) ->
  dget (dset (dset (psf_params0 a) "size" (KV sz)) "res" (KV rs)) k = params_spec a sz rs k.
Proof.
  intros H. rewrite !dget_dset. unfold params_spec, psf_params0. rewrite dget_dupdate by assumption.
  destruct (String.eqb_spec k "res") as [->|E1]; [reflexivity|]. destruct (String.eqb_spec k "size") as [->|E2]; [reflexivity|].
  destruct (dget (w_kwargs a) k); [reflexivity|]. cbn [dget]. reflexivity.
Qed.
(** the keys *)
Lemma keys_dset d k v k' : In k' (map fst (dset d k v)) <-> k' = k \/ In k' (map fst d).
Proof.
  induction d as [|[a b] d IH]; cbn [dset map fst In]; [intuition|]. destruct (String.eqb_spec k a) as [->|E]; cbn [map fst In]; [intuition|]. rewrite IH. intuition.
Qed.
Lemma keys_dupdate e : forall d k, In k (map fst (dupdate d e)) <-> In k (map fst e) \/ In k (map fst d).
Proof. induction e as [|[a b] e IH]; intros d k; cbn [dupdate map fst In]; [intuition|]. rewrite IH, keys_dset. intuition. Qed.
Lemma keywords_ok c a sz rs :
  forallb (fun kv => existsb (String.eqb (fst kv)) (match c with Hanser => hanser_keywords | Sheppard => sheppard_keywords end))
    (dset (dset (psf_params0 a) "size" (KV sz)) "res" (KV rs)) = true <-> (forall k, In k (map fst (w_kwargs a)) -> In k (model_keywords c)).
Proof.
  rewrite forallb_forall. set (kw := match c with Hanser => hanser_keywords | Sheppard => sheppard_keywords end).
  assert (K : forall k, existsb (String.eqb k) kw = true <-> In k (model_keywords c)).
  { intros k. rewrite existsb_exists. unfold kw. split.
    - intros (y & Hy & Ey). apply String.eqb_eq in Ey. subst. destruct c; cbn in *; intuition.
    - intros H. exists k. split; [|apply String.eqb_refl]. destruct c; cbn in *; intuition. }
  split.
  - intros H k Hk. apply K. assert (I : In k (map fst (dset (dset (psf_params0 a) "size" (KV sz)) "res" (KV rs)))).
    { rewrite !keys_dset. unfold psf_params0. rewrite keys_dupdate. intuition. }
    apply in_map_iff in I. destruct I as ([k' v] & <- & I). apply (H _ I).
  - intros H [k v] I. cbn [fst]. apply K. assert (I' : In k (map fst (dset (dset (psf_params0 a) "size" (KV sz)) "res" (KV rs)))) by (apply in_map_iff; exists (k, v); auto).
    rewrite !keys_dset in I'. unfold psf_params0 in I'. rewrite keys_dupdate in I'. cbn [map fst In] in I'.
    destruct I' as [->|[->|[I'|I']]]; [destruct c; cbn; intuition|destruct c; cbn; intuition|auto|].
    destruct c; cbn in *; intuition.
Qed.
Lemma ctor_for_eq c a sz rs : kwargs_ok a -> (forall k, In k (map fst (w_kwargs a)) -> In k (model_keywords c)) ->
  ctor_for c (dset (dset (psf_params0 a) "size" (KV sz)) "res" (KV rs)) =
    (do z <- (match c with Hanser => zrange_kw (w_kwargs a) | Sheppard => Ok None end); Ok (model_ctor c a sz rs z)).
Proof.
  intros [Hn Hk] H. apply (keywords_ok c a sz rs) in H. set (d := dset _ _ _) in *.
  assert (G : forall k, dget d k = params_spec a sz rs k) by (intro; now apply params_get).
  assert (Kna : dget (w_kwargs a) "na" = None) by (apply Hk; cbn; tauto).
  assert (Kni : dget (w_kwargs a) "ni" = None) by (apply Hk; cbn; tauto).
  assert (Kwl : dget (w_kwargs a) "wl" = None) by (apply Hk; cbn; tauto).
  unfold ctor_for. destruct c.
  - unfold ctor_of. rewrite H. cbn [negb]. unfold required. rewrite !G. unfold params_spec at 1 2 3 4 5. cbn [String.eqb Ascii.eqb Bool.eqb]. rewrite Kna, Kni, Kwl. cbn [bind as_val].
    assert (Z : zrange_kw d = zrange_kw (w_kwargs a)). { unfold zrange_kw. rewrite G. unfold params_spec. cbn [String.eqb Ascii.eqb Bool.eqb]. destruct (dget (w_kwargs a) "zrange"); reflexivity. }
    rewrite Z. destruct (zrange_kw (w_kwargs a)) as [z|e]; [|reflexivity]. cbn [bind]. unfold model_ctor, optional, given_or. rewrite !G. unfold params_spec. cbn [String.eqb Ascii.eqb Bool.eqb].
    destruct (dget (w_kwargs a) "zres"), (dget (w_kwargs a) "zsize"), (dget (w_kwargs a) "vec_corr"), (dget (w_kwargs a) "condition"); reflexivity.
  - unfold ctor_of_sheppard. rewrite H. cbn [negb]. unfold required. rewrite !G. unfold params_spec at 1 2 3 4 5. cbn [String.eqb Ascii.eqb Bool.eqb]. rewrite Kna, Kni, Kwl. cbn [bind as_val].
    unfold model_ctor, optional, given_or. rewrite !G. unfold params_spec. cbn [String.eqb Ascii.eqb Bool.eqb].
    destruct (dget (w_kwargs a) "zres"), (dget (w_kwargs a) "zsize"), (dget (w_kwargs a) "vec_corr"), (dget (w_kwargs a) "condition"), (dget (w_kwargs a) "dual"); reflexivity.
Qed.
Lemma ctor_for_bad c a sz rs : ~ (forall k, In k (map fst (w_kwargs a)) -> In k (model_keywords c)) ->
  ctor_for c (dset (dset (psf_params0 a) "size" (KV sz)) "res" (KV rs)) = Err TypeError.
Proof.
  intros H. unfold ctor_for. destruct c; unfold ctor_of, ctor_of_sheppard.
  - destruct (forallb _ _) eqn:E; [|reflexivity]. destruct H. apply (keywords_ok Hanser a sz rs). exact E.
  - destruct (forallb _ _) eqn:E; [|reflexivity]. destruct H. apply (keywords_ok Sheppard a sz rs). exact E.
Qed.

(** ** The factor *)
Lemma int_value_as v n : int_value v = Some n -> as_int v = n /\ isinstance v TInt = true /\ M_Val.num v = Some (FFin (inject_Z n)).
Proof. destruct v as [z|[|]| | | | |]; cbn; intros [= <-]; auto. Qed.
Lemma set_os m v : m_set MOs v m =
  match int_value v with
  | None => (Err TypeError, m)
  | Some f => if (f <? 0)%Z then (Err ValueError, m)
              else if match mi_num m MOs with Some w => py_eq w v | None => false end then (Ok tt, m)
              else (Ok tt, m_changed (upd_num (fun b => if mattr_eqb MOs b then Some v else mi_num m b) m))
  end.
Proof.
  unfold m_set. cbn [has_prop mtype]. unfold numeric_fset, numeric_decide. destruct (int_value v) as [f|] eqn:Ev.
  - destruct (int_value_as v f Ev) as (_ & -> & En). cbn [negb]. unfold py_lt. rewrite En. change (M_Val.num (VInt 0)) with (Some (FFin (inject_Z 0))). cbn [bind].
    assert (L : fl_lt (FFin (inject_Z f)) (FFin (inject_Z 0)) = (f <? 0)%Z).
    { unfold fl_lt. cbn. unfold Qle_bool, Qeq_bool. cbn. rewrite !Z.mul_1_r. destruct (f <? 0)%Z eqn:E1; [apply Z.ltb_lt in E1|apply Z.ltb_ge in E1].
      - apply andb_true_iff. split; [apply Z.leb_le; lia|]. apply negb_true_iff. unfold Zeq_bool. destruct (Z.compare_spec f 0); [lia|reflexivity|reflexivity].
      - apply andb_false_iff. destruct (Z.eq_dec f 0) as [->|]; [right; reflexivity|left; apply Z.leb_gt; lia]. }
    rewrite L. destruct (f <? 0)%Z; [reflexivity|]. destruct (mi_num m MOs) as [w|]; [destruct (py_eq w v); reflexivity|].
    assert (Q : py_eq VNone v = false) by (unfold py_eq; cbn [M_Val.num]; now rewrite En). rewrite Q. reflexivity.
  - assert (I : isinstance v TInt = false) by (destruct v as [z|[|]| | | | |]; cbn in *; congruence). rewrite I. reflexivity.
Qed.
(** what the microscope is after wide_init *)
Definition wide_result (k : kind) (c : cls) (a : wargs) (sz rs : pyval) (o : obj numeric) : micro :=
  mkMicro k c (fun b => if mattr_eqb MOs b then Some (w_os a) else None) (dset (dset (psf_params0 a) "size" (KV sz)) "res" (KV rs)) (w_pixel a) o (empty_obj numeric) [] VNone None None.
Definition fine_pair (a : wargs) (f : Z) : res (pyval * pyval) :=
  if (f =? 1)%Z then Ok (w_size a, w_pixel a) else do s <- py_mul_int (w_size a) f; do r <- py_div_int (w_pixel a) f; Ok (s, r).
Lemma py_eq_self v n : int_value v = Some n -> py_eq v v = true.
Proof. intros H. destruct (int_value_as v n H) as (_ & _ & En). unfold py_eq. rewrite En. apply Qeq_bool_iff. reflexivity. Qed.
Lemma wide_eq k a : wide_init a (empty_micro k) =
  match int_value (w_os a) with
  | None => (Err TypeError, empty_micro k)
  | Some f =>
      if (f <? 0)%Z then (Err ValueError, empty_micro k)
      else let m1 := m_changed (upd_num (fun b => if mattr_eqb MOs b then Some (w_os a) else None) (empty_micro k)) in
        if Z.even f then (Err AssertionError, m1)
        else match (do p <- fine_pair a f; do c <- choose_model (w_model a);
                    do kk <- ctor_for c (dset (dset (psf_params0 a) "size" (KV (fst p))) "res" (KV (snd p)));
                    do o <- construct numeric c kk; Ok (wide_result k c a (fst p) (snd p) o)) with
             | Ok m => (Ok tt, m)
             | Err e => (Err e, m1)
             end
  end.
Proof.
  unfold wide_init. unfold mbind at 1. rewrite set_os. destruct (int_value (w_os a)) as [f|] eqn:Ev; [|reflexivity]. destruct (f <? 0)%Z eqn:En; [reflexivity|]. apply Z.ltb_ge in En.
  cbn [empty_micro mi_num]. cbv zeta. destruct (int_value_as _ _ Ev) as (-> & _ & _). rewrite Zmod_even. destruct (Z.even f) eqn:Ee; [reflexivity|]. cbn [negb Z.eqb Pos.eqb].
  assert (P : (0 < f)%Z) by (destruct (Z.eq_dec f 0) as [->|]; [discriminate|lia]). unfold fine_pair.
  assert (S2 : forall m, mi_num m MOs = Some (w_os a) -> m_set MOs (w_os a) m = (Ok tt, m)).
  { intros m Hm. rewrite set_os, Ev, (proj2 (Z.ltb_ge f 0) En), Hm, (py_eq_self _ _ Ev). reflexivity. }
  destruct (Z.eqb_spec f 1) as [->|H1].
  - unfold mret, mlift, mbind at 1. cbn [bind fst snd]. unfold mbind at 1. rewrite S2 by reflexivity. unfold mbind. destruct (choose_model (w_model a)) as [c|e]; cbn [bind]; [|reflexivity].
    destruct (ctor_for _ _) as [kk|e]; cbn [bind]; [|reflexivity]. destruct (construct _ _ _) as [o|e]; reflexivity.
  - assert (L : (1 <? f)%Z = true) by (apply Z.ltb_lt; lia). rewrite L. unfold mret, mlift, mbind at 1. destruct (py_mul_int (w_size a) f) as [s|e]; cbn [bind]; [|reflexivity].
    destruct (py_div_int (w_pixel a) f) as [r|e]; cbn [bind fst snd]; [|reflexivity]. unfold mbind at 1. rewrite S2 by reflexivity. unfold mbind. destruct (choose_model (w_model a)) as [c|e]; cbn [bind]; [|reflexivity].
    destruct (ctor_for _ _) as [kk|e]; cbn [bind]; [|reflexivity]. destruct (construct _ _ _) as [o|e]; reflexivity.
Qed.
Lemma fine_pair_ok a f p : (0 < f)%Z -> fine_pair a f = Ok p -> fine_size a f (fst p) /\ fine_res a f (snd p).
Proof.
  intros Hf. unfold fine_pair. destruct (Z.eqb_spec f 1) as [->|H1].
  - intros [= <-]. cbn. split; [intros n Hn; now rewrite Z.mul_1_r|]. intros q Hq. exists q. split; [exact Hq|]. field.
  - destruct (py_mul_int (w_size a) f) as [s|e] eqn:Es; cbn [bind]; [|discriminate]. destruct (py_div_int (w_pixel a) f) as [r|e] eqn:Er; cbn [bind]; [|discriminate]. intros [= <-]. cbn [fst snd]. split.
    + intros n Hn. destruct (w_size a) as [z|[|]| | | | |]; cbn in Hn; try discriminate; injection Hn as <-; cbn [py_mul_int] in Es; injection Es as <-; cbn; try reflexivity; destruct f; reflexivity.
    + intros q Hq. unfold py_div_int in Er.
      assert (Q : (do r <- fl_div (FFin q) (FFin (inject_Z f)); Ok (VFloat r)) = Ok r) by (destruct (w_pixel a); cbn in Hq; try discriminate; cbn [M_Val.num] in Er; injection Hq as <-; exact Er).
      unfold fl_div in Q. cbn [fl_zero] in Q. destruct (Qeq_bool (inject_Z f) 0) eqn:E0; [discriminate|]. cbn [bind] in Q. injection Q as <-. cbn. eexists. split; reflexivity.
Qed.
Lemma fine_pair_total a f n q : (0 < f)%Z -> int_value (w_size a) = Some n -> M_Val.num (w_pixel a) = Some (FFin q) -> exists p, fine_pair a f = Ok p.
Proof.
  intros Hf Hn Hq. unfold fine_pair. destruct (f =? 1)%Z; [eauto|].
  assert (S : exists s, py_mul_int (w_size a) f = Ok s) by (destruct (w_size a); cbn in *; try discriminate; eauto). destruct S as [s ->]. cbn [bind].
  assert (Z0 : Qeq_bool (inject_Z f) 0 = false) by (apply not_true_iff_false; rewrite Qeq_bool_iff; unfold Qeq; cbn; lia).
  assert (R : exists r, py_div_int (w_pixel a) f = Ok r).
  { unfold py_div_int, fl_div. cbn [fl_zero]. rewrite Z0. destruct (w_pixel a); try (cbn in Hq; discriminate); cbn; eauto. }
  destruct R as [r ->]. cbn. eauto.
Qed.
(** every successfully built microscope comes from one wide_result *)
Lemma built_wide_result a m : built_from a m ->
  exists k f p c kk o, mi_kind m = k /\ int_value (w_os a) = Some f /\ (0 < f)%Z /\ Z.even f = false /\ fine_pair a f = Ok p /\ choose_model (w_model a) = Ok c /\
    ctor_for c (dset (dset (psf_params0 a) "size" (KV (fst p))) "res" (KV (snd p))) = Ok kk /\ construct numeric c kk = Ok o /\
    mi_cls m = c /\ mi_params m = dset (dset (psf_params0 a) "size" (KV (fst p))) "res" (KV (snd p)) /\ mi_pixel m = w_pixel a /\ mi_model m = o /\
    mi_num m MOs = Some (w_os a).
Proof.
  assert (W : forall k u m1, wide_init a (empty_micro k) = (Ok u, m1) -> exists f p c kk o, int_value (w_os a) = Some f /\ (0 < f)%Z /\ Z.even f = false /\ fine_pair a f = Ok p /\ choose_model (w_model a) = Ok c /\
    ctor_for c (dset (dset (psf_params0 a) "size" (KV (fst p))) "res" (KV (snd p))) = Ok kk /\ construct numeric c kk = Ok o /\ m1 = wide_result k c a (fst p) (snd p) o).
  { intros k u m1. rewrite wide_eq. destruct (int_value (w_os a)) as [f|]; [|discriminate]. destruct (f <? 0)%Z eqn:E0; [discriminate|]. apply Z.ltb_ge in E0. destruct (Z.even f) eqn:Ee; [discriminate|].
    destruct (fine_pair a f) as [p|e] eqn:Ep; cbn [bind]; [|discriminate]. destruct (choose_model (w_model a)) as [c|e] eqn:Ec; cbn [bind]; [|discriminate].
    destruct (ctor_for c _) as [kk|e] eqn:Ek; cbn [bind]; [|discriminate]. destruct (construct numeric c kk) as [o|e] eqn:Eo; cbn [bind]; [|discriminate]. intros [= <- <-].
    exists f, p, c, kk, o. assert (P : (0 < f)%Z) by (destruct (Z.eq_dec f 0) as [->|]; [discriminate|lia]). auto 10. }
  intros [m' H|w p m' H|m' H|s m' H].
  - unfold WidefieldMicroscope, make in H. destruct (wide_init a _) as [[u|e] m1] eqn:E; [|discriminate]. injection H as ->. destruct (W _ _ _ E) as (f & p & c & kk & o & H1 & H2 & H3 & H4 & H5 & H6 & H7 & ->).
    exists Widefield, f, p, c, kk, o. cbn. auto 15.
  - unfold ConfocalMicroscope, make in H. destruct (confocal_init a _ _ _) as [[u|e] m1] eqn:E; [|discriminate]. injection H as ->. unfold confocal_init, mbind in E.
    destruct (wide_init a _) as [[u1|e] m1] eqn:E1; [|discriminate]. destruct (W _ _ _ E1) as (f & q & c & kk & o & H1 & H2 & H3 & H4 & H5 & H6 & H7 & ->).
    exists Confocal, f, q, c, kk, o. unfold m_set, numeric_fset in E. cbn [has_prop mi_kind wide_result] in E.
    destruct (numeric_decide _ _ _) as [[|]|]; [| |discriminate]; cbn [masks] in E; unfold on_exc in E; destruct (assign numeric _ _ _) as [r o1]; injection E as -> <-; cbn; auto 15.
  - unfold ApotomeMicroscope, make in H. destruct (wide_init a _) as [[u|e] m1] eqn:E; [|discriminate]. injection H as ->. destruct (W _ _ _ E) as (f & p & c & kk & o & H1 & H2 & H3 & H4 & H5 & H6 & H7 & ->).
    exists Apotome, f, p, c, kk, o. cbn. auto 15.
  - unfold BaseSIMMicroscope, make in H. destruct (sim_init a _ _) as [[u|e] m1] eqn:E; [|discriminate]. injection H as ->. unfold sim_init, mbind at 1 in E.
    destruct (wide_init a _) as [[u1|e] m1] eqn:E1; [|discriminate]. destruct (W _ _ _ E1) as (f & q & c & kk & o & H1 & H2 & H3 & H4 & H5 & H6 & H7 & ->).
    exists SIM, f, q, c, kk, o.
    set (m0 := wide_result SIM c a (fst q) (snd q) o) in *.
    assert (Hm0 : mi_kind m0 = SIM /\ mi_cls m0 = c /\ mi_params m0 = dset (dset (psf_params0 a) "size" (KV (fst q))) "res" (KV (snd q)) /\ mi_pixel m0 = w_pixel a /\ mi_model m0 = o /\ mi_num m0 MOs = Some (w_os a)) by (cbn; auto 10).
    set (I := fun x : micro => mi_kind x = SIM /\ mi_cls x = c /\ mi_params x = dset (dset (psf_params0 a) "size" (KV (fst q))) "res" (KV (snd q)) /\ mi_pixel x = w_pixel a /\ mi_model x = o /\ mi_num x MOs = Some (w_os a)).
    assert (Im : I m').
    { change (I m0) in Hm0. clearbody m0.
      assert (Sx : forall b v x r x', b <> MOs -> I x -> m_set b v x = (r, x') -> I x').
      { intros b v x r x' Hb Ix. unfold m_set, numeric_fset. destruct (has_prop _ _); [|intros [= <- <-]; exact Ix]. destruct (numeric_decide _ _ _) as [[|]|]; intros [= <- <-]; try exact Ix.
        destruct Ix as (I1 & I2 & I3 & I4 & I5 & I6). cbn. repeat split; try assumption. cbn. destruct b; try exact I6. congruence. }
      unfold mbind, masks, mlift in E. destruct (match s_na_exc s with VNone => _ | _ => _ end) as [na|e]; [|discriminate].
      destruct (m_set MNaExc na m0) as [[?|?] x1] eqn:F1; [|discriminate]. apply Sx in F1; [|discriminate|assumption].
      destruct (match s_wl_exc s with VNone => _ | _ => _ end) as [wl|e]; [|discriminate].
      destruct (m_set MWlExc wl x1) as [[?|?] x2] eqn:F2; [|discriminate]. apply Sx in F2; [|discriminate|assumption].
      destruct (m_set MCoherent _ x2) as [[?|?] x3] eqn:F3; [|discriminate]. apply Sx in F3; [|discriminate|assumption].
      destruct (m_set MDc _ x3) as [[?|?] x4] eqn:F4; [|discriminate]. apply Sx in F4; [|discriminate|assumption].
      destruct (m_set MDcSup _ x4) as [[?|?] x5] eqn:F5; [|discriminate]. apply Sx in F5; [|discriminate|assumption].
      destruct (py_lt _ _) as [[|]|]; try discriminate. injection E as <- <-. exact F5. }
    destruct Im as (I1 & I2 & I3 & I4 & I5 & I6). auto 15.
Qed.
