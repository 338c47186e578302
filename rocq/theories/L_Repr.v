(** The text of a microscope and its evaluation. *)
From Verif Require Import S_Repr L_PSF L_Ctor L_Micro T_PSF T_Micro2 T_Repr.
Import M_Array.
Local Open Scope string_scope.
Local Open Scope list_scope.

(** ** Dictionaries *)
Lemma dset_app_in d e k v : In k (map fst d) -> dset (d ++ e) k v = dset d k v ++ e.
Proof.
  induction d as [|[k' w] d IH]; [intros []|]. cbn [map fst In app dset]. intros H. destruct (String.eqb_spec k k') as [->|N]; [reflexivity|]. cbn [app]. f_equal. apply IH. destruct H; [congruence|assumption].
Qed.
Lemma dset_new d k v : ~ In k (map fst d) -> dset d k v = d ++ [(k, v)].
Proof.
  induction d as [|[k' w] d IH]; [reflexivity|]. cbn [map fst In app dset]. intros H. destruct (String.eqb_spec k k') as [->|N]; [tauto|]. f_equal. apply IH. tauto.
Qed.
Lemma dget_app d e k : dget (d ++ e) k = match dget d k with Some v => Some v | None => dget e k end.
Proof. induction d as [|[k' w] d IH]; [reflexivity|]. cbn [app dget]. destruct (String.eqb k k'); auto. Qed.
Lemma dget_none d k : ~ In k (map fst d) -> dget d k = None.
Proof. induction d as [|[k' w] d IH]; [reflexivity|]. cbn [map fst In dget]. intros H. destruct (String.eqb_spec k k') as [->|]; tauto. Qed.
Lemma dget_not_in d k : dget d k = None -> ~ In k (map fst d).
Proof. induction d as [|[k' w] d IH]; [intros _ []|]. cbn [map fst In dget]. destruct (String.eqb_spec k k') as [->|N]; [discriminate|]. intros H [->|I]; [congruence|]. now apply IH. Qed.
Lemma dpop_none d k : ~ In k (map fst d) -> dpop d k = d.
Proof. induction d as [|[k' w] d IH]; [reflexivity|]. cbn [map fst In dpop filter]. intros H. destruct (String.eqb_spec k' k) as [->|]; [tauto|]. cbn [negb]. f_equal. apply IH. tauto. Qed.
Lemma dpop_app d e k : dpop (d ++ e) k = dpop d k ++ dpop e k. Proof. apply filter_app. Qed.

(** the five entries, then the others in order *)
Definition axial (kw : pdict) (k : string) (v : kval) : kval := match dget kw k with Some w => w | None => v end.
Definition others (kw : pdict) : pdict := filter (fun kv => negb (String.eqb (fst kv) "zres") && negb (String.eqb (fst kv) "zsize")) kw.
Lemma others_keys kw k : In k (map fst (others kw)) -> In k (map fst kw) /\ k <> "zres" /\ k <> "zsize".
Proof.
  intros H. apply in_map_iff in H. destruct H as ([k' v] & <- & H). apply filter_In in H. destruct H as [H1 H2]. cbn [fst] in *. apply andb_true_iff in H2. destruct H2 as [H2 H3].
  split; [apply in_map_iff; exists (k', v); auto|]. split; intros ->; discriminate.
Qed.
Lemma dupdate_shape na ni wl kw : NoDup (map fst kw) -> (forall k, In k ["na"; "ni"; "wl"] -> dget kw k = None) -> forall zr zs acc,
  (forall k, In k (map fst kw) -> ~ In k (map fst acc)) ->
  dupdate ([("na", na); ("ni", ni); ("wl", wl); ("zres", zr); ("zsize", zs)] ++ acc) kw =
  [("na", na); ("ni", ni); ("wl", wl); ("zres", axial kw "zres" zr); ("zsize", axial kw "zsize" zs)] ++ acc ++ others kw.
Proof.
  induction kw as [|[k v] kw IH]; intros Hn Hk zr zs acc Ha.
  - cbn [dupdate others filter]. now rewrite app_nil_r.
  - inversion Hn as [|x l N1 N2]; subst. cbn [dupdate].
    assert (K : forall k0, In k0 ["na"; "ni"; "wl"] -> k <> k0 /\ dget kw k0 = None).
    { intros k0 H0. specialize (Hk k0 H0). cbn [dget] in Hk. destruct (String.eqb_spec k0 k) as [Ek|Nk]; [discriminate|]. split; [congruence|exact Hk]. }
    assert (Hk' : forall k0, In k0 ["na"; "ni"; "wl"] -> dget kw k0 = None) by (intros; now apply K).
    destruct (K "na" ltac:(cbn; tauto)) as [K1 _]. destruct (K "ni" ltac:(cbn; tauto)) as [K2 _]. destruct (K "wl" ltac:(cbn; tauto)) as [K3 _].
    assert (Ax : forall s, dget ((k, v) :: kw) s = if String.eqb s k then Some v else dget kw s) by reflexivity.
    destruct (String.eqb_spec k "zres") as [->|N3]; [|destruct (String.eqb_spec k "zsize") as [->|N4]].
    + rewrite dset_app_in by (cbn; tauto). cbn [dset String.eqb Ascii.eqb Bool.eqb]. rewrite IH; try assumption.
      2: { intros k0 H0. apply Ha. cbn. tauto. }
      unfold axial. cbn [dget String.eqb Ascii.eqb Bool.eqb]. rewrite (dget_none kw "zres") by exact N1. cbn [others filter fst String.eqb Ascii.eqb Bool.eqb negb andb]. reflexivity.
    + rewrite dset_app_in by (cbn; tauto). cbn [dset String.eqb Ascii.eqb Bool.eqb]. rewrite IH; try assumption.
      2: { intros k0 H0. apply Ha. cbn. tauto. }
      unfold axial. cbn [dget String.eqb Ascii.eqb Bool.eqb]. rewrite (dget_none kw "zsize") by exact N1. cbn [others filter fst String.eqb Ascii.eqb Bool.eqb negb andb]. reflexivity.
    + rewrite dset_new.
      2: { rewrite map_app, in_app_iff. intros [H|H]; [|apply (Ha k); [cbn; tauto|exact H]]. cbn in H. intuition congruence. }
      rewrite <- app_assoc. rewrite IH; try assumption.
      2: { intros k0 H0. rewrite map_app, in_app_iff. cbn [map fst In]. intros [H|[<-|[]]]; [apply (Ha k0); [cbn; tauto|exact H]|contradiction]. }
      unfold axial. rewrite !Ax. rewrite (proj2 (String.eqb_neq "zres" k)), (proj2 (String.eqb_neq "zsize" k)) by congruence.
      cbn [others filter fst]. rewrite (proj2 (String.eqb_neq k "zres")), (proj2 (String.eqb_neq k "zsize")) by assumption. cbn [negb andb]. rewrite <- app_assoc. reflexivity.
Qed.
Definition zres_of (a : wargs) : kval := axial (w_kwargs a) "zres" (KV (w_pixel a)).
Definition zsize_of (a : wargs) : kval := axial (w_kwargs a) "zsize" (KV (w_size a)).
Lemma params0_shape a : kwargs_ok a ->
  psf_params0 a = [("na", KV (w_na a)); ("ni", KV (w_ni a)); ("wl", KV (w_wl a)); ("zres", zres_of a); ("zsize", zsize_of a)] ++ others (w_kwargs a).
Proof.
  intros [Hn Hk]. unfold psf_params0.
  pose proof (dupdate_shape (KV (w_na a)) (KV (w_ni a)) (KV (w_wl a)) (w_kwargs a) Hn) as D. specialize (D ltac:(intros k H; apply Hk; cbn in H |- *; tauto) (KV (w_pixel a)) (KV (w_size a)) []).
  rewrite app_nil_r in D. rewrite D by (intros k _ []). reflexivity.
Qed.
Lemma params_shape a sz rs : kwargs_ok a -> dget (w_kwargs a) "res" = None ->
  dset (dset (psf_params0 a) "size" (KV sz)) "res" (KV rs) =
  [("na", KV (w_na a)); ("ni", KV (w_ni a)); ("wl", KV (w_wl a)); ("zres", zres_of a); ("zsize", zsize_of a)] ++ others (w_kwargs a) ++ [("size", KV sz); ("res", KV rs)].
Proof.
  intros Hk Hr. rewrite params0_shape by exact Hk. destruct Hk as [Hn Hk].
  assert (N : forall k, k = "size" \/ k = "res" -> ~ In k (map fst (others (w_kwargs a)))).
  { intros k H I. apply others_keys in I. destruct I as [I _]. assert (G : dget (w_kwargs a) k = None) by (destruct H as [->| ->]; [apply Hk; cbn; tauto|exact Hr]). now apply dget_not_in in G. }
  rewrite (dset_new _ "size"), dset_new.
  - rewrite <- !app_assoc. reflexivity.
  - rewrite !map_app, !in_app_iff. intros [[H|H]|H]; [cbn in H; intuition discriminate|apply (N "res"); auto|cbn in H; intuition discriminate].
  - rewrite map_app, in_app_iff. intros [H|H]; [cbn in H; intuition discriminate|apply (N "size"); auto].
Qed.

(** ** Evaluating the text *)
Section Ev.
Context (rd_repr rd_str : list fl -> option (list fl)).
Lemma eval_reads v : reads_back rd_str v -> eval_text rd_repr rd_str (fmt_k v) = Some v.
Proof. destruct v as [[z|b|[q| |[|]]|s| | |]|[f|l]]; cbn; try tauto; try reflexivity. intros ->. reflexivity. Qed.
Lemma eval_args_app l l' d d' : eval_args rd_repr rd_str l = Some d -> eval_args rd_repr rd_str l' = Some d' -> eval_args rd_repr rd_str (l ++ l') = Some (d ++ d').
Proof.
  revert d. induction l as [|[k t] l IH]; intros d H H'; cbn [eval_args app] in *; [injection H as <-; exact H'|].
  destruct (eval_text _ _ t); [|discriminate]. destruct (eval_args _ _ l) as [e|] eqn:El; [|discriminate]. injection H as <-. rewrite (IH e eq_refl H'). reflexivity.
Qed.
Lemma eval_args_dict (d : pdict) : (forall k v, In (k, v) d -> reads_back rd_str v) -> eval_args rd_repr rd_str (map (fun kv => (fst kv, fmt_k (snd kv))) d) = Some d.
Proof.
  induction d as [|[k v] d IH]; intros H; [reflexivity|]. cbn [map fst snd eval_args]. rewrite eval_reads by (eapply H; left; reflexivity). rewrite IH by (intros; eapply H; right; eassumption). reflexivity.
Qed.
Definition wide_dict (c : cls) (a : wargs) (sz : pyval) (os : pyval) : pdict :=
  [("model", KV (VStr (short_name c)))] ++ ([("na", KV (w_na a)); ("ni", KV (w_ni a)); ("wl", KV (w_wl a)); ("zres", zres_of a); ("zsize", zsize_of a)] ++ others (w_kwargs a) ++ [("size", KV sz)]) ++ [("pixel_size", KV (w_pixel a)); ("oversample_factor", KV os)].
Definition wide_text (c : cls) (a : wargs) (sz rs os : pyval) : list (string * text) :=
  [("model", Quoted (short_name c))] ++ map (fun kv => (fst kv, fmt_k (snd kv))) (dpop (dset (dset (psf_params0 a) "size" (KV sz)) "res" (KV rs)) "res") ++ [("pixel_size", fmt (w_pixel a)); ("oversample_factor", fmt os)].
Lemma pop_res a sz rs : kwargs_ok a -> dget (w_kwargs a) "res" = None ->
  dpop (dset (dset (psf_params0 a) "size" (KV sz)) "res" (KV rs)) "res" = [("na", KV (w_na a)); ("ni", KV (w_ni a)); ("wl", KV (w_wl a)); ("zres", zres_of a); ("zsize", zsize_of a)] ++ others (w_kwargs a) ++ [("size", KV sz)].
Proof.
  intros Hk Hr. rewrite params_shape by assumption. rewrite !dpop_app, (dpop_none (others _)); [reflexivity|]. intros I. apply others_keys in I. now apply dget_not_in in Hr.
Qed.
Lemma axial_reads kw k v : (forall k v, In (k, v) kw -> reads_back rd_str v) -> reads_back rd_str v -> reads_back rd_str (axial kw k v).
Proof.
  intros H Hv. unfold axial. destruct (dget kw k) as [w|] eqn:E; [|exact Hv]. apply (H k). induction kw as [|[k' x] kw IH]; [discriminate|]. cbn [dget] in E.
  destruct (String.eqb_spec k k') as [->|]; [injection E as ->; now left|]. right. apply IH; [intros; eapply H; right; eassumption|exact E].
Qed.
Lemma eval_wide c a sz rs os : kwargs_ok a -> dget (w_kwargs a) "res" = None ->
  (forall v, In v [w_na a; w_ni a; w_wl a; w_size a; w_pixel a; sz; os] -> reads_back rd_str (KV v)) -> (forall k v, In (k, v) (w_kwargs a) -> reads_back rd_str v) ->
  eval_args rd_repr rd_str (wide_text c a sz rs os) = Some (wide_dict c a sz os).
Proof.
  intros Hk Hr Hv Hw. unfold wide_text, wide_dict. rewrite pop_res by assumption.
  assert (Rz : reads_back rd_str (zres_of a) /\ reads_back rd_str (zsize_of a)) by (split; apply axial_reads; try assumption; apply Hv; cbn; tauto).
  apply eval_args_app; [reflexivity|]. apply eval_args_app.
  - apply eval_args_dict. intros k v I. rewrite !in_app_iff in I. destruct I as [I|[I|I]].
    + cbn in I. destruct I as [[= <- <-]|[[= <- <-]|[[= <- <-]|[[= <- <-]|[[= <- <-]|[]]]]]]; try tauto; apply Hv; cbn; tauto.
    + apply filter_In in I. now apply (Hw k).
    + cbn in I. destruct I as [[= <- <-]|[]]. apply Hv. cbn. tauto.
  - cbn [eval_args]. change (fmt (w_pixel a)) with (fmt_k (KV (w_pixel a))). change (fmt os) with (fmt_k (KV os)). rewrite !eval_reads by (apply Hv; cbn; tauto). reflexivity.
Qed.
End Ev.
(** the arguments bound when the text is evaluated *)
Definition again (c : cls) (a : wargs) (sz os : pyval) : wargs :=
  mkWargs (VStr (short_name c)) (w_na a) (w_ni a) (w_wl a) sz (w_pixel a) os ([("zres", zres_of a); ("zsize", zsize_of a)] ++ others (w_kwargs a)).
Lemma bind_wide_dict c a sz os : kwargs_ok a -> bind_wide (wide_dict c a sz os) = Ok (again c a sz os).
Proof.
  intros [Hn Hk]. unfold wide_dict, again. set (o := others (w_kwargs a)).
  assert (N : forall k, In k ["model"; "na"; "ni"; "wl"; "size"; "pixel_size"; "oversample_factor"] -> ~ In k (map fst o)).
  { intros k H I. apply others_keys in I. destruct I as [I _]. specialize (Hk k H). now apply dget_not_in in Hk. }
  clearbody o.
  assert (T : forall k v pre post, ~ In k (map fst pre) -> ~ In k (map fst post) -> take (pre ++ (k, KV v) :: post) k = Ok (v, pre ++ post)).
  { intros k v pre post H1 H2. unfold take, required. rewrite dget_app, dget_none by exact H1. cbn [dget]. rewrite String.eqb_refl. cbn [bind as_val]. rewrite dpop_app. cbn [dpop filter fst]. rewrite String.eqb_refl. cbn [negb].
    rewrite (dpop_none pre) by exact H1. f_equal. f_equal. f_equal. now apply dpop_none. }
  assert (T0 : forall k v post, ~ In k (map fst post) -> take ((k, KV v) :: post) k = Ok (v, post)) by (intros k v post H; apply (T k v [] post); [intros []|exact H]).
  assert (Out : forall k l, In k ["model"; "na"; "ni"; "wl"; "size"; "pixel_size"; "oversample_factor"] -> ~ In k l -> forall l', ~ In k l' -> ~ In k (l ++ map fst o ++ l')).
  { intros k l H H1 l' H2. rewrite !in_app_iff. specialize (N k H). tauto. }
  set (Z := [("zres", zres_of a); ("zsize", zsize_of a)]).
  set (tail := [("pixel_size", KV (w_pixel a)); ("oversample_factor", KV os)]).
  set (S := o ++ ("size", KV sz) :: tail).
  unfold bind_wide.
  cbn [app]. rewrite <- ?app_assoc. cbn [app]. fold tail. fold S.
  assert (Sk : map fst S = [] ++ map fst o ++ ["size"; "pixel_size"; "oversample_factor"]) by (unfold S; rewrite map_app; reflexivity).
  assert (No : forall k, In k ["model"; "na"; "ni"; "wl"] -> ~ In k (map fst S)).
  { intros k H. rewrite Sk. apply Out; [cbn in H |- *; tauto|intros []|]. cbn in H |- *. intuition (subst; discriminate). }
  assert (No' : forall k, In k ["size"; "pixel_size"; "oversample_factor"] -> ~ In k (map fst (Z ++ o))).
  { intros k H. rewrite map_app, in_app_iff. intros [I|I]; [cbn in H, I; intuition (subst; discriminate)|]. apply (N k); [cbn in H |- *; tauto|exact I]. }
  rewrite (T0 "model" (VStr (short_name c))).
  2: { specialize (No "model" ltac:(cbn; tauto)). intros I. cbn [map fst In] in I. repeat (destruct I as [I|I]; [discriminate I|]). apply No. exact I. }
  cbn [bind app]. rewrite (T0 "na" (w_na a)).
  2: { specialize (No "na" ltac:(cbn; tauto)). intros I. cbn [map fst In] in I. repeat (destruct I as [I|I]; [discriminate I|]). apply No. exact I. }
  cbn [bind app]. rewrite (T0 "ni" (w_ni a)).
  2: { specialize (No "ni" ltac:(cbn; tauto)). intros I. cbn [map fst In] in I. repeat (destruct I as [I|I]; [discriminate I|]). apply No. exact I. }
  cbn [bind app]. rewrite (T0 "wl" (w_wl a)).
  2: { specialize (No "wl" ltac:(cbn; tauto)). intros I. cbn [map fst In] in I. repeat (destruct I as [I|I]; [discriminate I|]). apply No. exact I. }
  cbn [bind app]. unfold S; change (("zres", zres_of a) :: ("zsize", zsize_of a) :: o ++ ("size", KV sz) :: tail) with ((Z ++ o) ++ ("size", KV sz) :: tail).
  rewrite app_assoc. rewrite (T "size" sz (Z ++ o) tail); [|apply No'; cbn; tauto|cbn; intuition discriminate]. cbn [bind]. unfold tail.
  rewrite (T "pixel_size" (w_pixel a) (Z ++ o)); [|apply No'; cbn; tauto|cbn; intuition discriminate]. cbn [bind].
  rewrite (T "oversample_factor" os (Z ++ o) []); [|apply No'; cbn; tauto|intros []]. cbn [bind]. rewrite app_nil_r. reflexivity.
Qed.
Lemma again_params c a sz os : kwargs_ok a -> kwargs_ok (again c a sz os) /\ psf_params0 (again c a sz os) = psf_params0 a.
Proof.
  intros [Hn Hk]. assert (K : kwargs_ok (again c a sz os)).
  { split.
    - cbn [again w_kwargs app map fst]. constructor; [|constructor].
      + cbn [In]. intros [H|H]; [discriminate|]. apply others_keys in H. tauto.
      + intros H. apply others_keys in H. tauto.
      + clear Hk. unfold others. induction (w_kwargs a) as [|[k v] l IH]; [constructor|]. inversion Hn; subst. cbn [filter fst]. destruct (negb _ && negb _); [|auto]. cbn [map fst]. constructor; [|auto].
        intros I. apply in_map_iff in I. destruct I as ([k' v'] & <- & I). apply filter_In in I. apply H1. apply in_map_iff. exists (k', v'). tauto.
    - intros k H. apply dget_none. cbn [again w_kwargs app map fst In]. intros [<-|[<-|I]]; [cbn in H; intuition discriminate|cbn in H; intuition discriminate|].
      apply others_keys in I. destruct I as [I _]. specialize (Hk k H). now apply dget_not_in in Hk. }
  split; [exact K|]. rewrite (params0_shape _ K), (params0_shape a) by (split; assumption). unfold again at 1 2 3. cbn [w_na w_ni w_wl].
  assert (O : others (w_kwargs (again c a sz os)) = others (w_kwargs a)).
  { cbn [again w_kwargs]. unfold others. rewrite filter_app. cbn [filter fst String.eqb Ascii.eqb Bool.eqb negb andb app].
    clear. induction (w_kwargs a) as [|[k v] l IH]; [reflexivity|]. cbn [filter fst]. destruct (negb _ && negb _) eqn:E; [|exact IH]. cbn [filter fst]. rewrite E. f_equal. exact IH. }
  rewrite O. unfold zres_of at 1, zsize_of at 1, axial. cbn [again w_kwargs app dget String.eqb Ascii.eqb Bool.eqb]. reflexivity.
Qed.
Lemma choose_short c : choose_model (VStr (short_name c)) = Ok c. Proof. destruct c; reflexivity. Qed.
Lemma wide_init_again c a : kwargs_ok a -> choose_model (w_model a) = Ok c -> forall m, wide_init (again c a (w_size a) (w_os a)) m = wide_init a m.
Proof.
  intros Hk Hc m. unfold wide_init. rewrite (proj2 (again_params c a (w_size a) (w_os a) Hk)). cbn [again w_os w_size w_pixel w_model]. rewrite Hc, choose_short. reflexivity.
Qed.
