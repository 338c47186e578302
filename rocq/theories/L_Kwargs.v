From Verif Require Export S_Kwargs.
Import M_Array.
Local Open Scope string_scope.
Local Open Scope list_scope.
Local Open Scope R_scope.

Section Dict.
Context {A : Type}.
Implicit Types d e : list (string * A).
Lemma kget_in d k v : NoDup (map fst d) -> kget d k = Some v <-> In (k, v) d.
Proof.
  induction d as [| [k' v'] d IH]; cbn; intro H; [split; [discriminate | tauto] |].
  inversion H; subst. destruct (String.eqb_spec k k') as [-> | Hn].
  - split.
    + intros [= ->]. auto.
    + intros [[= ->] | Hi]; auto. exfalso. apply H2. apply in_map_iff. exists (k', v). auto.
  - rewrite IH by auto. split; [auto | intros [[= -> ->] | Hi]; [congruence | auto]].
Qed.
Lemma kget_none d k : kget d k = None <-> ~ In k (map fst d).
Proof.
  induction d as [| [k' v'] d IH]; cbn; [tauto |].
  destruct (String.eqb_spec k k') as [-> | Hn]; [split; [discriminate | intros []; auto] |].
  rewrite IH. intuition congruence.
Qed.
Lemma khas_in d k : khas d k = true <-> In k (map fst d).
Proof.
  unfold khas. destruct (kget d k) eqn:E.
  - split; auto. intros _. destruct (in_dec string_dec k (map fst d)); auto. apply kget_none in n. congruence.
  - apply kget_none in E. split; [discriminate | tauto].
Qed.
Lemma khas_out d k : khas d k = false <-> ~ In k (map fst d).
Proof. rewrite <- khas_in. destruct (khas d k); split; congruence. Qed.
Lemma kdel_in d k k' v : In (k', v) (kdel d k) <-> In (k', v) d /\ k' <> k.
Proof. unfold kdel. rewrite filter_In. cbn. destruct (String.eqb_spec k' k); cbn; intuition congruence. Qed.
Lemma kdel_keys d k k' : In k' (map fst (kdel d k)) <-> In k' (map fst d) /\ k' <> k.
Proof.
  rewrite !in_map_iff. split.
  - intros ([k0 v] & <- & H). apply kdel_in in H. cbn. destruct H. split; auto. exists (k0, v). auto.
  - intros [([k0 v] & <- & H) Hn]. exists (k0, v). split; auto. apply kdel_in. auto.
Qed.
Lemma kdel_nodup d k : NoDup (map fst d) -> NoDup (map fst (kdel d k)).
Proof.
  induction d as [| [k' v] d IH]; cbn; intro H; auto. inversion H; subst. destruct (String.eqb_spec k' k); cbn; auto.
  constructor; auto. intro Hi. apply H2. now apply kdel_keys in Hi.
Qed.
Lemma kget_kdel d k k' : k' <> k -> kget (kdel d k) k' = kget d k'.
Proof.
  intro Hn. induction d as [| [k0 v] d IH]; cbn; auto. destruct (String.eqb_spec k0 k) as [-> | H0]; cbn.
  - destruct (String.eqb_spec k' k); [congruence |]. apply IH.
  - destruct (String.eqb_spec k' k0); auto.
Qed.
Lemma kset_get d k v k' : kget (kset d k v) k' = if String.eqb k' k then Some v else kget d k'.
Proof.
  induction d as [| [k0 v0] d IH]; cbn; [destruct (String.eqb k' k); auto |].
  destruct (String.eqb_spec k k0) as [-> | Hn]; cbn.
  - destruct (String.eqb_spec k' k0); auto.
  - rewrite IH. destruct (String.eqb_spec k' k0), (String.eqb_spec k' k); auto; congruence.
Qed.
Lemma kset_keys d k v k' : In k' (map fst (kset d k v)) <-> In k' (map fst d) \/ k' = k.
Proof.
  destruct (in_dec string_dec k' (map fst (kset d k v))) as [Hi | Hi].
  - split; auto. intros _. apply khas_in in Hi. unfold khas in Hi. rewrite kset_get in Hi. destruct (String.eqb_spec k' k); auto.
    left. apply khas_in. exact Hi.
  - split; [tauto |]. intro H. exfalso. apply kget_none in Hi. rewrite kset_get in Hi. destruct (String.eqb_spec k' k); [congruence |].
    apply kget_none in Hi. tauto.
Qed.
Lemma kset_nodup d k v : NoDup (map fst d) -> NoDup (map fst (kset d k v)).
Proof.
  induction d as [| [k0 v0] d IH]; cbn; intro H; [constructor; [easy | constructor] |].
  inversion H; subst. destruct (String.eqb_spec k k0); cbn; constructor; auto. intro Hi. apply kset_keys in Hi. intuition congruence.
Qed.
Lemma kupdate_nodup e : forall d, NoDup (map fst d) -> NoDup (map fst (kupdate d e)).
Proof. induction e as [| [k v] e IH]; cbn; auto. intros d H. apply IH. now apply kset_nodup. Qed.
Lemma kupdate_get e : forall d k, NoDup (map fst e) -> kget (kupdate d e) k = match kget e k with Some v => Some v | None => kget d k end.
Proof.
  induction e as [| [k0 v] e IH]; cbn; intros d k H; auto. inversion H; subst. rewrite IH by auto. rewrite kset_get.
  destruct (String.eqb_spec k k0) as [-> | Hn]; [| auto].
  apply kget_none in H2. rewrite H2. auto.
Qed.
End Dict.

Section Objects.
Context {V : Type} (truth : V -> bool) (number : V -> res R).
Notation kwdict := (kwdict V). Notation pv := (pv V).
Lemma kopt_setting (kw : kwdict) k dflt : NoDup (map fst kw) -> setting kw k dflt (kopt V kw k dflt).
Proof.
  intro H. unfold setting, kopt, absent. destruct (kget kw k) eqn:E.
  - left. now apply kget_in.
  - right. split; auto. now apply kget_none.
Qed.
Lemma setting_kopt (kw : kwdict) k dflt x : NoDup (map fst kw) -> setting kw k dflt x -> x = kopt V kw k dflt.
Proof.
  intros H [Hi | [Ha ->]]; unfold kopt.
  - apply kget_in in Hi; auto. now rewrite Hi.
  - apply kget_none in Ha. now rewrite Ha.
Qed.
Lemma map_fst_sval (l : kwdict) : map fst (map (fun kv => (fst kv, SVal V (snd kv))) l) = map fst l.
Proof. rewrite map_map. reflexivity. Qed.
Lemma kget_sval (l : kwdict) k : kget (map (fun kv => (fst kv, SVal V (snd kv))) l) k = option_map (SVal V) (kget l k).
Proof. induction l as [| [k' v] l IH]; cbn; auto. destruct (String.eqb k k'); auto. Qed.
Lemma dkwargs_nodup n rest : NoDup (map fst (dkwargs V n rest)).
Proof. apply kupdate_nodup. cbn. repeat constructor; cbn; intuition congruence. Qed.
Lemma dkwargs_in n rest k v : NoDup (map fst rest) -> In (k, v) (dkwargs V n rest) <->
  (exists x, v = SVal V x /\ In (k, x) rest) \/
  ~ In k (map fst rest) /\ (k = "norm" /\ v = SNorm V n \/ k = "interpolation" /\ v = SVal V (PStr V "nearest") \/ k = "cmap" /\ v = SVal V (PStr V "inferno")).
Proof.
  intro H. rewrite <- kget_in by apply dkwargs_nodup. unfold dkwargs. rewrite kupdate_get by now rewrite map_fst_sval.
  rewrite kget_sval. destruct (kget rest k) eqn:E; cbn [option_map].
  - apply kget_in in E; auto. split.
    + intros [= <-]. eauto.
    + intros [(x & -> & Hx) | [Hn _]]; [| exfalso; apply Hn; apply in_map_iff; exists (k, p); auto].
      apply kget_in in Hx; auto. apply kget_in in E; auto. congruence.
  - apply kget_none in E. cbn [kget]. split.
    + destruct (String.eqb_spec k "norm") as [-> |]; [intros [= <-]; auto 6 |].
      destruct (String.eqb_spec k "interpolation") as [-> |]; [intros [= <-]; auto 6 |].
      destruct (String.eqb_spec k "cmap") as [-> |]; [intros [= <-]; auto 6 | discriminate].
    + intros [(x & -> & Hx) | [_ [[-> ->] | [[-> ->] | [-> ->]]]]]; try reflexivity.
      exfalso. apply E. apply in_map_iff. exists (k, x). auto.
Qed.

Definition kdels (d : kwdict) (ks : list string) : kwdict := fold_left (fun d k => kdel d k) ks d.
Lemma kdels_in ks : forall d k v, In (k, v) (kdels d ks) <-> In (k, v) d /\ ~ In k ks.
Proof.
  unfold kdels. induction ks as [| k0 ks IH]; cbn; intros d k v; [tauto |]. rewrite IH, kdel_in. intuition congruence.
Qed.
Lemma kdels_nodup ks : forall d, NoDup (map fst d) -> NoDup (map fst (kdels d ks)).
Proof. unfold kdels. induction ks as [| k0 ks IH]; cbn; intros d H; auto. apply IH. now apply kdel_nodup. Qed.
Lemma kdels_keys ks d k : In k (map fst (kdels d ks)) <-> In k (map fst d) /\ ~ In k ks.
Proof.
  rewrite !in_map_iff. split.
  - intros ([k0 v] & <- & H). apply kdels_in in H. cbn. destruct H. split; auto. exists (k0, v). auto.
  - intros [([k0 v] & <- & H) Hn]. exists (k0, v). split; auto. apply kdels_in. auto.
Qed.
Lemma dkwargs_receives own n (kw : kwdict) k v : NoDup (map fst kw) -> ~ In "norm" own -> ~ In "interpolation" own -> ~ In "cmap" own ->
  In (k, v) (dkwargs V n (kdels kw own)) <-> receives own n kw k v.
Proof.
  intros H N1 N2 N3. rewrite dkwargs_in by now apply kdels_nodup. unfold receives, absent. rewrite kdels_keys.
  split.
  - intros [(x & -> & Hx) | [Hn Hc]].
    + left. exists x. apply kdels_in in Hx. tauto.
    + right. split; auto. destruct (in_dec string_dec k (map fst kw)) as [Hi |]; auto. exfalso. apply Hn. split; auto.
      destruct Hc as [[-> _] | [[-> _] | [-> _]]]; auto.
  - intros [(x & -> & Hx & Ho) | [Hn Hc]].
    + left. exists x. split; auto. apply kdels_in. auto.
    + right. split; auto. tauto.
Qed.
Lemma kget_kdels ks : forall (d : kwdict) k, ~ In k ks -> kget (kdels d ks) k = kget d k.
Proof.
  unfold kdels. induction ks as [| k0 ks IH]; cbn; intros d k H; auto. rewrite IH by tauto. apply kget_kdel. intros ->. tauto.
Qed.

(** The two functions with the popping of parameters spelled out. *)
Lemma psf_plot_kw_eq (psf : array R) (kw : kwdict) : psf_plot_kw V truth number psf kw =
  if khas kw "psf" then Err TypeError
  else
    do zres <- kreq V kw "zres"; do rs <- kreq V kw "res";
    let mip := ptruth V truth (kopt V kw "mip" (PBool V true)) in
    let st := dkwargs V (PowerNorm V (kopt V kw "gamma" (PNum V (1 / 2))) (kopt V kw "vmin" (PNone V)) (kopt V kw "vmax" (PNone V))) (kdels kw psf_own) in
    match shape psf with
    | [nz; ny; nx] =>
        do z <- pnumber V number zres; do r <- pnumber V number rs;
        if khas st "extent" then do _ <- (if mip then max0 nz ny nx psf else slice0 nz ny nx (nz / 2) psf); Err TypeError
        else do ps <- psf_plot psf z r mip; Ok (mkDrawn V (figure_of V (kopt V kw "fig" (PNone V))) (kopt V kw "loc" (PNum V 111)) (map (fun p => (p, st)) ps))
    | _ => Err ValueError
    end.
Proof.
  unfold psf_plot_kw. destruct (khas kw "psf"); auto. destruct (kreq V kw "zres"); cbn [bind]; auto. destruct (kreq V kw "res"); cbn [bind]; auto.
  unfold kpop, kopt.
  rewrite !kget_kdel by discriminate. reflexivity.
Qed.
Lemma otf_plot_kw_eq (otf : array R) (kw : kwdict) : otf_plot_kw V number otf kw =
  if khas kw "otf" then Err TypeError
  else
    do na <- kreq V kw "na"; do ni <- kreq V kw "ni"; do wl <- kreq V kw "wl"; do zres <- kreq V kw "zres"; do rs <- kreq V kw "res";
    let st := dkwargs V (LogNorm V (kopt V kw "vmin" (PNone V)) (kopt V kw "vmax" (PNone V))) (kdels kw otf_own) in
    match shape otf with
    | [nz; ny; nx] =>
        if negb (nx =? ny)%Z then Err AssertionError
        else
          do z <- pnumber V number zres; do r <- pnumber V number rs;
          do kz <- fft_max_min nz z; do ky <- fft_max_min ny r; do kx <- fft_max_min nx r;
          if khas st "extent" then do _ <- slice0 nz ny nx (nz / 2) otf; Err TypeError
          else
            do na <- pnumber V number na; do ni <- pnumber V number ni; do wl <- pnumber V number wl;
            do p <- otf_plot otf na ni wl z r;
            Ok (mkDrawn V (figure_of V (kopt V kw "fig" (PNone V))) (kopt V kw "loc" (PNum V 111)) (map (fun p => (p, st)) (fst (fst p))), snd (fst p), snd p)
    | _ => Err ValueError
    end.
Proof.
  unfold otf_plot_kw. destruct (khas kw "otf"); [reflexivity|].
  destruct (kreq V kw "na"); cbn [bind]; [|reflexivity]. destruct (kreq V kw "ni"); cbn [bind]; [|reflexivity]. destruct (kreq V kw "wl"); cbn [bind]; [|reflexivity].
  destruct (kreq V kw "zres"); cbn [bind]; [|reflexivity]. destruct (kreq V kw "res"); cbn [bind]; [|reflexivity].
  unfold kpop, kopt. rewrite !kget_kdel by discriminate. reflexivity.
Qed.
Lemma dkwargs_has_extent own n (kw : kwdict) : NoDup (map fst kw) -> ~ In "norm" own -> ~ In "interpolation" own -> ~ In "cmap" own -> ~ In "extent" own ->
  khas (dkwargs V n (kdels kw own)) "extent" = khas kw "extent".
Proof.
  intros H N1 N2 N3 N4. unfold khas. unfold dkwargs. rewrite kupdate_get by (rewrite map_fst_sval; now apply kdels_nodup).
  rewrite kget_sval, kget_kdels by auto. destruct (kget kw "extent"); reflexivity.
Qed.
Lemma figure_of_cases v : (v = PNone V -> figure_of V v = NewFigure V) /\ (v <> PNone V -> figure_of V v = CallersFigure V v).
Proof. split; [intros ->; reflexivity|]. intros H. destruct v; try reflexivity. now elim H. Qed.
Lemma psf_figure_kw (kw : kwdict) ps : NoDup (map fst kw) ->
  psf_figure kw ps (mkDrawn V (figure_of V (kopt V kw "fig" (PNone V))) (kopt V kw "loc" (PNum V 111))
    (map (fun p => (p, dkwargs V (PowerNorm V (kopt V kw "gamma" (PNum V (1 / 2))) (kopt V kw "vmin" (PNone V)) (kopt V kw "vmax" (PNone V))) (kdels kw psf_own))) ps)).
Proof.
  intro H. split; [| split; [split |]]; cbn [d_images d_fig d_loc].
  - rewrite map_map. cbn [fst]. apply map_id.
  - eexists. split; [now apply kopt_setting|]. now apply figure_of_cases.
  - now apply kopt_setting.
  - eexists. split; [eexists _, _, _; split; [reflexivity |]; repeat split; now apply kopt_setting |].
    unfold drawn_with. cbn [d_images]. apply Forall_map, Forall_forall. cbn [snd]. intros p _. split; [apply dkwargs_nodup |].
    intros k v. apply dkwargs_receives; auto; cbn; intuition discriminate.
Qed.
Lemma otf_figure_kw (kw : kwdict) ps : NoDup (map fst kw) ->
  otf_figure (PNone V) kw ps (mkDrawn V (figure_of V (kopt V kw "fig" (PNone V))) (kopt V kw "loc" (PNum V 111))
    (map (fun p => (p, dkwargs V (LogNorm V (kopt V kw "vmin" (PNone V)) (kopt V kw "vmax" (PNone V))) (kdels kw otf_own))) ps)).
Proof.
  intro H. split; [| split; [split |]]; cbn [d_images d_fig d_loc].
  - rewrite map_map. cbn [fst]. apply map_id.
  - eexists. split; [now apply kopt_setting|]. now apply figure_of_cases.
  - now apply kopt_setting.
  - eexists. split; [eexists _, _; split; [reflexivity |]; repeat split; now apply kopt_setting |].
    unfold drawn_with. cbn [d_images]. apply Forall_map, Forall_forall. cbn [snd]. intros p _. split; [apply dkwargs_nodup |].
    intros k v. apply dkwargs_receives; auto; cbn; intuition discriminate.
Qed.

(** Dictionaries that differ only in some keys. *)
Definition same_but (ks : list string) (k1 k2 : kwdict) : Prop := forall k v, ~ In k ks -> (In (k, v) k1 <-> In (k, v) k2).
Lemma same_but_keys ks k1 k2 k : same_but ks k1 k2 -> ~ In k ks -> (In k (map fst k1) <-> In k (map fst k2)).
Proof. intros H Hk. rewrite !in_map_iff. split; intros ([k0 v] & <- & Hi); exists (k0, v); (split; [auto |]); apply (H k0 v Hk); auto. Qed.
Lemma same_but_setting ks k1 k2 k dflt x : same_but ks k1 k2 -> ~ In k ks -> setting k1 k dflt x -> setting k2 k dflt x.
Proof.
  intros H Hk [Hi | [Ha ->]]; [left; now apply (H k x Hk) | right; split; auto]. unfold absent in *. intro Hx. apply Ha. now apply (same_but_keys _ _ _ _ H Hk).
Qed.
Lemma same_but_receives ks own n k1 k2 k v : same_but ks k1 k2 -> incl ks own -> ~ In "norm" ks -> ~ In "interpolation" ks -> ~ In "cmap" ks ->
  receives own n k1 k v -> receives own n k2 k v.
Proof.
  intros H Hio N1 N2 N3 [(x & -> & Hx & Ho) | [Ha Hc]].
  - left. exists x. repeat split; auto. apply H; auto.
  - right. split; auto. unfold absent in *. assert (Hk : ~ In k ks) by (destruct Hc as [[-> _] | [[-> _] | [-> _]]]; auto).
    intro Hx. apply Ha. now apply (same_but_keys _ _ _ _ H Hk).
Qed.
Lemma same_but_sym ks k1 k2 : same_but ks k1 k2 -> same_but ks k2 k1.
Proof. intros H k v Hk. symmetry. now apply H. Qed.
Lemma same_but_drawn_with ks own n k1 k2 d : same_but ks k1 k2 -> incl ks own -> ~ In "norm" ks -> ~ In "interpolation" ks -> ~ In "cmap" ks ->
  drawn_with own n k1 d -> drawn_with own n k2 d.
Proof.
  intros H Hio N1 N2 N3. unfold drawn_with. apply Forall_impl. intros [p st] [Hn Hr]. split; auto. intros k v. rewrite Hr.
  split; apply same_but_receives with ks; auto. now apply same_but_sym.
Qed.
Lemma same_but_placed ks k1 k2 d : same_but ks k1 k2 -> ~ In "fig" ks -> ~ In "loc" ks -> placed k1 d -> placed k2 d.
Proof. intros H N1 N2 [(f & Hf & E) Hl]. split; [exists f; split; auto |]; eapply same_but_setting; eauto. Qed.
Lemma named_same ks (named kw : kwdict) : map fst named = ks -> (forall k, In k ks -> absent kw k) -> same_but ks (named ++ kw) kw.
Proof.
  intros <- Ha k v Hk. rewrite in_app_iff. split; auto. intros [Hi |]; auto. exfalso. apply Hk. apply in_map_iff. exists (k, v). auto.
Qed.
Lemma named_nodup (named kw : kwdict) : NoDup (map fst named) -> NoDup (map fst kw) -> (forall k, In k (map fst named) -> absent kw k) -> NoDup (map fst (named ++ kw)).
Proof.
  intros H1 H2 H3. rewrite map_app. revert H1 H3. induction (map fst named) as [| k l IH]; cbn; auto. intros H1 H3. inversion H1; subst.
  constructor; auto. rewrite in_app_iff. intros [|]; auto. apply (H3 k); auto.
Qed.
Lemma kmerge_ok (named kw : kwdict) : (forall k, In k (map fst named) -> absent kw k) -> kmerge V named kw = Ok (named ++ kw).
Proof.
  intro H. unfold kmerge. destruct (existsb _ named) eqn:E; auto. apply existsb_exists in E as ([k v] & Hi & Hh). cbn in Hh. apply khas_in in Hh.
  exfalso. apply (H k); auto. apply in_map_iff. exists (k, v). auto.
Qed.
Lemma kmerge_twice (named kw : kwdict) k : In k (map fst named) -> In k (map fst kw) -> kmerge V named kw = Err TypeError.
Proof.
  intros H1 H2. unfold kmerge. replace (existsb _ named) with true; auto. symmetry. apply existsb_exists.
  apply in_map_iff in H1 as ([k0 v] & <- & Hi). exists (k0, v). split; auto. now apply khas_in.
Qed.
(** The default lower limit of plot_otf. *)
Lemma default_in (kw : kwdict) k0 x0 k v : NoDup (map fst kw) -> In (k, v) (kupdate [(k0, x0)] kw) <-> In (k, v) kw \/ k = k0 /\ v = x0 /\ absent kw k0.
Proof.
  intro H. rewrite <- kget_in by (apply kupdate_nodup; cbn; repeat constructor; auto). rewrite kupdate_get by auto.
  destruct (kget kw k) eqn:E; cbn.
  - apply kget_in in E; auto. split; [intros [= <-]; auto |]. intros [Hi | (-> & -> & Ha)].
    + apply kget_in in Hi; auto. apply kget_in in E; auto. congruence.
    + exfalso. apply Ha. apply in_map_iff. exists (k0, p). auto.
  - apply kget_none in E. destruct (String.eqb_spec k k0) as [-> |].
    + split; [intros [= <-]; auto |]. intros [Hi | (_ & -> & _)]; auto. exfalso. apply E. apply in_map_iff. exists (k0, v). auto.
    + split; [discriminate |]. intros [Hi | (-> & _)]; [| congruence]. exfalso. apply E. apply in_map_iff. exists (k, v). auto.
Qed.
Lemma default_keys (kw : kwdict) k0 x0 k : NoDup (map fst kw) -> k <> k0 -> (In k (map fst (kupdate [(k0, x0)] kw)) <-> In k (map fst kw)).
Proof.
  intros H Hk. rewrite !in_map_iff. split; intros ([k1 v] & <- & Hi); cbn in Hk; exists (k1, v); (split; [auto |]); apply default_in in Hi || apply default_in; auto.
  destruct Hi as [| (-> & _)]; [auto | congruence].
Qed.
Lemma default_same (kw : kwdict) k0 x0 : NoDup (map fst kw) -> same_but [k0] (kupdate [(k0, x0)] kw) kw.
Proof. intros H k v Hk. rewrite default_in by auto. cbn in Hk. intuition congruence. Qed.
Lemma default_setting (kw : kwdict) k0 x0 d x : NoDup (map fst kw) -> setting (kupdate [(k0, x0)] kw) k0 d x -> setting kw k0 x0 x.
Proof.
  intros H [Hi | [Ha _]].
  - apply default_in in Hi; auto. destruct Hi as [| (_ & -> & Ha)]; [now left | now right].
  - exfalso. apply Ha. destruct (in_dec string_dec k0 (map fst kw)) as [Hk | Hk].
    + apply in_map_iff in Hk as ([k1 v] & <- & Hi). apply in_map_iff. exists (k1, v). split; auto. apply default_in; auto.
    + apply in_map_iff. exists (k0, x0). split; auto. apply default_in; auto.
Qed.
End Objects.
