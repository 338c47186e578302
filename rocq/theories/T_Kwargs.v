(** C94: what the plotting functions and methods do with keyword arguments (pyotf/display.py:90-158, 174-276, otf.py:224-257, microscope.py:131-171). *)
From Verif Require Import L_Kwargs.
Import M_Array.
Local Open Scope string_scope.
Local Open Scope list_scope.
Local Open Scope R_scope.

Section Objects.
Context {V : Type} (truth : V -> bool) (number : V -> res R).
Notation kwdict := (kwdict V). Notation pv := (pv V).
Notation psf_plot_kw := (psf_plot_kw V truth number).
Notation otf_plot_kw := (otf_plot_kw V number).
Notation m_plot_psf_kw := (m_plot_psf_kw V truth number).
Notation m_plot_otf_kw := (m_plot_otf_kw V number).
Notation p_plot_psf_kw := (p_plot_psf_kw V truth number).
Notation p_plot_otf_kw := (p_plot_otf_kw V number).
Notation gives := (gives number).

Lemma kreq_in kw k v : NoDup (map fst kw) -> kreq V kw k = Ok v <-> In (k, v) kw.
Proof.
  intro H. unfold kreq. rewrite <- kget_in by auto. destruct (kget kw k); split; congruence.
Qed.
Lemma kreq_absent kw k : absent kw k -> kreq V kw k = Err TypeError.
Proof. intro H. unfold kreq. apply kget_none in H. now rewrite H. Qed.
Lemma in_present (kw : kwdict) k v : In (k, v) kw -> In k (map fst kw).
Proof. intro H. apply in_map_iff. exists (k, v). auto. Qed.
Lemma psf_ext n (kw : kwdict) : NoDup (map fst kw) -> khas (dkwargs V n (kdels kw psf_own)) "extent" = khas kw "extent".
Proof. intro H. apply dkwargs_has_extent; auto; cbn; intuition discriminate. Qed.
Lemma otf_ext n (kw : kwdict) : NoDup (map fst kw) -> khas (dkwargs V n (kdels kw otf_own)) "extent" = khas kw "extent".
Proof. intro H. apply dkwargs_has_extent; auto; cbn; intuition discriminate. Qed.

(** ** psf_plot and otf_plot *)
(** A call of psf_plot that returns had the two sizes and neither "psf" nor "extent"; it drew the images psf_plot draws from the array, the
    sizes and [mip], and no other keyword changes them; each image was drawn with exactly the keywords of [psf_figure]. *)
Theorem C94_psf_plot psf (kw : kwdict) d : NoDup (map fst kw) -> psf_plot_kw psf kw = Ok d ->
  absent kw "psf" /\ absent kw "extent" /\
  exists z r mip ps, gives kw "zres" z /\ gives kw "res" r /\ setting kw "mip" (PBool V true) mip /\
    psf_plot psf z r (ptruth V truth mip) = Ok ps /\ psf_figure kw ps d.
Proof.
  intros H E. rewrite psf_plot_kw_eq in E. destruct (khas kw "psf") eqn:Hp; [discriminate |].
  destruct (kreq V kw "zres") as [vz |] eqn:Ez; [| discriminate]. destruct (kreq V kw "res") as [vr |] eqn:Er; [| discriminate]. cbn [bind] in E.
  apply kreq_in in Ez, Er; auto. apply khas_out in Hp. split; [exact Hp |]. cbv zeta in E. rewrite psf_ext in E by auto.
  destruct (shape psf) as [| nz [| ny [| nx [|]]]]; try discriminate.
  destruct (pnumber V number vz) as [z |] eqn:Nz; [| discriminate]. destruct (pnumber V number vr) as [r |] eqn:Nr; [| discriminate]. cbn [bind] in E.
  destruct (khas kw "extent") eqn:He.
  { destruct (if ptruth _ _ _ then _ else _); discriminate. }
  apply khas_out in He. split; [exact He |].
  destruct (psf_plot psf z r _) as [ps |] eqn:Ep; [| discriminate]. cbn [bind] in E. injection E as <-.
  exists z, r, (kopt V kw "mip" (PBool V true)), ps. split; [exists vz; auto |]. split; [exists vr; auto |]. split; [now apply kopt_setting |]. split; [exact Ep |].
  now apply psf_figure_kw.
Qed.
(** And such a call does return. *)
Theorem C94_psf_plot_returns psf (kw : kwdict) z r mip ps : NoDup (map fst kw) ->
  absent kw "psf" -> absent kw "extent" -> gives kw "zres" z -> gives kw "res" r -> setting kw "mip" (PBool V true) mip ->
  psf_plot psf z r (ptruth V truth mip) = Ok ps -> exists d, psf_plot_kw psf kw = Ok d /\ psf_figure kw ps d.
Proof.
  intros H Hp He (vz & Hz & Nz) (vr & Hr & Nr) Hm E. rewrite psf_plot_kw_eq. apply khas_out in Hp. rewrite Hp.
  apply kreq_in in Hz, Hr; auto. rewrite Hz, Hr. cbn [bind]. cbv zeta. rewrite psf_ext by auto. apply khas_out in He. rewrite He.
  apply setting_kopt in Hm; auto. subst mip.
  destruct (shape psf) as [| nz [| ny [| nx [|]]]] eqn:Es; try (unfold psf_plot in E; rewrite Es in E; discriminate).
  rewrite Nz, Nr. cbn [bind]. rewrite E. cbn [bind]. eexists. split; [reflexivity |]. now apply psf_figure_kw.
Qed.
(** "psf", or a missing size, is a TypeError before anything is drawn; so is "extent", however the rest of the call is. *)
Theorem C94_psf_plot_refused psf (kw : kwdict) : NoDup (map fst kw) ->
  (In "psf" (map fst kw) \/ absent kw "zres" \/ absent kw "res" -> psf_plot_kw psf kw = Err TypeError) /\
  (forall z r mip ps, In "extent" (map fst kw) -> gives kw "zres" z -> gives kw "res" r -> setting kw "mip" (PBool V true) mip ->
     psf_plot psf z r (ptruth V truth mip) = Ok ps -> psf_plot_kw psf kw = Err TypeError).
Proof.
  intro H. split.
  - intros [Hi | [Ha | Ha]]; rewrite psf_plot_kw_eq.
    + apply khas_in in Hi. now rewrite Hi.
    + destruct (khas kw "psf"); auto. rewrite kreq_absent; auto.
    + destruct (khas kw "psf"); auto. destruct (kreq V kw "zres") eqn:E; cbn [bind]; [rewrite kreq_absent; auto |].
      unfold kreq in E. destruct (kget kw "zres"); congruence.
  - intros z r mip ps Hi (vz & Hz & Nz) (vr & Hr & Nr) Hm E. rewrite psf_plot_kw_eq. destruct (khas kw "psf"); auto.
    apply kreq_in in Hz, Hr; auto. rewrite Hz, Hr. cbn [bind]. cbv zeta. rewrite psf_ext by auto. apply khas_in in Hi. rewrite Hi.
    apply setting_kopt in Hm; auto. subst mip. unfold psf_plot in E.
    destruct (shape psf) as [| nz [| ny [| nx [|]]]] eqn:Es; try discriminate. rewrite Nz, Nr. cbn [bind].
    destruct (ptruth V truth _); [destruct (max0 nz ny nx psf) | destruct (slice0 nz ny nx (nz / 2) psf)]; (reflexivity || discriminate).
Qed.

(** The same for otf_plot, whose colour scale is logarithmic.  It has no parameter [mip], although its documentation lists one:
    [mip] is one more keyword handed to imshow ([otf_own] does not contain it). *)
Theorem C94_otf_plot otf (kw : kwdict) d c w : NoDup (map fst kw) -> otf_plot_kw otf kw = Ok (d, c, w) ->
  absent kw "otf" /\ absent kw "extent" /\
  exists na ni wl z r ps, gives kw "na" na /\ gives kw "ni" ni /\ gives kw "wl" wl /\ gives kw "zres" z /\ gives kw "res" r /\
    otf_plot otf na ni wl z r = Ok (ps, c, w) /\ otf_figure (PNone V) kw ps d.
Proof.
  intros H E. rewrite otf_plot_kw_eq in E. destruct (khas kw "otf") eqn:Hp; [discriminate |].
  destruct (kreq V kw "na") as [vna |] eqn:Ena; [| discriminate]. destruct (kreq V kw "ni") as [vni |] eqn:Eni; [| discriminate].
  destruct (kreq V kw "wl") as [vwl |] eqn:Ewl; [| discriminate].
  destruct (kreq V kw "zres") as [vz |] eqn:Ez; [| discriminate]. destruct (kreq V kw "res") as [vr |] eqn:Er; [| discriminate]. cbn [bind] in E.
  apply kreq_in in Ez, Er, Ena, Eni, Ewl; auto. apply khas_out in Hp. split; [exact Hp |]. cbv zeta in E. rewrite otf_ext in E by auto.
  destruct (shape otf) as [| nz [| ny [| nx [|]]]]; try discriminate. destruct (negb (nx =? ny)%Z); [discriminate |].
  destruct (pnumber V number vz) as [z |] eqn:Nz; [| discriminate]. destruct (pnumber V number vr) as [r |] eqn:Nr; [| discriminate]. cbn [bind] in E.
  destruct (fft_max_min nz z); [| discriminate]. destruct (fft_max_min ny r); [| discriminate]. destruct (fft_max_min nx r); [| discriminate]. cbn [bind] in E.
  destruct (khas kw "extent") eqn:He.
  { destruct (slice0 _ _ _ _ _); discriminate. }
  apply khas_out in He. split; [exact He |].
  destruct (pnumber V number vna) as [na |] eqn:Nna; [| discriminate]. destruct (pnumber V number vni) as [ni |] eqn:Nni; [| discriminate].
  destruct (pnumber V number vwl) as [wl |] eqn:Nwl; [| discriminate]. cbn [bind] in E.
  destruct (otf_plot otf na ni wl z r) as [[[ps c'] w'] |] eqn:Ep; [| discriminate]. cbn [bind fst snd] in E. injection E as <- <- <-.
  exists na, ni, wl, z, r, ps. repeat (split; [eexists; eauto |]). split; [exact Ep |]. now apply otf_figure_kw.
Qed.
Lemma otf_plot_ranges otf nz ny nx na ni wl z r o : shape otf = [nz; ny; nx] -> otf_plot otf na ni wl z r = Ok o ->
  negb (nx =? ny)%Z = false /\ (exists a, fft_max_min nz z = Ok a) /\ (exists a, fft_max_min ny r = Ok a) /\ (exists a, fft_max_min nx r = Ok a) /\
  exists a, slice0 nz ny nx (nz / 2) otf = Ok a.
Proof.
  intros Es E. unfold otf_plot in E. rewrite Es in E. destruct (negb (nx =? ny)%Z); [discriminate |].
  destruct (fft_max_min nz z); [| discriminate]. destruct (fft_max_min ny r); [| discriminate]. destruct (fft_max_min nx r); [| discriminate].
  destruct (slice0 nz ny nx (nz / 2) otf); [| discriminate]. eauto 10.
Qed.
Lemma otf_plot_3d otf na ni wl z r o : otf_plot otf na ni wl z r = Ok o -> exists nz ny nx, shape otf = [nz; ny; nx].
Proof. unfold otf_plot. destruct (shape otf) as [| nz [| ny [| nx [|]]]]; try discriminate. eauto. Qed.
Theorem C94_otf_plot_returns otf (kw : kwdict) na ni wl z r ps c w : NoDup (map fst kw) ->
  absent kw "otf" -> absent kw "extent" -> gives kw "na" na -> gives kw "ni" ni -> gives kw "wl" wl -> gives kw "zres" z -> gives kw "res" r ->
  otf_plot otf na ni wl z r = Ok (ps, c, w) -> exists d, otf_plot_kw otf kw = Ok (d, c, w) /\ otf_figure (PNone V) kw ps d.
Proof.
  intros H Hp He (v1 & H1 & N1) (v2 & H2 & N2) (v3 & H3 & N3) (vz & Hz & Nz) (vr & Hr & Nr) E. rewrite otf_plot_kw_eq. apply khas_out in Hp. rewrite Hp.
  apply kreq_in in Hz, Hr, H1, H2, H3; auto. rewrite Hz, Hr, H1, H2, H3. cbn [bind]. cbv zeta. rewrite otf_ext by auto. apply khas_out in He. rewrite He.
  destruct (otf_plot_3d _ _ _ _ _ _ _ E) as (nz & ny & nx & Es). rewrite Es.
  destruct (otf_plot_ranges _ _ _ _ _ _ _ _ _ _ Es E) as (-> & (? & Ea) & (? & Eb) & (? & Ec) & _).
  rewrite Nz, Nr. cbn [bind]. rewrite Ea, Eb, Ec. cbn [bind]. rewrite N1, N2, N3. cbn [bind]. rewrite E. cbn [bind fst snd].
  eexists. split; [reflexivity |]. now apply otf_figure_kw.
Qed.
Theorem C94_otf_plot_refused otf (kw : kwdict) : NoDup (map fst kw) ->
  (In "otf" (map fst kw) \/ absent kw "na" \/ absent kw "ni" \/ absent kw "wl" \/ absent kw "zres" \/ absent kw "res" -> otf_plot_kw otf kw = Err TypeError) /\
  (forall na ni wl z r o, In "extent" (map fst kw) -> gives kw "na" na -> gives kw "ni" ni -> gives kw "wl" wl -> gives kw "zres" z -> gives kw "res" r ->
     otf_plot otf na ni wl z r = Ok o -> otf_plot_kw otf kw = Err TypeError).
Proof.
  intro H. split.
  - intro Hc. rewrite otf_plot_kw_eq. destruct (khas kw "otf") eqn:Eo; auto. apply khas_out in Eo. unfold kreq.
    destruct (kget kw "na") eqn:E1; auto. destruct (kget kw "ni") eqn:E2; auto. destruct (kget kw "wl") eqn:E3; auto.
    destruct (kget kw "zres") eqn:E4; auto. destruct (kget kw "res") eqn:E5; auto. exfalso. unfold absent in Hc. rewrite <- !kget_none in Hc. intuition congruence.
  - intros na ni wl z r o Hi (v1 & H1 & N1) (v2 & H2 & N2) (v3 & H3 & N3) (vz & Hz & Nz) (vr & Hr & Nr) E. rewrite otf_plot_kw_eq. destruct (khas kw "otf"); auto.
    apply kreq_in in Hz, Hr, H1, H2, H3; auto. rewrite Hz, Hr, H1, H2, H3. cbn [bind]. cbv zeta. rewrite otf_ext by auto. apply khas_in in Hi. rewrite Hi.
    destruct (otf_plot_3d _ _ _ _ _ _ _ E) as (nz & ny & nx & Es). rewrite Es.
    destruct (otf_plot_ranges _ _ _ _ _ _ _ _ _ _ Es E) as (-> & (? & Ea) & (? & Eb) & (? & Ec) & (? & Ed)).
    rewrite Nz, Nr. cbn [bind]. rewrite Ea, Eb, Ec. cbn [bind]. rewrite Ed. reflexivity.
Qed.

(** ** The methods *)
Lemma psf_kw_named psf z r (kw : kwdict) mip : NoDup (map fst kw) ->
  absent kw "zres" -> absent kw "res" -> absent kw "psf" -> absent kw "extent" -> setting kw "mip" (PBool V true) mip ->
  kmerge V [("zres", PNum V z); ("res", PNum V r)] kw = Ok ([("zres", PNum V z); ("res", PNum V r)] ++ kw) /\
  match psf_plot psf z r (ptruth V truth mip) with
  | Ok ps => exists d, psf_plot_kw psf ([("zres", PNum V z); ("res", PNum V r)] ++ kw) = Ok d /\ psf_figure kw ps d
  | Err e => psf_plot_kw psf ([("zres", PNum V z); ("res", PNum V r)] ++ kw) = Err e
  end.
Proof.
  intros H Hz Hr Hp He Hm. set (named := [("zres", PNum V z); ("res", PNum V r)]).
  assert (Ha : forall k, In k (map fst named) -> absent kw k) by (cbn; intros k [<- | [<- | []]]; auto).
  split; [now apply kmerge_ok |].
  assert (Hn : NoDup (map fst (named ++ kw))) by (apply named_nodup; auto; cbn; repeat constructor; cbn; intuition discriminate).
  assert (Hs : same_but ["zres"; "res"] (named ++ kw) kw) by now apply named_same.
  assert (Hp' : absent (named ++ kw) "psf") by (unfold absent; cbn; intros [| [|]]; try discriminate; auto).
  assert (He' : absent (named ++ kw) "extent") by (unfold absent; cbn; intros [| [|]]; try discriminate; auto).
  assert (Hm' : setting (named ++ kw) "mip" (PBool V true) mip) by (eapply same_but_setting; [apply same_but_sym, Hs | cbn; intuition discriminate | auto]).
  assert (Gz : gives (named ++ kw) "zres" z) by (exists (PNum V z); cbn; auto).
  assert (Gr : gives (named ++ kw) "res" r) by (exists (PNum V r); cbn; auto).
  destruct (psf_plot psf z r (ptruth V truth mip)) as [ps | e] eqn:E.
  - destruct (C94_psf_plot_returns psf (named ++ kw) z r mip ps) as (d & Ed & (F1 & F2 & n & (g & lo & hi & En & G1 & G2 & G3) & F4)); auto.
    exists d. split; auto. split; [auto |]. split; [eapply same_but_placed; eauto; cbn; intuition discriminate |].
    exists n. split.
    + exists g, lo, hi. split; auto. repeat split; eapply same_but_setting; eauto; cbn; intuition discriminate.
    + eapply same_but_drawn_with; eauto; try (cbn; intuition discriminate). intros k; cbn; tauto.
  - rewrite psf_plot_kw_eq. apply khas_out in Hp'. rewrite Hp'. cbn [bind kreq]. cbv zeta. rewrite psf_ext by auto. apply khas_out in He'. rewrite He'.
    apply setting_kopt in Hm'; auto. rewrite <- Hm'.
    replace (kreq V (named ++ kw) "zres") with (Ok (PNum V z)) by reflexivity. replace (kreq V (named ++ kw) "res") with (Ok (PNum V r)) by reflexivity. cbn [bind pnumber].
    rewrite E. unfold psf_plot in E. destruct (shape psf) as [| nz [| ny [| nx [|]]]]; try (now injection E as ->). reflexivity.
Qed.
Definition five (na ni wl z r : R) : kwdict := [("na", PNum V na); ("ni", PNum V ni); ("wl", PNum V wl); ("zres", PNum V z); ("res", PNum V r)].
Lemma otf_kw_named otf na ni wl z r (kw : kwdict) : NoDup (map fst kw) ->
  (forall k, In k ["na"; "ni"; "wl"; "zres"; "res"; "otf"; "extent"] -> absent kw k) ->
  kmerge V (five na ni wl z r) (kupdate [("vmin", tiny)] kw) = Ok (five na ni wl z r ++ kupdate [("vmin", tiny)] kw) /\
  match otf_plot otf na ni wl z r with
  | Ok (ps, c, w) => exists d, otf_plot_kw otf (five na ni wl z r ++ kupdate [("vmin", tiny)] kw) = Ok (d, c, w) /\ otf_figure tiny kw ps d
  | Err e => otf_plot_kw otf (five na ni wl z r ++ kupdate [("vmin", tiny)] kw) = Err e
  end.
Proof.
  intros H Hk. set (named := five na ni wl z r). set (dk := kupdate [("vmin", tiny)] kw).
  assert (Hd : NoDup (map fst dk)) by (apply kupdate_nodup; cbn; repeat constructor; auto).
  assert (Hk' : forall k, In k ["na"; "ni"; "wl"; "zres"; "res"; "otf"; "extent"] -> absent dk k).
  { intros k Hi Hx. apply (Hk k Hi). apply default_keys in Hx; auto. intros ->. cbn in Hi. intuition discriminate. }
  assert (Ha : forall k, In k (map fst named) -> absent dk k) by (intros k Hi; apply Hk'; cbn in *; tauto).
  split; [now apply kmerge_ok |].
  assert (Hn : NoDup (map fst (named ++ dk))) by (apply named_nodup; auto; cbn; repeat constructor; cbn; intuition discriminate).
  assert (Hs : same_but ["na"; "ni"; "wl"; "zres"; "res"] (named ++ dk) dk) by now apply named_same.
  assert (Hd2 : same_but ["vmin"] dk kw) by now apply default_same.
  assert (Hp' : absent (named ++ dk) "otf") by (unfold absent; cbn; intros [| [| [| [| [|]]]]]; try discriminate; revert H0; apply Hk'; cbn; tauto).
  assert (He' : absent (named ++ dk) "extent") by (unfold absent; cbn; intros [| [| [| [| [|]]]]]; try discriminate; revert H0; apply Hk'; cbn; tauto).
  assert (G1 : gives (named ++ dk) "na" na) by (exists (PNum V na); cbn; auto).
  assert (G2 : gives (named ++ dk) "ni" ni) by (exists (PNum V ni); cbn; auto).
  assert (G3 : gives (named ++ dk) "wl" wl) by (exists (PNum V wl); cbn; auto).
  assert (Gz : gives (named ++ dk) "zres" z) by (exists (PNum V z); cbn; auto 6).
  assert (Gr : gives (named ++ dk) "res" r) by (exists (PNum V r); cbn; auto 8).
  destruct (otf_plot otf na ni wl z r) as [[[ps c] w] | e] eqn:E.
  - destruct (C94_otf_plot_returns otf (named ++ dk) na ni wl z r ps c w) as (d & Ed & (F1 & F2 & n & (lo & hi & En & B1 & B2) & F4)); auto.
    exists d. split; auto. split; [auto |]. split.
    { eapply same_but_placed; [exact Hd2 | cbn; intuition discriminate.. |]. eapply same_but_placed; [exact Hs | cbn; intuition discriminate.. | exact F2]. }
    exists n. split.
    + exists lo, hi. split; auto. split.
      * apply (default_setting kw "vmin" tiny (PNone V)); auto. eapply same_but_setting; [exact Hs | cbn; intuition discriminate | exact B1].
      * eapply same_but_setting; [exact Hd2 | cbn; intuition discriminate |]. eapply same_but_setting; [exact Hs | cbn; intuition discriminate | exact B2].
    + eapply same_but_drawn_with; [exact Hd2 | intros k; cbn; tauto | cbn; intuition discriminate.. |].
      eapply same_but_drawn_with; [exact Hs | intros k; cbn; tauto | cbn; intuition discriminate.. | exact F4].
  - rewrite otf_plot_kw_eq. apply khas_out in Hp'. rewrite Hp'. cbv zeta. rewrite otf_ext by auto. apply khas_out in He'. rewrite He'.
    replace (kreq V (named ++ dk) "na") with (Ok (PNum V na)) by reflexivity. replace (kreq V (named ++ dk) "ni") with (Ok (PNum V ni)) by reflexivity.
    replace (kreq V (named ++ dk) "wl") with (Ok (PNum V wl)) by reflexivity.
    replace (kreq V (named ++ dk) "zres") with (Ok (PNum V z)) by reflexivity. replace (kreq V (named ++ dk) "res") with (Ok (PNum V r)) by reflexivity. cbn [bind pnumber].
    rewrite E. unfold otf_plot in E. destruct (shape otf) as [| nz [| ny [| nx [|]]]]; try (now injection E as ->).
    destruct (negb (nx =? ny)%Z); [now injection E as -> |].
    destruct (fft_max_min nz z); [| now injection E as ->]. destruct (fft_max_min ny r); [| now injection E as ->]. destruct (fft_max_min nx r); [| now injection E as ->]. reflexivity.
Qed.

Lemma sim_bind {T A B} (R : A -> B -> Prop) (c : MM T) (f : T -> MM A) (g : T -> MM B) : (forall x, sim R (f x) (g x)) -> sim R (mbind c f) (mbind c g).
Proof. intros H m. unfold mbind. destruct (c m) as [[x | e] m']; auto. apply H. Qed.
Lemma clash_bind {T A B} (c : MM T) (f : T -> MM A) (g : T -> MM B) : (forall x, clash (f x) (g x)) -> clash (mbind c f) (mbind c g).
Proof. intros H m x m'. unfold mbind. destruct (c m) as [[y | e] m1]; [apply H | discriminate]. Qed.
Lemma sim_bindp {T A B} (R : A -> B -> Prop) (c : M numeric T) (f : T -> M numeric A) (g : T -> M numeric B) : (forall x, sim R (f x) (g x)) -> sim R (bindM numeric c f) (bindM numeric c g).
Proof. intros H m. unfold bindM. destruct (c m) as [[x | e] m']; auto. apply H. Qed.
Lemma clash_bindp {T A B} (c : M numeric T) (f : T -> M numeric A) (g : T -> M numeric B) : (forall x, clash (f x) (g x)) -> clash (bindM numeric c f) (bindM numeric c g).
Proof. intros H m x m'. unfold bindM. destruct (c m) as [[y | e] m1]; [apply H | discriminate]. Qed.
(** plot_psf of a microscope, with keywords that do not clash: the outcome and the state it leaves are those of the plot with that [mip],
    and the images are drawn with the caller's keywords. *)
Theorem C94_microscope_psf (kw : kwdict) mip : NoDup (map fst kw) ->
  (forall k, In k ["self"; "psf"; "zres"; "res"; "extent"] -> absent kw k) -> setting kw "mip" (PBool V true) mip ->
  sim (psf_result kw) (m_plot_psf (ptruth V truth mip)) (m_plot_psf_kw kw).
Proof.
  intros H Hk Hm. unfold M_Kwargs.m_plot_psf_kw, m_plot_psf.
  replace (khas kw "self") with false by (symmetry; apply khas_out, Hk; cbn; tauto).
  do 2 (apply sim_bind; intro). apply sim_bind; intro px. do 5 (apply sim_bind; intro). cbv zeta. apply sim_bind; intro. apply sim_bind; intro part.
  destruct (psf_kw_named (amap (fun v => match v with Some x => x | None => 0 end) part) px px kw mip) as [E1 E2]; auto; try (apply Hk; cbn; tauto).
  intro m. unfold mbind at 2. unfold mlift at 2. rewrite E1.
  destruct (all_some _); [| exists None; split; [reflexivity | exact I]].
  unfold mbind, mlift. destruct (psf_plot _ px px _).
  - destruct E2 as (d & -> & Hd). exists (Some d). split; [reflexivity | exact Hd].
  - rewrite E2. reflexivity.
Qed.
Lemma merge_or named (kw : kwdict) : kmerge V named kw = Err TypeError \/ kmerge V named kw = Ok (named ++ kw) /\ forall k, In k (map fst named) -> absent kw k.
Proof.
  unfold kmerge. destruct (existsb _ named) eqn:E; auto. right. split; auto. intros k Hi Hx.
  enough (existsb (fun kv => khas kw (fst kv)) named = true) by congruence.
  apply in_map_iff in Hi as ([k0 v] & <- & Hi). apply existsb_exists. exists (k0, v). split; auto. now apply khas_in.
Qed.
Lemma psf_kw_refused psf z r (kw : kwdict) mip ps : NoDup (map fst kw) -> setting kw "mip" (PBool V true) mip ->
  In "psf" (map fst kw) \/ In "extent" (map fst kw) -> psf_plot psf z r (ptruth V truth mip) = Ok ps ->
  (do kw <- kmerge V [("zres", PNum V z); ("res", PNum V r)] kw; psf_plot_kw psf kw) = Err TypeError.
Proof.
  intros H Hm Hc E. destruct (merge_or [("zres", PNum V z); ("res", PNum V r)] kw) as [-> | [-> Ha]]; auto. cbn [bind].
  set (named := [("zres", PNum V z); ("res", PNum V r)]) in *.
  assert (Hn : NoDup (map fst (named ++ kw))) by (apply named_nodup; auto; cbn; repeat constructor; cbn; intuition discriminate).
  assert (Hs : same_but ["zres"; "res"] (named ++ kw) kw) by now apply named_same.
  destruct Hc as [Hc | Hc]; (assert (Hc' := Hc); apply (same_but_keys _ _ _ _ Hs) in Hc'; [| cbn; intuition discriminate]).
  - apply C94_psf_plot_refused; auto.
  - destruct (C94_psf_plot_refused psf (named ++ kw) Hn) as [_ G]. apply (G z r mip ps); auto; try (eexists; cbn; eauto; fail).
    eapply same_but_setting; [apply same_but_sym, Hs | cbn; intuition discriminate | auto].
Qed.
(** The sizes are the object's: giving one again is a TypeError, as are "psf", "extent" and "self"; the failed call leaves the state the
    plot would have left ("self": untouched). *)
Theorem C94_microscope_psf_refused (kw : kwdict) mip : NoDup (map fst kw) -> setting kw "mip" (PBool V true) mip ->
  (In "self" (map fst kw) -> forall m, m_plot_psf_kw kw m = (Err TypeError, m)) /\
  (In "zres" (map fst kw) \/ In "res" (map fst kw) -> absent kw "self" -> clash (m_plot_psf (ptruth V truth mip)) (m_plot_psf_kw kw)) /\
  (In "psf" (map fst kw) \/ In "extent" (map fst kw) -> absent kw "self" -> forall m ps m', m_plot_psf (ptruth V truth mip) m = (Ok (Some ps), m') ->
     m_plot_psf_kw kw m = (Err TypeError, m')).
Proof.
  intros H Hm. split; [| split].
  - intros Hs m. unfold M_Kwargs.m_plot_psf_kw. apply khas_in in Hs. now rewrite Hs.
  - intros Hc Hs. unfold M_Kwargs.m_plot_psf_kw, m_plot_psf. apply khas_out in Hs. rewrite Hs.
    do 2 (apply clash_bind; intro). apply clash_bind; intro px. do 5 (apply clash_bind; intro). cbv zeta. apply clash_bind; intro. apply clash_bind; intro part.
    assert (E : kmerge V [("zres", PNum V px); ("res", PNum V px)] kw = Err TypeError) by (destruct Hc as [Hc | Hc]; eapply kmerge_twice; eauto; cbn; tauto).
    intros m o m' Ho. rewrite E. unfold mbind, mlift at 1. destruct (all_some _); [| unfold mret in Ho; congruence].
    unfold mbind, mlift in Ho. destruct (psf_plot _ px px _); [unfold mret in Ho; congruence | discriminate].
  - intros Hc Hs m ps m' E. revert m E. unfold M_Kwargs.m_plot_psf_kw, m_plot_psf. apply khas_out in Hs. rewrite Hs.
    assert (B : forall T (c : MM T) (f : T -> MM (option (list panel))) (g : T -> MM (option (drawn V))),
      (forall x m, f x m = (Ok (Some ps), m') -> g x m = (Err TypeError, m')) -> forall m, mbind c f m = (Ok (Some ps), m') -> mbind c g m = (Err TypeError, m')).
    { intros T c f g Hfg m. unfold mbind. destruct (c m) as [[x | e] m1]; [apply Hfg | discriminate]. }
    do 2 (apply B; intro). apply B; intro px. do 5 (apply B; intro). cbv zeta. apply B; intro. apply B; intro part. intros m Ho.
    destruct (all_some _); [| discriminate Ho]. unfold mbind, mlift in Ho.
    destruct (psf_plot _ px px _) as [ps' |] eqn:E; [| discriminate]. unfold mret in Ho. injection Ho as -> ->.
    assert (G := psf_kw_refused _ _ _ kw mip _ H Hm Hc E). unfold mbind at 1. unfold mlift at 1.
    destruct (kmerge V _ kw) as [kw' | e]; cbn [bind] in G; [| congruence]. unfold mbind, mlift. rewrite G. reflexivity.
Qed.
(** plot_otf of a microscope: likewise; the default lower limit of the colour scale is 1e-4. *)
Theorem C94_microscope_otf (kw : kwdict) : NoDup (map fst kw) ->
  (forall k, In k ["self"; "otf"; "na"; "ni"; "wl"; "zres"; "res"; "extent"] -> absent kw k) -> sim (otf_result kw) m_plot_otf (m_plot_otf_kw kw).
Proof.
  intros H Hk. unfold M_Kwargs.m_plot_otf_kw, m_plot_otf.
  replace (khas kw "self") with false by (symmetry; apply khas_out, Hk; cbn; tauto).
  apply sim_bind; intro. apply sim_bind; intro otf. cbv zeta. apply sim_bind; intro na. apply sim_bind; intro ni. apply sim_bind; intro wl. apply sim_bind; intro px.
  destruct (otf_kw_named otf na ni wl px px kw) as [E1 E2]; auto. { intros k Hi. apply Hk. cbn in *. tauto. }
  intro m. unfold mbind, mlift. unfold five, tiny in E1. rewrite E1. unfold five, tiny in E2. destruct (otf_plot otf na ni wl px px) as [[[ps c] w] | e].
  - destruct E2 as (d & -> & Hd). exists (d, c, w). split; [reflexivity |]. split; [exact Hd | split; reflexivity].
  - rewrite E2. reflexivity.
Qed.
Lemma otf_kw_refused otf na ni wl z r (kw : kwdict) o k : NoDup (map fst kw) -> In k ["otf"; "na"; "ni"; "wl"; "zres"; "res"; "extent"] -> In k (map fst kw) ->
  otf_plot otf na ni wl z r = Ok o ->
  (do kw <- kmerge V (five na ni wl z r) (kupdate [("vmin", tiny)] kw); otf_plot_kw otf kw) = Err TypeError.
Proof.
  intros H Hk Hi E. set (dk := kupdate [("vmin", tiny)] kw).
  assert (Hd : NoDup (map fst dk)) by (apply kupdate_nodup; cbn; repeat constructor; auto).
  assert (Hi' : In k (map fst dk)) by (apply default_keys; auto; intros ->; cbn in Hk; intuition discriminate).
  destruct (merge_or (five na ni wl z r) dk) as [-> | [-> Ha]]; auto. cbn [bind]. set (named := five na ni wl z r) in *.
  assert (Hn : NoDup (map fst (named ++ dk))) by (apply named_nodup; auto; cbn; repeat constructor; cbn; intuition discriminate).
  assert (Hx : In k (map fst (named ++ dk))) by (rewrite map_app; apply in_or_app; auto).
  destruct (in_dec string_dec k (map fst named)) as [Hin | Hin]; [exfalso; eapply Ha; eauto |].
  assert (Hc : k = "otf" \/ k = "extent") by (cbn in Hk, Hin; intuition). destruct Hc as [-> | ->].
  - apply C94_otf_plot_refused; auto.
  - destruct (C94_otf_plot_refused otf (named ++ dk) Hn) as [_ G].
    apply (G na ni wl z r o); auto; eexists; (split; [cbn; eauto 8 | reflexivity]).
Qed.
Theorem C94_microscope_otf_refused (kw : kwdict) : NoDup (map fst kw) ->
  (In "self" (map fst kw) -> forall m, m_plot_otf_kw kw m = (Err TypeError, m)) /\
  (forall k, In k ["otf"; "na"; "ni"; "wl"; "zres"; "res"; "extent"] -> In k (map fst kw) -> absent kw "self" -> clash m_plot_otf (m_plot_otf_kw kw)).
Proof.
  intro H. split.
  - intros Hs m. unfold M_Kwargs.m_plot_otf_kw. apply khas_in in Hs. now rewrite Hs.
  - intros k Hk Hi Hs. unfold M_Kwargs.m_plot_otf_kw, m_plot_otf. apply khas_out in Hs. rewrite Hs.
    apply clash_bind; intro. apply clash_bind; intro otf. cbv zeta. apply clash_bind; intro na. apply clash_bind; intro ni. apply clash_bind; intro wl. apply clash_bind; intro px.
    intros m o m' Ho. unfold mlift in Ho. injection Ho as Ho ->. assert (G := otf_kw_refused otf na ni wl px px kw o k H Hk Hi Ho).
    unfold five, tiny in G. unfold mbind, mlift. destruct (kmerge V _ _); cbn [bind] in G; congruence.
Qed.

(** The same for PSF objects. *)
Theorem C94_object_psf (c : cls) (kw : kwdict) mip : NoDup (map fst kw) ->
  (forall k, In k ["self"; "psf"; "zres"; "res"; "extent"] -> absent kw k) -> setting kw "mip" (PBool V true) mip ->
  sim (psf_result kw) (p_plot_psf c (ptruth V truth mip)) (p_plot_psf_kw c kw).
Proof.
  intros H Hk Hm. unfold M_Kwargs.p_plot_psf_kw, p_plot_psf.
  replace (khas kw "self") with false by (symmetry; apply khas_out, Hk; cbn; tauto).
  do 3 (apply sim_bindp; intro). apply sim_bindp; intro rs. do 2 (apply sim_bindp; intro). apply sim_bindp; intro zres. do 2 (apply sim_bindp; intro). cbv zeta.
  do 2 (apply sim_bindp; intro). apply sim_bindp; intro part.
  destruct (psf_kw_named (amap (fun v => match v with Some x => x | None => 0 end) part) zres rs kw mip) as [E1 E2]; auto; try (apply Hk; cbn; tauto).
  intro m. unfold bindM at 2. unfold lift at 2. rewrite E1.
  destruct (all_some _); [| exists None; split; [reflexivity | exact I]].
  unfold bindM, lift. destruct (psf_plot _ zres rs _).
  - destruct E2 as (d & -> & Hd). exists (Some d). split; [reflexivity | exact Hd].
  - rewrite E2. reflexivity.
Qed.
Theorem C94_object_psf_refused (c : cls) (kw : kwdict) mip : NoDup (map fst kw) -> setting kw "mip" (PBool V true) mip ->
  (In "self" (map fst kw) -> forall m, p_plot_psf_kw c kw m = (Err TypeError, m)) /\
  (In "zres" (map fst kw) \/ In "res" (map fst kw) -> absent kw "self" -> clash (p_plot_psf c (ptruth V truth mip)) (p_plot_psf_kw c kw)) /\
  (In "psf" (map fst kw) \/ In "extent" (map fst kw) -> absent kw "self" -> forall m ps m', p_plot_psf c (ptruth V truth mip) m = (Ok (Some ps), m') ->
     p_plot_psf_kw c kw m = (Err TypeError, m')).
Proof.
  intros H Hm. split; [| split].
  - intros Hs m. unfold M_Kwargs.p_plot_psf_kw. apply khas_in in Hs. now rewrite Hs.
  - intros Hc Hs. unfold M_Kwargs.p_plot_psf_kw, p_plot_psf. apply khas_out in Hs. rewrite Hs.
    do 3 (apply clash_bindp; intro). apply clash_bindp; intro rs. do 2 (apply clash_bindp; intro). apply clash_bindp; intro zres. do 2 (apply clash_bindp; intro). cbv zeta.
    do 2 (apply clash_bindp; intro). apply clash_bindp; intro part.
    assert (E : kmerge V [("zres", PNum V zres); ("res", PNum V rs)] kw = Err TypeError) by (destruct Hc as [Hc | Hc]; eapply kmerge_twice; eauto; cbn; tauto).
    intros m o m' Ho. rewrite E. unfold bindM, lift at 1. destruct (all_some _); [| unfold ret in Ho; congruence].
    unfold bindM, lift in Ho. destruct (psf_plot _ zres rs _); [unfold ret in Ho; congruence | discriminate].
  - intros Hc Hs m ps m' E. revert m E. unfold M_Kwargs.p_plot_psf_kw, p_plot_psf. apply khas_out in Hs. rewrite Hs.
    assert (B : forall T (c : M numeric T) (f : T -> M numeric (option (list panel))) (g : T -> M numeric (option (drawn V))),
      (forall x m, f x m = (Ok (Some ps), m') -> g x m = (Err TypeError, m')) -> forall m, bindM numeric c f m = (Ok (Some ps), m') -> bindM numeric c g m = (Err TypeError, m')).
    { intros T c0 f g Hfg m. unfold bindM. destruct (c0 m) as [[x | e] m1]; [apply Hfg | discriminate]. }
    do 3 (apply B; intro). apply B; intro rs. do 2 (apply B; intro). apply B; intro zres. do 2 (apply B; intro). cbv zeta. do 2 (apply B; intro). apply B; intro part. intros m Ho.
    destruct (all_some _); [| discriminate Ho]. unfold bindM, lift in Ho.
    destruct (psf_plot _ zres rs _) as [ps' |] eqn:E; [| discriminate]. unfold ret in Ho. injection Ho as -> ->.
    assert (G := psf_kw_refused _ _ _ kw mip _ H Hm Hc E). unfold bindM at 1. unfold lift at 1.
    destruct (kmerge V _ kw) as [kw' | e]; cbn [bind] in G; [| congruence]. unfold bindM, lift. rewrite G. reflexivity.
Qed.
Theorem C94_object_otf (c : cls) (kw : kwdict) : NoDup (map fst kw) ->
  (forall k, In k ["self"; "otf"; "na"; "ni"; "wl"; "zres"; "res"; "extent"] -> absent kw k) -> sim (otf_result kw) (p_plot_otf c) (p_plot_otf_kw c kw).
Proof.
  intros H Hk. unfold M_Kwargs.p_plot_otf_kw, p_plot_otf.
  replace (khas kw "self") with false by (symmetry; apply khas_out, Hk; cbn; tauto).
  do 2 (apply sim_bindp; intro). apply sim_bindp; intro otf. cbv zeta. apply sim_bindp; intro na. apply sim_bindp; intro ni. apply sim_bindp; intro wl.
  apply sim_bindp; intro zres. apply sim_bindp; intro rs.
  destruct (otf_kw_named otf na ni wl zres rs kw) as [E1 E2]; auto. { intros k Hi. apply Hk. cbn in *. tauto. }
  intro m. unfold bindM, lift. unfold five, tiny in E1. rewrite E1. unfold five, tiny in E2. destruct (otf_plot otf na ni wl zres rs) as [[[ps ci] w] | e].
  - destruct E2 as (d & -> & Hd). exists (d, ci, w). split; [reflexivity |]. split; [exact Hd | split; reflexivity].
  - rewrite E2. reflexivity.
Qed.
Theorem C94_object_otf_refused (c : cls) (kw : kwdict) : NoDup (map fst kw) ->
  (In "self" (map fst kw) -> forall m, p_plot_otf_kw c kw m = (Err TypeError, m)) /\
  (forall k, In k ["otf"; "na"; "ni"; "wl"; "zres"; "res"; "extent"] -> In k (map fst kw) -> absent kw "self" -> clash (p_plot_otf c) (p_plot_otf_kw c kw)).
Proof.
  intro H. split.
  - intros Hs m. unfold M_Kwargs.p_plot_otf_kw. apply khas_in in Hs. now rewrite Hs.
  - intros k Hk Hi Hs. unfold M_Kwargs.p_plot_otf_kw, p_plot_otf. apply khas_out in Hs. rewrite Hs.
    do 2 (apply clash_bindp; intro). apply clash_bindp; intro otf. cbv zeta. apply clash_bindp; intro na. apply clash_bindp; intro ni. apply clash_bindp; intro wl.
    apply clash_bindp; intro zres. apply clash_bindp; intro rs.
    intros m o m' Ho. unfold lift in Ho. injection Ho as Ho ->. assert (G := otf_kw_refused otf na ni wl zres rs kw o k H Hk Hi Ho).
    unfold five, tiny in G. unfold bindM, lift. destruct (kmerge V _ _); cbn [bind] in G; congruence.
Qed.
End Objects.

(** A call psf_plot(psf, zres=1, res=1, gamma=1, cmap="gray", alpha=7): the images get norm=PowerNorm(1, None, None), interpolation="nearest",
    cmap="gray", alpha=7. *)
Example C94_case : let kw := [("zres", PNum nat 1); ("res", PNum nat 1); ("gamma", PNum nat 1); ("cmap", PStr nat "gray"); ("alpha", PObj nat 7%nat)] in
  let psf := mkArr [2%Z; 3%Z; 3%Z] (fun _ => 1) in
  NoDup (map fst kw) /\ absent kw "psf" /\ absent kw "extent" /\ gives (fun _ => Err TypeError) kw "zres" 1 /\ gives (fun _ => Err TypeError) kw "res" 1 /\
  setting kw "mip" (PBool nat true) (PBool nat true) /\ (exists ps, psf_plot psf 1 1 true = Ok ps) /\
  receives psf_own (PowerNorm nat (PNum nat 1) (PNone nat) (PNone nat)) kw "cmap" (SVal nat (PStr nat "gray")) /\
  receives psf_own (PowerNorm nat (PNum nat 1) (PNone nat) (PNone nat)) kw "alpha" (SVal nat (PObj nat 7%nat)) /\
  (forall v, ~ receives psf_own (PowerNorm nat (PNum nat 1) (PNone nat) (PNone nat)) kw "gamma" v).
Proof.
  cbv zeta. split; [cbn; repeat constructor; cbn; intuition discriminate |]. split; [unfold absent; cbn; intuition discriminate |]. split; [unfold absent; cbn; intuition discriminate |].
  split; [eexists; cbn; eauto |]. split; [eexists; cbn; eauto |]. split; [right; split; [unfold absent; cbn; intuition discriminate | reflexivity] |].
  split; [eexists; reflexivity |].
  split; [left; eexists; split; [reflexivity |]; split; cbn; intuition discriminate |].
  split; [left; eexists; split; [reflexivity |]; split; cbn; intuition discriminate |].
  intros v [(x & _ & _ & Hn) | [Ha _]]; [apply Hn; cbn; tauto | apply Ha; cbn; tauto].
Qed.
(** The conditions of the theorems on the methods: plot_psf(mip=False, alpha=7), plot_psf(res=1). *)
Example C94_method_case : let kw := [("mip", PBool nat false); ("alpha", PObj nat 7%nat)] in
  NoDup (map fst kw) /\ (forall k, In k ["self"; "psf"; "otf"; "na"; "ni"; "wl"; "zres"; "res"; "extent"] -> absent kw k) /\
  setting kw "mip" (PBool nat true) (PBool nat false) /\
  let kw := [("res", PNum nat 1)] in NoDup (map fst kw) /\ setting kw "mip" (PBool nat true) (PBool nat true) /\ In "res" (map fst kw) /\ absent kw "self".
Proof.
  cbv zeta. split; [cbn; repeat constructor; cbn; intuition discriminate |].
  split; [intros k Hk Hx; cbn in Hk, Hx; intuition (subst; discriminate) |]. split; [left; cbn; auto |].
  split; [cbn; repeat constructor; cbn; intuition discriminate |]. split; [right; split; [unfold absent; cbn; intuition discriminate | reflexivity] |].
  split; [cbn; auto | unfold absent; cbn; intuition discriminate].
Qed.
Print Assumptions C94_psf_plot.
Print Assumptions C94_psf_plot_returns.
Print Assumptions C94_psf_plot_refused.
Print Assumptions C94_otf_plot.
Print Assumptions C94_otf_plot_returns.
Print Assumptions C94_otf_plot_refused.
Print Assumptions C94_microscope_psf.
Print Assumptions C94_microscope_psf_refused.
Print Assumptions C94_microscope_otf.
Print Assumptions C94_microscope_otf_refused.
Print Assumptions C94_object_psf.
Print Assumptions C94_object_psf_refused.
Print Assumptions C94_object_otf.
Print Assumptions C94_object_otf_refused.
