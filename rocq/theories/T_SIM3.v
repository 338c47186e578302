(** C92: what the orientations of a SIM microscope stand for: a set of lines. *)
From Coq Require Import FunctionalExtensionality Permutation.
From Verif Require Import S_FFT S_Hanser S_Micro S_SIM S_Wiener S_Bin L_Sum L_Bin L_PSF L_Ctor L_Phase5 L_Micro T_PSF T_Bin L_Array L_FFT L_FFT2 L_Phase2 L_Polar T_Hanser T_Object T_Micro T_Micro2 T_Micro3 L_Micro2 T_Micro4 T_Micro5 T_SIM T_Wiener T_SIM2.
Import M_Array.
Local Open Scope R_scope.

(** Two lists of orientations describe the same lines: equal up to their order and to half turns of each. *)
Definition same_lines (os os' : list R) : Prop :=
  exists l, Forall2 (fun o o' => exists k : Z, o' = o + IZR k * PI) os l /\ Permutation l os'.

(** ** Adding in another order *)
Lemma Forall2_rev {A B} (P : A -> B -> Prop) l l' : Forall2 P l l' -> Forall2 P (rev l) (rev l').
Proof. induction 1; cbn; [constructor|]. apply Forall2_app; auto. Qed.
Lemma F2_len {A B} (P : A -> B -> Prop) l l' : Forall2 P l l' -> List.length l = List.length l'.
Proof. induction 1; cbn; auto. Qed.
Lemma bshape_same : forall sa sw, List.length sa = List.length sw -> bshape sa sw = Ok sa -> Forall2 (fun x y => bdim x y = Ok x) sa sw.
Proof.
  intros sa sw Hl H. unfold bshape in H. destruct (bshape_rev (rev sa) (rev sw)) as [r|] eqn:E; [|discriminate]. cbn [bind] in H. injection H as H. rewrite <- (rev_involutive sa), <- (rev_involutive sw).
  assert (R : r = rev sa) by (rewrite <- H; now rewrite rev_involutive). subst r. clear H. apply Forall2_rev.
  assert (L : List.length (rev sa) = List.length (rev sw)) by now rewrite !rev_length. clear Hl. revert L E. generalize (rev sa) (rev sw). clear.
  induction l as [|x a IH]; intros [|y b] L E; try discriminate; constructor; cbn in E; destruct (bdim x y) as [d|] eqn:D; try discriminate; cbn [bind] in E; destruct (bshape_rev a b) eqn:E2; try discriminate; cbn [bind] in E; injection E as -> ->; auto.
Qed.
Lemma bix_bix x y i : bdim x y = Ok x -> bix y (bix x i) = bix y i.
Proof.
  unfold bdim, bix. destruct (Z.eqb_spec x y) as [->|N]; [intros _; now destruct (y =? 1)%Z|]. destruct (Z.eqb_spec x 1) as [->|]; [intros [= ->]; congruence|]. reflexivity.
Qed.
Lemma bixs_bixs : forall sa sw, Forall2 (fun x y => bdim x y = Ok x) sa sw -> forall ix, bixs sw (bixs sa ix) = bixs sw ix.
Proof. induction 1 as [|x y sa sw D F IH]; intros [|i ix]; cbn; auto. now rewrite bix_bix, IH. Qed.
Lemma bixs_length : forall sh ix, List.length (bixs sh ix) = Nat.min (List.length sh) (List.length ix).
Proof. induction sh as [|n sh IH]; intros [|i ix]; cbn; auto. Qed.
Lemma bget_bget {A} sa (w : array A) ix : Forall2 (fun x y => bdim x y = Ok x) sa (shape w) -> let ix' := bixs sa (skipn (List.length ix - List.length sa) ix) in bget w ix' = bget w ix.
Proof.
  intros F ix'. unfold bget. pose proof (F2_len _ _ _ F) as L. unfold ix'. rewrite bixs_length, skipn_length.
  replace (Nat.min (List.length sa) (List.length ix - (List.length ix - List.length sa)) - List.length (shape w))%nat with 0%nat by lia. cbn [skipn]. rewrite bixs_bixs by exact F. now rewrite L.
Qed.
Lemma zlist_eqb_eq : forall a b, zlist_eqb a b = true -> a = b.
Proof. induction a as [|x a IH]; intros [|y b] H; cbn in H; try discriminate; auto. apply andb_prop in H. destruct H as [H1 H2]. apply Z.eqb_eq in H1. f_equal; auto. Qed.
(** outcome of [a op= b]: a matter of shapes *)
Definition fits (sa sb : list Z) : bool := match bshape sa sb with Ok s => zlist_eqb s sa | Err _ => false end.
Lemma fits_shape sa sb : fits sa sb = true -> bshape sa sb = Ok sa.
Proof. unfold fits. destruct (bshape sa sb); [|discriminate]. intros H. apply zlist_eqb_eq in H. now subst. Qed.
Lemma bshape_err sa sb e : bshape sa sb = Err e -> e = ValueError.
Proof.
  unfold bshape. destruct (bshape_rev (rev sa) (rev sb)) as [|e'] eqn:E; [discriminate|]. cbn. intros [= <-]. revert E. generalize (rev sa) (rev sb). clear.
  induction l as [|x a IH]; intros [|y b] E; cbn in E; try discriminate. unfold bdim in E. destruct (x =? y)%Z, (x =? 1)%Z, (y =? 1)%Z; cbn [bind] in E; try congruence; destruct (bshape_rev a b) eqn:E2; cbn [bind] in E; try discriminate; injection E as <-; eauto.
Qed.
Lemma ibop_fits {A B} (f : A -> B -> A) a b : ibop f a b = if fits (shape a) (shape b) then Ok (mkArr (shape a) (fun ix => f (bget a ix) (bget b ix))) else Err ValueError.
Proof.
  unfold ibop, bop, fits. destruct (bshape (shape a) (shape b)) as [s|e] eqn:E; cbn [bind].
  - cbn [shape]. destruct (zlist_eqb s (shape a)) eqn:Z; [|reflexivity]. apply zlist_eqb_eq in Z. now subst.
  - now apply bshape_err in E as ->.
Qed.
Lemma ibop_swap {A B} (f : A -> B -> A) a (w1 w2 : array B) : (forall x y z, f (f x y) z = f (f x z) y) -> shape w1 = shape w2 -> List.length (shape a) = List.length (shape w1) ->
  (do e <- ibop f a w1; ibop f e w2) = (do e <- ibop f a w2; ibop f e w1).
Proof.
  intros C S L. rewrite !ibop_fits, <- S. destruct (fits (shape a) (shape w1)) eqn:F; [|reflexivity]. cbn [bind]. rewrite !ibop_fits. cbn [shape]. rewrite <- S, F. f_equal. f_equal. apply functional_extensionality. intros ix.
  assert (F1 : Forall2 (fun x y => bdim x y = Ok x) (shape a) (shape w1)) by (apply bshape_same; [exact L|now apply fits_shape]).
  assert (F0 : forall l, Forall2 (fun x y => bdim x y = Ok x) l l) by (induction l; constructor; auto; unfold bdim; now rewrite Z.eqb_refl).
  set (ix' := bixs (shape a) (skipn (List.length ix - List.length (shape a)) ix)).
  change (f (f (bget a ix') (bget w1 ix')) (bget w2 ix) = f (f (bget a ix') (bget w2 ix')) (bget w1 ix)). unfold ix'.
  rewrite !bget_bget by (rewrite <- ?S; auto). apply C.
Qed.
Lemma bind_assoc {A B D} (r : res A) (f : A -> res B) (g : B -> res D) : (do y <- (do x <- r; f x); g y) = (do x <- r; do y <- f x; g y).
Proof. destruct r; reflexivity. Qed.
Lemma bind_ext {A B} (r : res A) (f g : A -> res B) : (forall x, r = Ok x -> f x = g x) -> bind r f = bind r g.
Proof. destruct r; cbn; auto. Qed.

(** ** The beams *)
Lemma cos_sin_kpi k : sin (IZR k * PI) = 0 /\ (cos (IZR k * PI) = 1 \/ cos (IZR k * PI) = -1).
Proof.
  assert (S : sin (IZR k * PI) = 0) by (apply sin_eq_0_1; exists k; reflexivity). split; [exact S|]. pose proof (sin2_cos2 (IZR k * PI)) as E. rewrite S in E. unfold Rsqr in E.
  assert (P : (cos (IZR k * PI) - 1) * (cos (IZR k * PI) + 1) = 0) by lra. apply Rmult_integral in P. lra.
Qed.
Section Loops.
Context (n zsize : Z) (xx zz : Z -> R) (freq alpha : R).
Lemma wave_turn o k theta : wave_pattern n zsize xx zz freq (o + IZR k * PI) theta = wave_pattern n zsize xx zz freq o theta \/
  wave_pattern n zsize xx zz freq (o + IZR k * PI) theta = wave_pattern n zsize xx zz freq o (- theta).
Proof.
  destruct (cos_sin_kpi k) as [S [C|C]]; [left|right]; unfold wave_pattern; f_equal; apply functional_extensionality; intros [|z [|y [|x [|]]]]; try reflexivity;
  rewrite cos_plus, sin_plus, S, C, ?sin_neg, ?cos_neg; f_equal; ring.
Qed.
Lemma wave_turn2 o k : (forall theta, wave_pattern n zsize xx zz freq (o + IZR k * PI) theta = wave_pattern n zsize xx zz freq o theta) \/
  (forall theta, wave_pattern n zsize xx zz freq (o + IZR k * PI) theta = wave_pattern n zsize xx zz freq o (- theta)).
Proof.
  destruct (cos_sin_kpi k) as [S [C|C]]; [left|right]; intros theta; unfold wave_pattern; f_equal; apply functional_extensionality; intros [|z [|y [|x [|]]]]; try reflexivity;
  rewrite cos_plus, sin_plus, S, C, ?sin_neg, ?cos_neg; f_equal; ring.
Qed.
Lemma Cplus_swap x y z : Cplus (Cplus x y) z = Cplus (Cplus x z) y. Proof. ring. Qed.
Lemma beams_turn o k e : List.length (shape e) = 3%nat -> add_beams n zsize xx zz freq alpha (o + IZR k * PI) e = add_beams n zsize xx zz freq alpha o e.
Proof.
  intros L. unfold add_beams. destruct (wave_turn2 o k) as [W|W]; rewrite !W; [reflexivity|]. rewrite Ropp_involutive. apply ibop_swap; auto using Cplus_swap.
Qed.
Lemma beams_shape o e e' : add_beams n zsize xx zz freq alpha o e = Ok e' -> shape e' = shape e.
Proof.
  unfold add_beams. rewrite ibop_fits. destruct (fits _ _); [|discriminate]. cbn [bind]. rewrite ibop_fits. destruct (fits _ _); [|discriminate]. now intros [= <-].
Qed.
Lemma beams_swap o1 o2 e : List.length (shape e) = 3%nat ->
  (do e <- add_beams n zsize xx zz freq alpha o1 e; add_beams n zsize xx zz freq alpha o2 e) = (do e <- add_beams n zsize xx zz freq alpha o2 e; add_beams n zsize xx zz freq alpha o1 e).
Proof.
  intros L. unfold add_beams. set (a := wave_pattern _ _ _ _ _ o1 (- alpha)). set (b := wave_pattern _ _ _ _ _ o1 alpha). set (c := wave_pattern _ _ _ _ _ o2 (- alpha)). set (d := wave_pattern _ _ _ _ _ o2 alpha).
  assert (Sa : shape a = [zsize; n; n]) by reflexivity. assert (Sb : shape b = [zsize; n; n]) by reflexivity. assert (Sc : shape c = [zsize; n; n]) by reflexivity. assert (Sd : shape d = [zsize; n; n]) by reflexivity. clearbody a b c d.
  assert (SW : forall (e : array C) (u v : array C), List.length (shape e) = 3%nat -> shape u = [zsize; n; n] -> shape v = [zsize; n; n] -> (do e <- ibop Cplus e u; ibop Cplus e v) = (do e <- ibop Cplus e v; ibop Cplus e u))
    by (intros e0 u v L0 -> -> || idtac; intros e0 u v L0 Su Sv; apply ibop_swap; [exact Cplus_swap|congruence|rewrite Su; exact L0]).
  assert (SH : forall (e u e' : array C), ibop Cplus e u = Ok e' -> shape e' = shape e) by (intros e0 u e' H; rewrite ibop_fits in H; destruct (fits _ _); [|discriminate]; now injection H as <-).
  rewrite !bind_assoc.
  (* a b c d -> c d a b by adjacent swaps *)
  transitivity (do x <- ibop Cplus e a; do y <- ibop Cplus x c; do z <- ibop Cplus y b; ibop Cplus z d).
  { apply bind_ext. intros x Hx. pose proof (SH _ _ _ Hx) as S1. rewrite <- !bind_assoc. rewrite (SW x b c) by congruence. reflexivity. }
  transitivity (do x <- ibop Cplus e c; do y <- ibop Cplus x a; do z <- ibop Cplus y b; ibop Cplus z d).
  { rewrite <- !bind_assoc. rewrite (SW e a c) by auto. reflexivity. }
  apply bind_ext. intros x Hx. pose proof (SH _ _ _ Hx) as S1.
  transitivity (do y <- ibop Cplus x a; do z <- ibop Cplus y d; ibop Cplus z b).
  { apply bind_ext. intros y Hy. apply SW; auto. rewrite (SH _ _ _ Hy). congruence. }
  rewrite <- !bind_assoc. rewrite (SW x a d) by congruence. reflexivity.
Qed.
Lemma coherent_perm os os' : Permutation os os' -> forall e, List.length (shape e) = 3%nat -> coherent_field n zsize xx zz freq alpha os e = coherent_field n zsize xx zz freq alpha os' e.
Proof.
  induction 1 as [|o a b P IH|o1 o2 a|a b c P1 IH1 P2 IH2]; intros e L; cbn [coherent_field]; auto.
  - apply bind_ext. intros x Hx. apply IH. rewrite (beams_shape _ _ _ Hx). exact L.
  - rewrite <- !bind_assoc. now rewrite beams_swap.
  - rewrite IH1 by exact L. now apply IH2.
Qed.
Lemma coherent_turn os l : Forall2 (fun o o' => exists k : Z, o' = o + IZR k * PI) os l -> forall e, List.length (shape e) = 3%nat -> coherent_field n zsize xx zz freq alpha l e = coherent_field n zsize xx zz freq alpha os e.
Proof.
  induction 1 as [|o o' a b [k ->] F IH]; intros e L; cbn [coherent_field]; auto. rewrite beams_turn by exact L. apply bind_ext. intros x Hx. apply IH. rewrite (beams_shape _ _ _ Hx). exact L.
Qed.
Section Inc.
Context (psf : array R) (base : array C) (Lp : List.length (shape psf) = 3%nat) (Lb : List.length (shape base) = 3%nat).
Definition one (o : R) : res (array R) := do e <- add_beams n zsize xx zz freq alpha o base; apply_pattern psf e.
Lemma bshape_length sa sb s : List.length sa = List.length sb -> bshape sa sb = Ok s -> List.length s = List.length sa.
Proof.
  intros L. unfold bshape. destruct (bshape_rev (rev sa) (rev sb)) as [r|] eqn:E; [|discriminate]. cbn. intros [= <-]. rewrite rev_length, <- (rev_length sa). assert (L' : List.length (rev sa) = List.length (rev sb)) by now rewrite !rev_length.
  revert r L' E. generalize (rev sa) (rev sb). clear. induction l as [|x a IH]; intros [|y b] r L E; cbn in *; try discriminate; [now injection E as <-|].
  destruct (bdim x y); [|discriminate]. cbn [bind] in E. destruct (bshape_rev a b) eqn:E2; [|discriminate]. cbn [bind] in E. injection E as <-. cbn. f_equal. apply (IH b); auto.
Qed.
Lemma one_shape : (exists s, List.length s = 3%nat /\ forall o, exists p, one o = Ok p /\ shape p = s) \/ (forall o, one o = Err ValueError).
Proof.
  unfold one, add_beams. destruct (fits (shape base) [zsize; n; n]) eqn:F.
  - destruct (bshape (shape psf) (shape base)) as [s|e] eqn:E.
    + left. exists s. split; [rewrite <- Lp; refine (bshape_length _ _ _ _ E); congruence|]. intros o. rewrite ibop_fits. cbn [wave_pattern shape]. rewrite F. cbn [bind]. rewrite ibop_fits. cbn [wave_pattern shape]. rewrite F. cbn [bind]. unfold apply_pattern, bop. cbn [shape]. rewrite E. cbn [bind]. eexists. split; reflexivity.
    + right. intros o. rewrite ibop_fits. cbn [wave_pattern shape]. rewrite F. cbn [bind]. rewrite ibop_fits. cbn [wave_pattern shape]. rewrite F. cbn [bind]. unfold apply_pattern, bop. cbn [shape]. rewrite E. cbn [bind]. now rewrite (bshape_err _ _ _ E).
  - right. intros o. rewrite ibop_fits. cbn [wave_pattern shape]. rewrite F. reflexivity.
Qed.
Lemma incoherent_one o os s : incoherent n zsize xx zz freq alpha psf base (o :: os) s = do p <- one o; do s <- ibop Rplus s p; incoherent n zsize xx zz freq alpha psf base os s.
Proof. cbn [incoherent]. unfold one. now rewrite bind_assoc. Qed.
Lemma two o1 o2 a p1 p2 s : one o1 = Ok p1 -> one o2 = Ok p2 -> incoherent n zsize xx zz freq alpha psf base (o1 :: o2 :: a) s = do s2 <- (do s1 <- ibop Rplus s p1; ibop Rplus s1 p2); incoherent n zsize xx zz freq alpha psf base a s2.
Proof. intros E1 E2. rewrite incoherent_one, E1. cbn [bind]. rewrite bind_assoc. apply bind_ext. intros x _. now rewrite incoherent_one, E2. Qed.
Lemma ishape {A B} (f : A -> B -> A) a b c : ibop f a b = Ok c -> shape c = shape a.
Proof. rewrite ibop_fits. destruct (fits _ _); [|discriminate]. now intros [= <-]. Qed.
Lemma incoherent_perm os os' : Permutation os os' -> forall s, List.length (shape s) = 3%nat -> incoherent n zsize xx zz freq alpha psf base os s = incoherent n zsize xx zz freq alpha psf base os' s.
Proof.
  induction 1 as [|o a b P IH|o1 o2 a|a b c P1 IH1 P2 IH2]; intros s L; auto.
  - rewrite !incoherent_one. apply bind_ext. intros p Hp. apply bind_ext. intros s' Hs. apply IH. now rewrite (ishape _ _ _ _ Hs).
  - destruct one_shape as [(sh & Ls & O1)|O1].
    + destruct (O1 o1) as (p1 & E1 & S1). destruct (O1 o2) as (p2 & E2 & S2). rewrite (two _ _ _ _ _ s E1 E2), (two _ _ _ _ _ s E2 E1). rewrite (ibop_swap Rplus s p1 p2); [reflexivity|intros; ring|congruence|rewrite S1, Ls; exact L].
    + rewrite !incoherent_one, !O1. reflexivity.
  - rewrite IH1 by exact L. now apply IH2.
Qed.
Lemma incoherent_turn os l : Forall2 (fun o o' => exists k : Z, o' = o + IZR k * PI) os l -> forall s, incoherent n zsize xx zz freq alpha psf base l s = incoherent n zsize xx zz freq alpha psf base os s.
Proof.
  induction 1 as [|o o' a b [k ->] F IH]; intros s; auto. rewrite !incoherent_one. unfold one. rewrite beams_turn by exact Lb. apply bind_ext. intros p _. apply bind_ext. intros s' _. apply IH.
Qed.
End Inc.
End Loops.

(** ** The image *)
Lemma lines_length os os' : same_lines os os' -> List.length os = List.length os'.
Proof. intros (l & F & P). rewrite (F2_len _ _ _ F). now apply Permutation_length. Qed.
Definition rank3 {A} (a : array A) : Prop := List.length (shape a) = 3%nat.
Lemma gen_psf_rank h base A : M_Hanser.gen_psf h base = Ok A -> List.length (shape A) = 4%nat.
Proof.
  unfold M_Hanser.gen_psf. destruct (Req_EM_T _ _); [discriminate|]. destruct (Req_EM_T _ _); [discriminate|]. destruct base as [P|]; [|intros [= <-]; reflexivity].
  destruct (shape P) as [|py [|px [|]]]; try discriminate. destruct (bdim py _); [|discriminate]. cbn [bind]. destruct (bdim px _); [|discriminate]. cbn [bind]. intros [= <-]. reflexivity.
Qed.
Lemma gen_otf_rank p A : M_Sheppard.gen_otf p = Ok A -> List.length (shape A) = 4%nat.
Proof. unfold M_Sheppard.gen_otf. repeat (destruct (Req_EM_T _ _); [discriminate|]). destruct (orb _ _); [discriminate|]. destruct (Rlt_dec _ _); [discriminate|]. intros [= <-]. reflexivity. Qed.
Lemma reached_rank c o s B : reached c o -> In s [PSFi; OTFi] -> fst (read numeric c s o) = Ok B -> rank3 B.
Proof.
  intros (k & o0 & h & Hk & ->) Hs. rewrite (C24_reads_are_fresh numeric c k o0 h s Hk). set (P := obj_params _). set (g := in_force _ _ _ _ _).
  assert (R : forall A, scratch_PSFa numeric c P g = Ok A -> List.length (shape A) = 4%nat).
  { intros A. unfold scratch_PSFa. destruct c; cbn [numeric e_gen_psf e_gen_otf e_ifft3].
    - destruct (h_ready P); [|discriminate]. destruct (M_Hanser.gen_psf _ _) as [A'|] eqn:E; [|discriminate]. cbn [bind]. intros [= <-]. cbn [amap shape]. now apply gen_psf_rank in E.
    - destruct (s_ready P); [|discriminate]. destruct (M_Sheppard.gen_otf _) as [A'|] eqn:E; [|discriminate]. cbn [rmap]. intros [= <-]. cbn [s_psfa shape]. now apply gen_otf_rank in E. }
  destruct Hs as [<-|[<-|[]]]; cbn [scratch]; destruct (scratch_PSFa numeric c P g) as [A|] eqn:E; cbn [rmap]; try discriminate; specialize (R A eq_refl); intros [= <-]; unfold rank3; cbn [numeric e_sumsq e_fft amap shape s_psfi o_fft]; destruct (shape A) as [|? [|? [|? [|? [|]]]]]; cbn in R; try discriminate; reflexivity.
Qed.
Section States.
Context (os os' : list R) (Hl : same_lines os os').
(** the two runs: same state but for the orientations *)
Definition inv (q : micro) : Prop := mi_orient q = os /\ reached (mi_cls q) (mi_model q).
Definition par {A} (c : MM A) (Q : A -> Prop) : Prop := forall q, inv q ->
  fst (c (upd_orient os' q)) = fst (c q) /\ snd (c (upd_orient os' q)) = upd_orient os' (snd (c q)) /\ inv (snd (c q)) /\ forall x, fst (c q) = Ok x -> Q x.
Lemma par_bind {A B} (c : MM A) (f : A -> MM B) P Q : par c P -> (forall x, P x -> par (f x) Q) -> par (mbind c f) Q.
Proof.
  intros H1 H2 q Hq. destruct (H1 q Hq) as (E1 & E2 & E3 & E4). unfold mbind. destruct (c q) as [r q1] eqn:C1. destruct (c (upd_orient os' q)) as [r' q1'] eqn:C2. cbn [fst snd] in *. subst r' q1'.
  destruct r as [x|e]; cbn [fst snd]; [|split; [reflexivity|]; split; [reflexivity|]; split; [exact E3|discriminate]]. apply (H2 x (E4 x eq_refl) q1 E3).
Qed.
Lemma par_lift {A} (r : res A) (Q : A -> Prop) : (forall x, r = Ok x -> Q x) -> par (mlift r) Q.
Proof. intros H q Hq. cbn. auto. Qed.
Lemma par_lift' {A} (r : res A) : par (mlift r) (fun _ => True).
Proof. now apply par_lift. Qed.
Lemma par_ret {A} (x : A) (Q : A -> Prop) : Q x -> par (mret x) Q.
Proof. intros H q Hq. cbn. split; [reflexivity|]. split; [reflexivity|]. split; [exact Hq|]. now intros y [= <-]. Qed.
Lemma par_get a : par (m_get a) (fun _ => True).
Proof. intros q Hq. unfold m_get. cbn [upd_orient mi_num]. destruct (mi_num q a); cbn; auto. Qed.
Lemma par_asks {A} (f : micro -> A) : (forall q, f (upd_orient os' q) = f q) -> par (masks f) (fun _ => True).
Proof. intros H q Hq. unfold masks. cbn. rewrite H. auto. Qed.
Lemma par_psfi : par model_PSFi (fun p => rank3 (fst p)).
Proof.
  intros q [I1 I2]. unfold model_PSFi. cbn [upd_orient mi_cls mi_model]. pose proof (fun B => reached_rank _ _ PSFi B I2 (or_introl eq_refl)) as K. pose proof (reached_read _ _ PSFi I2) as I3.
  destruct (read numeric (mi_cls q) PSFi (mi_model q)) as [r o] eqn:E. cbn [fst snd] in *. split; [reflexivity|]. split; [reflexivity|]. split; [split; [exact I1|]|].
  - cbn [mi_cls mi_model upd_model]. exact I3.
  - intros x. destruct r as [B|]; [|discriminate]. cbn [bind]. intros [= <-]. apply (K B eq_refl).
Qed.
Lemma par_otfi : par model_OTFi (fun p => rank3 (fst p)).
Proof.
  intros q [I1 I2]. unfold model_OTFi. cbn [upd_orient mi_cls mi_model]. pose proof (fun B => reached_rank _ _ OTFi B I2 (or_intror (or_introl eq_refl))) as K. pose proof (reached_read _ _ OTFi I2) as I3.
  destruct (read numeric (mi_cls q) OTFi (mi_model q)) as [r o] eqn:E. cbn [fst snd] in *. split; [reflexivity|]. split; [reflexivity|]. split; [split; [exact I1|]|].
  - cbn [mi_cls mi_model upd_model]. exact I3.
  - intros x. destruct r as [B|]; [|discriminate]. cbn [bind]. intros [= <-]. apply (K B eq_refl).
Qed.
Lemma par_true {A} (c : MM A) (P : A -> Prop) : par c P -> par c (fun _ => True).
Proof. intros H q Hq. destruct (H q Hq) as (? & ? & ? & _). auto. Qed.
Lemma par_base : par sim_base (fun p => rank3 (fst p)).
Proof.
  unfold sim_base. apply (par_bind _ _ (fun _ => True)); [apply par_asks; reflexivity|]. intros w _.
  assert (G : par (let! ok := mlift (py_ge w (VInt 0)) in
    if ok then let! o := model_OTFi in let otf := power (fst o) in
      if py_eq w (VInt 0) then mret (ifft_real (support otf), snd o)
      else match M_Val.num w with
        | Some (FFin q) => let! mx := mlift (r_max otf) in let w2 := mx * Q2R q ^ 2 in
            mret (ifft_real (amap (wiener_factor w2) otf), snd o && forallb (fun ix => if Req_EM_T (get otf ix + w2) 0 then false else true) (all_ix (shape otf)))
        | _ => let! _ := mlift (r_max otf) in mret (otf, false) end
    else mlift (Err ValueError)) (fun p => rank3 (fst p))).
  { apply (par_bind _ _ (fun _ => True)); [apply par_lift'|]. intros [|] _; [|apply par_lift; discriminate]. apply (par_bind _ _ (fun p => rank3 (fst p))); [apply par_otfi|]. intros o Ho. cbv zeta.
    destruct (py_eq w (VInt 0)); [apply par_ret; exact Ho|]. destruct (M_Val.num w) as [[| |]|]; (apply (par_bind _ _ (fun _ => True)); [apply par_lift'|]; intros ? _; apply par_ret; exact Ho). }
  destruct w; try exact G. apply par_psfi.
Qed.
Lemma par_sim : par sim_psf (fun _ => True).
Proof.
  unfold sim_psf.
  apply (par_bind _ _ (fun _ => True)); [apply par_asks; reflexivity|]. intros d _.
  do 5 (apply (par_bind _ _ (fun _ => True)); [apply par_lift'|]; intros ? _).
  apply (par_bind _ _ (fun _ => True)); [apply par_get|]; intros ? _. apply (par_bind _ _ (fun _ => True)); [apply par_lift'|]; intros ? _. apply (par_bind _ _ (fun _ => True)); [apply par_lift'|]; intros freq _.
  apply (par_bind _ _ (fun _ => True)); [apply par_get|]; intros ? _. apply (par_bind _ _ (fun _ => True)); [apply par_lift'|]; intros ? _. apply (par_bind _ _ (fun _ => True)); [apply par_lift'|]; intros s _.
  cbv zeta. apply (par_bind _ _ (fun p => rank3 (fst p))); [apply par_base|]. intros psf Rp.
  do 3 (apply (par_bind _ _ (fun _ => True)); [apply par_get|]; intros ? _).
  intros q [I1 I2]. unfold mbind, masks. cbn [upd_orient mi_orient]. rewrite I1.
  assert (Le : forall A (a b : A), match os' with [] => a | _ => b end = match os with [] => a | _ => b end) by (intros; pose proof (lines_length _ _ Hl); destruct os, os'; try discriminate; reflexivity).
  assert (Nz : List.length os' = List.length os) by (symmetry; now apply lines_length).
  rewrite Le, Nz. destruct Hl as (l & F & P). symmetry in P.
  set (base := base_pattern _ _ _ _ _). assert (Rb : rank3 base). { unfold rank3, base, base_pattern. destruct (py_bool _); cbn [shape]; [|exact Rp]. unfold rank3 in Rp. destruct (shape (fst psf)); [discriminate|]. exact Rp. }
  set (b := andb _ _). clearbody base b.
  assert (Ec : coherent x x1 (centred x x0) (centred x1 x2) freq (asin s) (fst psf) base os' = coherent x x1 (centred x x0) (centred x1 x2) freq (asin s) (fst psf) base os).
  { unfold coherent. rewrite (coherent_perm _ _ _ _ _ _ _ _ P) by exact Rb. rewrite (coherent_turn _ _ _ _ _ _ _ _ F) by exact Rb. apply bind_ext. intros e _. apply Le. }
  rewrite Ec. rewrite (incoherent_perm _ _ _ _ _ _ _ _ Rp Rb _ _ P) by exact Rp. rewrite (incoherent_turn _ _ _ _ _ _ _ _ Rb _ _ F).
  destruct (py_bool _); cbn; (split; [reflexivity|]; split; [reflexivity|]; split; [split; [exact I1|exact I2]|auto]).
Qed.
Definition agree {A} (c : MM A) (q : micro) : Prop := fst (c (upd_orient os' q)) = fst (c q) /\ snd (c (upd_orient os' q)) = upd_orient os' (snd (c q)).
Lemma agree_bind {A B} (c : MM A) (f : A -> MM B) q : agree c q -> (forall x q1, agree (f x) q1) -> agree (mbind c f) q.
Proof.
  intros [E1 E2] H. unfold agree, mbind. destruct (c q) as [r q1] eqn:C1. destruct (c (upd_orient os' q)) as [r' q1'] eqn:C2. cbn [fst snd] in *. subst r' q1'. destruct r as [x|e]; cbn [fst snd]; [apply H|auto].
Qed.
Lemma agree_PSF q : inv q -> mi_kind q = SIM -> agree m_PSF q.
Proof.
  intros Hq Hk. unfold agree, m_PSF. cbn [upd_orient mi_psf]. destruct (mi_psf q); [split; reflexivity|]. apply (agree_bind compute_psf _ q).
  - unfold compute_psf. apply agree_bind.
    + unfold agree, model_psf. cbn [upd_orient mi_kind]. rewrite Hk. destruct (par_sim q Hq) as (E1 & E2 & _). auto.
    + intros x q1. apply agree_bind; [unfold agree, m_get; cbn [upd_orient mi_num]; destruct (mi_num q1 MOs); split; reflexivity|]. intros v q2. apply agree_bind; [split; reflexivity|]. intros d q3. apply agree_bind; [split; reflexivity|]. intros b q4. split; reflexivity.
  - intros x q1. split; reflexivity.
Qed.
Lemma agree_OTF q : inv q -> mi_kind q = SIM -> agree m_OTF q.
Proof.
  intros Hq Hk. unfold agree, m_OTF. cbn [upd_orient mi_otf]. destruct (mi_otf q); [split; reflexivity|]. apply (agree_bind m_PSF _ q); [now apply agree_PSF|]. intros x q1. split; reflexivity.
Qed.
End States.

(** ** C92 *)
Definition with_orientations (s : sargs) (os : list R) : sargs := mkSargs (s_na_exc s) (s_wl_exc s) (s_wiener s) (s_coherent s) (s_dc s) (s_dcsup s) os.
Lemma sim_built a s os' : match BaseSIMMicroscope a s with Ok m => BaseSIMMicroscope a (with_orientations s os') = Ok (upd_orient os' m) /\ mi_orient m = s_orient s | Err e => BaseSIMMicroscope a (with_orientations s os') = Err e end.
Proof.
  assert (B : forall A (c : MM A) (f g : A -> MM unit), (forall x q, match f x q with (Ok _, m) => exists m', g x q = (Ok tt, m') /\ m' = upd_orient os' m /\ mi_orient m = s_orient s | (Err e, _) => exists q', g x q = (Err e, q') end) ->
    forall q, match mbind c f q with (Ok _, m) => exists m', mbind c g q = (Ok tt, m') /\ m' = upd_orient os' m /\ mi_orient m = s_orient s | (Err e, _) => exists q', mbind c g q = (Err e, q') end).
  { intros A c f g H q. unfold mbind. destruct (c q) as [[x|e] q1]; [apply H|eauto]. }
  assert (X : forall q, match sim_init a s q with (Ok _, m) => exists m', sim_init a (with_orientations s os') q = (Ok tt, m') /\ m' = upd_orient os' m /\ mi_orient m = s_orient s | (Err e, _) => exists q', sim_init a (with_orientations s os') q = (Err e, q') end).
  { unfold sim_init. cbn [with_orientations s_na_exc s_wl_exc s_wiener s_coherent s_dc s_dcsup s_orient]. apply B. intros _. apply B. intros d. apply B. intros na. apply B. intros _. apply B. intros wl. apply B. intros _. apply B. intros _. apply B. intros _. apply B. intros _. intros q.
    unfold mbind, mlift. destruct (py_lt (s_wiener s) (VInt 0)) as [[|]|e]; [eexists; reflexivity|eexists; split; [reflexivity|split; reflexivity]|eexists; reflexivity]. }
  unfold BaseSIMMicroscope, make. specialize (X (empty_micro SIM)). destruct (sim_init a s (empty_micro SIM)) as [[u|e] m]; [destruct X as (m' & -> & -> & E); auto|destruct X as (q' & ->); reflexivity].
Qed.
(** Two SIM microscopes with the same arguments whose orientations describe the same lines: both are refused with the same
    exception, or both show the same images and transfer functions (or raise the same exception when asked for them). *)
Theorem C92_same_lines :
  forall (a : wargs) (s : sargs) (os' : list R), same_lines (s_orient s) os' ->
  match BaseSIMMicroscope a s, BaseSIMMicroscope a (with_orientations s os') with
  | Ok m, Ok m' => fst (m_PSF m') = fst (m_PSF m) /\ fst (m_OTF m') = fst (m_OTF m)
  | Err e, Err e' => e' = e
  | _, _ => False
  end.
Proof.
  intros a s os' Hl. pose proof (sim_built a s os') as B. destruct (BaseSIMMicroscope a s) as [m|e] eqn:Hm; [|now rewrite B]. destruct B as [-> Ho].
  assert (Hk : mi_kind m = SIM) by exact (made_kind _ _ _ (sim_kind a s) Hm).
  destruct (built_wide_result a m (built_sim a s m Hm)) as (k & f' & pp & c & kk & o & _ & _ & _ & _ & _ & _ & _ & Eo & Hc & _ & _ & Hmod & _).
  assert (I : inv (s_orient s) m) by (split; [exact Ho|]; rewrite Hc, Hmod; exists kk, o, []; auto).
  split; [apply (agree_PSF _ _ Hl m I Hk)|apply (agree_OTF _ _ Hl m I Hk)].
Qed.
Print Assumptions C92_same_lines.
(** The named classes: SIM2DMicroscope and SIM3DMicroscope. *)
Corollary C92_sim2d_sim3d :
  forall (a : wargs) (na_exc wl_exc wiener dc_suppress : pyval) (os os' : list R), same_lines os os' ->
  forall make_it, In make_it [SIM2DMicroscope; SIM3DMicroscope] ->
  match make_it a na_exc wl_exc wiener dc_suppress os, make_it a na_exc wl_exc wiener dc_suppress os' with
  | Ok m, Ok m' => fst (m_PSF m') = fst (m_PSF m) /\ fst (m_OTF m') = fst (m_OTF m)
  | Err e, Err e' => e' = e
  | _, _ => False
  end.
Proof. intros a n w q d os os' Hl f [<-|[<-|[]]]; apply (C92_same_lines a (mkSargs n w q (VBool false) _ d os) os' Hl). Qed.
Print Assumptions C92_sim2d_sim3d.
(** The orientations of the module's own example, (0, 2 pi / 3, 4 pi / 3), are three lines 60 degrees apart: (0, pi / 3, 2 pi / 3). *)
Theorem C92_example_angles : same_lines [0; 2 * PI / 3; 4 * PI / 3] [0; PI / 3; 2 * PI / 3] /\
  ~ same_lines [0] [PI / 2] /\ ~ same_lines [0] [0; PI] /\
  forall o x, across (mkBeams 4 1 1 1 1 1 1) 0 o x = 2 * PI * IZR (x - 2) /\ across (mkBeams 4 1 1 1 1 1 1) (PI / 2) o x = 2 * PI * IZR (o - 2).
Proof.
  split.
  { exists [0; 2 * PI / 3; PI / 3]. split; [|apply perm_skip, perm_swap]. constructor; [exists 0%Z; lra|]. constructor; [exists 0%Z; lra|]. constructor; [exists (-1)%Z; field|constructor]. }
  split. { intros (l & F & P). inversion F as [|x y l1 l2 [k ->] F' E1 E2]; subst. inversion F'; subst. apply Permutation_length_1 in P. assert (K : IZR (2 * k) = 1) by (rewrite mult_IZR; pose proof PI_RGT_0; apply (Rmult_eq_reg_r (PI / 2)); [|lra]; lra). apply eq_IZR in K. lia. }
  split. { intros H. apply lines_length in H. discriminate. }
  intros y x. unfold across, coord. cbn [b_na b_wl b_n b_dx]. change ((4 + 1) / 2)%Z with 2%Z. rewrite cos_0, sin_0, cos_PI2, sin_PI2. split; field.
Qed.
Print Assumptions C92_example_angles.
(** A case with both microscopes constructed. *)
Example C92_case : exists m m', BaseSIMMicroscope a0 s0 = Ok m /\ BaseSIMMicroscope a0 (with_orientations s0 [PI / 3 - PI; 0 + PI]) = Ok m' /\ fst (m_PSF m') = fst (m_PSF m) /\ exists img, fst (model_psf m) = Ok (img, true) /\ shape img = [16; 192; 192]%Z.
Proof.
  destruct a0_sim as [m Hm]. assert (L : same_lines (s_orient s0) [PI / 3 - PI; 0 + PI]).
  { exists [0 + PI; PI / 3 - PI]. split; [|apply perm_swap]. constructor; [exists 1%Z; lra|]. constructor; [exists (-1)%Z; lra|constructor]. }
  pose proof (C92_same_lines a0 s0 _ L) as X. rewrite Hm in X. destruct (BaseSIMMicroscope a0 (with_orientations s0 _)) as [m'|] eqn:E; [|contradiction]. exists m, m'. repeat split; auto; [apply X|].
  destruct (a0_sim_image m Hm) as (img & p & E1 & E2 & _). exists img. auto.
Qed.
