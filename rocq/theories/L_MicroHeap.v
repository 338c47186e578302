(** Microscopes with references: their methods do to a microscope what M_Micro.v says, and touch nothing else. *)
From Verif Require Import S_MicroHeap L_Heap L_Write.
Import M_Array.
Local Open Scope R_scope.

Definition newer (n : nat) (r r' : option nat) : Prop := r' = None \/ r' = r \/ exists x, r' = Some x /\ (n <= x)%nat.
Lemma newer_refl n r : newer n r r.
Proof. right. now left. Qed.
Lemma newer_trans n n' a b c : (n <= n')%nat -> newer n a b -> newer n' b c -> newer n a c.
Proof. intros Hn [->|[->|(x & -> & Hx)]] [->|[->|(y & -> & Hy)]]; unfold newer; eauto 6; try (right; right; exists y; split; [reflexivity|lia]). Qed.

(** only microscope [i] and the two PSF objects it holds change *)
Record localW (i : nat) (W W' : hworld) : Prop := mkLW {
  lw_grows : grows numeric (hw_heap W) (hw_heap W');
  lw_len : List.length (hp_obj _ (hw_heap W')) = List.length (hp_obj _ (hw_heap W));
  lw_cls : forall l, class_of numeric (hw_heap W') l = class_of numeric (hw_heap W) l;
  lw_slots : slots_apart numeric (hw_heap W) -> slots_apart numeric (hw_heap W');
  lw_objects : objects_apart numeric (hw_heap W) -> objects_apart numeric (hw_heap W');
  lw_mlen : List.length (hw_mic W') = List.length (hw_mic W);
  lw_others : forall j, j <> i -> nth_error (hw_mic W') j = nth_error (hw_mic W) j;
  lw_psf : exists t, hw_psf W' = hw_psf W ++ t;
  lw_otf : exists t, hw_otf W' = hw_otf W ++ t;
  lw_self : forall m, nth_error (hw_mic W) i = Some m -> exists m', nth_error (hw_mic W') i = Some m' /\
    hm_kind m' = hm_kind m /\ hm_model m' = hm_model m /\ hm_exc m' = hm_exc m /\
    newer (List.length (hw_psf W)) (hm_psf m) (hm_psf m') /\ newer (List.length (hw_otf W)) (hm_otf m) (hm_otf m') /\
    forall l, l <> hm_model m -> hm_exc m <> Some l -> nth_error (hp_obj _ (hw_heap W')) l = nth_error (hp_obj _ (hw_heap W)) l }.
Lemma localW_refl i W : localW i W W.
Proof.
  split; auto using grows_refl; try (exists []; now rewrite app_nil_r). intros m Hm. exists m. split; [exact Hm|]. repeat (split; [reflexivity|]). split; [apply newer_refl|]. split; [apply newer_refl|]. auto.
Qed.
Lemma localW_trans i W1 W2 W3 : localW i W1 W2 -> localW i W2 W3 -> localW i W1 W3.
Proof.
  intros [A1 B1 C1 D1 E1 F1 G1 (t1 & H1) (u1 & I1) J1] [A2 B2 C2 D2 E2 F2 G2 (t2 & H2) (u2 & I2) J2]. split; try congruence; auto.
  - eapply grows_trans; eauto.
  - intros j Hj. rewrite G2, G1; auto.
  - exists (t1 ++ t2). now rewrite H2, H1, app_assoc.
  - exists (u1 ++ u2). now rewrite I2, I1, app_assoc.
  - intros m Hm. destruct (J1 m Hm) as (m' & Hm' & K & Mo & Ex & P & O & Ob). destruct (J2 m' Hm') as (m'' & Hm'' & K' & Mo' & Ex' & P' & O' & Ob').
    exists m''. split; [exact Hm''|]. split; [congruence|]. split; [congruence|]. split; [congruence|].
    split; [eapply newer_trans; [|exact P|exact P']; rewrite H1, app_length; lia|]. split; [eapply newer_trans; [|exact O|exact O']; rewrite I1, app_length; lia|].
    intros l L1 L2. rewrite Ob', Ob; congruence.
Qed.

Lemma view_self W i m : scope_view W i = Some m -> exists h o c, nth_error (hw_mic W) i = Some h /\ view numeric (hw_heap W) (hm_model h) = Some o /\
  class_of numeric (hw_heap W) (hm_model h) = Some c /\
  m = mkMicro (hm_kind h) c (hm_num h) (hm_params h) (hm_pixel h) o
        match match hm_exc h with Some l => view numeric (hw_heap W) l | None => None end with Some e => e | None => empty_obj numeric end
        (hm_orient h) (hm_wiener h) (deref (hw_psf W) (hm_psf h)) (deref (hw_otf W) (hm_otf h)).
Proof.
  unfold scope_view. destruct (nth_error (hw_mic W) i) as [h|]; [|discriminate].
  destruct (view numeric (hw_heap W) (hm_model h)) as [o|] eqn:V; [|discriminate]. destruct (class_of numeric (hw_heap W) (hm_model h)) as [c|] eqn:Cl; [|discriminate].
  intros [= <-]. exists h, o, c. repeat (split; [eassumption || reflexivity|]). reflexivity.
Qed.

(** a heap program on one of the two PSF objects *)
Lemma on_heap_ok W i h l (f : heap numeric -> heap numeric) :
  world_ok W -> nth_error (hw_mic W) i = Some h -> (l = hm_model h \/ hm_exc h = Some l) ->
  let H := hw_heap W in let H' := f H in let W' := mkHWorld H' (hw_mic W) (hw_psf W) (hw_otf W) in
  wf numeric H' -> local numeric l H H' -> cstep numeric l H H' -> world_ok W' /\ localW i W W'.
Proof.
  intros [Wf Sc] Hi Hl H H' W' Wf' Lo Cs. pose proof Lo as (G & Len & Oth & Cl).
  assert (Cl' : forall l', class_of numeric H' l' = class_of numeric H l').
  { intros l'. destruct (Nat.eq_dec l' l) as [->|Hn]; [exact Cl|]. unfold class_of. now rewrite Oth. }
  split.
  - split; [exact Wf'|]. intros j m Hm. destruct (Sc j m Hm) as (A & B & C & D & F). unfold scope_ok, W'. cbn [hw_heap hw_psf hw_otf]. fold H in A, C. rewrite Len. split; [exact A|]. split; [exact B|]. split; [|split; assumption].
    intros l' Hl'. rewrite !Cl'. now apply C.
  - destruct (apart_local numeric H H' l Wf Lo Cs) as [S O]. split; cbn [W' hw_heap hw_mic hw_psf hw_otf]; auto; try (exists []; now rewrite app_nil_r).
    intros m Hm. assert (m = h) by congruence. subst m. exists h. split; [exact Hm|]. repeat (split; [reflexivity|]). split; [apply newer_refl|]. split; [apply newer_refl|].
    intros l' L1 L2. apply Oth. destruct Hl as [->|E]; congruence.
Qed.
Lemma on_model_ok {A B} W i h m (f : HM numeric A) (g : M numeric B) R :
  world_ok W -> nth_error (hw_mic W) i = Some h -> scope_view W i = Some m ->
  sim numeric (hm_model h) (top numeric) f g R -> ctame numeric (hm_model h) (top numeric) f ->
  let W' := snd (on_heap f W) in
  world_ok W' /\ localW i W W' /\ scope_view W' i = Some (upd_model (snd (g (mi_model m))) m) /\
  match fst (on_heap f W), fst (g (mi_model m)) with Ok a, Ok b => R (hw_heap W') a b | Err e, Err e' => e = e' | _, _ => False end.
Proof.
  intros Ok_ Hi V S T. destruct (view_self W i m V) as (h' & o & c & Hi' & Vo & Cl & ->). assert (h' = h) by congruence. subst h'. clear Hi'. cbn [mi_model].
  pose proof (S (hw_heap W) o (proj1 Ok_) Vo I) as (Wf' & Lo & Vo' & Res). destruct (T (hw_heap W) (proj1 Ok_) (view_lt _ _ _ _ Vo) I) as (_ & _ & Cs).
  pose proof (on_heap_ok W i h (hm_model h) (fun H => snd (f H)) Ok_ Hi (or_introl eq_refl) Wf' Lo Cs) as [Ok' L'].
  unfold on_heap. destruct (f (hw_heap W)) as [r H'] eqn:F. cbn [fst snd] in *. split; [exact Ok'|]. split; [exact L'|]. split; [|exact Res].
  unfold scope_view. cbn [hw_mic hw_heap hw_psf hw_otf]. rewrite Hi, Vo'. destruct Lo as (G & Len & Oth & Cl'). rewrite Cl', Cl. unfold upd_model. cbn. do 2 f_equal.
  destruct (hm_exc h) as [l|] eqn:Ex; [|reflexivity]. destruct (proj2 Ok_ i h Hi) as (_ & _ & D & _). destruct (D l Ex) as [D1 _].
  now rewrite (view_other numeric (hm_model h) l (hw_heap W) H' (conj G (conj Len (conj Oth Cl'))) (proj1 Ok_) D1).
Qed.
Lemma on_exc_ok {A B} W i h m l (f : HM numeric A) (g : M numeric B) R :
  world_ok W -> nth_error (hw_mic W) i = Some h -> scope_view W i = Some m -> hm_exc h = Some l ->
  sim numeric l (top numeric) f g R -> ctame numeric l (top numeric) f ->
  let W' := snd (on_heap f W) in
  world_ok W' /\ localW i W W' /\ scope_view W' i = Some (upd_exc (snd (g (mi_exc m))) m) /\
  match fst (on_heap f W), fst (g (mi_exc m)) with Ok a, Ok b => R (hw_heap W') a b | Err e, Err e' => e = e' | _, _ => False end.
Proof.
  intros Ok_ Hi V Ex S T. destruct (view_self W i m V) as (h' & o & c & Hi' & Vo & Cl & ->). assert (h' = h) by congruence. subst h'. clear Hi'. rewrite Ex in *. cbn [mi_exc].
  destruct (proj2 Ok_ i h Hi) as (_ & _ & D & _). destruct (D l Ex) as (D1 & D2 & _). destruct (view_some numeric (hw_heap W) l D2) as [e Ve]. rewrite Ve.
  pose proof (S (hw_heap W) e (proj1 Ok_) Ve I) as (Wf' & Lo & Ve' & Res). destruct (T (hw_heap W) (proj1 Ok_) D2 I) as (_ & _ & Cs).
  pose proof (on_heap_ok W i h l (fun H => snd (f H)) Ok_ Hi (or_intror Ex) Wf' Lo Cs) as [Ok' L'].
  unfold on_heap. destruct (f (hw_heap W)) as [r H'] eqn:F. cbn [fst snd] in *. split; [exact Ok'|]. split; [exact L'|]. split; [|exact Res].
  unfold scope_view. cbn [hw_mic hw_heap hw_psf hw_otf]. rewrite Hi, Ex, Ve'. destruct Lo as (G & Len & Oth & Cl'). assert (Hn : hm_model h <> l) by congruence.
  rewrite (view_other numeric l (hm_model h) (hw_heap W) H' (conj G (conj Len (conj Oth Cl'))) (proj1 Ok_) Hn), Vo.
  assert (Cm : class_of numeric H' (hm_model h) = Some c) by (unfold class_of in *; now rewrite Oth by assumption). now rewrite Cm.
Qed.

(** ** Simulation *)
Section S.
Context (i : nat) (k : kind).
Definition simW {A B} (hm : WM A) (mm : MM B) (R : hworld -> A -> B -> Prop) : Prop :=
  forall W m, world_ok W -> scope_view W i = Some m -> mi_kind m = k ->
    let W' := snd (hm W) in
    world_ok W' /\ localW i W W' /\ scope_view W' i = Some (snd (mm m)) /\ mi_kind (snd (mm m)) = k /\
    match fst (hm W), fst (mm m) with Ok a, Ok b => R W' a b | Err e, Err e' => e = e' | _, _ => False end.
Definition eqW {A} (W : hworld) (a b : A) : Prop := a = b.
Lemma simW_bind {A B A' B'} (hm : WM A) (mm : MM B) R (hf : A -> WM A') (f : B -> MM B') R' :
  simW hm mm R -> (forall a b W m, world_ok W -> scope_view W i = Some m -> mi_kind m = k -> R W a b ->
     let W' := snd (hf a W) in world_ok W' /\ localW i W W' /\ scope_view W' i = Some (snd (f b m)) /\ mi_kind (snd (f b m)) = k /\
     match fst (hf a W), fst (f b m) with Ok a, Ok b => R' W' a b | Err e, Err e' => e = e' | _, _ => False end) ->
  simW (wbind hm hf) (mbind mm f) R'.
Proof.
  intros S1 S2 W m Ok_ V K. specialize (S1 W m Ok_ V K). unfold wbind, mbind. destruct (hm W) as [[a|e] W1], (mm m) as [[b|e'] m1]; cbn [fst snd] in *; destruct S1 as (A1 & A2 & A3 & A4 & A5); try contradiction.
  - destruct (S2 a b W1 m1 A1 A3 A4 A5) as (B1 & B2 & B3 & B4 & B5). split; [exact B1|]. split; [eapply localW_trans; eauto|]. auto.
  - auto.
Qed.
Lemma simW_seq {A A' B'} (hm : WM A) (mm : MM A) (hf : A -> WM A') (f : A -> MM B') R' :
  simW hm mm eqW -> (forall a, simW (hf a) (f a) R') -> simW (wbind hm hf) (mbind mm f) R'.
Proof. intros S1 S2. apply (simW_bind hm mm eqW); [exact S1|]. intros a b W m Ok_ V K E. unfold eqW in E. subst b. now apply S2. Qed.
Lemma simW_ret {A} (a : A) : simW (wret a) (mret a) eqW.
Proof. intros W m Ok_ V K. cbn. split; [exact Ok_|]. split; [apply localW_refl|]. split; [exact V|]. split; [exact K|reflexivity]. Qed.
Lemma simW_lift {A} (r : res A) : simW (wlift r) (mlift r) eqW.
Proof. intros W m Ok_ V K. cbn. split; [exact Ok_|]. split; [apply localW_refl|]. split; [exact V|]. split; [exact K|]. destruct r; reflexivity. Qed.
Lemma simW_if {A B} (b : bool) (h1 h2 : WM A) (m1 m2 : MM B) R : simW h1 m1 R -> simW h2 m2 R -> simW (if b then h1 else h2) (if b then m1 else m2) R.
Proof. now destruct b. Qed.
Lemma simW_asks {A} (f : hmicro -> A) (g : micro -> A) : (forall W h o c e p t, scope_ok W h -> f h = g (mkMicro (hm_kind h) c (hm_num h) (hm_params h) (hm_pixel h) o e (hm_orient h) (hm_wiener h) p t)) -> simW (w_asks i f) (masks g) eqW.
Proof.
  intros E W m Ok_ V K. destruct (view_self W i m V) as (h & o & c & Hi & Vo & Cl & Em). unfold w_asks, wbind, w_self, masks. rewrite Hi. cbn.
  split; [exact Ok_|]. split; [apply localW_refl|]. split; [exact V|]. split; [exact K|]. unfold eqW. rewrite Em. apply (E W). apply (proj2 Ok_ i h Hi).
Qed.
Lemma simW_get a : simW (w_get i a) (m_get a) eqW.
Proof.
  intros W m Ok_ V K. destruct (view_self W i m V) as (h & o & c & Hi & Vo & Cl & Em). unfold w_get, wbind, w_self, m_get. rewrite Hi.
  assert (En : mi_num m a = hm_num h a) by now rewrite Em. rewrite En. destruct (hm_num h a); cbn; (split; [exact Ok_|]; split; [apply localW_refl|]; split; [exact V|]; split; [exact K|]; reflexivity).
Qed.
Lemma simW_model_R a : simW (w_model_R i a) (model_R a) eqW.
Proof.
  intros W m Ok_ V K. destruct (view_self W i m V) as (h & o & c & Hi & Vo & Cl & Em).
  pose proof (on_model_ok W i h m (h_getattr numeric (hm_model h) a) (getattr numeric a) (same numeric) Ok_ Hi V (sim_getattr numeric _ _ a) (ctame_getattr numeric _ _ a)) as (A1 & A2 & A3 & A4).
  unfold w_model_R, model_R, wbind, w_self, on_model, bindM. rewrite Hi. destruct (on_heap (h_getattr numeric (hm_model h) a) W) as [[v|e] W1]; cbn [fst snd] in *;
    destruct (getattr numeric a (mi_model m)) as [[v'|e'] o']; cbn [fst snd wlift lift] in *; try contradiction.
  - unfold same in A4. subst v'. cbn. split; [exact A1|]. split; [exact A2|]. split; [exact A3|]. split; [exact K|]. destruct (as_R v); reflexivity.
  - split; [exact A1|]. split; [exact A2|]. split; [exact A3|]. split; [exact K|exact A4].
Qed.
Lemma class_self W l c : class_of numeric (hw_heap W) l = Some c -> on_heap (h_cls numeric l) W = (Ok c, W).
Proof.
  unfold class_of, on_heap, h_cls, hbind, dict. destruct (nth_error (hp_obj numeric (hw_heap W)) l) as [d|]; [|discriminate]. cbn. intros [= <-]. now destruct W.
Qed.
Definition refW {B} (f : array (option C) -> B) (W : hworld) (r : nat) (b : B) : Prop := exists a, nth_error (hp_arr numeric (hw_heap W)) r = Some a /\ b = f a.
Lemma model_read s {B} (f : array (option C) -> B) : simW (w_model_read i s) (fun m => let (r, o) := read numeric (mi_cls m) s (mi_model m) in (do a <- r; Ok (f a), upd_model o m)) (refW f).
Proof.
  intros W m Ok_ V K. destruct (view_self W i m V) as (h & o & c & Hi & Vo & Cl & Em).
  pose proof (on_model_ok W i h m (h_read numeric (hm_model h) c s) (read numeric c s) (is_ref numeric) Ok_ Hi V (sim_read numeric _ _ c s) (proj1 (hands_read numeric _ c s))) as (A1 & A2 & A3 & A4).
  assert (Ec : mi_cls m = c) by now rewrite Em. rewrite Ec.
  unfold w_model_read, wbind, w_self. rewrite Hi, (class_self W (hm_model h) c Cl). destruct (on_heap (h_read numeric (hm_model h) c s) W) as [[v|e] W1]; cbn [fst snd] in *;
    destruct (read numeric c s (mi_model m)) as [[v'|e'] o']; cbn [fst snd] in *; try contradiction.
  - split; [exact A1|]. split; [exact A2|]. split; [exact A3|]. split; [exact K|]. exists v'. split; [exact A4|reflexivity].
  - split; [exact A1|]. split; [exact A2|]. split; [exact A3|]. split; [exact K|exact A4].
Qed.
Lemma deref_same {A} (c : WM nat) (d : nat -> WM A) (f : array (option C) -> A) mm :
  (forall r W, d r W = match nth_error (hp_arr numeric (hw_heap W)) r with Some a => (Ok (f a), W) | None => (Err RuntimeError, W) end) ->
  simW c mm (refW f) -> simW (wbind c d) mm eqW.
Proof.
  intros D S W m Ok_ V K. specialize (S W m Ok_ V K). unfold wbind. destruct (c W) as [[r|e] W1]; cbn [fst snd] in *; [|exact S].
  rewrite D. destruct S as (A1 & A2 & A3 & A4 & A5). destruct (fst (mm m)) as [b|e]; [|contradiction]. destruct A5 as (a & Ha & ->). rewrite Ha. cbn. repeat (split; [assumption|]). reflexivity.
Qed.
Lemma simW_model_PSFi : simW (w_model_PSFi i) model_PSFi eqW.
Proof. apply (deref_same _ w_deref farr_of); [reflexivity|]. apply (model_read PSFi farr_of). Qed.
Lemma simW_model_OTFi : simW (w_model_OTFi i) model_OTFi eqW.
Proof. apply (deref_same _ w_deref_c (fun a => (complexes a, finite_all a))); [reflexivity|]. apply (model_read OTFi). Qed.
End S.
Lemma simW_exc_PSFi i : simW i Confocal (w_exc_PSFi i) exc_PSFi eqW.
Proof.
  intros W m Ok_ V K. destruct (view_self W i m V) as (h & o & c & Hi & Vo & Cl & Em).
  destruct (proj2 Ok_ i h Hi) as (_ & Ne & D & _). assert (Kh : hm_kind h = Confocal) by (rewrite Em in K; exact K). destruct (hm_exc h) as [l|] eqn:Ex; [|now destruct (Ne Kh)]. destruct (D l eq_refl) as (D1 & D2 & D3).
  pose proof (on_exc_ok W i h m l (h_read numeric l c PSFi) (read numeric c PSFi) (is_ref numeric) Ok_ Hi V Ex (sim_read numeric _ _ c PSFi) (proj1 (hands_read numeric _ c PSFi))) as (A1 & A2 & A3 & A4).
  assert (Ec : mi_cls m = c) by now rewrite Em. unfold exc_PSFi. rewrite Ec.
  unfold w_exc_PSFi, wbind, w_self. rewrite Hi, Ex, (class_self W l c (eq_trans D3 Cl)). destruct (on_heap (h_read numeric l c PSFi) W) as [[v|e] W1]; cbn [fst snd] in *;
    destruct (read numeric c PSFi (mi_exc m)) as [[v'|e'] o']; cbn [fst snd] in *; try contradiction.
  - unfold w_deref. unfold is_ref in A4. rewrite A4. cbn [fst snd]. split; [exact A1|]. split; [exact A2|]. split; [exact A3|]. split; [exact K|reflexivity].
  - split; [exact A1|]. split; [exact A2|]. split; [exact A3|]. split; [exact K|exact A4].
Qed.
