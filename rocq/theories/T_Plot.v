(** C80: plot_psf and plot_otf of a microscope (pyotf/microscope.py:131-171). *)
From Verif Require Import S_Plot L_PSF L_Sum L_Phase2 L_Array L_Center L_Slice L_Radial T_PSF T_Micro T_Micro3 T_Micro4 T_Display T_Display2.
From Coq Require Import Lra.
From Flocq Require Import Core.
Import M_Array.
Local Open Scope R_scope.

(** ** Reading the arrays does not change what the plots read afterwards *)
Definition quiet {A} (c : MM A) : Prop := forall m, mi_pixel (snd (c m)) = mi_pixel m /\ o_attr (mi_model (snd (c m))) = o_attr (mi_model m).
Lemma quiet_bind {A B} (c : MM A) (f : A -> MM B) : quiet c -> (forall x, quiet (f x)) -> quiet (mbind c f).
Proof. intros H1 H2 q. unfold mbind. specialize (H1 q). destruct (c q) as [[x|e] q']; cbn in *; [|exact H1]. specialize (H2 x q'). intuition congruence. Qed.
Lemma quiet_ret {A} (x : A) : quiet (mret x). Proof. intros q; auto. Qed.
Lemma quiet_lift {A} (x : res A) : quiet (mlift x). Proof. intros q; auto. Qed.
Lemma quiet_asks {A} (f : micro -> A) : quiet (masks f). Proof. intros q; auto. Qed.
Lemma quiet_get a : quiet (m_get a). Proof. intros q; unfold m_get; destruct (mi_num q a); auto. Qed.
Lemma model_R_eq a m : model_R a m = (match o_attr (mi_model m) a with Some v => as_R v | None => Err AttributeError end, m).
Proof.
  unfold model_R, on_model, bindM, getattr, lift. destruct (o_attr (mi_model m) a) as [v|]; destruct m; reflexivity.
Qed.
Lemma quiet_model_R a : quiet (model_R a). Proof. intros q. rewrite model_R_eq. auto. Qed.
Lemma quiet_psfi : quiet model_PSFi.
Proof. intros q. unfold model_PSFi. pose proof (read_same numeric (mi_cls q) PSFi (mi_model q)) as R. destruct (read _ _ _ _) as [r o]. destruct R as [R _]. cbn in *. auto. Qed.
Lemma quiet_otfi : quiet model_OTFi.
Proof. intros q. unfold model_OTFi. pose proof (read_same numeric (mi_cls q) OTFi (mi_model q)) as R. destruct (read _ _ _ _) as [r o]. destruct R as [R _]. cbn in *. auto. Qed.
Lemma quiet_exci : quiet exc_PSFi. Proof. intros q. unfold exc_PSFi. destruct (read _ _ _ _) as [r o]. cbn. auto. Qed.
Ltac quiet_tac := repeat match goal with
  | |- quiet (mbind _ _) => apply quiet_bind; [|intros ?] | |- quiet (mret _) => apply quiet_ret | |- quiet (mlift _) => apply quiet_lift | |- quiet (m_get _) => apply quiet_get
  | |- quiet (model_R _) => apply quiet_model_R | |- quiet model_PSFi => apply quiet_psfi | |- quiet exc_PSFi => apply quiet_exci | |- quiet model_OTFi => apply quiet_otfi
  | |- quiet (masks _) => apply quiet_asks | |- quiet (if ?b then _ else _) => destruct b | |- quiet (match ?b with _ => _ end) => destruct b end.
Lemma quiet_model_psf : quiet model_psf.
Proof.
  assert (H1 : quiet confocal_psf) by (unfold confocal_psf; quiet_tac).
  assert (H2 : quiet apotome_psf) by (unfold apotome_psf; quiet_tac).
  assert (H3 : quiet sim_psf) by (unfold sim_psf, sim_base; cbv zeta; quiet_tac).
  intros q. unfold model_psf. destruct (mi_kind q); [apply quiet_psfi|apply H1|apply H2|apply H3].
Qed.
Lemma quiet_PSF : quiet m_PSF.
Proof.
  assert (H : quiet compute_psf) by (unfold compute_psf; apply quiet_bind; [apply quiet_model_psf|intros ?]; quiet_tac).
  intros q. unfold m_PSF. destruct (mi_psf q); [auto|]. unfold mbind. specialize (H q). destruct (compute_psf q) as [[a|e] q']; cbn in *; exact H.
Qed.
Lemma quiet_OTF : quiet m_OTF.
Proof.
  intros q. unfold m_OTF. destruct (mi_otf q); [auto|]. unfold mbind. pose proof (quiet_PSF q) as H. destruct (m_PSF q) as [[a|e] q']; cbn in *; exact H.
Qed.

Lemma all_some_iff {A} (l : list (option A)) : (exists r, all_some l = Some r) <-> Forall (fun v => v <> None) l.
Proof.
  induction l as [|[x|] l IH]; cbn [all_some].
  - split; [constructor|eexists; reflexivity].
  - rewrite Forall_cons_iff. rewrite <- IH. destruct (all_some l) as [r|].
    + split; intros; [split; [discriminate|eexists; reflexivity]|eexists; reflexivity].
    + split; [intros [r H]; discriminate|intros [_ [r H]]; discriminate].
  - rewrite Forall_cons_iff. split; [intros [r H]; discriminate|intros [H _]; congruence].
Qed.
Lemma finite_some {A} (a : array (option A)) : all_finite a -> exists r, all_some (map (get a) (all_ix (shape a))) = Some r.
Proof.
  intros H. apply all_some_iff, Forall_forall. intros v Hv. apply in_map_iff in Hv. destruct Hv as (ix & <- & I). apply H, in_all_ix, I.
Qed.
Lemma not_finite_none {A} (a : array (option A)) ix : inb (shape a) ix -> get a ix = None -> all_some (map (get a) (all_ix (shape a))) = None.
Proof.
  intros I N. destruct (all_some _) as [r|] eqn:E; [|reflexivity]. assert (H : Forall (fun v => v <> None) (map (get a) (all_ix (shape a)))) by (apply all_some_iff; eauto).
  rewrite Forall_forall in H. exfalso. apply (H None); [|reflexivity]. rewrite <- N. apply in_map, in_all_ix, I.
Qed.
Lemma r_max_is a m ix : r_max a = Ok m -> inb (shape a) ix -> get a ix <= m.
Proof.
  unfold r_max. intros H I. apply in_all_ix in I. apply (in_map (get a)) in I. destruct (map (get a) (all_ix (shape a))) as [|v l]; [destruct I|].
  injection H as <-. assert (G : forall l v, v <= fold_left Rmax l v /\ forall x, In x l -> x <= fold_left Rmax l v).
  { clear. induction l as [|b l IH]; intros v; cbn [fold_left]; [split; [lra|intros ? []]|]. destruct (IH (Rmax v b)) as [A B]. pose proof (Rmax_l v b). pose proof (Rmax_r v b).
    split; [lra|]. intros x [<-|X]; [lra|auto]. }
  destruct (G l v) as [A B]. destruct I as [<-|I]; auto.
Qed.
Lemma r_max_in a m : r_max a = Ok m -> exists ix, inb (shape a) ix /\ get a ix = m.
Proof.
  unfold r_max. intros H. assert (G : forall l v, fold_left Rmax l v = v \/ In (fold_left Rmax l v) l).
  { clear. induction l as [|b l IH]; intros v; cbn [fold_left]; [left; reflexivity|]. destruct (IH (Rmax v b)) as [A|A]; [|right; right; exact A].
    rewrite A. unfold Rmax. destruct Rle_dec; [right; left; reflexivity|left; reflexivity]. }
  destruct (map (get a) (all_ix (shape a))) as [|v l] eqn:E; [discriminate|]. injection H as <-.
  assert (I : In (fold_left Rmax l v) (map (get a) (all_ix (shape a)))) by (rewrite E; destruct (G l v) as [->|]; [left; reflexivity|right; assumption]).
  apply in_map_iff in I. destruct I as (ix & Hx & I). exists ix. split; [apply in_all_ix, I|exact Hx].
Qed.

(** ** plot_otf *)
Lemma eps_val : eps = machine_eps. Proof. unfold eps, machine_eps. f_equal. simpl. lra. Qed.
Lemma shown_unit o c0 i0 : all_finite o -> inb (shape o) i0 -> get o i0 = Some c0 -> Cmod c0 = 1 ->
  (forall ix c, inb (shape o) ix -> get o ix = Some c -> Cmod c <= 1) ->
  exists s, shown o = Ok s /\ shape s = shape o /\ forall ix c, inb (shape o) ix -> get o ix = Some c -> get s ix = Rmax (Cmod c) machine_eps.
Proof.
  intros F I0 E0 C0 B. unfold shown. destruct (finite_some o F) as [r ->]. set (mag := amap _ o).
  destruct (r_max mag) as [m|e] eqn:Em; cbn [bind].
  - assert (M1 : m = 1).
    { apply Rle_antisym.
      - destruct (r_max_in mag m Em) as (ix & I & <-). cbn [mag amap get shape] in *. destruct (get o ix) eqn:G; [eapply B; eassumption|lra].
      - rewrite <- C0. pose proof (r_max_is mag m i0 Em I0) as L. cbn [mag amap get] in L. rewrite E0 in L. exact L. }
    destruct (Req_EM_T m 0); [exfalso; lra|]. eexists. split; [reflexivity|]. split; [reflexivity|]. intros ix c I G. cbn [mag amap get]. rewrite G, M1, eps_val.
    f_equal. unfold Rdiv. rewrite Rinv_1. ring.
  - exfalso. unfold r_max in Em. apply in_all_ix in I0. change (shape mag) with (shape o) in Em. destruct (all_ix (shape o)); [exact I0|discriminate].
Qed.
Lemma shown_nan o ix : inb (shape o) ix -> get o ix = None -> exists s, shown o = Ok s /\ shape s = shape o /\ forall jx, get s jx = machine_eps.
Proof.
  intros I N. unfold shown. rewrite (not_finite_none o ix I N). eexists. split; [reflexivity|]. split; [reflexivity|]. intros jx. cbn [amap get]. apply eps_val.
Qed.

Section Otf.
Context (m : micro) (na ni wl px : R) (q : Q).
Context (Hna : finite_number (o_attr (mi_model m) A_na) na) (Hni : finite_number (o_attr (mi_model m) A_ni) ni) (Hwl : finite_number (o_attr (mi_model m) A_wl) wl).
Context (Hpx : finite_number (Some (mi_pixel m)) px).
Lemma read_R a x m' : finite_number (o_attr (mi_model m) a) x -> o_attr (mi_model m') = o_attr (mi_model m) -> model_R a m' = (Ok x, m').
Proof. intros (w & qq & E1 & E2 & ->) E. rewrite model_R_eq, E, E1. unfold as_R. rewrite E2. reflexivity. Qed.
Lemma plot_otf_eq o : fst (m_OTF m) = Ok o -> fst (m_plot_otf m) = do s <- shown o; otf_plot s na ni wl px px.
Proof.
  intros E. unfold m_plot_otf, mbind, mlift. destruct (quiet_OTF m) as [Q1 Q2]. destruct (m_OTF m) as [r m'] eqn:EM. cbn [fst snd] in *. subst r.
  destruct (shown o) as [s|e]; [|reflexivity]. cbn [bind].
  rewrite (read_R A_na na m' Hna Q2), (read_R A_ni ni m' Hni Q2), (read_R A_wl wl m' Hwl Q2). cbn [fst snd].
  destruct Hpx as (w & qq & E1 & E2 & ->). injection E1 as E1. unfold as_R. rewrite Q1, E1, E2. reflexivity.
Qed.
End Otf.

(** The picture of the OTF of a unit-sum non-negative image: magnitudes clipped from below at
    2^-52, the centre is 1; every axis, the axial one too, is scaled with pixel_size. *)
Theorem C80_plot_otf : forall m a nz n na ni wl px, fresh m = Ok a -> shape a = [nz; n; n] -> (0 < nz)%Z -> (0 < n)%Z ->
  all_finite a -> image_sum a = 1 -> nonneg_image a ->
  finite_number (o_attr (mi_model m) A_na) na -> finite_number (o_attr (mi_model m) A_ni) ni -> finite_number (o_attr (mi_model m) A_wl) wl ->
  finite_number (Some (mi_pixel m)) px -> ni <> 0 -> wl <> 0 -> px <> 0 ->
  exists o xy xz zy c ws, let dz := / (IZR nz * px) in let d := / (IZR n * px) in
    fst (m_OTF (m_changed m)) = Ok o /\
    fst (m_plot_otf (m_changed m)) = Ok ([
      mkPanel 3 "k_XY" xy (coord n d 0) (coord n d (n - 1)) (coord n d 0) (coord n d (n - 1));
      mkPanel 2 "k_YZ" xz (coord nz dz 0) (coord nz dz (nz - 1)) (coord n d 0) (coord n d (n - 1));
      mkPanel 1 "k_XZ" zy (coord n d 0) (coord n d (n - 1)) (coord nz dz 0) (coord nz dz (nz - 1))], c, ws) /\
    shape xy = [n; n] /\ shape xz = [n; nz] /\ shape zy = [nz; n] /\
    (forall y x, (0 <= y < n)%Z -> (0 <= x < n)%Z -> exists v, get o [(nz / 2)%Z; y; x] = Some v /\ get xy [y; x] = Rmax (Cmod v) machine_eps /\ machine_eps <= get xy [y; x] <= 1) /\
    (forall x z, (0 <= x < n)%Z -> (0 <= z < nz)%Z -> exists v, get o [z; (n / 2)%Z; x] = Some v /\ get xz [x; z] = Rmax (Cmod v) machine_eps /\ machine_eps <= get xz [x; z] <= 1) /\
    (forall z y, (0 <= z < nz)%Z -> (0 <= y < n)%Z -> exists v, get o [z; y; (n / 2)%Z] = Some v /\ get zy [z; y] = Rmax (Cmod v) machine_eps /\ machine_eps <= get zy [z; y] <= 1) /\
    get xy [n / 2; n / 2]%Z = 1 /\ get xz [n / 2; nz / 2]%Z = 1 /\ get zy [nz / 2; n / 2]%Z = 1.
Proof.
  intros m a nz n na ni wl px Hf Hs Hz Hn Hall Hsum Hnn Hna Hni Hwl Hpx Z1 Z2 Z3.
  destruct (C56_otf m a nz n n Hf Hs Hz Hn Hn Hall Hsum) as (o & Eo & So & C0 & Rest).
  assert (Fo : all_finite o) by (intros ix I N; rewrite So in I; destruct (inb3_inv _ _ _ _ I) as (z & y & x & -> & _); destruct (Rest z y x I) as (c & G & _); congruence).
  assert (I0 : inb (shape o) [nz / 2; n / 2; n / 2]%Z) by (rewrite So; apply inb3; lia).
  assert (Bo : forall ix c, inb (shape o) ix -> get o ix = Some c -> Cmod c <= 1).
  { intros ix c I G. rewrite So in I. destruct (inb3_inv _ _ _ _ I) as (z & y & x & -> & _). destruct (Rest z y x I) as (c' & G' & _ & _ & B). rewrite G in G'. injection G' as ->. apply B, Hnn. }
  assert (C1 : Cmod (RtoC 1) = 1) by (rewrite Cmod_R; apply Rabs_R1).
  destruct (shown_unit o (RtoC 1) _ Fo I0 C0 C1 Bo) as (s & Es & Ss & Vs).
  rewrite So in Ss. assert (Hz1 : (1 <= nz)%Z) by lia. assert (Hn1 : (1 <= n)%Z) by lia.
  destruct (C78_otf_panels s nz n na ni wl px px Ss Hz1 Hn1 Z3 Z3 Z1 Z2) as (xy & xz & zy & c & ws & Ep & S1 & S2 & S3 & V).
  assert (E : fst (m_plot_otf (m_changed m)) = do s <- shown o; otf_plot s na ni wl px px) by (apply plot_otf_eq; assumption).
  exists o, xy, xz, zy, c, ws. cbv zeta. split; [exact Eo|]. split; [rewrite E, Es; exact Ep|]. split; [exact S1|]. split; [exact S2|]. split; [exact S3|].
  assert (G : forall z y x, (0 <= z < nz)%Z -> (0 <= y < n)%Z -> (0 <= x < n)%Z -> exists v, get o [z; y; x] = Some v /\ get s [z; y; x] = Rmax (Cmod v) machine_eps /\ machine_eps <= get s [z; y; x] <= 1).
  { intros z y x Bz By Bx. assert (I : inb (shape o) [z; y; x]) by (rewrite So; apply inb3; lia). destruct (get o [z; y; x]) as [v|] eqn:Gv; [|exfalso; apply (Fo _ I Gv)].
    exists v. split; [reflexivity|]. rewrite (Vs _ v I Gv). split; [reflexivity|]. split; [apply Rmax_r|]. apply Rmax_lub; [eapply Bo; eassumption|]. unfold machine_eps. lra. }
  assert (Ctr : get s [nz / 2; n / 2; n / 2]%Z = 1) by (rewrite (Vs _ _ I0 C0), C1; apply Rmax_left; unfold machine_eps; lra).
  split; [|split; [|split]].
  - intros y x By Bx. destruct (V x y 0%Z) as (-> & _ & _). apply G; lia.
  - intros x z Bx Bz. destruct (V x 0%Z z) as (_ & -> & _). apply G; lia.
  - intros z y Bz By. destruct (V 0%Z y z) as (_ & _ & ->). apply G; lia.
  - destruct (V (n / 2)%Z (n / 2)%Z (nz / 2)%Z) as (-> & -> & ->). auto.
Qed.
Print Assumptions C80_plot_otf.

(** If any value of the OTF is not a number the whole picture is flat at 2^-52 (np.fmax drops NaN). *)
Theorem C80_plot_otf_nan : forall m o ix nz n na ni wl px, fst (m_OTF m) = Ok o -> shape o = [nz; n; n] -> (0 < nz)%Z -> (0 < n)%Z ->
  inb (shape o) ix -> get o ix = None ->
  finite_number (o_attr (mi_model m) A_na) na -> finite_number (o_attr (mi_model m) A_ni) ni -> finite_number (o_attr (mi_model m) A_wl) wl ->
  finite_number (Some (mi_pixel m)) px -> ni <> 0 -> wl <> 0 -> px <> 0 ->
  exists ps c ws, fst (m_plot_otf m) = Ok (ps, c, ws) /\ List.length ps = 3%nat /\ forall p y x, In p ps -> get (p_img p) [y; x] = machine_eps.
Proof.
  intros m o ix nz n na ni wl px Eo So Hz Hn I N Hna Hni Hwl Hpx Z1 Z2 Z3.
  destruct (shown_nan o ix I N) as (s & Es & Ss & V). rewrite So in Ss. assert (Hz1 : (1 <= nz)%Z) by lia. assert (Hn1 : (1 <= n)%Z) by lia.
  destruct (C78_otf_panels s nz n na ni wl px px Ss Hz1 Hn1 Z3 Z3 Z1 Z2) as (xy & xz & zy & c & ws & Ep & S1 & S2 & S3 & W).
  do 3 eexists. split; [rewrite (plot_otf_eq m na ni wl px Hna Hni Hwl Hpx o Eo), Es; exact Ep|]. split; [reflexivity|].
  intros p y x [<-|[<-|[<-|[]]]]; cbn [p_img].
  - destruct (W x y 0%Z) as (-> & _ & _). apply V.
  - destruct (W y 0%Z x) as (_ & -> & _). apply V.
  - destruct (W 0%Z x y) as (_ & _ & ->). apply V.
Qed.
Print Assumptions C80_plot_otf_nan.

(** ** plot_psf *)
Lemma o_lt_swo : strict_weak o_lt.
Proof.
  split.
  - intros [x|]; cbn; [destruct Rlt_dec; [lra|reflexivity]|reflexivity].
  - intros [x|] [y|] [z|]; cbn; try discriminate; auto. destruct (Rlt_dec x y); [|discriminate]. destruct (Rlt_dec y z); [|discriminate]. intros _ _. destruct Rlt_dec; [reflexivity|lra].
  - intros [x|] [y|] [z|]; cbn; try discriminate; auto. destruct (Rlt_dec x y); [discriminate|]. destruct (Rlt_dec y z); [discriminate|]. intros _ _. destruct Rlt_dec; [lra|reflexivity].
Qed.
Lemma window_slice n x w : (0 <= w)%Z -> (0 <= x < n)%Z -> exists a b, one_slice x w = Ok (Slice (Some a) (Some b)) /\
  window_of n x w a (slice_len n (Slice (Some a) (Some b))) /\ norm_start n (Slice (Some a) (Some b)) = a /\
  (w / 2 <= x -> x + (w + 1) / 2 <= n -> slice_len n (Slice (Some a) (Some b)) = w /\ a + w / 2 = x)%Z /\
  ((0 < w)%Z -> a <= x < a + slice_len n (Slice (Some a) (Some b)))%Z.
Proof.
  intros Hw Hx. unfold one_slice, calc_pad. cbn [Z.modulo Z.eqb negb]. rewrite !Z.sub_0_r.
  change (negb (0 mod 2 =? 0)) with false. cbv iota. cbv zeta beta.
  destruct (x - w / 2 <=? x + (w - w / 2))%Z eqn:E1; [|exfalso; lia]. cbn [negb].
  destruct (x + (w - w / 2) <=? 0)%Z eqn:E2.
  - assert (w = 0)%Z by lia. subst w. exists 0%Z, 0%Z. split; [reflexivity|].
    assert (x = 0)%Z by lia. subst x.
    assert (L : slice_len n (Slice (Some 0%Z) (Some 0%Z)) = 0%Z) by (unfold slice_len, norm_stop, norm_start, norm_bound; cbn; lia). rewrite L.
    split; [split; [lia|intros i; lia]|]. split; [unfold norm_start, norm_bound; cbn; lia|]. split; lia.
  - exists (Z.max 0 (x - w / 2)), (x + (w - w / 2))%Z. split; [reflexivity|].
    unfold window_of, slice_len, norm_stop, norm_start, norm_bound. cbn [sl_start sl_stop].
    destruct (Z.max 0 (x - w / 2) <? 0)%Z eqn:E3; [exfalso; lia|]. destruct (x + (w - w / 2) <? 0)%Z eqn:E4; [exfalso; lia|].
    split; [split; [lia|intros i; lia]|]. split; [lia|]. split; lia.
Qed.
Lemma rint_spec x : rounds_to x (rint x).
Proof. unfold rounds_to, rint. apply (nearE_spec x (ZnearestE x)). reflexivity. Qed.
Lemma rint_nonneg x : 0 <= x -> (0 <= rint x)%Z.
Proof. intros H. unfold rint. apply (Z.le_trans _ (ZnearestE 0)); [rewrite (Zrnd_IZR ZnearestE 0); lia|apply Zrnd_le; [apply valid_rnd_N|exact H]]. Qed.
Lemma rint_pos x : / 2 < x -> (0 < rint x)%Z.
Proof.
  intros H. destruct (rint_spec x) as [A _]. unfold Rabs in A. destruct Rcase_abs in A; apply lt_IZR; lra.
Qed.

(** The window: the rounded widths are 16 wl / (2 na) * 2 laterally and 16 wl / (ni - sqrt(ni^2 - na^2))
    axially, in pixels, centred on the first maximum; where it does not cross an edge it has that
    size and its middle plane, row and column pass through the maximum. *)
Theorem C80_plot_psf : forall m a nz ny nx mip na ni wl px, fst (m_PSF m) = Ok a -> shape a = [nz; ny; nx] -> (0 < nz)%Z -> (0 < ny)%Z -> (0 < nx)%Z ->
  all_finite a ->
  finite_number (o_attr (mi_model m) A_na) na -> finite_number (o_attr (mi_model m) A_ni) ni -> finite_number (o_attr (mi_model m) A_wl) wl ->
  finite_number (Some (mi_pixel m)) px -> 0 < na <= ni -> 0 < px ->
  px < 32 * (wl / (2 * na)) * 2 -> px < 16 * (wl / (ni - sqrt (ni ^ 2 - na ^ 2))) * 2 ->
  let image := amap absent_zero a in
  exists z0 y0 x0 wz w sz sy sx lz ly lx part ps,
    first_max r_ltb image [z0; y0; x0] /\
    rounds_to (16 * (wl / (ni - sqrt (ni ^ 2 - na ^ 2))) / px) wz /\ rounds_to (32 * (wl / (2 * na)) / px) w /\
    window_of nz z0 wz sz lz /\ window_of ny y0 w sy ly /\ window_of nx x0 w sx lx /\
    (wz / 2 <= z0 -> z0 + (wz + 1) / 2 <= nz -> lz = wz /\ sz + lz / 2 = z0)%Z /\
    (w / 2 <= y0 -> y0 + (w + 1) / 2 <= ny -> ly = w /\ sy + ly / 2 = y0)%Z /\
    (w / 2 <= x0 -> x0 + (w + 1) / 2 <= nx -> lx = w /\ sx + lx / 2 = x0)%Z /\
    (sz <= z0 < sz + lz /\ sy <= y0 < sy + ly /\ sx <= x0 < sx + lx)%Z /\
    shape part = [lz; ly; lx] /\
    (forall z y x, inb [lz; ly; lx] [z; y; x] -> get part [z; y; x] = get image [z + sz; y + sy; x + sx]%Z) /\
    psf_plot part px px mip = Ok ps /\ fst (m_plot_psf mip m) = Ok (Some ps).
Proof.
  intros m a nz ny nx mip na ni wl px Ea Sa Hz Hy Hx Fa Hna Hni Hwl Hpx Bna Ppx B1 B2 image.
  set (ax := 16 * (wl / (ni - sqrt (ni ^ 2 - na ^ 2))) / px) in *. set (lat := 32 * (wl / (2 * na)) / px) in *.
  assert (Pl : / 2 < lat). { unfold lat. apply (Rmult_lt_reg_r px); [lra|]. replace (32 * (wl / (2 * na)) / px * px) with (32 * (wl / (2 * na))) by (field; lra). lra. }
  assert (Pa : / 2 < ax). { unfold ax. apply (Rmult_lt_reg_r px); [lra|]. set (T := 16 * (wl / _)) in *. replace (T / px * px) with T by (field; lra). lra. }
  assert (Dni : 0 < ni - sqrt (ni ^ 2 - na ^ 2)).
  { cut (sqrt (ni ^ 2 - na ^ 2) < ni); [lra|]. rewrite <- (sqrt_pow2 ni) at 2 by lra. apply sqrt_lt_1_alt. nra. }
  assert (El : lateral_extent wl na px = Ok lat).
  { unfold lateral_extent, pdiv. destruct (Req_EM_T na 0); [lra|]. cbn [bind]. destruct (Req_EM_T px 0); [lra|]. cbn [bind]. f_equal. unfold lat. field. lra. }
  assert (Eax : axial_extent wl na ni px = Ok ax).
  { unfold axial_extent, pdiv. destruct (Req_EM_T px 0); [lra|]. cbn [bind]. f_equal. unfold ax. field. split; lra. }
  clearbody lat ax.
  assert (Fp : Forall (fun n => 0 < n)%Z (shape a)) by (rewrite Sa; repeat constructor; assumption).
  pose proof (size_pos _ Fp) as Ps.
  destruct (argmax_inv o_lt o_lt_swo (flat a) (size (shape a)) Ps) as (Bm & Mx & Fst).
  set (am := argmax_from o_lt (flat a) (zseq (size (shape a))) 0%Z) in *.
  assert (Eam : argmax o_lt a = Ok am) by (unfold argmax; destruct (size (shape a) <=? 0)%Z eqn:E; [exfalso; lia|reflexivity]).
  set (loc := unravel (shape a) am) in *.
  assert (Iloc : inb (shape a) loc) by (apply inb_unravel; auto).
  assert (Hlr : ravel (shape a) loc = am) by (apply ravel_unravel; auto).
  assert (Hfl : forall ix, inb (shape a) ix -> get a ix = flat a (ravel (shape a) ix)) by (intros ix I; unfold flat; now rewrite unravel_ravel).
  assert (FM : first_max r_ltb image loc).
  { assert (cmp : forall i j, inb (shape a) i -> inb (shape a) j -> r_ltb (get image i) (get image j) = o_lt (get a i) (get a j)).
    { intros i j I J. unfold image. cbn [amap get]. pose proof (Fa i I). pose proof (Fa j J). destruct (get a i), (get a j); try congruence. reflexivity. }
    split; [exact Iloc|]. split.
    - intros ix I. change (shape image) with (shape a) in I. rewrite cmp by assumption. rewrite !Hfl by assumption. rewrite Hlr. apply Mx. now apply ravel_bound.
    - intros ix I L. change (shape image) with (shape a) in I. rewrite cmp by assumption. rewrite !Hfl by assumption. rewrite Hlr. apply Fst.
      split; [apply ravel_bound; auto|]. rewrite <- Hlr. now apply ravel_lex. }
  assert (Il : inb [nz; ny; nx] loc) by (rewrite <- Sa; exact Iloc).
  destruct (inb3_inv _ _ _ _ Il) as (z0 & y0 & x0 & El0 & I1 & I2 & I3).
  rewrite El0 in FM.
  destruct (window_slice nz z0 (rint ax)) as (az & bz & Oz & Wz & Nz & Cz & Mz); [apply rint_nonneg; lra|assumption|].
  destruct (window_slice ny y0 (rint lat)) as (ay & by_ & Oy & Wy & Ny & Cy & My); [apply rint_nonneg; lra|assumption|].
  destruct (window_slice nx x0 (rint lat)) as (aw & bw & Ox & Wx & Nx & Cx & Mx'); [apply rint_nonneg; lra|assumption|].
  pose proof (rint_pos ax Pa) as Ra. pose proof (rint_pos lat Pl) as Rl. specialize (Mz Ra). specialize (My Rl). specialize (Mx' Rl).
  assert (Ec : r_slice_maker loc [ax; lat; lat] = Ok [Slice (Some az) (Some bz); Slice (Some ay) (Some by_); Slice (Some aw) (Some bw)]).
  { unfold r_slice_maker. rewrite El0. cbn [List.length Nat.eqb negb existsb map combine].
    destruct (Rlt_dec ax 0); [lra|]. destruct (Rlt_dec lat 0); [lra|]. cbn [orb slice_loop]. rewrite Oz, Oy, Ox. reflexivity. }
  set (lz := slice_len nz (Slice (Some az) (Some bz))) in *. set (ly := slice_len ny (Slice (Some ay) (Some by_))) in *. set (lx := slice_len nx (Slice (Some aw) (Some bw))) in *.
  set (crop := [Slice (Some az) (Some bz); Slice (Some ay) (Some by_); Slice (Some aw) (Some bw)]) in *.
  assert (Eg : exists g, getitem a crop = Ok g /\ shape g = [lz; ly; lx] /\ forall z y x, get g [z; y; x] = get a [az + z; ay + y; aw + x]%Z).
  { unfold getitem, crop. rewrite Sa. cbn [List.length Nat.ltb Nat.leb]. eexists. split; [reflexivity|]. split; [reflexivity|].
    intros z y x. cbn [get slice_index]. rewrite Nz, Ny, Nx. reflexivity. }
  destruct Eg as (g & Eg & Sg & Vg).
  set (part := amap (fun v : option R => match v with Some x => x | None => 0 end) g).
  destruct (C78_psf_panels part lz ly lx px px mip) as (xy & xz & zy & Ep & _); [exact Sg|lia|lia|lia|].
  exists z0, y0, x0, (rint ax), (rint lat), az, ay, aw, lz, ly, lx, part. eexists.
  split; [exact FM|]. split; [apply rint_spec|]. split; [apply rint_spec|].
  split; [exact Wz|]. split; [exact Wy|]. split; [exact Wx|].
  split; [intros L1 L2; destruct (Cz L1 L2) as [E1 E2]; rewrite E1; split; [reflexivity|exact E2]|].
  split; [intros L1 L2; destruct (Cy L1 L2) as [E1 E2]; rewrite E1; split; [reflexivity|exact E2]|].
  split; [intros L1 L2; destruct (Cx L1 L2) as [E1 E2]; rewrite E1; split; [reflexivity|exact E2]|].
  split; [auto|]. split; [exact Sg|]. split.
  { intros z y x _. unfold part, image. cbn [amap get]. rewrite Vg. rewrite (Z.add_comm az), (Z.add_comm ay), (Z.add_comm aw). reflexivity. }
  split; [exact Ep|].
  unfold m_plot_psf, mbind, mlift, mret.
  rewrite (read_R m A_wl wl m Hwl eq_refl), (read_R m A_na na m Hna eq_refl). cbn [fst snd].
  assert (Epx : as_R (mi_pixel m) = Ok px) by (destruct Hpx as (w & qq & E1 & E2 & ->); injection E1 as E1; unfold as_R; rewrite E1, E2; reflexivity).
  rewrite Epx, El, (read_R m A_ni ni m Hni eq_refl), Eax. destruct (m_PSF m) as [r m'] eqn:EM. cbn [fst snd] in *. subst r.
  rewrite Eam. fold loc. rewrite Ec, Eg. destruct (finite_some a Fa) as [r ->]. fold part. rewrite Ep. reflexivity.
Qed.
Print Assumptions C80_plot_psf.

(** The microscope [a0] of T_Micro2 (na 1.2, ni 4/3, wl 0.52, pixel 0.1) meets all hypotheses. *)
From Verif Require Import T_Micro2 T_Micro5 L_Micro.
Lemma a0_numbers : exists m r, WidefieldMicroscope a0 = Ok m /\ fresh m = Ok r /\ fst (m_PSF m) = Ok r /\ shape r = [16; 64; 64]%Z /\ all_finite r /\ image_sum r = 1 /\ nonneg_image r /\
  finite_number (o_attr (mi_model m) A_na) (6 / 5) /\ finite_number (o_attr (mi_model m) A_ni) (4 / 3) /\ finite_number (o_attr (mi_model m) A_wl) (52 / 100) /\
  finite_number (Some (mi_pixel m)) (1 / 10).
Proof.
  destruct C56_witness as (m' & r' & _). clear m' r'.
  destruct a0_built as (m & Hm & Hc & Hp). destruct C55_witness as (m2 & r & Hm2 & Hr & Sr & Sm & Nn). rewrite Hm in Hm2. injection Hm2 as <-.
  exists m, r. pose proof (built_wide a0 m Hm) as Hb.
  assert (Fr : fresh m = Ok r) by (destruct (C57_snapshot m [] (ex_intro _ a0 Hb)) as [E _]; cbn [mrun snapshot] in E; congruence).
  split; [exact Hm|]. split; [exact Fr|]. split; [exact Hr|]. split; [exact Sr|].
  destruct (C54_geometry a0 m a0_kwargs Hb) as (f1 & n1 & _ & _ & _ & _ & _ & _ & _ & Awl & Ana & Ani & _).
  split; [|split; [exact Sm|split; [exact Nn|split; [|split; [|split]]]]].
  - assert (Ph := a0_physical). destruct Ph as (P1 & P2 & P3 & P4). pose proof (C55_hanser a0 m a0_kwargs Hm Hc) as X. cbv zeta in X. rewrite Hp in X. set (h := hpar_of a0_params) in *.
    assert (Nv : h_vec h <> VecZ) by (rewrite P3; discriminate). assert (Nz : h_zrange h <> []) by (intros E; rewrite E in P4; discriminate P4).
    destruct (X P1 P2 Nv Nz) as (A & n & f & r2 & _ & Hn & _ & _ & Er & Sr2 & _ & Vr & _). rewrite Hr in Er. injection Er as <-. rewrite P4 in Vr. cbn in Hn. injection Hn as <-.
    intros ix Hix. rewrite Sr in Hix. destruct (inb3_inv _ _ _ _ Hix) as (z & y & x & -> & _). rewrite (Vr z y x) by exact Hix. discriminate.
  - rewrite Ana. exists (qv 6 5), (6 # 5)%Q. split; [reflexivity|]. split; [reflexivity|]. unfold Q2R. cbn. lra.
  - rewrite Ani. exists (qv 4 3), (4 # 3)%Q. split; [reflexivity|]. split; [reflexivity|]. unfold Q2R. cbn. lra.
  - rewrite Awl. exists (qv 52 100), (52 # 100)%Q. split; [reflexivity|]. split; [reflexivity|]. unfold Q2R. cbn. lra.
  - assert (E : mi_pixel m = qv 1 10) by (destruct (built_wide_result a0 m Hb) as (k & f0 & p & c & kk & o & X); decompose [and] X; assumption).
    rewrite E. exists (qv 1 10), (1 # 10)%Q. split; [reflexivity|]. split; [reflexivity|]. unfold Q2R. cbn. lra.
Qed.
Example C80_witness_otf : exists m o, built m /\ fst (m_plot_otf (m_changed m)) = Ok o.
Proof.
  destruct a0_numbers as (m & r & Hm & Fr & _ & Sr & Fa & Sm & Nn & H1 & H2 & H3 & H4).
  destruct (C80_plot_otf m r 16 64 (6 / 5) (4 / 3) (52 / 100) (1 / 10) Fr Sr ltac:(lia) ltac:(lia) Fa Sm Nn H1 H2 H3 H4 ltac:(lra) ltac:(lra) ltac:(lra)) as (o & xy & xz & zy & c & ws & _ & E & _).
  exists m. eexists. split; [exists a0; now apply built_wide|]. exact E.
Qed.
Example C80_witness_psf : exists m ps, built m /\ fst (m_plot_psf true m) = Ok (Some ps).
Proof.
  destruct a0_numbers as (m & r & Hm & Fr & Hr & Sr & Fa & Sm & Nn & H1 & H2 & H3 & H4).
  assert (D : 0 < 4 / 3 - sqrt ((4 / 3) ^ 2 - (6 / 5) ^ 2) <= 4 / 3).
  { pose proof (sqrt_pos ((4 / 3) ^ 2 - (6 / 5) ^ 2)). split; [|lra]. cut (sqrt ((4 / 3) ^ 2 - (6 / 5) ^ 2) < 4 / 3); [lra|].
    rewrite <- (sqrt_pow2 (4 / 3)) at 2 by lra. apply sqrt_lt_1_alt. lra. }
  set (d := 4 / 3 - sqrt _) in *.
  assert (W : 52 / 100 * (3 / 4) <= 52 / 100 / d). { unfold Rdiv at 3. apply Rmult_le_compat_l; [lra|]. replace (3 / 4) with (/ (4 / 3)) by lra. apply Rinv_le_contravar; lra. }
  destruct (C80_plot_psf m r 16 64 64 true (6 / 5) (4 / 3) (52 / 100) (1 / 10) Hr Sr ltac:(lia) ltac:(lia) ltac:(lia) Fa H1 H2 H3 H4 ltac:(lra) ltac:(lra) ltac:(lra) ltac:(fold d; lra))
    as (z0 & y0 & x0 & wz & w & sz & sy & sx & lz & ly & lx & part & ps & X). decompose [and] X.
  exists m, ps. split; [exists a0; now apply built_wide|]. assumption.
Qed.
