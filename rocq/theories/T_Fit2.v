(** Witnesses for C51, and C53. *)
From Verif Require Import S_PSF S_Phase S_Fit S_Utils L_Pad L_Array L_Sum L_Polar L_PSF L_Ctor L_Hanser L_Hanser2 L_Aberr L_Aberr3 L_Phase L_Phase2 L_Phase3 L_Phase4 L_Phase5 L_Phase6 L_Phase7 L_Phase8 L_Fit L_Fit2 L_Lstsq T_PSF T_Object T_Polar T_Utils T_Phase T_Phase2 T_Fit.
Import M_Array.
Local Open Scope R_scope.

(** A least-squares solver exists (Gram-Schmidt). *)
Example least_squares_witness : exists lstsq, least_squares lstsq.
Proof. exists gs_lstsq. apply gs_least_squares. Qed.

(** Piston, tip and tilt are independent as soon as two pixels next to the centre lie in the aperture. *)
Lemma mix3 a b c r t : r <= 1 -> mix [a; b; c] r t = a - 2 * (b * (r * cos t) + c * (r * sin t)).
Proof.
  intros Hr. unfold mix. cbn [List.length seq Rsum nth]. change (Z.of_nat 0 + 1)%Z with 1%Z. change (Z.of_nat 1 + 1)%Z with 2%Z. change (Z.of_nat 2 + 1)%Z with 3%Z.
  rewrite zmode_1, (proj1 (zmode_23 r t Hr)), (proj2 (zmode_23 r t Hr)) by auto. ring.
Qed.
Lemma rim_polar h y x : 0 < h_wl h -> 0 < h_na h -> rim_r h y x * cos (rim_t h y x) = cfreq h x * h_wl h / h_na h /\ rim_r h y x * sin (rim_t h y x) = cfreq h y * h_wl h / h_na h.
Proof.
  intros Hw Hna. destruct (cart2pol (cfreq h y) (cfreq h x)) as [rho th] eqn:E. destruct (C08_cart2pol _ _ _ _ E) as (_ & _ & Ex & Ey & _).
  unfold rim_r, rim_t. rewrite E. cbn [snd]. injection E as E1 _. unfold hypot in E1. replace (cfreq h y ^ 2 + cfreq h x ^ 2) with (cfreq h y * cfreq h y + cfreq h x * cfreq h x) by ring. rewrite E1.
  split; [rewrite Ex|rewrite Ey]; field; lra.
Qed.
Lemma independent_3 h : 0 < h_wl h -> 0 < h_na h -> 0 < h_res h -> (3 <= h_size h)%Z -> h_wl h <= h_na h * (IZR (h_size h) * h_res h) -> independent h 3.
Proof.
  intros Hw Hna Hr Hs Hle cs Hl H. destruct cs as [|a [|b [|c [|? ?]]]]; try discriminate. set (n := h_size h) in *.
  assert (Hn : 0 < IZR n * h_res h) by (apply Rmult_lt_0_compat; [apply IZR_lt; lia|lra]).
  assert (D : forall i, cfreq h (n / 2 + i) = IZR i / (IZR n * h_res h)) by (intros i; unfold cfreq; fold n; do 2 f_equal; lia).
  assert (B : (1 <= n / 2 /\ n / 2 + 1 < n)%Z). { pose proof (Z.div_mod n 2 ltac:(lia)). pose proof (Z.mod_pos_bound n 2 ltac:(lia)). lia. }
  set (q := h_wl h / (h_na h * (IZR n * h_res h))). assert (Hq : 0 < q <= 1).
  { unfold q. split; [apply Rdiv_lt_0_compat; nra|]. apply (Rmult_le_reg_r (h_na h * (IZR n * h_res h))); [nra|]. unfold Rdiv. rewrite Rmult_assoc, Rinv_l by nra. lra. }
  assert (V : forall i j, (0 <= i <= 1)%Z -> (0 <= j <= 1)%Z -> (i * j = 0)%Z -> a - 2 * (b * (IZR j * q) + c * (IZR i * q)) = 0).
  { intros i j Hi Hj Hij. destruct (rim_polar h (n / 2 + i) (n / 2 + j) Hw Hna) as [P1 P2].
    assert (R1 : rim_r h (n / 2 + i) (n / 2 + j) <= 1).
    { unfold rim_r. rewrite !D. replace ((IZR i / (IZR n * h_res h)) ^ 2 + (IZR j / (IZR n * h_res h)) ^ 2) with (Rsqr (IZR (i + j) / (IZR n * h_res h))).
      2:{ unfold Rsqr. rewrite plus_IZR. assert (IZR i * IZR j = 0) by (rewrite <- mult_IZR, Hij; reflexivity). assert (IZR n <> 0) by (intros E0; rewrite E0 in Hn; lra). transitivity ((IZR i ^ 2 + IZR j ^ 2 + 2 * (IZR i * IZR j)) / (IZR n * h_res h) ^ 2); [field; split; lra|]. rewrite H0. field. split; lra. }
      assert (0 <= IZR (i + j)) by (apply IZR_le; lia). assert (IZR (i + j) <= 1) by (apply IZR_le; nia).
      rewrite sqrt_Rsqr by (apply Rmult_le_pos; [lra|left; now apply Rinv_0_lt_compat]).
      replace (IZR (i + j) / (IZR n * h_res h) * h_wl h / h_na h) with (IZR (i + j) * q) by (unfold q; field; repeat split; lra || nra). nra. }
    specialize (H (n / 2 + i)%Z (n / 2 + j)%Z ltac:(lia) ltac:(lia) R1). unfold combo in H. rewrite mix3 in H by auto. rewrite P1, P2, !D in H. rewrite <- H. unfold q. field. repeat split; lra || nra. }
  pose proof (V 0 0 ltac:(lia) ltac:(lia) eq_refl)%Z as V0. pose proof (V 0 1 ltac:(lia) ltac:(lia) eq_refl)%Z as V1. pose proof (V 1 0 ltac:(lia) ltac:(lia) eq_refl)%Z as V2.
  assert (a = 0) by lra. subst a. assert (b = 0) by nra. assert (c = 0) by nra. subst. reflexivity.
Qed.
Example independent_witness : independent (hpar_model (wmade numeric)) 3 /\ 0 < h_na (hpar_model (wmade numeric)).
Proof.
  unfold hpar_model. rewrite wmade_params. split; [apply independent_3|]; cbn; unfold Q2R; cbn; try lra; try lia.
Qed.

(** ** C53 resizing *)
(** What the size option does to the PSF [psf] obtained without it: [q] is its resized version. *)
Definition resized (psf q : array R) (nz n s : Z) : Prop :=
  shape q = [nz; s; s] /\
  (forall z y x, (0 <= z < nz)%Z -> (0 <= y < s)%Z -> (0 <= x < s)%Z -> (s <= n)%Z ->
     get q [z; y; x] = get psf [z; y - s / 2 + n / 2; x - s / 2 + n / 2]%Z) /\
  (forall z y x, (0 <= z < nz)%Z -> (0 <= y < s)%Z -> (0 <= x < s)%Z -> (n <= s)%Z ->
     let d := ((s + 1) / 2 - (n + 1) / 2)%Z in
     ((d <= y < d + n)%Z -> (d <= x < d + n)%Z -> get q [z; y; x] = get psf [z; y - d; x - d]%Z) /\
     (~ ((d <= y < d + n)%Z /\ (d <= x < d + n)%Z) -> get q [z; y; x] = 0)).
Lemma eq3 (a b c a' b' c' : Z) : a = a' -> b = b' -> c = c' -> [a; b; c] = [a'; b'; c'].
Proof. congruence. Qed.
Lemma resize_spec psf nz n s : shape psf = [nz; n; n] -> (0 <= nz)%Z -> (1 <= n)%Z -> (0 <= s)%Z ->
  exists q, resize psf (Some s) = Ok q /\ resized psf q nz n s.
Proof.
  intros Sp Hnz Hn Hs. unfold resize. rewrite Sp, Z.eqb_refl. cbn [negb].
  destruct (Z.ltb_spec n s) as [Hlt|Hge].
  - destruct (fft_pad_main psf [Some nz; Some s; Some s] (PadConstant 0)) as (b & Eb & Sb & G1 & G2).
    { rewrite Sp. discriminate. } { now rewrite Sp. } { rewrite Sp. repeat constructor; lia. } { repeat constructor; cbn; lia. } { left; eauto. }
    rewrite Sp in Sb. cbn in Sb. exists b. split; [exact Eb|]. split; [exact Sb|]. split; [intros; lia|]. intros z y x Hz Hy Hx _. cbv zeta.
    rewrite Sp, Sb in *. set (d := ((s + 1) / 2 - (n + 1) / 2)%Z).
    assert (M : moved_from [nz; n; n] [nz; s; s] [z; y; x] = [z; y - d; x - d]%Z) by (unfold moved_from, d; cbn [map combine fst snd]; apply eq3; lia).
    assert (I : inb [nz; s; s] [z; y; x]) by (now apply inb3). split.
    + intros Hy' Hx'. rewrite (G1 [z; y; x]); rewrite ?M; auto. apply inb3; lia.
    + intros Hout. apply (G2 0); auto. rewrite M. intros J. destruct (inb3_inv _ _ _ _ J) as (z' & y' & x' & [= <- <- <-] & _ & A & B). apply Hout. lia.
  - destruct (Z.ltb_spec s n) as [Hlt|Hge'].
    + set (lb := (s / 2)%Z). assert (B : (0 <= lb /\ lb <= s /\ lb <= n / 2 /\ n / 2 + (s - lb) <= n)%Z).
      { unfold lb. pose proof (Z.div_mod n 2 ltac:(lia)). pose proof (Z.mod_pos_bound n 2 ltac:(lia)). pose proof (Z.div_mod s 2 ltac:(lia)). pose proof (Z.mod_pos_bound s 2 ltac:(lia)). lia. }
      unfold getitem. rewrite Sp. cbn [List.length Nat.ltb Nat.leb]. eexists. split; [reflexivity|].
      assert (NS : norm_start n (Slice (Some (n / 2 - lb)%Z) (Some (n / 2 + (s - lb))%Z)) = (n / 2 - lb)%Z) by (unfold norm_start, norm_bound; cbn [sl_start]; destruct (Z.ltb_spec (n / 2 - lb) 0); lia).
      assert (SL : slice_len n (Slice (Some (n / 2 - lb)%Z) (Some (n / 2 + (s - lb))%Z)) = s) by (unfold slice_len; rewrite NS; unfold norm_stop, norm_bound; cbn [sl_stop]; destruct (Z.ltb_spec (n / 2 + (s - lb)) 0); lia).
      assert (NF : norm_start nz full_slice = 0%Z) by reflexivity.
      assert (SF : slice_len nz full_slice = nz) by (unfold slice_len; rewrite NF; cbn; lia).
      split; [|split].
      * cbn [shape slice_shape]. rewrite SL, SF. reflexivity.
      * intros z y x Hz Hy Hx _. cbn [get slice_index]. rewrite NS, NF. fold lb. f_equal. apply eq3; lia.
      * intros; lia.
    + assert (s = n) by lia. subst s. exists psf. split; [reflexivity|]. split; [exact Sp|]. split.
      * intros z y x _ _ _ _. f_equal. apply eq3; lia.
      * intros z y x Hz Hy Hx _. cbv zeta. split; [intros _ _; f_equal; apply eq3; lia|]. intros H. exfalso. apply H. lia.
Qed.
Lemma generate_resize p zs zr m : (forall e s, generate p None zs zr m = Err e -> generate p s zs zr m = Err e) /\
  forall psf nz n s, generate p None zs zr m = Ok psf -> shape psf = [nz; n; n] -> (0 <= nz)%Z -> (1 <= n)%Z -> (0 <= s)%Z ->
    exists q, generate p (Some s) zs zr m = Ok q /\ resized psf q nz n s.
Proof.
  unfold generate. set (run := bindM numeric _ _ m). generalize (fst run). clear run. intros t. split.
  - intros e s H. destruct t as [a|e']; cbn [bind] in *; [|exact H]. unfold resize in *. destruct (shape (reals a)) as [|nz [|ny [|nx [|? ?]]]]; try exact H. destruct (negb _); [exact H|discriminate].
  - intros psf nz n s H Sp H1 H2 H3. destruct t as [a|e']; cbn [bind] in *; [|discriminate].
    assert (E : reals a = psf). { unfold resize in H. destruct (shape (reals a)) as [|x1 [|x2 [|x3 [|? ?]]]]; try discriminate. destruct (negb _); [discriminate|]. congruence. }
    rewrite E. now apply resize_spec.
Qed.
(** The size option of generate_psf and of generate_zd_psf only crops or pads in y and x. *)
Theorem C53_size : forall r d sphase zs zr,
  (forall e s, generate_psf r None zs zr = Err e -> generate_psf r s zs zr = Err e) /\
  (forall e s, generate_zd_psf r d sphase None zs zr = Err e -> generate_zd_psf r d sphase s zs zr = Err e) /\
  forall psf nz n s, shape psf = [nz; n; n] -> (0 <= nz)%Z -> (1 <= n)%Z -> (0 <= s)%Z ->
    (generate_psf r None zs zr = Ok psf -> exists q, generate_psf r (Some s) zs zr = Ok q /\ resized psf q nz n s) /\
    (generate_zd_psf r d sphase None zs zr = Ok psf -> exists q, generate_zd_psf r d sphase (Some s) zs zr = Ok q /\ resized psf q nz n s).
Proof.
  intros r d sphase zs zr. unfold generate_psf, generate_zd_psf. split; [|split].
  - intros e s. destruct (complex_pupil _ _); cbn [bind]; [|auto]. apply generate_resize.
  - intros e s. destruct (zd_complex_pupil _ _ _); cbn [bind]; [|auto]. apply generate_resize.
  - intros psf nz n s Sp H1 H2 H3. split.
    + destruct (complex_pupil _ _); cbn [bind]; [|discriminate]. intros H. now apply (proj2 (generate_resize _ _ _ _)).
    + destruct (zd_complex_pupil _ _ _); cbn [bind]; [|discriminate]. intros H. now apply (proj2 (generate_resize _ _ _ _)).
Qed.
Print Assumptions C53_size.
(** Where the focus goes: cropping keeps the pixel at n//2 at s//2; padding does so iff s and n have the same parity, and
    otherwise shows at s//2 the pixel after it (n odd, s even) or before it (n even, s odd). *)
Theorem C53_centre : forall psf q nz n s z, resized psf q nz n s -> (0 <= z < nz)%Z -> (1 <= n)%Z -> (1 <= s)%Z ->
  ((s <= n)%Z -> get q [z; s / 2; s / 2]%Z = get psf [z; n / 2; n / 2]%Z) /\
  ((n <= s)%Z -> get q [z; s / 2; s / 2]%Z =
     let c := (n / 2 + n mod 2 - s mod 2)%Z in if (c <? n)%Z then get psf [z; c; c] else 0) /\
  ((n <= s)%Z -> ((n / 2 + n mod 2 - s mod 2 = n / 2)%Z <-> Z.even n = Z.even s)).
Proof.
  intros psf q nz n s z (Sq & Hc & Hp) Hz Hn Hs. pose proof (Z.div_mod n 2 ltac:(lia)) as E1. pose proof (Z.mod_pos_bound n 2 ltac:(lia)) as B1. pose proof (Z.div_mod s 2 ltac:(lia)) as E2. pose proof (Z.mod_pos_bound s 2 ltac:(lia)) as B2.
  assert (D1 : ((n + 1) / 2 = n / 2 + n mod 2)%Z). { symmetry. apply Z.div_unique with (r := (1 - n mod 2)%Z); lia. }
  assert (D2 : ((s + 1) / 2 = s / 2 + s mod 2)%Z). { symmetry. apply Z.div_unique with (r := (1 - s mod 2)%Z); lia. }
  split; [|split].
  - intros Hle. rewrite Hc by lia. f_equal. apply eq3; lia.
  - intros Hle. cbv zeta. destruct (Hp z (s / 2)%Z (s / 2)%Z Hz ltac:(lia) ltac:(lia) Hle) as [P1 P2]. rewrite D1, D2 in P1, P2.
    destruct (Z.ltb_spec (n / 2 + n mod 2 - s mod 2) n).
    + rewrite P1 by lia. f_equal. apply eq3; lia.
    + apply P2. lia.
  - intros _. rewrite !Zmod_even. destruct (Z.even n), (Z.even s); split; intros; try lia; try discriminate; reflexivity.
Qed.
Print Assumptions C53_centre.

Lemma zsize_assigned m zres_v (o : obj numeric) : (0 <= m)%Z -> o_attr o A_zres = Some zres_v -> (exists k, o_attr o A_zsize = Some (VInt k)) ->
  exists o', hanser_zsize_set numeric (VInt m) o = (Ok tt, o') /\ (forall a, a <> A_zsize -> o_attr o' a = o_attr o a) /\
    o_zrange o' = Some (map (fun i => fl_mul (FFin (inject_Z (i - (m + 1) / 2))) (num_or_nan zres_v)) (zseq m)).
Proof.
  intros Hm Hz [k Hk]. unfold hanser_zsize_set, bindM. unfold numeric_set, numeric_fset, numeric_decide. cbn [isinstance negb]. unfold py_lt. cbn [M_Val.num bind].
  replace (fl_lt _ _) with false. 2:{ symmetry. unfold fl_lt. cbn [fl_le fl_eq]. apply Bool.andb_false_iff. destruct (Z.eq_dec m 0) as [->|N]; [right; reflexivity|left]. apply Bool.not_true_iff_false. rewrite Qle_bool_iff. unfold inject_Z, Qle. cbn. lia. }
  set (same := py_eq _ _). destruct (negb same) eqn:E.
  - unfold ignore_attribute_error. set (o1 := snd (attribute_changed numeric _)).
    destruct (gen_zrange_cases numeric o1) as [(n' & d' & A1 & A2 & ->)|[[H|H] _]]; cbn in *; try congruence.
    eexists. split; [reflexivity|]. injection A1 as <-. split; [|cbn; replace d' with zres_v by congruence; reflexivity].
    intros a Ha. cbn. destruct a; cbn; congruence.
  - unfold ignore_attribute_error. apply Bool.negb_false_iff in E. unfold same in E.
    rewrite Hk in E. cbn in E. apply Qeq_bool_iff in E. assert (k = m) by (revert E; unfold inject_Z, Qeq; cbn; lia). subst k.
    destruct (gen_zrange_cases numeric o) as [(n' & d' & A1 & A2 & ->)|[[H|H] _]]; try congruence.
    eexists. split; [reflexivity|]. split; [reflexivity|]. cbn [o_zrange]. assert (d' = zres_v) by congruence. subst d'. assert (n' = VInt m) by congruence. subst n'. reflexivity.
Qed.

Lemma bindM_assoc {E : engine} {T} (a b : M E unit) (f : unit -> M E T) o : bindM E a (fun _ => bindM E b f) o = bindM E (bindM E a (fun _ => b)) f o.
Proof. unfold bindM. destruct (a o) as [[?|?] ?]; reflexivity. Qed.
Lemma fl_R_scaled k v q : M_Val.num v = Some (FFin q) -> fl_R (fl_mul (FFin (inject_Z k)) (num_or_nan v)) = IZR k * fl_R (num_or_nan v).
Proof. intros H. unfold num_or_nan. rewrite H. cbn [fl_mul fl_R]. rewrite Q2R_mult. f_equal. unfold Q2R, inject_Z. cbn. field. Qed.

(** the planes: everything else is as without the options *)
Section Planes.
Context (data : array R) (params : pdict) (nz n : Z) (model : obj numeric).
Let h := hpar_model model.
Let zres := val_R (o_attr model A_zres).
Lemma planes_gen (P : array C) zs zr (o : obj numeric) : usable data params nz n model -> obj_params o = obj_params model -> shape P = [n; n] ->
  (forall m, zs = Some m -> (0 <= m)%Z /\ finite_val (o_attr model A_zres)) ->
  let h' := with_planes h (planes_of h zres zs zr) in
  exists psf, generate P None (option_map VInt zs) zr o = Ok psf /\ shape psf = [Z.of_nat (List.length (h_zrange h')); n; n] /\
    forall z y x, (0 <= z < Z.of_nat (List.length (h_zrange h')))%Z -> (0 <= y < n)%Z -> (0 <= x < n)%Z ->
      get psf [z; y; x] = Cmod (field h' (fun v w => get P [v; w]) z y x) ^ 2.
Proof.
  intros Hus Ho SP Hzs h'. destruct (hyps _ _ _ _ _ Hus) as (Hr & Hph & Hv & Hc & Hn & Hn2 & Hnz & Hd).
  assert (Ha : forall a, o_attr o a = o_attr model a).
  { intros a. assert (G : forall f : M_PSF.params -> option pyval, f (obj_params o) = f (obj_params model)) by (intros f; now rewrite Ho). destruct a; [exact (G p_wl)|exact (G p_na)|exact (G p_ni)|exact (G p_res)|exact (G p_size)|exact (G p_zres)|exact (G p_zsize)|exact (G p_vec_corr)|exact (G p_condition)|exact (G p_dual)]. }
  assert (Hz0 : o_zrange o = o_zrange model) by exact (f_equal p_zrange Ho).
  assert (Hk : exists k, o_attr model A_zsize = Some (VInt k)).
  { destruct Hus as (_ & _ & _ & (k & Ek & Em) & _). exists nz. destruct (C74_constructor_arguments numeric Hanser k model Em) as (_ & _ & _ & _ & _ & _ & E & _). rewrite E.
    destruct (forced_ctor _ _ _ _ Ek) as (_ & _ & _ & ->). reflexivity. }
  (* the object after the two assignments *)
  set (assigns := bindM numeric (match option_map VInt zs with Some v => assign numeric Hanser (SetNum A_zsize v) | None => ret numeric tt end) (fun _ =>
           match zr with Some z => assign numeric Hanser (SetZrange z) | None => ret numeric tt end)).
  assert (K : exists o' l, assigns o = (Ok tt, o') /\ (forall a, a <> A_zsize -> o_attr o' a = o_attr model a) /\ o_zrange o' = Some l /\ map fl_R l = planes_of h zres zs zr).
  { assert (K1 : exists o1 l1, match option_map VInt zs with Some v => assign numeric Hanser (SetNum A_zsize v) | None => ret numeric tt end o = (Ok tt, o1) /\
        (forall a, a <> A_zsize -> o_attr o1 a = o_attr model a) /\ o_zrange o1 = Some l1 /\ map fl_R l1 = planes_of h zres zs None).
    { destruct zs as [m|]; cbn [option_map].
      - destruct (Hzs m eq_refl) as [Hm Hf]. destruct (o_attr model A_zres) as [v|] eqn:Ev; [|destruct Hf]. destruct Hf as [q Hq].
        destruct (zsize_assigned m v o Hm ltac:(rewrite Ha; exact Ev) ltac:(rewrite Ha; exact Hk)) as (o1 & E1 & A1 & Z1). cbn [assign].
        do 2 eexists. split; [exact E1|]. split; [intros a Hna; rewrite A1 by auto; apply Ha|]. split; [exact Z1|]. cbn [planes_of]. rewrite map_map. apply map_ext. intros i. unfold zres. cbn [val_R]. now apply (fl_R_scaled _ _ q).
      - destruct Hus as (_ & _ & _ & _ & (_ & _ & _ & _ & l & El & _) & _). exists o, l. split; [reflexivity|]. split; [intros; apply Ha|]. split; [congruence|]. cbn [planes_of]. unfold h, hpar_model, hpar_of. cbn [h_zrange obj_params p_zrange]. now rewrite El. }
    destruct K1 as (o1 & l1 & E1 & A1 & Z1 & M1). unfold assigns, bindM. rewrite E1. destruct zr as [z|].
    - cbn [assign]. unfold zrange_set, bindM. do 2 eexists. split; [reflexivity|]. split; [exact A1|]. split; [reflexivity|]. destruct z; reflexivity.
    - exists o1, l1. auto. }
  destruct K as (o' & l & E' & A' & Z' & M').
  set (P1 := obj_params o'). assert (Eh : hpar_of P1 = h').
  { unfold h', with_planes, h, hpar_model, hpar_of, P1, obj_params. cbn [p_wl p_na p_ni p_res p_size p_zrange p_vec_corr p_condition h_wl h_na h_ni h_res h_size h_vec h_cond]. rewrite Z', M', !A' by discriminate. reflexivity. }
  assert (Hr1 : h_ready P1 = true). { revert Hr. unfold h_ready, P1, obj_params. cbn [p_wl p_na p_ni p_res p_size p_zrange p_vec_corr p_condition]. rewrite Z', !A' by discriminate. rewrite !Bool.andb_true_iff. tauto. }
  assert (Hs1 : h_size (hpar_of P1) = n) by (rewrite Eh; exact Hn).
  assert (Hph1 : physical (hpar_of P1)) by (rewrite Eh; exact Hph).
  assert (Hv1 : h_vec (hpar_of P1) = VecNone) by (rewrite Eh; exact Hv). assert (Hc1 : h_cond (hpar_of P1) = CondNone) by (rewrite Eh; exact Hc).
  assert (Hn1 : (2 <= h_size (hpar_of P1))%Z) by (rewrite Eh; exact Hn2).
  assert (Sp : shape (ifftshift axes2 P) = [h_size (hpar_of P1); h_size (hpar_of P1)]) by (rewrite Hs1; exact SP).
  destruct (L_Phase3.iter P1 Hr1 Hph1 (ifftshift axes2 P) o' eq_refl Sp) as (o1 & o2 & v & w & B1 & B2 & B3 & _).
  assert (Gen : forall size, generate P size (option_map VInt zs) zr o = resize (sumsq (psfa_at P1 (ifftshift axes2 P))) size).
  { intros size. unfold generate. rewrite <- B3. 
    rewrite bindM_assoc. fold assigns. unfold bindM at 1. rewrite E'. unfold bindM at 1. rewrite B1. change (read_PSFi numeric Hanser o1) with (read numeric Hanser PSFi o1). rewrite B2. reflexivity. }
  pose proof (psfi_shape P1 Hph1 Hv1 Hc1 (ifftshift axes2 P) Sp) as Ss. rewrite Hs1, Eh in Ss.
  exists (sumsq (psfa_at P1 (ifftshift axes2 P))). split; [rewrite Gen; unfold resize; rewrite Ss, Z.eqb_refl; reflexivity|]. split; [exact Ss|].
  intros z y x Hz Hy Hx. rewrite (psfi_at P1 Hph1 Hv1 Hc1) by (first [exact Sp|rewrite Hs1; assumption]).
  rewrite (amp_field P1 Hph1 Hn1 _ (fun v w => get P [v; w])); [rewrite Eh; reflexivity|].
  intros a b Hb1 Hb2. unfold fn. rewrite Hs1 in Hb1, Hb2. rewrite <- Hs1 in SP. rewrite (unshift2 P1 P) by exact SP. cbv beta. unfold row. rewrite Hs1.
  f_equal. f_equal; [|f_equal]; rewrite Zplus_mod_idemp_l, Z.mod_small; lia.
Qed.
End Planes.
Definition finite_range (zr : option zrange_arg) : Prop :=
  match zr with None => True | Some (ZScalar z) => exists q, z = FFin q | Some (ZList l) => Forall (fun z => exists q, z = FFin q) l end.
(** [zsize] and [zrange] choose the planes ([zrange] wins) and nothing else: every plane is the squared modulus of the field of
    the same pupil at that plane's z; for the retrieved pupil and for the pupil of any part of a Zernike decomposition. *)
Theorem C53_planes : forall u data params nz n model pt mt po, unwraps u -> usable data params nz n model ->
  forall k r zs zr, (1 <= k)%Z -> fst (retrieve_phase u data params k pt mt po) = Ok r ->
    (forall m, zs = Some m -> (0 <= m)%Z /\ finite_val (o_attr model A_zres)) -> finite_range zr ->
    let h' := with_planes (hpar_model model) (planes_of (hpar_model model) (val_R (o_attr model A_zres)) zs zr) in
    let nz' := Z.of_nat (List.length (h_zrange h')) in
    let shows P psf := shape psf = [nz'; n; n] /\
      forall z y x, (0 <= z < nz')%Z -> (0 <= y < n)%Z -> (0 <= x < n)%Z -> get psf [z; y; x] = Cmod (field h' (fun v w => get P [v; w]) z y x) ^ 2 in
    (exists P psf, complex_pupil (r_mag r) (r_phase r) = Ok P /\ generate_psf r None (option_map VInt zs) zr = Ok psf /\ shows P psf) /\
    (forall d sphase P, zd_complex_pupil d full_slice sphase = Ok P -> shape P = [n; n] ->
       exists psf, generate_zd_psf r d sphase None (option_map VInt zs) zr = Ok psf /\ shows P psf).
Proof.
  intros u data params nz n model pt mt po Hu Hus k r zs zr Hk Er Hzs _ h' nz' shows.
  destruct (hyps _ _ _ _ _ Hus) as (Hr & Hph & Hv & Hc & Hn & Hn2 & Hnz & Hd).
  destruct (retrieve u Hu data params nz n model Hus pt mt po k Hk) as (m & r' & E & _ & _ & _ & _ & Hres & _). rewrite E in Er. cbn [fst] in Er. injection Er as ->.
  pose proof Hres as (_ & _ & Ho & _). split.
  - destruct (result_pupil (obj_params model) Hph Hv Hc Hn2 data Hd po _ r Hres) as (P & EP & SP & _). rewrite Hn in SP.
    destruct (planes_gen data params nz n model P zs zr (r_model r) Hus Ho SP Hzs) as (psf & A & B & C0). exists P, psf. split; [exact EP|]. unfold generate_psf. rewrite EP. cbn [bind]. split; [exact A|]. split; [exact B|exact C0].
  - intros d sphase P EP SP. destruct (planes_gen data params nz n model P zs zr (r_model r) Hus Ho SP Hzs) as (psf & A & B & C0). exists psf. unfold generate_zd_psf. rewrite EP. cbn [bind]. split; [exact A|]. split; [exact B|exact C0].
Qed.
Print Assumptions C53_planes.
(** the hypotheses hold for the witness model with zsize=5 and zrange=[0, 1/2] *)
Example planes_witness : (0 <= 5)%Z /\ finite_val (o_attr (wmade numeric) A_zres) /\ finite_range (Some (ZList [FFin 0; FFin (1 # 2)])) /\
  planes_of (hpar_model (wmade numeric)) 100 (Some 3%Z) None = [-2 * 100; -1 * 100; 0 * 100].
Proof. rewrite wmade_attr. split; [lia|]. split; [vm_compute; eauto|]. split; [repeat constructor; eexists; reflexivity|]. reflexivity. Qed.
Example resize_witness : exists psf q, shape psf = [1; 4; 4]%Z /\ resize psf (Some 7%Z) = Ok q /\ resized psf q 1 4 7 /\ get q [0; 3; 3]%Z = get psf [0; 1; 1]%Z.
Proof.
  set (psf := mkArr [1; 4; 4]%Z (fun ix => match ix with [_; y; x] => IZR (10 * y + x) | _ => 0 end)).
  destruct (resize_spec psf 1 4 7 eq_refl) as (q & E & R1); try lia. exists psf, q. split; [reflexivity|]. split; [exact E|]. split; [exact R1|].
  destruct (C53_centre psf q 1 4 7 0 R1) as (_ & Q & _); try lia. exact (Q ltac:(lia)).
Qed.
(** tolerances that are never met exist: the hypothesis of C75 that the run goes on *)
Example never_stops : forall r i, ~ stops_at TolNever TolNever r i.
Proof. intros r i. unfold stops_at. unfold is_below. intros [H|[H|H]]; destruct (nth _ _ _); exact H. Qed.
