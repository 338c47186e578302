(** C58 and C59: pinhole and confocal images. *)
From Verif Require Import S_FFT S_Hanser S_Micro S_Confocal S_Bin L_Sum L_Bin L_PSF L_Ctor L_Phase5 L_Micro T_PSF T_Bin L_Array L_FFT L_FFT2 L_Phase2 L_Polar T_Hanser T_Object T_Micro T_Micro2 T_Micro3 L_Micro2 T_Micro4 T_Micro5.
From Flocq Require Import Core.
From Coq Require Import Permutation.
Import M_Array.
Local Open Scope R_scope.

(** ** Sums over lists that differ only where the summand vanishes *)
Lemma Rsum_support {X} (dec : forall a b : X, {a = b} + {a <> b}) (l l' : list X) (G : X -> R) : NoDup l -> NoDup l' ->
  (forall x, In x l -> ~ In x l' -> G x = 0) -> (forall x, In x l' -> ~ In x l -> G x = 0) -> Rsum l G = Rsum l' G.
Proof.
  intros N N' H H'.
  assert (F : forall (a b : list X), NoDup a -> (forall x, In x a -> ~ In x b -> G x = 0) -> Rsum a G = Rsum (filter (fun x => if in_dec dec x b then true else false) a) G).
  { intros a b _. induction a as [|x a IH]; intros Hz; [reflexivity|]. cbn [filter Rsum]. destruct (in_dec dec x b) as [I|I]; cbn [Rsum]; rewrite IH by (intros; apply Hz; cbn; auto); [reflexivity|]. rewrite (Hz x) by (cbn; auto). ring. }
  rewrite (F l l' N H), (F l' l N' H'). apply Rsum_perm. apply NoDup_Permutation; try now apply NoDup_filter.
  intros x. rewrite !filter_In. destruct (in_dec dec x l), (in_dec dec x l'); intuition discriminate.
Qed.
Lemma Rsum_window (n s c y : Z) (G : Z -> R) :
  (forall y', (0 <= y' < n)%Z -> ~ (0 <= y + c - y' < s)%Z -> G y' = 0) -> (forall y', ~ (0 <= y' < n)%Z -> G y' = 0) ->
  Rsum (zseq s) (fun j => G (y + c - j)%Z) = Rsum (zseq n) G.
Proof.
  intros H1 H2. rewrite <- (Rsum_map (fun j => y + c - j)%Z (zseq s) G). apply (Rsum_support Z.eq_dec).
  - apply FinFun.Injective_map_NoDup; [intros a b; lia|apply NoDup_zseq].
  - apply NoDup_zseq.
  - intros x _ Hn. apply H2. intros Hx. apply Hn. now apply in_zseq.
  - intros x Hx Hn. apply H1; [now apply in_zseq|]. intros Hr. apply Hn. apply in_map_iff. exists (y + c - x)%Z. split; [lia|now apply in_zseq].
Qed.

(** ** C58 *)
Lemma disk_size_odd r : (disk_size r mod 2 = 1)%Z.
Proof. unfold disk_size. destruct (Z.eqb_spec (Zceil (r * 2) mod 2) 0) as [E|E]; [|lia]. rewrite Z.add_mod by lia. rewrite E. reflexivity. Qed.
Lemma disk_size_big r : r * 2 <= IZR (disk_size r).
Proof. unfold disk_size. pose proof (Zceil_ub (r * 2)). destruct (_ =? _)%Z; [|exact H]. rewrite plus_IZR. lra. Qed.
Lemma disk_size_pos r : 0 < r -> (0 < disk_size r)%Z.
Proof. intros H. apply lt_IZR. pose proof (disk_size_big r). lra. Qed.
Lemma near_abs r j i : near r j i -> 0 < r -> Rabs (IZR j) < r.
Proof. unfold near. intros H Hr. apply Rsqr_lt_abs_0 in H || idtac. apply Rabs_def1; pose proof (pow2_ge_0 (IZR i)); nra. Qed.
Lemma near_swap r j i : near r j i -> near r i j.
Proof. unfold near. lra. Qed.
Lemma near_in r j i : 0 < r -> near r j i -> (Z.abs j <= (disk_size r - 1) / 2)%Z.
Proof.
  intros Hr H. apply near_abs in H; [|exact Hr]. rewrite <- abs_IZR in H. pose proof (disk_size_big r). pose proof (disk_size_odd r).
  assert (2 * Z.abs j < disk_size r)%Z by (apply lt_IZR; rewrite mult_IZR; lra). Z.div_mod_to_equations. lia.
Qed.
Lemma sqrt_lt_iff a r : 0 <= a -> 0 < r -> (sqrt a < r <-> a < r ^ 2).
Proof.
  intros Ha Hr. assert (E : sqrt (r ^ 2) = r) by (replace (r ^ 2) with (r * r) by ring; apply sqrt_square; lra). split; intros H.
  - apply Rnot_le_lt. intros L. apply sqrt_le_1_alt in L. lra.
  - rewrite <- E. apply sqrt_lt_1_alt. lra.
Qed.
Lemma disk_hit_near r y x : 0 < r -> let c := ((disk_size r - 1) / 2)%Z in disk_hit r y x = if near_dec r (y - c) (x - c) then 1 else 0.
Proof.
  intros Hr c. unfold disk_hit. fold c. assert (P : 0 <= IZR (y - c) ^ 2 + IZR (x - c) ^ 2) by (pose proof (pow2_ge_0 (IZR (y - c))); pose proof (pow2_ge_0 (IZR (x - c))); lra).
  pose proof (sqrt_lt_iff _ r P Hr) as I. destruct (Rlt_dec _ _) as [L|L], (near_dec r _ _) as [M|M]; try reflexivity; unfold near in M; tauto.
Qed.
(** the offsets inside the kernel's square *)
Definition grid (s c : Z) : list (Z * Z) := flat_map (fun y => map (fun x => (y - c, x - c)%Z) (zseq s)) (zseq s).
Lemma in_grid s c j i : In (j, i) (grid s c) <-> (0 <= j + c < s)%Z /\ (0 <= i + c < s)%Z.
Proof.
  unfold grid. rewrite in_flat_map. split.
  - intros (y & Hy & H). apply in_map_iff in H. destruct H as (x & [= <- <-] & Hx). apply in_zseq in Hy, Hx. lia.
  - intros [H1 H2]. exists (j + c)%Z. split; [now apply in_zseq|]. apply in_map_iff. exists (i + c)%Z. split; [f_equal; lia|now apply in_zseq].
Qed.
Lemma NoDup_grid s c : NoDup (grid s c).
Proof.
  unfold grid. apply NoDup_flat_map; [apply NoDup_zseq| |].
  - intros y _. apply FinFun.Injective_map_NoDup; [intros a b [=]; lia|apply NoDup_zseq].
  - intros y y' p _ _ H1 H2. apply in_map_iff in H1, H2. destruct H1 as (a & <- & _), H2 as (b & E & _). injection E; lia.
Qed.
Definition disk_list (r : R) : list (Z * Z) :=
  let s := disk_size r in filter (fun p => if near_dec r (fst p) (snd p) then true else false) (grid s ((s - 1) / 2)).
Lemma disk_list_ok r : 0 < r -> disk r (disk_list r).
Proof.
  intros Hr. unfold disk_list. split; [apply NoDup_filter, NoDup_grid|]. intros j i. rewrite filter_In, in_grid. cbn [fst snd].
  pose proof (disk_size_odd r). pose proof (disk_size_pos r Hr). split.
  - intros [_ H1]. destruct (near_dec r j i); [assumption|discriminate].
  - intros Hn. destruct (near_dec r j i); [|tauto]. split; [|reflexivity]. pose proof (near_in r j i Hr Hn). pose proof (near_in r i j Hr (near_swap _ _ _ Hn)). Z.div_mod_to_equations. lia.
Qed.
Lemma disk_sum_count r : 0 < r -> disk_sum r = INR (List.length (disk_list r)).
Proof.
  intros Hr. unfold disk_sum, disk_list, grid. set (s := disk_size r). set (c := ((s - 1) / 2)%Z).
  assert (E : forall l, Rsum l (fun y => Rsum (zseq s) (fun x => disk_hit r y x)) = INR (List.length (filter (fun p => if near_dec r (fst p) (snd p) then true else false) (flat_map (fun y => map (fun x => (y - c, x - c)%Z) (zseq s)) l)))).
  { induction l as [|y l IH]; [reflexivity|]. cbn [Rsum flat_map]. rewrite IH, filter_app, app_length, plus_INR. f_equal.
    generalize (zseq s). intros q. induction q as [|x q IHq]; [reflexivity|]. cbn [Rsum map filter fst snd]. rewrite IHq, disk_hit_near by exact Hr. fold s. fold c.
    destruct (near_dec r (y - c) (x - c)); cbn [List.length]; [rewrite S_INR; ring|ring]. }
  apply E.
Qed.
Lemma disk_length r l : 0 < r -> disk r l -> List.length l = List.length (disk_list r).
Proof.
  intros Hr [N H]. destruct (disk_list_ok r Hr) as [N' H']. apply Permutation_length, NoDup_Permutation; auto. intros [j i]. rewrite H, H'. reflexivity.
Qed.
Lemma disk_nonempty r l : 0 < r -> disk r l -> 0 < INR (List.length l).
Proof.
  intros Hr [_ H]. destruct l as [|a l]; [|cbn [List.length]; rewrite S_INR; pose proof (pos_INR (List.length l)); lra].
  exfalso. apply (proj2 (H 0%Z 0%Z)). unfold near. cbn. nra.
Qed.
Lemma disk_sum_pos r : 0 < r -> 0 < disk_sum r.
Proof. intros Hr. rewrite disk_sum_count by exact Hr. apply (disk_nonempty r); auto. now apply disk_list_ok. Qed.

Theorem C58_disk_kernel : forall (r : R) (l : list (Z * Z)), 0 < r -> disk r l ->
  exists c, (0 <= c)%Z /\ let s := (2 * c + 1)%Z in
    shape (fst (disk_kernel r)) = [s; s] /\ snd (disk_kernel r) = true /\
    (forall j i, near r j i -> (Z.abs j <= c)%Z /\ (Z.abs i <= c)%Z) /\
    (forall y x, (0 <= y < s)%Z -> (0 <= x < s)%Z ->
       get (fst (disk_kernel r)) [y; x] = if near_dec r (y - c) (x - c) then / INR (List.length l) else 0).
Proof.
  intros r l Hr Hl. pose proof (disk_size_odd r) as Ho. pose proof (disk_size_pos r Hr) as Hp. exists ((disk_size r - 1) / 2)%Z. set (c := ((disk_size r - 1) / 2)%Z).
  assert (E : disk_size r = (2 * c + 1)%Z) by (unfold c; Z.div_mod_to_equations; lia). split; [lia|]. cbv zeta. rewrite <- E. split; [reflexivity|]. pose proof (disk_sum_pos r Hr) as Ps. split.
  { cbn. destruct (Req_EM_T _ _); [lra|reflexivity]. }
  split. { intros j i H. split; [now apply (near_in r j i)|apply (near_in r i j); [exact Hr|now apply near_swap]]. }
  intros y x _ _. cbn [disk_kernel fst get]. rewrite disk_hit_near by exact Hr. fold c. rewrite disk_sum_count, <- (disk_length r l) by assumption. destruct (near_dec _ _ _); unfold Rdiv; ring.
Qed.
Print Assumptions C58_disk_kernel.
Theorem C58_sum : forall r s, 0 < r -> shape (fst (disk_kernel r)) = [s; s] ->
  Rsum (zseq s) (fun y => Rsum (zseq s) (fun x => get (fst (disk_kernel r)) [y; x])) = 1 /\
  (forall y x, 0 <= get (fst (disk_kernel r)) [y; x]) /\
  forall y x, let k y x := get (fst (disk_kernel r)) [y; x] in
    k (s - 1 - y)%Z x = k y x /\ k y (s - 1 - x)%Z = k y x /\ k x y = k y x.
Proof.
  intros r s Hr [= <-]. pose proof (disk_sum_pos r Hr) as Ps. split; [|split].
  - cbn [disk_kernel fst get]. erewrite Rsum_ext; [|intros y _; unfold Rdiv; apply Rsum_scal_r]. rewrite Rsum_scal_r. change (disk_sum r * / disk_sum r = 1). apply Rinv_r. lra.
  - intros y x. cbn [disk_kernel fst get]. apply Rmult_le_pos; [destruct (disk_hit_01 r y x); lra|apply Rlt_le, Rinv_0_lt_compat; exact Ps].
  - intros y x. cbn [disk_kernel fst get]. rewrite !disk_hit_near by exact Hr. pose proof (disk_size_odd r) as Ho. set (c := ((disk_size r - 1) / 2)%Z).
    assert (E : disk_size r = (2 * c + 1)%Z) by (unfold c; Z.div_mod_to_equations; lia).
    assert (W : forall a b a' b', (near r a b <-> near r a' b') -> (if near_dec r a b then 1 else 0) = (if near_dec r a' b' then 1 else 0)) by (intros; destruct (near_dec r a b), (near_dec r a' b'); tauto).
    assert (Ng : forall a b, near r (- a) b <-> near r a b) by (intros; unfold near; rewrite opp_IZR; split; intros; lra).
    assert (Ng' : forall a b, near r a (- b) <-> near r a b) by (intros; unfold near; rewrite opp_IZR; split; intros; lra).
    split; [|split]; f_equal; apply W.
    + replace (disk_size r - 1 - y - c)%Z with (- (y - c))%Z by lia. apply Ng.
    + replace (disk_size r - 1 - x - c)%Z with (- (x - c))%Z by lia. apply Ng'.
    + split; apply near_swap.
Qed.
Print Assumptions C58_sum.
(** The counting hypothesis can always be met; the kernel of the radius 2 has 9 points, in a 5 x 5 square; with radius 0 the
    kernel is 0/0. *)
Example C58_witness : (forall r, 0 < r -> exists l, disk r l) /\ (forall l, disk 2 l -> List.length l = 9%nat) /\ shape (fst (disk_kernel 2)) = [5; 5]%Z /\ snd (disk_kernel 0) = false.
Proof.
  split; [intros r Hr; exists (disk_list r); now apply disk_list_ok|].
  assert (S2 : disk_size 2 = 5%Z). { unfold disk_size. replace (2 * 2) with (IZR 4) by (cbn; lra). rewrite Zceil_IZR. reflexivity. }
  split; [|split; [cbn; now rewrite S2|]].
  - intros l [N H]. set (q := [(-1, -1); (-1, 0); (-1, 1); (0, -1); (0, 0); (0, 1); (1, -1); (1, 0); (1, 1)]%Z). change 9%nat with (List.length q). apply Permutation_length, NoDup_Permutation; auto.
    + repeat constructor; cbn; intuition congruence.
    + intros [j i]. rewrite H. unfold near. split.
      * intros L. assert (B : (-2 < j < 2)%Z /\ (-2 < i < 2)%Z) by (pose proof (pow2_ge_0 (IZR i)); pose proof (pow2_ge_0 (IZR j)); repeat split; apply lt_IZR; nra).
        assert (j = -1 \/ j = 0 \/ j = 1)%Z as [-> | [-> | ->]] by lia; assert (i = -1 \/ i = 0 \/ i = 1)%Z as [-> | [-> | ->]] by lia; cbn; tauto.
      * intros I. cbn in I. repeat (destruct I as [I|I]; [injection I as <- <-; lra|]). destruct I.
  - assert (S0 : disk_size 0 = 1%Z). { unfold disk_size. replace (0 * 2) with (IZR 0) by (cbn; lra). rewrite Zceil_IZR. reflexivity. }
    cbn. unfold disk_sum. rewrite S0. change (zseq 1) with [0%Z]. cbn [Rsum]. unfold disk_hit. rewrite S0. change ((1 - 1) / 2)%Z with 0%Z. cbn [Z.sub Z.opp Z.add].
    destruct (Rlt_dec (sqrt _) 0) as [L|L]; [exfalso; pose proof (sqrt_pos (IZR 0 ^ 2 + IZR 0 ^ 2)); lra|]. destruct (Req_EM_T _ _) as [|N]; [reflexivity|]. exfalso. apply N. lra.
Qed.

(** ** C59 *)
Lemma through_eq (r : R) (l : list (Z * Z)) (d : array R) nz n z y x : 0 < r -> disk r l -> shape d = [nz; n; n] -> (0 <= y < n)%Z -> (0 <= x < n)%Z ->
  exists cv, fftconvolve_same d (fst (disk_kernel r)) = Ok cv /\ shape cv = [nz; n; n] /\ get cv [z; y; x] = through_pinhole r (List.length l) d n z y x.
Proof.
  intros Hr Hl Hs Hy Hx. unfold fftconvolve_same. rewrite Hs. cbn [disk_kernel fst shape]. eexists. split; [reflexivity|]. split; [reflexivity|]. cbn [get]. unfold through_pinhole.
  set (s := disk_size r). set (c := ((s - 1) / 2)%Z). pose proof (disk_size_odd r) as Ho. pose proof (disk_size_pos r Hr) as Hp. assert (Es : s = (2 * c + 1)%Z) by (unfold c, s; Z.div_mod_to_equations; lia).
  set (N := INR (List.length l)). assert (EN : disk_sum r = N) by (unfold N; rewrite (disk_length r l Hr Hl); now apply disk_sum_count).
  set (K := fun y' x' => if ((0 <=? y') && (y' <? n) && (0 <=? x') && (x' <? n))%Z then (if near_dec r (y - y') (x - x') then / N * get d [z; y'; x'] else 0) else 0).
  transitivity (Rsum (zseq s) (fun j => Rsum (zseq s) (fun i => K (y + c - j)%Z (x + c - i)%Z))).
  { apply Rsum_ext. intros j _. apply Rsum_ext. intros i _. cbv zeta. fold s c. unfold K. destruct (_ && _); [|reflexivity]. rewrite disk_hit_near by exact Hr. fold s c. rewrite EN.
    assert (W : near r (j - c) (i - c) <-> near r (y - (y + c - j)) (x - (x + c - i))) by (replace (y - (y + c - j))%Z with (j - c)%Z by lia; replace (x - (x + c - i))%Z with (i - c)%Z by lia; tauto).
    destruct (near_dec r (j - c) (i - c)), (near_dec r (y - _) (x - _)); try tauto; unfold Rdiv; ring. }
  assert (Far : forall a b, near r a b -> (Z.abs a <= c)%Z /\ (Z.abs b <= c)%Z).
  { intros a b H. split; [now apply (near_in r a b)|apply (near_in r b a); [exact Hr|now apply near_swap]]. }
  assert (K0 : forall y' x', ~ near r (y - y') (x - x') -> K y' x' = 0) by (intros y' x' H; unfold K; destruct (_ && _); [|reflexivity]; destruct (near_dec r _ _); tauto).
  assert (K1 : forall y' x', ~ ((0 <= y' < n)%Z /\ (0 <= x' < n)%Z) -> K y' x' = 0).
  { intros y' x' H. unfold K. destruct (_ && _) eqn:E; [|reflexivity]. exfalso. apply H. repeat (apply andb_true_iff in E; destruct E as [E ?]). rewrite ?Z.leb_le, ?Z.ltb_lt in *. lia. }
  rewrite (Rsum_window n s c y (fun y' => Rsum (zseq s) (fun i => K y' (x + c - i)%Z))).
  - rewrite <- Rsum_scal_l. apply Rsum_ext. intros y' Hy'. apply in_zseq in Hy'. rewrite (Rsum_window n s c x (fun x' => K y' x')).
    + rewrite <- Rsum_scal_l. apply Rsum_ext. intros x' Hx'. apply in_zseq in Hx'. unfold K. replace ((0 <=? y') && (y' <? n) && (0 <=? x') && (x' <? n))%Z with true.
      * destruct (near_dec r _ _); ring.
      * symmetry. rewrite !andb_true_iff, !Z.leb_le, !Z.ltb_lt. lia.
    + intros x' _ H. apply K0. intros Nr. apply Far in Nr. lia.
    + intros x' H. apply K1. tauto.
  - intros y' _ H. apply Rsum_zero. intros i _. apply K0. intros Nr. apply Far in Nr. lia.
  - intros y' H. apply Rsum_zero. intros i _. apply K1. tauto.
Qed.
Lemma model_R_val a o x m : mi_model m = o -> finite_number (o_attr o a) x -> model_R a m = (Ok x, m).
Proof.
  intros <- (w & q & E1 & E2 & ->). unfold model_R, on_model, bindM, getattr, lift. rewrite E1. unfold as_R. rewrite E2. cbn. f_equal. destruct m; reflexivity.
Qed.
Lemma shown_reals c o d : shows_image c o d -> exists B, fst (read numeric c PSFi o) = Ok B /\ finite_all B = true /\ shape B = shape d /\ forall ix, inb (shape d) ix -> get (reals B) ix = get d ix.
Proof. intros (B & E & F & S & G). exists B. split; [exact E|]. split; [exact F|]. split; [now symmetry|]. intros ix H. unfold reals. cbn [amap get]. rewrite G by (rewrite <- S; exact H). reflexivity. Qed.
Theorem C59_confocal : forall m wl na rs p d x nz n,
  mi_kind m = Confocal ->
  finite_number (o_attr (mi_model m) A_wl) wl -> finite_number (o_attr (mi_model m) A_na) na -> finite_number (o_attr (mi_model m) A_res) rs ->
  finite_number (mi_num m MPinhole) p -> na <> 0 -> rs <> 0 ->
  shows_image (mi_cls m) (mi_model m) d -> shows_image (mi_cls m) (mi_exc m) x -> shape d = [nz; n; n] -> shape x = [nz; n; n] ->
  let r := pinhole_radius p wl na rs in
  exists q, fst (model_psf m) = Ok (q, true) /\ shape q = [nz; n; n] /\
    forall k j i, inb [nz; n; n] [k; j; i] ->
      (r <= 3 / 2 -> get q [k; j; i] = get d [k; j; i] * get x [k; j; i]) /\
      (3 / 2 < r -> forall l, disk r l -> get q [k; j; i] = through_pinhole r (List.length l) d n k j i * get x [k; j; i]).
Proof.
  intros m wl na rs p d x nz n Hk Hwl Hna Hrs Hp N1 N2 Hd Hx Sd Sx r.
  destruct (shown_reals _ _ _ Hd) as (B & EB & FB & SB & GB). destruct (shown_reals _ _ _ Hx) as (X & EX & FX & SX & GX).
  assert (ER : p * (122 / 100 * wl / na / rs) / 2 = r) by (unfold r, pinhole_radius; field; auto).
  assert (E0 : exists m', fst (model_psf m) = fst ((let! det := (if Rlt_dec (3 / 2) r then let kernel := disk_kernel r in mlift (do c <- fftconvolve_same (reals B) (fst kernel); Ok (c, true && snd kernel)) else mret (reals B, true)) in
      let! exc := exc_PSFi in mlift (do p <- bop Rmult (fst det) (fst exc); Ok (p, snd det && snd exc))) m') /\ mi_exc m' = mi_exc m /\ mi_cls m' = mi_cls m).
  { unfold model_psf. rewrite Hk. unfold confocal_psf. unfold mbind at 1. rewrite (model_R_val A_wl _ wl m eq_refl Hwl). unfold mbind at 1. rewrite (model_R_val A_na _ na m eq_refl Hna).
    unfold mbind at 1, mlift at 1, rdiv at 1. destruct (Req_EM_T na 0); [contradiction|]. unfold mbind at 1. rewrite (model_R_val A_res _ rs m eq_refl Hrs).
    unfold mbind at 1, mlift at 1, rdiv at 1. destruct (Req_EM_T rs 0); [contradiction|]. destruct Hp as (w & qp & E1 & E2 & Ep). unfold mbind at 1, m_get at 1. rewrite E1. unfold mbind at 1, mlift at 1, as_R at 1. rewrite E2. cbn [fl_R]. rewrite <- Ep. rewrite ER. cbv zeta.
    unfold mbind at 1, model_PSFi at 1. destruct (read numeric (mi_cls m) PSFi (mi_model m)) as [rr o1]. cbn [fst] in EB. subst rr. cbn [bind]. unfold farr_of. rewrite FB. exists (upd_model o1 m). split; [reflexivity|]. split; reflexivity. }
  destruct E0 as (m' & -> & E1 & E2).
  assert (EXC : forall q : farr, fst ((let! exc := exc_PSFi in mlift (do p <- bop Rmult (fst q) (fst exc); Ok (p, snd q && snd exc))) m') = (do p <- bop Rmult (fst q) (reals X); Ok (p, snd q && true))).
  { intros q. unfold mbind, exc_PSFi, mlift. rewrite E1, E2. destruct (read numeric (mi_cls m) PSFi (mi_exc m)) as [rr o1]. cbn [fst] in EX. subst rr. cbn [bind]. unfold farr_of. rewrite FX. reflexivity. }
  assert (SR : shape (reals X) = [nz; n; n]) by (unfold reals; cbn [amap shape]; rewrite SX; exact Sx).
  destruct (Rlt_dec (3 / 2) r) as [L|L].
  - assert (Sb : shape (reals B) = [nz; n; n]) by (unfold reals; cbn [amap shape]; rewrite SB; exact Sd). assert (Hr : 0 < r) by lra.
    destruct (fftconvolve_same (reals B) (fst (disk_kernel r))) as [cv|e] eqn:Ec.
    2:{ unfold fftconvolve_same in Ec. rewrite Sb in Ec. cbn [disk_kernel fst shape] in Ec. discriminate. }
    assert (Scv : shape cv = [nz; n; n]) by (unfold fftconvolve_same in Ec; rewrite Sb in Ec; cbn [disk_kernel fst shape] in Ec; injection Ec as <-; reflexivity).
    assert (Sk : snd (disk_kernel r) = true) by (cbn; pose proof (disk_sum_pos r Hr); destruct (Req_EM_T _ _); [lra|reflexivity]).
    cbv zeta. unfold mbind at 1, mlift at 1. rewrite ?Ec. cbn [bind]. rewrite Sk. rewrite EXC. cbn [fst snd]. destruct (bop_eq Rmult cv (reals X)) as (q & Eq & Sq & Gq); [congruence|]. rewrite Eq. cbn [bind]. exists q. split; [reflexivity|]. split; [congruence|].
    intros k j i H. split; [lra|]. intros _ l Hl. rewrite Gq by (rewrite Scv; exact H). rewrite GX by (rewrite Sx; exact H). f_equal. destruct (inb3_inv _ _ _ _ H) as (k' & j' & i' & [= <- <- <-] & Hk' & Hj & Hi).
    destruct (through_eq r l (reals B) nz n k j i Hr Hl Sb Hj Hi) as (cv' & Ec' & _ & G'). assert (cv' = cv) by congruence. subst cv'. rewrite G'. unfold through_pinhole. f_equal. apply Rsum_ext. intros y Hy. apply Rsum_ext. intros u Hu. apply in_zseq in Hy, Hu. destruct (near_dec _ _ _); [|reflexivity]. apply GB. rewrite Sd. now apply inb3.
  - unfold mbind at 1, mret at 1. rewrite EXC. cbn [fst snd]. assert (Sb : shape (reals B) = [nz; n; n]) by (unfold reals; cbn [amap shape]; rewrite SB; exact Sd).
    destruct (bop_eq Rmult (reals B) (reals X)) as (q & Eq & Sq & Gq); [congruence|]. rewrite Eq. cbn [bind]. exists q. split; [reflexivity|]. split; [congruence|].
    intros k j i H. split; [|lra]. intros _. rewrite Gq by (rewrite Sb; exact H). rewrite GX by (rewrite Sx; exact H). rewrite GB by (rewrite Sd; exact H). reflexivity.
Qed.
Print Assumptions C59_confocal.
(** A closed pinhole: exactly the product of the two images. *)
Corollary C59_closed_pinhole : forall m wl na rs d x nz n,
  mi_kind m = Confocal ->
  finite_number (o_attr (mi_model m) A_wl) wl -> finite_number (o_attr (mi_model m) A_na) na -> finite_number (o_attr (mi_model m) A_res) rs ->
  finite_number (mi_num m MPinhole) 0 -> na <> 0 -> rs <> 0 ->
  shows_image (mi_cls m) (mi_model m) d -> shows_image (mi_cls m) (mi_exc m) x -> shape d = [nz; n; n] -> shape x = [nz; n; n] ->
  exists q, fst (model_psf m) = Ok (q, true) /\ arr_eq q (mkArr [nz; n; n] (fun ix => get d ix * get x ix)).
Proof.
  intros m wl na rs d x nz n H1 H2 H3 H4 H5 H6 H7 H8 H9 H10 H11. destruct (C59_confocal m wl na rs 0 d x nz n H1 H2 H3 H4 H5 H6 H7 H8 H9 H10 H11) as (q & E & S & G). exists q. split; [exact E|]. split; [exact S|].
  rewrite S. intros ix Hix. pose proof (inb_length _ _ Hix) as Hl. destruct ix as [|k [|j [|i [|? ?]]]]; try discriminate Hl. apply (G k j i Hix). unfold pinhole_radius. lra.
Qed.
Print Assumptions C59_closed_pinhole.
