(** C55, C56: binning, normalisation and OTF of the microscopes. *)
From Verif Require Import S_Micro S_Bin L_Sum L_Bin L_PSF L_Ctor L_Phase5 L_Micro T_PSF T_Bin L_Array L_FFT L_FFT2 L_Phase2 T_Object T_Micro.
Import M_Array.
Local Open Scope R_scope.

(** ** C55 *)
Lemma int_value_Z v n : int_value v = Some n -> as_Z v = Ok n.
Proof. destruct v as [z|[|]| | | | |]; cbn; intros [= <-]; reflexivity. Qed.
Lemma stored_par m n : stored_size m n -> par_Z (mi_params m) "size" = Ok n.
Proof. intros (v & E1 & E2). unfold par_Z, par_val. rewrite E1. cbn. now apply int_value_Z. Qed.
Definition stable {A} (c : MM A) : Prop := forall m, mi_params (snd (c m)) = mi_params m /\ mi_num (snd (c m)) = mi_num m.
Lemma stable_bind {A B} (c : MM A) (f : A -> MM B) : stable c -> (forall x, stable (f x)) -> stable (mbind c f).
Proof. intros H1 H2 q. unfold mbind. specialize (H1 q). destruct (c q) as [[x|e] q']; cbn in *; [|exact H1]. specialize (H2 x q'). intuition congruence. Qed.
Lemma stable_ret {A} (x : A) : stable (mret x). Proof. intros q; auto. Qed.
Lemma stable_lift {A} (x : res A) : stable (mlift x). Proof. intros q; auto. Qed.
Lemma stable_asks {A} (f : micro -> A) : stable (masks f). Proof. intros q; auto. Qed.
Lemma stable_get a : stable (m_get a). Proof. intros q; unfold m_get; destruct (mi_num q a); auto. Qed.
Lemma stable_on {A} (c : M numeric A) : stable (on_model c). Proof. intros q; unfold on_model; destruct (c (mi_model q)); auto. Qed.
Lemma stable_psfi : stable model_PSFi. Proof. intro q; unfold model_PSFi; destruct (read _ _ _ _); auto. Qed.
Lemma stable_exci : stable exc_PSFi. Proof. intro q; unfold exc_PSFi; destruct (read _ _ _ _); auto. Qed.
Lemma stable_otfi : stable model_OTFi. Proof. intro q; unfold model_OTFi; destruct (read _ _ _ _); auto. Qed.
Ltac stable_tac := repeat first [apply stable_ret | apply stable_lift | apply stable_get | apply stable_on | apply stable_psfi | apply stable_exci | apply stable_otfi
  | apply stable_asks | (apply stable_bind; [|intros ?]) | match goal with |- stable (if ?b then _ else _) => destruct b | |- stable (match ?b with _ => _ end) => destruct b end].
Lemma stable_model_psf : stable model_psf.
Proof.
  assert (H1 : stable confocal_psf) by (unfold confocal_psf, model_R; stable_tac).
  assert (H2 : stable apotome_psf) by (unfold apotome_psf; stable_tac).
  assert (H3 : stable sim_psf) by (unfold sim_psf, sim_base; cbv zeta; stable_tac).
  intros q. unfold model_psf. destruct (mi_kind q); [apply stable_psfi|apply H1|apply H2|apply H3].
Qed.
Lemma fresh_eq m p b f n : fst (model_psf m) = Ok (p, b) -> factor_is m f -> stored_size m n ->
  fresh m = (do q <- bin_psf f n p; Ok (normalise (q, b))).
Proof.
  intros Hp (v & Ev & Hf) Hn. rewrite fresh_compute. unfold compute_psf, mbind, mlift, masks, mret. pose proof (stable_model_psf m) as [S1 S2].
  destruct (model_psf m) as [[q|e] m']; cbn [fst snd] in *; [|discriminate]. injection Hp as ->. unfold m_get. rewrite S2, Ev. cbn [fst snd].
  rewrite S1, (stored_par m n Hn). cbn [bind fst snd]. destruct (int_value_as v f Hf) as (-> & _ & _). destruct (bin_psf f n p) as [r|e]; reflexivity.
Qed.
(** the image that is cut into blocks *)
Definition shifted (f n : Z) (p : array R) : array R := if (n mod 2 =? 0)%Z then roll (f / 2) 2 (roll (f / 2) 1 p) else p.
Lemma shifted_get f n p nz N z y x : shape p = [nz; N; N] ->
  get (shifted f n p) [z; y; x] = if Z.even n then get p [z; (y - f / 2) mod N; (x - f / 2) mod N]%Z else get p [z; y; x].
Proof.
  intros Hs. unfold shifted. rewrite Zmod_even. destruct (Z.even n); cbn [Z.eqb]; [|reflexivity]. unfold roll. cbn [get shape]. rewrite Hs. reflexivity.
Qed.
Lemma shifted_shape f n p : shape (shifted f n p) = shape p.
Proof. unfold shifted. destruct (_ =? _)%Z; reflexivity. Qed.
Lemma bin_psf_val f n p nz N : (1 < f)%Z -> shape p = [nz; N; N] -> (0 <= nz)%Z -> (0 <= N)%Z ->
  exists r, bin_psf f n p = Ok r /\ shape r = [nz; N / f; N / f]%Z /\ forall i, inb (shape r) i -> get r i = block_sum (shifted f n p) [1; f; f]%Z i.
Proof.
  intros Hf Hs Hz HN. unfold bin_psf. rewrite (proj2 (Z.ltb_lt 1 f) Hf). fold (shifted f n p).
  destruct (C14_bin_size (shifted f n p) [1; f; f]%Z (BSeq [1; f; f]%Z) "sum") as (r & E1 & E2 & E3).
  - rewrite shifted_shape, Hs. reflexivity.
  - rewrite shifted_shape, Hs. repeat constructor; lia.
  - repeat constructor; lia.
  - left; reflexivity.
  - left; reflexivity.
  - exists r. split; [exact E1|]. split; [|intros i Hi; exact (proj1 (E3 i Hi) eq_refl)]. rewrite E2, shifted_shape, Hs. cbn [combine map fst snd]. now rewrite Z.div_1_r.
Qed.
(** general form: whatever oversample_factor f > 1 is now, over whatever size the model has *)
Theorem C55_any_factor : forall m p nz N f n, fst (model_psf m) = Ok (p, true) -> shape p = [nz; N; N] -> (0 <= nz)%Z -> (0 <= N)%Z ->
  factor_is m f -> (1 < f)%Z -> stored_size m n ->
  let fine z y x := if Z.even n then get p [z; (y - f / 2) mod N; (x - f / 2) mod N]%Z else get p [z; y; x] in
  let block z y x := Rsum (zseq f) (fun j => Rsum (zseq f) (fun i => fine z (y * f + j) (x * f + i)))%Z in
  let light := Rsum (all_ix [nz; N / f; N / f]%Z) (fun ix => match ix with [z; y; x] => block z y x | _ => 0 end) in
  exists a, fresh m = Ok a /\ shape a = [nz; N / f; N / f]%Z /\
    forall z y x, inb [nz; N / f; N / f]%Z [z; y; x] ->
      get a [z; y; x] = if Req_EM_T light 0 then None else Some (block z y x / light).
Proof.
  intros m p nz N f n Hp Hs Hz HN Hf H1 Hn. cbv zeta. rewrite (fresh_eq m p true f n Hp Hf Hn). destruct (bin_psf_val f n p nz N H1 Hs Hz HN) as (r & -> & Hr & Hg). cbn [bind].
  eexists. split; [reflexivity|]. split; [exact Hr|]. intros z y x Hi.
  assert (B : forall z y x, inb [nz; N / f; N / f]%Z [z; y; x] -> get r [z; y; x] = Rsum (zseq f) (fun j => Rsum (zseq f) (fun i => if Z.even n then get p [z; (y * f + j - f / 2) mod N; (x * f + i - f / 2) mod N]%Z else get p [z; y * f + j; x * f + i]%Z))).
  { intros z' y' x' Hi'. rewrite Hg by (rewrite Hr; exact Hi'). unfold block_sum. cbn [all_ix]. change (zseq 1) with [0%Z]. cbn [flat_map]. rewrite app_nil_r, Rsum_map, Rsum_flat_map. apply Rsum_ext. intros j _.
    rewrite Rsum_map, Rsum_flat_map. apply Rsum_ext. intros i _. cbn [map Rsum block_ix]. rewrite Z.mul_1_r, Z.add_0_r. rewrite (shifted_get f n p nz N) by exact Hs. destruct (Z.even n); lra. }
  assert (T : M_Micro.total r = Rsum (all_ix [nz; N / f; N / f]%Z) (fun ix => match ix with [z; y; x] => Rsum (zseq f) (fun j => Rsum (zseq f) (fun i => if Z.even n then get p [z; (y * f + j - f / 2) mod N; (x * f + i - f / 2) mod N]%Z else get p [z; y * f + j; x * f + i]%Z)) | _ => 0 end)).
  { unfold M_Micro.total. rewrite Hr. apply Rsum_ext. intros ix Hix. apply in_all_ix in Hix. destruct (inb3_inv _ _ _ _ Hix) as (z' & y' & x' & -> & _). now apply B. }
  cbn [normalise amap get fst snd]. rewrite T, B by exact Hi. destruct (Req_EM_T _ 0); reflexivity.
Qed.
Print Assumptions C55_any_factor.

Lemma Rsum_all3 a b c (g : list Z -> R) : Rsum (all_ix [a; b; c]) g = Rsum (zseq a) (fun z => Rsum (zseq b) (fun y => Rsum (zseq c) (fun x => g [z; y; x]))).
Proof.
  rewrite Rsum_all_ix_cons. apply Rsum_ext. intros z _. rewrite Rsum_all_ix_cons. apply Rsum_ext. intros y _. rewrite Rsum_all_ix_cons. apply Rsum_ext. intros x _. cbn [all_ix Rsum]. ring.
Qed.
(** cutting into blocks loses nothing *)
Lemma tile2 n f (F : Z -> Z -> R) : (0 <= n)%Z -> (0 <= f)%Z ->
  Rsum (zseq n) (fun y => Rsum (zseq n) (fun x => Rsum (zseq f) (fun j => Rsum (zseq f) (fun i => F (y * f + j)%Z (x * f + i)%Z)))) =
  Rsum (zseq (n * f)) (fun Y => Rsum (zseq (n * f)) (fun X => F Y X)).
Proof.
  intros Hn Hf. rewrite (Z.mul_comm n f). rewrite (Rsum_tile1 n f (fun Y => Rsum (zseq (f * n)) (fun X => F Y X))) by assumption. apply Rsum_ext. intros y _.
  rewrite Rsum_swap. apply Rsum_ext. intros j _. now rewrite (Rsum_tile1 n f (fun X => F (y * f + j)%Z X)) by assumption.
Qed.
Lemma parity n f : Z.even f = false -> Z.even (n * f) = Z.even n.
Proof. intros H. rewrite Z.even_mul, H, orb_false_r. reflexivity. Qed.
(** the block of coarse pixel y is centred where it should be *)
Lemma block_centre n f y j : (0 < n)%Z -> (0 < f)%Z -> Z.even f = false -> (0 <= y < n)%Z -> (0 <= j < f)%Z ->
  (if Z.even n then (y * f + j - f / 2) mod (n * f) else y * f + j)%Z = ((n * f / 2 + (y - n / 2) * f + (j - f / 2)) mod (n * f))%Z.
Proof.
  intros Hn Hf Ho Hy Hj.
  assert (F : exists l, (f = 2 * l + 1)%Z). { exists (f / 2)%Z. pose proof (Zmod_even f) as M. rewrite Ho in M. pose proof (Z.div_mod f 2). lia. } destruct F as [l ->].
  assert (L : ((2 * l + 1) / 2 = l)%Z) by (replace (2 * l + 1)%Z with (l * 2 + 1)%Z by ring; rewrite Z.div_add_l by lia; cbn; lia). rewrite L.
  destruct (Z.even n) eqn:En.
  - assert (K : exists k, (n = 2 * k)%Z). { exists (n / 2)%Z. pose proof (Zmod_even n) as M. rewrite En in M. pose proof (Z.div_mod n 2). lia. } destruct K as [k ->].
    replace (2 * k * (2 * l + 1) / 2)%Z with (k * (2 * l + 1))%Z by (replace (2 * k * (2 * l + 1))%Z with (k * (2 * l + 1) * 2)%Z by ring; rewrite Z.div_mul by lia; reflexivity).
    replace (2 * k / 2)%Z with k by (replace (2 * k)%Z with (k * 2)%Z by ring; rewrite Z.div_mul by lia; reflexivity). f_equal. ring.
  - assert (K : exists k, (n = 2 * k + 1)%Z). { exists (n / 2)%Z. pose proof (Zmod_even n) as M. rewrite En in M. pose proof (Z.div_mod n 2). lia. } destruct K as [k ->].
    replace ((2 * k + 1) * (2 * l + 1) / 2)%Z with (k * (2 * l + 1) + l)%Z.
    2:{ replace ((2 * k + 1) * (2 * l + 1))%Z with ((k * (2 * l + 1) + l) * 2 + 1)%Z by ring. rewrite Z.div_add_l by lia. cbn. lia. }
    replace ((2 * k + 1) / 2)%Z with k by (replace (2 * k + 1)%Z with (k * 2 + 1)%Z by ring; rewrite Z.div_add_l by lia; cbn; lia).
    rewrite Z.mod_small; [ring|]. nia.
Qed.
(** For a model of size n*f, f odd: shape, values and sum of the PSF. *)
Theorem C55_psf : forall m p nz n f, fst (model_psf m) = Ok (p, true) -> shape p = [nz; n * f; n * f]%Z -> (0 <= nz)%Z -> (0 < n)%Z ->
  factor_is m f -> (0 < f)%Z -> Z.even f = false -> stored_size m (n * f) ->
  let light := Rsum (all_ix [nz; n * f; n * f]%Z) (get p) in light <> 0 ->
  exists a, fresh m = Ok a /\ shape a = [nz; n; n] /\
    (forall z y x, inb [nz; n; n] [z; y; x] -> get a [z; y; x] = Some (collected p n f z y x / light)) /\
    image_sum a = 1.
Proof.
  intros m p nz n f Hp Hs Hz Hn Hf H0 Ho Hst light Hl.
  assert (Q : forall z, Rsum (zseq n) (fun y => Rsum (zseq n) (fun x => collected p n f z y x)) = Rsum (zseq (n * f)) (fun y => Rsum (zseq (n * f)) (fun x => get p [z; y; x]))).
  { intros z. set (F := fun Y X => get p [z; (if Z.even n then (Y - f / 2) mod (n * f) else Y); (if Z.even n then (X - f / 2) mod (n * f) else X)]%Z).
    transitivity (Rsum (zseq n) (fun y => Rsum (zseq n) (fun x => Rsum (zseq f) (fun j => Rsum (zseq f) (fun i => F (y * f + j) (x * f + i))))))%Z.
    - apply Rsum_ext. intros y Hy. apply in_zseq in Hy. apply Rsum_ext. intros x Hx. apply in_zseq in Hx. unfold collected, offsets. rewrite Rsum_map. apply Rsum_ext. intros j Hj. apply in_zseq in Hj. rewrite Rsum_map. apply Rsum_ext. intros i Hi. apply in_zseq in Hi.
      unfold F. rewrite !block_centre by assumption. reflexivity.
    - rewrite tile2 by lia. unfold F. destruct (Z.even n); [|reflexivity].
      transitivity (Rsum (zseq (n * f)) (fun Y => Rsum (zseq (n * f)) (fun X => get p [z; (Y + - (f / 2)) mod (n * f); X]%Z))).
      + apply Rsum_ext. intros Y _. exact (Rsum_cyclic (n * f) (- (f / 2)) (fun X => get p [z; (Y + - (f / 2)) mod (n * f); X]%Z)).
      + exact (Rsum_cyclic (n * f) (- (f / 2)) (fun Y => Rsum (zseq (n * f)) (fun X => get p [z; Y; X]))). }
  assert (T : Rsum (zseq nz) (fun z => Rsum (zseq n) (fun y => Rsum (zseq n) (fun x => collected p n f z y x))) = light).
  { unfold light. rewrite Rsum_all3. apply Rsum_ext. intros z _. apply Q. }
  assert (G : exists a, fresh m = Ok a /\ shape a = [nz; n; n] /\ forall z y x, inb [nz; n; n] [z; y; x] -> get a [z; y; x] = Some (collected p n f z y x / light)).
  { destruct (Z.eq_dec f 1) as [->|F1].
    - rewrite (fresh_eq m p true 1 (n * 1) Hp Hf Hst). cbn [bin_psf Z.ltb Z.compare Pos.compare Pos.compare_cont bind]. eexists. split; [reflexivity|]. split; [cbn; rewrite Hs; now rewrite Z.mul_1_r|].
      intros z y x Hi. cbn [normalise amap get fst snd]. assert (E : M_Micro.total p = light) by (unfold M_Micro.total; rewrite Hs; reflexivity). rewrite E. destruct (Req_EM_T light 0); [contradiction|]. f_equal. f_equal.
      destruct (inb3_inv _ _ _ _ Hi) as (z' & y' & x' & [= -> -> ->] & Iz & Iy & Ix). unfold collected, offsets.
      pose proof (block_centre n 1 y' 0 Hn H0 Ho Iy ltac:(lia)) as By. pose proof (block_centre n 1 x' 0 Hn H0 Ho Ix ltac:(lia)) as Bx.
      assert (Sy : (if Z.even n then (y' * 1 + 0 - 1 / 2) mod (n * 1) else y' * 1 + 0)%Z = y') by (destruct (Z.even n); [change (1 / 2)%Z with 0%Z; rewrite Z.mod_small; lia|lia]).
      assert (Sx : (if Z.even n then (x' * 1 + 0 - 1 / 2) mod (n * 1) else x' * 1 + 0)%Z = x') by (destruct (Z.even n); [change (1 / 2)%Z with 0%Z; rewrite Z.mod_small; lia|lia]).
      rewrite Sy in By. rewrite Sx in Bx. change (zseq 1) with [0%Z]. cbn [map Rsum]. rewrite <- By, <- Bx. ring.
    - destruct (C55_any_factor m p nz (n * f) f (n * f) Hp Hs Hz ltac:(nia) Hf ltac:(lia) Hst) as (a & E1 & E2 & E3). rewrite Z.div_mul in E2, E3 by lia. exists a. split; [exact E1|]. split; [exact E2|].
      assert (C : forall z y x, inb [nz; n; n] [z; y; x] -> Rsum (zseq f) (fun j => Rsum (zseq f) (fun i => if Z.even (n * f) then get p [z; (y * f + j - f / 2) mod (n * f); (x * f + i - f / 2) mod (n * f)]%Z else get p [z; y * f + j; x * f + i]%Z)) = collected p n f z y x).
      { intros z y x Hi. destruct (inb3_inv _ _ _ _ Hi) as (z' & y' & x' & [= -> -> ->] & Iz & Iy & Ix). unfold collected, offsets. rewrite Rsum_map. apply Rsum_ext. intros j Hj. apply in_zseq in Hj. rewrite Rsum_map. apply Rsum_ext. intros i Hi'. apply in_zseq in Hi'.
        rewrite <- !block_centre by assumption. rewrite parity by assumption. destruct (Z.even n); reflexivity. }
      assert (L : Rsum (all_ix [nz; n; n]) (fun ix => match ix with [z; y; x] => Rsum (zseq f) (fun j => Rsum (zseq f) (fun i => if Z.even (n * f) then get p [z; (y * f + j - f / 2) mod (n * f); (x * f + i - f / 2) mod (n * f)]%Z else get p [z; y * f + j; x * f + i]%Z)) | _ => 0 end) = light).
      { rewrite <- T, <- (Rsum_all3 nz n n (fun ix => match ix with [z; y; x] => collected p n f z y x | _ => 0 end)). apply Rsum_ext. intros ix Hix. apply in_all_ix in Hix. destruct (inb3_inv _ _ _ _ Hix) as (z' & y' & x' & -> & _). now apply C. }
      intros z y x Hi. rewrite E3 by exact Hi. rewrite L, C by exact Hi. destruct (Req_EM_T light 0); [contradiction|reflexivity]. }
  destruct G as (a & E1 & E2 & E3). exists a. split; [exact E1|]. split; [exact E2|]. split; [exact E3|].
  unfold image_sum. rewrite E2. rewrite (Rsum_ext _ _ (fun ix => match ix with [z; y; x] => collected p n f z y x | _ => 0 end * / light)).
  2:{ intros ix Hix. apply in_all_ix in Hix. destruct (inb3_inv _ _ _ _ Hix) as (z' & y' & x' & -> & _). rewrite E3 by exact Hix. reflexivity. }
  rewrite Rsum_scal_r.
  rewrite (Rsum_all3 nz n n (fun ix => match ix with [z; y; x] => collected p n f z y x | _ => 0 end)), T. now apply Rinv_r.
Qed.
Print Assumptions C55_psf.
