(** Images whose lateral spectrum lies inside a disk. *)
From Verif Require Import S_FFT S_Hanser S_Micro L_Array L_Sum L_FFT L_FFT2 L_Polar L_Hanser L_Hanser2 L_Hanser3 L_Band.
Import M_Array.
Local Open Scope R_scope.

(** a complex exponential: frequencies along y and x (in cycles per field), amplitude *)
Definition wterm := (Z * Z * C)%type.
Definition wfreq (t : wterm) : C := (IZR (fst (fst t)), IZR (snd (fst t))).
Definition wave (n : Z) (t : wterm) (y x : Z) : C := snd t *c root n (fst (fst t) * y + snd (fst t) * x).
(** [g] on the n x n grid is a sum of exponentials of frequency below [L] *)
Definition BL (n : Z) (L : R) (g : Z -> Z -> C) : Prop :=
  exists l, Forall (fun t => Cmod (wfreq t) < L) l /\ forall y x, (0 <= y < n)%Z -> (0 <= x < n)%Z -> g y x = Csum l (fun t => wave n t y x).

Lemma BL_ext n L g g' : (forall y x, (0 <= y < n)%Z -> (0 <= x < n)%Z -> g y x = g' y x) -> BL n L g -> BL n L g'.
Proof. intros H (l & F & E). exists l. split; [exact F|]. intros y x Hy Hx. rewrite <- H by auto. auto. Qed.
Lemma BL_sum {X} n L (s : list X) (G : X -> Z -> Z -> C) : (forall a, In a s -> BL n L (G a)) -> BL n L (fun y x => Csum s (fun a => G a y x)).
Proof.
  induction s as [|a s IH]; intros H; [exists []; split; [constructor|reflexivity]|].
  destruct (H a (or_introl eq_refl)) as (l1 & F1 & E1). destruct IH as (l2 & F2 & E2); [intros; apply H; now right|].
  exists (l1 ++ l2)%list. split; [now apply Forall_app|]. intros y x Hy Hx. rewrite Csum_app. cbn [Csum]. now rewrite E1, E2.
Qed.
Lemma BL_scal n L c g : BL n L g -> BL n L (fun y x => c *c g y x).
Proof.
  intros (l & F & E). exists (map (fun t : wterm => (fst t, c *c snd t)) l). split; [apply Forall_map; exact F|].
  intros y x Hy Hx. rewrite Csum_map, E, <- Csum_scal_l by auto. apply Csum_ext. intros t _. unfold wave. cbn [fst snd]. ring.
Qed.
Lemma BL_conj n L g : BL n L g -> BL n L (fun y x => Cconj (g y x)).
Proof.
  intros (l & F & E). exists (map (fun t : wterm => (- fst (fst t), - snd (fst t), Cconj (snd t))%Z) l). split.
  - apply Forall_map. eapply Forall_impl; [|exact F]. intros t Ht. unfold wfreq in *. cbn [fst snd]. rewrite !opp_IZR.
    replace (- IZR (fst (fst t)), - IZR (snd (fst t))) with (- ((IZR (fst (fst t)), IZR (snd (fst t))) : C))%C by reflexivity. now rewrite Cmod_opp.
  - intros y x Hy Hx. rewrite Csum_map, E, Csum_conj by auto. apply Csum_ext. intros t _. unfold wave. cbn [fst snd]. rewrite Cconj_mult, root_conj. f_equal. f_equal. ring.
Qed.
Lemma BL_mult n L L' g g' : BL n L g -> BL n L' g' -> BL n (L + L') (fun y x => g y x *c g' y x).
Proof.
  intros (l & F & E) (l' & F' & E').
  exists (flat_map (fun t : wterm => map (fun t' : wterm => (fst (fst t) + fst (fst t'), snd (fst t) + snd (fst t'), snd t *c snd t')%Z) l') l). split.
  - apply Forall_forall. intros u Hu. apply in_flat_map in Hu as (t & Ht & Hu). apply in_map_iff in Hu as (t' & <- & Ht').
    rewrite Forall_forall in F, F'. specialize (F t Ht). specialize (F' t' Ht'). unfold wfreq in *. cbn [fst snd]. rewrite !plus_IZR.
    eapply Rle_lt_trans; [|apply Rplus_lt_compat; eassumption]. exact (Cmod_triangle (IZR (fst (fst t)), IZR (snd (fst t))) (IZR (fst (fst t')), IZR (snd (fst t')))).
  - intros y x Hy Hx. rewrite Csum_flat_map, E, E', Csum_prod by auto. apply Csum_ext. intros t _. rewrite Csum_map. apply Csum_ext. intros t' _.
    unfold wave. cbn [fst snd]. replace ((fst (fst t) + fst (fst t')) * y + (snd (fst t) + snd (fst t')) * x)%Z with ((fst (fst t) * y + snd (fst t) * x) + (fst (fst t') * y + snd (fst t') * x))%Z by ring. rewrite (root_add n (fst (fst t) * y + snd (fst t) * x)). ring.
Qed.
Lemma BL_weaken n L L' g : L <= L' -> BL n L g -> BL n L' g.
Proof. intros H (l & F & E). exists l. split; [|exact E]. eapply Forall_impl; [|exact F]. intros t Ht. cbn beta in Ht. lra. Qed.

(** taking every f-th pixel of a cyclically moved image *)
Lemma root_scale n f m : (0 < n)%Z -> (0 < f)%Z -> root (n * f) (f * m) = root n m.
Proof. intros Hn Hf. unfold root. f_equal. f_equal. rewrite !mult_IZR. field. split; apply not_0_IZR; lia. Qed.
Lemma BL_sample n f L g a b : (0 < n)%Z -> (0 < f)%Z -> BL (n * f) L g ->
  BL n L (fun y x => g ((a + y * f) mod (n * f)) ((b + x * f) mod (n * f)))%Z.
Proof.
  intros Hn Hf (l & F & E). set (N := (n * f)%Z) in *. assert (HN : (0 < N)%Z) by (unfold N; nia).
  exists (map (fun t : wterm => (fst t, snd t *c root N (fst (fst t) * a + snd (fst t) * b))) l). split; [apply Forall_map; exact F|].
  intros y x Hy Hx. rewrite Csum_map, E by (apply Z.mod_pos_bound; exact HN). apply Csum_ext. intros [[p q] c] _. unfold wave. cbn [fst snd].
  rewrite <- (root_scale n f) by auto. fold N. rewrite <- Cmult_assoc. f_equal. rewrite <- root_add. apply root_cong; [exact HN|].
  pose proof (Z.div_mod (a + y * f) N ltac:(lia)) as D1. pose proof (Z.div_mod (b + x * f) N ltac:(lia)) as D2.
  replace (p * ((a + y * f) mod N) + q * ((b + x * f) mod N) - (p * a + q * b + f * (p * y + q * x)))%Z
    with ((- (p * ((a + y * f) / N) + q * ((b + x * f) / N))) * N)%Z by nia. apply Z_mod_mult.
Qed.

(** the transform vanishes outside the disk *)
Lemma wrap_small n d s : (0 < n)%Z -> (- (n / 2) <= s < n - n / 2)%Z -> ((d - s) mod n = 0)%Z -> (Z.abs s <= Z.abs d)%Z.
Proof.
  intros Hn Hs Hd. apply Z.mod_divide in Hd; [|lia]. destruct Hd as [q Hq].
  pose proof (Z.div_mod n 2 ltac:(lia)). pose proof (Z.mod_pos_bound n 2 ltac:(lia)).
  destruct (Z.lt_trichotomy q 0) as [H'|[->|H']]; [|lia|].
  - assert (q * n <= - n)%Z by nia. lia.
  - assert (n <= q * n)%Z by nia. lia.
Qed.
Lemma sq_le a b : (Z.abs a <= Z.abs b)%Z -> IZR a * IZR a <= IZR b * IZR b.
Proof. intros H. rewrite <- !mult_IZR. apply IZR_le. nia. Qed.
Lemma BL_zero n L g ky kx : (0 < n)%Z -> BL n L g -> (0 <= ky < n)%Z -> (0 <= kx < n)%Z ->
  L <= Cmod (IZR (ky - n / 2), IZR (kx - n / 2)) ->
  mop (kcen (-1)) [true; true] [n; n] (fun ix => match ix with [y; x] => g y x | _ => RtoC 0 end) [ky; kx] = RtoC 0.
Proof.
  intros Hn (l & F & E) Hy Hx HL. cbn [mop].
  transitivity (Csum (zseq n) (fun y => Csum (zseq n) (fun x => Csum l (fun t => kcen (-1) n ky y *c kcen (-1) n kx x *c wave n t y x)))).
  { apply Csum_ext. intros y Qy. apply in_zseq in Qy. rewrite <- Csum_scal_l. apply Csum_ext. intros x Qx. apply in_zseq in Qx. rewrite E by auto. rewrite Csum_scal_l. ring. }
  rewrite (Csum_ext (zseq n) _ (fun y => Csum l (fun t => Csum (zseq n) (fun x => kcen (-1) n ky y *c kcen (-1) n kx x *c wave n t y x)))); [|intros y _; apply Csum_swap].
  rewrite Csum_swap. apply Csum_zero. intros [[p q] c] Ht. rewrite Forall_forall in F. specialize (F _ Ht). unfold wfreq in F. cbn [fst snd] in F.
  transitivity ((c *c root n (p * (n / 2) + q * (n / 2))) *c (Csum (zseq n) (fun y => root n ((y - n / 2) * (p - (ky - n / 2)))) *c Csum (zseq n) (fun x => root n ((x - n / 2) * (q - (kx - n / 2)))))).
  - rewrite Csum_prod, <- Csum_scal_l. apply Csum_ext. intros y _. rewrite <- Csum_scal_l. apply Csum_ext. intros x _. unfold kcen, wave. cbn [fst snd].
    transitivity (c *c (root n (-1 * ((y - n / 2) * (ky - n / 2))) *c root n (-1 * ((x - n / 2) * (kx - n / 2))) *c root n (p * y + q * x))); [ring|].
    rewrite <- !root_add, <- Cmult_assoc, <- root_add. f_equal. f_equal. ring.
  - rewrite !cen_sum by auto. destruct (Z.eqb_spec ((p - (ky - n / 2)) mod n) 0) as [E1|]; [|ring]. destruct (Z.eqb_spec ((q - (kx - n / 2)) mod n) 0) as [E2|]; [|ring].
    exfalso. apply wrap_small in E1, E2; try lia. apply sq_le in E1, E2.
    enough (Cmod (IZR (ky - n / 2), IZR (kx - n / 2)) <= Cmod (IZR p, IZR q)) by lra. unfold Cmod. cbn [fst snd]. apply sqrt_le_1_alt. cbn [pow]. lra.
Qed.

(** ** the intensity of a Hanser PSF *)
Section H.
Context (h : hpar) (Hph : physical h).
Let n := h_size h.
(** frequencies are integers over [field] *)
Let field := IZR n * h_res h.

Lemma aperture_term i j : in_aperture h i j -> Cmod (IZR (six h i), IZR (six h j)) < h_na h / h_wl h * field.
Proof.
  intros H. pose proof (n_pos h Hph) as Hn. fold n in Hn. pose proof (na_wl_ge_0 h Hph) as Hq. assert (Pr : 0 < h_res h) by apply Hph.
  assert (Pf : 0 < field) by (unfold field; apply Rmult_lt_0_compat; [now apply IZR_lt|exact Pr]).
  unfold in_aperture, k2 in H. rewrite !sfreq_six in H. fold n field in H. unfold Cmod. cbn [fst snd].
  set (a := IZR (six h i)) in *. set (b := IZR (six h j)) in *. set (q := h_na h / h_wl h) in *.
  assert (H2 : a ^ 2 + b ^ 2 < (q * field) ^ 2).
  { replace (a ^ 2 + b ^ 2) with ((a / field * (a / field) + b / field * (b / field)) * (field * field)) by (field; lra).
    replace ((q * field) ^ 2) with (q ^ 2 * (field * field)) by ring. apply Rmult_lt_compat_r; [nra|exact H]. }
  assert (S : 0 <= q * field) by nra. rewrite <- (sqrt_pow2 (q * field)) by exact S. apply sqrt_lt_1_alt. split; [|exact H2]. nra.
Qed.
Lemma BL_field Q c z : (forall j i, (0 <= j < n)%Z -> (0 <= i < n)%Z -> ~ in_aperture h j i -> Q j i = RtoC 0) ->
  BL n (h_na h / h_wl h * field) (fun y x => mop kpsf [true; true] [n; n] (pupf h Q c z) [y; x]).
Proof.
  intros HQ. pose proof (n_pos h Hph) as Hn. fold n in Hn.
  apply (BL_ext n _ (fun y x => Csum (zseq n) (fun j => Csum (zseq n) (fun i => pup h Q c z j i *c root n (j * (y - n / 2) + i * (x - n / 2)))))).
  { intros y x _ _. cbn [mop]. apply Csum_ext. intros j _. rewrite <- Csum_scal_l. apply Csum_ext. intros i _. cbn [pupf]. unfold kpsf. rewrite root_add. ring. }
  apply BL_sum. intros j Hj. apply BL_sum. intros i Hi. apply in_zseq in Hj, Hi. destruct (Rlt_dec (k2 h j i) ((h_na h / h_wl h) ^ 2)) as [A|A].
  - exists [(six h j, six h i, pup h Q c z j i *c root n (- (j * (n / 2) + i * (n / 2))))]. split.
    + constructor; [|constructor]. unfold wfreq. cbn [fst snd]. now apply aperture_term.
    + intros y x _ _. cbn [Csum]. unfold wave. cbn [fst snd]. rewrite Cplus_0_r, <- Cmult_assoc. f_equal. rewrite <- root_add. apply root_cong; [exact Hn|].
      pose proof (six_cong h Hph j) as Cj. pose proof (six_cong h Hph i) as Ci. fold n in Cj, Ci. apply Z.mod_divide in Cj, Ci; try lia. destruct Cj as [u Hu], Ci as [v Hv].
      assert (Ej : six h j = (j + u * n)%Z) by lia. assert (Ei : six h i = (i + v * n)%Z) by lia. rewrite Ej, Ei.
      replace (j * (y - n / 2) + i * (x - n / 2) - (- (j * (n / 2) + i * (n / 2)) + ((j + u * n) * y + (i + v * n) * x)))%Z with ((- (u * y + v * x)) * n)%Z by ring. apply Z_mod_mult.
  - exists []. split; [constructor|]. intros y x _ _. unfold pup. rewrite HQ by auto. cbn [Csum]. ring.
Qed.
(** every plane of the intensity: twice the radius of the pupil *)
Lemma BL_intensity base A z : M_Hanser.gen_psf h base = Ok A -> (forall P, base = Some P -> on_grid h P) ->
  (forall j i, (0 <= j < n)%Z -> (0 <= i < n)%Z -> ~ in_aperture h j i -> used_pupil h base j i = RtoC 0) ->
  BL n (2 * h_na h / h_wl h * field) (fun y x => RtoC (get (sumsq A) [z; y; x])).
Proof.
  intros HA Hg HQ.
  apply (BL_ext n _ (fun y x => Csum (zseq (components (h_vec h))) (fun c => RtoC (/ IZR (n * n) * / IZR (n * n)) *c
    (mop kpsf [true; true] [n; n] (pupf h (used_pupil h base) c z) [y; x] *c Cconj (mop kpsf [true; true] [n; n] (pupf h (used_pupil h base) c z) [y; x]))))).
  { intros y x Hy Hx. rewrite (psfi_val h Hph base) by auto. fold n. rewrite Csum_RtoC. apply Csum_ext. intros c _. rewrite (RtoC_mult (/ IZR (n * n) * / IZR (n * n))), Cnorm2_conj. reflexivity. }
  apply BL_sum. intros c _. apply BL_scal. replace (2 * h_na h / h_wl h * field) with (h_na h / h_wl h * field + h_na h / h_wl h * field) by (unfold Rdiv; ring).
  apply BL_mult; [|apply BL_conj]; now apply BL_field.
Qed.
End H.
