(** Binning in frequency space, one axis at a time. *)
From Verif Require Import S_FFT S_Micro S_Pixel S_Hanser L_Array L_Sum L_FFT L_FFT2 L_Polar L_Bin L_Hanser L_Hanser2 L_Hanser3 L_Band L_Lateral L_Micro T_Micro3.
Import M_Array.
Local Open Scope R_scope.

Lemma Csum_tile n f (F : Z -> C) : (0 <= n)%Z -> (0 <= f)%Z ->
  Csum (zseq (n * f)) F = Csum (zseq n) (fun y => Csum (zseq f) (fun j => F (y * f + j)%Z)).
Proof.
  intros Hn Hf. rewrite Z.mul_comm. apply injective_projections.
  - change fst with Re. rewrite !Csum_Re, (Rsum_tile1 n f (fun Y => Re (F Y))) by assumption. apply Rsum_ext. intros y _. now rewrite Csum_Re.
  - change snd with Im. rewrite !Csum_Im, (Rsum_tile1 n f (fun Y => Im (F Y))) by assumption. apply Rsum_ext. intros y _. now rewrite Csum_Im.
Qed.
(** only the multiples of f *)
Lemma Csum_multiples n f (H : Z -> C) : (0 <= n)%Z -> (0 < f)%Z ->
  Csum (zseq (n * f)) (fun i => if (i mod f =? 0)%Z then H i else RtoC 0) = Csum (zseq n) (fun y => H (y * f)%Z).
Proof.
  intros Hn Hf. rewrite Csum_tile by lia. apply Csum_ext. intros y _.
  rewrite (Csum_single _ _ 0%Z); [|apply NoDup_zseq|apply in_zseq; lia|].
  - replace (y * f + 0)%Z with (y * f)%Z by ring. rewrite Z_mod_mult. reflexivity.
  - intros j Hj Nj. apply in_zseq in Hj. replace (y * f + j)%Z with (j + y * f)%Z by ring. rewrite Z_mod_plus_full, Z.mod_small by lia. destruct (Z.eqb_spec j 0); [contradiction|reflexivity].
Qed.
Lemma Csum_filter {X} (p : X -> bool) (l : list X) (H : X -> C) : Csum (filter p l) H = Csum l (fun x => if p x then H x else RtoC 0).
Proof. induction l as [|x l IH]; cbn [filter Csum]; [reflexivity|]. destruct (p x); cbn [Csum]; rewrite IH; [reflexivity|]. now rewrite Cplus_0_l. Qed.

Lemma transfer_root f N p : (0 < f)%Z -> Z.even f = false -> RtoC (pixel_transfer f N p) = Csum (offsets f) (fun j => root N (p * j)).
Proof.
  intros Hf Ho.
  assert (Odd : f = (2 * (f / 2) + 1)%Z). { pose proof (Z.div_mod f 2 ltac:(lia)) as D. rewrite Zmod_even, Ho in D. exact D. }
  assert (R : Rsum (offsets f) (fun j => sin (2 * PI * (IZR (p * j) / IZR N))) = 0).
  { unfold offsets. rewrite Rsum_map. set (S := Rsum _ _).
    assert (E : S = - S); [|lra]. unfold S at 2.
    transitivity (Rsum (zseq f) (fun k => sin (2 * PI * (IZR (p * ((f - 1 - k) mod f - f / 2)) / IZR N)))).
    { unfold S. symmetry. pose proof (Csum_reflect f (f - 1) (fun k => RtoC (sin (2 * PI * (IZR (p * (k - f / 2)) / IZR N))))) as Q. rewrite <- !Csum_RtoC in Q. now injection Q. }
    replace (- Rsum (zseq f) (fun x => sin (2 * PI * (IZR (p * (x - f / 2)) / IZR N)))) with ((-1) * Rsum (zseq f) (fun x => sin (2 * PI * (IZR (p * (x - f / 2)) / IZR N)))) by ring.
    rewrite <- Rsum_scal_l. apply Rsum_ext. intros k Hk. apply in_zseq in Hk. rewrite Z.mod_small by lia.
    replace (p * (f - 1 - k - f / 2))%Z with (- (p * (k - f / 2)))%Z by nia. rewrite opp_IZR.
    replace (2 * PI * (- IZR (p * (k - f / 2)) / IZR N)) with (- (2 * PI * (IZR (p * (k - f / 2)) / IZR N))) by (unfold Rdiv; ring). rewrite sin_neg. ring. }
  unfold pixel_transfer. apply injective_projections; cbn [fst snd RtoC].
  - change (fst (Csum ?l ?g)) with (Re (Csum l g)). rewrite Csum_Re. reflexivity.
  - change (snd (Csum ?l ?g)) with (Im (Csum l g)). rewrite Csum_Im. rewrite <- R. reflexivity.
Qed.

Section A.
Context (n f : Z) (Hn : (0 < n)%Z) (Hf : (0 < f)%Z) (Ho : Z.even f = false).
Let N := (n * f)%Z.
Lemma N_pos : (0 < N)%Z.
Proof. unfold N. nia. Qed.
(** the fine spectrum of one line *)
Definition line_spectrum (u : Z -> C) (K : Z) : C := Csum (zseq N) (fun Y => kcen (-1) N K Y *c u Y).
(** the spectrum of the binned line *)
Definition binned_spectrum (u : Z -> C) (k : Z) : C :=
  Csum (zseq n) (fun y => kcen (-1) n k y *c Csum (offsets f) (fun j => u ((N / 2 + (y - n / 2) * f + j) mod N)%Z)).

Lemma alias_sum k (H : Z -> C) : (forall K K', ((K - K') mod N = 0)%Z -> H K = H K') ->
  Csum (aliases n f k) H = Csum (zseq f) (fun a => H (N / 2 + (k - n / 2) + a * n)%Z).
Proof.
  intros HP. pose proof N_pos as PN. unfold aliases. rewrite Csum_filter. fold N.
  rewrite <- (Csum_cyclic N (N / 2 + (k - n / 2))). unfold N at 1. rewrite Z.mul_comm.
  rewrite <- (Csum_multiples f n (fun i => H (N / 2 + (k - n / 2) + i)%Z)) by lia. apply Csum_ext. intros i _.
  assert (E : (((i + (N / 2 + (k - n / 2))) mod N - N / 2 - (k - n / 2)) mod n = i mod n)%Z).
  { pose proof (Z.div_mod (i + (N / 2 + (k - n / 2))) N ltac:(lia)) as D. set (q := ((i + (N / 2 + (k - n / 2))) / N)%Z) in *.
    replace ((i + (N / 2 + (k - n / 2))) mod N - N / 2 - (k - n / 2))%Z with (i + (- (q * f)) * n)%Z by (unfold N in D |- *; nia). apply Z_mod_plus_full. }
  rewrite E. destruct (i mod n =? 0)%Z; [|reflexivity]. apply HP. replace (N / 2 + (k - n / 2) + i)%Z with (i + (N / 2 + (k - n / 2)))%Z by ring. now apply mod_self_cong.
Qed.
Lemma kcen_cong K K' Y : ((K - K') mod N = 0)%Z -> kcen (-1) N K Y = kcen (-1) N K' Y.
Proof.
  intros E. apply root_cong; [exact N_pos|]. apply Z.mod_divide in E; [|pose proof N_pos; lia]. destruct E as [q Hq].
  replace (-1 * ((Y - N / 2) * (K - N / 2)) - -1 * ((Y - N / 2) * (K' - N / 2)))%Z with ((- (Y - N / 2) * q) * N)%Z by nia. apply Z_mod_mult.
Qed.
Lemma transfer_cong K K' : ((K - K') mod N = 0)%Z -> RtoC (pixel_transfer f N (K - N / 2)) = RtoC (pixel_transfer f N (K' - N / 2)).
Proof.
  intros E. rewrite !transfer_root by assumption. apply Csum_ext. intros j _. apply root_cong; [exact N_pos|]. apply Z.mod_divide in E; [|pose proof N_pos; lia]. destruct E as [q Hq].
  replace ((K - N / 2) * j - (K' - N / 2) * j)%Z with ((q * j) * N)%Z by nia. apply Z_mod_mult.
Qed.

Lemma binning_line u k : binned_spectrum u k = RtoC (/ IZR f) *c Csum (aliases n f k) (fun K => RtoC (pixel_transfer f N (K - N / 2)) *c line_spectrum u K).
Proof.
  pose proof N_pos as PN. set (s := (k - n / 2)%Z).
  rewrite alias_sum.
  2:{ intros K K' E. rewrite (transfer_cong K K' E). f_equal. unfold line_spectrum. apply Csum_ext. intros Y _. now rewrite (kcen_cong K K'). }
  fold s.
  (* both sides: sum over offsets j and over the fine pixels at f-multiples from j *)
  transitivity (Csum (offsets f) (fun j => Csum (zseq N) (fun Y => if ((Y - N / 2 - j) mod f =? 0)%Z then root N (- s * (Y - N / 2 - j)) *c u Y else RtoC 0))).
  - unfold binned_spectrum.
    rewrite (Csum_ext (zseq n) _ (fun y => Csum (offsets f) (fun j => kcen (-1) n k y *c u ((N / 2 + (y - n / 2) * f + j) mod N)%Z))); [|intros y _; now rewrite Csum_scal_l].
    rewrite Csum_swap. apply Csum_ext. intros j _.
    rewrite <- (Csum_cyclic N (N / 2 + j - n / 2 * f)). unfold N at 1.
    transitivity (Csum (zseq (n * f)) (fun i => if (i mod f =? 0)%Z then root N (- s * (i - n / 2 * f)) *c u ((i + (N / 2 + j - n / 2 * f)) mod N)%Z else RtoC 0)).
    + rewrite Csum_multiples by lia. apply Csum_ext. intros y _. f_equal.
      * unfold kcen. rewrite <- (root_scale n f) by assumption. fold N. f_equal. unfold s. ring.
      * replace (y * f + (N / 2 + j - n / 2 * f))%Z with (N / 2 + (y - n / 2) * f + j)%Z by ring. reflexivity.
    + apply Csum_ext. intros i _. pose proof (Z.div_mod (i + (N / 2 + j - n / 2 * f)) N ltac:(lia)) as D. set (q := ((i + (N / 2 + j - n / 2 * f)) / N)%Z) in *. set (Y := ((i + (N / 2 + j - n / 2 * f)) mod N)%Z) in *.
      assert (E : (Y - N / 2 - j = i - n / 2 * f + (- q) * N)%Z) by lia. rewrite E.
      replace ((i - n / 2 * f + - q * N) mod f)%Z with (i mod f)%Z.
      2:{ replace (i - n / 2 * f + - q * N)%Z with (i + (- (n / 2) - q * n) * f)%Z by (unfold N; ring). now rewrite Z_mod_plus_full. }
      destruct (i mod f =? 0)%Z; [|reflexivity]. f_equal. apply root_cong; [exact PN|].
      replace (- s * (i - n / 2 * f) - - s * (i - n / 2 * f + - q * N))%Z with ((- s * q) * N)%Z by ring. apply Z_mod_mult.
  - symmetry.
    transitivity (RtoC (/ IZR f) *c Csum (zseq f) (fun a => Csum (offsets f) (fun j => Csum (zseq N) (fun Y => root N ((s + a * n) * j) *c (root N (-1 * ((Y - N / 2) * (s + a * n))) *c u Y))))).
    { f_equal. apply Csum_ext. intros a _. replace (N / 2 + s + a * n - N / 2)%Z with (s + a * n)%Z by ring. rewrite transfer_root by assumption. unfold line_spectrum. rewrite Csum_prod. apply Csum_ext. intros j _. apply Csum_ext. intros Y _.
      unfold kcen. replace (N / 2 + s + a * n - N / 2)%Z with (s + a * n)%Z by ring. reflexivity. }
    rewrite Csum_swap, <- Csum_scal_l. apply Csum_ext. intros j _. rewrite Csum_swap, <- Csum_scal_l. apply Csum_ext. intros Y _.
    transitivity (RtoC (/ IZR f) *c (root N (- s * (Y - N / 2 - j)) *c u Y *c Csum (zseq f) (fun a => root f (a * (- (Y - N / 2 - j)))))).
    { f_equal. rewrite <- Csum_scal_l. apply Csum_ext. intros a _. rewrite <- (root_scale f n) by assumption. replace (f * n)%Z with N by (unfold N; ring).
      transitivity (root N (- s * (Y - N / 2 - j)) *c root N (n * (a * - (Y - N / 2 - j))) *c u Y); [|ring]. rewrite <- root_add.
      transitivity (root N ((s + a * n) * j) *c root N (-1 * ((Y - N / 2) * (s + a * n))) *c u Y); [ring|]. rewrite <- root_add. f_equal. f_equal. ring. }
    rewrite root_sum by exact Hf.
    assert (E : ((- (Y - N / 2 - j)) mod f =? 0)%Z = ((Y - N / 2 - j) mod f =? 0)%Z).
    { destruct (Z.eqb_spec ((Y - N / 2 - j) mod f) 0) as [E|E].
      - rewrite Z.mod_opp_l_z by (lia || exact E). reflexivity.
      - apply Z.eqb_neq. intros E2. apply E. rewrite <- (Z.opp_involutive (Y - N / 2 - j)). apply Z.mod_opp_l_z; [lia|exact E2]. }
    rewrite E. destruct ((Y - N / 2 - j) mod f =? 0)%Z; [|now rewrite !Cmult_0_r].
    assert (Q : RtoC (/ IZR f) *c RtoC (IZR f) = RtoC 1) by (rewrite <- RtoC_mult; f_equal; field; apply not_0_IZR; lia).
    transitivity (RtoC (/ IZR f) *c RtoC (IZR f) *c (root N (- s * (Y - N / 2 - j)) *c u Y)); [ring|]. rewrite Q. ring.
Qed.
End A.
