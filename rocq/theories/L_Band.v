(** The transform of an intensity is the autocorrelation of the pupil. *)
From Verif Require Import M_Hanser S_Hanser L_Array L_Sum L_FFT L_FFT2 L_Polar L_Hanser L_Hanser2 L_Hanser3.
Local Open Scope Z_scope.
Notation "a *c b" := (Cmult a b) (at level 40, left associativity).

Section N.
Context (n : Z) (Hn : 0 < n).
Let c := n / 2.
Let P := all_ix [n; n].

Definition k22 (K : Z -> Z -> Z -> C) (ix js : list Z) : C :=
  match ix, js with [y; x], [j; i] => K n y j *c K n x i | _, _ => RtoC 0 end.
Lemma mop_flat K f ix : inb [n; n] ix -> mop K [true; true] [n; n] f ix = Csum P (fun js => k22 K ix js *c f js).
Proof.
  intros H. destruct (inb2_inv _ _ _ H) as (y & x & -> & Hy & Hx). unfold P. rewrite Csum_all_ix_cons. cbn [mop].
  apply Csum_ext. intros j _. rewrite Csum_all_ix_cons, <- Csum_scal_l. apply Csum_ext. intros i _. cbn. ring.
Qed.
Lemma cen_sum m : Csum (zseq n) (fun y => root n ((y - c) * m)) = if m mod n =? 0 then RtoC (IZR n) else RtoC 0.
Proof.
  rewrite (Csum_ext _ _ (fun y => root n (- c * m) *c root n (y * m))).
  - rewrite Csum_scal_l, root_sum by auto. destruct (Z.eqb_spec (m mod n) 0) as [E|E]; [|ring].
    rewrite (root_cong n (- c * m) 0); auto; [rewrite root_0; ring|].
    replace (- c * m - 0) with (- c * m) by ring. rewrite Z.mul_mod, E, Z.mul_0_r by lia. apply Zmod_0_l.
  - intros y _. rewrite <- root_add. f_equal. ring.
Qed.
Definition shifted (ks js js' : list Z) : bool :=
  match ks, js, js' with
  | [ky; kx], [j; i], [j'; i'] => ((j - j' - (ky - c)) mod n =? 0) && ((i - i' - (kx - c)) mod n =? 0)
  | _, _, _ => false
  end.
Lemma triple ks js js' : inb [n; n] ks -> inb [n; n] js -> inb [n; n] js' ->
  Csum P (fun ix => k22 (kcen (-1)) ks ix *c (k22 kpsf ix js *c Cconj (k22 kpsf ix js'))) =
  if shifted ks js js' then RtoC (IZR (n * n)) else RtoC 0.
Proof.
  intros H1 H2 H3. destruct (inb2_inv _ _ _ H1) as (ky & kx & -> & _ & _). destruct (inb2_inv _ _ _ H2) as (j & i & -> & _ & _).
  destruct (inb2_inv _ _ _ H3) as (j' & i' & -> & _ & _).
  transitivity (Csum (zseq n) (fun y => root n ((y - c) * (j - j' - (ky - c)))) *c
                Csum (zseq n) (fun x => root n ((x - c) * (i - i' - (kx - c))))).
  - unfold P. rewrite Csum_all_ix_cons, Csum_prod. apply Csum_ext. intros y _. rewrite Csum_all_ix_cons. apply Csum_ext. intros x _.
    cbn [Csum all_ix k22]. rewrite Cconj_mult. unfold kcen, kpsf. rewrite !root_conj. fold c.
    transitivity (root n (-1 * ((y - c) * (ky - c)) + (j * (y - c) + - (j' * (y - c)))) *c
                  root n (-1 * ((x - c) * (kx - c)) + (i * (x - c) + - (i' * (x - c))))).
    + rewrite !root_add. ring.
    + f_equal; f_equal; ring.
  - rewrite !cen_sum. unfold shifted.
    destruct (_ =? 0); cbn [andb]; [|ring]. destruct (_ =? 0); [|ring]. rewrite mult_IZR, RtoC_mult. ring.
Qed.
Lemma autocorrelation f ks : inb [n; n] ks ->
  mop (kcen (-1)) [true; true] [n; n] (fun ix => RtoC (Cnorm2 (mop kpsf [true; true] [n; n] f ix))) ks =
  RtoC (IZR (n * n)) *c
  Csum P (fun js => Csum P (fun js' => if shifted ks js js' then f js *c Cconj (f js') else RtoC 0)).
Proof.
  intros Hk. rewrite mop_flat by auto.
  transitivity (Csum P (fun ix => Csum P (fun js => Csum P (fun js' =>
     (f js *c Cconj (f js')) *c (k22 (kcen (-1)) ks ix *c (k22 kpsf ix js *c Cconj (k22 kpsf ix js'))))))).
  - apply Csum_ext. intros ix Hi. apply in_all_ix in Hi. rewrite Cnorm2_conj, mop_flat by auto.
    rewrite Csum_conj, Csum_prod, <- Csum_scal_l. apply Csum_ext. intros js _. rewrite <- Csum_scal_l. apply Csum_ext. intros js' _.
    rewrite Cconj_mult. ring.
  - rewrite Csum_swap. rewrite <- Csum_scal_l. apply Csum_ext. intros js Hj. rewrite Csum_swap. rewrite <- Csum_scal_l.
    apply Csum_ext. intros js' Hj'. apply in_all_ix in Hj, Hj'. rewrite Csum_scal_l, triple by auto. destruct (shifted _ _ _); ring.
Qed.
End N.

(** A separable 3-d transform, plane by plane. *)
Lemma mop3 K nz n f kz ky kx :
  mop K [true; true; true] [nz; n; n] f [kz; ky; kx] =
  Csum (zseq nz) (fun z => K nz kz z *c mop K [true; true] [n; n] (fun ix => f (z :: ix)) [ky; kx]).
Proof. reflexivity. Qed.

Section H.
Context (h : hpar) (Hph : physical h).
Let n := h_size h.

Lemma otfi_val base A kz ky kx : gen_psf h base = Ok A -> (forall P, base = Some P -> on_grid h P) ->
  0 <= kz < Z.of_nat (length (h_zrange h)) -> 0 <= ky < n -> 0 <= kx < n ->
  get (otfi_of (sumsq A)) [kz; ky; kx] =
  Csum (zseq (Z.of_nat (length (h_zrange h)))) (fun z => kcen (-1) (Z.of_nat (length (h_zrange h))) kz z *c
    Csum (zseq (components (h_vec h))) (fun comp => RtoC (/ IZR (n * n)) *c
      Csum (all_ix [n; n]) (fun js => Csum (all_ix [n; n]) (fun js' =>
        if shifted n [ky; kx] js js' then pupf h (used_pupil h base) comp z js *c Cconj (pupf h (used_pupil h base) comp z js') else RtoC 0)))).
Proof.
  intros HA Hg Hz Hy Hx. pose proof (n_pos h Hph) as Hn. fold n in Hn.
  destruct (gen_psf_val h Hph _ _ HA Hg) as [Hs Hv]. unfold otfi_of.
  assert (Hsh : shape (complexify (sumsq A)) = [Z.of_nat (length (h_zrange h)); n; n]) by (cbn; now rewrite Hs).
  rewrite easy_fft_mop; rewrite Hsh; [|repeat constructor; auto; lia].
  cbn [length axes_mask repeat]. rewrite mop3. apply Csum_ext. intros z _. f_equal.
  assert (Hin : inb [n; n] [ky; kx]) by now apply inb2.
  rewrite (mop_ext _ _ _ _ (fun ix => Csum (zseq (components (h_vec h))) (fun comp => RtoC (/ IZR (n * n) * / IZR (n * n)) *c
     RtoC (Cnorm2 (mop kpsf [true; true] [n; n] (pupf h (used_pupil h base) comp z) ix))))); auto.
  - rewrite mop_lin. apply Csum_ext. intros comp _. rewrite autocorrelation by auto.
    rewrite Cmult_assoc, <- RtoC_mult. f_equal. f_equal. field. pose proof (n2_pos h Hph). fold n in H. lra.
  - intros ix Hi. destruct (inb2_inv _ _ _ Hi) as (y & x & -> & Hy' & Hx').
    change (get (complexify (sumsq A)) [z; y; x]) with (RtoC (get (sumsq A) [z; y; x])).
    rewrite (psfi_val h Hph base) by auto. fold n. rewrite Csum_RtoC. apply Csum_ext. intros comp _. now rewrite RtoC_mult.
Qed.

(** pixels of the two supports differ by the frequency *)
Lemma otfi_zero base A kz ky kx : gen_psf h base = Ok A -> (forall P, base = Some P -> on_grid h P) ->
  0 <= kz < Z.of_nat (length (h_zrange h)) -> 0 <= ky < n -> 0 <= kx < n ->
  (forall j i j' i', 0 <= j < n -> 0 <= i < n -> 0 <= j' < n -> 0 <= i' < n ->
     (j - j' - (ky - n / 2)) mod n = 0 -> (i - i' - (kx - n / 2)) mod n = 0 ->
     used_pupil h base j i = RtoC 0 \/ used_pupil h base j' i' = RtoC 0) ->
  get (otfi_of (sumsq A)) [kz; ky; kx] = RtoC 0.
Proof.
  intros HA Hg Hz Hy Hx H0. rewrite (otfi_val base) by auto.
  apply Csum_zero. intros z _. rewrite Csum_zero; [ring|]. intros comp _. rewrite Csum_zero; [ring|].
  intros js Hj. apply Csum_zero. intros js' Hj'. apply in_all_ix in Hj, Hj'.
  destruct (inb2_inv _ _ _ Hj) as (j & i & -> & J & I). destruct (inb2_inv _ _ _ Hj') as (j' & i' & -> & J' & I').
  unfold shifted. destruct (Z.eqb_spec ((j - j' - (ky - n / 2)) mod n) 0) as [E1|]; auto.
  destruct (Z.eqb_spec ((i - i' - (kx - n / 2)) mod n) 0) as [E2|]; auto. cbn [andb].
  unfold pupf, pup. destruct (H0 j i j' i' J I J' I' E1 E2) as [->| ->]; [ring|].
  rewrite !Cmult_0_l. replace (Cconj (RtoC 0)) with (RtoC 0) by (unfold Cconj, RtoC; cbn; f_equal; ring). ring.
Qed.

(** wrapping only shrinks a frequency difference *)
Lemma wrap_shrinks d s : - (n / 2) <= s < n - n / 2 -> (d - s) mod n = 0 -> Z.abs s <= Z.abs d.
Proof.
  intros Hs Hd. pose proof (n_pos h Hph) as Hn. fold n in Hn. apply Z.mod_divide in Hd; [|lia]. destruct Hd as [q Hq].
  pose proof (Z.div_mod n 2 ltac:(lia)). pose proof (Z.mod_pos_bound n 2 ltac:(lia)).
  destruct (Z.lt_trichotomy q 0) as [H'|[->|H']]; [|lia|].
  - assert (q * n <= - n) by nia. lia.
  - assert (n <= q * n) by nia. lia.
Qed.
Local Open Scope R_scope.
Lemma radius j i j' i' ky kx : (0 <= ky < n)%Z -> (0 <= kx < n)%Z ->
  ((j - j' - (ky - n / 2)) mod n = 0)%Z -> ((i - i' - (kx - n / 2)) mod n = 0)%Z ->
  in_aperture h j i -> in_aperture h j' i' ->
  (IZR (ky - n / 2) / (IZR n * h_res h)) ^ 2 + (IZR (kx - n / 2) / (IZR n * h_res h)) ^ 2 < (2 * h_na h / h_wl h) ^ 2.
Proof.
  intros Hy Hx Ey Ex H1 H2. pose proof (n_pos h Hph) as Hn. fold n in Hn.
  assert (W : forall a a' k, (0 <= k < n)%Z -> ((a - a' - (k - n / 2)) mod n = 0)%Z ->
     (IZR (k - n / 2)) ^ 2 <= (IZR (six h a) - IZR (six h a')) ^ 2).
  { intros a a' k Hk E. assert (Hab : (Z.abs (k - n / 2) <= Z.abs (six h a - six h a'))%Z).
    { apply wrap_shrinks; [lia|]. pose proof (six_cong h Hph a) as Ca. pose proof (six_cong h Hph a') as Ca'. fold n in Ca, Ca'.
      apply Z.mod_divide in Ca, Ca', E; try lia. destruct Ca as [p Hp], Ca' as [q Hq], E as [r Hr].
      replace (six h a - six h a' - (k - n / 2))%Z with ((p - q + r) * n)%Z by lia. apply Z_mod_mult. }
    rewrite <- minus_IZR. apply IZR_le in Hab. rewrite !abs_IZR in Hab.
    rewrite <- (pow2_abs (IZR (k - n / 2))), <- (pow2_abs (IZR (six h a - six h a'))).
    apply pow_incr. split; [apply Rabs_pos|auto]. }
  pose proof (W j j' ky Hy Ey) as Wy. pose proof (W i i' kx Hx Ex) as Wx.
  destruct Hph as (Hw & Hna & _ & Hr & _). unfold in_aperture, k2 in H1, H2. fold n in H1, H2. unfold n in H1, H2. rewrite !sfreq_six in H1, H2. fold n in H1, H2.
  assert (HnR : 0 < IZR n) by (apply IZR_lt; auto).
  assert (Hd : 0 < IZR n * h_res h) by nra. set (D := IZR n * h_res h) in *. unfold Rdiv in *.
  assert (HI : 0 < / D) by now apply Rinv_0_lt_compat. set (u := / D) in *.
  assert (Ha : 0 <= h_na h * / h_wl h) by (apply Rmult_le_pos; [auto|left; now apply Rinv_0_lt_compat]).
  set (a := h_na h * / h_wl h) in *. replace (2 * h_na h * / h_wl h) with (2 * a) by (unfold a; ring).
  set (sj := IZR (six h j)) in *. set (si := IZR (six h i)) in *. set (sj' := IZR (six h j')) in *. set (si' := IZR (six h i')) in *.
  apply Rle_lt_trans with (((sj - sj') * u) ^ 2 + ((si - si') * u) ^ 2).
  - rewrite !Rpow_mult_distr. assert (0 <= u ^ 2) by nra. nra.
  - replace (sj * u * (sj * u)) with ((sj * u) ^ 2) in * by ring. replace (si * u * (si * u)) with ((si * u) ^ 2) in * by ring.
    replace (sj' * u * (sj' * u)) with ((sj' * u) ^ 2) in * by ring. replace (si' * u * (si' * u)) with ((si' * u) ^ 2) in * by ring.
    rewrite !Rmult_minus_distr_r. set (p := sj * u) in *. set (q := si * u) in *. set (p' := sj' * u) in *. set (q' := si' * u) in *.
    clearbody p q p' q' a. clear - H1 H2 Ha.
    pose proof (pow2_ge_0 (p + p')). pose proof (pow2_ge_0 (q + q')). nra.
Qed.
End H.
