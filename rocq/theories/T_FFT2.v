(** C06: the other round trip. *)
From Verif Require Import M_FFT S_FFT S_FFT2 L_Array L_Sum L_FFT L_FFT2 T_FFT.
Local Open Scope Z_scope.
Local Notation "a *c b" := (Cmult a b) (at level 40, left associativity).
Local Notation "a +c b" := (Cplus a b) (at level 50, left associativity).

Lemma kernel_back n k i : 0 < n -> 0 <= k < n -> 0 <= i < n ->
  kcomp (kcen (-1)) kicen n k i = RtoC (IZR n) *c (root n (n / 2 * (k + i)) *c delta ((k - 2 * (n / 2)) mod n) i).
Proof.
  intros Hn Hk Hi. unfold kcomp, kicen, kcen.
  assert (Hm : 0 <= (k - 2 * (n / 2)) mod n < n) by now apply Z.mod_pos_bound.
  rewrite (Csum_ext _ _ (fun j => root n (n / 2 * (k + i)) *c root n (j * (i - (k - 2 * (n / 2)) mod n)))).
  - rewrite Csum_scal_l, root_orth by auto. unfold delta. rewrite (Z.eqb_sym i). ring.
  - intros j _. rewrite <- !root_add. apply root_cong; auto.
    replace (-1 * ((j - n / 2) * (k - n / 2)) + (i + n / 2) * (j + n / 2) - (n / 2 * (k + i) + j * (i - (k - 2 * (n / 2)) mod n)))
      with (j * ((k - 2 * (n / 2)) mod n - (k - 2 * (n / 2)))) by ring.
    pose proof (mod_self_cong n (k - 2 * (n / 2)) Hn) as H. apply Z.mod_divide in H; [|lia]. destruct H as [q ->]. rewrite Z.mul_assoc. apply Z_mod_mult.
Qed.
Lemma kback_val n k i : 0 < n -> 0 <= k < n -> 0 <= i < n ->
  root n (n / 2 * (k + i)) *c delta ((k - 2 * (n / 2)) mod n) i =
  if Z.odd n then root n (n / 2 - k) *c delta ((k + 1) mod n) i else delta k i.
Proof.
  intros Hn Hk Hi. pose proof (Zmod_odd n) as Ho. destruct (Z.odd n).
  - assert (E : (k - 2 * (n / 2)) mod n = (k + 1) mod n).
    { replace (k - 2 * (n / 2)) with (k + 1 + (-1) * n) by lia. apply Z_mod_plus_full. }
    rewrite E. unfold delta. destruct (Z.eqb_spec ((k + 1) mod n) i) as [E'|E']; [|ring].
    f_equal. subst i. apply root_cong; auto.
    pose proof (mod_self_cong n (k + 1) Hn) as H. apply Z.mod_divide in H; [|lia]. destruct H as [q Hq].
    replace ((k + 1) mod n) with (k + 1 + q * n) by lia.
    set (h := n / 2) in *. replace n with (2 * h + 1) by lia.
    replace (h * (k + (k + 1 + q * (2 * h + 1))) - (h - k)) with ((k + h * q) * (2 * h + 1)) by ring. apply Z_mod_mult.
  - assert (E : (k - 2 * (n / 2)) mod n = k).
    { replace (k - 2 * (n / 2)) with (k + (-1) * n) by lia. rewrite Z_mod_plus_full. now apply Z.mod_small. }
    rewrite E. unfold delta. destruct (Z.eqb_spec k i) as [->|E']; [|ring].
    replace (n / 2 * (i + i)) with (0 + i * n) by lia. rewrite root_period, root_0 by auto. ring.
Qed.
Lemma mop_back mask : forall sh f ks, inb sh ks ->
  mop (fun n k i => if Z.odd n then root n (n / 2 - k) *c delta ((k + 1) mod n) i else delta k i) mask sh f ks =
  cis (2 * PI * back_turns mask sh ks) *c f (back_index mask sh ks).
Proof.
  induction mask as [|b mask IH]; intros sh f ks Hk; cbn [mop back_turns back_index].
  - rewrite Rmult_0_r, cis_0. ring.
  - destruct sh as [|n sh]; [destruct ks; rewrite Rmult_0_r, cis_0; ring|].
    destruct (inb_cons_inv _ _ _ Hk) as (k & r & -> & Hn & Hr).
    destruct b; cbn [andb].
    + destruct (Z.odd n).
      * rewrite (Csum_ext _ _ (fun j => root n (n / 2 - k) *c (delta ((k + 1) mod n) j *c mop _ mask sh (fun js => f (j :: js)) r)))
          by (intros; apply eq_sym, Cmult_assoc).
        rewrite Csum_scal_l, (Csum_delta n ((k + 1) mod n) (fun j => mop _ mask sh (fun js => f (j :: js)) r)) by (apply Z.mod_pos_bound; lia).
        rewrite (IH sh (fun js => f (_ :: js))) by auto. rewrite Cmult_assoc. f_equal.
        unfold root. rewrite <- cis_add. f_equal. unfold Rdiv. ring.
      * rewrite (Csum_delta n k (fun j => mop _ mask sh (fun js => f (j :: js)) r)) by auto.
        rewrite (IH sh (fun js => f (k :: js))) by auto. f_equal. f_equal. ring.
    + rewrite (IH sh (fun js => f (k :: js))) by auto. f_equal. f_equal. ring.
Qed.
Lemma other_round_trip :
  forall (axes : option (list nat)) (a : array C) (ks : list Z),
    inb (shape a) ks ->
    let m := axes_mask (length (shape a)) axes in
    get (easy_fft axes (easy_ifft axes a)) ks = Cmult (cis (2 * PI * back_turns m (shape a) ks)) (get a (back_index m (shape a) ks)).
Proof.
  intros axes a ks Hk. cbn zeta. rewrite easy_fft_mop by auto. cbn [shape easy_ifft fftshift ifftn ifftshift].
  set (m := axes_mask _ _). set (sh := shape a) in *.
  rewrite (mop_ext (kcen (-1)) m sh _ (fun js => RtoC (/ IZR (masked_size m sh)) *c mop kicen m sh (get a) js) ks Hk).
  2:{ intros js Hjs. exact (easy_ifft_mop axes a js Hjs). }
  rewrite mop_scal, mop_comp.
  rewrite (mop_kernel _ (fun n k i => RtoC (IZR n) *c (if Z.odd n then root n (n / 2 - k) *c delta ((k + 1) mod n) i else delta k i)) m sh).
  - rewrite mop_kscaleN, mop_back by auto. rewrite Cmult_assoc, <- RtoC_mult, Rinv_l, Cmult_1_l; auto.
    apply not_0_IZR. pose proof (masked_size_pos m sh (inb_pos _ _ Hk)). lia.
  - auto.
  - intros n k i Hn H1 H2. assert (0 < n) by (apply (inb_in_pos sh ks); auto).
    rewrite kernel_back by auto. f_equal. now apply kback_val.
Qed.
(** With even axes easy_fft and easy_ifft are inverse to each other in both orders. *)
Lemma even_axes_other :
  forall (axes : option (list nat)) (a : array C),
    (forall i n, nth_error (shape a) i = Some n ->
       nth_error (axes_mask (length (shape a)) axes) i = Some true -> Z.even n = true) ->
    arr_eq (easy_fft axes (easy_ifft axes a)) a.
Proof.
  intros axes a He. split; [reflexivity|]. intros ks Hk. change (inb (shape a) ks) in Hk.
  rewrite other_round_trip by auto. cbn zeta. set (m := axes_mask _ _) in *. clearbody m.
  assert (H : back_turns m (shape a) ks = 0%R /\ back_index m (shape a) ks = ks).
  { revert m He ks Hk. induction (shape a) as [|n sh IH]; intros m He ks Hk; destruct m as [|b m]; cbn; auto.
    destruct (inb_cons_inv _ _ _ Hk) as (k & r & -> & Hn & Hr).
    destruct (IH m (fun i n' H1 H2 => He (S i) n' H1 H2) r Hr) as [-> ->].
    assert (b && Z.odd n = false) as ->; [|split; [ring|reflexivity]].
    destruct b; auto. cbn. specialize (He 0%nat n eq_refl eq_refl). now rewrite <- Z.negb_even, He. }
  destruct H as [-> ->]. rewrite Rmult_0_r, cis_0. ring.
Qed.
Theorem C06_other_round_trip :
  forall (axes : option (list nat)) (a : array C) (m : list bool) (ks : list Z),
    marks axes (length (shape a)) m -> inb (shape a) ks ->
    get (easy_fft axes (easy_ifft axes a)) ks = Cmult (cis (2 * PI * back_turns m (shape a) ks)) (get a (back_index m (shape a) ks)).
Proof. intros axes a m ks ->%marks_unique Hk. now apply other_round_trip. Qed.
Print Assumptions C06_other_round_trip.
Theorem C06_even_axes_other :
  forall (axes : option (list nat)) (a : array C),
    (forall i n, nth_error (shape a) i = Some n -> requested axes i -> Z.even n = true) ->
    arr_eq (easy_fft axes (easy_ifft axes a)) a.
Proof. intros axes a He. apply even_axes_other. intros i n H1 H2. apply (He i n H1). now apply nth_error_marks in H2. Qed.
Print Assumptions C06_even_axes_other.
(** On an odd axis the sum of easy_ifft's output is not the centre of the spectrum but the element after it. *)
Theorem C06_ifft_sum : forall (a : array C), Forall (fun n => 0 < n) (shape a) ->
  Csum (all_ix (shape a)) (get (easy_ifft None a)) = get a (map (fun n => if Z.odd n then (n / 2 + 1) mod n else n / 2) (shape a)).
Proof.
  intros a Hp. set (sh := shape a) in *. set (c := map (fun n => n / 2) sh).
  assert (Hc : inb sh c). { unfold c. clearbody sh. induction Hp as [|n sh Hn Hs IH]; cbn; [constructor|]. apply inb_cons. split; [|exact IH]. split; [apply Z.div_pos; lia|apply Z.div_lt; lia]. }
  assert (M : at_centre (repeat true (length sh)) sh c = c). { unfold c. clearbody sh. clear. induction sh as [|n sh IH]; cbn; [reflexivity|]. now rewrite IH. }
  pose proof (other_round_trip None a c Hc) as H. cbv zeta in H. cbn [axes_mask] in H. fold sh in H.
  rewrite easy_fft_mop in H by exact Hc. cbn [axes_mask] in H. change (shape (easy_ifft None a)) with sh in H.
  rewrite <- M in H at 1. rewrite mop_centre in H by exact Hc. rewrite box_all in H by exact Hc. rewrite H.
  assert (T : back_turns (repeat true (length sh)) sh c = 0%R /\ back_index (repeat true (length sh)) sh c = map (fun n => if Z.odd n then (n / 2 + 1) mod n else n / 2) sh).
  { unfold c. clearbody sh. clear. induction sh as [|n sh [I1 I2]]; cbn; [auto|]. rewrite I1, I2, Z.sub_diag. destruct (Z.odd n); split; auto; unfold Rdiv; ring. }
  destruct T as [-> ->]. rewrite Rmult_0_r, cis_0. ring.
Qed.
Print Assumptions C06_ifft_sum.
Definition spike : array C := mkArr [2; 3] (fun ix => match ix with [1; 2] => RtoC 5 | _ => RtoC 0 end).
Example C06_ifft_sum_witness : Csum (all_ix (shape spike)) (get (easy_ifft None spike)) = RtoC 5.
Proof. rewrite C06_ifft_sum by repeat constructor. reflexivity. Qed.
