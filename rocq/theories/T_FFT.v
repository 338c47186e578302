(** easy_fft and easy_ifft (pyotf/utils.py:157-164). *)
From Verif Require Import M_FFT S_FFT L_Array L_Sum L_FFT L_FFT2.
Local Open Scope Z_scope.

Lemma axes_mask_marks axes nd : marks axes nd (axes_mask nd axes).
Proof.
  destruct axes as [l|]; unfold marks, axes_mask, requested.
  - split; [now rewrite map_length, seq_length|]. intros i Hi. rewrite (nth_indep _ false (existsb (Nat.eqb nd) l)) by now rewrite map_length, seq_length.
    rewrite (map_nth (fun i => existsb (Nat.eqb i) l)) with (d := nd), seq_nth by auto. cbn [Nat.add].
    rewrite existsb_exists. split.
    + intros (x & Hx & E). apply Nat.eqb_eq in E. now subst.
    + intros H. exists i. split; auto. apply Nat.eqb_refl.
  - split; [apply repeat_length|]. intros i Hi. rewrite (nth_indep _ false true) by now rewrite repeat_length. rewrite nth_repeat. tauto.
Qed.
Lemma marks_unique axes nd m : marks axes nd m -> m = axes_mask nd axes.
Proof.
  intros [L H]. destruct (axes_mask_marks axes nd) as [L' H']. apply nth_ext with false false; [congruence|].
  intros i Hi. rewrite L in Hi. specialize (H i Hi). specialize (H' i Hi).
  destruct (nth i m false), (nth i (axes_mask nd axes) false); tauto || (symmetry; tauto).
Qed.

(** ** C07: easy_fft is the centred discrete Fourier transform over the requested axes. *)
Lemma centred_transform :
  forall (axes : option (list nat)) (a : array C) (ks : list Z),
    inb (shape a) ks ->
    shape (easy_fft axes a) = shape a /\
    get (easy_fft axes a) ks = fourier_sum (axes_mask (length (shape a)) axes) (shape a) (get a) ks.
Proof.
  intros axes a ks Hk. split; [reflexivity|]. now rewrite easy_fft_mop, mop_fourier.
Qed.

Theorem C07_linear :
  forall (axes : option (list nat)) (sh : list Z) (f g : list Z -> C) (c d : C) (ks : list Z),
    inb sh ks ->
    get (easy_fft axes (mkArr sh (fun ix => Cplus (Cmult c (f ix)) (Cmult d (g ix))))) ks =
    Cplus (Cmult c (get (easy_fft axes (mkArr sh f)) ks)) (Cmult d (get (easy_fft axes (mkArr sh g)) ks)).
Proof. intros. rewrite !easy_fft_mop by auto. cbn [shape get]. now rewrite mop_plus, !mop_scal. Qed.
Print Assumptions C07_linear.

(** value at the centre = sum of the data (over the transformed axes) *)
Lemma centre_sum :
  forall (axes : option (list nat)) (a : array C) (ks : list Z),
    inb (shape a) ks ->
    let m := axes_mask (length (shape a)) axes in
    get (easy_fft axes a) (at_centre m (shape a) ks) = Csum (box m (shape a) ks) (get a).
Proof.
  intros axes a ks Hk m. rewrite easy_fft_mop by now apply inb_at_centre. now apply mop_centre.
Qed.

(** Parseval *)
Lemma energy_sum :
  forall (axes : option (list nat)) (a : array C),
    Forall (fun n => 0 < n) (shape a) ->
    Rsum (all_ix (shape a)) (fun ks => Cnorm2 (get (easy_fft axes a) ks)) =
    (IZR (points (axes_mask (length (shape a)) axes) (shape a)) *
     Rsum (all_ix (shape a)) (fun ks => Cnorm2 (get a ks)))%R.
Proof.
  intros axes a Hp. rewrite <- masked_points.
  rewrite <- (mop_energy (kcen (-1))); auto.
  - apply Rsum_ext. intros ks Hk. apply in_all_ix in Hk. now rewrite easy_fft_mop.
  - intros. apply kcen_unitary; auto.
Qed.

(** Hermitian symmetry for real data *)
Lemma hermitian_mask :
  forall (axes : option (list nat)) (a : array C) (ks : list Z),
    inb (shape a) ks -> (forall ix, inb (shape a) ix -> Im (get a ix) = 0%R) ->
    let m := axes_mask (length (shape a)) axes in
    get (easy_fft axes a) (mirror m (shape a) ks) = Cconj (get (easy_fft axes a) ks).
Proof.
  intros axes a ks Hk Hr m. rewrite !easy_fft_mop by (auto; now apply inb_mirror). fold m.
  rewrite mop_mirror by auto. rewrite (mop_conj (kcen (-1)) (kcen 1) (fun x => x)).
  - apply mop_ext; auto. intros js Hj. specialize (Hr js Hj). destruct (get a js) as [x y]. unfold Im in Hr. cbn in Hr. subst.
    unfold Cconj. cbn. now rewrite Ropp_0.
  - intros n k j. unfold kcen. rewrite root_conj. f_equal. ring.
Qed.

(** no value exceeds the sum of magnitudes *)
Lemma bounded_mask :
  forall (axes : option (list nat)) (a : array C) (ks : list Z),
    inb (shape a) ks ->
    (Cmod (get (easy_fft axes a) ks) <= Rsum (box (axes_mask (length (shape a)) axes) (shape a) ks) (fun js => Cmod (get a js)))%R.
Proof.
  intros axes a ks Hk. rewrite easy_fft_mop by auto. apply mop_bound. intros n k j. unfold kcen. rewrite root_mod1. lra.
Qed.

(** ** C06: the round trip *)
Lemma round_trip_mask :
  forall (axes : option (list nat)) (a : array C) (ks : list Z),
    inb (shape a) ks ->
    let m := axes_mask (length (shape a)) axes in
    get (easy_ifft axes (easy_fft axes a)) ks =
    Cmult (cis (- (2 * PI * trip_turns m (shape a) ks))) (get a (trip_index m (shape a) ks)).
Proof. intros. now apply round_trip. Qed.

Lemma even_axes_mask :
  forall (axes : option (list nat)) (a : array C),
    (forall i n, nth_error (shape a) i = Some n ->
       nth_error (axes_mask (length (shape a)) axes) i = Some true -> Z.even n = true) ->
    arr_eq (easy_ifft axes (easy_fft axes a)) a.
Proof.
  intros axes a He. split; [reflexivity|]. intros ks Hk. change (inb (shape a) ks) in Hk.
  rewrite round_trip by auto. cbn zeta. set (m := axes_mask _ _) in *. clearbody m.
  assert (H : trip_turns m (shape a) ks = 0%R /\ trip_index m (shape a) ks = ks).
  { revert ks Hk He. generalize (shape a). intros sh. revert sh. induction m as [|b m IH]; intros sh ks Hk He; cbn [trip_turns trip_index]; auto.
    destruct sh as [|n sh]; [destruct ks; auto|]. destruct (inb_cons_inv _ _ _ Hk) as (k & r & -> & Hn & Hr).
    destruct (IH sh r Hr) as [-> ->]. { intros i n' H1 H2. apply (He (S i) n'); auto. }
    assert (Hb : b && Z.odd n = false).
    { destruct b; auto. specialize (He O n eq_refl eq_refl). rewrite <- Z.negb_odd in He. now destruct (Z.odd n). }
    rewrite Hb. split; [apply Rplus_0_r|reflexivity]. }
  destruct H as [-> ->]. rewrite Rmult_0_r, Ropp_0, cis_0. apply Cmult_1_l.
Qed.

Theorem C07_centred_transform :
  forall (axes : option (list nat)) (a : array C) (m : list bool) (ks : list Z),
    marks axes (length (shape a)) m -> inb (shape a) ks ->
    shape (easy_fft axes a) = shape a /\
    get (easy_fft axes a) ks = fourier_sum m (shape a) (get a) ks.
Proof. intros axes a m ks ->%marks_unique Hk. now apply centred_transform. Qed.
Print Assumptions C07_centred_transform.
(** value at the centre = sum of the data (over the transformed axes) *)
Theorem C07_dc :
  forall (axes : option (list nat)) (a : array C) (m : list bool) (ks : list Z),
    marks axes (length (shape a)) m -> inb (shape a) ks ->
    get (easy_fft axes a) (at_centre m (shape a) ks) = Csum (box m (shape a) ks) (get a).
Proof. intros axes a m ks ->%marks_unique Hk. now apply centre_sum. Qed.
Print Assumptions C07_dc.
(** Parseval *)
Theorem C07_energy :
  forall (axes : option (list nat)) (a : array C) (m : list bool),
    marks axes (length (shape a)) m -> Forall (fun n => 0 < n) (shape a) ->
    Rsum (all_ix (shape a)) (fun ks => Cnorm2 (get (easy_fft axes a) ks)) =
    (IZR (points m (shape a)) * Rsum (all_ix (shape a)) (fun ks => Cnorm2 (get a ks)))%R.
Proof. intros axes a m ->%marks_unique Hp. now apply energy_sum. Qed.
Print Assumptions C07_energy.
(** Hermitian symmetry for real data *)
Theorem C07_hermitian :
  forall (axes : option (list nat)) (a : array C) (m : list bool) (ks : list Z),
    marks axes (length (shape a)) m -> inb (shape a) ks -> (forall ix, inb (shape a) ix -> Im (get a ix) = 0%R) ->
    get (easy_fft axes a) (mirror m (shape a) ks) = Cconj (get (easy_fft axes a) ks).
Proof. intros axes a m ks ->%marks_unique Hk Hr. now apply hermitian_mask. Qed.
Print Assumptions C07_hermitian.
(** no value exceeds the sum of magnitudes *)
Theorem C07_bounded :
  forall (axes : option (list nat)) (a : array C) (m : list bool) (ks : list Z),
    marks axes (length (shape a)) m -> inb (shape a) ks ->
    (Cmod (get (easy_fft axes a) ks) <= Rsum (box m (shape a) ks) (fun js => Cmod (get a js)))%R.
Proof. intros axes a m ks ->%marks_unique Hk. now apply bounded_mask. Qed.
Print Assumptions C07_bounded.
Theorem C06_round_trip :
  forall (axes : option (list nat)) (a : array C) (m : list bool) (ks : list Z),
    marks axes (length (shape a)) m -> inb (shape a) ks ->
    get (easy_ifft axes (easy_fft axes a)) ks =
    Cmult (cis (- (2 * PI * trip_turns m (shape a) ks))) (get a (trip_index m (shape a) ks)).
Proof. intros axes a m ks ->%marks_unique Hk. now apply round_trip_mask. Qed.
Print Assumptions C06_round_trip.
Lemma nth_error_marks axes nd i : nth_error (axes_mask nd axes) i = Some true -> requested axes i.
Proof.
  intros H. destruct (axes_mask_marks axes nd) as [L M].
  assert (Hi : (i < nd)%nat) by (rewrite <- L; apply nth_error_Some; congruence).
  apply (M i Hi). now apply nth_error_nth.
Qed.
Theorem C06_even_axes_identity :
  forall (axes : option (list nat)) (a : array C),
    (forall i n, nth_error (shape a) i = Some n -> requested axes i -> Z.even n = true) ->
    arr_eq (easy_ifft axes (easy_fft axes a)) a.
Proof. intros axes a He. apply even_axes_mask. intros i n H1 H2. apply (He i n H1). now apply nth_error_marks in H2. Qed.
Print Assumptions C06_even_axes_identity.
(** An axis that is not asked for is carried along: the transform of each slice of the data is that slice of the transform. *)
Example C07_marks_witness : marks (Some [1%nat]) 3 [false; true; false] /\ marks None 2 [true; true].
Proof.
  split; split; try reflexivity; intros [|[|[|i]]] Hi; cbn; split; intros H; try discriminate; try tauto; try lia;
    destruct H as [H|H]; try discriminate; tauto.
Qed.

(** A 1-d odd axis is not restored: a unit impulse at 0 comes back at 1. *)
Theorem C06_odd_axis_refuted :
  exists a : array C, shape a = [3] /\ ~ arr_eq (easy_ifft None (easy_fft None a)) a.
Proof.
  exists (mkArr [3] (fun ix => match ix with [0] => RtoC 1 | _ => RtoC 0 end)). split; [reflexivity|].
  intros [_ H]. specialize (H [1]). rewrite round_trip in H by (repeat constructor; cbn; lia).
  assert (Hin : inb [3] [1]) by (repeat constructor; lia). specialize (H Hin). cbn in H.
  rewrite Cmult_1_r in H. exact (cis_neq_0 _ H).
Qed.
Print Assumptions C06_odd_axis_refuted.

Example C06_even_case : arr_eq (easy_ifft (Some [1%nat]) (easy_fft (Some [1%nat]) (mkArr [3; 4] (fun ix => RtoC (IZR (ravel [3; 4] ix))))))
                               (mkArr [3; 4] (fun ix => RtoC (IZR (ravel [3; 4] ix)))).
Proof.
  apply C06_even_axes_identity. intros [|[|[|i]]] n H1 H2; cbn in *; try discriminate; try congruence; try (destruct H2; [discriminate|tauto]).
  now injection H1 as <-.
Qed.
