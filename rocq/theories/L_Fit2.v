(** Reconstruction from slices of coefficients; fields of results. *)
From Verif Require Import S_PSF S_Fit L_Array L_Sum L_FFT L_FFT2 L_Polar L_PSF L_Hanser L_Hanser2 L_Hanser3 L_Hanser4 L_Aberr L_Aberr3 L_Phase L_Phase2 L_Phase3 L_Phase4 L_Phase5 L_Phase6 L_Phase7 L_Phase8 L_Fit T_Zernike T_Object T_Phase.
Import M_Array.
Local Open Scope R_scope.

Lemma bounds n s : norm_start n s = slice_bound n (sl_start s) 0 /\ norm_stop n s = slice_bound n (sl_stop s) n.
Proof.
  assert (N : forall v, norm_bound n v = if (v <? 0)%Z then Z.max 0 (n + v) else Z.min n v) by (intros v; unfold norm_bound; destruct (v <? 0)%Z; lia).
  destruct s as [[a|] [b|]]; unfold norm_start, norm_stop, slice_bound; cbn [sl_start sl_stop]; rewrite ?N; auto.
Qed.
Lemma bound_range n v d : (0 <= n)%Z -> (0 <= d <= n)%Z -> (0 <= slice_bound n v d <= n)%Z.
Proof. intros Hn Hd. unfold slice_bound. destruct v as [v|]; [destruct (Z.ltb_spec v 0); lia|lia]. Qed.
Lemma Rsum_window m a b (f : Z -> R) : (0 <= a <= m)%Z -> (0 <= b <= m)%Z ->
  Rsum (zseq (Z.max 0 (b - a))) (fun i => f (a + i)%Z) = Rsum (zseq m) (fun i => (if Z.leb a i then if Z.ltb i b then 1 else 0 else 0) * f i).
Proof.
  intros Ha Hb. destruct (Z_le_gt_dec b a) as [H|H].
  - replace (Z.max 0 (b - a)) with 0%Z by lia. change (zseq 0) with (@nil Z). cbn [Rsum]. symmetry. apply Rsum_zero. intros i _. destruct (Z.leb_spec a i); [|ring]. destruct (Z.ltb_spec i b); [lia|ring].
  - rewrite Z.max_r by lia. unfold zseq. rewrite !Rsum_map.
    replace (Z.to_nat m) with (Z.to_nat a + (Z.to_nat (b - a) + Z.to_nat (m - b)))%nat by lia. rewrite !seq_app, !Rsum_app.
    rewrite (Rsum_zero (seq 0 (Z.to_nat a))); [|intros i Hi; apply in_seq in Hi; destruct (Z.leb_spec a (Z.of_nat i)); [lia|ring]].
    rewrite (Rsum_zero (seq _ (Z.to_nat (m - b)))); [|intros i Hi; apply in_seq in Hi; destruct (Z.leb_spec a (Z.of_nat i)); [|ring]; destruct (Z.ltb_spec (Z.of_nat i) b); [lia|ring]].
    cbn [Nat.add]. rewrite Rplus_0_l, Rplus_0_r. replace (seq (Z.to_nat a) (Z.to_nat (b - a))) with (map (fun i => (Z.to_nat a + i)%nat) (seq 0 (Z.to_nat (b - a)))).
    + rewrite Rsum_map. apply Rsum_ext. intros i Hi. apply in_seq in Hi. destruct (Z.leb_spec a (Z.of_nat (Z.to_nat a + i))); [|lia]. destruct (Z.ltb_spec (Z.of_nat (Z.to_nat a + i)) b); [|lia].
      rewrite Rmult_1_l. f_equal. lia.
    + clear. generalize (Z.to_nat (b - a)) as q. generalize (Z.to_nat a) as p. intros p q. revert p. induction q as [|q IH]; intros p; [reflexivity|]. cbn [seq map]. f_equal; [lia|]. rewrite <- seq_shift, map_map, <- (IH (S p)). apply map_ext. intros i. lia.
Qed.
Lemma slice_list_nth l s i : (0 <= i < slice_len (Z.of_nat (List.length l)) s)%Z ->
  nth (Z.to_nat i) (slice_list l s) 0 = nth (Z.to_nat (norm_start (Z.of_nat (List.length l)) s + i)) l 0.
Proof.
  intros Hi. unfold slice_list. set (n := Z.of_nat (List.length l)) in *. unfold zseq. rewrite map_map.
  rewrite (nth_indep _ 0 (nth (Z.to_nat (norm_start n s + Z.of_nat 0)) l 0)) by (rewrite map_length, seq_length; lia).
  rewrite (map_nth (fun x => nth (Z.to_nat (norm_start n s + Z.of_nat x)) l 0)), seq_nth by lia. f_equal. lia.
Qed.
Lemma slice_list_length l s : Z.of_nat (List.length (slice_list l s)) = slice_len (Z.of_nat (List.length l)) s.
Proof. unfold slice_list, zseq. rewrite !map_length, seq_length. unfold slice_len. lia. Qed.
Lemma recon_val cs zerns m ny nx s : shape zerns = [m; ny; nx] -> Z.of_nat (List.length cs) = m ->
  exists a, recon cs zerns s = Ok a /\ shape a = [ny; nx] /\
    forall y x, (0 <= y < ny)%Z -> (0 <= x < nx)%Z -> get a [y; x] = Rsum (zseq m) (fun i => picked m s i * (nth (Z.to_nat i) cs 0 * get zerns [i; y; x])).
Proof.
  intros Sz Hm. unfold recon, getitem. rewrite Sz. cbn [List.length Nat.ltb Nat.leb bind slice_shape]. unfold recon_from_zerns, bop, bshape. cbn [shape column].
  rewrite slice_list_length, Hm. set (L := slice_len m s). cbn [rev app bshape_rev]. 
  assert (B1 : forall q, bdim 1 q = Ok q) by (intros q; unfold bdim; destruct (Z.eqb_spec 1 q); [reflexivity|reflexivity]). rewrite !B1. cbn [bind]. rewrite bdim_same. cbn [bind rev app].
  eexists. split; [reflexivity|]. split; [reflexivity|]. intros y x Hy Hx. unfold sum0. cbn [get shape hd].
  assert (Hm0 : (0 <= m)%Z) by lia. destruct (bounds m s) as [E1 E2].
  pose proof (bound_range m (sl_start s) 0 Hm0 ltac:(lia)) as R1. pose proof (bound_range m (sl_stop s) m Hm0 ltac:(lia)) as R2.
  transitivity (Rsum (zseq L) (fun i => (fun j => nth (Z.to_nat j) cs 0 * get zerns [j; y; x]) (norm_start m s + i)%Z)).
  - apply Rsum_ext. intros i Hi. apply in_zseq_iff in Hi. unfold bget. cbn [shape column get]. rewrite slice_list_length, Hm. fold L. cbn [List.length Nat.sub skipn bixs slice_index].
    rewrite !(bix_in L), (bix_in ny), (bix_in nx) by auto. f_equal. rewrite slice_list_nth by (rewrite Hm; exact Hi). now rewrite Hm.
  - unfold L, slice_len. rewrite E1, E2. exact (Rsum_window m (slice_bound m (sl_start s) 0) (slice_bound m (sl_stop s) m) (fun j => nth (Z.to_nat j) cs 0 * get zerns [j; y; x]) R1 R2).
Qed.
Lemma picked_full m i : (0 <= i < m)%Z -> picked m full_slice i = 1.
Proof. intros Hi. unfold picked, full_slice. cbn [sl_start sl_stop slice_bound]. destruct (Z.leb_spec 0 i); [|lia]. destruct (Z.ltb_spec i m); [reflexivity|lia]. Qed.
(** what else a result holds *)
Lemma result_fields u data params k pt mt po r : fst (retrieve_phase u data params k pt mt po) = Ok r ->
  let h := hpar_of (obj_params (r_model r)) in
  r_r r = fftshift axes2 (mkArr [h_size h; h_size h] (fun ix => match ix with [y; x] => h_kr h y x | _ => 0 end)) /\
  r_theta r = fftshift axes2 (h_t h) /\ r_na r = h_na h /\ r_wl r = h_wl h.
Proof.
  intros H. destruct (retrieve_phase u data params k pt mt po) as [x d] eqn:E. cbn [fst] in H. subst x. apply retrieve_inv in E.
  destruct E as (nz & n & kk & model & pupil & Q & lines & o' & mg & ph & _ & _ & _ & _ & _ & _ & _ & _ & _ & ->). cbn [r_model r_r r_theta r_na r_wl mk_result]. repeat split.
Qed.
