(** Least squares and the Zernike fit. *)
From Verif Require Import S_Fit L_Array L_Sum L_FFT L_FFT2 L_Polar L_PSF L_Hanser L_Hanser2 L_Hanser3 L_Hanser4 L_Aberr L_Aberr3 L_Phase L_Phase2 L_Phase3 L_Phase4 L_Phase5 L_Phase6 L_Phase7 L_Phase8 T_Zernike T_Object.
Import M_Array.
Local Open Scope R_scope.

(** ** rows and sums *)
Lemma Rsum_filter {X} (p : X -> bool) l f : Rsum (filter p l) f = Rsum l (fun x => if p x then f x else 0).
Proof. induction l as [|a l IH]; [reflexivity|]. cbn. destruct (p a); cbn; rewrite IH; ring. Qed.
Lemma sqerr_map {X} (l : list X) (F : X -> list R) (G : X -> R) x : sqerr (map F l) (map G l) x = Rsum l (fun p => (dot (F p) x - G p) ^ 2).
Proof. unfold sqerr. induction l as [|a l IH]; [reflexivity|]. cbn [map combine Rsum fst snd]. now rewrite IH. Qed.
Lemma dot_seq (F : nat -> R) : forall x s, dot (map F (seq s (List.length x))) x = Rsum (seq 0 (List.length x)) (fun i => nth i x 0 * F (s + i)%nat).
Proof.
  induction x as [|a x IH]; intros s; [reflexivity|]. cbn [List.length seq map]. unfold dot in *. cbn [combine Rsum fst snd]. rewrite IH, <- seq_shift, Rsum_map. cbn [nth].
  rewrite Nat.add_0_r, Rmult_comm. f_equal. apply Rsum_ext. intros i _. f_equal. f_equal. lia.
Qed.
Section Z.
Context (n : Z) (r t : array R) (Sr : shape r = [n; n]) (St : shape t = [n; n]) (Hr : forall y x, (0 <= y < n)%Z -> (0 <= x < n)%Z -> 0 <= get r [y; x]).
Lemma zern_gen k : (k <= 120)%nat -> exists out, zernike true r t (One (IVec (noll_upto k))) = Ok out /\ (
  (1 <= k)%nat ->
  shape out = filter (fun q => negb (q =? 1)%Z) [Z.of_nat k; n; n] /\
  forall i y x, (i < k)%nat -> (0 <= y < n)%Z -> (0 <= x < n)%Z ->
    get out (squeeze_ix [Z.of_nat k; n; n] [Z.of_nat i; y; x]) = zmode (Z.of_nat i + 1) (get r [y; x]) (get t [y; x])).
Proof.
  intros Hk. assert (E : noll2degrees (NInts (noll_upto k)) = Ok (map deg (noll_upto k))).
  { apply noll2degrees_val. intros j Hj. apply in_noll_upto in Hj. lia. }
  assert (Hl : List.length (map deg (noll_upto k)) = k) by now rewrite map_length, noll_upto_length.
  assert (X : exists out, zernike true r t (One (IVec (noll_upto k))) = Ok out).
  { apply C23_success_iff; [exact I|]. exists (map deg (noll_upto k)). split; [now apply asks_js|]. split.
    - intros ix Hix. rewrite Sr in Hix. destruct (inb2_inv _ _ _ Hix) as (y & x & -> & Hy & Hx). now apply Hr.
    - split; [rewrite Sr; cbn; lia|]. split; [|intros; rewrite St, Sr; apply stretches_refl]. intros p q Hin. apply in_map_iff in Hin. destruct Hin as (j & Ej & Hj). apply in_noll_upto in Hj.
      destruct (deg_legal j ltac:(lia)) as (_ & Hl' & _). rewrite Ej in Hl'. exact Hl'. }
  destruct X as [out Ho]. exists out. split; [exact Ho|]. intros H1.
  destruct (C23_result true r t (One (IVec (noll_upto k))) (map deg (noll_upto k)) out I (asks_js _ _ E)) as (S1 & S2 & _); [|congruence|exact Ho|].
  { intros Hnil. rewrite Hnil in Hl. cbn in Hl. lia. }
  rewrite Hl, Sr in S1, S2. split; [exact S1|]. intros i y x Hi Hy Hx.
  rewrite zmode_deg by lia. rewrite (S2 i (fst (deg (Z.of_nat i + 1))) (snd (deg (Z.of_nat i + 1))) [y; x]); [reflexivity| |now apply inb2].
  rewrite nth_error_map, noll_upto_nth by auto. cbn [option_map]. now destruct (deg _).
Qed.
Lemma zern_two k : (2 <= k <= 120)%nat -> (2 <= n)%Z -> exists out, zernike true r t (One (IVec (noll_upto k))) = Ok out /\ shape out = [Z.of_nat k; n; n] /\
  forall i y x, (i < k)%nat -> (0 <= y < n)%Z -> (0 <= x < n)%Z -> get out [Z.of_nat i; y; x] = zmode (Z.of_nat i + 1) (get r [y; x]) (get t [y; x]).
Proof.
  intros Hk Hn. destruct (zern_gen k ltac:(lia)) as (out & E & H). destruct (H ltac:(lia)) as [S1 S2]. exists out. split; [exact E|].
  assert (N1 : (Z.of_nat k =? 1)%Z = false) by (apply Z.eqb_neq; lia). assert (N2 : (n =? 1)%Z = false) by (apply Z.eqb_neq; lia).
  cbn [filter] in S1. rewrite N1, N2 in S1. cbn [negb] in S1. split; [exact S1|]. intros i y x Hi Hy Hx. rewrite <- (S2 i y x) by auto. cbn [squeeze_ix]. now rewrite N1, N2.
Qed.
Lemma fit_ok lstsq k out d : least_squares lstsq -> (1 <= k)%nat -> shape out = [Z.of_nat k; n; n] ->
  (forall i y x, (i < k)%nat -> (0 <= y < n)%Z -> (0 <= x < n)%Z -> get out [Z.of_nat i; y; x] = zmode (Z.of_nat i + 1) (get r [y; x]) (get t [y; x])) ->
  (exists y x, (0 <= y < n)%Z /\ (0 <= x < n)%Z /\ get r [y; x] <= 1) ->
  exists cs, fit_to_zerns lstsq d out r = Ok cs /\ List.length cs = k /\
    forall x, List.length x = k ->
      Rsum (all_ix [n; n]) (fun ix => if Rle_dec (get r ix) 1 then (mix cs (get r ix) (get t ix) - get d ix) ^ 2 else 0) <=
      Rsum (all_ix [n; n]) (fun ix => if Rle_dec (get r ix) 1 then (mix x (get r ix) (get t ix) - get d ix) ^ 2 else 0).
Proof.
  intros Hl Hk So Go (y0 & x0 & Hy0 & Hx0 & Hr0). unfold fit_to_zerns. rewrite So, Sr. cbn [zlist_eqb List.length Nat.eqb]. rewrite !Z.eqb_refl. cbn [andb].
  set (pts := fit_points r). set (F := fun ix => map (fun k0 => get out (k0 :: ix)) (zseq (Z.of_nat k))).
  assert (Hp : forall ix, In ix pts -> exists y x, ix = [y; x] /\ (0 <= y < n)%Z /\ (0 <= x < n)%Z).
  { intros ix Hix. unfold pts, fit_points in Hix. apply filter_In in Hix. destruct Hix as [Hix _]. rewrite Sr in Hix. apply in_all_ix in Hix. now apply inb2_inv. }
  assert (Ne : map F pts <> []).
  { intros X. apply map_eq_nil in X. assert (In [y0; x0] pts); [|rewrite X in *; contradiction]. unfold pts, fit_points. apply filter_In. split; [rewrite Sr; apply in_all_ix; now apply inb2|]. destruct (Rle_dec _ _); auto. }
  destruct (Hl (map F pts) (map (get d) pts) k) as [L1 L2]; [now rewrite !map_length|exact Ne|intros row Hrow; apply in_map_iff in Hrow; destruct Hrow as (ix & <- & _); unfold F; rewrite map_length; unfold zseq; rewrite map_length, seq_length; lia|].
  eexists. split; [reflexivity|]. fold pts. fold F. split; [exact L1|].
  assert (Q : forall x, List.length x = k -> sqerr (map F pts) (map (get d) pts) x = Rsum (all_ix [n; n]) (fun ix => if Rle_dec (get r ix) 1 then (mix x (get r ix) (get t ix) - get d ix) ^ 2 else 0)).
  { intros x Hx. rewrite sqerr_map. transitivity (Rsum pts (fun ix => (mix x (get r ix) (get t ix) - get d ix) ^ 2)).
    - apply Rsum_ext. intros ix Hix. destruct (Hp ix Hix) as (y & x' & -> & Hy & Hx'). f_equal. f_equal. unfold F, zseq. rewrite Nat2Z.id, map_map, <- Hx, (dot_seq (fun i => get out [Z.of_nat i; y; x'])).
      unfold mix. apply Rsum_ext. intros i Hi. apply in_seq in Hi. cbn [Nat.add]. rewrite Go by (auto; lia). reflexivity.
    - unfold pts, fit_points. rewrite Rsum_filter, Sr. apply Rsum_ext. intros ix _. destruct (Rle_dec _ _); reflexivity. }
  intros x Hx. rewrite <- (Q x Hx). rewrite <- Q by exact L1. now apply L2.
Qed.
End Z.
(** ** linear independence makes the minimiser unique when the misfit vanishes *)
Lemma misfit_zero h cs d : misfit h cs d <= 0 -> forall y x, (0 <= y < h_size h)%Z -> (0 <= x < h_size h)%Z -> rim_r h y x <= 1 -> combo h cs y x = get d [y; x].
Proof.
  intros H y x Hy Hx Hi. destruct (Req_dec (combo h cs y x) (get d [y; x])) as [|N]; auto. exfalso.
  assert (0 < misfit h cs d); [|lra]. unfold misfit.
  assert (P : forall y x, 0 <= (if Rle_dec (rim_r h y x) 1 then (combo h cs y x - get d [y; x]) ^ 2 else 0)) by (intros a b; destruct (Rle_dec _ _); [apply pow2_ge_0|lra]).
  apply (Rsum_pos _ _ y); [intros a _; apply Rsum_nonneg; auto|now apply in_zseq_iff|]. apply (Rsum_pos _ _ x); [auto|now apply in_zseq_iff|]. destruct (Rle_dec _ _); [|contradiction].
  assert (combo h cs y x - get d [y; x] <> 0) by lra. nra.
Qed.
Lemma mix_minus a b r t : List.length a = List.length b -> mix (map (fun p => fst p - snd p) (combine a b)) r t = mix a r t - mix b r t.
Proof.
  intros Hl. unfold mix. rewrite map_length, combine_length, <- Hl, Nat.min_id, <- Rsum_minus. apply Rsum_ext. intros i Hi. apply in_seq in Hi.
  assert (E : nth i (map (fun p : R * R => fst p - snd p) (combine a b)) 0 = nth i a 0 - nth i b 0).
  { transitivity ((fun p : R * R => fst p - snd p) (nth i (combine a b) (0, 0))); [|rewrite combine_nth by auto; reflexivity]. rewrite <- (map_nth (fun p : R * R => fst p - snd p)). cbn [fst snd]. now rewrite Rminus_0_r. }
  rewrite E. ring.
Qed.
Lemma unique_fit h k a b : independent h k -> List.length a = k -> List.length b = k ->
  (forall y x, (0 <= y < h_size h)%Z -> (0 <= x < h_size h)%Z -> rim_r h y x <= 1 -> combo h a y x = combo h b y x) -> a = b.
Proof.
  intros Hi Ha Hb H. assert (E : map (fun p => fst p - snd p) (combine a b) = repeat 0 k).
  { apply Hi; [rewrite map_length, combine_length; lia|]. intros y x Hy Hx Hr. unfold combo in *. rewrite mix_minus by congruence. rewrite H by auto. ring. }
  clear H Hi. revert b k Ha Hb E. induction a as [|p a IH]; intros [|q b] k Ha Hb E; cbn in *; try lia; auto. destruct k; [lia|]. cbn in E. injection E as E1 E2. f_equal; [lra|]. apply (IH b k); auto.
Qed.
