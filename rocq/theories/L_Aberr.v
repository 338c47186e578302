From Verif Require Import M_Aberr S_Aberr L_Array L_Sum L_FFT L_FFT2 L_Polar L_Hanser L_Hanser2 L_Hanser3 L_Hanser4 T_Zernike.
Local Open Scope R_scope.

Lemma zmode_deg j r t : (1 <= j <= 120)%Z -> zmode j r t = zernike_at true (fst (deg j)) (snd (deg j)) r t.
Proof. intros Hj. unfold zmode. rewrite noll2degrees_val by (intros ? [<-|[]]; lia). cbn [map]. now destruct (deg j). Qed.
Lemma in_noll_upto k j : In j (noll_upto k) <-> (1 <= j <= Z.of_nat k)%Z.
Proof.
  unfold noll_upto. rewrite in_map_iff. split.
  - intros (i & <- & Hi). apply in_seq in Hi. lia.
  - intros Hj. exists (Z.to_nat (j - 1)). rewrite in_seq. lia.
Qed.
Lemma noll_upto_length k : List.length (noll_upto k) = k.
Proof. unfold noll_upto. now rewrite map_length, seq_length. Qed.
Lemma noll_upto_nth k i : (i < k)%nat -> nth_error (noll_upto k) i = Some (Z.of_nat i + 1)%Z.
Proof.
  intros H. unfold noll_upto. rewrite nth_error_map. rewrite (nth_error_nth' _ O) by now rewrite seq_length. cbn. rewrite seq_nth by auto. f_equal.
Qed.

Section H.
Context (h : hpar) (Hph : physical h) (Hna : 0 < h_na h).
Notation n := (h_size h).
Lemma r_nonneg y x : 0 <= h_kr h y x * h_wl h / h_na h.
Proof.
  destruct Hph as (Hw & _). apply Rmult_le_pos; [apply Rmult_le_pos; [apply kr_ge_0|lra]|left; now apply Rinv_0_lt_compat].
Qed.
Lemma r_spec y x : (0 <= y < n)%Z -> (0 <= x < n)%Z -> h_kr h y x * h_wl h / h_na h = pupil_r h y x.
Proof. intros Hy Hx. unfold pupil_r. now rewrite (kr_sqrt h Hph). Qed.
Lemma t_spec y x : (0 <= y < n)%Z -> (0 <= x < n)%Z -> h_phi h y x = pupil_t h y x.
Proof. intros Hy Hx. unfold h_phi, pupil_t. now rewrite !(hk_spec h Hph). Qed.
Lemma zern_ok k : (k <= 120)%nat -> exists out, zernike true (h_r h) (h_t h) (One (IVec (noll_upto k))) = Ok out /\ (
  (1 <= k)%nat ->
  shape out = filter (fun q => negb (q =? 1)%Z) [Z.of_nat k; n; n] /\
  forall i y x, (i < k)%nat -> (0 <= y < n)%Z -> (0 <= x < n)%Z ->
    get out (squeeze_ix [Z.of_nat k; n; n] [Z.of_nat i; y; x]) = zmode (Z.of_nat i + 1) (pupil_r h y x) (pupil_t h y x)).
Proof.
  intros Hk. assert (E : noll2degrees (NInts (noll_upto k)) = Ok (map deg (noll_upto k))).
  { apply noll2degrees_val. intros j Hj. apply in_noll_upto in Hj. lia. }
  assert (Hl : List.length (map deg (noll_upto k)) = k) by now rewrite map_length, noll_upto_length.
  assert (X : exists out, zernike true (h_r h) (h_t h) (One (IVec (noll_upto k))) = Ok out).
  { apply C23_success_iff; [exact I|]. exists (map deg (noll_upto k)). split; [now apply asks_js|]. split.
    - intros ix Hix. cbn [h_r shape] in Hix. destruct (inb2_inv _ _ _ Hix) as (y & x & -> & _ & _). cbn [h_r get]. apply r_nonneg.
    - split; [cbn; lia|]. split; [|intros; apply stretches_refl]. intros p q Hin. apply in_map_iff in Hin. destruct Hin as (j & Ej & Hj). apply in_noll_upto in Hj.
      destruct (deg_legal j ltac:(lia)) as (_ & Hl' & _). rewrite Ej in Hl'. exact Hl'. }
  destruct X as [out Ho]. exists out. split; [exact Ho|]. intros H1.
  destruct (C23_result true (h_r h) (h_t h) (One (IVec (noll_upto k))) (map deg (noll_upto k)) out I (asks_js _ _ E)) as (S1 & S2 & _); [|reflexivity|exact Ho|].
  { intros Hnil. rewrite Hnil in Hl. cbn in Hl. lia. }
  rewrite Hl in S1, S2. cbn [h_r shape] in S1, S2. split; [exact S1|]. intros i y x Hi Hy Hx.
  rewrite zmode_deg by lia. rewrite (S2 i (fst (deg (Z.of_nat i + 1))) (snd (deg (Z.of_nat i + 1))) [y; x]).
  - cbn [h_r h_t get]. now rewrite r_spec, t_spec by auto.
  - rewrite nth_error_map, noll_upto_nth by auto. cbn [option_map]. now destruct (deg _).
  - now apply inb2.
Qed.
End H.

(** zerns * coefs[:, None, None], zerns squeezed from shape (k, n, n) *)
Lemma column_product k n (out : array R) (F : nat -> Z -> Z -> R) c :
  List.length c = k -> (1 <= k)%nat -> (1 <= n)%Z -> (2 <= n)%Z \/ k = 1%nat ->
  shape out = filter (fun q => negb (q =? 1)%Z) [Z.of_nat k; n; n] ->
  (forall i y x, (i < k)%nat -> (0 <= y < n)%Z -> (0 <= x < n)%Z -> get out (squeeze_ix [Z.of_nat k; n; n] [Z.of_nat i; y; x]) = F i y x) ->
  exists B, bop Rmult out (column c) = Ok B /\ shape B = [Z.of_nat k; n; n] /\
    forall y x, (0 <= y < n)%Z -> (0 <= x < n)%Z -> get (sum0 B) [y; x] = Rsum (seq 0 k) (fun i => nth i c 0 * F i y x).
Proof.
  intros Hc Hk Hn Hs So Go.
  assert (K : exists B, bop Rmult out (column c) = Ok B /\ shape B = [Z.of_nat k; n; n] /\
    forall i y x, (i < k)%nat -> (0 <= y < n)%Z -> (0 <= x < n)%Z -> get B [Z.of_nat i; y; x] = F i y x * nth i c 0).
  { destruct (Z.eqb_spec n 1) as [E1|E1]; [|destruct (Nat.eqb_spec k 1) as [E2|E2]].
    - subst n. destruct Hs as [?|H]; [lia|]. rewrite H in *. clear H. rename Hc into H. cbn in So. unfold bop, bshape. rewrite So. cbn [column shape]. rewrite H. cbn.
      eexists. split; [reflexivity|]. split; [reflexivity|]. cbn [get]. intros i y x Hi Hy Hx. assert (i = 0%nat) by lia. assert (y = 0%Z) by lia. assert (x = 0%Z) by lia. subst.
      unfold bget. rewrite So. cbn [column shape]. rewrite H. cbn [List.length Nat.sub skipn bixs bix get]. rewrite <- (Go 0%nat 0%Z 0%Z) by lia. reflexivity.
    - rewrite E2 in *. clear k E2. rename Hc into E2. cbn [filter] in So. rewrite (proj2 (Z.eqb_neq n 1) E1) in So. cbn in So. unfold bop, bshape. rewrite So. cbn [column shape]. rewrite E2. cbn [rev app bshape_rev bind].
      unfold bdim. rewrite !(proj2 (Z.eqb_neq n 1) E1). cbn. eexists. split; [reflexivity|]. split; [reflexivity|]. cbn [get]. intros i y x Hi Hy Hx. assert (i = 0%nat) by lia. subst i.
      unfold bget. rewrite So. cbn [column shape]. rewrite E2. cbn [List.length Nat.sub skipn bixs get]. rewrite !(bix_in n) by auto. change (bix (Z.of_nat 1) (Z.of_nat 0)) with 0%Z. cbn [Z.to_nat].
      rewrite <- (Go 0%nat y x) by lia. cbn [squeeze_ix Z.of_nat Z.eqb Pos.eqb Pos.of_succ_nat]. rewrite (proj2 (Z.eqb_neq n 1) E1). reflexivity.
    - cbn [filter] in So. rewrite (proj2 (Z.eqb_neq n 1) E1), (proj2 (Z.eqb_neq (Z.of_nat k) 1) ltac:(lia)) in So. cbn in So. unfold bop, bshape. rewrite So. cbn [column shape]. rewrite Hc. cbn [rev app bshape_rev].
      rewrite bdim_same. unfold bdim. rewrite !(proj2 (Z.eqb_neq n 1) E1). cbn. eexists. split; [reflexivity|]. split; [reflexivity|]. cbn [get]. intros i y x Hi Hy Hx.
      unfold bget. rewrite So. cbn [column shape]. rewrite Hc. cbn [List.length Nat.sub skipn bixs get]. rewrite !(bix_in n) by auto. rewrite !(bix_in (Z.of_nat k)) by lia. rewrite Nat2Z.id.
      rewrite <- (Go i y x) by lia. cbn [squeeze_ix]. rewrite (proj2 (Z.eqb_neq n 1) E1), (proj2 (Z.eqb_neq (Z.of_nat k) 1) ltac:(lia)). reflexivity. }
  destruct K as (B & E & SB & GB). exists B. split; [exact E|]. split; [exact SB|]. intros y x Hy Hx. unfold sum0. cbn [get]. rewrite SB. cbn [hd].
  unfold zseq. rewrite Nat2Z.id, Rsum_map. apply Rsum_ext. intros i Hi. apply in_seq in Hi. rewrite GB by lia. ring.
Qed.
Lemma bop_same {A B D} (f : A -> B -> D) (a : array A) (b : array B) n :
  shape a = [n; n] -> shape b = [n; n] -> exists c, bop f a b = Ok c /\ shape c = [n; n] /\
    forall y x, (0 <= y < n)%Z -> (0 <= x < n)%Z -> get c [y; x] = f (get a [y; x]) (get b [y; x]).
Proof.
  intros Ha Hb. unfold bop, bshape. rewrite Ha, Hb. cbn [rev app bshape_rev]. rewrite !bdim_same. cbn. eexists. split; [reflexivity|]. split; [reflexivity|].
  intros y x Hy Hx. cbn [get]. unfold bget. rewrite Ha, Hb. cbn [List.length Nat.sub skipn bixs]. now rewrite !bix_in by auto.
Qed.
Lemma ibop_same {A B} (f : A -> B -> A) (a : array A) (b : array B) n :
  shape a = [n; n] -> shape b = [n; n] -> exists c, ibop f a b = Ok c /\ shape c = [n; n] /\
    forall y x, (0 <= y < n)%Z -> (0 <= x < n)%Z -> get c [y; x] = f (get a [y; x]) (get b [y; x]).
Proof.
  intros Ha Hb. destruct (bop_same f a b n Ha Hb) as (c & E & Sc & Gc). exists c. unfold ibop. rewrite E. cbn [bind]. rewrite Sc, Ha. cbn [zlist_eqb]. rewrite Z.eqb_refl. auto.
Qed.
