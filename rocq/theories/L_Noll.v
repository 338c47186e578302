From Verif Require Import M_Zernike L_Array.
From Flocq Require Import Core.
From Coq Require Import Lra Lia.
Local Open Scope R_scope.

(** ** floating point *)
Lemma rnd64_repr z e : (Z.abs z < 2 ^ 53)%Z -> (-1074 <= e)%Z -> rnd64 (IZR z * bpow radix2 e) = IZR z * bpow radix2 e.
Proof.
  intros Hz He. unfold rnd64. apply round_generic; [apply valid_rnd_N|]. apply generic_format_FLT. exists (Float radix2 z e); auto.
Qed.
Lemma rnd64_int z : (Z.abs z < 2 ^ 53)%Z -> rnd64 (IZR z) = IZR z.
Proof. intros Hz. replace (IZR z) with (IZR z * bpow radix2 0) by (cbn; ring). now apply rnd64_repr. Qed.
Lemma rnd64_le x y : x <= y -> rnd64 x <= rnd64 y.
Proof. intros H. unfold rnd64. apply round_le; auto; [now apply FLT_exp_valid|apply valid_rnd_N]. Qed.
Lemma rnd64_frac z : (Z.abs z < 2 ^ 53)%Z -> rnd64 (IZR z / 2 ^ 23) = IZR z / 2 ^ 23.
Proof.
  intros Hz. replace (IZR z / 2 ^ 23) with (IZR z * bpow radix2 (-23)); [apply rnd64_repr; auto; lia|]. unfold Rdiv. f_equal.
  change (bpow radix2 (-23)) with (/ IZR (Z.pow_pos 2 23)). f_equal. rewrite pow_IZR. f_equal.
Qed.

Lemma frac_split a b : IZR (a * 2 ^ 23 + b) / 2 ^ 23 = IZR a + IZR b / 2 ^ 23.
Proof. rewrite plus_IZR, mult_IZR. change (IZR (2 ^ 23)) with 8388608. field. Qed.
Lemma float_n_exact n p : (0 <= n <= 2 ^ 20)%Z -> (n * (n + 1) <= 2 * p <= n * (n + 3))%Z -> float_n p = IZR n.
Proof.
  intros Hn Hp. unfold float_n. f_equal.
  assert (Hb : (2 ^ 20 = 1048576)%Z) by reflexivity. assert (Hb53 : (2 ^ 53 = 9007199254740992)%Z) by reflexivity.
  assert (Hp' : (0 <= 9 + 8 * p < 2 ^ 53)%Z) by nia. rewrite (rnd64_int (9 + 8 * p)) by lia.
  set (s := sqrt (IZR (9 + 8 * p))).
  assert (Hpos : 0 <= IZR (9 + 8 * p)) by (apply IZR_le; lia).
  assert (Hss : s * s = IZR (9 + 8 * p)) by (apply sqrt_sqrt; auto).
  assert (Hs0 : 0 <= s) by apply sqrt_pos.
  assert (Hup : s <= IZR (2 * n + 3)).
  { assert (H : IZR (9 + 8 * p) <= IZR ((2 * n + 3) * (2 * n + 3))) by (apply IZR_le; lia). rewrite mult_IZR in H.
    assert (0 <= IZR (2 * n + 3)) by (apply IZR_le; lia). nra. }
  assert (Hlo : IZR ((2 * n + 1) * 2 ^ 23 + 2) / 2 ^ 23 <= s).
  { assert (H : IZR ((2 * n + 1) * (2 * n + 1) + 8) <= IZR (9 + 8 * p)) by (apply IZR_le; lia).
    rewrite (plus_IZR (_ * _)%Z 8), mult_IZR in H. rewrite frac_split.
    assert (H1 : 0 <= IZR (2 * n + 1) <= 2097153) by (split; apply IZR_le; lia). set (w := IZR (2 * n + 1)) in *.
    destruct (Rle_lt_dec (w + 2 / 2 ^ 23) s); auto. exfalso.
    assert (s * s < w * w + 8). { assert (s * s <= (w + 2 / 2 ^ 23) * (w + 2 / 2 ^ 23)) by nra. nra. } lra. }
  (* bounds through the three rounded operations *)
  assert (U1 : rnd64 s <= IZR (2 * n + 3)) by (rewrite <- (rnd64_int (2 * n + 3)) by lia; now apply rnd64_le).
  assert (U2 : rnd64 (-3 + rnd64 s) <= IZR (2 * n)).
  { rewrite <- (rnd64_int (2 * n)) by lia. apply rnd64_le. rewrite plus_IZR in U1. lra. }
  assert (U3 : rnd64 (rnd64 (-3 + rnd64 s) / 2) <= IZR n).
  { rewrite <- (rnd64_int n) by lia. apply rnd64_le. rewrite mult_IZR in U2. lra. }
  assert (L1 : IZR ((2 * n + 1) * 2 ^ 23 + 2) / 2 ^ 23 <= rnd64 s).
  { rewrite <- (rnd64_frac ((2 * n + 1) * 2 ^ 23 + 2)) by lia. now apply rnd64_le. }
  assert (L2 : IZR ((2 * n - 2) * 2 ^ 23 + 2) / 2 ^ 23 <= rnd64 (-3 + rnd64 s)).
  { rewrite <- (rnd64_frac ((2 * n - 2) * 2 ^ 23 + 2)) by lia. apply rnd64_le.
    rewrite !frac_split in *. rewrite minus_IZR, plus_IZR in *. lra. }
  assert (L3 : IZR ((n - 1) * 2 ^ 23 + 1) / 2 ^ 23 <= rnd64 (rnd64 (-3 + rnd64 s) / 2)).
  { rewrite <- (rnd64_frac ((n - 1) * 2 ^ 23 + 1)) by lia. apply rnd64_le.
    rewrite !frac_split in *. rewrite !minus_IZR, !mult_IZR in *. lra. }
  set (v := rnd64 (rnd64 (-3 + rnd64 s) / 2)) in *.
  apply Zceil_imp. split; [|exact U3]. eapply Rlt_le_trans; [|exact L3].
  rewrite frac_split. lra.
Qed.
Lemma float_m_exact n p : (0 <= n <= 2 ^ 20)%Z -> (n * (n + 1) <= 2 * p <= n * (n + 3))%Z -> float_m p (IZR n) = IZR (2 * p - n * (n + 2)).
Proof.
  intros Hn Hp. unfold float_m. assert (Hb : (2 ^ 20 = 1048576)%Z) by reflexivity. assert (Hb53 : (2 ^ 53 = 9007199254740992)%Z) by reflexivity.
  rewrite <- plus_IZR, (rnd64_int (n + 2)) by lia. rewrite <- mult_IZR, (rnd64_int (n * (n + 2))) by nia. rewrite <- minus_IZR, rnd64_int by nia. reflexivity.
Qed.
Lemma float_degrees n p : (0 <= n <= 2 ^ 20)%Z -> (n * (n + 1) <= 2 * p <= n * (n + 3))%Z ->
  (Ztrunc (float_n p), Ztrunc (float_m p (float_n p))) = (n, (2 * p - n * (n + 2))%Z).
Proof. intros. rewrite (float_n_exact n) by auto. rewrite (float_m_exact n) by auto. now rewrite !Ztrunc_IZR. Qed.

(** ** the tables (finite, complete domain) *)
Local Open Scope Z_scope.
(** row number of p *)
Definition row (p : Z) : Z := (Z.sqrt (9 + 8 * p) - 2) / 2.
Definition tab (j : Z) : Z := nth (Z.to_nat (j - 1)) noll_inverse 0.
Definition degp (p : Z) : Z * Z := let n := (Z.sqrt (8 * p + 1) - 1) / 2 in (n, 2 * p - n * (n + 2)).
Definition deg (j : Z) : Z * Z := degp (tab j).
Definition irange (a k : Z) : list Z := map (fun i => a + i) (zseq k).
Lemma in_irange a k x : In x (irange a k) <-> a <= x < a + k.
Proof.
  unfold irange. rewrite in_map_iff. split.
  - intros (i & <- & Hi). apply in_zseq in Hi. lia.
  - intros H. exists (x - a). split; [lia|]. apply in_zseq. lia.
Qed.
Definition check_one (j p q : Z) : bool := let n := fst (degp p) in
  (0 <=? n) && (n <=? 14) && (n * (n + 1) <=? 2 * p) && (2 * p <=? n * (n + 3))
  && (q =? j) && (0 <=? p) && (p <? 120)
  && (if 0 <? snd (degp p) then j mod 2 =? 0 else true) && (if snd (degp p) <? 0 then j mod 2 =? 1 else true).
Lemma check_one_ok j p q : check_one j p q = true -> let (n, m) := degp p in
  0 <= n <= 14 /\ n * (n + 1) <= 2 * p <= n * (n + 3) /\ q = j /\ 0 <= p < 120 /\
  (0 < m -> j mod 2 = 0) /\ (m < 0 -> j mod 2 = 1) /\ m = 2 * p - n * (n + 2).
Proof.
  unfold check_one. assert (Em : snd (degp p) = 2 * p - fst (degp p) * (fst (degp p) + 2)) by reflexivity.
  destruct (degp p) as [n m]. cbn [fst snd] in *. cbn zeta. rewrite !andb_true_iff, !Z.leb_le, !Z.ltb_lt, Z.eqb_eq.
  intros ((((((((H1 & H2) & H3) & H4) & H5) & H6) & H7) & H8) & H9).
  repeat split; auto.
  - intros Hm. destruct (Z.ltb_spec 0 m); [|lia]. lia.
  - intros Hm. destruct (Z.ltb_spec m 0); [|lia]. lia.
Qed.
Definition mapp (p : Z) : Z := nth (Z.to_nat p) noll_mapping 0.
Lemma check_tab_ok : forallb (fun j => check_one j (tab j) (mapp (tab j))) (irange 1 120) = true. Proof. vm_compute. reflexivity. Qed.
Lemma tab_facts j : 1 <= j <= 120 -> let (n, m) := deg j in
  0 <= n <= 14 /\ n * (n + 1) <= 2 * tab j <= n * (n + 3) /\ mapp (tab j) = j /\ 0 <= tab j < 120 /\
  (0 < m -> j mod 2 = 0) /\ (m < 0 -> j mod 2 = 1) /\ m = 2 * tab j - n * (n + 2).
Proof.
  intros Hj. pose proof (proj1 (forallb_forall _ _) check_tab_ok j (proj2 (in_irange 1 120 j) ltac:(lia))) as H.
  exact (check_one_ok _ _ _ H).
Qed.
Definition check_order : bool := forallb (fun j => let a := deg j in let b := deg (j + 1) in
  (fst a <? fst b) || ((fst a =? fst b) && (Z.abs (snd a) <=? Z.abs (snd b)))) (irange 1 119).
Lemma check_order_ok : check_order = true. Proof. vm_compute. reflexivity. Qed.
Lemma check_map_ok : forallb (fun p => (1 <=? mapp p) && (mapp p <=? 120) && (tab (mapp p) =? p)) (zseq 120) = true. Proof. vm_compute. reflexivity. Qed.
Lemma map_facts p : 0 <= p < 120 -> 1 <= mapp p <= 120 /\ tab (mapp p) = p.
Proof.
  intros Hp. pose proof (proj1 (forallb_forall _ _) check_map_ok p (proj2 (in_zseq _ _) Hp)) as H. cbn beta in H.
  rewrite !andb_true_iff, !Z.leb_le, Z.eqb_eq in H. tauto.
Qed.
Lemma order_step j : 1 <= j < 120 -> fst (deg j) < fst (deg (j + 1)) \/ fst (deg j) = fst (deg (j + 1)) /\ Z.abs (snd (deg j)) <= Z.abs (snd (deg (j + 1))).
Proof.
  intros Hj. pose proof check_order_ok as H. unfold check_order in H. rewrite forallb_forall in H. specialize (H j (proj2 (in_irange 1 119 j) ltac:(lia))). cbn beta zeta in *.
  rewrite orb_true_iff, andb_true_iff, Z.ltb_lt, Z.leb_le, Z.eqb_eq in H. exact H.
Qed.
Lemma order_all k : 0 <= k -> forall j, 1 <= j -> j + k <= 120 ->
  fst (deg j) < fst (deg (j + k)) \/ fst (deg j) = fst (deg (j + k)) /\ Z.abs (snd (deg j)) <= Z.abs (snd (deg (j + k))).
Proof.
  intros Hk. pattern k. apply Zlt_0_ind; [|exact Hk]. clear k Hk. intros k IH Hk0 j Hj Hjk. destruct (Z.eq_dec k 0) as [->|].
  - right. rewrite Z.add_0_r. lia.
  - pose proof (IH (k - 1) ltac:(lia) j Hj ltac:(lia)) as H1. pose proof (order_step (j + (k - 1)) ltac:(lia)) as H2.
    replace (j + (k - 1) + 1) with (j + k) in H2 by lia. lia.
Qed.

#[local] Opaque noll_inverse noll_mapping.
Lemma noll2degrees_val l : (forall j, In j l -> 1 <= j <= 120) -> noll2degrees (NInts l) = Ok (map deg l).
Proof.
  intros H. unfold noll2degrees.
  assert (E1 : forallb (fun j => 0 <? j) l = true) by (apply forallb_forall; intros j Hj; specialize (H j Hj); lia).
  assert (E2 : forallb (fun j => j <=? 120) l = true) by (apply forallb_forall; intros j Hj; specialize (H j Hj); lia).
  rewrite E1, E2. cbn [negb]. f_equal. apply map_ext_in. intros j Hj. cbv beta zeta. change (nth (Z.to_nat (j - 1)) noll_inverse 0) with (tab j). pose proof (tab_facts j (H j Hj)) as T.
  destruct (deg j) as [n m]. destruct T as (T1 & T2 & _ & _ & _ & _ & ->). apply float_degrees; auto. split; [lia|]. apply Z.le_trans with 14; [lia|]. vm_compute. discriminate.
Qed.
Lemma degrees2noll_one n m : degrees2noll (NInts [n]) (NInts [m]) =
  if (n - m) mod 2 =? 0 then
    (let p := (m + n * (n + 2)) / 2 in
     if (-120 <=? p) && (p <? 120) then Ok [mapp (if p <? 0 then p + 120 else p)] else Err IndexError)
  else Err ValueError.
Proof.
  unfold degrees2noll. cbn [pair_up List.length Nat.eqb bind combine existsb fst snd]. destruct ((n - m) mod 2 =? 0); cbn [negb orb]; [|reflexivity].
  cbn [map_res bind fst snd]. unfold py_index. change (Z.of_nat (List.length noll_mapping)) with 120. cbn zeta.
  change (- (120)) with (-120). destruct ((-120 <=? (m + n * (n + 2)) / 2) && ((m + n * (n + 2)) / 2 <? 120)) eqn:E; [|reflexivity]. reflexivity.
Qed.
