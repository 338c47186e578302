(** Properties of pyotf/zernike.py *)
From Coquelicot Require Import Coquelicot.
From Verif Require Import L_Array L_Sum.
From Verif Require Export S_Zernike L_Noll L_Zern L_Ortho L_Zern2.
Local Open Scope Z_scope.

(** ** C17: noll2degrees is Noll's bijection, degrees2noll its inverse *)
Lemma ok1 {A} (a b : A) : Ok [a] = Ok [b] -> a = b. Proof. now intros [= ->]. Qed.
Lemma even3 n : (n * (n + 3)) mod 2 = 0.
Proof. rewrite Z.mul_mod, (Z.add_mod n 3) by lia. assert (n mod 2 = 0 \/ n mod 2 = 1) as [-> | ->] by lia; reflexivity. Qed.
Lemma deg_legal j : 1 <= j <= 120 -> legal (fst (deg j)) (snd (deg j)).
Proof.
  intros Hj. pose proof (tab_facts j Hj) as T. destruct (deg j) as [n m]. cbn [fst snd]. unfold legal. revert T. generalize (tab j), (mapp (tab j)). intros t u T. destruct T as (T1 & T2 & _ & _ & _ & _ & E).
  split; [lia|]. split; [lia|]. pose proof (even3 n). assert (n - m = n * (n + 3) - 2 * t) by lia. lia.
Qed.
Lemma d2n_deg j : 1 <= j <= 120 -> degrees2noll (NInts [fst (deg j)]) (NInts [snd (deg j)]) = Ok [j].
Proof.
  intros Hj. pose proof (tab_facts j Hj) as T. pose proof (deg_legal j Hj) as L. destruct (deg j) as [n m]. cbn [fst snd] in *. destruct T as (T1 & T2 & T3 & T4 & _ & _ & E).
  rewrite degrees2noll_one. destruct L as (_ & _ & ->). cbn [Z.eqb]. cbv zeta. replace (m + n * (n + 2)) with (tab j * 2) by lia. rewrite Z.div_mul by lia.
  destruct (Z.leb_spec (-120) (tab j)); [|lia]. destruct (Z.ltb_spec (tab j) 120); [|lia]. destruct (Z.ltb_spec (tab j) 0); [lia|]. cbn [andb]. now rewrite T3.
Qed.
Theorem C17_noll_bijection j : 1 <= j <= 120 -> exists n m,
  noll2degrees (NInts [j]) = Ok [(n, m)] /\ legal n m /\ n <= 14 /\ (0 < m -> Z.Even j) /\ (m < 0 -> Z.Odd j)
  /\ degrees2noll (NInts [n]) (NInts [m]) = Ok [j].
Proof.
  intros Hj. exists (fst (deg j)), (snd (deg j)). split.
  { rewrite noll2degrees_val by (intros j' [<-|[]]; lia). cbn [map]. now destruct (deg j). }
  pose proof (d2n_deg j Hj) as D. pose proof (deg_legal j Hj) as L. pose proof (tab_facts j Hj) as T. destruct (deg j) as [n m]. cbn [fst snd] in *.
  destruct T as (T1 & _ & _ & _ & T5 & T6 & _). repeat split; try apply L; try lia; auto.
  - intros Hm. apply Z.even_spec. rewrite Zmod_even in T5. destruct (Z.even j); auto. specialize (T5 Hm). discriminate.
  - intros Hm. apply Z.odd_spec. rewrite Zmod_odd in T6. destruct (Z.odd j); auto. specialize (T6 Hm). discriminate.
Qed.
Theorem C17_noll_onto n m : legal n m -> n <= 14 -> exists j, 1 <= j <= 120 /\
  degrees2noll (NInts [n]) (NInts [m]) = Ok [j] /\ noll2degrees (NInts [j]) = Ok [(n, m)].
Proof.
  intros (H0 & Hm & Hp) Hn.
  pose proof (even3 n) as E.
  assert (E2 : m + n * (n + 2) = n * (n + 3) - (n - m)) by ring.
  assert (E3 : 2 * ((m + n * (n + 2)) / 2) = m + n * (n + 2)) by lia. set (p := (m + n * (n + 2)) / 2) in *.
  assert (Hp' : 0 <= p < 120) by nia. destruct (map_facts p Hp') as [Hj Ht]. exists (mapp p). split; [exact Hj|]. split.
  - rewrite degrees2noll_one, Hp. cbn [Z.eqb]. cbv zeta. fold p. destruct (Z.leb_spec (-120) p); [|lia]. destruct (Z.ltb_spec p 120); [|lia]. destruct (Z.ltb_spec p 0); [lia|]. reflexivity.
  - rewrite noll2degrees_val by (intros j' [<-|[]]; lia). cbn [map]. pose proof (tab_facts _ Hj) as T. destruct (deg (mapp p)) as [n' m']. rewrite Ht in T.
    destruct T as (T1 & T2 & _ & _ & _ & _ & Em). assert (n' = n) as -> by nia. do 3 f_equal. lia.
Qed.
(** Noll's sequential ordering: rows of increasing n, inside a row increasing |m|. *)
Theorem C17_noll_order j j' n m n' m' : 1 <= j -> j <= j' -> j' <= 120 ->
  noll2degrees (NInts [j]) = Ok [(n, m)] -> noll2degrees (NInts [j']) = Ok [(n', m')] -> before (n, m) (n', m').
Proof.
  intros H1 H2 H3. rewrite !noll2degrees_val by (intros ? [<-|[]]; lia). cbn [map]. pose proof (order_all (j' - j) ltac:(lia) j H1 ltac:(lia)) as O. replace (j + (j' - j)) with j' in O by lia.
  intros E1 E2. apply ok1 in E1, E2. rewrite E1, E2 in O. exact O.
Qed.
(** The closed form: row n holds the indices n(n+1)/2 + 1 .. (n+1)(n+2)/2, and inside the row |m| runs through 0,2,2,4,4,... or 1,1,3,3,... *)
Definition closed_check j := let n := fst (deg j) in let m := snd (deg j) in let k := j - n * (n + 1) / 2 in
  (1 <=? k) && (k <=? n + 1) && (Z.abs m =? if n mod 2 =? 0 then 2 * (k / 2) else 2 * ((k - 1) / 2) + 1).
Lemma closed_check_ok : forallb closed_check (irange 1 120) = true. Proof. vm_compute. reflexivity. Qed.
Theorem C17_noll_closed_form j n m : 1 <= j <= 120 -> noll2degrees (NInts [j]) = Ok [(n, m)] ->
  n * (n + 1) / 2 < j <= n * (n + 1) / 2 + (n + 1) /\
  Z.abs m = (let k := j - n * (n + 1) / 2 in if n mod 2 =? 0 then 2 * (k / 2) else 2 * ((k - 1) / 2) + 1).
Proof.
  intros Hj. rewrite noll2degrees_val by (intros ? [<-|[]]; lia). cbn [map]. intros E. apply ok1 in E.
  pose proof (proj1 (forallb_forall _ _) closed_check_ok j (proj2 (in_irange 1 120 j) ltac:(lia))) as H. unfold closed_check in H. rewrite E in H. cbn [fst snd] in H. cbv zeta in *.
  rewrite !andb_true_iff, !Z.leb_le, Z.eqb_eq in H. destruct H as [[Ha Hb] Hc]. split; [lia|exact Hc].
Qed.
Lemma d2n_cons n m j ns ms l : List.length ns = List.length ms -> degrees2noll (NInts [n]) (NInts [m]) = Ok [j] -> degrees2noll (NInts ns) (NInts ms) = Ok l ->
  degrees2noll (NInts (n :: ns)) (NInts (m :: ms)) = Ok (j :: l).
Proof.
  intros Hl. unfold degrees2noll, pair_up. cbn [List.length Nat.eqb]. rewrite Hl, Nat.eqb_refl. cbn [bind combine existsb map_res fst snd]. generalize (py_index noll_mapping). intros F D IH.
  destruct (negb ((n - m) mod 2 =? 0)); cbn [orb] in *; [discriminate|].
  destruct (existsb _ _); [discriminate|]. destruct (F _) as [y|]; cbn [bind] in *; [|discriminate]. injection D as ->. now rewrite IH.
Qed.
(** Lists are converted element by element, in order. *)
Theorem C17_noll_lists l : (forall j, In j l -> 1 <= j <= 120) -> exists q, noll2degrees (NInts l) = Ok q /\
  Forall2 (fun j nm => noll2degrees (NInts [j]) = Ok [nm]) l q /\
  degrees2noll (NInts (map fst q)) (NInts (map snd q)) = Ok l.
Proof.
  intros H. exists (map deg l). split; [now apply noll2degrees_val|]. split.
  - revert H. induction l as [|j l IH]; intros H; constructor.
    + rewrite noll2degrees_val by (intros ? [<-|[]]; apply H; now left). reflexivity.
    + apply IH. intros; apply H; now right.
  - revert H. induction l as [|j l IH]; intros H; [reflexivity|]. specialize (IH (fun i Hi => H i (or_intror Hi))). pose proof (d2n_deg j (H j (or_introl eq_refl))) as D.
    cbn [map]. refine (d2n_cons _ _ _ _ _ _ _ D IH). now rewrite !map_length.
Qed.
(** The floating point recovery of n and m is exact in every row up to n = 2^20, far beyond the table. *)
Theorem C17_float_formula_exact n m : legal n m -> n <= 2 ^ 20 ->
  let p := (m + n * (n + 2)) / 2 in float_n p = IZR n /\ float_m p (float_n p) = IZR m.
Proof.
  intros (H0 & Hm & Hp) Hn p.
  pose proof (even3 n) as E.
  assert (E2 : m + n * (n + 2) = n * (n + 3) - (n - m)) by ring.
  assert (E3 : 2 * p = m + n * (n + 2)) by (unfold p; lia).
  assert (R : n * (n + 1) <= 2 * p <= n * (n + 3)) by nia. rewrite (float_n_exact n p) by lia. split; [reflexivity|]. rewrite (float_m_exact n p) by lia. f_equal. lia.
Qed.
Print Assumptions C17_noll_bijection. Print Assumptions C17_noll_onto. Print Assumptions C17_noll_order. Print Assumptions C17_noll_closed_form. Print Assumptions C17_noll_lists. Print Assumptions C17_float_formula_exact.
Example C17_witness : noll2degrees (NInts [4; 8; 11]) = Ok [(2, 0); (3, 1); (4, 0)].
Proof. rewrite noll2degrees_val by (intros j [<-|[<-|[<-|[]]]]; lia). vm_compute. reflexivity. Qed.
Example C17_witness2 : legal 1000 (-998) /\ 1000 <= 2 ^ 20. Proof. repeat split; try lia; vm_compute; discriminate. Qed.

(** ** C18: what the index functions reject, and what they do not *)
Theorem C18_noll2degrees_errors a : (exists q, noll2degrees a = Ok q) \/
  (noll2degrees a = Err ValueError /\ (a = NOther \/ exists l j, a = NInts l /\ In j l /\ j < 1)) \/
  (noll2degrees a = Err IndexError /\ exists l, a = NInts l /\ (forall j, In j l -> 1 <= j) /\ exists j, In j l /\ 120 < j).
Proof.
  destruct a as [l|]; [|right; left; auto]. unfold noll2degrees.
  destruct (forallb (fun j => 0 <? j) l) eqn:E1; cbn [negb].
  - destruct (forallb (fun j => j <=? 120) l) eqn:E2; cbn [negb]; [left; eexists; reflexivity|]. right; right. split; auto. exists l. split; auto. split.
    + intros j Hj. pose proof (proj1 (forallb_forall _ _) E1 j Hj). cbn beta in *. lia.
    + apply not_true_iff_false in E2. rewrite forallb_forall in E2.
      assert (X : existsb (fun j => 120 <? j) l = true). { destruct (existsb _ l) eqn:X; auto. exfalso. apply E2. intros j Hj. destruct (Z.leb_spec j 120); auto. exfalso. rewrite <- not_true_iff_false in X. apply X, existsb_exists. exists j. split; auto. lia. }
      apply existsb_exists in X. destruct X as (j & Hj & X). exists j. split; auto. lia.
  - right; left. split; auto. right. exists l.
    assert (X : existsb (fun j => j <? 1) l = true). { destruct (existsb _ l) eqn:X; auto. exfalso. rewrite <- not_true_iff_false in E1. apply E1. apply forallb_forall. intros j Hj. destruct (Z.ltb_spec 0 j); auto. exfalso. rewrite <- not_true_iff_false in X. apply X, existsb_exists. exists j. split; auto. lia. }
    apply existsb_exists in X. destruct X as (j & Hj & X). exists j. repeat split; auto. lia.
Qed.
Theorem C18_noll2degrees_domain l : (exists q, noll2degrees (NInts l) = Ok q) <-> (forall j, In j l -> 1 <= j <= 120).
Proof.
  split.
  - intros [q Hq] j Hj. unfold noll2degrees in Hq. destruct (forallb (fun j => 0 <? j) l) eqn:E1; cbn [negb] in Hq; [|discriminate].
    destruct (forallb (fun j => j <=? 120) l) eqn:E2; cbn [negb] in Hq; [|discriminate].
    pose proof (proj1 (forallb_forall _ _) E1 j Hj). pose proof (proj1 (forallb_forall _ _) E2 j Hj). cbn beta in *. lia.
  - intros H. eexists. now apply noll2degrees_val.
Qed.
(** degrees2noll on one pair: complete behaviour for every pair of integers, legal or not. *)
Theorem C18_degrees2noll_behaviour n m :
  let p := (m + n * (n + 2)) / 2 in
  (degrees2noll (NInts [n]) (NInts [m]) = Err ValueError <-> (n - m) mod 2 <> 0) /\
  (degrees2noll (NInts [n]) (NInts [m]) = Err IndexError <-> (n - m) mod 2 = 0 /\ ~ (-120 <= p < 120)) /\
  ((n - m) mod 2 = 0 -> -120 <= p < 120 -> exists j n' m', 1 <= j <= 120 /\ degrees2noll (NInts [n]) (NInts [m]) = Ok [j] /\
     legal n' m' /\ noll2degrees (NInts [j]) = Ok [(n', m')] /\ m' + n' * (n' + 2) = m + n * (n + 2) + (if p <? 0 then 240 else 0)).
Proof.
  cbv zeta. rewrite degrees2noll_one. destruct (Z.eqb_spec ((n - m) mod 2) 0) as [Hp|Hp]; cbv zeta.
  2:{ repeat split; intros; try tauto; try discriminate. }
  set (p := (m + n * (n + 2)) / 2).
  destruct ((-120 <=? p) && (p <? 120)) eqn:Eb.
  - assert (-120 <= p < 120) by lia. repeat split; try discriminate; try tauto. intros _ _. set (q := if p <? 0 then p + 120 else p).
    assert (Hq : 0 <= q < 120) by (unfold q; destruct (Z.ltb_spec p 0); lia). destruct (map_facts q Hq) as [Hj Ht].
    exists (mapp q), (fst (deg (mapp q))), (snd (deg (mapp q))). repeat split; try apply (deg_legal _ Hj); try lia.
    + rewrite noll2degrees_val by (intros ? [<-|[]]; lia). cbn [map]. now destruct (deg (mapp q)).
    + pose proof (tab_facts _ Hj) as T. destruct (deg (mapp q)) as [n' m']. cbn [fst snd]. destruct T as (_ & _ & _ & _ & _ & _ & ->). rewrite Ht.
      pose proof (even3 n) as E.
      assert (E2 : m + n * (n + 2) = n * (n + 3) - (n - m)) by ring.
      assert (E3 : 2 * p = m + n * (n + 2)) by (unfold p; lia). unfold q. destruct (Z.ltb_spec p 0); lia.
  - assert (~ (-120 <= p < 120)) by lia. repeat split; intros; try tauto; try discriminate.
Qed.
(** Vectors: equally long ones are taken pair by pair and a single number is used with every entry of the other vector
    ([paired]); anything else is refused.  One bad parity refuses the whole call, then one index outside the table does,
    and otherwise the answer is that of each pair on its own, in order. *)
Lemma pair_up_paired ns ms q : pair_up ns ms = Ok q <-> paired ns ms q.
Proof.
  unfold pair_up, paired. destruct (Nat.eqb_spec (List.length ns) (List.length ms)) as [E|E].
  - split; [intros [= <-]; auto|]. intros [[_ ->]|[(n & -> & ->)|(m & -> & ->)]]; auto.
    + destruct ms as [|m [|m' ms]]; try discriminate. reflexivity.
    + destruct ns as [|n [|n' ns]]; try discriminate. reflexivity.
  - split.
    + destruct ns as [|n [|n' ns]], ms as [|m [|m' ms]]; try discriminate; try (exfalso; apply E; reflexivity); intros [= <-]; right; eauto.
    + intros [[H _]|[(n & -> & ->)|(m & -> & ->)]]; [contradiction|reflexivity|]. destruct ns as [|n [|n' ns]]; reflexivity.
Qed.
Lemma map_res_ok {A B} (f : A -> res B) l ys : map_res f l = Ok ys <-> Forall2 (fun x y => f x = Ok y) l ys.
Proof.
  revert ys. induction l as [|x l IH]; intros ys; cbn [map_res].
  - split; [intros [= <-]; constructor|]. intros H. now inversion H.
  - split.
    + destruct (f x) as [y|] eqn:Ex; cbn [bind]; [|discriminate]. destruct (map_res f l) as [ys'|]; cbn [bind]; [|discriminate]. intros [= <-]. constructor; [exact Ex|]. now apply IH.
    + intros H. inversion H as [|? y ? ys' H1 H2]; subst. rewrite H1. cbn [bind]. apply IH in H2. now rewrite H2.
Qed.
Lemma map_res_err {A B} (f : A -> res B) l e : (forall x e', f x = Err e' -> e' = e) -> (map_res f l = Err e <-> Exists (fun x => f x = Err e) l).
Proof.
  intros Hf. induction l as [|x l IH]; cbn [map_res]; [split; [discriminate|intros H; inversion H]|]. destruct (f x) as [y|e'] eqn:Ex; cbn [bind].
  - destruct (map_res f l) as [ys|e'']; cbn [bind].
    + split; [discriminate|]. intros H. inversion H as [? ? H0|? ? H0]; subst; [congruence|]. apply IH in H0. discriminate.
    + rewrite IH. split; [intros H; now apply Exists_cons_tl|]. intros H. inversion H as [? ? H0|? ? H0]; subst; [congruence|exact H0].
  - pose proof (Hf _ _ Ex) as ->. split; [intros _; now apply Exists_cons_hd|auto].
Qed.
Theorem C18_degrees2noll_vectors ns ms :
  (forall q, paired ns ms q ->
     (degrees2noll (NInts ns) (NInts ms) = Err ValueError <-> Exists (fun nm => (fst nm - snd nm) mod 2 <> 0) q) /\
     (degrees2noll (NInts ns) (NInts ms) = Err IndexError <->
        Forall (fun nm => (fst nm - snd nm) mod 2 = 0) q /\ Exists (fun nm => ~ (-120 <= (snd nm + fst nm * (fst nm + 2)) / 2 < 120)) q) /\
     (forall js, degrees2noll (NInts ns) (NInts ms) = Ok js <->
        Forall2 (fun nm j => degrees2noll (NInts [fst nm]) (NInts [snd nm]) = Ok [j]) q js)) /\
  ((forall q, ~ paired ns ms q) -> degrees2noll (NInts ns) (NInts ms) = Err ValueError).
Proof.
  split.
  - intros q Hq. apply pair_up_paired in Hq. unfold degrees2noll at 1 2 3. rewrite Hq. cbn [bind].
    assert (B : forall l : list (Z * Z), existsb (fun q => negb ((fst q - snd q) mod 2 =? 0)) l = true <-> Exists (fun nm => (fst nm - snd nm) mod 2 <> 0) l).
    { intros l. rewrite existsb_exists, Exists_exists. split; intros (x & H1 & H2); exists x; (split; [exact H1|]); cbn beta in *; lia. }
    assert (PE : forall p e, py_index noll_mapping p = Err e <-> e = IndexError /\ ~ (-120 <= p < 120)).
    { intros p e. unfold py_index. change (Z.of_nat (List.length noll_mapping)) with 120. destruct ((- (120) <=? p) && (p <? 120)) eqn:E; (split; [intros H|intros [H1 H2]]); try discriminate; try lia; try congruence. split; [congruence|lia]. }
    pose proof (B q) as Bq. destruct (existsb _ q).
    + assert (X : Exists (fun nm => (fst nm - snd nm) mod 2 <> 0) q) by now apply Bq. split; [tauto|]. split.
      * split; [discriminate|]. intros [H _]. apply Exists_exists in X. destruct X as (x & H1 & H2). rewrite Forall_forall in H. now apply H in H1.
      * intros js. split; [discriminate|]. intros H. exfalso. apply Exists_exists in X. destruct X as (x & H1 & H2). clear - H H1 H2. induction H as [|y j l l' H0 H IH]; [contradiction|].
        destruct H1 as [->|H1]; [|auto]. rewrite degrees2noll_one in H0. destruct (Z.eqb_spec ((fst x - snd x) mod 2) 0); [contradiction|discriminate].
    + assert (F : Forall (fun nm => (fst nm - snd nm) mod 2 = 0) q).
      { apply Forall_forall. intros x Hx. destruct (Z.eq_dec ((fst x - snd x) mod 2) 0); auto. exfalso. assert (false = true); [|discriminate]. apply Bq. apply Exists_exists. eauto. }
      assert (NV : ~ Exists (fun nm : Z * Z => (fst nm - snd nm) mod 2 <> 0) q) by (intros H; apply Bq in H; discriminate).
      assert (ER : forall e, map_res (fun q => py_index noll_mapping ((snd q + fst q * (fst q + 2)) / 2)) q = Err e -> e = IndexError).
      { intros e. clear - PE. induction q as [|x q IH]; cbn [map_res]; [discriminate|]. destruct (py_index _ _) as [y|e'] eqn:Ex; cbn [bind]; [|apply PE in Ex; intros [= <-]; tauto].
        destruct (map_res _ q) as [ys|e']; cbn [bind]; [discriminate|]. intros [= <-]. auto. }
      split; [split; [intros H; apply ER in H; discriminate|tauto]|]. split.
      * rewrite map_res_err by (intros x e' H; now apply PE in H). rewrite !Exists_exists. split.
        -- intros (x & H1 & H2). split; [exact F|]. exists x. split; [exact H1|]. now apply PE in H2.
        -- intros (_ & x & H1 & H2). exists x. split; [exact H1|]. now apply PE.
      * intros js. rewrite map_res_ok. clear - F. revert js. induction q as [|x q IH]; intros js; (split; intros H; inversion H as [|? j ? js' H1 H2]; subst; constructor); inversion F; subst.
        -- unfold degrees2noll. cbn [pair_up List.length Nat.eqb bind combine existsb map_res fst snd]. destruct (Z.eqb_spec ((fst x - snd x) mod 2) 0); [|contradiction]. cbn [negb orb]. rewrite H1. reflexivity.
        -- now apply IH.
        -- revert H1. unfold degrees2noll. cbn [pair_up List.length Nat.eqb bind combine existsb map_res fst snd]. destruct (Z.eqb_spec ((fst x - snd x) mod 2) 0); [|contradiction]. cbn [negb orb]. destruct (py_index _ _) as [y|]; cbn [bind]; [|discriminate]. now intros [= ->].
        -- now apply IH.
  - intros H. unfold degrees2noll. destruct (pair_up ns ms) as [q|e] eqn:E; [apply pair_up_paired in E; now apply H in E|]. cbn [bind]. f_equal.
    revert E. unfold pair_up. destruct (Nat.eqb _ _); [discriminate|]. destruct ns as [|n [|n' ns]], ms as [|m [|m' ms]]; try discriminate; now intros [= <-].
Qed.
Print Assumptions C18_degrees2noll_vectors.
(** degrees2noll(4, [-4, -2, 0, 2, 4]) *)
Example C18_vectors_witness : paired [4] [-4; -2; 0; 2; 4] [(4, -4); (4, -2); (4, 0); (4, 2); (4, 4)] /\
  degrees2noll (NInts [4]) (NInts [-4; -2; 0; 2; 4]) = Ok [15; 13; 11; 12; 14].
Proof. split; [right; left; eexists; split; reflexivity|vm_compute; reflexivity]. Qed.
Theorem C18_degrees2noll_dtype n m : n = NOther \/ m = NOther -> degrees2noll n m = Err ValueError.
Proof. intros [-> | ->]; [reflexivity|]. now destruct n. Qed.
(** The missing check |m| <= n: a pair that is not a Zernike mode is given the index of another one. *)
Theorem C18_illegal_pairs_rejected_refuted : exists n m j, ~ legal n m /\ degrees2noll (NInts [n]) (NInts [m]) = Ok [j] /\
  noll2degrees (NInts [j]) <> Ok [(n, m)].
Proof.
  exists 1, 3, 5. split; [intros (_ & H & _); lia|]. split; [vm_compute; reflexivity|].
  rewrite noll2degrees_val by (intros ? [<-|[]]; lia). vm_compute. discriminate.
Qed.
(** Exactly: the pairs accepted and mapped back to themselves are the legal ones up to n = 14. *)
Theorem C18_degrees2noll_round_trip n m : (exists j, degrees2noll (NInts [n]) (NInts [m]) = Ok [j] /\ noll2degrees (NInts [j]) = Ok [(n, m)]) <-> legal n m /\ n <= 14.
Proof.
  split.
  - intros (j & _ & Hj). assert (H : 1 <= j <= 120) by (apply (proj1 (C18_noll2degrees_domain [j])); [eauto|now left]).
    rewrite noll2degrees_val in Hj by (intros ? [<-|[]]; lia). cbn [map] in Hj. pose proof (ok1 _ _ Hj) as E. pose proof (deg_legal j H) as L. pose proof (tab_facts j H) as T. rewrite E in L, T. cbn [fst snd] in L. split; [exact L|lia].
  - intros [L H]. destruct (C17_noll_onto n m L H) as (j & _ & H1 & H2). eauto.
Qed.
Print Assumptions C18_noll2degrees_errors. Print Assumptions C18_noll2degrees_domain. Print Assumptions C18_degrees2noll_behaviour. Print Assumptions C18_degrees2noll_dtype. Print Assumptions C18_illegal_pairs_rejected_refuted. Print Assumptions C18_degrees2noll_round_trip.
Example C18_witness : degrees2noll (NInts [1]) (NInts [3]) = degrees2noll (NInts [2]) (NInts [-2]) /\ degrees2noll (NInts [0]) (NInts [-2]) = Ok [120]. Proof. split; vm_compute; reflexivity. Qed.

(** ** C19: the radial part *)
Local Open Scope R_scope.
Theorem C19_radial_is_textbook n m r : legal n m -> r <= 1 ->
  radial_zernike r n m = (-1) ^ Z.to_nat (Z.abs m) * radial_poly (Z.to_nat n) (Z.to_nat (Z.abs m)) r.
Proof. apply radial_text. Qed.
Lemma m1_pow_even k : (-1) ^ (2 * k) = 1. Proof. rewrite pow_mult. replace ((-1) ^ 2) with 1 by ring. apply pow1. Qed.
Theorem C19_rim n m : legal n m -> radial_zernike 1 n m = (-1) ^ Z.to_nat n /\ radial_poly (Z.to_nat n) (Z.to_nat (Z.abs m)) 1 = 1.
Proof.
  intros H. destruct (legal_form n m H) as (a & k & Ha & ->). rewrite radial_abs, Ha, !Nat2Z.id, radial_poly_zpoly, radial_zernike_zpoly, zpoly_1 by lra.
  split; [|reflexivity]. rewrite pow_add, m1_pow_even. ring.
Qed.
(** Order of vanishing at the centre: r^|m| times a polynomial in r^2 with non-zero constant coefficient. *)
Theorem C19_centre n m : legal n m -> exists c : nat -> R, c O <> 0 /\ forall r, r <= 1 ->
  radial_zernike r n m = r ^ Z.to_nat (Z.abs m) * Rsum (seq 0 (S (Z.to_nat ((n - Z.abs m) / 2)))) (fun s => c s * (r ^ 2) ^ s).
Proof.
  intros H. destruct (legal_form n m H) as (a & k & Ha & ->). rewrite Ha. replace ((Z.of_nat (a + 2 * k) - Z.of_nat a) / 2)%Z with (Z.of_nat k) by lia. rewrite !Nat2Z.id.
  exists (fun s => (-1) ^ a * zc a k s). split.
  - unfold zc, Rdiv. repeat apply Rmult_integral_contrapositive_currified; try apply pow_nonzero; try lra; try apply fact_nz.
    apply Rinv_neq_0_compat. repeat apply Rmult_integral_contrapositive_currified; apply fact_nz.
  - intros r Hr. rewrite radial_abs, Ha, radial_zernike_zpoly by auto. unfold zpoly. rewrite <- !Rsum_scal_l. apply Rsum_ext. intros s _.
    rewrite pow_add, pow_mult. ring.
Qed.
Corollary C19_at_centre n m : legal n m -> m <> 0%Z -> radial_zernike 0 n m = 0.
Proof. intros H Hm. destruct (C19_centre n m H) as (c & _ & E). rewrite E by lra. rewrite pow_ne_zero by lia. ring. Qed.
Print Assumptions C19_radial_is_textbook. Print Assumptions C19_rim. Print Assumptions C19_centre. Print Assumptions C19_at_centre.
Example C19_witness r : r <= 1 -> radial_zernike r 3 (-1) = - (3 * r ^ 3 - 2 * r).
Proof. intros Hr. rewrite C19_radial_is_textbook by (auto; repeat split; cbn; lia). unfold radial_poly. change (Z.to_nat 3) with 3%nat. change (Z.to_nat (Z.abs (-1))) with 1%nat. cbn. field. Qed.

(** ** C20: support, parity of degrees and the formula *)
Theorem C20_outside_disk norm n m r t : 1 < r -> zernike_at norm n m r t = 0.
Proof.
  intros Hr. unfold zernike_at, radial_zernike. destruct (Rle_dec r 1); [lra|]. destruct (negb _); [reflexivity|]. destruct (m <? 0)%Z, norm; try destruct (_ =? _)%Z; ring.
Qed.
Theorem C20_odd_difference norm n m r t : ((n - m) mod 2 <> 0)%Z -> zernike_at norm n m r t = 0.
Proof. intros H. unfold zernike_at. destruct (Z.eqb_spec ((n - Z.abs m) mod 2) 0) as [E|]; [exfalso; exact (H (proj1 (odd_abs n m) E))|reflexivity]. Qed.
Theorem C20_formula norm n m r t : legal n m -> r <= 1 ->
  zernike_at norm n m r t = (-1) ^ Z.to_nat (Z.abs m) * radial_poly (Z.to_nat n) (Z.to_nat (Z.abs m)) r
    * (if (m <? 0)%Z then sin (IZR (- m) * t) else cos (IZR m * t))
    * (if norm then (if (m =? 0)%Z then sqrt (IZR (n + 1)) else sqrt (2 * IZR (n + 1))) else 1).
Proof. intros H Hr. rewrite zernike_form by apply H. now rewrite radial_text. Qed.
Print Assumptions C20_outside_disk. Print Assumptions C20_odd_difference. Print Assumptions C20_formula.
Example C20_witness r t : r <= 1 -> zernike_at true 2 0 r t = (2 * r ^ 2 - 1) * sqrt 3.
Proof.
  intros Hr. rewrite C20_formula by (auto; repeat split; cbn; lia). unfold radial_poly. change (Z.to_nat 2) with 2%nat. change (Z.to_nat (Z.abs 0)) with 0%nat.
  change (0 <? 0)%Z with false. change (0 =? 0)%Z with true. change (2 + 1)%Z with 3%Z. rewrite (Rmult_0_l t), cos_0. cbn. field.
Qed.

(** ** C21: orthonormality on the unit disk, in polar coordinates: for every pair of legal degrees *)
Theorem C21_orthonormal n m n' m' : legal n m -> legal n' m' ->
  (forall r, ex_RInt (fun t => zernike_at true n m r t * zernike_at true n' m' r t) 0 (2 * PI)) /\
  ex_RInt (fun r => RInt (fun t => zernike_at true n m r t * zernike_at true n' m' r t) 0 (2 * PI) * r) 0 1 /\
  / PI * RInt (fun r => RInt (fun t => zernike_at true n m r t * zernike_at true n' m' r t) 0 (2 * PI) * r) 0 1
    = if ((n =? n') && (m =? m'))%Z then 1 else 0.
Proof.
  intros H H'. split; [intros r; eexists; apply inner_int; assumption|]. pose proof (outer_int n m n' m' H H') as O. split; [eexists; exact O|].
  rewrite (is_RInt_unique _ _ _ _ O). pose proof PI_RGT_0. destruct ((n =? n') && (m =? m'))%Z; field; lra.
Qed.
Print Assumptions C21_orthonormal.
Example C21_witness : / PI * RInt (fun r => RInt (fun t => zernike_at true 4 2 r t * zernike_at true 4 2 r t) 0 (2 * PI) * r) 0 1 = 1 /\
  / PI * RInt (fun r => RInt (fun t => zernike_at true 4 2 r t * zernike_at true 2 2 r t) 0 (2 * PI) * r) 0 1 = 0.
Proof. split; [apply (C21_orthonormal 4 2 4 2)|apply (C21_orthonormal 4 2 2 2)]; repeat split; cbn; lia. Qed.

(** ** C22: rotation and parity *)
Theorem C22_rotation norm n m r t f :
  zernike_at norm n m r (t + f) = cos (IZR m * f) * zernike_at norm n m r t - sin (IZR m * f) * zernike_at norm n (- m) r t.
Proof.
  destruct (Z.eq_dec ((n - m) mod 2) 0) as [H|H].
  - assert (H' : ((n - - m) mod 2 = 0)%Z) by lia. rewrite !zernike_form, azimuthal_rotate by auto.
    rewrite (radial_abs r n (- m)), Z.abs_opp, <- (radial_abs r n m).
    replace (noll_norm n (- m)) with (noll_norm n m). { destruct norm; ring. } unfold noll_norm. destruct (Z.eqb_spec m 0), (Z.eqb_spec (- m) 0); auto; lia.
  - rewrite !C20_odd_difference by lia. ring.
Qed.
Lemma Zeven_nat k : Z.even (Z.of_nat k) = Nat.even k.
Proof. induction k as [|k IH]; [reflexivity|]. rewrite Nat2Z.inj_succ, Z.even_succ, Nat.even_succ, <- Z.negb_even, <- Nat.negb_even. now rewrite IH. Qed.
Lemma cos_sin_kpi k : cos (IZR k * PI) = (if Z.even k then 1 else -1) /\ sin (IZR k * PI) = 0.
Proof.
  assert (P : forall j : nat, cos (INR j * PI) = (if Nat.even j then 1 else -1) /\ sin (INR j * PI) = 0).
  { induction j as [|j [IH1 IH2]]; [cbn [INR]; rewrite Rmult_0_l, cos_0, sin_0; auto|]. rewrite S_INR, Rmult_plus_distr_r, Rmult_1_l, neg_cos, neg_sin, IH1, IH2. rewrite Nat.even_succ, <- Nat.negb_even. destruct (Nat.even j); cbn; split; ring. }
  destruct (Z.le_ge_cases 0 k) as [H|H].
  - destruct (P (Z.to_nat k)) as [P1 P2]. rewrite INR_IZR_INZ, Z2Nat.id in P1, P2 by auto. rewrite P1, P2. split; auto. rewrite <- (Z2Nat.id k) at 2 by auto. rewrite Zeven_nat. reflexivity.
  - destruct (P (Z.to_nat (- k))) as [P1 P2]. rewrite INR_IZR_INZ, Z2Nat.id, opp_IZR, Ropp_mult_distr_l_reverse in P1, P2 by lia. rewrite cos_neg in P1. rewrite sin_neg in P2. rewrite P1. split; [|lra].
    rewrite <- Z.even_opp. rewrite <- (Z2Nat.id (- k)) at 2 by lia. rewrite Zeven_nat. reflexivity.
Qed.
Theorem C22_parity norm n m r t : zernike_at norm n m r (t + PI) = (if Z.even m then 1 else -1) * zernike_at norm n m r t.
Proof. rewrite C22_rotation. destruct (cos_sin_kpi m) as [-> ->]. ring. Qed.
Theorem C22_period norm n m r t : zernike_at norm n m r (t + 2 * PI) = zernike_at norm n m r t.
Proof. replace (t + 2 * PI) with (t + PI + PI) by ring. rewrite !C22_parity. destruct (Z.even m); ring. Qed.
(** reflection in the axis theta = 0 *)
Theorem C22_reflection norm n m r t : zernike_at norm n m r (- t) = (if (m <? 0)%Z then -1 else 1) * zernike_at norm n m r t.
Proof.
  destruct (Z.eq_dec ((n - m) mod 2) 0) as [H|H].
  - rewrite !zernike_form by auto. unfold azimuthal. destruct (m <? 0)%Z; rewrite Ropp_mult_distr_r_reverse, ?sin_neg, ?cos_neg; ring.
  - rewrite !C20_odd_difference by auto. ring.
Qed.
Print Assumptions C22_rotation. Print Assumptions C22_parity. Print Assumptions C22_period. Print Assumptions C22_reflection.
Example C22_witness r t : r <= 1 -> zernike_at false 1 1 r (t + PI) = r * cos t.
Proof.
  intros Hr. rewrite C22_parity. rewrite C20_formula by (auto; repeat split; cbn; lia). unfold radial_poly. change (Z.to_nat 1) with 1%nat. change (Z.to_nat (Z.abs 1)) with 1%nat.
  change (1 <? 0)%Z with false. change (Z.even 1) with false. rewrite Rmult_1_l. cbn. field.
Qed.

(** ** C23: argument dispatch *)
Lemma asks_spec a q : rectangular a -> zernike_degrees a = Ok q <-> asks a q.
Proof.
  intros Hr. split.
  - destruct a as [[j|js|rows|]| |[j|js|rows|] [j'|js'|rows'|] |]; cbn [zernike_degrees]; try discriminate.
    + apply asks_j. + apply asks_js.
    + destruct rows as [|ns [|ms [|]]]; try discriminate. intros [= <-]. apply asks_stack. apply Hr; cbn; auto.
    + intros [= <-]. apply asks_nm.
    + destruct (Nat.eqb_spec (List.length js) (List.length js')); try discriminate. intros [= <-]. now apply asks_nms.
  - intros [ ]; cbn [zernike_degrees]; auto. now rewrite (proj2 (Nat.eqb_eq _ _) H).
Qed.
Lemma forallb_dec {A} (P : A -> Prop) (f : A -> bool) l : (forall x, f x = true <-> P x) -> forallb f l = true <-> (forall x, In x l -> P x).
Proof. intros H. rewrite forallb_forall. split; intros K x Hx; apply H, K, Hx. Qed.
Lemma fits_rev_spec t : forall r, fits_rev t r = true <-> stretches (rev t) (rev r).
Proof.
  induction t as [|a t IH]; intros r; cbn [fits_rev rev].
  - split; [intros _; constructor|reflexivity].
  - destruct r as [|b r]; cbn [rev].
    + split; [discriminate|]. intros H. inversion H as [? E|? ? ? ? ? ? E1 E2]; [symmetry in E; now apply app_eq_nil in E as [_ ?]|now apply app_eq_nil in E2 as [_ ?]].
    + rewrite andb_true_iff, orb_true_iff, !Z.eqb_eq, IH. split.
      * intros [H1 H2]. now constructor.
      * intros H. inversion H as [? E|? ? ? ? H1 H2 E1 E2]; [symmetry in E; now apply app_eq_nil in E as [_ ?]|]. apply app_inj_tail in E1 as [-> ->], E2 as [-> ->]. auto.
Qed.
Lemma fits_into_spec t r : fits_into t r = true <-> stretches t r.
Proof. unfold fits_into. rewrite fits_rev_spec, !rev_involutive. reflexivity. Qed.
Lemma stretches_refl sh : stretches sh sh.
Proof. induction sh using rev_ind; [constructor|]. constructor; auto. Qed.
Lemma seen_at_self sh : forall jx, inb sh jx -> seen_at sh jx jx.
Proof.
  induction sh as [|a sh IH] using rev_ind; intros jx H.
  - inversion H. constructor.
  - apply Forall2_app_inv_l in H. destruct H as (j1 & j2 & H1 & H2 & ->). inversion H2 as [|? j ? ? Hj H3]; subst. inversion H3; subst.
    pose proof (sat_axis sh j1 j1 a j (IH j1 H1)) as K. destruct (Z.eqb_spec a 1) as [->|]; [|exact K]. replace j with 0%Z in * by lia. exact K.
Qed.
Lemma stretch_snoc t : forall ys a j, List.length t = List.length ys -> stretch_ix (t ++ [a]) (ys ++ [j]) = stretch_ix t ys ++ [if (a =? 1)%Z then 0%Z else j].
Proof. induction t as [|b t IH]; intros [|y ys] a j H; try discriminate; [reflexivity|]. cbn [app stretch_ix]. rewrite IH by (now injection H). reflexivity. Qed.
Lemma seen_at_len t jx kx : seen_at t jx kx -> (List.length t <= List.length jx)%nat.
Proof. induction 1; [cbn; lia|]. rewrite !app_length. cbn. lia. Qed.
Lemma seen_spec theta jx kx : seen_at (shape theta) jx kx -> theta_at theta jx = get theta kx.
Proof.
  unfold theta_at. intros H. f_equal. revert H. generalize (shape theta). intros t H. induction H as [jx|t jx kx a j H IH].
  - reflexivity.
  - pose proof (seen_at_len _ _ _ H) as L. rewrite !app_length. cbn [List.length]. replace (List.length jx + 1 - (List.length t + 1))%nat with (List.length jx - List.length t)%nat by lia.
    rewrite skipn_app. replace (List.length jx - List.length t - List.length jx)%nat with 0%nat by lia. cbn [skipn]. rewrite stretch_snoc; [now rewrite IH|]. rewrite skipn_length. lia.
Qed.
Lemma even_abs n m : ((n - Z.abs m) mod 2 =? 0)%Z = ((n - m) mod 2 =? 0)%Z.
Proof.
  assert (D : (Z.abs m = m \/ Z.abs m = - m)%Z) by lia. destruct D as [-> | ->]; [reflexivity|]. replace (n - - m)%Z with (n - m + m * 2)%Z by ring. now rewrite Z_mod_plus_full.
Qed.
(** When zernike succeeds: exactly for a recognisable request, non-negative radii in at most two axes, |m| <= n, and (unless every
    mode asked for has n - m odd) angles that numpy can stretch to the shape of the radii. *)
Theorem C23_success_iff norm r theta a : rectangular a ->
  (exists out, zernike norm r theta a = Ok out) <->
  exists q, asks a q /\ (forall ix, inb (shape r) ix -> 0 <= get r ix) /\ (List.length (shape r) <= 2)%nat /\ (forall n m, In (n, m) q -> (Z.abs m <= n)%Z) /\
    (forall n m, In (n, m) q -> ((n - m) mod 2 = 0)%Z -> stretches (shape theta) (shape r)).
Proof.
  intros Hrect. unfold zernike. split.
  - intros [out H]. destruct (zernike_degrees a) as [q|] eqn:Eq; [|discriminate]. cbn [bind] in H. exists q. split; [now apply asks_spec|].
    destruct (forallb _ (all_ix (shape r))) eqn:E1; cbn [negb] in H; [|discriminate].
    destruct (Nat.ltb_spec 2 (List.length (shape r))); [discriminate|].
    destruct (forallb (fun q => (Z.abs (snd q) <=? fst q)%Z) q) eqn:E3; cbn [negb] in H; [|discriminate].
    destruct (existsb _ q && _) eqn:E4; [discriminate|].
    repeat split; try lia.
    + intros ix Hix. pose proof (proj1 (forallb_forall _ _) E1 ix (proj2 (in_all_ix _ _) Hix)) as K. cbn beta in K. destruct (Rle_dec 0 (get r ix)); [auto|discriminate].
    + intros n m Hin. pose proof (proj1 (forallb_forall _ _) E3 _ Hin) as K. cbn in K. lia.
    + intros n m Hin Hev. apply fits_into_spec. apply andb_false_iff in E4. destruct E4 as [E4|E4]; [|now apply negb_false_iff in E4].
      exfalso. apply Bool.not_true_iff_false in E4. apply E4. apply existsb_exists. exists (n, m). split; [exact Hin|]. cbn [fst snd]. rewrite even_abs. now apply Z.eqb_eq.
  - intros (q & Hq & H1 & H2 & H3 & H4). apply asks_spec in Hq; auto. rewrite Hq. cbn [bind].
    replace (forallb _ (all_ix (shape r))) with true. 2:{ symmetry. apply forallb_forall. intros ix Hix. apply in_all_ix in Hix. destruct (Rle_dec 0 (get r ix)); [auto|]. exfalso. auto. }
    cbn [negb]. destruct (Nat.ltb_spec 2 (List.length (shape r))); [lia|].
    replace (forallb (fun q => (Z.abs (snd q) <=? fst q)%Z) q) with true. 2:{ symmetry. apply forallb_forall. intros [n m] Hin. specialize (H3 n m Hin). cbn. lia. }
    cbn [negb]. destruct (existsb _ q) eqn:E; cbn [andb]; [|eexists; reflexivity].
    apply existsb_exists in E. destruct E as ([n m] & Hin & Hev). cbn [fst snd] in Hev. rewrite even_abs in Hev. apply Z.eqb_eq in Hev. rewrite (proj2 (fits_into_spec _ _) (H4 n m Hin Hev)). cbn [negb]. eexists. reflexivity.
Qed.
(** Shape and values: one mode per requested pair, in order, with the axes of length 1 squeezed out; the angle used at a position is
    the one seen there when the angles are stretched to the shape of the radii. *)
Theorem C23_stretched_result norm r theta a q out : rectangular a -> asks a q -> q <> [] -> zernike norm r theta a = Ok out ->
  shape out = filter (fun k => negb (k =? 1)%Z) (Z.of_nat (List.length q) :: shape r) /\
  (forall k n m jx, nth_error q k = Some (n, m) -> inb (shape r) jx ->
     ((n - m) mod 2 <> 0 -> get out (squeeze_ix (Z.of_nat (List.length q) :: shape r) (Z.of_nat k :: jx)) = 0%R)%Z /\
     forall kx, seen_at (shape theta) jx kx ->
       get out (squeeze_ix (Z.of_nat (List.length q) :: shape r) (Z.of_nat k :: jx)) = zernike_at norm n m (get r jx) (get theta kx)) /\
  (forall ix, inb (shape out) ix -> exists k jx, (k < List.length q)%nat /\ inb (shape r) jx /\ ix = squeeze_ix (Z.of_nat (List.length q) :: shape r) (Z.of_nat k :: jx)).
Proof.
  intros Hrect Hq Hne. apply asks_spec in Hq; auto. unfold zernike. rewrite Hq. cbn [bind].
  destruct (negb _); [discriminate|]. destruct (Nat.ltb _ _); [discriminate|]. destruct (negb _); [discriminate|]. destruct (_ && _); [discriminate|].
  destruct q as [|q0 q']; [contradiction|]. set (q := q0 :: q') in *. intros [= <-]. cbn [squeeze shape get]. split; [reflexivity|]. split.
  - intros k n m jx Hk Hj. assert (Hlt : (k < List.length q)%nat) by (apply nth_error_Some; congruence).
    rewrite unsqueeze_squeeze by (apply inb_cons; split; [lia|auto]). cbv beta iota zeta. rewrite Nat2Z.id. assert (En : nth k q (0%Z, 0%Z) = (n, m)) by (apply nth_error_nth; exact Hk). cbn [nth] in En. unfold q in En. cbn [nth] in En. rewrite En. cbn [fst snd].
    split; [intros Ho; now apply C20_odd_difference|]. intros kx Hk'. now rewrite (seen_spec theta jx kx).
  - intros ix Hix. destruct (squeeze_onto (Z.of_nat (List.length q) :: shape r) ix Hix) as (jx & Hj & <-).
    destruct (inb_cons_inv _ _ _ Hj) as (i & jx' & -> & Hi & Hj'). exists (Z.to_nat i), jx'. rewrite Z2Nat.id by lia. split; [lia|auto].
Qed.
(** ... in particular for radii and angles of one shape. *)
Theorem C23_result norm r theta a q out : rectangular a -> asks a q -> q <> [] -> shape theta = shape r -> zernike norm r theta a = Ok out ->
  shape out = filter (fun k => negb (k =? 1)%Z) (Z.of_nat (List.length q) :: shape r) /\
  (forall k n m jx, nth_error q k = Some (n, m) -> inb (shape r) jx ->
     get out (squeeze_ix (Z.of_nat (List.length q) :: shape r) (Z.of_nat k :: jx)) = zernike_at norm n m (get r jx) (get theta jx)) /\
  (forall ix, inb (shape out) ix -> exists k jx, (k < List.length q)%nat /\ inb (shape r) jx /\ ix = squeeze_ix (Z.of_nat (List.length q) :: shape r) (Z.of_nat k :: jx)).
Proof.
  intros Hrect Hq Hne Hs E. destruct (C23_stretched_result norm r theta a q out Hrect Hq Hne E) as (S1 & S2 & S3). split; [exact S1|]. split; [|exact S3].
  intros k n m jx Hk Hj. apply (S2 k n m jx Hk Hj). rewrite Hs. now apply seen_at_self.
Qed.
(** The three ways of asking for the same modes give the same answer (result or exception). *)
Theorem C23_forms_agree norm r theta js ns ms : noll2degrees (NInts js) = Ok (combine ns ms) -> List.length ns = List.length ms ->
  zernike norm r theta (One (IVec js)) = zernike norm r theta (Two (IVec ns) (IVec ms)) /\
  zernike norm r theta (One (IVec js)) = zernike norm r theta (One (IMat [ns; ms])).
Proof.
  intros H Hl. unfold zernike. cbn [zernike_degrees]. rewrite H, (proj2 (Nat.eqb_eq _ _) Hl). auto.
Qed.
Theorem C23_scalar_forms_agree norm r theta j n m : noll2degrees (NInts [j]) = Ok [(n, m)] ->
  zernike norm r theta (One (IScalar j)) = zernike norm r theta (Two (IScalar n) (IScalar m)) /\
  zernike norm r theta (One (IScalar j)) = zernike norm r theta (One (IVec [j])) /\
  zernike norm r theta (One (IScalar j)) = zernike norm r theta (One (IMat [[n]; [m]])).
Proof. intros H. unfold zernike. cbn [zernike_degrees combine]. rewrite H. auto. Qed.
(** Which exception. *)
Theorem C23_errors norm r theta a e : rectangular a -> zernike norm r theta a = Err e ->
  e = ValueError \/
  (e = IndexError /\ exists l, (a = One (IVec l) \/ exists j, a = One (IScalar j) /\ l = [j]) /\ exists j, In j l /\ (120 < j)%Z) \/
  (e = RuntimeError /\ exists rows, a = One (IMat rows) /\ List.length rows <> 2%nat).
Proof.
  intros Hr. unfold zernike. destruct (zernike_degrees a) as [q|e'] eqn:Eq; cbn [bind].
  - destruct (negb _); [intros [= <-]; auto|]. destruct (Nat.ltb _ _); [intros [= <-]; auto|]. destruct (negb _); [intros [= <-]; auto|]. destruct (_ && _); [intros [= <-]; auto|discriminate].
  - intros [= <-]. destruct a as [[j|js|rows|]| |[j|js|rows|] [j'|js'|rows'|] |]; cbn [zernike_degrees] in Eq; try (injection Eq as <-; now auto); try discriminate.
    + destruct (C18_noll2degrees_errors (NInts [j])) as [[q Hq]|[[Hq _]|[Hq (l & [= <-] & _ & j0 & H0)]]]; rewrite Hq in Eq; try discriminate; injection Eq as <-; auto.
      right; left. split; auto. exists [j]. split; eauto.
    + destruct (C18_noll2degrees_errors (NInts js)) as [[q Hq]|[[Hq _]|[Hq (l & [= <-] & _ & j0 & H0)]]]; rewrite Hq in Eq; try discriminate; injection Eq as <-; auto.
      right; left. split; auto. exists js. split; eauto.
    + destruct rows as [|ns [|ms [|x rows]]]; try discriminate; injection Eq as <-; right; right; split; auto; eexists; (split; [reflexivity|cbn; lia]).
    + destruct (Nat.eqb _ _); [discriminate|]. injection Eq as <-. auto.
Qed.
Print Assumptions C23_success_iff. Print Assumptions C23_stretched_result. Print Assumptions C23_result. Print Assumptions C23_forms_agree. Print Assumptions C23_scalar_forms_agree. Print Assumptions C23_errors.
Example C23_witness : (exists out, zernike true (mkArr [2; 3]%Z (fun _ => / 2)) (mkArr [3]%Z (fun _ => 0)) (One (IMat [[2; 3]; [0; 1]]%Z)) = Ok out /\ shape out = [2; 2; 3]%Z) /\
  zernike true (mkArr [2; 3]%Z (fun _ => / 2)) (mkArr [2]%Z (fun _ => 0)) (One (IMat [[2; 3]; [0; 1]]%Z)) = Err ValueError.
Proof.
  assert (R : rectangular (One (IMat [[2; 3]; [0; 1]]%Z))) by (intros x y [<-|[<-|[]]] [<-|[<-|[]]]; reflexivity). split.
  - destruct (proj2 (C23_success_iff true (mkArr [2; 3]%Z (fun _ => / 2)) (mkArr [3]%Z (fun _ => 0)) _ R)) as [out Ho].
    + exists [(2, 0); (3, 1)]%Z. split; [apply (asks_stack [2; 3]%Z [0; 1]%Z); reflexivity|]. split; [intros; cbn; lra|]. split; [cbn; lia|]. split; [intros n m [[= <- <-]|[[= <- <-]|[]]]; cbn; lia|].
      intros _ _ _ _. apply (str_axis [] [2%Z] 3 3); [constructor|auto].
    + exists out. split; [exact Ho|]. destruct (C23_stretched_result _ _ _ _ [(2, 0); (3, 1)]%Z out R (asks_stack [2; 3]%Z [0; 1]%Z eq_refl) ltac:(discriminate) Ho) as [-> _]. reflexivity.
  - destruct (zernike _ _ _ _) as [out|e] eqn:E.
    + exfalso. destruct (proj1 (C23_success_iff _ _ _ _ R) (ex_intro _ out E)) as (q & Hq & _ & _ & _ & H). inversion Hq; subst.
      specialize (H 2%Z 0%Z (or_introl eq_refl) eq_refl). apply fits_into_spec in H. discriminate H.
    + destruct (C23_errors _ _ _ _ e R E) as [->|[(_ & l & [[=]|(j & [=] & _)] & _)|(_ & rows & [= <-] & H)]]; [reflexivity|]. now cbn in H.
Qed.
