(** A least-squares solver exists: Gram-Schmidt on the columns.  It shows that the hypothesis [least_squares] of C51 can be met. *)
From Verif Require Import S_Fit L_Sum L_Fit.
Import M_Array.
Local Open Scope R_scope.

Section LS.
Variable p : nat.
Notation vec := (nat -> R).
Definition vd (a b : vec) : R := Rsum (seq 0 p) (fun i => a i * b i).
Fixpoint lin (cs : list vec) (x : list R) (i : nat) : R :=
  match cs, x with c :: cs, a :: x => a * c i + lin cs x i | _, _ => 0 end.
Definition resid (cs : list vec) (b : vec) (x : list R) : vec := fun i => b i - lin cs x i.
Definition axmy (t : list R) (al : R) (s : list R) : list R := map (fun q => fst q - al * snd q) (combine t s).
Fixpoint gs (cs : list vec) (b : vec) : list R :=
  match cs with
  | [] => []
  | c :: cs' =>
      let s := gs cs' c in let t := gs cs' b in
      let c' := resid cs' c s in let b' := resid cs' b t in
      if Req_EM_T (vd c' c') 0 then 0 :: t else let al := vd c' b' / vd c' c' in al :: axmy t al s
  end.
Lemma gs_len cs : forall b, List.length (gs cs b) = List.length cs.
Proof.
  induction cs as [|c cs IH]; intros b; [reflexivity|]. cbn. destruct (Req_EM_T _ _); cbn; [now rewrite IH|]. unfold axmy. rewrite map_length, combine_length, !IH, Nat.min_id. reflexivity.
Qed.
Lemma lin_axmy cs : forall t al s i, List.length t = List.length cs -> List.length s = List.length cs -> lin cs (axmy t al s) i = lin cs t i - al * lin cs s i.
Proof.
  induction cs as [|c cs IH]; intros t al s i Ht Hs; destruct t, s; cbn in Ht, Hs; try discriminate; cbn; [ring|]. fold (axmy t al s). rewrite IH by lia. ring.
Qed.
Lemma vd_comm a b : vd a b = vd b a.
Proof. apply Rsum_ext. intros; ring. Qed.
Lemma vd_lin cs : forall x r, (forall c, In c cs -> vd c r = 0) -> vd (lin cs x) r = 0.
Proof.
  induction cs as [|c cs IH]; intros x r H. { apply Rsum_zero. intros; cbn; ring. }
  destruct x as [|a x]; [apply Rsum_zero; intros; cbn; ring|].
  replace (vd (lin (c :: cs) (a :: x)) r) with (a * vd c r + vd (lin cs x) r).
  - rewrite H by now left. rewrite IH by (intros; apply H; now right). ring.
  - unfold vd. rewrite <- Rsum_scal_l, <- Rsum_plus. apply Rsum_ext. intros; cbn; ring.
Qed.
Lemma vd_sub a al c' : forall r, vd r (fun i => a i - al * c' i) = vd r a - al * vd r c'.
Proof. intros r. unfold vd. rewrite <- Rsum_scal_l, <- Rsum_minus. apply Rsum_ext. intros; ring. Qed.
Lemma vd_zero a : vd a a = 0 -> forall i, (i < p)%nat -> a i = 0.
Proof.
  intros H i Hi. destruct (Req_dec (a i) 0) as [|N]; auto. exfalso.
  assert (a i * a i <= vd a a). { apply (Rsum_ge_term (seq 0 p) (fun i => a i * a i) i); [intros; nra|apply in_seq; lia]. }
  nra.
Qed.
Lemma vd_ext a a' b b' : (forall i, (i < p)%nat -> a i = a' i) -> (forall i, (i < p)%nat -> b i = b' i) -> vd a b = vd a' b'.
Proof. intros H1 H2. apply Rsum_ext. intros i Hi. apply in_seq in Hi. rewrite H1, H2 by lia. reflexivity. Qed.
Lemma gs_orth cs : forall b c, In c cs -> vd c (resid cs b (gs cs b)) = 0.
Proof.
  induction cs as [|c0 cs IH]; intros b c Hc; [destruct Hc|]. cbn [gs].
  set (s := gs cs c0). set (t := gs cs b). set (c' := resid cs c0 s). set (b' := resid cs b t). cbn zeta.
  assert (Es : forall i, c0 i = c' i + lin cs s i) by (intros i; unfold c', resid; ring).
  assert (Main : forall r, (forall d, In d cs -> vd d r = 0) -> vd c' r = 0 -> In c (c0 :: cs) -> vd c r = 0).
  { intros r H1 H2 [<-|Hd]; [|now apply H1]. replace (vd c0 r) with (vd c' r + vd (lin cs s) r). { rewrite H2, vd_lin by auto. ring. }
    unfold vd. rewrite <- Rsum_plus. apply Rsum_ext. intros i _. rewrite Es. ring. }
  destruct (Req_EM_T (vd c' c') 0) as [Z|NZ].
  - replace (vd c (resid (c0 :: cs) b (0 :: t))) with (vd c b') by (apply vd_ext; auto; intros; unfold b', resid; cbn; ring).
    apply Main; auto. { intros d Hd. apply IH; auto. } apply Rsum_zero. intros i Hi. apply in_seq in Hi. rewrite (vd_zero _ Z) by lia. ring.
  - set (al := vd c' b' / vd c' c').
    replace (vd c (resid (c0 :: cs) b (al :: axmy t al s))) with (vd c (fun i => b' i - al * c' i)).
    + apply Main; auto. { intros d Hd. rewrite vd_sub. unfold b', t, c', s. rewrite !IH by auto. ring. } rewrite vd_sub. unfold al. field. exact NZ.
    + apply vd_ext; auto. intros i _. unfold b', c', resid. cbn [lin]. rewrite lin_axmy by (unfold t, s; apply gs_len). ring.
Qed.
Lemma lin_axm1 cs : forall x y i, List.length x = List.length cs -> List.length y = List.length cs -> lin cs x i - lin cs y i = lin cs (axmy x 1 y) i.
Proof. intros. rewrite lin_axmy by auto. ring. Qed.
Lemma gs_min cs b y : List.length y = List.length cs ->
  Rsum (seq 0 p) (fun i => (lin cs (gs cs b) i - b i) ^ 2) <= Rsum (seq 0 p) (fun i => (lin cs y i - b i) ^ 2).
Proof.
  intros Hy. set (x := gs cs b). set (r := resid cs b x). set (e := lin cs (axmy x 1 y)).
  assert (Hx : List.length x = List.length cs) by apply gs_len.
  assert (O : vd e r = 0) by (apply vd_lin; intros c Hc; now apply gs_orth).
  replace (Rsum (seq 0 p) (fun i => (lin cs y i - b i) ^ 2)) with (Rsum (seq 0 p) (fun i => (lin cs x i - b i) ^ 2) + (2 * vd e r + vd e e)).
  - assert (0 <= vd e e) by (apply Rsum_nonneg; intros; nra). lra.
  - unfold vd. rewrite <- Rsum_scal_l, <- !Rsum_plus. apply Rsum_ext. intros i _. unfold e. rewrite <- lin_axm1 by auto. unfold r, resid. ring.
Qed.
End LS.

Definition gs_lstsq (rows : list (list R)) (b : list R) : list R :=
  gs (List.length rows) (map (fun j i => nth j (nth i rows []) 0) (seq 0 (List.length (hd [] rows)))) (fun i => nth i b 0).
Lemma sqerr_seq rows : forall b x, List.length b = List.length rows -> sqerr rows b x = Rsum (seq 0 (List.length rows)) (fun i => (dot (nth i rows []) x - nth i b 0) ^ 2).
Proof.
  unfold sqerr. induction rows as [|r rows IH]; intros b x H; [reflexivity|]. destruct b as [|b0 b]; [discriminate|]. cbn [combine Rsum List.length seq fst snd]. rewrite IH by (cbn in H; lia).
  rewrite <- seq_shift, Rsum_map. cbn [nth]. f_equal.
Qed.
Lemma dot_lin (rows : list (list R)) i x : forall s, List.length (nth i rows []) = (s + List.length x)%nat ->
  dot (skipn s (nth i rows [])) x = lin (map (fun j i => nth j (nth i rows []) 0) (seq s (List.length x))) x i.
Proof.
  set (r := nth i rows []). induction x as [|a x IH]; intros s H.
  - unfold dot. destruct (skipn s r); reflexivity.
  - cbn [List.length seq map lin]. rewrite <- IH by (cbn in H; lia). cbn in H.
    assert (E : skipn s r = nth s r 0 :: skipn (S s) r).
    { clear -H. revert s H. generalize r. induction r0 as [|q r0 IH]; intros s H; [cbn in H; lia|]. destruct s; [reflexivity|]. cbn in *. apply IH. lia. }
    rewrite E. unfold dot. cbn [combine Rsum fst snd]. fold r. ring.
Qed.
Lemma gs_least_squares : least_squares gs_lstsq.
Proof.
  intros rows b m Hb Hne Hm. assert (Em : List.length (hd [] rows) = m) by (destruct rows as [|r rows]; [congruence|apply Hm; now left]).
  assert (L : List.length (gs_lstsq rows b) = m) by (unfold gs_lstsq; rewrite gs_len, map_length, seq_length; exact Em).
  split; [exact L|]. intros x Hx. rewrite !sqerr_seq by auto.
  assert (D : forall z, List.length z = m -> forall i, (i < List.length rows)%nat -> dot (nth i rows []) z = lin (map (fun j i => nth j (nth i rows []) 0) (seq 0 m)) z i).
  { intros z Hz i Hi. subst m. rewrite <- Hz. rewrite <- (dot_lin rows i z 0); [reflexivity|]. rewrite Hz. apply Hm. now apply nth_In. }
  rewrite (Rsum_ext _ _ (fun i => (lin (map (fun j i => nth j (nth i rows []) 0) (seq 0 m)) (gs_lstsq rows b) i - nth i b 0) ^ 2)) by (intros i Hi; apply in_seq in Hi; rewrite D by (auto; lia); reflexivity).
  rewrite (Rsum_ext _ (fun i => (dot (nth i rows []) x - nth i b 0) ^ 2) (fun i => (lin (map (fun j i => nth j (nth i rows []) 0) (seq 0 m)) x i - nth i b 0) ^ 2)) by (intros i Hi; apply in_seq in Hi; rewrite D by (auto; lia); reflexivity).
  unfold gs_lstsq. rewrite Em. apply gs_min. now rewrite map_length, seq_length.
Qed.
