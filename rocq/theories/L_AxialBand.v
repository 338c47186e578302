(** Functions of the plane index whose frequencies lie in a set. *)
From Verif Require Import S_FFT S_Hanser S_Micro L_Array L_Sum L_FFT L_FFT2 L_Polar L_Hanser L_Hanser2 L_Sheppard2 L_Phase2 L_Band L_Lateral.
Import M_Array.
Local Open Scope R_scope.

(** [g] on m planes is a sum of exponentials whose frequencies (cycles per stack) lie in [S] *)
Definition AS (m : Z) (S : Z -> Prop) (g : Z -> C) : Prop :=
  exists l : list (Z * C), Forall (fun t => S (fst t)) l /\ forall z, (0 <= z < m)%Z -> g z = Csum l (fun t => snd t *c root m (fst t * z)).

Lemma AS_ext m (S : Z -> Prop) g g' : (forall z, (0 <= z < m)%Z -> g z = g' z) -> AS m S g -> AS m S g'.
Proof. intros H (l & F & E). exists l. split; [exact F|]. intros z Hz. rewrite <- H by auto. auto. Qed.
Lemma AS_weaken m (S S' : Z -> Prop) g : (forall s, S s -> S' s) -> AS m S g -> AS m S' g.
Proof. intros H (l & F & E). exists l. split; [|exact E]. eapply Forall_impl; [|exact F]. intros t Ht. now apply H. Qed.
Lemma AS_null m S : AS m S (fun _ => RtoC 0).
Proof. exists []. split; [constructor|reflexivity]. Qed.
Lemma AS_wave m (S : Z -> Prop) s c : S s -> AS m S (fun z => c *c root m (s * z)).
Proof. intros H. exists [(s, c)]. split; [constructor; [exact H|constructor]|]. intros z _. cbn [Csum fst snd]. ring. Qed.
Lemma AS_sum {X} m S (s : list X) (G : X -> Z -> C) : (forall a, In a s -> AS m S (G a)) -> AS m S (fun z => Csum s (fun a => G a z)).
Proof.
  induction s as [|a s IH]; intros H; [exists []; split; [constructor|reflexivity]|].
  destruct (H a (or_introl eq_refl)) as (l1 & F1 & E1). destruct IH as (l2 & F2 & E2); [intros; apply H; now right|].
  exists (l1 ++ l2)%list. split; [now apply Forall_app|]. intros z Hz. rewrite Csum_app. cbn [Csum]. now rewrite E1, E2.
Qed.
Lemma AS_scal m S c g : AS m S g -> AS m S (fun z => c *c g z).
Proof.
  intros (l & F & E). exists (map (fun t => (fst t, c *c snd t)) l). split; [apply Forall_map; exact F|].
  intros z Hz. rewrite Csum_map, E, <- Csum_scal_l by auto. apply Csum_ext. intros t _. cbn [fst snd]. ring.
Qed.
Lemma AS_conj m S g : AS m S g -> AS m (fun s => S (- s)%Z) (fun z => Cconj (g z)).
Proof.
  intros (l & F & E). exists (map (fun t => ((- fst t)%Z, Cconj (snd t))) l). split.
  - apply Forall_map. eapply Forall_impl; [|exact F]. intros t Ht. cbn [fst snd]. now rewrite Z.opp_involutive.
  - intros z Hz. rewrite Csum_map, E, Csum_conj by auto. apply Csum_ext. intros t _. cbn [fst snd]. rewrite Cconj_mult, root_conj. f_equal. f_equal. ring.
Qed.
Definition sum_of (S S' : Z -> Prop) (s : Z) : Prop := exists a b, S a /\ S' b /\ (s = a + b)%Z.
Lemma AS_mult m (S S' : Z -> Prop) g g' : AS m S g -> AS m S' g' -> AS m (sum_of S S') (fun z => g z *c g' z).
Proof.
  intros (l & F & E) (l' & F' & E'). exists (flat_map (fun t : Z * C => map (fun t' : Z * C => ((fst t + fst t')%Z, snd t *c snd t')) l') l). split.
  - apply Forall_forall. intros u Hu. apply in_flat_map in Hu as (t & Ht & Hu). apply in_map_iff in Hu as (t' & <- & Ht').
    rewrite Forall_forall in F, F'. exists (fst t), (fst t'). split; [now apply F|]. split; [now apply F'|reflexivity].
  - intros z Hz. rewrite Csum_flat_map, E, E', Csum_prod by auto. apply Csum_ext. intros t _. rewrite Csum_map. apply Csum_ext. intros t' _.
    cbn [fst snd]. rewrite Z.mul_add_distr_r, root_add. ring.
Qed.
(** [kz] is, cyclically, one of the frequencies *)
Definition hit (m kz : Z) (S : Z -> Prop) : Prop := exists s, S s /\ ((s - (kz - m / 2)) mod m = 0)%Z.
Lemma AS_vanish m S g kz : (0 < m)%Z -> AS m S g -> ~ hit m kz S -> Csum (zseq m) (fun z => kcen (-1) m kz z *c g z) = RtoC 0.
Proof.
  intros Hm (l & F & E) N. rewrite (Csum_ext _ _ (fun z => Csum l (fun t => snd t *c root m (m / 2 * fst t) *c root m ((z - m / 2) * (fst t - (kz - m / 2)))))).
  - rewrite Csum_swap. apply Csum_zero. intros t Ht. rewrite Csum_scal_l, cen_sum by exact Hm. rewrite Forall_forall in F.
    destruct (Z.eqb_spec ((fst t - (kz - m / 2)) mod m) 0) as [E0|]; [|ring]. exfalso. apply N. exists (fst t). split; [now apply F|exact E0].
  - intros z Hz. apply in_zseq in Hz. rewrite E, <- Csum_scal_l by auto. apply Csum_ext. intros t _. unfold kcen.
    rewrite (Cmult_comm (root m (-1 * _))), <- Cmult_assoc, <- Cmult_assoc. f_equal. rewrite <- !root_add. f_equal. ring.
Qed.
(** a transform over three axes of which the first one vanishes everywhere *)
Lemma stack_vanish m n f kz ky kx : (0 <= ky < n)%Z -> (0 <= kx < n)%Z ->
  (forall y x, (0 <= y < n)%Z -> (0 <= x < n)%Z -> Csum (zseq m) (fun z => kcen (-1) m kz z *c f [z; y; x]) = RtoC 0) ->
  mop (kcen (-1)) [true; true; true] [m; n; n] f [kz; ky; kx] = RtoC 0.
Proof.
  intros Hy Hx H. rewrite mop3. rewrite <- (mop_lin _ _ _ (zseq m) (fun z => kcen (-1) m kz z) (fun z ix => f (z :: ix))).
  rewrite (mop_ext _ _ _ _ (fun _ => RtoC 0 *c RtoC 0)).
  - rewrite mop_scal. ring.
  - now apply inb2.
  - intros js Hj. destruct (inb2_inv _ _ _ Hj) as (y & x & -> & H1 & H2). rewrite H by assumption. ring.
Qed.
(** binned over the two lateral axes and transformed *)
Lemma binned_vanish q r m n f light (S : Z -> Prop) kz ky kx : (0 < n)%Z -> (0 < f)%Z -> shape r = [m; n; n] ->
  (forall y x, (0 <= y < n * f)%Z -> (0 <= x < n * f)%Z -> AS m S (fun z => RtoC (get q [z; y; x]))) ->
  (forall z y x, inb [m; n; n] [z; y; x] -> get r [z; y; x] = Some (collected q n f z y x / light)) ->
  inb [m; n; n] [kz; ky; kx] -> ~ hit m kz S ->
  get (o_fft (amap (option_map RtoC) r)) [kz; ky; kx] = Some (RtoC 0).
Proof.
  intros Hn Hf Hs HA Hv Hi N. destruct (inb3_inv _ _ _ _ Hi) as (a & b & c & [= <- <- <-] & Qz & Qy & Qx).
  set (B := amap (option_map RtoC) r). assert (Fin : finite_all B = true).
  { unfold finite_all. apply forallb_forall. intros ix Hix. apply in_all_ix in Hix. unfold B in *. cbn [amap get shape] in *. rewrite Hs in Hix. destruct (inb3_inv _ _ _ _ Hix) as (z & y & x & -> & _). rewrite Hv by exact Hix. reflexivity. }
  unfold o_fft. cbn [get]. rewrite Fin. f_equal. assert (Sh : shape (amap cval B) = [m; n; n]) by exact Hs.
  rewrite easy_fft_mop; rewrite Sh; [|exact Hi]. cbn [axes_mask List.length repeat]. apply stack_vanish; [exact Qy|exact Qx|]. intros y x Hy Hx.
  apply (AS_vanish m S _ kz); [lia| |exact N].
  apply (AS_ext m S (fun z => RtoC (/ light) *c RtoC (collected q n f z y x))).
  { intros z Hz. unfold B. cbn [amap get]. rewrite Hv by (now apply inb3). cbn [option_map cval]. unfold Rdiv. rewrite Rmult_comm. symmetry. apply RtoC_mult. }
  apply AS_scal. unfold collected.
  apply (AS_ext m S (fun z => Csum (offsets f) (fun j => Csum (offsets f) (fun i => RtoC (get q [z; (n * f / 2 + (y - n / 2) * f + j) mod (n * f); (n * f / 2 + (x - n / 2) * f + i) mod (n * f)]%Z))))).
  { intros z _. rewrite Csum_RtoC. apply Csum_ext. intros j _. now rewrite Csum_RtoC. }
  apply AS_sum. intros j _. apply AS_sum. intros i _. apply HA; apply Z.mod_pos_bound; nia.
Qed.
