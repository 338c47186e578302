(** Phase retrieval: the array program computes the projection step of L_Phase.v. *)
From Verif Require Import M_Phase S_Hanser L_Array L_Sum L_FFT L_FFT2 L_Polar L_Hanser L_Hanser2 L_Hanser4 L_Aberr L_Phase.
Import M_Array.
Local Open Scope R_scope.

(** ** broadcasting of equal shapes *)
Lemma bshape_rev_same l : bshape_rev l l = Ok l.
Proof. induction l as [|a l IH]; cbn [bshape_rev]; [reflexivity|]. rewrite bdim_same. cbn [bind]. rewrite IH. reflexivity. Qed.
Lemma bshape_same sh : bshape sh sh = Ok sh.
Proof. unfold bshape. rewrite bshape_rev_same. cbn [bind]. now rewrite rev_involutive. Qed.
Lemma bixs_in : forall sh ix, inb sh ix -> bixs sh ix = ix.
Proof.
  induction sh as [|n sh IH]; intros ix Hi; [now rewrite (inb_nil _ Hi)|]. destruct (inb_cons_inv _ _ _ Hi) as (i & r & -> & Hn & Hr).
  cbn [bixs]. now rewrite bix_in, IH by auto.
Qed.
Lemma inb_length sh ix : inb sh ix -> List.length ix = List.length sh.
Proof. intros H. induction H; cbn; congruence. Qed.
Lemma bget_in {A} (a : array A) ix : inb (shape a) ix -> bget a ix = get a ix.
Proof. intros H. unfold bget. rewrite (inb_length _ _ H), Nat.sub_diag. cbn [skipn]. now rewrite bixs_in. Qed.
Lemma bop_eq {A B D} (f : A -> B -> D) (a : array A) (b : array B) : shape b = shape a ->
  exists c, bop f a b = Ok c /\ shape c = shape a /\ forall ix, inb (shape a) ix -> get c ix = f (get a ix) (get b ix).
Proof.
  intros Hb. unfold bop. rewrite Hb, bshape_same. cbn [bind]. eexists. split; [reflexivity|]. split; [reflexivity|].
  intros ix Hix. cbn [get]. rewrite !bget_in; auto. now rewrite Hb.
Qed.
Lemma bop_lead {A B D} (f : A -> B -> D) (a : array A) (b : array B) n m : shape a = [1; n; m]%Z -> shape b = [n; m] ->
  exists c, bop f a b = Ok c /\ shape c = [1; n; m]%Z /\ forall y x, (0 <= y < n)%Z -> (0 <= x < m)%Z -> get c [0; y; x]%Z = f (get a [0; y; x]%Z) (get b [y; x]).
Proof.
  intros Ha Hb. unfold bop, bshape. rewrite Ha, Hb. cbn [rev app bshape_rev]. rewrite !bdim_same. cbn. eexists. split; [reflexivity|]. split; [reflexivity|].
  intros y x Hy Hx. cbn [get]. unfold bget. rewrite Ha, Hb. cbn [List.length Nat.sub skipn bixs]. rewrite !bix_in by (auto || lia). reflexivity.
Qed.
Lemma zlist_eqb_refl l : zlist_eqb l l = true. Proof. induction l; cbn; auto. now rewrite Z.eqb_refl. Qed.
Lemma ibop_eq {A B} (f : A -> B -> A) (a : array A) (b : array B) : shape b = shape a ->
  exists c, ibop f a b = Ok c /\ shape c = shape a /\ forall ix, inb (shape a) ix -> get c ix = f (get a ix) (get b ix).
Proof.
  intros Hb. destruct (bop_eq f a b Hb) as (c & E & Sc & Gc). exists c. unfold ibop. rewrite E. cbn [bind]. rewrite Sc, zlist_eqb_refl. auto.
Qed.
Lemma inb3 n m k z y x : (0 <= z < n)%Z -> (0 <= y < m)%Z -> (0 <= x < k)%Z -> inb [n; m; k] [z; y; x].
Proof. intros. repeat constructor; auto; lia. Qed.
Lemma inb3_inv n m k ix : inb [n; m; k] ix -> exists z y x, ix = [z; y; x] /\ (0 <= z < n)%Z /\ (0 <= y < m)%Z /\ (0 <= x < k)%Z.
Proof. intros H. destruct (inb_cons_inv _ _ _ H) as (z & r & -> & Hz & Hr). destruct (inb2_inv _ _ _ Hr) as (y & x & -> & Hy & Hx). exists z, y, x. auto. Qed.

(** ** back to the pupil plane *)
Lemma kernel_back n k i : (0 < n -> 0 <= i < n -> kcomp (kdft (-1)) (kshift 1) n k i = kadj n k i)%Z.
Proof.
  intros Hn Hi. rewrite kcomp_shift_r by auto. unfold kadj, kdft, kpsf. rewrite root_conj. apply root_cong; auto.
  replace (-1 * ((i - 1 * (n / 2)) mod n * k) - - (k * (i - n / 2)))%Z with (- (((i - 1 * (n / 2)) mod n - (i - 1 * (n / 2))) * k))%Z by ring.
  pose proof (mod_self_cong n (i - 1 * (n / 2)) Hn) as H. apply Z.mod_divide in H; [|lia]. destruct H as [q ->].
  replace (- (q * n * k))%Z with (- (q * k) * n)%Z by ring. apply Z_mod_mult.
Qed.
Lemma fft_back (a : array C) nz n z j i : shape a = [nz; n; n] -> (0 <= z < nz)%Z -> (0 <= j < n)%Z -> (0 <= i < n)%Z ->
  get (fftn axes12 (ifftshift axes12 a)) [z; j; i] = mop kadj [true; true] [n; n] (fl2 (fun y x => get a [z; y; x])) [j; i].
Proof.
  intros Hs Hz Hj Hi. unfold fftn, ifftshift. cbn [get shape]. rewrite Hs, dft_mop.
  pose proof (inb3 nz n n z j i Hz Hj Hi) as Hin.
  transitivity (mop (kdft (-1)) axes12 [nz; n; n] (mop (kshift 1) axes12 [nz; n; n] (get a)) [z; j; i]).
  { apply mop_ext; auto. intros js Hjs. now rewrite <- (mop_shift 1 axes12). }
  rewrite mop_comp. change axes12 with [false; true; true]. cbn [mop].
  assert (Hn : (0 < n)%Z) by lia.
  change (mop (kcomp (kdft (-1)) (kshift 1)) [true; true] [n; n] (fun js => get a (z :: js)) [j; i] = mop kadj [true; true] [n; n] (fl2 (fun y x => get a [z; y; x])) [j; i]).
  rewrite (mop_kernel _ kadj); [|now apply inb2|].
  2:{ intros m k i' [<-|[<-|[]]] _ Hi'; now apply kernel_back. }
  apply mop_ext; [now apply inb2|]. intros js Hjs. destruct (inb2_inv _ _ _ Hjs) as (y & x & -> & _). reflexivity.
Qed.

(** ** amplitudes *)
Section H.
Context (h : hpar) (Hph : physical h) (Hv : h_vec h = VecNone) (Hc : h_cond h = CondNone) (Hn2 : (2 <= h_size h)%Z).
Let n := h_size h.
Let nz := Z.of_nat (List.length (h_zrange h)).
Context (Hnz : (1 <= nz)%Z).
Definition fn (P : array C) (j i : Z) : C := get P [j; i].
Lemma amp_val P A : shape P = [n; n] -> M_Hanser.gen_psf h (Some P) = Ok A ->
  shape A = [1; nz; n; n]%Z /\ forall z y x, (0 <= y < n)%Z -> (0 <= x < n)%Z -> get A [0; z; y; x]%Z = amp h (fn P) z y x.
Proof.
  intros HP HA. destruct (gen_psf_val h Hph (Some P) A HA) as [SA GA]; [intros ? [= <-]; exact HP|]. rewrite Hv in SA. split; [exact SA|].
  intros z y x Hy Hx. rewrite GA by auto. unfold amp. fold n. f_equal. apply mop_ext; [now apply inb2|]. intros js Hjs. destruct (inb2_inv _ _ _ Hjs) as (j & i & -> & _).
  unfold pup, apod. rewrite Hv, Hc. cbn [used_pupil plist Z.to_nat nth fl2]. unfold fn. now rewrite !Cmult_1_r.
Qed.
Lemma amp_none A : M_Hanser.gen_psf h None = Ok A ->
  shape A = [1; nz; n; n]%Z /\ forall z y x, (0 <= y < n)%Z -> (0 <= x < n)%Z -> get A [0; z; y; x]%Z = amp h (fn (gen_pupil h)) z y x.
Proof.
  intros HA. destruct (gen_psf_val h Hph None A HA) as [SA GA]; [discriminate|]. rewrite Hv in SA. split; [exact SA|].
  intros z y x Hy Hx. rewrite GA by auto. unfold amp. fold n. f_equal. apply mop_ext; [now apply inb2|]. intros js Hjs. destruct (inb2_inv _ _ _ Hjs) as (j & i & -> & Hj & Hi).
  unfold pup, apod. rewrite Hv, Hc. cbn [used_pupil plist Z.to_nat nth fl2]. unfold fn, gen_pupil. cbn [get]. rewrite ideal_spec by auto. now rewrite !Cmult_1_r.
Qed.
Lemma amp_ext P Q z y x : (0 <= y < n)%Z -> (0 <= x < n)%Z -> (forall j i, (0 <= j < n)%Z -> (0 <= i < n)%Z -> P j i = Q j i) -> amp h P z y x = amp h Q z y x.
Proof.
  intros Hy Hx E. unfold amp. f_equal. apply mop_ext; [now apply inb2|]. intros js Hjs. destruct (inb2_inv _ _ _ Hjs) as (j & i & -> & Hj & Hi). cbn [fl2]. now rewrite E.
Qed.

Context (data : array R) (Hd : shape data = [nz; n; n]).
(** measured magnitudes, and the aperture *)
Definition mgf (z y x : Z) : R := psqrt (get data [z; y; x]).
Definition mkf (j i : Z) : R := ideal_pupil h j i.
Lemma mgf_pos z y x : 0 <= mgf z y x. Proof. apply sqrt_pos. Qed.
Lemma mkf_01 j i : mkf j i = 0 \/ mkf j i = 1. Proof. unfold mkf, ideal_pupil. destruct (Rlt_dec _ _); auto. Qed.
Definition maskA : array R := amap Re (gen_pupil h).
Lemma maskA_val j i : get maskA [j; i] = mkf j i. Proof. reflexivity. Qed.

Lemma next_val po P A : shape P = [n; n] -> M_Hanser.gen_psf h (Some P) = Ok A ->
  exists Q, next_pupil (amap psqrt data) maskA po h A = Ok Q /\ shape Q = [n; n] /\
    forall j i, (0 <= j < n)%Z -> (0 <= i < n)%Z -> get Q [j; i] = step h nz mgf mkf po (fn P) j i.
Proof.
  intros HP HA. destruct (amp_val P A HP HA) as [SA GA]. unfold next_pupil.
  assert (S1 : exists N, bop (fun m p => Cmult (RtoC m) (cis p)) (amap psqrt data) (amap angle (squeeze A)) = Ok N /\ shape N = [nz; n; n] /\
     forall z y x, (0 <= z < nz)%Z -> (0 <= y < n)%Z -> (0 <= x < n)%Z -> get N [z; y; x] = fix_mag h mgf (fn P) z y x).
  { assert (En : (n =? 1)%Z = false) by (apply Z.eqb_neq; unfold n; lia).
    destruct (Z.eqb_spec nz 1) as [E1|E1].
    - assert (Sq : shape (squeeze A) = [n; n]) by (unfold squeeze; cbn [shape]; rewrite SA; cbn [filter]; rewrite E1, En; reflexivity).
      assert (Gq : forall y x, get (squeeze A) [y; x] = get A [0; 0; y; x]%Z).
      { intros y x. unfold squeeze. cbn [get]. rewrite SA, E1. cbn [unsqueeze_ix Z.eqb]. rewrite En. reflexivity. }
      destruct (bop_lead (fun m p => Cmult (RtoC m) (cis p)) (amap psqrt data) (amap angle (squeeze A)) n n) as (N & EN & SN & GN).
      { cbn [shape amap]. now rewrite Hd, E1. } { exact Sq. }
      exists N. split; [exact EN|]. split; [now rewrite E1|]. intros z y x Hz Hy Hx. assert (z = 0)%Z by lia. subst z. rewrite GN by auto.
      cbn [get amap]. rewrite Gq, GA by auto. reflexivity.
    - assert (E1' : (nz =? 1)%Z = false) by now apply Z.eqb_neq.
      assert (Sq : shape (squeeze A) = [nz; n; n]) by (unfold squeeze; cbn [shape]; rewrite SA; cbn [filter]; rewrite E1', En; reflexivity).
      assert (Gq : forall z y x, get (squeeze A) [z; y; x] = get A [0; z; y; x]%Z).
      { intros z y x. unfold squeeze. cbn [get]. rewrite SA. cbn [unsqueeze_ix]. rewrite E1', En. reflexivity. }
      destruct (bop_eq (fun m p => Cmult (RtoC m) (cis p)) (amap psqrt data) (amap angle (squeeze A))) as (N & EN & SN & GN).
      { cbn [shape amap]. now rewrite Hd, Sq. } 
      exists N. split; [exact EN|]. cbn [shape amap] in SN, GN. rewrite Hd in SN, GN. split; [exact SN|]. intros z y x Hz Hy Hx.
      rewrite GN by now apply inb3. cbn [get amap]. rewrite Gq, GA by auto. reflexivity. }
  destruct S1 as (N & EN & SN & GN). rewrite EN. cbn [bind].
  destruct (ibop_eq Cdiv (fftn axes12 (ifftshift axes12 N)) (calc_defocus h)) as (B & EB & SB & GB).
  { cbn [shape fftn ifftshift calc_defocus]. fold nz n. now rewrite SN. }
  rewrite EB. cbn [bind]. cbn [shape fftn ifftshift] in SB, GB. rewrite SN in SB, GB.
  assert (VB : forall z j i, (0 <= z < nz)%Z -> (0 <= j < n)%Z -> (0 <= i < n)%Z -> get B [z; j; i] = back h (fix_mag h mgf (fn P) z) z j i).
  { intros z j i Hz Hj Hi. rewrite GB by now apply inb3. rewrite (fft_back N nz n z j i SN Hz Hj Hi). unfold back. fold n. cbn [calc_defocus get]. f_equal.
    apply mop_ext; [now apply inb2|]. intros js Hjs. destruct (inb2_inv _ _ _ Hjs) as (y & x & -> & Hy & Hx). cbn [fl2]. now apply GN. }
  assert (Sm : shape (mean0 B) = [n; n]) by (unfold mean0; cbn [shape]; now rewrite SB).
  assert (Gm : forall j i, (0 <= j < n)%Z -> (0 <= i < n)%Z -> get (mean0 B) [j; i] = avg h nz mgf (fn P) j i).
  { intros j i Hj Hi. unfold mean0. cbn [get]. rewrite SB. cbn [hd]. unfold avg. f_equal. apply Csum_ext. intros z Hz. apply in_zseq_iff in Hz. now apply VB. }
  destruct (bop_same (fun z m => Cmult z (RtoC m)) (mean0 B) maskA n Sm eq_refl) as (D & ED & SD & GD). rewrite ED. cbn [bind].
  assert (VD : forall j i, (0 <= j < n)%Z -> (0 <= i < n)%Z -> get D [j; i] = Cmult (avg h nz mgf (fn P) j i) (RtoC (mkf j i))) by (intros j i Hj Hi; rewrite GD, Gm by auto; now rewrite maskA_val).
  destruct po.
  - destruct (bop_same (fun z m => Cmult (cis (angle z)) (RtoC m)) D maskA n SD eq_refl) as (F & EF & SF & GF). exists F. split; [exact EF|]. split; [exact SF|].
    intros j i Hj Hi. rewrite GF, VD by auto. now rewrite maskA_val.
  - exists D. split; [reflexivity|]. split; [exact SD|]. intros j i Hj Hi. now apply VD.
Qed.
End H.
