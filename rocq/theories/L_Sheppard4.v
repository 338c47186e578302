From Verif Require Import M_Sheppard S_Sheppard S_FFT L_Array L_Sum L_FFT L_FFT2 L_Polar L_Hanser L_Hanser2 L_Sheppard L_Sheppard2 L_Sheppard3.
Local Open Scope R_scope.
(** strict triangle inequality *)
Lemma Cmod_conj z : Cmod (Cconj z) = Cmod z.
Proof. unfold Cmod, Cconj. cbn [fst snd]. f_equal. ring. Qed.
Lemma Cmod1_re (u : C) : Cmod u = 1 -> Re u = 1 -> u = RtoC 1.
Proof.
  intros H1 H2. pose proof (Cnorm2_Cmod u) as E. rewrite H1 in E. unfold Cnorm2 in E. rewrite H2 in E. destruct u as [a b]. cbn [Re Im fst snd] in *.
  assert (b * b = 0) by lra. apply Rmult_integral in H. unfold RtoC. f_equal; [auto|tauto].
Qed.
Lemma Cmod_re (u : C) : Re u <= Cmod u.
Proof.
  pose proof (Cmod_ge_0 u). pose proof (Cnorm2_Cmod u) as E. unfold Cnorm2 in E. pose proof (Rle_0_sqr (Im u)) as H1. unfold Rsqr in H1.
  destruct (Rle_lt_dec (Re u) (Cmod u)); auto. nra.
Qed.
Lemma strict_triangle {X} (l : list X) (w : X -> R) (u : X -> C) a b :
  (forall x, In x l -> 0 <= w x) -> (forall x, In x l -> Cmod (u x) = 1) -> In a l -> In b l -> 0 < w a -> 0 < w b -> u a <> u b ->
  Cmod (Csum l (fun x => Cmult (u x) (RtoC (w x)))) < Rsum l w.
Proof.
  intros Hw Hu Ha Hb Hwa Hwb Hne. set (S := Csum l (fun x => Cmult (u x) (RtoC (w x)))).
  assert (Hpos : 0 < Rsum l w) by (apply (Rsum_pos l w a); auto).
  destruct (Rle_lt_dec (Rsum l w) (Cmod S)) as [Hge|]; auto. exfalso.
  assert (HS : 0 < Cmod S) by lra. assert (HS0 : S <> RtoC 0) by (intros E; rewrite E, Cmod_0 in HS; lra).
  set (e := Cmult (Cconj S) (RtoC (/ Cmod S))).
  assert (He : Cmod e = 1). { unfold e. rewrite Cmod_mult, Cmod_conj, Cmod_R, Rabs_pos_eq by (left; now apply Rinv_0_lt_compat). field. lra. }
  assert (HSe : Cmult e S = RtoC (Cmod S)).
  { unfold e. replace (Cmult (Cmult (Cconj S) (RtoC (/ Cmod S))) S) with (Cmult (RtoC (/ Cmod S)) (Cmult S (Cconj S))) by ring.
    rewrite <- Cnorm2_conj, Cnorm2_Cmod, <- RtoC_mult. f_equal. field. lra. }
  assert (Hre : Cmod S = Rsum l (fun x => w x * Re (Cmult e (u x)))).
  { transitivity (Re (RtoC (Cmod S))); [reflexivity|]. rewrite <- HSe. unfold S at 1. rewrite <- Csum_scal_l, Csum_Re. apply Rsum_ext. intros x _.
    destruct e, (u x). cbn. ring. }
  assert (Hle : forall x, In x l -> Re (Cmult e (u x)) <= 1).
  { intros x Hx. eapply Rle_trans; [apply Cmod_re|]. rewrite Cmod_mult, He, Hu by auto. lra. }
  assert (Hall : forall x, In x l -> 0 < w x -> Re (Cmult e (u x)) = 1).
  { intros x Hx Hwx. apply Rle_antisym; auto. destruct (Rle_lt_dec 1 (Re (Cmult e (u x)))) as [|Hlt]; auto. exfalso.
    assert (0 < Rsum l (fun y => w y - w y * Re (Cmult e (u y)))).
    { apply (Rsum_pos l _ x); auto; [|nra]. intros y Hy. specialize (Hw y Hy). specialize (Hle y Hy). nra. }
    rewrite Rsum_minus in H. lra. }
  assert (Hone : forall x, In x l -> 0 < w x -> Cmult e (u x) = RtoC 1).
  { intros x Hx Hwx. apply Cmod1_re; auto. rewrite Cmod_mult, He, Hu by auto. lra. }
  apply Hne. assert (He0 : e <> RtoC 0) by (intros E; rewrite E, Cmod_0 in He; lra).
  pose proof (Hone a Ha Hwa) as E1. pose proof (Hone b Hb Hwb) as E2.
  transitivity (Cmult (Cinv e) (Cmult e (u a))); [rewrite Cmult_assoc, Cinv_l, Cmult_1_l by auto; reflexivity|].
  rewrite E1, <- E2, Cmult_assoc, Cinv_l, Cmult_1_l by auto. reflexivity.
Qed.
Lemma root_inj n a b : (0 < n)%Z -> root n a = root n b -> ((a - b) mod n = 0)%Z.
Proof.
  intros Hn E. destruct (Z.eq_dec ((a - b) mod n) 0) as [|Hne]; auto. exfalso.
  pose proof (Z.mod_pos_bound (a - b) n Hn). apply (root_neq1 n ((a - b) mod n)); [lia|].
  rewrite root_mod by auto. replace (a - b)%Z with (a + - b)%Z by ring. rewrite root_add, E, <- root_add, Z.add_opp_diag_r. apply root_0.
Qed.

Section P.
Context (p : spar) (Hp : s_physical p).
Let n := s_size p.
Let nz := s_zsize p.
Lemma centre_strict A kz ky kx kz' ky' kx' : s_vec p = VecNone -> A = fftshift axes123 (s_otf p) -> (n mod 2 = 1)%Z ->
  on_ix p kz ky kx -> on_ix p kz' ky' kx' -> in_band A kz ky kx -> in_band A kz' ky' kx' -> ((ky + kx - (ky' + kx')) mod n <> 0)%Z ->
  exists v w, get (s_psfi (s_psfa A)) [nz - nz / 2; n / 2; n / 2]%Z = Some v /\ get (s_psfi (s_psfa A)) (top p) = Some w /\ v < w.
Proof.
  intros Hv HA Hodd (Hz1 & Hy1 & Hx1) (Hz2 & Hy2 & Hx2) Hb1 Hb2 Hne. fold n in Hy1, Hx1, Hy2, Hx2. fold nz in Hz1, Hz2.
  pose proof (otf_shape p) as HS. fold n nz in HS. rewrite <- HA in HS.
  destruct (psf_finite p A HS) as [_ Hf].
  { intros i Hi'. destruct (inb_cons_inv _ _ _ Hi') as (c & r & -> & Hc & Hr). rewrite HA. now apply scalar_some. }
  fold n nz in Hf. destruct (sizes_pos p Hp) as [Hn Hnz]. fold n in Hn. fold nz in Hnz.
  pose proof (top_in p Hp) as Ht. fold n nz in Ht.
  assert (Hi : inb [nz; n; n] [nz - nz / 2; n / 2; n / 2]%Z).
  { destruct Hp as (_ & _ & _ & _ & _ & H1 & H2). fold n in H1. fold nz in H2. repeat constructor; lia. }
  rewrite (Hf _ Hi), (Hf _ Ht). do 2 eexists. split; [reflexivity|]. split; [reflexivity|].
  rewrite Hv. cbn [components]. change (zseq 1) with [0%Z]. cbn [Rsum]. apply Rplus_lt_compat_r.
  rewrite Hv in HS. cbn [components] in HS.
  assert (Hin : forall r, inb [nz; n; n] r -> inb (shape (amap cval A)) (0%Z :: r)). { intros r Hr. cbn [shape amap]. rewrite HS. apply inb_cons. split; [lia|auto]. }
  rewrite !easy_ifft_mop by (apply Hin; auto). rewrite !Cnorm2_mult.
  cbn [shape amap]. rewrite HS. cbn [length]. change (axes_mask 4 (Some [1%nat; 2%nat; 3%nat])) with [false; true; true; true].
  unfold top. fold n nz. rewrite mop_kicen_top by auto.
  change (get (amap cval A)) with (fun ix => cval (get A ix)).
  set (f := fun ix : list Z => cval (get A ix)).
  assert (Hre : forall r, exists v, f r = RtoC v /\ 0 <= v). { intros r. unfold f. rewrite HA. now apply val_real. }
  apply Rmult_lt_compat_l.
  { rewrite Cnorm2_RtoC. assert (Hm : (0 < masked_size [false; true; true; true] [1%Z; nz; n; n])%Z) by (cbn [masked_size]; assert (0 < n * n)%Z by nia; assert (0 < nz * (n * n))%Z by nia; lia).
    apply IZR_lt in Hm. pose proof (Rinv_0_lt_compat _ Hm). nra. }
  assert (Emid : mop kicen [false; true; true; true] [1%Z; nz; n; n] f [0; nz - nz / 2; n / 2; n / 2]%Z =
     Csum (all_ix [nz; n; n]) (fun r => Cmult (root n (- (nth 1 r 0 + nth 2 r 0 + 2 * (n / 2)))%Z) (RtoC (Cmod (f (0%Z :: r)))))).
  { assert (Hc1 : forall j, kicen n (n / 2) j = root n (- (j + n / 2))).
    { intros j. unfold kicen. apply root_cong; auto. replace ((j + n / 2) * (n / 2 + n / 2) - - (j + n / 2))%Z with ((j + n / 2) * (n / 2 + n / 2 + 1))%Z by ring. replace (n / 2 + n / 2 + 1)%Z with n by lia. apply Z_mod_mult. }
    cbn [mop]. rewrite Csum_all_ix_cons. apply Csum_ext. intros j _. rewrite kicen_top, Cmult_1_l by auto.
    rewrite Csum_all_ix_cons. apply Csum_ext. intros i _. rewrite Hc1, Csum_all_ix_cons, <- Csum_scal_l. apply Csum_ext. intros l _. rewrite Hc1. cbn [all_ix Csum nth].
    destruct (Hre [0; j; i; l]%Z) as (v & E & Hv0). rewrite E, Cmod_R, Rabs_pos_eq by auto.
    replace (- (i + l + 2 * (n / 2)))%Z with (- (i + n / 2) + - (l + n / 2))%Z by ring. rewrite root_add. ring. }
  rewrite Emid.
  assert (Etop : Csum (all_ix [nz; n; n]) (fun r => f (0%Z :: r)) = RtoC (Rsum (all_ix [nz; n; n]) (fun r => Cmod (f (0%Z :: r))))).
  { rewrite Csum_RtoC. apply Csum_ext. intros r _. destruct (Hre (0%Z :: r)) as (v & -> & Hv0). now rewrite Cmod_R, Rabs_pos_eq. }
  rewrite Etop, !Cnorm2_Cmod, Cmod_R. rewrite (Rabs_pos_eq (Rsum _ _)) by (apply Rsum_nonneg; intros; apply Cmod_ge_0).
  match goal with |- ?x * ?x < ?y * ?y => assert (Hlt : x < y) end.
  { apply (strict_triangle (all_ix [nz; n; n]) (fun r => Cmod (f (0%Z :: r))) (fun r => root n (- (nth 1 r 0 + nth 2 r 0 + 2 * (n / 2)))%Z) [kz; ky; kx] [kz'; ky'; kx']).
    - intros; apply Cmod_ge_0.
    - intros; apply root_mod1.
    - apply in_all_ix. repeat constructor; lia.
    - apply in_all_ix. repeat constructor; lia.
    - unfold f. rewrite Hb1. cbn [cval]. rewrite Cmod_R, Rabs_R1. lra.
    - unfold f. rewrite Hb2. cbn [cval]. rewrite Cmod_R, Rabs_R1. lra.
    - cbn [nth]. intros E. apply root_inj in E; auto. apply Hne. apply Z.mod_divide in E; [|lia]. destruct E as [q Hq]. 
      replace (ky + kx - (ky' + kx'))%Z with ((- q) * n)%Z by lia. apply Z_mod_mult. }
  match goal with |- Cmod ?x * _ < _ => pose proof (Cmod_ge_0 x) end. nra.
Qed.
End P.
