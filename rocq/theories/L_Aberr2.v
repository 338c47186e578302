From Verif Require Import M_Aberr S_Aberr L_Array L_Sum L_FFT L_FFT2 L_Polar L_Hanser L_Hanser2 L_Hanser3 L_Hanser4 T_Zernike L_Aberr.
Local Open Scope R_scope.
Notation "a *c b" := (Cmult a b) (at level 40, left associativity).

Section H.
Context (h : hpar) (Hph : physical h) (Hna : 0 < h_na h).
Notation n := (h_size h).
(** otf.py:621-641: what remains once both arguments are sequences of equal length *)
Definition tail (mcoefs pcoefs : coefs) : res (option (array C)) :=
  do zerns <- zernike true (h_r h) (h_t h) (One (IVec (noll_upto (clen mcoefs))));
  do pc <- subscript pcoefs;
  do zp <- bop Rmult zerns pc;
  let pupil_phase := sum0 zp in
  do mc <- subscript mcoefs;
  do zm <- bop Rmult zerns mc;
  let pupil_mag := sum0 zm in
  do pupil_mag <- ibop Rplus pupil_mag (amap Cmod (gen_pupil h));
  do pupil_total <- bop (fun m p => Cmult (RtoC m) (cis p)) pupil_mag pupil_phase;
  Ok (Some pupil_total).
Definition filled (c d : coefs) : coefs := match c with CNone => zeros_like d | _ => c end.
Lemma pupil_eq mc pc : is_none mc && is_none pc = false ->
  aberration_pupil h mc pc =
  let m := filled mc pc in let p := filled pc m in
  if negb (Nat.eqb (clen m) (clen p)) then Err AssertionError else tail m p.
Proof.
  destruct (physical_nz h Hph) as [H1 H2]. intros Hn. unfold aberration_pupil, filled.
  destruct mc, pc; try discriminate; cbv zeta; destruct (negb _); try reflexivity;
    (destruct (Req_EM_T _ _); [contradiction|]; destruct (Req_EM_T _ _); [contradiction|]; reflexivity).
Qed.
Lemma Cmod_gen_pupil y x : (0 <= y < n)%Z -> (0 <= x < n)%Z -> get (amap Cmod (gen_pupil h)) [y; x] = clear h y x.
Proof.
  intros Hy Hx. cbn [amap gen_pupil get]. rewrite (ideal_spec h Hph) by auto. rewrite Cmod_R. unfold clear. destruct (Rlt_dec _ _); [apply Rabs_R1|apply Rabs_R0].
Qed.
Lemma tail_val m p : List.length m = List.length p -> (1 <= List.length p <= 120)%nat -> (2 <= n)%Z \/ List.length p = 1%nat ->
  exists P, tail (CVec m) (CVec p) = Ok (Some P) /\ on_grid h P /\
    forall y x, (0 <= y < n)%Z -> (0 <= x < n)%Z -> get P [y; x] = aberrated h m p y x.
Proof.
  intros Hl Hk Hs. set (k := List.length p) in *. assert (Hn : (1 <= n)%Z) by (destruct Hph as (_ & _ & _ & _ & ?); lia).
  destruct (zern_ok h Hph Hna k ltac:(lia)) as (out & Eo & Ho). destruct (Ho ltac:(lia)) as [So Go]. clear Ho.
  destruct (column_product k n out _ p eq_refl ltac:(lia) Hn Hs So Go) as (B & EB & SB & GB).
  destruct (column_product k n out _ m Hl ltac:(lia) Hn Hs So Go) as (D & ED & SD & GD).
  destruct (ibop_same Rplus (sum0 D) (amap Cmod (gen_pupil h)) n) as (mag & Em & Sm & Gm); [unfold sum0; cbn [shape]; now rewrite SD|reflexivity|].
  destruct (bop_same (fun m p => Cmult (RtoC m) (cis p)) mag (sum0 B) n Sm) as (P & EP & SP & GP); [unfold sum0; cbn [shape]; now rewrite SB|].
  exists P. split; [|split; [exact SP|]].
  - unfold tail. cbn [clen]. rewrite Hl. fold k. rewrite Eo. cbn [bind subscript]. rewrite EB. cbn [bind]. rewrite ED. cbn [bind]. rewrite Em. cbn [bind]. rewrite EP. reflexivity.
  - intros y x Hy Hx. rewrite GP, Gm, GB, GD, Cmod_gen_pupil by auto. unfold aberrated, mix. fold k. rewrite Hl. fold k. rewrite Rplus_comm. reflexivity.
Qed.
Lemma pupil_val mc pc k m p : stands_for mc k m -> stands_for pc k p -> is_none mc && is_none pc = false ->
  (1 <= k <= 120)%nat -> (2 <= n)%Z \/ k = 1%nat ->
  exists P, aberration_pupil h mc pc = Ok (Some P) /\ on_grid h P /\
    forall y x, (0 <= y < n)%Z -> (0 <= x < n)%Z -> get P [y; x] = aberrated h m p y x.
Proof.
  intros Hm Hp Hb Hk Hs. rewrite pupil_eq by auto.
  assert (Em : List.length m = k) by (inversion Hm; subst; auto; apply repeat_length).
  assert (Ep : List.length p = k) by (inversion Hp; subst; auto; apply repeat_length).
  assert (F1 : filled mc pc = CVec m).
  { unfold filled, zeros_like. destruct Hm; [reflexivity|]. destruct Hp; [reflexivity|discriminate]. }
  assert (F2 : filled pc (CVec m) = CVec p).
  { unfold filled, zeros_like. cbn [clen]. rewrite Em. destruct Hp; reflexivity. }
  cbv zeta. rewrite F1, F2. cbn [clen]. rewrite Em, Ep, Nat.eqb_refl. cbn [negb]. apply tail_val; lia.
Qed.
End H.
