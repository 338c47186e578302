(** C112: OTFi of SheppardPSF is the cyclic autocorrelation of OTFa. *)
From Verif Require Import S_FFT S_Hanser S_Shell S_Micro S_Auto L_Array L_Sum L_FFT L_FFT2 T_FFT L_Phase2 L_Polar L_Hanser L_Hanser2 L_PSF T_PSF T_Object L_Sheppard L_Sheppard2 L_Sheppard3 T_Sheppard L_Band L_Lateral L_ShellCap L_Auto3 T_Micro T_Micro2 T_Lateral2.
Import M_Array.
Local Open Scope R_scope.

Lemma twist_ramp m k : (0 < m)%Z -> twist m k = ramp m k.
Proof.
  intros Hm. unfold ramp. destruct (Z.even m) eqn:E; [now apply twist_even|]. rewrite twist_odd by assumption. unfold root, turn, cis. rewrite opp_IZR.
  replace (2 * PI * (- IZR (k - m / 2) / IZR m)) with (2 * PI * - IZR (k - m / 2) / IZR m) by (unfold Rdiv; ring). reflexivity.
Qed.
(** In every parity, for every parameter set whose amplitudes are numbers. *)
Theorem C112_autocorrelation : forall (p : spar) (A : array (option C)) (kz ky kx : Z),
  s_physical p -> M_Sheppard.gen_otf p = Ok A -> all_numbers A -> on_ix p kz ky kx ->
  get (o_fft (amap ocplx (s_psfi (s_psfa A)))) [kz; ky; kx] = Some (RtoC (/ points p) *c (ramps p kz ky kx *c self_overlap p A kz ky kx)).
Proof.
  intros p A kz ky kx Hp HA Hf (Hz & Hy & Hx). pose proof (gen_otf_inv p Hp A HA) as EA. pose proof (otf_shape p) as HS. rewrite <- EA in HS.
  pose proof Hf as Hf'. unfold all_numbers in Hf'. rewrite HS in Hf'. pose proof (proj2 (psf_finite p A HS Hf')) as V. destruct (sizes_pos p Hp) as [Hn Hnz].
  destruct (C30_sheppard_shape_sign p A Hp HA) as (_ & _ & S & _).
  set (n := s_size p) in *. set (nz := s_zsize p) in *. set (B := amap ocplx (s_psfi (s_psfa A))).
  assert (SB : shape B = [nz; n; n]) by exact S.
  assert (Fin : finite_all B = true).
  { unfold finite_all. apply forallb_forall. intros ix Hix. apply in_all_ix in Hix. rewrite SB in Hix. unfold B. cbn [amap get]. rewrite V by exact Hix. reflexivity. }
  assert (Hk : inb [nz; n; n] [kz; ky; kx]) by (now apply inb3).
  unfold o_fft. cbn [get]. rewrite Fin. f_equal. rewrite easy_fft_mop; cbn [amap shape]; rewrite SB; [|exact Hk]. cbn [axes_mask List.length repeat].
  set (F := fun (c : Z) (js : list Z) => amplitude A (c :: js)).
  rewrite (mop_ext _ _ _ _ (fun ix => Csum (zseq (components (s_vec p))) (fun c => RtoC (/ points p * / points p) *c RtoC (Cnorm2 (mop kicen [true; true; true] [nz; n; n] (F c) ix))))); [|exact Hk|].
  2:{ intros ix Hix. unfold B. cbn [amap get]. rewrite V by exact Hix. cbn [ocplx cval]. rewrite Csum_RtoC. apply Csum_ext. intros c Hc. apply in_zseq in Hc. rewrite <- RtoC_mult. f_equal.
      rewrite easy_ifft_mop by (cbn [amap shape]; rewrite HS; apply inb_cons; auto). cbn [amap shape]. rewrite HS. cbn [List.length].
      change (axes_mask 4 (Some [1%nat; 2%nat; 3%nat])) with [false; true; true; true].
      rewrite Cnorm2_mult, Cnorm2_RtoC.
      assert (MS : masked_size [false; true; true; true] [components (s_vec p); nz; n; n] = (nz * (n * n))%Z) by (cbn [masked_size]; ring).
      rewrite MS. change (IZR (nz * (n * n))) with (points p). f_equal. }
  rewrite (mop_lin _ _ _ (zseq (components (s_vec p))) (fun _ => RtoC (/ points p * / points p)) (fun c ix => RtoC (Cnorm2 (mop kicen [true; true; true] [nz; n; n] (F c) ix)))). unfold self_overlap. fold n nz.
  rewrite <- !Csum_scal_l. apply Csum_ext. intros c _. rewrite (autocorrelation3 nz n n Hnz Hn Hn) by exact Hk. unfold twist3. rewrite !twist_ramp by assumption.
  change (ramp nz kz *c (ramp n ky *c ramp n kx)) with (ramps p kz ky kx).
  assert (P0 : points p <> 0) by (apply not_0_IZR; fold n nz; nia). change (IZR (nz * (n * n))) with (points p).
  change (Csum (all_ix [nz; n; n]) (fun js => F c js *c Cconj (F c (back3 nz n n [kz; ky; kx] js)))) with (Csum (all_ix [nz; n; n]) (fun js => amplitude A (c :: js) *c Cconj (amplitude A (c :: back3 nz n n [kz; ky; kx] js)))).
  rewrite (Csum_ext (grid p) _ (fun js => amplitude A (c :: js) *c Cconj (amplitude A (c :: back3 nz n n [kz; ky; kx] js)))).
  2:{ intros js Hjs. apply in_all_ix in Hjs. destruct (inb3_inv _ _ _ _ Hjs) as (l & j & i & -> & _). reflexivity. }
  unfold grid. fold n nz. set (Z0 := Csum _ _). rewrite RtoC_mult. rewrite !Cmult_assoc.
  assert (Q : RtoC (/ points p) *c RtoC (points p) = RtoC 1) by (rewrite <- RtoC_mult; f_equal; field; exact P0).
  transitivity (RtoC (/ points p) *c (RtoC (/ points p) *c RtoC (points p)) *c ramps p kz ky kx *c Z0); [ring|]. rewrite Q. ring.
Qed.
Print Assumptions C112_autocorrelation.

(** Objects: after any history, whatever was computed before. *)
Theorem C112_objects : forall (k : ctor) (o0 : obj numeric) (hist : list (op numeric)) (A : array (option C)),
  construct numeric Sheppard k = Ok o0 ->
  let o := run numeric Sheppard hist o0 in
  let p := spar_of (obj_params o) in
  s_physical p -> M_Sheppard.gen_otf p = Ok A -> all_numbers A ->
  exists otf, fst (read numeric Sheppard OTFa o) = Ok A /\ fst (read numeric Sheppard OTFi o) = Ok otf /\
    forall kz ky kx, on_ix p kz ky kx -> get otf [kz; ky; kx] = Some (RtoC (/ points p) *c (ramps p kz ky kx *c self_overlap p A kz ky kx)).
Proof.
  intros k o0 hist A Hk o p Hp HA Hf. destruct (C73_sheppard_objects k o0 hist A Hk HA) as (E1 & _ & _ & E). fold o in E1, E. eexists. split; [exact E1|]. split; [exact E|].
  intros kz ky kx Hi. now apply C112_autocorrelation.
Qed.
Print Assumptions C112_objects.

(** Without a pair of amplitudes that far apart there is nothing. *)
Theorem C112_support : forall (p : spar) (A : array (option C)) (kz ky kx : Z),
  s_physical p -> M_Sheppard.gen_otf p = Ok A -> all_numbers A -> on_ix p kz ky kx ->
  (forall c ix, (0 <= c < components (s_vec p))%Z -> In ix (grid p) -> get A (c :: ix) = Some (RtoC 0) \/ get A (c :: displaced p kz ky kx ix) = Some (RtoC 0)) ->
  get (o_fft (amap ocplx (s_psfi (s_psfa A)))) [kz; ky; kx] = Some (RtoC 0).
Proof.
  intros p A kz ky kx Hp HA Hf Hi H. rewrite (C112_autocorrelation p A kz ky kx Hp HA Hf Hi). f_equal. replace (self_overlap p A kz ky kx) with (RtoC 0); [ring|]. symmetry.
  apply Csum_zero. intros c Hc. apply in_zseq in Hc. apply Csum_zero. intros ix Hix. unfold amplitude.
  assert (C0 : Cconj (RtoC 0) = RtoC 0) by (unfold Cconj, RtoC; cbn; f_equal; ring).
  destruct (H c ix Hc Hix) as [E|E]; rewrite E; [ring|rewrite C0; ring].
Qed.
Print Assumptions C112_support.

(** An amplitude that is not zero, without dual: above the cone, below the shell's outer radius. *)
Lemma cap_height p A c kz ky kx : s_physical p -> s_dual p = false -> M_Sheppard.gen_otf p = Ok A -> (0 <= kz < s_zsize p)%Z -> (0 <= ky < s_size p)%Z -> (0 <= kx < s_size p)%Z ->
  get A [c; kz; ky; kx] = Some (RtoC 0) \/
  (Rabs (kabs p kz ky kx - s_ni p / s_wl p) < Rmax (pl p) (pz p) /\ cone p < sfz p kz <= kabs p kz ky kx).
Proof.
  intros Hp Hd HA Hz Hy Hx. destruct (s_valid p (un (s_zsize p) kz) (un (s_size p) ky) (un (s_size p) kx)) eqn:Ev.
  2:{ left. rewrite (gen_otf_inv p Hp A HA), otf_get, Ev. reflexivity. }
  right. destruct (valid_kz p _ _ _ Ev) as (_ & _). apply valid_iff in Ev. destruct Ev as [E1 E2].
  rewrite (kr_un p Hp) in E1 by auto. rewrite (kzz_un p Hp) in E2 by auto. pose proof (dkr_upper p Hp (un (s_zsize p) kz) (un (s_size p) ky) (un (s_size p) kx)) as Hu.
  unfold s_kmag in E1. change (s_kz_min p) with (cone p) in E2. unfold height in E2. rewrite Hd in E2.
  assert (D0 : 0 <= s_dkr p (un (s_zsize p) kz) (un (s_size p) ky) (un (s_size p) kx)) by (pose proof (Rabs_pos (kabs p kz ky kx - s_ni p / s_wl p)); lra).
  split; [lra|]. split; [lra|]. unfold kabs. pose proof (sqrt_pos ((s_ni p / s_wl p) ^ 2 - (s_na p / s_wl p) ^ 2)) as Hc0. fold (cone p) in Hc0.
  rewrite <- (sqrt_pow2 (sfz p kz)) at 1 by lra. apply sqrt_le_1_alt. pose proof (pow2_ge_0 (sfl p ky)). pose proof (pow2_ge_0 (sfl p kx)). lra.
Qed.
(** the frequency at an index of the axis is at most the distance of two indices displaced by it *)
Lemma axial_distance p kz l : s_physical p -> (0 <= kz < s_zsize p)%Z ->
  let l' := ((l - (kz - s_zsize p / 2)) mod s_zsize p)%Z in
  Rabs (sfz p kz) <= Rabs (sfz p l - sfz p l').
Proof.
  intros Hp Hz l'. destruct (sizes_pos p Hp) as [_ Hnz]. set (m := s_zsize p) in *.
  assert (W : (Z.abs (kz - m / 2) <= Z.abs (l - l'))%Z).
  { apply (wrap_small m); [exact Hnz|lia|]. unfold l'. replace (l - (l - (kz - m / 2)) mod m - (kz - m / 2))%Z with ((l - (kz - m / 2)) - (l - (kz - m / 2)) mod m)%Z by ring. rewrite Zminus_mod_idemp_r, Z.sub_diag. apply Zmod_0_l. }
  unfold sfz, cfreq. fold m. assert (Pr : 0 < s_zres p) by apply Hp. assert (Pm : 0 < IZR m) by now apply IZR_lt.
  assert (F : 0 < IZR m * s_zres p) by now apply Rmult_lt_0_compat.
  replace (IZR (l - m / 2) / (IZR m * s_zres p) - IZR (l' - m / 2) / (IZR m * s_zres p)) with (IZR (l - l') / (IZR m * s_zres p)).
  2:{ rewrite !minus_IZR. field. split; lra. }
  unfold Rdiv. rewrite !Rabs_mult. apply Rmult_le_compat_r; [apply Rabs_pos|]. rewrite !Rabs_Zabs. now apply IZR_le.
Qed.
(** Without dual the axial cut-off is the depth of the cap: (ni - sqrt (ni^2 - na^2)) / wl, up to the shell's thickness. *)
Theorem C112_axial_cutoff : forall (p : spar) (A : array (option C)) (kz ky kx : Z),
  s_physical p -> s_dual p = false -> M_Sheppard.gen_otf p = Ok A -> all_numbers A -> on_ix p kz ky kx ->
  s_ni p / s_wl p + Rmax (pl p) (pz p) - cone p <= Rabs (sfz p kz) ->
  get (o_fft (amap ocplx (s_psfi (s_psfa A)))) [kz; ky; kx] = Some (RtoC 0).
Proof.
  intros p A kz ky kx Hp Hd HA Hf Hi HB. apply (C112_support p A kz ky kx Hp HA Hf Hi). intros c ix Hc Hix. apply in_all_ix in Hix.
  destruct (inb3_inv _ _ _ _ Hix) as (l & j & i & -> & Hl & Hj & Hh). destruct Hi as (Hz & Hy & Hx). destruct (sizes_pos p Hp) as [Hn Hnz].
  destruct (cap_height p A c l j i Hp Hd HA Hl Hj Hh) as [E|(E1 & E2 & E3)]; [now left|]. cbn [displaced].
  set (l' := ((l - (kz - s_zsize p / 2)) mod s_zsize p)%Z). set (j' := ((j - (ky - s_size p / 2)) mod s_size p)%Z). set (i' := ((i - (kx - s_size p / 2)) mod s_size p)%Z).
  destruct (cap_height p A c l' j' i' Hp Hd HA) as [E|(E1' & E2' & E3')]; [now apply Z.mod_pos_bound..|now right|]. exfalso.
  pose proof (axial_distance p kz l Hp Hz) as D. cbv zeta in D. fold l' in D. apply Rabs_def2 in E1, E1'.
  assert (Rabs (sfz p l - sfz p l') < s_ni p / s_wl p + Rmax (pl p) (pz p) - cone p) by (apply Rabs_def1; lra). lra.
Qed.
Print Assumptions C112_axial_cutoff.
(** On the optical axis there is next to nothing: the missing cone.  Two points of the cap above one another lie within the shell's thickness. *)
Theorem C112_missing_cone : forall (p : spar) (A : array (option C)) (kz : Z),
  s_physical p -> s_dual p = false -> s_na p < s_ni p -> M_Sheppard.gen_otf p = Ok A -> all_numbers A -> (0 <= kz < s_zsize p)%Z ->
  2 * Rmax (pl p) (pz p) * (s_ni p / s_wl p + Rmax (pl p) (pz p)) / cone p <= Rabs (sfz p kz) ->
  get (o_fft (amap ocplx (s_psfi (s_psfa A)))) [kz; s_size p / 2; s_size p / 2]%Z = Some (RtoC 0).
Proof.
  intros p A kz Hp Hd Hna HA Hf Hz HB. destruct (sizes_pos p Hp) as [Hn Hnz]. pose proof (Z.div_mod (s_size p) 2 ltac:(lia)) as Q1. pose proof (Z.mod_pos_bound (s_size p) 2 ltac:(lia)) as Q2.
  assert (Hm : (0 <= s_size p / 2 < s_size p)%Z) by lia. assert (Hi : on_ix p kz (s_size p / 2) (s_size p / 2)) by (split; [exact Hz|now split]).
  apply (C112_support p A kz _ _ Hp HA Hf Hi). intros c ix Hc Hix. apply in_all_ix in Hix.
  destruct (inb3_inv _ _ _ _ Hix) as (l & j & i & -> & Hl & Hj & Hh).
  destruct (cap_height p A c l j i Hp Hd HA Hl Hj Hh) as [E|(E1 & E2 & E3)]; [now left|]. cbn [displaced].
  rewrite !Z.sub_diag, !Z.sub_0_r, !(Z.mod_small _ (s_size p)) by assumption.
  set (l' := ((l - (kz - s_zsize p / 2)) mod s_zsize p)%Z).
  destruct (cap_height p A c l' j i Hp Hd HA) as [E|(E1' & E2' & E3')]; [now apply Z.mod_pos_bound|exact Hj|exact Hh|now right|]. exfalso.
  pose proof (axial_distance p kz l Hp Hz) as D. cbv zeta in D. fold l' in D. apply Rabs_def2 in E1, E1'.
  assert (C0 : 0 < cone p).
  { unfold cone. apply sqrt_lt_R0. destruct Hp as (Pw & Pa & Pi & _). unfold Rdiv. assert (0 < / s_wl p) by now apply Rinv_0_lt_compat. rewrite !Rpow_mult_distr, <- Rmult_minus_distr_r. apply Rmult_lt_0_compat; [nra|apply pow_lt; assumption]. }
  set (M := Rmax (pl p) (pz p)) in *. set (k := s_ni p / s_wl p) in *. 
  assert (S : kabs p l j i ^ 2 - kabs p l' j i ^ 2 = sfz p l ^ 2 - sfz p l' ^ 2).
  { unfold kabs. pose proof (pow2_ge_0 (sfl p j)). pose proof (pow2_ge_0 (sfl p i)). pose proof (pow2_ge_0 (sfz p l)). pose proof (pow2_ge_0 (sfz p l')). rewrite !pow2_sqrt by lra. ring. }
  assert (X : Rabs (sfz p l - sfz p l') * cone p < 2 * M * (k + M)).
  { assert (U : Rabs (sfz p l - sfz p l') * (sfz p l + sfz p l') = Rabs (kabs p l j i - kabs p l' j i) * (kabs p l j i + kabs p l' j i)).
    { rewrite <- (Rabs_pos_eq (sfz p l + sfz p l')), <- (Rabs_pos_eq (kabs p l j i + kabs p l' j i)) by lra. rewrite <- !Rabs_mult. f_equal. nra. }
    assert (V : Rabs (kabs p l j i - kabs p l' j i) < 2 * M) by (apply Rabs_def1; lra).
    assert (W : Rabs (kabs p l j i - kabs p l' j i) * (kabs p l j i + kabs p l' j i) < 2 * M * (2 * (k + M))) by (apply Rmult_le_0_lt_compat; [apply Rabs_pos|lra|exact V|lra]).
    assert (Y : Rabs (sfz p l - sfz p l') * (2 * cone p) <= Rabs (sfz p l - sfz p l') * (sfz p l + sfz p l')) by (apply Rmult_le_compat_l; [apply Rabs_pos|lra]). lra. }
  apply (Rmult_le_compat_r (cone p)) in HB; [|lra]. apply (Rmult_le_compat_r (cone p)) in D; [|lra]. unfold Rdiv in HB. rewrite Rmult_assoc, Rinv_l, Rmult_1_r in HB by lra. lra.
Qed.
Print Assumptions C112_missing_cone.

(** Scalar case: every amplitude is 1 or 0, so the transform counts the pairs of points of the shell that lie that far apart. *)
Lemma sum_count {X} (l : list X) (b : X -> bool) : Csum l (fun x => if b x then RtoC 1 else RtoC 0) = RtoC (INR (List.length (filter b l))).
Proof.
  induction l as [|x l IH]; [reflexivity|]. cbn [Csum filter]. rewrite IH. destruct (b x); [cbn [List.length]; rewrite S_INR, RtoC_plus; ring|ring].
Qed.
Lemma scalar_amplitude p A ix : s_physical p -> s_vec p = VecNone -> M_Sheppard.gen_otf p = Ok A -> In ix (grid p) ->
  amplitude A (0%Z :: ix) = if bright A ix then RtoC 1 else RtoC 0.
Proof.
  intros Hp Hv HA Hix. apply in_all_ix in Hix. destruct (inb3_inv _ _ _ _ Hix) as (l & j & i & -> & Hl & Hj & Hh).
  assert (E : amplitude A [0; l; j; i]%Z = RtoC 1 \/ amplitude A [0; l; j; i]%Z = RtoC 0).
  { unfold amplitude. rewrite (gen_otf_inv p Hp A HA), otf_get. destruct (s_valid p _ _ _); [left|now right]. unfold s_value. rewrite Hv. reflexivity. }
  unfold bright. destruct E as [E|E]; rewrite E; cbn [Re RtoC fst]; destruct (Req_EM_T _ _) as [Q|Q]; try reflexivity; [lra|now elim Q].
Qed.
Theorem C112_scalar : forall (p : spar) (A : array (option C)) (kz ky kx : Z),
  s_physical p -> s_vec p = VecNone -> M_Sheppard.gen_otf p = Ok A -> all_numbers A -> on_ix p kz ky kx ->
  get (o_fft (amap ocplx (s_psfi (s_psfa A)))) [kz; ky; kx] = Some (ramps p kz ky kx *c RtoC (INR (pairs p A kz ky kx) / points p)).
Proof.
  intros p A kz ky kx Hp Hv HA Hf Hi. rewrite (C112_autocorrelation p A kz ky kx Hp HA Hf Hi). f_equal.
  assert (E : self_overlap p A kz ky kx = RtoC (INR (pairs p A kz ky kx))).
  { unfold self_overlap. rewrite Hv. change (zseq (components VecNone)) with [0%Z]. cbn [Csum]. rewrite Cplus_0_r. unfold pairs. rewrite <- sum_count. apply Csum_ext. intros ix Hix.
    rewrite !(scalar_amplitude p A) by (first [assumption|idtac]; apply in_all_ix in Hix; destruct (inb3_inv _ _ _ _ Hix) as (l & j & i & -> & _); destruct (sizes_pos p Hp); apply in_all_ix; cbn [displaced]; apply inb3; now apply Z.mod_pos_bound).
    assert (C0 : Cconj (RtoC 0) = RtoC 0) by (unfold Cconj, RtoC; cbn; f_equal; ring). assert (C1 : Cconj (RtoC 1) = RtoC 1) by (unfold Cconj, RtoC; cbn; f_equal; ring).
    destruct (bright A ix), (bright A (displaced p kz ky kx ix)); cbn [andb]; rewrite ?C0, ?C1; ring. }
  rewrite E. unfold Rdiv. rewrite RtoC_mult. ring.
Qed.
Print Assumptions C112_scalar.
(** With every axis even there is no ramp, so OTFi is a nonnegative real number. *)
Theorem C112_scalar_even : forall (p : spar) (A : array (option C)) (kz ky kx : Z),
  s_physical p -> s_vec p = VecNone -> Z.even (s_size p) = true -> Z.even (s_zsize p) = true -> M_Sheppard.gen_otf p = Ok A -> all_numbers A -> on_ix p kz ky kx ->
  get (o_fft (amap ocplx (s_psfi (s_psfa A)))) [kz; ky; kx] = Some (RtoC (INR (pairs p A kz ky kx) / points p)).
Proof.
  intros p A kz ky kx Hp Hv E1 E2 HA Hf Hi. rewrite (C112_scalar p A kz ky kx) by assumption. f_equal. unfold ramps, ramp. rewrite E1, E2. ring.
Qed.
Print Assumptions C112_scalar_even.

(** ** Witnesses: the 4 x 4 x 32 grid of C111 (the shell has points, the axis ends beyond the axial cut-off) ... *)
Example C112_case : exists o0 A otf, construct numeric Sheppard a1_ctor = Ok o0 /\ let p := spar_of (obj_params o0) in
  s_physical p /\ M_Sheppard.gen_otf p = Ok A /\ all_numbers A /\ fst (read numeric Sheppard OTFi o0) = Ok otf /\
  get otf [16; 2; 2]%Z = Some (RtoC (INR (pairs p A 16 2 2) / 512)) /\ (0 < pairs p A 16 2 2)%nat /\ get otf [0; 2; 2]%Z = Some (RtoC 0).
Proof.
  destruct (a1_made numeric) as (o0 & Ho & Po). destruct a1_spar as (c & Hs). pose proof (sdemo_physical VecNone c false) as Ph.
  destruct (C39_rejection _ Ph) as [_ H]. destruct H as [A HA]; [cbn; lra|].
  assert (F : all_numbers A) by exact (proj1 (C38_single_shell_finite _ A Ph HA eq_refl)).
  pose proof (C112_objects a1_ctor o0 [] A Ho) as X. cbv zeta in X. cbn [run] in X. rewrite Po, Hs in X. destruct (X Ph HA F) as (otf & _ & E & K).
  exists o0, A, otf. split; [exact Ho|]. cbv zeta. rewrite Po, Hs. split; [exact Ph|]. split; [exact HA|]. split; [exact F|]. split; [exact E|].
  assert (I1 : on_ix (sdemo VecNone c false) 16 2 2) by (unfold on_ix; cbn; lia). assert (I2 : on_ix (sdemo VecNone c false) 0 2 2) by (unfold on_ix; cbn; lia).
  split; [|split].
  - rewrite (K 16 2 2)%Z by exact I1. rewrite <- (C112_autocorrelation _ A 16 2 2 Ph HA F I1). now rewrite (C112_scalar_even _ A 16 2 2 Ph eq_refl eq_refl eq_refl HA F I1).
  - assert (B : bright A [24; 2; 2]%Z = true).
    { unfold bright, amplitude. rewrite (gen_otf_inv _ Ph A HA), otf_get. change (un _ 24) with 8%Z. change (un _ 2) with 0%Z. destruct (sdemo_valid VecNone c false) as [-> _].
      cbn. destruct (Req_EM_T 1 0) as [Q|]; [lra|reflexivity]. }
    unfold pairs. assert (In [24; 2; 2]%Z (filter (fun ix => bright A ix && bright A (displaced (sdemo VecNone c false) 16 2 2 ix)) (grid (sdemo VecNone c false)))) as In1.
    { apply filter_In. split; [apply in_all_ix; apply inb3; cbn; lia|]. change (displaced (sdemo VecNone c false) 16 2 2 [24; 2; 2]%Z) with [24; 2; 2]%Z. now rewrite B. }
    destruct (filter _ _); [destruct In1|cbn; lia].
  - rewrite (K 0 2 2)%Z by exact I2. rewrite <- (C112_autocorrelation _ A 0 2 2 Ph HA F I2). apply (C112_axial_cutoff _ A 0 2 2 Ph eq_refl HA F I2).
    assert (C0 : 17 / 10000 <= cone (sdemo VecNone c false)).
    { unfold cone, sdemo. cbn [s_ni s_wl s_na]. rewrite <- (sqrt_pow2 (17 / 10000)) by lra. apply sqrt_le_1_alt. lra. }
    assert (P1 : pl (sdemo VecNone c false) = 1 / 400) by (unfold pl, pitch; cbn; lra). assert (P2 : pz (sdemo VecNone c false) = 1 / 3200) by (unfold pz, pitch; cbn; lra).
    rewrite P1, P2, (Rmax_left (1 / 400) (1 / 3200)) by lra. unfold sfz, S_Sheppard.cfreq. cbn [s_ni s_wl s_zsize s_zres sdemo]. change (0 - 32 / 2)%Z with (-16)%Z. rewrite Rabs_left by lra. lra.
Qed.
(** ... and a 128 x 128 x 128 grid: four axial pixels from the centre, well inside the axial cut-off, lie in the missing cone. *)
Example C112_missing_cone_case : forall v c, let p := mkSpar 500 1 (4 / 3) 100 128 100 128 v c false in exists A,
  s_physical p /\ M_Sheppard.gen_otf p = Ok A /\ all_numbers A /\ get (o_fft (amap ocplx (s_psfi (s_psfa A)))) [68; 64; 64]%Z = Some (RtoC 0) /\
  Rabs (sfz p 68) < s_ni p / s_wl p - cone p.
Proof.
  intros v c p. assert (Ph : s_physical p) by (unfold s_physical, p; cbn; repeat split; try lra; lia).
  destruct (C39_rejection _ Ph) as [_ H]. destruct H as [A HA]; [cbn; lra|].
  assert (F : all_numbers A) by exact (proj1 (C38_single_shell_finite _ A Ph HA eq_refl)).
  assert (C0 : 17 / 10000 <= cone p) by (unfold cone, p; cbn [s_ni s_wl s_na]; rewrite <- (sqrt_pow2 (17 / 10000)) by lra; apply sqrt_le_1_alt; lra).
  assert (C1 : cone p <= 18 / 10000) by (unfold cone, p; cbn [s_ni s_wl s_na]; rewrite <- (sqrt_pow2 (18 / 10000)) by lra; apply sqrt_le_1_alt; lra).
  assert (P1 : pl p = 1 / 12800) by (unfold pl, pitch, p; cbn; lra). assert (P2 : pz p = 1 / 12800) by (unfold pz, pitch, p; cbn; lra).
  assert (S : Rabs (sfz p 68) = 4 / 12800) by (unfold sfz, S_Sheppard.cfreq, p; cbn [s_zsize s_zres]; change (68 - 128 / 2)%Z with 4%Z; rewrite Rabs_pos_eq by lra; lra).
  exists A. split; [exact Ph|]. split; [exact HA|]. split; [exact F|]. split; [|rewrite S; unfold p in *; cbn [s_ni s_wl] in *; lra].
  apply (C112_missing_cone p A 68 Ph eq_refl); [unfold p; cbn; lra|exact HA|exact F|unfold p; cbn; lia|].
  rewrite P1, P2, S, (Rmax_right (1 / 12800) (1 / 12800)) by lra. change (s_ni p / s_wl p) with (4 / 3 / 500).
  apply Rmult_le_reg_r with (cone p); [lra|]. unfold Rdiv at 1. rewrite Rmult_assoc, Rinv_l, Rmult_1_r by lra. lra.
Qed.

(** ** Both caps (dual): the axial transform has three bands. *)
Lemma dual_height p A c kz ky kx : s_physical p -> M_Sheppard.gen_otf p = Ok A -> (0 <= kz < s_zsize p)%Z -> (0 <= ky < s_size p)%Z -> (0 <= kx < s_size p)%Z ->
  get A [c; kz; ky; kx] = Some (RtoC 0) \/ cone p < Rabs (sfz p kz) < s_ni p / s_wl p + Rmax (pl p) (pz p).
Proof.
  intros Hp HA Hz Hy Hx. destruct (s_valid p (un (s_zsize p) kz) (un (s_size p) ky) (un (s_size p) kx)) eqn:Ev.
  2:{ left. rewrite (gen_otf_inv p Hp A HA), otf_get, Ev. reflexivity. }
  right. apply valid_iff in Ev. destruct Ev as [E1 E2].
  rewrite (kr_un p Hp) in E1 by auto. rewrite (kzz_un p Hp) in E2 by auto. pose proof (dkr_upper p Hp (un (s_zsize p) kz) (un (s_size p) ky) (un (s_size p) kx)) as Hu.
  unfold s_kmag in E1. change (s_kz_min p) with (cone p) in E2.
  assert (D0 : 0 <= s_dkr p (un (s_zsize p) kz) (un (s_size p) ky) (un (s_size p) kx)) by (pose proof (Rabs_pos (kabs p kz ky kx - s_ni p / s_wl p)); lra).
  assert (Hh : height p kz <= Rabs (sfz p kz)) by (unfold height; destruct (s_dual p); [lra|apply Rle_abs]).
  assert (K : Rabs (sfz p kz) <= kabs p kz ky kx).
  { unfold kabs. rewrite <- (sqrt_pow2 (Rabs (sfz p kz))) by apply Rabs_pos. apply sqrt_le_1_alt. rewrite pow2_abs. pose proof (pow2_ge_0 (sfl p ky)). pose proof (pow2_ge_0 (sfl p kx)). lra. }
  apply Rabs_def2 in E1. split; lra.
Qed.
(** two indices displaced by kz - centre: their distance is that frequency up to multiples of the axis' whole band 1/zres *)
Lemma axial_alias p kz l : s_physical p ->
  let l' := ((l - (kz - s_zsize p / 2)) mod s_zsize p)%Z in
  exists q : Z, sfz p l - sfz p l' = sfz p kz + IZR q / s_zres p.
Proof.
  intros Hp l'. destruct (sizes_pos p Hp) as [_ Hnz]. set (m := s_zsize p) in *.
  exists ((l - (kz - m / 2)) / m)%Z. pose proof (Z.div_mod (l - (kz - m / 2)) m ltac:(lia)) as Q. fold l' in Q. set (q := ((l - (kz - m / 2)) / m)%Z) in *.
  unfold sfz, S_Sheppard.cfreq. fold m. assert (Pr : 0 < s_zres p) by apply Hp. assert (Pm : 0 < IZR m) by now apply IZR_lt.
  replace (IZR (l - m / 2) / (IZR m * s_zres p) - IZR (l' - m / 2) / (IZR m * s_zres p)) with (IZR (l - l') / (IZR m * s_zres p)) by (rewrite !minus_IZR; field; split; lra).
  replace (l - l')%Z with ((kz - m / 2) + m * q)%Z by lia. rewrite plus_IZR, mult_IZR. field. split; lra.
Qed.
(** Nothing beyond twice the radius of the shell; with fine enough z sampling nothing either between the central band (one cap with itself) and the side bands (one cap with the other). *)
Theorem C112_dual_bands : forall (p : spar) (A : array (option C)) (kz ky kx : Z),
  s_physical p -> M_Sheppard.gen_otf p = Ok A -> all_numbers A -> on_ix p kz ky kx ->
  let edge := s_ni p / s_wl p + Rmax (pl p) (pz p) in
  2 * edge <= Rabs (sfz p kz) \/ (edge - cone p <= Rabs (sfz p kz) <= 2 * cone p /\ Rabs (sfz p kz) + 2 * edge <= / s_zres p) ->
  get (o_fft (amap ocplx (s_psfi (s_psfa A)))) [kz; ky; kx] = Some (RtoC 0).
Proof.
  intros p A kz ky kx Hp HA Hf Hi edge HB. apply (C112_support p A kz ky kx Hp HA Hf Hi). intros c ix Hc Hix. apply in_all_ix in Hix.
  destruct (inb3_inv _ _ _ _ Hix) as (l & j & i & -> & Hl & Hj & Hh). destruct Hi as (Hz & Hy & Hx). destruct (sizes_pos p Hp) as [Hn Hnz].
  destruct (dual_height p A c l j i Hp HA Hl Hj Hh) as [E|E]; [now left|]. cbn [displaced].
  set (l' := ((l - (kz - s_zsize p / 2)) mod s_zsize p)%Z). set (j' := ((j - (ky - s_size p / 2)) mod s_size p)%Z). set (i' := ((i - (kx - s_size p / 2)) mod s_size p)%Z).
  destruct (dual_height p A c l' j' i' Hp HA) as [E'|E']; [now apply Z.mod_pos_bound..|now right|]. exfalso. fold edge in E, E'.
  pose proof (sqrt_pos ((s_ni p / s_wl p) ^ 2 - (s_na p / s_wl p) ^ 2)) as C0. fold (cone p) in C0.
  assert (T : Rabs (sfz p l - sfz p l') < edge - cone p \/ 2 * cone p < Rabs (sfz p l - sfz p l')).
  { revert E E'. generalize (sfz p l) (sfz p l'). intros u v. unfold Rabs. repeat destruct Rcase_abs; lra. }
  assert (U : Rabs (sfz p l - sfz p l') < 2 * edge) by (revert E E'; generalize (sfz p l) (sfz p l'); intros u v; unfold Rabs; repeat destruct Rcase_abs; lra).
  destruct HB as [B|[[B1 B2] B3]].
  - pose proof (axial_distance p kz l Hp Hz) as D. cbv zeta in D. fold l' in D. lra.
  - destruct (axial_alias p kz l Hp) as [q Q]. fold l' in Q. rewrite Q in T, U. assert (Pr : 0 < / s_zres p) by (apply Rinv_0_lt_compat; apply Hp).
    destruct (Z.eq_dec q 0) as [->|N]; [replace (0 / s_zres p) with 0 in T by (unfold Rdiv; ring); rewrite Rplus_0_r in T; lra|].
    assert (1 <= Rabs (IZR q)) by (rewrite Rabs_Zabs; apply IZR_le; lia).
    assert (W : / s_zres p <= Rabs (IZR q / s_zres p)) by (unfold Rdiv; rewrite Rabs_mult, (Rabs_pos_eq (/ s_zres p)) by lra; nra).
    pose proof (Rabs_triang_inv (IZR q / s_zres p) (- sfz p kz)) as Z1. rewrite Rabs_Ropp in Z1. replace (IZR q / s_zres p - - sfz p kz) with (sfz p kz + IZR q / s_zres p) in Z1 by ring. lra.
Qed.
Print Assumptions C112_dual_bands.
Lemma scalar_numbers p A : s_physical p -> s_vec p = VecNone -> M_Sheppard.gen_otf p = Ok A -> all_numbers A.
Proof.
  intros Hp Hv HA ix Hix. rewrite (gen_otf_inv p Hp A HA) in Hix |- *. rewrite otf_shape in Hix. destruct (inb4_inv _ _ _ _ _ Hix) as (c & z & y & x & -> & H1 & H2 & H3 & H4).
  intros E. apply (elem_none p Hp) in E; auto. destruct E as (_ & N & _). contradiction.
Qed.
(** between the bands, on a grid of 128 points each way (50 nm steps in z) *)
Example C112_dual_case : forall c, let p := mkSpar 500 1 (4 / 3) 100 128 50 128 VecNone c true in exists A,
  s_physical p /\ M_Sheppard.gen_otf p = Ok A /\ all_numbers A /\ forall ky kx, (0 <= ky < 128)%Z -> (0 <= kx < 128)%Z ->
  get (o_fft (amap ocplx (s_psfi (s_psfa A)))) [74; ky; kx]%Z = Some (RtoC 0).
Proof.
  intros c p. assert (Ph : s_physical p) by (unfold s_physical, p; cbn; repeat split; try lra; lia).
  destruct (C39_rejection _ Ph) as [_ H]. destruct H as [A HA]; [cbn; lra|]. assert (F : all_numbers A) by (now apply (scalar_numbers p)).
  assert (C0 : 176 / 100000 <= cone p) by (unfold cone, p; cbn [s_ni s_wl s_na]; rewrite <- (sqrt_pow2 (176 / 100000)) by lra; apply sqrt_le_1_alt; lra).
  assert (P1 : pl p = 1 / 12800) by (unfold pl, pitch, p; cbn; lra). assert (P2 : pz p = 1 / 6400) by (unfold pz, pitch, p; cbn; lra).
  assert (S : Rabs (sfz p 74) = 10 / 6400) by (unfold sfz, S_Sheppard.cfreq, p; cbn [s_zsize s_zres]; change (74 - 128 / 2)%Z with 10%Z; rewrite Rabs_pos_eq by lra; lra).
  exists A. split; [exact Ph|]. split; [exact HA|]. split; [exact F|]. intros ky kx Hy Hx.
  apply (C112_dual_bands p A 74 ky kx Ph HA F); [unfold on_ix, p; cbn; lia|]. right.
  rewrite P1, P2, S, (Rmax_right (1 / 12800) (1 / 6400)) by lra. change (s_ni p / s_wl p) with (4 / 3 / 500). change (s_zres p) with 50. lra.
Qed.
