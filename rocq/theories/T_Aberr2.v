(** Aberrations, continued: what they do to the PSF (pyotf/otf.py:589-696) *)
From Coq Require Import String Permutation.
From Verif Require Import M_Aberr S_Aberr L_Array L_Sum L_FFT L_FFT2 L_Polar L_Hanser L_Hanser2 L_Hanser3 L_Hanser4 T_Hanser T_Zernike L_Aberr L_Aberr2 L_Aberr3 T_Aberr.
Local Open Scope R_scope.

Lemma mix_adds j c p q r t : adds j c p q -> mix q r t = mix p r t + c * zmode (Z.of_nat j) r t.
Proof.
  intros (Hl & Hj & H). unfold mix. rewrite Hl.
  rewrite <- (Rplus_0_r (Rsum (seq 0 (List.length p)) (fun i => nth i p 0 * zmode (Z.of_nat i + 1) r t))) at 1.
  rewrite (Rsum_ext _ _ (fun i => nth i p 0 * zmode (Z.of_nat i + 1) r t + (if Nat.eqb i (j - 1) then c else 0) * zmode (Z.of_nat i + 1) r t)).
  - rewrite Rsum_plus, Rsum_pick by lia. replace (Z.of_nat (j - 1) + 1)%Z with (Z.of_nat j) by lia. ring.
  - intros i Hi. apply in_seq in Hi. specialize (H (S i) ltac:(lia)). replace (S i - 1)%nat with i in H by lia. rewrite H.
    replace (Nat.eqb (S i) j) with (Nat.eqb i (j - 1)) by (destruct (Nat.eqb_spec i (j - 1)), (Nat.eqb_spec (S i) j); auto; lia). ring.
Qed.

(** ** C43: piston is unobservable, tip and tilt shift *)
Theorem C43_piston :
  forall (h : hpar) (mc : coefs) (m p q : list R) (c : R) (P Q A B : array C) (z y x : Z),
    physical h -> 0 < h_na h -> (2 <= h_size h)%Z \/ List.length p = 1%nat -> (List.length p <= 120)%nat ->
    stands_for mc (List.length p) m -> adds 1 c p q ->
    aberration_pupil h mc (CVec p) = Ok (Some P) -> gen_psf h (Some P) = Ok A ->
    aberration_pupil h mc (CVec q) = Ok (Some Q) -> gen_psf h (Some Q) = Ok B ->
    (0 <= y < h_size h)%Z -> (0 <= x < h_size h)%Z ->
    get (sumsq B) [z; y; x] = get (sumsq A) [z; y; x].
Proof.
  intros h mc m p q c P Q A B z y x Hph Hna Hs Hk Hm Ha EP EA EQ EB Hy Hx. pose proof Ha as (Hl & Hj & _).
  destruct (pupil_val h Hph Hna mc (CVec p) _ m p Hm (st_vec p)) as (P' & EP' & SP & GP); [now rewrite andb_false_r|lia|auto|]. rewrite EP in EP'. injection EP' as <-.
  assert (Hm' : stands_for mc (List.length q) m) by now rewrite Hl.
  destruct (pupil_val h Hph Hna mc (CVec q) _ m q Hm' (st_vec q)) as (Q' & EQ' & SQ & GQ); [now rewrite andb_false_r|lia|rewrite Hl; auto|]. rewrite EQ in EQ'. injection EQ' as <-.
  apply (psfi_phase h Hph P Q A B (cis c)); auto.
  - rewrite Cnorm2_Cmod, Cmod_cis. ring.
  - intros j i Hj' Hi. rewrite GP, GQ by auto. apply (aberrated_times h Hph Hna m p q (fun _ _ => c)). intros Hr. rewrite (mix_adds 1 c p q) by auto.
    change (Z.of_nat 1) with 1%Z. rewrite zmode_1 by auto. ring.
Qed.
Print Assumptions C43_piston.

(** A coefficient of -pi * s * res * na / wl on tip (tilt) moves the PSF by s whole pixels along x (y), cyclically. *)
Theorem C43_tip_tilt :
  forall (h : hpar) (mc : coefs) (m p p' q : list R) (sy sx : Z) (P Q A B : array C) (z y x : Z),
    physical h -> 0 < h_na h -> (2 <= h_size h)%Z -> (List.length p <= 120)%nat ->
    stands_for mc (List.length p) m ->
    adds 2 (- PI * IZR sx * h_res h * h_na h / h_wl h) p p' -> adds 3 (- PI * IZR sy * h_res h * h_na h / h_wl h) p' q ->
    aberration_pupil h mc (CVec p) = Ok (Some P) -> gen_psf h (Some P) = Ok A ->
    aberration_pupil h mc (CVec q) = Ok (Some Q) -> gen_psf h (Some Q) = Ok B ->
    (0 <= y < h_size h)%Z -> (0 <= x < h_size h)%Z ->
    get (sumsq B) [z; y; x] = get (sumsq A) [z; ((y + sy) mod h_size h)%Z; ((x + sx) mod h_size h)%Z].
Proof.
  intros h mc m p p' q sy sx P Q A B z y x Hph Hna Hs Hk Hm Ha Ha' EP EA EQ EB Hy Hx. pose proof Ha as (Hl & Hj & _). pose proof Ha' as (Hl' & Hj' & _).
  destruct (pupil_val h Hph Hna mc (CVec p) _ m p Hm (st_vec p)) as (P' & EP' & SP & GP); [now rewrite andb_false_r|lia|auto|]. rewrite EP in EP'. injection EP' as <-.
  assert (Hm' : stands_for mc (List.length q) m) by now rewrite Hl', Hl.
  destruct (pupil_val h Hph Hna mc (CVec q) _ m q Hm' (st_vec q)) as (Q' & EQ' & SQ & GQ); [now rewrite andb_false_r|lia|auto|]. rewrite EQ in EQ'. injection EQ' as <-.
  apply (psfi_shift h Hph P Q A B z y x sy sx); auto. intros j i Hj1 Hi. rewrite GP, GQ by auto. rewrite !(Z.mul_comm _ j), !(Z.mul_comm _ i).
  rewrite !(root_freq h Hph), <- cis_plus. apply (aberrated_times h Hph Hna m p q (fun j i => 2 * PI * (sfreq (h_size h) (h_res h) j * (IZR sy * h_res h)) + 2 * PI * (sfreq (h_size h) (h_res h) i * (IZR sx * h_res h)))).
  intros Hr. rewrite (mix_adds 3 _ p' q), (mix_adds 2 _ p p') by eauto. change (Z.of_nat 3) with 3%Z. change (Z.of_nat 2) with 2%Z. destruct (zmode_23 _ (pupil_t h j i) Hr) as [-> ->].
  destruct (polar_coords h Hph j i Hj1 Hi) as [-> ->]. destruct Hph as (Hw & _). field. split; lra.
Qed.
Print Assumptions C43_tip_tilt.
Lemma adds_3 c p1 p2 p3 : adds 1 c [p1; p2; p3] [p1 + c; p2; p3] /\ adds 2 c [p1; p2; p3] [p1; p2 + c; p3] /\ adds 3 c [p1; p2; p3] [p1; p2; p3 + c].
Proof. repeat split; cbn; try lia; intros [|[|[|[|i]]]] Hi; cbn; try lia; ring. Qed.
Example C43_case : let h := T_Hanser.demo VecTotal CondSine in exists P Q A B,
  aberration_pupil h CNone (CVec [1; 2; 3]) = Ok (Some P) /\ gen_psf h (Some P) = Ok A /\
  aberration_pupil h CNone (CVec [1 + 5; 2; 3]) = Ok (Some Q) /\ gen_psf h (Some Q) = Ok B /\ adds 1 5 [1; 2; 3] [1 + 5; 2; 3].
Proof.
  cbv zeta. set (h := T_Hanser.demo VecTotal CondSine). assert (Hph : physical h) by apply demo_physical. assert (Hna : 0 < h_na h) by (cbn; lra).
  assert (X : forall a b c, exists P A, aberration_pupil h CNone (CVec [a; b; c]) = Ok (Some P) /\ gen_psf h (Some P) = Ok A).
  { intros a b c. destruct (pupil_val h Hph Hna CNone (CVec [a; b; c]) 3 _ _ (st_none 3) (st_vec [a; b; c]) eq_refl ltac:(lia) ltac:(left; cbn; lia)) as (P & EP & SP & _).
    exists P. destruct (gen_psf_ok h Hph (Some P)) as [A HA]; [intros ? [= <-]; exact SP|]. eauto. }
  destruct (X 1 2 3) as (P & A & EP & EA). destruct (X (1 + 5) 2 3) as (Q & B & EQ & EB). exists P, Q, A, B. repeat (split; [assumption|]). apply adds_3.
Qed.

(** ** C71: reversing the sign of the phase coefficients reflects the PSF through its centre *)
Theorem C71_sign_reversal :
  forall (h : hpar) (mc : coefs) (m p : list R) (P Q A B : array C) (z z' y x : Z),
    physical h -> 0 < h_na h -> (2 <= h_size h)%Z \/ List.length p = 1%nat -> (1 <= List.length p <= 120)%nat ->
    stands_for mc (List.length p) m ->
    aberration_pupil h mc (CVec p) = Ok (Some P) -> gen_psf h (Some P) = Ok A ->
    aberration_pupil h mc (CVec (map Ropp p)) = Ok (Some Q) -> gen_psf h (Some Q) = Ok B ->
    nth (Z.to_nat z') (h_zrange h) 0 = - nth (Z.to_nat z) (h_zrange h) 0 ->
    (0 <= y < h_size h)%Z -> (0 <= x < h_size h)%Z ->
    let n := h_size h in
    get (sumsq B) [z'; ((2 * (n / 2) - y) mod n)%Z; ((2 * (n / 2) - x) mod n)%Z] = get (sumsq A) [z; y; x].
Proof.
  intros h mc m p P Q A B z z' y x Hph Hna Hs Hk Hm EP EA EQ EB Hz Hy Hx n.
  destruct (pupil_val h Hph Hna mc (CVec p) _ m p Hm (st_vec p)) as (P' & EP' & SP & GP); [now rewrite andb_false_r|lia|auto|]. rewrite EP in EP'. injection EP' as <-.
  assert (Hm' : stands_for mc (List.length (map Ropp p)) m) by now rewrite map_length.
  destruct (pupil_val h Hph Hna mc (CVec (map Ropp p)) _ m (map Ropp p) Hm' (st_vec _)) as (Q' & EQ' & SQ & GQ); [now rewrite andb_false_r|rewrite map_length; lia|rewrite map_length; auto|]. rewrite EQ in EQ'. injection EQ' as <-.
  apply (psfi_conj h Hph P Q A B z z' y x); auto. intros j i Hj Hi. rewrite GP, GQ by auto. unfold aberrated. rewrite mix_opp, cis_opp, Cconj_mult, Cconj_RtoC. reflexivity.
Qed.
Print Assumptions C71_sign_reversal.
Example C71_case : nth (Z.to_nat 0) (h_zrange (T_Hanser.demo VecTotal CondSine)) 0 = - nth (Z.to_nat 2) (h_zrange (T_Hanser.demo VecTotal CondSine)) 0.
Proof. change (-200 = - 200). lra. Qed.

(** ** C72: phase-only aberrations neither create nor destroy light, and never beat the ideal focus *)
Theorem C72_phase_only_energy :
  forall (h : hpar) (p : list R) (P A A0 : array C) (z z' : Z),
    physical h -> 0 < h_na h -> (2 <= h_size h)%Z \/ List.length p = 1%nat -> (1 <= List.length p <= 120)%nat ->
    aberration_pupil h CNone (CVec p) = Ok (Some P) -> gen_psf h (Some P) = Ok A -> gen_psf h None = Ok A0 ->
    plane_sum (h_size h) (fun y x => get (sumsq A) [z; y; x]) = plane_sum (h_size h) (fun y x => get (sumsq A0) [z'; y; x]).
Proof.
  intros h p P A A0 z z' Hph Hna Hs Hk EP EA E0.
  destruct (pupil_val h Hph Hna CNone (CVec p) _ _ p (st_none _) (st_vec p)) as (P' & EP' & SP & GP); [reflexivity|lia|auto|]. rewrite EP in EP'. injection EP' as <-.
  rewrite (C31_plane_energy h (Some P) A z Hph) by (auto; intros ? [= <-]; exact SP). rewrite (C31_plane_energy h None A0 z' Hph) by (auto; discriminate).
  f_equal. apply plane_ext. intros y x Hy Hx. do 2 f_equal. cbn [used_pupil]. rewrite GP by auto. unfold aberrated. rewrite mix_zero, Rplus_0_r, Cmod_mult, Cmod_cis, Rmult_1_r. reflexivity.
Qed.
Theorem C72_strehl_ratio_at_most_1 :
  forall (h : hpar) (p : list R) (P A A0 : array C) (z0 z y x : Z),
    physical h -> 0 < h_na h -> (2 <= h_size h)%Z \/ List.length p = 1%nat -> (1 <= List.length p <= 120)%nat ->
    h_vec h = VecNone -> nth (Z.to_nat z0) (h_zrange h) 0 = 0 ->
    aberration_pupil h CNone (CVec p) = Ok (Some P) -> gen_psf h (Some P) = Ok A -> gen_psf h None = Ok A0 ->
    (0 <= y < h_size h)%Z -> (0 <= x < h_size h)%Z ->
    get (sumsq A) [z; y; x] <= get (sumsq A0) [z0; h_size h / 2; h_size h / 2]%Z.
Proof.
  intros h p P A A0 z0 z y x Hph Hna Hs Hk Hv Hz EP EA E0 Hy Hx.
  destruct (pupil_val h Hph Hna CNone (CVec p) _ _ p (st_none _) (st_vec p)) as (P' & EP' & SP & GP); [reflexivity|lia|auto|]. rewrite EP in EP'. injection EP' as <-.
  apply (C33_strehl h A0 P A z0 z y x); auto. intros j i Hj Hi. rewrite GP by auto. unfold aberrated, in_aperture. rewrite mix_zero, Rplus_0_r. unfold clear.
  destruct (Rlt_dec _ _); split; intros; try contradiction; [|apply Cmult_0_l]. rewrite Cmod_mult, Cmod_cis, Cmod_1. lra.
Qed.
Print Assumptions C72_phase_only_energy. Print Assumptions C72_strehl_ratio_at_most_1.

(** ** C40: names *)
Lemma lookup_known a : known a -> exists j nm, In (a, nm) classical /\ lookup name2noll a = Some j /\ (1 <= j <= 15)%Z /\ noll2degrees (NInts [j]) = Ok [nm].
Proof.
  intros Hk. unfold known, classical in Hk. cbn [map fst] in Hk.
  assert (K : forall j nm, (1 <= j <= 120)%Z -> deg j = nm -> noll2degrees (NInts [j]) = Ok [nm]) by (intros j nm Hj <-; rewrite noll2degrees_val by (intros ? [<-|[]]; lia); reflexivity).
  repeat (destruct Hk as [<-|Hk]; [eexists; eexists; split; [unfold classical; cbn [In]; repeat first [left; reflexivity | right]|]; split; [vm_compute; reflexivity|]; split; [lia|]; apply K; [lia|vm_compute; reflexivity]|]). destruct Hk.
Qed.
Lemma lookup_unknown a : ~ known a -> lookup name2noll a = None.
Proof.
  intros H. assert (G : forall d, ~ In a (map fst d) -> lookup d a = None).
  { induction d as [|[k v] d IH]; intros Hn; [reflexivity|]. cbn [lookup]. destruct (String.eqb_spec a k) as [->|E]; [exfalso; apply Hn; now left|]. apply IH. intros Hi. apply Hn. now right. }
  apply G. exact H.
Qed.
(** Exactly the classical names are known; an accepted name gives 15 coefficients, all zero but the one of the mode with the
    classical degrees, which is the magnitude; any other name raises KeyError. *)
Theorem C40_named_coefficients :
  forall (a : string) (g : R),
    (known a -> exists j n m p, In (a, (n, m)) classical /\ noll2degrees (NInts [j]) = Ok [(n, m)] /\ (1 <= j <= 15)%Z /\
       named_aberration_to_pcoefs a g = Ok p /\ List.length p = 15%nat /\
       forall i, (1 <= i <= 15)%Z -> nth (Z.to_nat (i - 1)) p 0 = if (i =? j)%Z then g else 0) /\
    (~ known a -> named_aberration_to_pcoefs a g = Err KeyError).
Proof.
  intros a g. split.
  - intros Hk. destruct (lookup_known a Hk) as (j & [n m] & Hc & Hl & Hj & Hd). exists j, n, m. unfold named_aberration_to_pcoefs. rewrite Hl. eexists. split; [exact Hc|]. split; [exact Hd|]. split; [exact Hj|]. split; [reflexivity|].
    split; [reflexivity|]. change (List.length name2noll) with 15%nat. intros i Hi. set (f := fun i0 : nat => if Nat.eqb i0 (Z.to_nat (j - 1)) then g else 0).
    rewrite (nth_indep _ 0 (f O)) by (rewrite map_length, seq_length; lia). rewrite map_nth, seq_nth by lia. unfold f. cbn [Nat.add].
    destruct (Nat.eqb_spec (Z.to_nat (i - 1)) (Z.to_nat (j - 1))), (Z.eqb_spec i j); auto; lia.
  - intros Hk. unfold named_aberration_to_pcoefs. now rewrite lookup_unknown.
Qed.
(** Different names stand for different modes, and the fifteen names stand for all of Noll's first fifteen. *)
Theorem C40_names_are_the_first_15_modes :
  forall j, (1 <= j <= 15)%Z -> exists a nm, In (a, nm) classical /\ noll2degrees (NInts [j]) = Ok [nm] /\ (forall nm', In (a, nm') classical -> nm' = nm) /\ (forall a', In (a', nm) classical -> a' = a).
Proof.
  intros j Hj. assert (E : (j = 1 \/ j = 2 \/ j = 3 \/ j = 4 \/ j = 5 \/ j = 6 \/ j = 7 \/ j = 8 \/ j = 9 \/ j = 10 \/ j = 11 \/ j = 12 \/ j = 13 \/ j = 14 \/ j = 15)%Z) by lia.
  rewrite noll2degrees_val by (intros ? [<-|[]]; lia). cbn [map].
  assert (G : exists a, In (a, deg j) classical). { repeat (destruct E as [->|E]; [eexists; match goal with |- context[deg ?i] => let v := eval vm_compute in (deg i) in replace (deg i) with v by (vm_compute; reflexivity) end; unfold classical; cbn [In]; repeat first [left; reflexivity | right]|]).
    subst j. eexists. replace (deg 15) with (4, -4)%Z by (vm_compute; reflexivity). unfold classical; cbn [In]; repeat first [left; reflexivity | right]. }
  destruct G as [a Ha]. exists a, (deg j). split; [exact Ha|]. split; [reflexivity|].
  assert (N1 : NoDup (map fst classical)) by (unfold classical; cbn [map fst]; repeat constructor; cbn; intuition discriminate).
  assert (N2 : NoDup (map snd classical)) by (unfold classical; cbn [map snd]; repeat constructor; cbn; intuition discriminate).
  revert Ha. generalize (deg j). revert N1 N2. generalize classical. intros l N1 N2 nm Ha. split.
  - intros nm' Ha'. induction l as [|[b q] l IH]; [destruct Ha|]. inversion N1; inversion N2; subst. destruct Ha as [Ea|Ha], Ha' as [Ea'|Ha'].
    + congruence. + injection Ea as -> ->. exfalso. apply H1. now apply (in_map fst) in Ha'. + injection Ea' as -> ->. exfalso. apply H1. now apply (in_map fst) in Ha. + now apply IH.
  - intros a' Ha'. induction l as [|[b q] l IH]; [destruct Ha|]. inversion N1; inversion N2; subst. destruct Ha as [Ea|Ha], Ha' as [Ea'|Ha'].
    + congruence. + injection Ea as -> ->. exfalso. apply H5. now apply (in_map snd) in Ha'. + injection Ea' as -> ->. exfalso. apply H5. now apply (in_map snd) in Ha. + now apply IH.
Qed.
Print Assumptions C40_named_coefficients. Print Assumptions C40_names_are_the_first_15_modes.
Example C40_case : known "defocus" /\ ~ known "Defocus".
Proof. unfold known, classical. cbn. intuition discriminate. Qed.

(** ** C41: several named aberrations at once *)
Lemma nth_combine_add i (l l' : list R) : List.length l = List.length l' -> nth i (map (fun q => fst q + snd q) (combine l l')) 0 = nth i l 0 + nth i l' 0.
Proof.
  revert i l'. induction l as [|a l IH]; intros i [|b l'] H; cbn [combine map]; try discriminate.
  - destruct i; cbn; ring.
  - destruct i; cbn [nth fst snd]; [ring|]. apply IH. now injection H.
Qed.
Lemma total_for_cons a b g d : total_for a ((b, g) :: d) = (if String.eqb b a then g else 0) + total_for a d.
Proof. reflexivity. Qed.
Lemma sum_named_spec d : forall acc, List.length acc = 15%nat ->
  ((forall a g, In (a, g) d -> known a) -> exists p, sum_named acc d = Ok p /\ List.length p = 15%nat /\
     forall a nm j, In (a, nm) classical -> noll2degrees (NInts [j]) = Ok [nm] -> (1 <= j <= 15)%Z -> nth (Z.to_nat (j - 1)) p 0 = nth (Z.to_nat (j - 1)) acc 0 + total_for a d) /\
  ((exists a g, In (a, g) d /\ ~ known a) -> sum_named acc d = Err KeyError).
Proof.
  assert (inj : forall i j nm, (1 <= i <= 15)%Z -> (1 <= j <= 15)%Z -> noll2degrees (NInts [i]) = Ok [nm] -> noll2degrees (NInts [j]) = Ok [nm] -> i = j).
  { intros i j [a b] Hi Hj E1 E2. pose proof (d2n_deg i ltac:(lia)) as D1. pose proof (d2n_deg j ltac:(lia)) as D2. rewrite noll2degrees_val in E1, E2 by (intros ? [<-|[]]; lia). cbn [map] in *. apply ok1 in E1, E2. rewrite E1 in D1. rewrite E2 in D2. rewrite D1 in D2. now apply ok1 in D2. }
  induction d as [|[a g] d IH]; intros acc Hacc.
  - split.
    + intros _. exists acc. split; [reflexivity|]. split; [exact Hacc|]. intros. unfold total_for. cbn. ring.
    + intros (a & g & [] & _).
  - destruct (C40_named_coefficients a g) as [Hk Hu]. split.
    + intros Hall. destruct (Hk (Hall a g (or_introl eq_refl))) as (j0 & n & m & p0 & Hc & Hd & Hj & Ep & Lp & Gp). cbn [sum_named]. rewrite Ep. cbn [bind].
      destruct (IH (map (fun q => fst q + snd q) (combine acc p0))) as [H1 _]; [rewrite map_length, combine_length, Hacc, Lp; reflexivity|].
      destruct H1 as (p & E & L & G); [intros; eapply Hall; right; eassumption|]. exists p. split; [exact E|]. split; [exact L|].
      intros b nm j Hb Hd' Hj'. rewrite (G b nm j Hb Hd' Hj'), nth_combine_add, Gp, total_for_cons by (auto; congruence). rewrite Rplus_assoc. f_equal. f_equal.
      destruct (Z.eqb_spec j j0) as [->|Ne].
      * assert (nm = (n, m)) by (rewrite Hd in Hd'; symmetry; now apply ok1). subst nm. destruct (C40_names_are_the_first_15_modes j0 Hj') as (c & nm & _ & En & _ & U). assert (nm = (n, m)) by (rewrite Hd in En; symmetry; now apply ok1). subst nm. rewrite (U a Hc), (U b Hb), String.eqb_refl. reflexivity.
      * destruct (String.eqb_spec a b) as [->|Nb]; [|reflexivity]. exfalso. apply Ne. destruct (C40_names_are_the_first_15_modes j Hj') as (c & nm' & Hc' & En & U & U'). assert (nm' = nm) by (rewrite Hd' in En; symmetry; now apply ok1). subst nm'. assert (b = c) by auto. subst c. apply (inj j j0 nm); auto. rewrite <- (U _ Hc). auto.
    + intros (b & g' & Hin & Hb). cbn [sum_named]. destruct (in_dec string_dec a (map fst classical)) as [Ka|Ka].
      * destruct (Hk Ka) as (j0 & n & m & p0 & _ & _ & _ & Ep & Lp & _). rewrite Ep. cbn [bind]. apply IH; [rewrite map_length, combine_length, Hacc, Lp; reflexivity|]. destruct Hin as [[= -> ->]|Hin]; [contradiction|]. eauto.
      * now rewrite (Hu Ka).
Qed.
(** The coefficients of a dictionary of known names: each mode gets the magnitude of its name, others zero; one unknown name
    anywhere raises KeyError. *)
Theorem C41_dictionary :
  forall (d : list (string * R)),
    ((forall a g, In (a, g) d -> known a) -> exists p, sum_named (repeat 0 15) d = Ok p /\ List.length p = 15%nat /\
       forall a nm j, In (a, nm) classical -> noll2degrees (NInts [j]) = Ok [nm] -> (1 <= j <= 15)%Z -> nth (Z.to_nat (j - 1)) p 0 = total_for a d) /\
    ((exists a g, In (a, g) d /\ ~ known a) -> sum_named (repeat 0 15) d = Err KeyError).
Proof.
  intros d. destruct (sum_named_spec d (repeat 0 15) (repeat_length _ _)) as [H1 H2]. split; [|exact H2]. intros Hk. destruct (H1 Hk) as (p & E & L & G). exists p. split; [exact E|]. split; [exact L|].
  intros a nm j Ha Hd Hj. rewrite (G a nm j Ha Hd Hj), nth_repeat. ring.
Qed.
Lemma total_for_perm a d d' : Permutation d d' -> total_for a d = total_for a d'.
Proof. unfold total_for. induction 1; cbn [Rsum]; try congruence; lra. Qed.
(** The order of the entries does not matter, and neither does the division into entries: only each name's total counts. *)
Theorem C41_order_irrelevant :
  forall (d d' : list (string * R)), (forall a, In a (map fst d) <-> In a (map fst d')) -> (forall a, total_for a d = total_for a d') ->
    sum_named (repeat 0 15) d = sum_named (repeat 0 15) d'.
Proof.
  intros d d' Hn Ht. destruct (C41_dictionary d) as [H1 H2], (C41_dictionary d') as [H1' H2'].
  destruct (Forall_dec (fun a => known a) (fun a => in_dec string_dec a (map fst classical)) (map fst d)) as [F|F].
  - rewrite Forall_forall in F. destruct H1 as (p & E & L & G); [intros a g Hi; apply F; now apply (in_map fst) in Hi|]. destruct H1' as (p' & E' & L' & G'); [intros a g Hi; apply F, Hn; now apply (in_map fst) in Hi|].
    rewrite E, E'. f_equal. apply (nth_ext _ _ 0 0); [congruence|]. intros i Hi. rewrite L in Hi. destruct (C40_names_are_the_first_15_modes (Z.of_nat i + 1) ltac:(lia)) as (a & nm & Ha & Hd & _ & _).
    pose proof (G a nm _ Ha Hd ltac:(lia)) as Q. pose proof (G' a nm _ Ha Hd ltac:(lia)) as Q'. replace (Z.to_nat (Z.of_nat i + 1 - 1)) with i in Q, Q' by lia. rewrite Q, Q'. apply Ht.
  - assert (X : exists a, In a (map fst d) /\ ~ known a). { apply neg_Forall_Exists_neg in F; [|intros a; apply (in_dec string_dec)]. apply Exists_exists in F. exact F. }
    destruct X as (a & Ha & Hk). rewrite H2, H2'; auto.
    + apply Hn in Ha. apply in_map_iff in Ha. destruct Ha as ([a' g] & <- & Hi). exists a', g. auto.
    + apply in_map_iff in Ha. destruct Ha as ([a' g] & <- & Hi). exists a', g. auto.
Qed.
Corollary C41_permutation : forall d d', Permutation d d' -> sum_named (repeat 0 15) d = sum_named (repeat 0 15) d'.
Proof.
  intros d d' H. apply C41_order_irrelevant; [|intros a; now apply total_for_perm]. intros a. split; apply Permutation_in; [|apply Permutation_sym]; now apply Permutation_map.
Qed.
(** An empty dictionary, or zero magnitudes: the ideal PSF. *)
Theorem C41_zero_is_ideal :
  forall (h : hpar) (d : list (string * R)) (p : list R) (P A A0 : array C) (z y x : Z),
    physical h -> 0 < h_na h -> (2 <= h_size h)%Z -> (forall a g, In (a, g) d -> g = 0) ->
    sum_named (repeat 0 15) d = Ok p -> aberration_pupil h CNone (CVec p) = Ok (Some P) -> gen_psf h (Some P) = Ok A -> gen_psf h None = Ok A0 ->
    (0 <= y < h_size h)%Z -> (0 <= x < h_size h)%Z -> get (sumsq A) [z; y; x] = get (sumsq A0) [z; y; x].
Proof.
  intros h d p P A A0 z y x Hph Hna Hs Hd Ep EP EA E0 Hy Hx.
  assert (p = repeat 0 15).
  { assert (G : forall acc, acc = repeat 0 15 -> forall q, sum_named acc d = Ok q -> q = repeat 0 15).
    { revert Hd. clear. induction d as [|[a g] d IH]; intros Hd acc -> q; cbn [sum_named]; [now intros [= <-]|]. destruct (named_aberration_to_pcoefs a g) as [p0|] eqn:E; cbn [bind]; [|discriminate].
      apply IH; [intros; eapply Hd; right; eassumption|]. rewrite (Hd a g (or_introl eq_refl)) in E. unfold named_aberration_to_pcoefs in E. destruct (lookup name2noll a); [|discriminate]. injection E as <-.
      change (List.length name2noll) with 15%nat. cbn [seq map repeat combine fst snd]. repeat match goal with |- context[if ?b then 0 else 0] => replace (if b then 0 else 0) with 0 by (destruct b; reflexivity) end. rewrite !Rplus_0_r. reflexivity. }
    now apply (G (repeat 0 15) eq_refl). }
  subst p. destruct (pupil_val h Hph Hna CNone (CVec (repeat 0 15)) 15 _ _ (st_none 15) (st_vec (repeat 0 15))) as (P' & EP' & SP & GP); [reflexivity|lia|auto|]. rewrite EP in EP'. injection EP' as <-.
  rewrite (psfi_val h Hph (Some P) A), (psfi_val h Hph None A0); auto; try discriminate; [|intros ? [= <-]; exact SP].
  apply Rsum_ext. intros c _. do 2 f_equal. rewrite !mop2. apply Csum_ext. intros j Hj. apply in_zseq_iff in Hj. f_equal. apply Csum_ext. intros i Hi. apply in_zseq_iff in Hi. f_equal. unfold pupf, pup. do 3 f_equal.
  cbn [used_pupil]. rewrite GP by auto. unfold aberrated. rewrite !mix_zero, Rplus_0_r. unfold clear, cis. rewrite cos_0, sin_0. apply Cmult_1_r.
Qed.
Print Assumptions C41_dictionary. Print Assumptions C41_order_irrelevant. Print Assumptions C41_permutation. Print Assumptions C41_zero_is_ideal.
Example C41_case : exists p, sum_named (repeat 0 15) [("defocus"%string, 1); ("tip"%string, 2)] = Ok p /\ nth 3 p 0 = 1 /\ nth 1 p 0 = 2.
Proof. eexists. split; [reflexivity|]. cbv -[Rplus IZR]. split; ring. Qed.
