(** Aberrations: pyotf/otf.py:589-696 *)
From Coq Require Import String Permutation.
From Verif Require Import M_Aberr S_Aberr L_Array L_Sum L_FFT L_FFT2 L_Polar L_Hanser L_Hanser2 L_Hanser3 L_Hanser4 T_Hanser T_Zernike L_Aberr L_Aberr2 L_Aberr3.
Local Open Scope R_scope.

(** ** C70: the pupil function that apply_aberration applies *)
Theorem C70_aberrated_pupil :
  forall (h : hpar) (mc pc : coefs) (k : nat) (m p : list R),
    physical h -> 0 < h_na h -> stands_for mc k m -> stands_for pc k p -> is_none mc && is_none pc = false ->
    (1 <= k <= 120)%nat -> (2 <= h_size h)%Z \/ k = 1%nat ->
    exists P, aberration_pupil h mc pc = Ok (Some P) /\ shape P = [h_size h; h_size h] /\
      forall y x, (0 <= y < h_size h)%Z -> (0 <= x < h_size h)%Z ->
        get P [y; x] = Cmult (RtoC (clear h y x + mix m (pupil_r h y x) (pupil_t h y x)))
                             (cis (mix p (pupil_r h y x) (pupil_t h y x))).
Proof. intros h mc pc k m p Hph Hna Hm Hp Hb Hk Hs. exact (pupil_val h Hph Hna mc pc k m p Hm Hp Hb Hk Hs). Qed.
Print Assumptions C70_aberrated_pupil.
(** The coordinates are those of the pupil: Cartesian (x, y) = frequencies over na / wl. *)
Theorem C70_coordinates :
  forall (h : hpar) (y x : Z), physical h -> 0 < h_na h -> (0 <= y < h_size h)%Z -> (0 <= x < h_size h)%Z ->
    0 <= pupil_r h y x /\
    pupil_r h y x * cos (pupil_t h y x) = sfreq (h_size h) (h_res h) x * h_wl h / h_na h /\
    pupil_r h y x * sin (pupil_t h y x) = sfreq (h_size h) (h_res h) y * h_wl h / h_na h /\
    (clear h y x = 1 -> pupil_r h y x <= 1).
Proof.
  intros h y x Hph Hna Hy Hx. destruct (polar_coords h Hph y x Hy Hx) as [E1 E2]. split; [|split; [exact E1|split; [exact E2|now apply r_inside]]].
  rewrite <- (r_spec h Hph y x Hy Hx). now apply r_nonneg.
Qed.
Print Assumptions C70_coordinates.
(** No light outside the aperture's rim, whatever the coefficients. *)
Theorem C70_support :
  forall (h : hpar) (mc pc : coefs) (k : nat) (m p : list R) (P : array C) (y x : Z),
    physical h -> 0 < h_na h -> stands_for mc k m -> stands_for pc k p -> is_none mc && is_none pc = false ->
    (1 <= k <= 120)%nat -> (2 <= h_size h)%Z \/ k = 1%nat ->
    aberration_pupil h mc pc = Ok (Some P) -> (0 <= y < h_size h)%Z -> (0 <= x < h_size h)%Z ->
    (h_na h / h_wl h) ^ 2 < k2 h y x -> get P [y; x] = RtoC 0.
Proof.
  intros h mc pc k m p P y x Hph Hna Hm Hp Hb Hk Hs E Hy Hx Ho. destruct (pupil_val h Hph Hna mc pc k m p Hm Hp Hb Hk Hs) as (P' & E' & _ & G).
  rewrite E in E'. injection E' as <-. rewrite G by auto. apply (aberrated_outside h Hph Hna). unfold pupil_r. pose proof Hph as (Hw & _).
  assert (Hq : 0 < h_na h / h_wl h) by now apply Rdiv_lt_0_compat.
  assert (Hlt : h_na h / h_wl h < sqrt (k2 h y x)). { rewrite <- (sqrt_pow2 (h_na h / h_wl h)) by lra. apply sqrt_lt_1_alt. split; [apply pow2_ge_0|exact Ho]. }
  apply (Rmult_lt_reg_r (h_na h / h_wl h)); [lra|]. replace (sqrt (k2 h y x) * h_wl h / h_na h * (h_na h / h_wl h)) with (sqrt (k2 h y x)) by (field; lra). lra.
Qed.
Print Assumptions C70_support.
(** On a single-pixel grid two or more coefficients broadcast wrongly: the pupil, hence the PSF, gets k columns. *)
Theorem C70_single_pixel_refuted :
  forall (h : hpar) (p : list R), physical h -> 0 < h_na h -> h_size h = 1%Z -> (2 <= List.length p <= 120)%nat ->
    exists P A, aberration_pupil h CNone (CVec p) = Ok (Some P) /\ shape P = [1; Z.of_nat (List.length p)]%Z /\
      gen_psf h (Some P) = Ok A /\ shape (sumsq A) = [Z.of_nat (List.length (h_zrange h)); 1; Z.of_nat (List.length p)]%Z.
Proof.
  intros h p Hph Hna Hs Hk. rewrite (pupil_eq h Hph) by reflexivity. cbv zeta. unfold filled, zeros_like. cbn [clen]. rewrite repeat_length, Nat.eqb_refl. cbn [negb].
  set (k := List.length p) in *. destruct (zern_ok h Hph Hna k ltac:(lia)) as (out & Eo & Ho). destruct (Ho ltac:(lia)) as [So _]. clear Ho. rewrite Hs in So. cbn [filter] in So.
  rewrite (proj2 (Z.eqb_neq (Z.of_nat k) 1) ltac:(lia)) in So. cbn in So.
  assert (K : forall c, List.length c = k -> exists B, bop Rmult out (column c) = Ok B /\ shape B = [Z.of_nat k; 1; Z.of_nat k]%Z).
  { intros c Hc. unfold bop, bshape. rewrite So. cbn [column shape]. rewrite Hc. cbn [rev app bshape_rev]. unfold bdim. rewrite (proj2 (Z.eqb_neq (Z.of_nat k) 1) ltac:(lia)). cbn. eexists. split; reflexivity. }
  unfold tail. cbn [clen]. rewrite repeat_length. rewrite Eo. cbn [bind subscript].
  destruct (K p eq_refl) as (B & EB & SB). rewrite EB. cbn [bind]. destruct (K (repeat 0 k) (repeat_length _ _)) as (D & ED & SD). rewrite ED. cbn [bind].
  unfold ibop, bop at 1, bshape. assert (S1 : shape (sum0 D) = [1; Z.of_nat k]%Z) by (unfold sum0; cbn [shape]; now rewrite SD). rewrite S1. cbn [amap gen_pupil shape]. rewrite Hs. cbn [rev app bshape_rev]. unfold bdim at 1 2.
  rewrite (proj2 (Z.eqb_neq (Z.of_nat k) 1) ltac:(lia)). cbn -[zlist_eqb]. cbn [zlist_eqb]. rewrite !Z.eqb_refl. cbn [andb bind].
  unfold bop, bshape. cbn [shape]. assert (S2 : shape (sum0 B) = [1; Z.of_nat k]%Z) by (unfold sum0; cbn [shape]; now rewrite SB). rewrite S2. cbn [rev app bshape_rev]. rewrite !bdim_same. cbn [bind rev app].
  eexists. eexists. split; [reflexivity|]. cbn [shape]. split; [reflexivity|]. destruct (physical_nz h Hph) as [H1 H2]. unfold gen_psf. destruct (Req_EM_T _ _); [contradiction|]. destruct (Req_EM_T _ _); [contradiction|].
  cbn [shape]. rewrite Hs. unfold bdim. rewrite (proj2 (Z.eqb_neq (Z.of_nat k) 1) ltac:(lia)). cbn. split; reflexivity.
Qed.
Print Assumptions C70_single_pixel_refuted.
Example C70_case : stands_for CNone 4 (repeat 0 4) /\ stands_for (CVec [0; 1; -1; / 2]) 4 [0; 1; -1; / 2] /\ (2 <= h_size (T_Hanser.demo VecTotal CondSine))%Z /\ 0 < h_na (T_Hanser.demo VecTotal CondSine).
Proof. split; [apply st_none|]. split; [apply (st_vec [0; 1; -1; / 2])|]. cbn. split; [lia|lra]. Qed.

(** ** C44: argument handling *)
Theorem C44_nothing_given : forall h, aberration_pupil h CNone CNone = Ok None.
Proof. reflexivity. Qed.
Definition is_seq (c : coefs) : bool := match c with CSeq _ => true | _ => false end.
(** The outcome of every call on a physical model of at least 2 x 2 pixels, in the order the checks are made: lengths,
    number of modes, kind of sequence, at least one mode. *)
Theorem C44_outcome :
  forall (h : hpar) (mc pc : coefs), physical h -> 0 < h_na h -> (2 <= h_size h)%Z -> is_none mc && is_none pc = false ->
    let k := if is_none mc then clen pc else clen mc in
    match aberration_pupil h mc pc with
    | Err AssertionError => is_none mc = false /\ is_none pc = false /\ clen mc <> clen pc
    | Err IndexError => (is_none mc = true \/ is_none pc = true \/ clen mc = clen pc) /\ (120 < k)%nat
    | Err TypeError => (is_none mc = true \/ is_none pc = true \/ clen mc = clen pc) /\ (k <= 120)%nat /\ is_seq mc || is_seq pc = true
    | Err ValueError => (is_none mc = true \/ is_none pc = true \/ clen mc = clen pc) /\ k = 0%nat /\ is_seq mc || is_seq pc = false
    | Err _ => False
    | Ok None => False
    | Ok (Some P) => (is_none mc = true \/ is_none pc = true \/ clen mc = clen pc) /\ (1 <= k <= 120)%nat /\ is_seq mc || is_seq pc = false /\
        shape P = [h_size h; h_size h]
    end.
Proof.
  intros h mc pc Hph Hna Hs Hb k. rewrite (pupil_eq h Hph) by auto. cbv zeta. set (m := filled mc pc). set (p := filled pc m).
  assert (Hm : clen m = k). { unfold m, k, filled. destruct mc; auto. cbn. now rewrite repeat_length. }
  assert (Hq : is_seq m = is_seq mc) by (unfold m; destruct mc; reflexivity). assert (Hq' : is_seq p = is_seq pc) by (unfold p; destruct pc; reflexivity).
  assert (Nm : is_none m = false) by (unfold m, filled; destruct mc; reflexivity). assert (Np : is_none p = false) by (unfold p, filled; destruct pc; reflexivity).
  destruct (Nat.eqb_spec (clen m) (clen p)) as [E|E]; cbn [negb].
  2:{ assert (Hpn : is_none pc = false). { destruct (is_none pc) eqn:X; auto. exfalso. apply E. unfold p, filled. destruct pc; try discriminate. cbn. now rewrite repeat_length. }
      assert (Hmn : is_none mc = false). { destruct (is_none mc) eqn:X; auto. exfalso. apply E. rewrite Hm. unfold k, p, filled. rewrite ?X. destruct pc; auto; discriminate. }
      split; [auto|]. split; [auto|]. rewrite Hm in E. unfold k in E. rewrite Hmn in E. unfold p, filled in E. destruct pc; auto; discriminate. }
  assert (Hl : is_none mc = true \/ is_none pc = true \/ clen mc = clen pc).
  { destruct (is_none mc) eqn:X; auto. destruct (is_none pc) eqn:Y; auto. right; right. rewrite Hm in E. unfold k in E. rewrite ?X in E. rewrite E. unfold p, filled. destruct pc; auto; discriminate. }
  rewrite <- Hq, <- Hq'. unfold tail. rewrite Hm.
  destruct (Compare_dec.le_dec k 120) as [Hk|Hk].
  2:{ assert (Ez : zernike true (h_r h) (h_t h) (One (IVec (noll_upto k))) = Err IndexError).
      { unfold zernike. cbn [zernike_degrees noll2degrees]. replace (forallb (fun j => (0 <? j)%Z) (noll_upto k)) with true.
        2:{ symmetry. apply forallb_forall. intros j Hj. apply in_noll_upto in Hj. lia. } cbn [negb]. destruct (forallb (fun j => (j <=? 120)%Z) (noll_upto k)) eqn:F; [|reflexivity].
        rewrite forallb_forall in F. specialize (F 121%Z (proj2 (in_noll_upto k 121) ltac:(lia))). discriminate. }
      rewrite Ez. cbn [bind]. split; [auto|lia]. }
  destruct (zern_ok h Hph Hna k Hk) as (out & Eo & Ho). rewrite Eo. cbn [bind].
  destruct p as [|p|p]; [discriminate| |]; cbn [subscript bind]; [|split; [auto|split; [auto|apply orb_true_r]]].
  destruct m as [|m|m]; [discriminate| |].
  - destruct (Nat.eqb_spec k 0) as [K0|K0].
    + rewrite K0 in *. cbn [clen] in Hm, E. destruct p; [|cbn in *; lia]. destruct m; [|cbn in *; lia].
      assert (So : shape out = [0%Z]). { revert Eo. unfold zernike. cbn [zernike_degrees noll_upto seq map noll2degrees forallb negb bind]. destruct (negb _); [discriminate|]. destruct (Nat.ltb _ _); [discriminate|]. intros [= <-]. reflexivity. }
      assert (EB : exists B, bop Rmult out (column []) = Ok B /\ shape B = [0; 1; 0]%Z). { unfold bop, bshape. rewrite So. cbn. eexists. split; reflexivity. }
      destruct EB as (B & EB & SB). rewrite EB. cbn [bind subscript]. rewrite EB. cbn [bind].
      unfold ibop, bop, bshape. assert (S1 : shape (sum0 B) = [1; 0]%Z) by (unfold sum0; cbn [shape]; now rewrite SB). rewrite S1. cbn [amap gen_pupil shape rev app bshape_rev]. unfold bdim at 1. rewrite (proj2 (Z.eqb_neq 0 (h_size h)) ltac:(lia)), (proj2 (Z.eqb_neq (h_size h) 1) ltac:(lia)). cbn. auto.
    + destruct (tail_val h Hph Hna m p) as (P & EP & SP & _); [cbn [clen] in *; congruence|cbn [clen] in *; lia|auto|].
      unfold tail in EP. cbn [clen] in EP, Hm. rewrite Hm in EP. rewrite Eo in EP. cbn [bind subscript] in EP. cbn [subscript bind]. rewrite EP. split; [auto|]. split; [lia|]. split; [reflexivity|exact SP].
  - destruct (Nat.eqb_spec k 0) as [K0|K0].
    + rewrite K0 in *. cbn [clen] in Hm, E. destruct p; [|cbn in *; lia].
      assert (So : shape out = [0%Z]). { revert Eo. unfold zernike. cbn [zernike_degrees noll_upto seq map noll2degrees forallb negb bind]. destruct (negb _); [discriminate|]. destruct (Nat.ltb _ _); [discriminate|]. intros [= <-]. reflexivity. }
      assert (EB : exists B, bop Rmult out (column []) = Ok B). { unfold bop, bshape. rewrite So. cbn. eexists. reflexivity. }
      destruct EB as (B & EB). rewrite EB. cbn [bind subscript]. split; [auto|]. split; [lia|reflexivity].
    + destruct (Ho ltac:(lia)) as [So Go]. destruct (column_product k (h_size h) out _ p ltac:(cbn [clen] in *; congruence) ltac:(lia) ltac:(lia) (or_introl Hs) So Go) as (B & EB & _). rewrite EB. cbn [bind subscript].
      split; [auto|]. split; [lia|reflexivity].
Qed.
Print Assumptions C44_nothing_given. Print Assumptions C44_outcome.
Example C44_cases : is_none (CSeq [1; 2]) && is_none CNone = false /\ clen (CVec [1]) <> clen (CVec [1; 2]).
Proof. split; [reflexivity|]. cbn. lia. Qed.
