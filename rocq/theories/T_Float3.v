(** C105: sizes and cut-offs computed in binary64 are those of exact arithmetic, except next to a tie. *)
From Verif Require Import M_Float3 S_Float S_Float2 S_Float3 S_Radial L_Float L_Float3 L_Near L_Noll L_Shell L_Rint L_Axial T_Float T_Float2.
From Verif Require S_Confocal.
From Flocq Require Import Core.
From Coq Require Import Lra Lia.
Local Open Scope R_scope.

(** ** Apotome: the cut-off is the whole number nearest to size * px / (wl / na / 4) / 2, whatever the oversampling, unless that is within a
    relative 2^-48 of a tie; the column read is half of it, rounded down; next to a tie the cut-off is off by at most one. *)
Theorem C105_apotome_cutoff : forall (size k : Z) (px wl na : R),
  (1 <= size <= 2 ^ 30)%Z -> (1 <= k <= 2 ^ 20)%Z -> rng px -> rng wl -> rng na ->
  clear_of_ties (bpow radix2 (-48)) (cutoff size px wl na) ->
  nearest (cutoff size px wl na) (fl_abbe_limit size k px wl na) /\
  fl_apotome_column size k px wl na = (rint (cutoff size px wl na) / 2)%Z.
Proof.
  intros size k px wl na Hs Hk Hp Hw Hn Hc. destruct (abbe_near size k px wl na Hs Hk Hp Hw Hn) as (y & E & N). apply near_rel in N; [|lra].
  unfold fl_apotome_column. rewrite E, (rint_stable _ _ _ (bpow_ge_0 _ _) N Hc). split; [|reflexivity]. now apply (rint_nearest (bpow radix2 (-48))); [apply bpow_ge_0|].
Qed.
Print Assumptions C105_apotome_cutoff.
Theorem C105_apotome_within_one : forall (size k : Z) (px wl na : R),
  (1 <= size <= 2 ^ 30)%Z -> (1 <= k <= 2 ^ 20)%Z -> rng px -> rng wl -> rng na -> cutoff size px wl na <= 2 ^ 40 ->
  (Z.abs (fl_abbe_limit size k px wl na - rint (cutoff size px wl na)) <= 1)%Z /\
  Rabs (IZR (fl_abbe_limit size k px wl na) - cutoff size px wl na) <= / 2 + / 256.
Proof.
  intros size k px wl na Hs Hk Hp Hw Hn Hc. destruct (abbe_near size k px wl na Hs Hk Hp Hw Hn) as (y & E & N). apply near_rel in N; [|lra].
  assert (C0 : 0 <= cutoff size px wl na). { unfold cutoff. pose proof (rng_pos _ Hp). pose proof (quot_up _ _ Hw Hn). assert (1 <= IZR size) by (apply IZR_le; lia). apply Rmult_le_pos; [|lra]. apply Rmult_le_pos; [nra|]. left. apply Rinv_0_lt_compat. lra. }
  rewrite (Rabs_pos_eq (cutoff size px wl na)) in N by exact C0. assert (P40 : (2:R) ^ 40 = 1099511627776) by lra. rewrite P40 in Hc. change (bpow radix2 (-48)) with (/ 281474976710656) in N.
  rewrite E. split; [apply rint_close; lra|]. pose proof (nearest_even_half y) as H. unfold rint. apply Rabs_le_inv in H, N. apply Rabs_le. lra.
Qed.
Print Assumptions C105_apotome_within_one.

(** ** Confocal: the pinhole is applied exactly when its radius exceeds one pixel and a half, unless the radius is within a relative
    2^-48 of that *)
Theorem C105_pinhole_applies : forall (ph wl na px : R) (k : Z),
  ph = 0 \/ rng ph -> rng wl -> rng na -> rng px -> (1 <= k <= 2 ^ 20)%Z ->
  let r := pinhole ph wl na px k in
  (3 / 2 <= (1 - bpow radix2 (-48)) * r -> fl_pinhole_applies ph wl na px k = true) /\
  ((1 + bpow radix2 (-48)) * r <= 3 / 2 -> fl_pinhole_applies ph wl na px k = false).
Proof.
  intros ph wl na px k H1 H2 H3 H4 H5 r. pose proof (pinhole_near ph wl na px k H1 H2 H3 H4 H5) as (q & Hq & E). fold r in E. unfold fl_pinhole_applies. rewrite E.
  pose proof uu_pos as U. rewrite e48. split; intros H; destruct (Rlt_dec _ _) as [G|G]; try reflexivity; exfalso; nra.
Qed.
Print Assumptions C105_pinhole_applies.
(** ... and its disc: pixels nearer to the centre than the radius by a relative 2^-47 are in it, pixels beyond the radius by a relative 2^-48 are not *)
Theorem C105_pinhole_disc : forall (ph wl na px : R) (k : Z),
  rng ph -> rng wl -> rng na -> rng px -> (1 <= k <= 2 ^ 20)%Z ->
  let r := pinhole ph wl na px k in let r' := fl_pinhole_radius ph wl na px k in let n := fl_disk_size r' in
  r <= 2 ^ 19 ->
  (forall y x, (0 <= y < n)%Z -> (0 <= x < n)%Z ->
    (centre_dist n y x < (1 - bpow radix2 (-47)) * r -> fl_disk_hit r' y x = true) /\
    ((1 + bpow radix2 (-48)) * r <= centre_dist n y x -> fl_disk_hit r' y x = false)) /\
  (forall j : Z, ((1 + bpow radix2 (-48)) * (2 * r) <= IZR j -> (n <= j + 1)%Z) /\ (IZR j <= (1 - bpow radix2 (-48)) * (2 * r) -> (j <= n)%Z)).
Proof.
  intros ph wl na px k H1 H2 H3 H4 H5 r r' n Hr. pose proof (pinhole_near ph wl na px k (or_intror H1) H2 H3 H4 H5) as (q & Hq & E). fold r in E. fold r' in E.
  pose proof uu_pos as U. assert (U53 : uu = / 9007199254740992) by reflexivity.
  assert (R0 : 0 < r). { unfold r, pinhole. pose proof (rng_pos _ H1). pose proof (rng_pos _ H2). pose proof (rng_pos _ H3). pose proof (rng_pos _ H4). assert (0 < IZR k) by (apply IZR_lt; lia).
    apply Rmult_lt_0_compat; [|lra]. apply Rmult_lt_0_compat; [lra|]. repeat (apply Rdiv_lt_0_compat; try lra). }
  assert (P19 : (2:R) ^ 19 = 524288) by lra. assert (P20 : (2:R) ^ 20 = 1048576) by lra. rewrite P19 in Hr.
  assert (F : is_float r') by apply rnd64_float. assert (R1 : 0 < r' <= 2 ^ 20) by (rewrite P20, E, U53 in *; nra).
  destruct (C97_pinhole r' F R1) as (Sz & Hit & _). fold n in Sz, Hit. rewrite e48. change (bpow radix2 (-53)) with uu in Hit. change (bpow radix2 (-47)) with (/ 140737488355328).
  split.
  - intros y x Hy Hx. destruct (Hit y x Hy Hx) as (A & B & _). split; intros H.
    + apply B. rewrite E. eapply Rlt_le_trans; [exact H|]. rewrite U53 in *. nra.
    + destruct (fl_disk_hit r' y x); [|reflexivity]. specialize (A eq_refl). exfalso. rewrite E in A. rewrite U53 in *. nra.
  - intros j. rewrite Sz. unfold disk_size. split; intros H.
    + assert (C : (Zceil (r' * 2) <= j)%Z) by (apply Zceil_glb; rewrite E; rewrite U53 in *; nra). destruct (_ =? 0)%Z; lia.
    + assert (C : (j <= Zceil (r' * 2))%Z). { apply le_IZR. eapply Rle_trans; [|apply Zceil_ub]. rewrite E. rewrite U53 in *. nra. } destruct (_ =? 0)%Z; lia.
Qed.
Print Assumptions C105_pinhole_disc.
(** the radius meant here is that of the exact model *)
Theorem C105_pinhole_meaning : forall (ph wl na px : R) (k : Z), pinhole ph wl na px k = S_Confocal.pinhole_radius ph wl na (px / IZR k).
Proof. intros. unfold pinhole, S_Confocal.pinhole_radius, Rdiv. ring. Qed.
Print Assumptions C105_pinhole_meaning.

(** ** Plots: the window is the one of exact arithmetic unless a width is next to a tie (a relative 2^-48 laterally, 2^-20 axially, where
    ni - sqrt(ni^2 - na^2) cancels); next to a tie each width is off by at most one *)
Theorem C105_plot_window : forall (sq : R -> R) (wl na ni pz px : R) (at_ : list Z), monotone_square sq -> accurate_square sq ->
  rng wl -> rng ni -> rng na -> ni / 1024 <= na <= ni -> rng pz -> rng px ->
  clear_of_ties (bpow radix2 (-48)) (lateral_width wl na px) -> clear_of_ties (bpow radix2 (-20)) (axial_width wl na ni pz) ->
  fl_window sq wl na ni pz px at_ = r_slice_maker at_ [axial_width wl na ni pz; lateral_width wl na px; lateral_width wl na px].
Proof.
  intros sq wl na ni pz px at_ Hm Ha Hw Hi Hn Hr Hz Hp C1 C2. unfold fl_window.
  pose proof (near_rel 12 _ _ ltac:(lra) (lateral_near wl na px Hw Hn Hp)) as N1. destruct (axial_near sq Hm Ha ni na Hi Hr wl pz Hw Hz) as [N2 X2]. rewrite <- (Rabs_pos_eq (axial_width wl na ni pz)) in N2 at 2 by lra.
  assert (L0 : 0 < lateral_width wl na px). { unfold lateral_width. pose proof (rng_pos _ Hw). pose proof (rng_pos _ Hn). pose proof (rng_pos _ Hp). apply Rmult_lt_0_compat; [lra|]. repeat (apply Rdiv_lt_0_compat; try lra). }
  assert (W1 : 0 <= fl_lateral wl na px). { rewrite (Rabs_pos_eq (lateral_width wl na px)) in N1 by lra. apply Rabs_le_inv in N1. change (bpow radix2 (-48)) with (/ 281474976710656) in N1. lra. }
  assert (W2 : 0 <= fl_axial sq wl na ni pz). { rewrite (Rabs_pos_eq (axial_width wl na ni pz)) in N2 by lra. apply Rabs_le_inv in N2. change (bpow radix2 (-20)) with (/ 1048576) in N2. lra. }
  unfold r_slice_maker. cbn [List.length existsb map]. rewrite (rint_stable _ _ _ (bpow_ge_0 _ _) N1 C1), (rint_stable _ _ _ (bpow_ge_0 _ _) N2 C2).
  assert (G : forall w, 0 <= w -> (if Rlt_dec w 0 then true else false) = false) by (intros w Hw'; destruct (Rlt_dec w 0); [lra|reflexivity]).
  rewrite !G by lra. reflexivity.
Qed.
Print Assumptions C105_plot_window.
Theorem C105_plot_widths : forall (sq : R -> R) (wl na ni pz px : R), monotone_square sq -> accurate_square sq ->
  rng wl -> rng ni -> rng na -> ni / 1024 <= na <= ni -> rng pz -> rng px ->
  (lateral_width wl na px <= 2 ^ 40 -> (Z.abs (rint (fl_lateral wl na px) - rint (lateral_width wl na px)) <= 1)%Z) /\
  (axial_width wl na ni pz < 2 ^ 20 -> (Z.abs (rint (fl_axial sq wl na ni pz) - rint (axial_width wl na ni pz)) <= 1)%Z).
Proof.
  intros sq wl na ni pz px Hm Ha Hw Hi Hn Hr Hz Hp.
  pose proof (near_rel 12 _ _ ltac:(lra) (lateral_near wl na px Hw Hn Hp)) as N1. destruct (axial_near sq Hm Ha ni na Hi Hr wl pz Hw Hz) as [N2 X2].
  assert (L0 : 0 < lateral_width wl na px). { unfold lateral_width. pose proof (rng_pos _ Hw). pose proof (rng_pos _ Hn). pose proof (rng_pos _ Hp). apply Rmult_lt_0_compat; [lra|]. repeat (apply Rdiv_lt_0_compat; try lra). }
  rewrite (Rabs_pos_eq (lateral_width wl na px)) in N1 by lra. split; intros H; apply rint_close; (eapply Rle_lt_trans; [eassumption|]).
  - assert (P40 : (2:R) ^ 40 = 1099511627776) by lra. rewrite P40 in H. change (bpow radix2 (-48)) with (/ 281474976710656). lra.
  - assert (P20 : (2:R) ^ 20 = 1048576) by lra. rewrite P20 in H. change (bpow radix2 (-20)) with (/ 1048576). lra.
Qed.
Print Assumptions C105_plot_widths.
(** the widths meant are those of the exact model of the plots *)
Theorem C105_plot_meaning : forall wl na ni px, 0 < wl -> 0 < na <= ni -> 0 < px ->
  lateral_extent wl na px = Ok (lateral_width wl na px) /\ axial_extent wl na ni px = Ok (axial_width wl na ni px).
Proof.
  intros wl na ni px Hw Hn Hp. unfold lateral_extent, axial_extent, pdiv.
  destruct (Req_EM_T na 0); [lra|]. cbn [bind]. destruct (Req_EM_T px 0); [lra|]. cbn [bind]. split; f_equal; unfold lateral_width, axial_width, Rdiv; [rewrite Rinv_mult|]; ring.
Qed.
Print Assumptions C105_plot_meaning.

(** *** the hypotheses are met: half a micrometre, na 1.4, ni 1.5, pixels of a tenth of a micrometre *)
Lemma usual v : / 1024 <= v <= 1024 -> rng v.
Proof. intros H. split; [apply Rle_trans with (bpow radix2 (-10)); [apply bpow_le; lia|change (bpow radix2 (-10)) with (/ 1024); lra]|apply Rle_trans with (bpow radix2 10); [change (bpow radix2 10) with 1024; lra|apply bpow_le; lia]]. Qed.
Lemma clear_by e x n : IZR n - 2 / 5 <= x <= IZR n + 2 / 5 -> e * Rabs x < / 10 -> clear_of_ties e x.
Proof.
  intros H E z. eapply Rlt_le_trans; [exact E|]. destruct (Z_lt_le_dec z n) as [L|L].
  - assert (IZR z <= IZR n - 1) by (rewrite <- minus_IZR; apply IZR_le; lia). rewrite Rabs_pos_eq; lra.
  - apply IZR_le in L. rewrite Rabs_left1; lra.
Qed.
Example C105_apotome_case : forall k, (1 <= k <= 2 ^ 20)%Z -> fl_abbe_limit 256 k (1 / 10) (1 / 2) (7 / 5) = 143%Z /\ fl_apotome_column 256 k (1 / 10) (1 / 2) (7 / 5) = 71%Z.
Proof.
  intros k Hk. assert (C : cutoff 256 (1 / 10) (1 / 2) (7 / 5) = 3584 / 25) by (unfold cutoff; field).
  assert (R1 : rint (3584 / 25) = 143%Z) by (apply rint_unique, Rabs_lt; lra).
  destruct (C105_apotome_cutoff 256 k (1 / 10) (1 / 2) (7 / 5)) as [A B]; try lia; try (apply usual; lra).
  - rewrite C. apply (clear_by _ _ 143); [lra|]. change (bpow radix2 (-48)) with (/ 281474976710656). rewrite Rabs_pos_eq; lra.
  - rewrite C in A, B. rewrite R1 in B. split; [|exact B]. unfold nearest in A. apply Rabs_lt_inv in A. set (m := fl_abbe_limit _ _ _ _ _) in *. clearbody m.
    assert (I : 142 < IZR m < 144) by lra. destruct I as [I J]. apply lt_IZR in I, J. lia.
Qed.
Example C105_pinhole_case : fl_pinhole_applies 1 (1 / 2) (7 / 5) (1 / 10) 1 = true /\ fl_pinhole_applies (1 / 2) (1 / 2) (7 / 5) (1 / 10) 1 = false.
Proof.
  change (bpow radix2 (-48)) with (/ 281474976710656).
  split; apply C105_pinhole_applies; try (right; apply usual; lra); try (apply usual; lra); try lia; change (bpow radix2 (-48)) with (/ 281474976710656); unfold pinhole; lra.
Qed.
Example C105_window_case :
  fl_window round_square (1 / 2) (7 / 5) (3 / 2) (1 / 10) (1 / 10) [50; 60; 60]%Z = r_slice_maker [50; 60; 60]%Z [axial_width (1 / 2) (7 / 5) (3 / 2) (1 / 10); lateral_width (1 / 2) (7 / 5) (1 / 10); lateral_width (1 / 2) (7 / 5) (1 / 10)]
  /\ rint (axial_width (1 / 2) (7 / 5) (3 / 2) (1 / 10)) = 83%Z /\ rint (lateral_width (1 / 2) (7 / 5) (1 / 10)) = 57%Z.
Proof.
  assert (L : 57 <= lateral_width (1 / 2) (7 / 5) (1 / 10) <= 57 + 2 / 5) by (unfold lateral_width; lra).
  assert (D : 538 / 1000 <= sqrt ((3 / 2) ^ 2 - (7 / 5) ^ 2) <= 539 / 1000).
  { replace ((3 / 2) ^ 2 - (7 / 5) ^ 2) with (29 / 100) by field. split.
    - rewrite <- (sqrt_square (538 / 1000)) by lra. apply sqrt_le_1_alt. lra.
    - rewrite <- (sqrt_square (539 / 1000)) by lra. apply sqrt_le_1_alt. lra. }
  assert (A : 83 <= axial_width (1 / 2) (7 / 5) (3 / 2) (1 / 10) <= 83 + 2 / 5).
  { unfold axial_width. set (s := sqrt _) in *. clearbody s. replace (16 * (1 / 2 / (3 / 2 - s) / (1 / 10))) with (80 / (3 / 2 - s)) by (field; lra).
    split; apply Rmult_le_reg_r with (3 / 2 - s); try lra; unfold Rdiv at 1 3 || idtac.
    - unfold Rdiv. rewrite (Rmult_assoc 80), Rinv_l by lra. lra.
    - unfold Rdiv at 1. rewrite (Rmult_assoc 80), Rinv_l by lra. lra. }
  split; [|split; apply rint_unique, Rabs_lt; lra].
  apply C105_plot_window; [apply square_monotone|apply square_accurate| | | |lra| | | |]; try (apply usual; lra).
  - apply (clear_by _ _ 57); [lra|]. change (bpow radix2 (-48)) with (/ 281474976710656). rewrite Rabs_pos_eq; lra.
  - apply (clear_by _ _ 83); [lra|]. change (bpow radix2 (-20)) with (/ 1048576). rewrite Rabs_pos_eq; lra.
Qed.
