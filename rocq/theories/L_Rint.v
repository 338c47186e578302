(** Rounding a slightly wrong length. *)
From Verif Require Import M_Float3 S_Float3 L_Float L_Float3 L_Near L_Noll L_Shell T_Float2.
From Flocq Require Import Core.
From Coq Require Import Lra Lia.
Local Open Scope R_scope.

Lemma nearest_even_half x : Rabs (x - IZR (ZnearestE x)) <= / 2.
Proof. apply Znearest_half. Qed.
(** a whole number within a half of x, strictly, is what rint gives *)
Lemma rint_unique x n : Rabs (x - IZR n) < / 2 -> rint x = n.
Proof. intros H. apply Znearest_imp. exact H. Qed.
Lemma rint_stable e x y : 0 <= e -> Rabs (y - x) <= e * Rabs x -> clear_of_ties e x -> rint y = rint x.
Proof.
  intros He Hy Hc. unfold rint. set (n := ZnearestE x). apply Znearest_imp. pose proof (nearest_even_half x) as H. fold n in H.
  pose proof (Hc n) as A. pose proof (Hc (n - 1)%Z) as B. rewrite minus_IZR in B. apply Rabs_le_inv in H, Hy.
  set (t := e * Rabs x) in *. clearbody t. apply Rabs_lt.
  assert (A' : x - IZR n < / 2 - t). { revert A. unfold Rabs. destruct (Rcase_abs _); lra. }
  assert (B' : - / 2 + t < x - IZR n). { revert B. unfold Rabs. destruct (Rcase_abs _); lra. }
  lra.
Qed.
Lemma rint_nearest e x : 0 <= e -> clear_of_ties e x -> nearest x (rint x).
Proof.
  intros He Hc. unfold nearest, rint. set (n := ZnearestE x). pose proof (nearest_even_half x) as H. fold n in H.
  pose proof (Hc n) as A. pose proof (Hc (n - 1)%Z) as B. rewrite minus_IZR in B. pose proof (Rabs_pos x) as P. assert (0 <= e * Rabs x) by (apply Rmult_le_pos; lra).
  set (t := e * Rabs x) in *. clearbody t. apply Rabs_le_inv in H. apply Rabs_lt.
  assert (A' : x - IZR n < / 2). { revert A. unfold Rabs. destruct (Rcase_abs _); lra. }
  assert (B' : - / 2 < x - IZR n). { revert B. unfold Rabs. destruct (Rcase_abs _); lra. }
  lra.
Qed.
Lemma rint_close x y : Rabs (y - x) < 1 -> (Z.abs (rint y - rint x) <= 1)%Z.
Proof.
  intros H. pose proof (nearest_even_half x) as A. pose proof (nearest_even_half y) as B. unfold rint. set (n := ZnearestE x) in *. set (m := ZnearestE y) in *.
  apply Rabs_le_inv in A, B. apply Rabs_lt_inv in H. assert (- 2 < IZR m - IZR n < 2) by lra. rewrite <- minus_IZR in H0. destruct H0 as [H1 H2]. apply lt_IZR in H1, H2. lia.
Qed.
Lemma e48 : bpow radix2 (-48) = 32 * uu. Proof. unfold uu. change (bpow radix2 (-48)) with (/ 281474976710656). lra. Qed.
Lemma near_rel k x y : 0 <= k <= 32 -> near k x y -> Rabs (y - x) <= bpow radix2 (-48) * Rabs x.
Proof.
  intros Hk N. apply near_abs_err in N. eapply Rle_trans; [exact N|]. rewrite e48. apply Rmult_le_compat_r; [apply Rabs_pos|]. pose proof uu_pos. nra.
Qed.

(** products and quotients of ordinary lengths stay far from underflow *)
Definition big (a : Z) (x : R) : Prop := bpow radix2 a <= x.
Lemma big_pos a x : big a x -> 0 < x. Proof. intros H. eapply Rlt_le_trans; [apply bpow_pos|exact H]. Qed.
Lemma big_mult a b x y : big a x -> big b y -> big (a + b) (x * y).
Proof. intros A B. unfold big. rewrite bpow_plus. apply Rmult_le_compat; try apply bpow_ge_0; assumption. Qed.
Lemma big_div a b x y : big a x -> 0 < y <= bpow radix2 b -> big (a - b) (x / y).
Proof.
  intros A [B1 B2]. unfold big, Rdiv, Z.sub. rewrite bpow_plus. apply Rmult_le_compat; try apply bpow_ge_0; [exact A|]. rewrite bpow_opp. apply Rinv_le_contravar; assumption.
Qed.
Lemma big_weaken a b x : (b <= a)%Z -> big a x -> big b x.
Proof. intros H A. eapply Rle_trans; [apply bpow_le; exact H|exact A]. Qed.
Lemma rng_big x : rng x -> big (-100) x. Proof. intros [H _]. exact H. Qed.
Lemma rng_div x y a : big a x -> rng y -> big (a - 100) (x / y).
Proof. intros A B. apply big_div; [exact A|]. split; [now apply rng_pos|apply B]. Qed.
Lemma step_rnd k x y : small k -> near k x y -> big (-1000) x -> near (k + 2) x (rnd64 y).
Proof. apply near_rnd_pos. Qed.
Lemma step_div a b x y x' y' : 0 <= a <= 100 -> 0 <= b <= 100 -> near a x x' -> near b y y' -> big (-1000) (x / y) -> near (a + b + 3) (x / y) (rnd64 (x' / y')).
Proof. intros Ha Hb Nx Ny B. replace (a + b + 3) with (a + b + 1 + 2) by ring. apply step_rnd; [sm|apply near_div; [sm|sm|exact Nx|exact Ny]|exact B]. Qed.
Lemma step_mult a b x y x' y' : 0 <= a <= 100 -> 0 <= b <= 100 -> near a x x' -> near b y y' -> big (-1000) (x * y) -> near (a + b + 3) (x * y) (rnd64 (x' * y')).
Proof. intros Ha Hb Nx Ny B. replace (a + b + 3) with (a + b + 1 + 2) by ring. apply step_rnd; [sm|apply near_mult; [sm|sm|exact Nx|exact Ny]|exact B]. Qed.
Lemma nr x : near 0 x x. Proof. apply near_refl. lra. Qed.
Lemma div_exact a b x x' c : 0 <= a <= 100 -> near a x x' -> 0 < c <= bpow radix2 b -> big (-1000) (x / c) -> near (a + 3) (x / c) (rnd64 (x' / c)).
Proof. intros Ha N Hc B. replace (a + 3) with (a + 0 + 3) by ring. apply step_div; try lra; [exact N|apply nr|exact B]. Qed.
Lemma two : 0 < 2 <= bpow radix2 1. Proof. change (bpow radix2 1) with 2. lra. Qed.
Lemma four : 0 < 4 <= bpow radix2 2. Proof. change (bpow radix2 2) with 4. lra. Qed.
Lemma rng_up x : rng x -> 0 < x <= bpow radix2 100. Proof. intros H. split; [now apply rng_pos|apply H]. Qed.
Lemma quot_up x y : rng x -> rng y -> 0 < x / y <= bpow radix2 200.
Proof.
  intros X Y. pose proof (rng_pos _ X) as P2. pose proof (rng_pos _ Y) as P3. split; [now apply Rdiv_lt_0_compat|]. destruct X as [_ W2], Y as [N1 _].
  change 200%Z with (100 + 100)%Z. rewrite bpow_plus. apply Rmult_le_compat; [lra|left; now apply Rinv_0_lt_compat|exact W2|]. change (bpow radix2 100) with (bpow radix2 (- - 100)). rewrite bpow_opp. apply Rinv_le_contravar; [apply bpow_pos|exact N1].
Qed.

Ltac stp := solve [lra | apply nr | assumption | now apply rng_up | apply two | apply four | match goal with B : big _ ?x |- big _ ?x => eapply big_weaken; [|exact B]; lia end].
(** psf_params["res"] *)
Lemma model_res_near px k : rng px -> (1 <= k <= 2 ^ 20)%Z -> near 3 (px / IZR k) (fl_model_res px k) /\ big (-120) (px / IZR k).
Proof.
  intros Hp Hk. assert (K : 0 < IZR k <= bpow radix2 20). { split; [apply IZR_lt; lia|]. change (bpow radix2 20) with (IZR (2 ^ 20)). apply IZR_le. lia. }
  assert (B : big (-120) (px / IZR k)) by (apply (big_div (-100) 20); [now apply rng_big|exact K]). split; [|exact B].
  unfold fl_model_res. destruct (Z.eqb_spec k 1) as [->|N].
  - apply near_weaken with 0; [lra|]. replace (px / 1) with px by field. apply nr.
  - replace 3 with (0 + 3) by ring. apply (div_exact 0 20); try stp.
Qed.
(** the Apotome's cut-off before rint *)
Lemma abbe_near size k px wl na : (1 <= size <= 2 ^ 30)%Z -> (1 <= k <= 2 ^ 20)%Z -> rng px -> rng wl -> rng na ->
  exists y, fl_abbe_limit size k px wl na = rint y /\ near 18 (cutoff size px wl na) y.
Proof.
  intros Hs Hk Hp Hw Hn. pose proof (rng_pos _ Hp) as P1. pose proof (rng_pos _ Hw) as P2. pose proof (rng_pos _ Hn) as P3.
  destruct (model_res_near px k Hp Hk) as [Nr Br]. eexists. split; [reflexivity|].
  assert (K : 0 < IZR k) by (apply IZR_lt; lia). assert (S0 : 1 <= IZR size) by (apply IZR_le; lia).
  assert (SK : big 0 (IZR (size * k))) by (unfold big; change (bpow radix2 0) with 1; apply IZR_le; nia).
  assert (Bq : big (-200) (wl / na)) by (apply (rng_div wl na (-100)); [now apply rng_big|exact Hn]).
  assert (Nn : near 6 (wl / na / 4) (fl_nyquist wl na)).
  { unfold fl_nyquist. replace 6 with (3 + 3) by ring. apply (div_exact 3 2); try stp.
    - replace 3 with (0 + 3) by ring. apply (div_exact 0 100); try stp.
    - apply big_weaken with (-202)%Z; [lia|]. apply (big_div (-200) 2); [exact Bq|apply four]. }
  assert (Bs : big (-120) (IZR (size * k) * (px / IZR k))) by (apply (big_mult 0 (-120)); auto).
  assert (Ns : near 6 (IZR (size * k) * (px / IZR k)) (rnd64 (IZR (fl_model_size size k) * fl_model_res px k))).
  { replace 6 with (0 + 3 + 3) by ring. apply step_mult; try stp. }
  assert (Un : 0 < wl / na / 4 <= bpow radix2 200). { pose proof (quot_up _ _ Hw Hn). lra. }
  assert (Bx : big (-320) (IZR (size * k) * (px / IZR k) / (wl / na / 4))) by (apply (big_div (-120) 200); auto).
  assert (By : big (-321) (IZR (size * k) * (px / IZR k) / (wl / na / 4) / 2)) by (apply (big_div (-320) 1); [exact Bx|apply two]).
  replace (cutoff size px wl na) with (IZR (size * k) * (px / IZR k) / (wl / na / 4) / 2).
  2:{ unfold cutoff. rewrite mult_IZR. field. lra. }
  replace 18 with (15 + 3) by ring. apply (div_exact 15 1); try stp.
  replace 15 with (6 + 6 + 3) by ring. apply step_div; try stp.
Qed.
(** the radius of the pinhole *)
Lemma pinhole_near ph wl na px k : ph = 0 \/ rng ph -> rng wl -> rng na -> rng px -> (1 <= k <= 2 ^ 20)%Z ->
  near 20 (pinhole ph wl na px k) (fl_pinhole_radius ph wl na px k).
Proof.
  intros Hph Hw Hn Hp Hk. destruct (model_res_near px k Hp Hk) as [Nr Br]. unfold fl_pinhole_radius, fl_airy_unit, pinhole.
  destruct Hph as [-> | Hph].
  - replace (0 * _ / 2) with 0 by (unfold Rdiv; ring). rewrite !Rmult_0_l, rnd64_0. replace (0 / 2) with 0 by field. rewrite rnd64_0. apply near_refl. lra.
  - set (c := 122 / 100). assert (C : big (-1) c) by (unfold big, c; change (bpow radix2 (-1)) with (/ 2); lra).
    assert (Nc : near 2 c (rnd64 c)). { replace 2 with (0 + 2) by ring. apply step_rnd; [sm|apply nr|]. eapply big_weaken; [|exact C]. lia. }
    assert (B1 : big (-101) (c * wl)) by (apply (big_mult (-1) (-100)); [exact C|now apply rng_big]).
    assert (N1 : near 5 (c * wl) (rnd64 (rnd64 c * wl))). { replace 5 with (2 + 0 + 3) by ring. apply step_mult; try stp. }
    assert (B2 : big (-201) (c * wl / na)) by (apply (rng_div _ _ (-101)); auto).
    assert (N2 : near 8 (c * wl / na) (rnd64 (rnd64 (rnd64 c * wl) / na))). { replace 8 with (5 + 3) by ring. apply (div_exact 5 100); try stp. }
    assert (U : 0 < px / IZR k <= bpow radix2 100). { split; [now apply big_pos with (-120)%Z|]. destruct Hp as [A B]. pose proof (bpow_pos (-100)). assert (1 <= IZR k) by (apply IZR_le; lia). apply Rle_trans with (px / 1); [|lra]. apply Rmult_le_compat_l; [lra|]. apply Rinv_le_contravar; lra. }
    assert (B3 : big (-301) (c * wl / na / (px / IZR k))) by (apply (big_div (-201) 100); auto).
    assert (N3 : near 14 (c * wl / na / (px / IZR k)) (rnd64 (rnd64 (rnd64 (rnd64 c * wl) / na) / fl_model_res px k))). { replace 14 with (8 + 3 + 3) by ring. apply step_div; try stp. }
    assert (B4 : big (-401) (ph * (c * wl / na / (px / IZR k)))) by (apply (big_mult (-100) (-301)); [now apply rng_big|exact B3]).
    replace 20 with (17 + 3) by ring. apply (div_exact 17 1); try stp.
    + replace 17 with (0 + 14 + 3) by ring. apply step_mult; try stp.
    + apply big_weaken with (-402)%Z; [lia|]. apply (big_div (-401) 1); [exact B4|apply two].
Qed.
(** the lateral width of a plot *)
Lemma lateral_near wl na px : rng wl -> rng na -> rng px -> near 12 (lateral_width wl na px) (fl_lateral wl na px).
Proof.
  intros Hw Hn Hp. pose proof (rng_pos _ Hp) as P1. pose proof (rng_pos _ Hw) as P2. pose proof (rng_pos _ Hn) as P3. unfold fl_lateral.
  assert (B1 : big (-101) (wl / 2)) by (apply (big_div (-100) 1); [now apply rng_big|apply two]).
  assert (B2 : big (-201) (wl / 2 / na)) by (apply (rng_div _ _ (-101)); auto).
  assert (B3 : big (-301) (wl / 2 / na / px)) by (apply (rng_div _ _ (-201)); auto).
  assert (B4 : big (-301) (wl / 2 / na / px * 32)) by (apply (big_mult (-301) 0); [exact B3|unfold big; change (bpow radix2 0) with 1; lra]).
  replace (lateral_width wl na px) with (wl / 2 / na / px * 32) by (unfold lateral_width; field; lra).
  replace 12 with (9 + 0 + 3) by ring. apply step_mult; try stp.
  replace 9 with (6 + 3) by ring. apply (div_exact 6 100); try stp.
  replace 6 with (3 + 3) by ring. apply (div_exact 3 100); try stp.
  replace 3 with (0 + 3) at 1 by ring. apply (div_exact 0 1); try stp.
Qed.
