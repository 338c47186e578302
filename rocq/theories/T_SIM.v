(** C60: the SIM patterns. *)
From Verif Require Import S_FFT S_Hanser S_Micro S_SIM S_Bin L_Sum L_Bin L_PSF L_Ctor L_Phase5 L_Micro T_PSF T_Bin L_Array L_FFT L_FFT2 L_Phase2 L_Polar T_Hanser T_Object T_Micro T_Micro2 T_Micro3 L_Micro2 T_Micro4 T_Micro5 T_Confocal T_Confocal2.
Import M_Array.
Local Open Scope R_scope.

(** ** The fields *)
Lemma two_beams a b : Cplus (cis (- a + b)) (cis (a + b)) = Cmult (RtoC (2 * cos a)) (cis b).
Proof. unfold Cplus, cis, Cmult, RtoC. cbn [fst snd]. rewrite !cos_plus, !sin_plus, cos_neg, sin_neg. f_equal; ring. Qed.
Lemma Cmod2 z : Cmod z ^ 2 = Cnorm2 z.
Proof. rewrite Cnorm2_Cmod. ring. Qed.
Lemma Cnorm2_two (u v : R) (a b : R) : Cnorm2 (Cplus (Cmult (RtoC u) (cis a)) (Cmult (RtoC v) (cis b))) = u ^ 2 + 2 * u * v * cos (a - b) + v ^ 2.
Proof.
  rewrite cos_minus. unfold Cnorm2, Cplus, Cmult, cis, RtoC, Re, Im. cbn [fst snd]. pose proof (sin2_cos2 a) as Ha. pose proof (sin2_cos2 b) as Hb. unfold Rsqr in *.
  replace (u ^ 2) with (u ^ 2 * (sin a * sin a + cos a * cos a)) by (rewrite Ha; ring). replace (v ^ 2) with (v ^ 2 * (sin b * sin b + cos b * cos b)) by (rewrite Hb; ring). ring.
Qed.
Section Fields.
Context (n nz : Z) (xx zz : Z -> R) (freq alpha : R).
Let sh := [nz; n; n].
Definition rot (o : R) (y x : Z) : R := xx x * cos o + xx y * sin o.
Definition lat (o : R) (y x : Z) : R := rot o y x * sin alpha * freq.
Definition tilt (z : Z) : R := zz z * cos alpha * freq.
Lemma add_beams_val o e : shape e = sh -> exists e', add_beams n nz xx zz freq alpha o e = Ok e' /\ shape e' = sh /\
  forall z y x, inb sh [z; y; x] -> get e' [z; y; x] = Cplus (get e [z; y; x]) (Cmult (RtoC (2 * cos (lat o y x))) (cis (tilt z))).
Proof.
  intros Hs. unfold add_beams.
  destruct (ibop_eq Cplus e (wave_pattern n nz xx zz freq o (- alpha))) as (e1 & E1 & S1 & G1); [now rewrite Hs|]. rewrite E1. cbn [bind].
  destruct (ibop_eq Cplus e1 (wave_pattern n nz xx zz freq o alpha)) as (e2 & E2 & S2 & G2); [now rewrite S1, Hs|]. exists e2. split; [exact E2|]. split; [congruence|].
  intros z y x Hi. rewrite G2 by (rewrite S1, Hs; exact Hi). rewrite G1 by (rewrite Hs; exact Hi). cbn [wave_pattern get].
  rewrite <- two_beams. rewrite <- Cplus_assoc. f_equal. f_equal; f_equal; unfold lat, tilt, rot; rewrite ?sin_neg, ?cos_neg; ring.
Qed.
Lemma coherent_val os : forall e, shape e = sh -> exists e', coherent_field n nz xx zz freq alpha os e = Ok e' /\ shape e' = sh /\
  forall z y x, inb sh [z; y; x] -> get e' [z; y; x] = Cplus (get e [z; y; x]) (Cmult (RtoC (Rsum os (fun o => 2 * cos (lat o y x)))) (cis (tilt z))).
Proof.
  induction os as [|o os IH]; intros e Hs.
  - exists e. split; [reflexivity|]. split; [exact Hs|]. intros z y x _. cbn [Rsum]. rewrite Cmult_0_l, Cplus_0_r. reflexivity.
  - cbn [coherent_field]. destruct (add_beams_val o e Hs) as (e1 & -> & S1 & G1). cbn [bind]. destruct (IH e1 S1) as (e2 & E2 & S2 & G2). exists e2. split; [exact E2|]. split; [exact S2|].
    intros z y x Hi. rewrite G2, G1 by exact Hi. cbn [Rsum]. rewrite RtoC_plus. ring.
Qed.
Lemma incoherent_val psf base os : shape psf = sh -> shape base = sh -> forall s, shape s = sh ->
  exists r, incoherent n nz xx zz freq alpha psf base os s = Ok r /\ shape r = sh /\
  forall z y x, inb sh [z; y; x] -> get r [z; y; x] = get s [z; y; x] + get psf [z; y; x] * Rsum os (fun o => Cnorm2 (Cplus (get base [z; y; x]) (Cmult (RtoC (2 * cos (lat o y x))) (cis (tilt z))))).
Proof.
  intros Hp Hb. induction os as [|o os IH]; intros s Hs.
  - exists s. split; [reflexivity|]. split; [exact Hs|]. intros. cbn [Rsum]. ring.
  - cbn [incoherent]. destruct (add_beams_val o base Hb) as (e1 & -> & S1 & G1). cbn [bind]. unfold apply_pattern at 1.
    destruct (bop_eq (fun p v => p * Cmod v ^ 2) psf e1) as (q & -> & Sq & Gq); [congruence|]. cbn [bind].
    destruct (ibop_eq Rplus s q) as (s1 & -> & Ss & Gs); [congruence|]. cbn [bind]. destruct (IH s1) as (r & Er & Sr & Gr); [congruence|]. exists r. split; [exact Er|]. split; [exact Sr|].
    intros z y x Hi. rewrite Gr by exact Hi. rewrite Gs by (rewrite Hs; exact Hi). rewrite Gq by (rewrite Hp; exact Hi). rewrite G1 by exact Hi. cbn [Rsum]. rewrite Cmod2. ring.
Qed.
End Fields.

(** ** The settings, as the program reads them *)
Lemma par_R_val m k x : finite_number (option_map as_val (dget (mi_params m) k)) x -> par_R (mi_params m) k = Ok x.
Proof. intros (w & q & E & N & ->). unfold par_R, par_val. destruct (dget _ _); [|discriminate]. cbn [option_map] in E. injection E as ->. cbn [bind]. unfold as_R. now rewrite N. Qed.
Lemma par_Z_val m k z : (exists v, option_map as_val (dget (mi_params m) k) = Some v /\ int_value v = Some z) -> par_Z (mi_params m) k = Ok z.
Proof.
  intros (v & E & Hv). unfold par_Z, par_val. destruct (dget _ _); [|discriminate]. cbn [option_map] in E. injection E as ->. cbn [bind]. destruct (int_value_as v z Hv) as (A & _ & _). unfold as_Z. destruct v; try discriminate; now rewrite A.
Qed.
Lemma as_R_val v w x : v = Some w -> finite_number v x -> as_R w = Ok x.
Proof. intros -> (u & q & [= <-] & N & ->). unfold as_R. now rewrite N. Qed.

(** What the code calls alpha and freq. *)
Section Beams.
Context (B : beams) (Hni : 0 < b_ni B) (Hna : 0 <= b_na B <= b_ni B) (Hwl : b_wl B <> 0).
Let freq := 2 * PI * b_ni B / b_wl B.
Let alpha := asin (b_na B / b_ni B).
Lemma ratio : 0 <= b_na B / b_ni B <= 1.
Proof. split; [apply Rmult_le_pos; [lra|apply Rlt_le, Rinv_0_lt_compat; lra]|]. apply Rmult_le_reg_r with (b_ni B); [lra|]. unfold Rdiv. rewrite Rmult_assoc, Rinv_l by lra. lra. Qed.
Lemma sin_alpha : sin alpha = b_na B / b_ni B.
Proof. apply sin_asin. pose proof ratio. lra. Qed.
Lemma cos_alpha : cos alpha * b_ni B = sqrt (b_ni B ^ 2 - b_na B ^ 2).
Proof.
  unfold alpha. rewrite cos_asin by (pose proof ratio; lra). unfold Rsqr.
  replace (b_ni B ^ 2 - b_na B ^ 2) with ((1 - b_na B / b_ni B * (b_na B / b_ni B)) * (b_ni B * b_ni B)) by (field; lra).
  rewrite sqrt_mult_alt; [|pose proof ratio; nra]. rewrite sqrt_square by lra. reflexivity.
Qed.
Lemma lat_across o y x : lat (centred (b_n B) (b_dx B)) freq alpha o y x = across B o y x.
Proof. unfold lat, rot, across. rewrite sin_alpha. unfold freq, centred, coord. field. lra. Qed.
Lemma tilt_along z : centred (b_nz B) (b_dz B) z * freq - tilt (centred (b_nz B) (b_dz B)) freq alpha z = along B z.
Proof.
  unfold tilt, along. rewrite <- cos_alpha. unfold freq, centred, coord. field. auto.
Qed.
End Beams.

(** ** C60 *)
Definition okeeps {A} (c : MM A) : Prop := forall m, mi_orient (snd (c m)) = mi_orient m.
Lemma okeeps_bind {A B} (c : MM A) (f : A -> MM B) : okeeps c -> (forall x, okeeps (f x)) -> okeeps (mbind c f).
Proof. intros H1 H2 q. unfold mbind. specialize (H1 q). destruct (c q) as [[x|e] q']; cbn [snd] in *; [rewrite H2|]; exact H1. Qed.
Lemma base_orient : okeeps sim_base.
Proof.
  assert (H1 : okeeps model_PSFi) by (intros q; unfold model_PSFi; destruct (read _ _ _ _); reflexivity). assert (H2 : okeeps model_OTFi) by (intros q; unfold model_OTFi; destruct (read _ _ _ _); reflexivity).
  unfold sim_base. repeat match goal with |- okeeps (mbind _ _) => apply okeeps_bind; [|intros ?] | |- okeeps model_PSFi => exact H1 | |- okeeps model_OTFi => exact H2
    | |- okeeps (mret _) => intros ?; reflexivity | |- okeeps (mlift _) => intros ?; reflexivity | |- okeeps (masks _) => intros ?; reflexivity
    | |- okeeps (if ?c then _ else _) => destruct c | |- okeeps (match ?c with _ => _ end) => destruct c end.
Qed.
Lemma sim_run m B p b coh dc sup :
  mi_kind m = SIM -> settings B m -> switches m coh dc sup -> 0 < b_ni B -> 0 <= b_na B <= b_ni B -> b_wl B <> 0 ->
  fst (sim_base m) = Ok (p, b) ->
  let freq := 2 * PI * b_ni B / b_wl B in let alpha := asin (b_na B / b_ni B) in
  let xx := centred (b_n B) (b_dx B) in let zz := centred (b_nz B) (b_dz B) in
  let base := base_pattern dc (b_nz B) zz freq (shape p) in let os := mi_orient m in
  fst (model_psf m) = (if coh then do r <- coherent (b_n B) (b_nz B) xx zz freq alpha p base os; Ok (r, b)
     else do r <- incoherent (b_n B) (b_nz B) xx zz freq alpha p base os (amap (fun _ => 0) p);
          if sup then do r <- ibop (fun a p => a - (2 * INR (List.length os) - 1) * p) r p; Ok (r, b) else Ok (r, b)).
Proof.
  intros Hk (P1 & P2 & P3 & P4 & P5 & P6 & P7) (W1 & W2 & W3) Hni Hna Hwl Hb. cbv zeta. unfold model_psf. rewrite Hk. unfold sim_psf.
  unfold mbind at 1, masks at 1. unfold mbind at 1, mlift at 1. rewrite (par_Z_val m _ _ P1). unfold mbind at 1, mlift at 1. rewrite (par_R_val m _ _ P3).
  unfold mbind at 1, mlift at 1. rewrite (par_Z_val m _ _ P2). unfold mbind at 1, mlift at 1. rewrite (par_R_val m _ _ P4). unfold mbind at 1, mlift at 1. rewrite (par_R_val m _ _ P5).
  destruct P6 as (w & qw & E1 & E2 & E3). unfold mbind at 1, m_get at 1. rewrite E1. unfold mbind at 1, mlift at 1, as_R at 1. rewrite E2. cbn [fl_R]. rewrite <- E3.
  unfold mbind at 1, mlift at 1, rdiv at 1. destruct (Req_EM_T (b_wl B) 0); [contradiction|].
  destruct P7 as (w' & qw' & E1' & E2' & E3'). unfold mbind at 1, m_get at 1. rewrite E1'. unfold mbind at 1, mlift at 1, as_R at 1. rewrite E2'. cbn [fl_R]. rewrite <- E3'.
  unfold mbind at 1, mlift at 1, rdiv at 1. destruct (Req_EM_T (b_ni B) 0); [lra|]. cbv zeta.
  unfold mbind at 1. assert (SB : stable sim_base) by (unfold sim_base; stable_tac). destruct (SB m) as [_ SN].
  assert (SO : mi_orient (snd (sim_base m)) = mi_orient m) by (apply base_orient).
  destruct (sim_base m) as [rr m']. cbn [fst snd] in Hb, SN, SO. subst rr.
  unfold mbind at 1, m_get at 1. rewrite SN, W2. unfold mbind at 1, m_get at 1. rewrite SN, W1. unfold mbind at 1, m_get at 1. rewrite SN, W3. unfold mbind at 1, masks at 1. rewrite SO. cbn [py_bool fst snd].
  assert (RA : (if Rle_dec (Rabs (b_na B / b_ni B)) 1 then true else match mi_orient m with [] => true | _ => false end) = true).
  { destruct (Rle_dec _ _) as [|N]; [reflexivity|]. exfalso. apply N. pose proof (ratio B Hni Hna). rewrite Rabs_pos_eq by lra. lra. }
  rewrite RA, Bool.andb_true_r. destruct coh; reflexivity.
Qed.
Lemma dbl c : (2 * cos c) ^ 2 = 2 + 2 * cos (2 * c).
Proof. rewrite cos_2a_cos. ring. Qed.
Section Patterns.
Context (m : micro) (B : beams) (p : array R) (b : bool).
Context (Hk : mi_kind m = SIM) (Hs : settings B m) (Hni : 0 < b_ni B) (Hna : 0 <= b_na B <= b_ni B) (Hwl : b_wl B <> 0).
Context (Hb : fst (sim_base m) = Ok (p, b)) (Hsh : shape p = [b_nz B; b_n B; b_n B]).
Let sh := [b_nz B; b_n B; b_n B].
Let os := mi_orient m.
Lemma incoherent_pattern dc sup : switches m false dc sup ->
  exists q, fst (model_psf m) = Ok (q, b) /\ shape q = sh /\ forall z y x, inb sh [z; y; x] ->
    get q [z; y; x] = get p [z; y; x] * ((if sup then 1 else 2 * count os) + (if dc then count os else 0) +
      Rsum os (fun o => (if dc then 4 * cos (across B o y x) * cos (along B z) else 0) + 2 * cos (2 * across B o y x))).
Proof.
  intros Hw. rewrite (sim_run m B p b false dc sup Hk Hs Hw Hni Hna Hwl Hb). fold os. rewrite Hsh.
  set (freq := 2 * PI * b_ni B / b_wl B). set (alpha := asin (b_na B / b_ni B)). set (xx := centred (b_n B) (b_dx B)). set (zz := centred (b_nz B) (b_dz B)). set (base := base_pattern _ _ _ _ _).
  assert (Sb : shape base = sh) by (unfold base, base_pattern; destruct dc; reflexivity).
  destruct (incoherent_val (b_n B) (b_nz B) xx zz freq alpha p base os Hsh Sb (amap (fun _ => 0) p)) as (r & -> & Sr & Gr); [exact Hsh|]. cbn [bind].
  assert (V : forall z y x, inb sh [z; y; x] -> get r [z; y; x] = get p [z; y; x] * (2 * count os + (if dc then count os else 0) +
      Rsum os (fun o => (if dc then 4 * cos (across B o y x) * cos (along B z) else 0) + 2 * cos (2 * across B o y x)))).
  { intros z y x Hi. rewrite Gr by exact Hi. cbn [amap get]. rewrite Rplus_0_l. f_equal. unfold count.
    generalize os. intros l0. induction l0 as [|o l IH].
    - cbn. destruct dc; ring.
    - cbn [Rsum List.length]. rewrite S_INR, IH. rewrite <- (lat_across B Hni Hna Hwl). rewrite <- (tilt_along B Hni Hna Hwl). fold freq alpha. fold xx zz. set (L := lat xx freq alpha o y x).
      assert (N : Cnorm2 (Cplus (get base [z; y; x]) (Cmult (RtoC (2 * cos L)) (cis (tilt zz freq alpha z)))) = (if dc then 1 + 4 * cos L * cos (zz z * freq - tilt zz freq alpha z) else 0) + (2 * cos L) ^ 2).
      { unfold base, base_pattern. destruct dc; cbn [get].
        - replace (cis (zz z * freq)) with (Cmult (RtoC 1) (cis (zz z * freq))) by ring. rewrite Cnorm2_two. ring.
        - replace (RtoC 0) with (Cmult (RtoC 0) (cis 0)) by ring. rewrite Cnorm2_two. ring. }
      rewrite N, dbl. destruct dc; ring. }
  destruct sup.
  - destruct (ibop_eq (fun a p => a - (2 * INR (List.length os) - 1) * p) r p) as (q & -> & Sq & Gq); [rewrite Sr; exact Hsh|]. cbn [bind]. exists q. split; [reflexivity|]. split; [rewrite Sq; exact Sr|].
    intros z y x Hi. rewrite Gq by (rewrite Sr; exact Hi). rewrite V by exact Hi. unfold count. ring.
  - exists r. split; [reflexivity|]. split; [exact Sr|]. exact V.
Qed.
(** 2D SIM (no axial beam) *)
Theorem C60_sim_2d : forall sup, switches m false false sup ->
  exists q, fst (model_psf m) = Ok (q, b) /\ shape q = sh /\ forall z y x, inb sh [z; y; x] ->
    get q [z; y; x] = get p [z; y; x] * ((if sup then 1 else 2 * count os) + 2 * Rsum os (fun o => cos (2 * across B o y x))).
Proof.
  intros sup Hw. destruct (incoherent_pattern false sup Hw) as (q & E & S & G). exists q. split; [exact E|]. split; [exact S|]. intros z y x Hi. rewrite G by exact Hi. f_equal. rewrite Rplus_0_r. f_equal.
  rewrite <- Rsum_scal_l. apply Rsum_ext. intros; ring.
Qed.
(** 3D SIM: with the axial beam in every orientation *)
Theorem C60_sim_3d : forall sup, switches m false true sup ->
  exists q, fst (model_psf m) = Ok (q, b) /\ shape q = sh /\ forall z y x, inb sh [z; y; x] ->
    get q [z; y; x] = get p [z; y; x] * ((if sup then 1 + count os else 3 * count os) +
      Rsum os (fun o => 4 * cos (across B o y x) * cos (along B z) + 2 * cos (2 * across B o y x))).
Proof.
  intros sup Hw. destruct (incoherent_pattern true sup Hw) as (q & E & S & G). exists q. split; [exact E|]. split; [exact S|]. intros z y x Hi. rewrite G by exact Hi. f_equal. destruct sup; ring.
Qed.
(** Coherent (lattice) SIM: one field, dc_suppress has no effect; without any orientation it fails. *)
Theorem C60_coherent : forall dc sup, switches m true dc sup ->
  (os = [] -> fst (model_psf m) = Err UnboundLocalError) /\
  (os <> [] -> exists q, fst (model_psf m) = Ok (q, b) /\ shape q = sh /\ forall z y x, inb sh [z; y; x] ->
    let A := Rsum os (fun o => 2 * cos (across B o y x)) in
    get q [z; y; x] = get p [z; y; x] * ((if dc then 1 + 2 * A * cos (along B z) else 0) + A ^ 2)).
Proof.
  intros dc sup Hw. rewrite (sim_run m B p b true dc sup Hk Hs Hw Hni Hna Hwl Hb). fold os. rewrite Hsh.
  set (freq := 2 * PI * b_ni B / b_wl B). set (alpha := asin (b_na B / b_ni B)). set (xx := centred (b_n B) (b_dx B)). set (zz := centred (b_nz B) (b_dz B)). set (base := base_pattern _ _ _ _ _).
  assert (Sb : shape base = sh) by (unfold base, base_pattern; destruct dc; reflexivity).
  destruct (coherent_val (b_n B) (b_nz B) xx zz freq alpha os base Sb) as (e & Ee & Se & Ge). unfold coherent. rewrite Ee. cbn [bind]. split.
  - intros ->. reflexivity.
  - intros Ho. assert (Q : (match os with [] => Err UnboundLocalError | _ => apply_pattern p e end) = apply_pattern p e) by (destruct os; [congruence|reflexivity]). rewrite Q. unfold apply_pattern.
    destruct (bop_eq (fun p v => p * Cmod v ^ 2) p e) as (q & -> & Sq & Gq); [rewrite Se; symmetry; exact Hsh|]. cbn [bind]. exists q. split; [reflexivity|]. split; [rewrite Sq; exact Hsh|].
    intros z y x Hi. cbv zeta. rewrite Gq by (rewrite Hsh; exact Hi). f_equal. rewrite Ge by exact Hi. rewrite Cmod2. rewrite <- (tilt_along B Hni Hna Hwl). fold freq alpha zz.
    rewrite (Rsum_ext os _ (fun o => 2 * cos (across B o y x))) by (intros o _; rewrite <- (lat_across B Hni Hna Hwl); reflexivity). set (A := Rsum os _).
    unfold base, base_pattern. destruct dc; cbn [get].
    + replace (cis (zz z * freq)) with (Cmult (RtoC 1) (cis (zz z * freq))) by ring. rewrite Cnorm2_two. ring.
    + replace (RtoC 0) with (Cmult (RtoC 0) (cis 0)) by ring. rewrite Cnorm2_two. ring.
Qed.
End Patterns.
Print Assumptions C60_sim_2d.
Print Assumptions C60_sim_3d.
Print Assumptions C60_coherent.
