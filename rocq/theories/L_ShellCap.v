(** Lemmas for C111: the lateral frequencies of SheppardPSF's images. *)
From Verif Require Import M_Sheppard S_Sheppard S_Shell L_Array L_Sum L_FFT L_FFT2 L_Polar L_Hanser L_Hanser2 L_Sheppard L_Sheppard2 L_Sheppard3 L_Band L_Phase2 L_Lateral.
Import M_Array.
Local Open Scope R_scope.

Section P.
Context (p : spar) (Hp : s_physical p).
Let n := s_size p.
Let nz := s_zsize p.
(** square of the lateral radius of the cap of the shell: (na/wl)^2 plus what the thickness of the shell adds *)
Definition cap2 : R := (s_na p / s_wl p) ^ 2 + 2 * Rmax (pl p) (pz p) * (s_ni p / s_wl p - cone p).

Lemma cone_square : s_na p <= s_ni p -> cone p ^ 2 = (s_ni p / s_wl p) ^ 2 - (s_na p / s_wl p) ^ 2 /\ 0 <= cone p <= s_ni p / s_wl p.
Proof.
  intros H. destruct Hp as (Pw & Pa & Pi & _). assert (I : 0 < / s_wl p) by now apply Rinv_0_lt_compat.
  assert (Q : 0 <= s_na p / s_wl p <= s_ni p / s_wl p) by (unfold Rdiv; split; [nra|apply Rmult_le_compat_r; lra]).
  assert (S : cone p ^ 2 = (s_ni p / s_wl p) ^ 2 - (s_na p / s_wl p) ^ 2) by (unfold cone; apply pow2_sqrt; nra).
  split; [exact S|]. assert (C0 : 0 <= cone p) by apply sqrt_pos. split; [exact C0|].
  destruct (Rle_lt_dec (cone p) (s_ni p / s_wl p)); [assumption|]. exfalso. nra.
Qed.
Lemma cap2_ge0 : s_na p <= s_ni p -> 0 <= cap2.
Proof.
  intros H. destruct (cone_square H) as [_ [C0 C1]]. unfold cap2. pose proof (pl_pos p Hp). pose proof (Rmax_l (pl p) (pz p)). pose proof (pow2_ge_0 (s_na p / s_wl p)). nra.
Qed.
Lemma cap_valid kz ky kx : s_na p <= s_ni p -> (0 <= kz < nz)%Z -> (0 <= ky < n)%Z -> (0 <= kx < n)%Z ->
  s_valid p (un nz kz) (un n ky) (un n kx) = true -> sfl p ky ^ 2 + sfl p kx ^ 2 < cap2.
Proof.
  intros Ha Hz Hy Hx Ev.
  destruct (valid_kz p _ _ _ Ev) as (Hd & _). apply valid_iff in Ev. destruct Ev as [E1 E2].
  rewrite (kr_un p Hp) in E1 by auto. rewrite (kzz_un p Hp) in E2 by auto. pose proof (dkr_upper p Hp (un nz kz) (un n ky) (un n kx)) as Hu.
  unfold s_kmag in E1. change (s_kz_min p) with (cone p) in E2. set (d := s_dkr p _ _ _) in *. destruct (cone_square Ha) as [S [C0 C1]]. 
  assert (K : kabs p kz ky kx ^ 2 = sfz p kz ^ 2 + sfl p ky ^ 2 + sfl p kx ^ 2).
  { unfold kabs. apply pow2_sqrt. pose proof (pow2_ge_0 (sfz p kz)). pose proof (pow2_ge_0 (sfl p ky)). pose proof (pow2_ge_0 (sfl p kx)). lra. }
  assert (Hh : height p kz ^ 2 <= sfz p kz ^ 2) by (unfold height; destruct (s_dual p); [rewrite <- Rsqr_pow2, <- Rsqr_abs, Rsqr_pow2; lra|lra]).
  assert (K0 : 0 <= kabs p kz ky kx) by apply sqrt_pos. apply Rabs_def2 in E1. unfold cap2. set (M := Rmax (pl p) (pz p)) in *. set (k := s_ni p / s_wl p) in *.
  assert (Q1 : kabs p kz ky kx ^ 2 < (k + d) ^ 2) by nra. assert (Q2 : (cone p + d) ^ 2 < height p kz ^ 2) by nra.
  assert (Q3 : d * (k - cone p) <= M * (k - cone p)) by (apply Rmult_le_compat_r; lra). nra.
Qed.

Lemma shell_zero c kz ky kx : s_na p <= s_ni p -> (0 <= kz < nz)%Z -> (0 <= ky < n)%Z -> (0 <= kx < n)%Z ->
  get (fftshift axes123 (s_otf p)) [c; kz; ky; kx] = Some (RtoC 0) \/ sfl p ky ^ 2 + sfl p kx ^ 2 < cap2.
Proof.
  intros Ha Hz Hy Hx. destruct (Rlt_dec (sfl p ky ^ 2 + sfl p kx ^ 2) cap2) as [|L]; [now right|left].
  rewrite otf_get. destruct (s_valid p _ _ _) eqn:Ev; [|reflexivity]. exfalso. apply L. apply (cap_valid kz ky kx); auto.
Qed.

(** the field of one plane, apart from a phase ramp of modulus 1, is a sum of the cap's lateral exponentials *)
Let field := IZR n * s_res p.
Let shell_plane (A : array (option C)) c z y x : C :=
  Csum (zseq nz) (fun kz => kicen nz z kz *c Csum (zseq n) (fun ky => Csum (zseq n) (fun kx =>
    root n ((ky - n / 2) * (y + n / 2) + (kx - n / 2) * (x + n / 2)) *c cval (get A [c; kz; ky; kx])))).
Lemma BL_shell A c z : A = fftshift axes123 (s_otf p) -> s_na p <= s_ni p -> BL n (sqrt cap2 * field) (shell_plane A c z).
Proof.
  intros EA Ha. destruct (sizes_pos p Hp) as [Hn Hnz]. fold n in Hn. assert (Pr : 0 < s_res p) by apply Hp.
  assert (Pf : 0 < field) by (unfold field; apply Rmult_lt_0_compat; [now apply IZR_lt|exact Pr]).
  unfold shell_plane. apply BL_sum. intros kz Hz. apply in_zseq in Hz. apply BL_scal. apply BL_sum. intros ky Hy. apply BL_sum. intros kx Hx. apply in_zseq in Hy, Hx.
  destruct (Rlt_dec (sfl p ky ^ 2 + sfl p kx ^ 2) cap2) as [L|L].
  - exists [(ky - n / 2, kx - n / 2, root n ((ky - n / 2) * (n / 2) + (kx - n / 2) * (n / 2)) *c cval (get A [c; kz; ky; kx]))]%Z. split.
    + constructor; [|constructor]. unfold wfreq. cbn [fst snd]. unfold sfl, cfreq in L. fold n field in L. unfold Cmod. cbn [fst snd].
      rewrite <- (sqrt_pow2 field) by lra. rewrite <- sqrt_mult_alt by (now apply cap2_ge0). apply sqrt_lt_1_alt.
      set (a := IZR (ky - n / 2)) in *. set (b := IZR (kx - n / 2)) in *. split; [nra|].
      replace (a ^ 2 + b ^ 2) with (((a / field) ^ 2 + (b / field) ^ 2) * field ^ 2) by (field; lra). apply Rmult_lt_compat_r; [nra|exact L].
    + intros y x _ _. cbn [Csum]. unfold wave. cbn [fst snd]. rewrite Cplus_0_r, (Cmult_comm (root n (_ * (n / 2) + _))), <- Cmult_assoc, <- root_add, Cmult_comm. f_equal. f_equal. ring.
  - exists []. split; [constructor|]. intros y x _ _. cbn [Csum]. assert (E : get A [c; kz; ky; kx] = Some (RtoC 0)).
    { rewrite EA. destruct (shell_zero c kz ky kx Ha Hz Hy Hx) as [E|E]; [exact E|]. now elim L. }
    rewrite E. cbn [cval]. ring.
Qed.

Lemma Cnorm2_root a : Cnorm2 (root n a) = 1.
Proof. unfold root. apply Cnorm2_cis. Qed.
Lemma shell_ifft A c z y x : shape A = [components (s_vec p); nz; n; n] -> inb [components (s_vec p); nz; n; n] [c; z; y; x] ->
  get (easy_ifft (Some [1%nat; 2%nat; 3%nat]) (amap cval A)) [c; z; y; x] =
  RtoC (/ IZR (nz * (n * n))) *c (root n (2 * (n / 2) * (y + n / 2 + (x + n / 2))) *c shell_plane A c z y x).
Proof.
  intros HA Hi. rewrite easy_ifft_mop; cbn [amap shape]; rewrite HA; [|exact Hi]. cbn [List.length].
  change (axes_mask 4 (Some [1%nat; 2%nat; 3%nat])) with [false; true; true; true].
  replace (masked_size [false; true; true; true] [components (s_vec p); nz; n; n]) with (nz * (n * n))%Z by (cbn [masked_size]; ring). f_equal. cbn [mop].
  unfold shell_plane. rewrite <- Csum_scal_l. apply Csum_ext. intros kz _. rewrite Cmult_assoc, (Cmult_comm (root n _)), <- Cmult_assoc. f_equal.
  rewrite <- Csum_scal_l. apply Csum_ext. intros ky _. rewrite <- !Csum_scal_l. apply Csum_ext. intros kx _. unfold kicen. cbn [amap get].
  rewrite !Cmult_assoc, <- !root_add. f_equal. f_equal. ring.
Qed.
Lemma BL_shell_intensity A z : gen_otf p = Ok A -> s_na p <= s_ni p -> (0 <= z < nz)%Z -> (forall ix, inb (shape A) ix -> get A ix <> None) ->
  BL n (2 * sqrt cap2 * field) (fun y x => RtoC (Re (cval (option_map RtoC (get (s_psfi (s_psfa A)) [z; y; x]))))).
Proof.
  intros HA Ha Hz Hf. pose proof (gen_otf_inv p Hp A HA) as E. pose proof (otf_shape p) as HS. rewrite <- E in HS. fold n nz in HS. rewrite HS in Hf.
  destruct (psf_finite p A HS Hf) as [_ Hv].
  apply (BL_ext n _ (fun y x => Csum (zseq (components (s_vec p))) (fun c => RtoC (/ IZR (nz * (n * n)) * / IZR (nz * (n * n))) *c (shell_plane A c z y x *c Cconj (shell_plane A c z y x))))).
  { intros y x Hy Hx. rewrite Hv by (now apply inb3). cbn [option_map cval RtoC Re fst]. rewrite Csum_RtoC. apply Csum_ext. intros c Hc. apply in_zseq in Hc.
    fold n nz. rewrite shell_ifft; [|exact HS|]. 2:{ apply inb_cons. split; [exact Hc|now apply inb3]. }
    rewrite !Cnorm2_mult, Cnorm2_root, Cnorm2_RtoC, Rmult_1_l, <- Cnorm2_conj, <- RtoC_mult. reflexivity. }
  apply BL_sum. intros c _. apply BL_scal. replace (2 * sqrt cap2 * field) with (sqrt cap2 * field + sqrt cap2 * field) by ring.
  apply BL_mult; [|apply BL_conj]; now apply BL_shell.
Qed.
Lemma kicen_unitary m i j : (0 < m)%Z -> (0 <= i < m)%Z -> (0 <= j < m)%Z -> Csum (zseq m) (fun k => kicen m k i *c Cconj (kicen m k j)) = RtoC (IZR m) *c delta i j.
Proof.
  intros Hm Hi Hj. rewrite (Csum_ext _ _ (fun k => root m ((m / 2) * (i - j)) *c root m (k * (i - j))))
    by (intros k _; unfold kicen; rewrite root_conj, <- !root_add; f_equal; ring).
  rewrite Csum_scal_l, root_sum by auto. unfold delta. destruct (Z.eqb_spec ((i - j) mod m) 0) as [E|E]; destruct (Z.eqb_spec i j) as [E'|E']; try ring.
  - subst. rewrite Z.sub_diag, Z.mul_0_r, root_0. ring.
  - exfalso. apply E'. now apply (mod_inj m).
  - exfalso. apply E. subst. now rewrite Z.sub_diag, Z.mod_0_l by lia.
Qed.
Lemma shell_energy A : gen_otf p = Ok A -> (forall ix, inb (shape A) ix -> get A ix <> None) ->
  psf_light p A = otf_energy A / IZR (nz * (n * n)).
Proof.
  intros HA Hf. pose proof (gen_otf_inv p Hp A HA) as E. pose proof (otf_shape p) as HS. rewrite <- E in HS. fold n nz in HS. rewrite HS in Hf.
  destruct (psf_finite p A HS Hf) as [_ Hv]. destruct (sizes_pos p Hp) as [Hn Hnz]. fold n in Hn. fold nz in Hnz.
  set (K := IZR (nz * (n * n))). assert (PK : 0 < K) by (apply IZR_lt; nia).
  assert (Pc : (0 < components (s_vec p))%Z) by (destruct (s_vec p); reflexivity).
  assert (Eo : otf_energy A = Rsum (all_ix [components (s_vec p); nz; n; n]) (fun ix => Cnorm2 (get (amap cval A) ix))).
  { unfold otf_energy. rewrite HS. apply Rsum_ext. intros ix Hix. apply in_all_ix in Hix. specialize (Hf ix Hix). cbn [amap get]. destruct (get A ix) as [v|]; [|congruence]. cbn [cval]. rewrite Cnorm2_Cmod. ring. }
  pose proof (mop_energy kicen [false; true; true; true] [components (s_vec p); nz; n; n] (get (amap cval A))
    ltac:(repeat constructor; assumption) ltac:(intros; now apply kicen_unitary)) as ME. rewrite <- Eo in ME.
  replace (masked_size [false; true; true; true] [components (s_vec p); nz; n; n]) with (nz * (n * n))%Z in ME by (cbn [masked_size]; ring). fold K in ME.
  transitivity (/ K * / K * (K * otf_energy A)); [|field; lra]. rewrite <- ME.
  unfold psf_light. fold n nz. rewrite (Rsum_all_ix_cons (components (s_vec p)) [nz; n; n]). rewrite <- Rsum_scal_l.
  transitivity (Rsum (all_ix [nz; n; n]) (fun ix => Rsum (zseq (components (s_vec p))) (fun c => Cnorm2 (get (easy_ifft (Some [1%nat; 2%nat; 3%nat]) (amap cval A)) (c :: ix))))).
  { apply Rsum_ext. intros ix Hix. apply in_all_ix in Hix. rewrite Hv by exact Hix. reflexivity. }
  rewrite Rsum_swap. apply Rsum_ext. intros c Hc. apply in_zseq in Hc. rewrite <- Rsum_scal_l. apply Rsum_ext. intros ix Hix. apply in_all_ix in Hix.
  rewrite easy_ifft_mop by (cbn [amap shape]; rewrite HS; apply inb_cons; auto). cbn [amap shape]. rewrite HS. cbn [List.length].
  change (axes_mask 4 (Some [1%nat; 2%nat; 3%nat])) with [false; true; true; true].
  replace (masked_size [false; true; true; true] [components (s_vec p); nz; n; n]) with (nz * (n * n))%Z by (cbn [masked_size]; ring). fold K.
  rewrite Cnorm2_mult, Cnorm2_RtoC. reflexivity.
Qed.
End P.
