(** Phase retrieval: what retrieve_phase returns. *)
From Verif Require Import S_Phase L_Array L_Sum L_FFT L_FFT2 L_Polar L_PSF L_Ctor L_Hanser L_Hanser2 L_Hanser4 L_Aberr L_Phase L_Phase2 L_Phase3 L_Phase4 T_Object.
Import M_Array.
Local Open Scope R_scope.

(** ** dictionaries *)
Lemma dget_dset d k v k' : dget (dset d k v) k' = if String.eqb k' k then Some v else dget d k'.
Proof.
  induction d as [|[a b] d IH]; cbn [dset dget].
  - destruct (String.eqb k' k); reflexivity.
  - destruct (String.eqb_spec k a) as [->|E]; cbn [dget].
    + destruct (String.eqb k' a); reflexivity.
    + rewrite IH. destruct (String.eqb_spec k' a) as [->|E']; [|reflexivity]. destruct (String.eqb_spec a k); [congruence|reflexivity].
Qed.
Lemma forced_imposed nz n d : imposed nz n d (forced nz n d).
Proof.
  unfold imposed, forced. rewrite !dget_dset. cbn. repeat split. intros k H1 H2 H3 H4. rewrite !dget_dset.
  destruct (String.eqb_spec k "size"); [congruence|]. destruct (String.eqb_spec k "zsize"); [congruence|]. destruct (String.eqb_spec k "condition"); [congruence|]. destruct (String.eqb_spec k "vec_corr"); [congruence|]. reflexivity.
Qed.
Lemma imposed_ctor nz n d d' k : imposed nz n d d' -> ctor_of d' = Ok k ->
  k_vec_corr k = VStr "none" /\ k_condition k = VStr "none" /\ k_size k = VInt n /\ k_zsize k = Some (VInt nz) /\
  required d "wl" = Ok (k_wl k) /\ required d "na" = Ok (k_na k) /\ required d "ni" = Ok (k_ni k) /\ required d "res" = Ok (k_res k) /\
  k_zres k = not_none (optional d "zres" VNone) /\ zrange_kw d = Ok (k_zrange k).
Proof.
  intros (E1 & E2 & E3 & E4 & E5) H. unfold ctor_of in H. destruct (negb _); [discriminate|].
  assert (Q : forall s, s <> "vec_corr"%string -> s <> "condition"%string -> s <> "zsize"%string -> s <> "size"%string -> required d' s = required d s) by (intros; unfold required; now rewrite E5).
  rewrite !Q in H by discriminate. assert (Z : zrange_kw d' = zrange_kw d) by (unfold zrange_kw; rewrite E5 by discriminate; reflexivity). rewrite Z in H.
  destruct (required d "wl"); cbn [bind] in H; [|discriminate]. destruct (required d "na"); cbn [bind] in H; [|discriminate]. destruct (required d "ni"); cbn [bind] in H; [|discriminate].
  destruct (required d "res"); cbn [bind] in H; [|discriminate]. unfold required in H. rewrite E4 in H. cbn [bind] in H. destruct (zrange_kw d); cbn [bind] in H; [|discriminate].
  unfold optional in *. rewrite E1, E2, E3 in H. rewrite (E5 "zres"%string) in H by discriminate. injection H as <-. cbn. repeat split.
Qed.
Lemma forced_ctor nz n d k : ctor_of (forced nz n d) = Ok k ->
  k_vec_corr k = VStr "none" /\ k_condition k = VStr "none" /\ k_size k = VInt n /\ k_zsize k = Some (VInt nz).
Proof. intros H. destruct (imposed_ctor nz n d _ k (forced_imposed nz n d) H) as (? & ? & ? & ? & _). auto. Qed.
Lemma made_model params nz n model : (exists k, ctor_of (forced nz n params) = Ok k /\ construct numeric Hanser k = Ok model) -> finite_model model ->
  h_ready (obj_params model) = true /\ h_vec (hpar_model model) = VecNone /\ h_cond (hpar_model model) = CondNone /\ h_size (hpar_model model) = n.
Proof.
  intros (k & Ek & Em) (F1 & F2 & F3 & F4 & l & F5 & _).
  destruct (forced_ctor nz n params k Ek) as (K1 & K2 & K3 & K4). pose proof (construct_stores numeric Hanser k model Em) as S.
  assert (S1 : o_attr model A_vec_corr = Some (VStr "none")) by (rewrite S by discriminate; cbn; now rewrite K1).
  assert (S2 : o_attr model A_condition = Some (VStr "none")) by (rewrite S by discriminate; cbn; now rewrite K2).
  assert (S3 : o_attr model A_size = Some (VInt n)) by (rewrite S by discriminate; cbn; now rewrite K3).
  assert (S4 := S A_wl ltac:(discriminate)). assert (S5 := S A_na ltac:(discriminate)). assert (S6 := S A_ni ltac:(discriminate)). assert (S7 := S A_res ltac:(discriminate)).
  unfold hpar_model, hpar_of, h_ready, obj_params. cbn [p_wl p_na p_ni p_res p_size p_vec_corr p_condition p_zrange all_set forallb h_vec h_cond h_size]. rewrite S1, S2, S3, S4, S5, S6, S7, F5. repeat split.
Qed.
Lemma usable_model data params nz n model : usable data params nz n model ->
  h_ready (obj_params model) = true /\ h_vec (hpar_model model) = VecNone /\ h_cond (hpar_model model) = CondNone /\ h_size (hpar_model model) = n.
Proof. intros (Hs & Hnz & Hn & Hk & Hf & Hph & Hz). now apply (made_model params nz). Qed.

(** ** centred images *)
Section R.
Context (P0 : params) (Hr : h_ready P0 = true).
Let h := hpar_of P0.
Context (Hph : physical h) (Hv : h_vec h = VecNone) (Hc : h_cond h = CondNone) (Hn2 : (2 <= h_size h)%Z).
Let n := h_size h.
Let nz := Z.of_nat (List.length (h_zrange h)).
Context (Hnz : (1 <= nz)%Z) (data : array R) (Hd : shape data = [nz; n; n]) (po : bool).
Let sq := seqP P0 data po.
(** the row shown at y *)
Definition row (y : Z) : Z := ((y + -1 * (n / 2)) mod n)%Z.
Lemma row_in y : (0 <= row y < n)%Z. Proof. apply Z.mod_pos_bound. unfold n. lia. Qed.
Lemma row_back j : (0 <= j < n)%Z -> row ((j + 1 * (n / 2)) mod n) = j.
Proof. intros Hj. unfold row. rewrite Zplus_mod_idemp_l. replace (j + 1 * (n / 2) + -1 * (n / 2))%Z with j by ring. now apply Z.mod_small. Qed.
Lemma shift2 {A} (a : array A) y x : shape a = [n; n] -> get (fftshift axes2 a) [y; x] = get a [row y; row x].
Proof. intros E. unfold fftshift. cbn [get]. rewrite E. reflexivity. Qed.
Lemma unshift2 {A} (a : array A) y x : shape a = [n; n] -> get (ifftshift axes2 a) [y; x] = get a [((y + 1 * (n / 2)) mod n)%Z; ((x + 1 * (n / 2)) mod n)%Z].
Proof. intros E. unfold ifftshift. cbn [get]. rewrite E. reflexivity. Qed.
Lemma mkf_aperture y x : (0 <= y < n)%Z -> (0 <= x < n)%Z -> mkf h (row y) (row x) = aperture h y x.
Proof.
  intros Hy Hx. assert (F : forall i, (0 <= i < n)%Z -> sfreq n (h_res h) (row i) = cfreq h i).
  { intros i Hi. unfold sfreq, cfreq. fold n. f_equal. f_equal. unfold row. rewrite Zplus_mod_idemp_l. replace (i + -1 * (n / 2) + n / 2)%Z with i by ring. now rewrite Z.mod_small. }
  unfold mkf. rewrite ideal_spec by (auto using row_in). unfold aperture, k2. fold n. rewrite !F by auto.
  replace (cfreq h y * cfreq h y + cfreq h x * cfreq h x) with (cfreq h y ^ 2 + cfreq h x ^ 2) by ring. reflexivity.
Qed.
Lemma off i y x : mkf h (row y) (row x) = 0 -> get (sq i) [row y; row x] = RtoC 0.
Proof. intros E. exact (sq_off P0 Hph Hv Hc Hn2 data Hd po i (row y) (row x) (row_in y) (row_in x) E). Qed.
(** a result that shows the i-th pupil *)
Definition is_result (i : nat) (r : result) : Prop :=
  shape (r_mag r) = [n; n] /\ shape (r_phase r) = [n; n] /\ obj_params (r_model r) = P0 /\
  forall y x, (0 <= y < n)%Z -> (0 <= x < n)%Z ->
    get (r_mag r) [y; x] = Cmod (get (sq i) [row y; row x]) /\
    exists k : Z, get (r_phase r) [y; x] = (angle (get (sq i) [row y; row x]) + 2 * PI * IZR k) * mkf h (row y) (row x).
Lemma build u i lines model : unwraps u -> obj_params model = P0 ->
  exists ph mg, bop Rmult (u (fftshift axes2 (amap angle (sq i)))) (fftshift axes2 (maskA h)) = Ok ph /\
    bop Rmult (fftshift axes2 (amap Cmod (sq i))) (fftshift axes2 (maskA h)) = Ok mg /\ is_result i (mk_result mg ph lines model).
Proof.
  intros Hu Ho. assert (Ss : shape (sq i) = [n; n]) by now apply seqP_shape. destruct (Hu (fftshift axes2 (amap angle (sq i)))) as [Su Gu].
  assert (Sa : shape (fftshift axes2 (amap angle (sq i))) = [n; n]) by exact Ss. rewrite Sa in Su, Gu.
  destruct (bop_same Rmult (u (fftshift axes2 (amap angle (sq i)))) (fftshift axes2 (maskA h)) n Su eq_refl) as (ph & E1 & S1 & G1).
  destruct (bop_same Rmult (fftshift axes2 (amap Cmod (sq i))) (fftshift axes2 (maskA h)) n Ss eq_refl) as (mg & E2 & S2 & G2).
  exists ph, mg. split; [exact E1|]. split; [exact E2|]. split; [exact S2|]. split; [exact S1|]. split; [exact Ho|]. intros y x Hy Hx. cbn [r_mag r_phase mk_result].
  rewrite G1, G2 by auto. rewrite !(shift2 (maskA h)), !maskA_val by reflexivity. split.
  - rewrite shift2 by exact Ss. cbn [get amap]. destruct (mkf_01 h (row y) (row x)) as [E|E]; rewrite E; [|ring].
    rewrite (off i y x E), Cmod_0. ring.
  - destruct (Gu [y; x]) as [k Ek]; [now apply inb2|]. exists k. rewrite Ek. rewrite shift2 by exact Ss. reflexivity.
Qed.
Lemma result_pupil i r : is_result i r ->
  exists Cp, complex_pupil (r_mag r) (r_phase r) = Ok Cp /\ shape Cp = [n; n] /\
    forall y x, (0 <= y < n)%Z -> (0 <= x < n)%Z -> get Cp [y; x] = get (sq i) [row y; row x].
Proof.
  intros (S1 & S2 & _ & G). destruct (bop_same (fun m p => Cmult (RtoC m) (cis p)) (r_mag r) (r_phase r) n S1 S2) as (Cp & E & Sc & Gc).
  exists Cp. split; [exact E|]. split; [exact Sc|]. intros y x Hy Hx. rewrite Gc by auto. destruct (G y x Hy Hx) as (-> & k & ->).
  destruct (mkf_01 h (row y) (row x)) as [Em|Em]; rewrite Em.
  - rewrite (off i y x Em), Cmod_0. now rewrite Cmult_0_l.
  - rewrite Rmult_1_r, cis_turns. symmetry. apply angle_polar.
Qed.
Lemma result_psf i r : is_result i r ->
  exists psf, generate_psf r None None None = Ok psf /\ arr_eq psf (sumsq (psfa_at P0 (sq i))).
Proof.
  intros H. destruct (result_pupil i r H) as (Cp & E & Sc & Gc). destruct H as (_ & _ & Ho & _). unfold generate_psf. rewrite E. cbn [bind].
  assert (Sp : shape (ifftshift axes2 Cp) = [n; n]) by exact Sc.
  destruct (L_Phase3.iter P0 Hr Hph (ifftshift axes2 Cp) (r_model r) Ho Sp) as (o1 & o2 & v & w & A1 & A2 & A3 & _).
  unfold generate. cbn [ret]. unfold bindM at 1. unfold ret at 1. unfold bindM at 1. unfold ret at 1. unfold bindM at 1. rewrite A1.
  change (read_PSFi numeric Hanser o1) with (read numeric Hanser PSFi o1). rewrite A2. cbn [fst bind]. rewrite A3.
  pose proof (psfi_shape P0 Hph Hv Hc (ifftshift axes2 Cp) Sp) as Ss. fold h n nz in Ss.
  exists (sumsq (psfa_at P0 (ifftshift axes2 Cp))). split.
  - unfold resize. rewrite Ss, Z.eqb_refl. reflexivity.
  - assert (Sq : shape (sq i) = [n; n]) by now apply seqP_shape. split; [rewrite (psfi_shape P0 Hph Hv Hc (sq i) Sq); exact Ss|].
    intros ix Hix. rewrite Ss in Hix. destruct (inb3_inv _ _ _ _ Hix) as (z & y & x & -> & Hz & Hy & Hx).
    rewrite !(psfi_at P0 Hph Hv Hc) by assumption. f_equal. f_equal. apply amp_ext; try assumption. intros j x' Hj Hx'. unfold fn.
    rewrite unshift2 by exact Sc. assert (Hm : forall a, (0 <= a mod n < n)%Z) by (intros; apply Z.mod_pos_bound; unfold n; lia).
    rewrite Gc, !row_back by auto. reflexivity.
Qed.
End R.

(** ** the whole function *)
Section W.
Context (u : array R -> array R) (Hu : unwraps u) (data : array R) (params : pdict) (nz n : Z) (model : obj numeric) (Hus : usable data params nz n model)
  (pt mt : tol) (po : bool).
Let P0 := obj_params model.
Let sq := seqP P0 data po.
Let conv i := converged pt mt (lineAt P0 data po i).
Lemma hyps : h_ready P0 = true /\ physical (hpar_of P0) /\ h_vec (hpar_of P0) = VecNone /\ h_cond (hpar_of P0) = CondNone /\ h_size (hpar_of P0) = n /\ (2 <= h_size (hpar_of P0))%Z /\
  (1 <= Z.of_nat (List.length (h_zrange (hpar_of P0))))%Z /\ shape data = [Z.of_nat (List.length (h_zrange (hpar_of P0))); h_size (hpar_of P0); h_size (hpar_of P0)].
Proof.
  destruct (usable_model _ _ _ _ _ Hus) as (A & B & C & D). destruct Hus as (Hs & Hnz & Hn & _ & _ & Hph & Hz). unfold hpar_model in *. change (obj_params model) with P0 in A, B, C, D, Hph, Hz.
  rewrite D, Hz. split; [exact A|]. split; [exact Hph|]. auto 10.
Qed.
Definition stop (k m : nat) : Prop :=
  (1 <= m <= k)%nat /\ (forall i, (i < m - 1)%nat -> conv i = false) /\ ((m < k)%nat -> conv (m - 1) = true).
Definition shown (m : nat) : nat := if conv (m - 1) then m - 1 else m.
Lemma retrieve k : (1 <= k)%Z ->
  exists m r, retrieve_phase u data params k pt mt po = (Ok r, forced nz n params) /\ stop (Z.to_nat k) m /\
    r_mse r = map l_mse (map (lineAt P0 data po) (seq 0 m)) /\ r_pupil_diff r = map l_pupil_diff (map (lineAt P0 data po) (seq 0 m)) /\
    r_mse_diff r = map l_mse_diff (map (lineAt P0 data po) (seq 0 m)) /\
    is_result P0 data po (shown m) r /\ shows (r_model r) (psfa_at P0 (sq (m - 1))).
Proof.
  intros Hk. destruct hyps as (Hr & Hph & Hv & Hc & Hn & Hn2 & Hnz & Hd). pose proof Hus as (Hs & Hnz' & Hn' & (kk & Ek & Em) & _).
  unfold retrieve_phase. replace (0 <? k)%Z with true by (symmetry; apply Z.ltb_lt; lia). cbn [negb]. rewrite Hs, Z.eqb_refl. cbn [negb]. rewrite Ek. cbn [bind]. rewrite Em. cbn [bind].
  assert (G : gen_kr_pupil (hpar_of (obj_params model)) = Ok (gen_pupil (hpar_of P0))).
  { unfold gen_kr_pupil. fold P0. destruct (physical_nz _ Hph) as [N1 N2]. destruct (Req_EM_T _ _); [contradiction|]. destruct (Req_EM_T _ _); [contradiction|]. reflexivity. }
  rewrite G. cbn [bind].
  destruct (loop P0 Hr Hph Hv Hc Hn2 data Hd po pt mt (Z.to_nat k) 0 [] model ltac:(lia) eq_refl) as (m & o' & Hm & E & Ho & So & Hf & Hl).
  cbn [seqP oldAt] in E. unfold maskA in E at 1. cbn [app plus Nat.add] in *.
  destruct (build P0 Hph Hv Hc Hn2 data Hd po u (shown m) (map (lineAt P0 data po) (seq 0 m)) o' Hu Ho) as (ph & mg & E1 & E2 & Hres).
  exists m, (mk_result mg ph (map (lineAt P0 data po) (seq 0 m)) o'). split.
  - f_equal. change (amap Re (gen_pupil (hpar_of P0))) with (maskA (hpar_of P0)) in *. rewrite E. unfold maskA in *. fold (conv (m - 1)). fold (shown m). rewrite E1. cbn [bind]. rewrite E2. reflexivity.
  - split; [split; [exact Hm|]; split; [intros i Hi; apply Hf; lia|exact Hl]|]. repeat (split; [reflexivity|]). split; [exact Hres|exact So].
Qed.
(** stopping indices are determined and grow with the allowance *)
Lemma stop_fun k m m' : stop k m -> stop k m' -> m = m'.
Proof.
  intros (A & B & C) (A' & B' & C'). destruct (Nat.lt_trichotomy m m') as [H|[H|H]]; auto; exfalso.
  - rewrite B' in C by lia. discriminate C. lia.
  - rewrite B in C' by lia. discriminate C'. lia.
Qed.
Lemma stop_mono k k' m m' : (k <= k')%nat -> stop k m -> stop k' m' ->
  (m <= m')%nat /\ (shown m <= shown m')%nat /\ ((m < k)%nat -> m' = m).
Proof.
  intros Hk (A & B & C) (A' & B' & C').
  assert (M : (m <= m')%nat). { destruct (le_lt_dec m m') as [|H]; auto. exfalso. rewrite B in C' by lia. discriminate C'. lia. }
  assert (Q : conv (m - 1) = true -> m' = m). { intros Ec. destruct (Nat.eq_dec m m') as [|N]; auto. exfalso. rewrite B' in Ec by lia. discriminate. }
  split; [exact M|]. split; [|auto]. unfold shown. destruct (conv (m - 1)) eqn:Ec.
  - rewrite (Q eq_refl), Ec. lia.
  - destruct (Nat.eq_dec m m') as [->|N]; [rewrite Ec; lia|]. destruct (conv (m' - 1)); lia.
Qed.
(** with fewer iterations allowed than were used, the run ends on max_iters *)
Lemma stop_before k m i : stop k m -> (1 <= i < m)%nat -> stop i i /\ shown i = i.
Proof.
  intros (A & B & C) Hi. split; [split; [lia|]; split; [intros j Hj; apply B; lia|lia]|]. unfold shown. rewrite B by lia. reflexivity.
Qed.
End W.
