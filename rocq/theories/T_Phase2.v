(** C49, C75, and that the hypotheses of the phase retrieval theorems are met. *)
From Verif Require Import S_PSF S_Phase L_Array L_Sum L_FFT L_FFT2 L_Polar L_PSF L_Ctor L_Hanser L_Hanser2 L_Hanser4 L_Aberr L_Phase L_Phase2 L_Phase3 L_Phase4 L_Phase5 L_Phase6 L_Phase7 L_Phase8 T_PSF T_Object T_Phase.
Import M_Array.
Local Open Scope R_scope.

(** ** C75 one iteration *)
(** If the (i+1)-th iteration did not end the run, the pupil it produces is the Hanser-Gustafsson update of the pupil it started
    from, written with centred coordinates and explicit plane waves; and the PSF the user sees after i iterations is the squared
    modulus of the field of the pupil he sees. *)
Theorem C75_iteration :
  forall u data params nz n model pt mt po, unwraps u -> usable data params nz n model ->
  forall i r P psf, fst (retrieve_phase u data params (Z.of_nat (S i)) pt mt po) = Ok r ->
    List.length (r_mse r) = S i -> ~ stops_at pt mt r i -> after u data params pt mt po model i P psf ->
    shape psf = [nz; n; n] /\
    (forall z y x, (0 <= z < nz)%Z -> (0 <= y < n)%Z -> (0 <= x < n)%Z ->
       get psf [z; y; x] = Cmod (field (hpar_model model) (fun v w => get P [v; w]) z y x) ^ 2) /\
    exists P', complex_pupil (r_mag r) (r_phase r) = Ok P' /\ shape P' = [n; n] /\
      forall v w, (0 <= v < n)%Z -> (0 <= w < n)%Z ->
        let b := update (hpar_model model) (fun z y x => sqrt (Rmax 0 (get data [z; y; x]))) nz (fun v w => get P [v; w]) v w in
        get P' [v; w] = if po then Cmult (RtoC (aperture (hpar_model model) v w)) (unit_phase b) else b.
Proof.
  intros u data params nz n model pt mt po Hu Hus i r P psf Er Hlen Hns HA.
  destruct (hyps _ _ _ _ _ Hus) as (Hr & Hph & Hv & Hc & Hn & Hn2 & Hnz & Hd).
  assert (Enz : Z.of_nat (List.length (h_zrange (hpar_of (obj_params model)))) = nz) by (destruct Hus as (_ & _ & _ & _ & _ & _ & X); exact X).
  destruct (retrieve u Hu data params nz n model Hus pt mt po (Z.of_nat (S i)) ltac:(lia)) as (m & r' & E & Hst & R1 & R2 & R3 & Hres & _).
  rewrite E in Er. cbn [fst] in Er. injection Er as ->. rewrite R1, !map_length, seq_length in Hlen. subst m.
  assert (Nc : converged pt mt (lineAt (obj_params model) data po i) = false).
  { destruct (converged _ _ _) eqn:X; [|reflexivity]. exfalso. apply Hns. unfold stops_at.
    assert (NT : nth_error (map (lineAt (obj_params model) data po) (seq 0 (S i))) i = Some (lineAt (obj_params model) data po i)).
    { apply map_nth_error. rewrite (nth_error_nth' _ 0%nat) by (rewrite seq_length; lia). rewrite seq_nth by lia. reflexivity. }
    rewrite R1, R2, R3, !(nth_lines _ _ _ _ _ NT). now apply conv_iff. }
  pose proof (reach_lt data model pt mt po _ _ i Hst ltac:(lia)) as Hrc.
  pose proof (proj2 (after_iff u Hu data params nz n model Hus pt mt po i P psf Hrc) HA) as (S1 & G1 & [S2 G2]).
  unfold shown in Hres. replace (S i - 1)%nat with i in Hres by lia. rewrite Nc in Hres.
  assert (Sq : shape (seqP (obj_params model) data po i) = [h_size (hpar_of (obj_params model)); h_size (hpar_of (obj_params model))]) by now apply seqP_shape.
  rewrite (psfi_shape (obj_params model) Hph Hv Hc _ Sq), Enz, Hn in S2. rewrite S2 in G2.
  assert (HP : forall v w, (0 <= v < h_size (hpar_of (obj_params model)))%Z -> (0 <= w < h_size (hpar_of (obj_params model)))%Z -> get P [v; w] = fn (seqP (obj_params model) data po i) (row (obj_params model) v) (row (obj_params model) w)).
  { intros v w Hv' Hw'. rewrite Hn in Hv', Hw'. now apply G1. }
  split; [exact S2|]. split.
  - intros z y x Hz Hy Hx. rewrite G2 by now apply inb3. rewrite (psfi_at (obj_params model) Hph Hv Hc) by (first [exact Sq | rewrite Hn; assumption]).
    rewrite (amp_field (obj_params model) Hph Hn2 _ (fun v w => get P [v; w]) z y x HP). reflexivity.
  - destruct (result_pupil (obj_params model) Hph Hv Hc Hn2 data Hd po _ r Hres) as (P' & EP & SP & GP). rewrite Hn in SP, GP.
    exists P'. split; [exact EP|]. split; [exact SP|]. intros v w Hv' Hw'. rewrite GP by auto. cbn [seqP].
    destruct (nextP_ok (obj_params model) Hph Hv Hc Hn2 data Hd po (seqP (obj_params model) data po i) Sq) as (_ & _ & GN).
    rewrite GN by now apply row_in. rewrite Enz. apply (step_update (obj_params model) Hph Hn2 nz data po _ (fun v w => get P [v; w])); auto; rewrite Hn; auto.
Qed.
Print Assumptions C75_iteration.

(** ** C49 the parameters used *)
(** For data of shape (nz, n, n): whether or not the call succeeds, the caller's dictionary afterwards has the four imposed
    entries and is otherwise as before. *)
Theorem C49_callers_dictionary :
  forall u data params k pt mt po nz n, shape data = [nz; n; n] -> (0 < k)%Z ->
    imposed nz n params (snd (retrieve_phase u data params k pt mt po)).
Proof.
  intros u data params k pt mt po nz n Hs Hk. unfold retrieve_phase. replace (0 <? k)%Z with true by (symmetry; now apply Z.ltb_lt). cbn [negb]. rewrite Hs, Z.eqb_refl. cbn [negb snd]. apply forced_imposed.
Qed.
Print Assumptions C49_callers_dictionary.
(** The model returned has the imposed settings and for the rest what the caller passed. *)
Theorem C49_model_parameters :
  forall u data params k pt mt po nz n r d', shape data = [nz; n; n] -> retrieve_phase u data params k pt mt po = (Ok r, d') ->
    o_attr (r_model r) A_vec_corr = Some (VStr "none") /\ o_attr (r_model r) A_condition = Some (VStr "none") /\
    o_attr (r_model r) A_size = Some (VInt n) /\ o_attr (r_model r) A_zsize = Some (VInt nz) /\
    (forall key a, In (key, a) [("wl", A_wl); ("na", A_na); ("ni", A_ni); ("res", A_res)]%string ->
       exists v, dget params key = Some (KV v) /\ o_attr (r_model r) a = Some v) /\
    (match dget params "zres" with
     | None | Some (KV VNone) => o_attr (r_model r) A_zres = o_attr (r_model r) A_res
     | Some (KV v) => o_attr (r_model r) A_zres = Some v
     | Some (KZ _) => False
     end) /\
    (match dget params "zrange" with
     | None | Some (KV VNone) => o_zrange (r_model r) = gen_range (Some (VInt nz)) (o_attr (r_model r) A_zres)
     | Some (KV v) => exists f, M_Val.num v = Some f /\ o_zrange (r_model r) = Some [f]
     | Some (KZ (ZScalar f)) => o_zrange (r_model r) = Some [f]
     | Some (KZ (ZList l)) => o_zrange (r_model r) = Some l
     end) /\
    forall key v, In (key, v) params -> In key ["wl"; "na"; "ni"; "res"; "size"; "zres"; "zsize"; "vec_corr"; "condition"; "zrange"]%string.
Proof.
  intros u data params k pt mt po nz n r d' Hs H. apply retrieve_inv in H. destruct H as (nz' & n' & kk & model & pupil & Q & lines & o' & mg & ph & Hsh & Hk & -> & Hc & Hm & Hp & Hl & E1 & E2 & ->).
  assert (nz' = nz /\ n' = n) as [-> ->] by (split; congruence).
  destruct (loop_lines data (amap psqrt data) (amap Re pupil) pt mt po (Z.to_nat k) _ _ _ _ _ _ _ ltac:(lia) Hl) as (new & _ & _ & [Sa Sz] & _).
  cbn [r_model mk_result]. rewrite Sa, Sz. clear Hl E1 E2 Sa Sz.
  destruct (imposed_ctor nz n params _ kk (forced_imposed nz n params) Hc) as (K1 & K2 & K3 & K4 & K5 & K6 & K7 & K8 & K9 & K10).
  pose proof (C74_constructor_arguments numeric Hanser kk model Hm) as (V1 & V2 & V3 & V4 & V5 & V6 & V7 & V8 & V9 & _ & V10). specialize (V10 eq_refl).
  rewrite V8, V9, V5, V7, K1, K2, K3, K4. repeat (split; [reflexivity|]).
  assert (VA : forall a, a <> A_dual -> exists v, o_attr model a = Some v /\ valid_value a v).
  { intros a Ha. apply (C26_parameters_valid numeric Hanser kk model [] a Hm). congruence. }
  assert (RQ : forall key v, required params key = Ok v -> (exists f, M_Val.num v = Some f) -> dget params key = Some (KV v)).
  { intros key v Hq (f & Hf). unfold required in Hq. destruct (dget params key) as [[w|z]|]; [injection Hq as <-; reflexivity|injection Hq as <-; discriminate|discriminate]. }
  split; [|split; [|split]].
  - intros key a [[= <- <-]|[[= <- <-]|[[= <- <-]|[[= <- <-]|[]]]]].
    + destruct (VA A_wl ltac:(discriminate)) as (v & Ev & f & Hf & _). assert (v = k_wl kk) by congruence. subst v. exists (k_wl kk). split; [apply RQ; eauto|exact V1].
    + destruct (VA A_na ltac:(discriminate)) as (v & Ev & f & Hf & _). assert (v = k_na kk) by congruence. subst v. exists (k_na kk). split; [apply RQ; eauto|exact V2].
    + destruct (VA A_ni ltac:(discriminate)) as (v & Ev & f & Hf & _). assert (v = k_ni kk) by congruence. subst v. exists (k_ni kk). split; [apply RQ; eauto|exact V3].
    + destruct (VA A_res ltac:(discriminate)) as (v & Ev & f & Hf). assert (v = k_res kk) by congruence. subst v. exists (k_res kk). split; [apply RQ; eauto|exact V4].
  - destruct (VA A_zres ltac:(discriminate)) as (v & Ev & f & Hf & _). rewrite V6, V4, K9 in *. unfold optional in *. destruct (dget params "zres") as [[w|z]|]; cbn [as_val not_none] in *.
    + destruct w; cbn [not_none] in *; reflexivity.
    + injection Ev as <-. discriminate.
    + reflexivity.
  - rewrite V10. unfold zrange_kw in K10. rewrite V7, K4. destruct (dget params "zrange") as [[w|[f|l]]|].
    + destruct w; try (injection K10 as <-; reflexivity); destruct (M_Val.num _) as [g|] eqn:Eg; try discriminate; injection K10 as <-; exists g; split; auto.
    + injection K10 as <-. reflexivity.
    + injection K10 as <-. reflexivity.
    + injection K10 as <-. reflexivity.
  - intros key v Hin. unfold ctor_of in Hc. destruct (forallb _ (forced nz n params)) eqn:Ef; cbn [negb] in Hc; [|discriminate].
    assert (exists w, In (key, w) (forced nz n params)) as [w Hw].
    { unfold forced. assert (D : forall d s x, (exists w, In (key, w) d) -> exists w, In (key, w) (dset d s x)).
      { induction d as [|[s' x'] d IH]; intros s x [w Hw]; [destruct Hw|]. cbn [dset]. destruct (String.eqb_spec s s') as [->|]; destruct Hw as [[= -> ->]|Hw].
        - eexists; now left.
        - eexists; right; eauto.
        - eexists; now left.
        - destruct (IH s x (ex_intro _ w Hw)) as [w' Hw']. exists w'. now right. }
      repeat apply D. eauto. }
    rewrite forallb_forall in Ef. specialize (Ef _ Hw). cbn [fst] in Ef. apply existsb_exists in Ef. destruct Ef as (y & Hy & Hyy). apply String.eqb_eq in Hyy. subst y. exact Hy.
Qed.
Print Assumptions C49_model_parameters.
(** A z range with another number of planes than the data (and neither number 1) is refused, after the dictionary was changed. *)
Theorem C49_plane_mismatch :
  forall u data params nz n m model k pt mt po, shape data = [nz; n; n] -> (0 < k)%Z ->
    (exists c, ctor_of (forced nz n params) = Ok c /\ construct numeric Hanser c = Ok model) -> finite_model model -> physical (hpar_model model) ->
    Z.of_nat (List.length (h_zrange (hpar_model model))) = m -> m <> nz -> m <> 1%Z -> nz <> 1%Z ->
    fst (retrieve_phase u data params k pt mt po) = Err ValueError.
Proof.
  intros u data params nz n m model k pt mt po Hs Hk Hc Hf Hph Hm H1 H2 H3. destruct (made_model params nz n model Hc Hf) as (Hr & Hv & Hcd & Hn). destruct Hc as (c & Ec & Em).
  unfold retrieve_phase. replace (0 <? k)%Z with true by (symmetry; now apply Z.ltb_lt). cbn [negb]. rewrite Hs, Z.eqb_refl. cbn [negb fst]. rewrite Ec. cbn [bind]. rewrite Em. cbn [bind].
  assert (G : gen_kr_pupil (hpar_of (obj_params model)) = Ok (gen_pupil (hpar_of (obj_params model)))).
  { unfold gen_kr_pupil. destruct (physical_nz _ Hph) as [N1 N2]. destruct (Req_EM_T _ _); [contradiction|]. destruct (Req_EM_T _ _); [contradiction|]. reflexivity. }
  rewrite G. cbn [bind]. destruct (Z.to_nat k) as [|f] eqn:Ek; [lia|]. cbn [pr_loop].
  destruct (L_Phase3.iter (obj_params model) Hr Hph (gen_pupil (hpar_of (obj_params model))) model eq_refl eq_refl) as (o1 & o2 & v & w & A1 & A2 & A3 & _).
  unfold bindM at 1. rewrite A1. unfold bindM at 1. rewrite A2. unfold bindM at 1. unfold lift at 1. unfold calc_mse. rewrite A3.
  pose proof (psfi_shape (obj_params model) Hph Hv Hcd (gen_pupil (hpar_of (obj_params model))) eq_refl) as Ss.
  unfold bop, bshape. rewrite Ss, Hs. change (h_size (hpar_of (obj_params model))) with (h_size (hpar_model model)). rewrite Hn. change (hpar_of (obj_params model)) with (hpar_model model). rewrite Hm.
  cbn [rev app bshape_rev]. unfold bdim. rewrite Z.eqb_refl. cbn [bind]. destruct (Z.eqb_spec nz m); [congruence|]. destruct (Z.eqb_spec nz 1); [congruence|]. destruct (Z.eqb_spec m 1); [congruence|]. reflexivity.
Qed.
Print Assumptions C49_plane_mismatch.

(** ** The hypotheses are met *)
(** [dict(wl=520, na=6/5, ni=3/2, res=90, zres=100, size=5)] (size is overridden) with data of shape (7, 64, 64). *)
Definition wdict : pdict :=
  [("wl", KV (VInt 520)); ("na", KV (qf 6 5)); ("ni", KV (qf 3 2)); ("res", KV (VInt 90)); ("zres", KV (VInt 100)); ("size", KV (VInt 5))]%string.
Definition wctor : ctor :=
  mkCtor (VInt 520) (qf 6 5) (qf 3 2) (VInt 90) (VInt 64) (Some (VInt 100)) (Some (VInt 7)) (VStr "none") (VStr "none") None (VBool false).
Definition wmade (E : engine) : obj E := match construct E Hanser wctor with Ok o => o | Err _ => empty_obj E end.
Lemma wctor_ok E : construct E Hanser wctor = Ok (wmade E).
Proof. vm_compute. reflexivity. Qed.
Definition wpar : params := Eval vm_compute in obj_params (wmade toy).
Lemma wmade_params E : obj_params (wmade E) = wpar.
Proof. vm_compute. reflexivity. Qed.
Lemma wmade_attr E a : o_attr (wmade E) a = o_attr (wmade toy) a.
Proof. destruct a; vm_compute; reflexivity. Qed.
Lemma wmade_z E : o_zrange (wmade E) = o_zrange (wmade toy).
Proof. vm_compute. reflexivity. Qed.
Definition wdata : array R := mkArr [7; 64; 64]%Z (fun ix => match ix with [z; y; x] => IZR (z + y * x) | _ => 0 end).
Example usable_witness : usable wdata wdict 7 64 (wmade numeric).
Proof.
  split; [reflexivity|]. split; [lia|]. split; [lia|]. split; [exists wctor; split; [reflexivity|apply wctor_ok]|]. unfold hpar_model. split.
  - unfold finite_model. rewrite !wmade_attr, wmade_z. repeat (split; [vm_compute; eauto|]). eexists. split; [vm_compute; reflexivity|]. repeat constructor; eexists; reflexivity.
  - rewrite wmade_params. split; [|reflexivity]. unfold physical. cbn. unfold Q2R. cbn. repeat split; try lia; try lra.
Qed.
Example unwraps_witness : unwraps (fun a => a).
Proof. intros a. split; [reflexivity|]. intros ix _. exists 0%Z. ring. Qed.
(** perfect data exists: the model's own PSF *)
Example perfect_witness : exists v data, fst (read numeric Hanser PSFi (wmade numeric)) = Ok v /\ usable data wdict 7 64 (wmade numeric) /\ arr_eq data (reals v).
Proof.
  destruct (start_psf _ _ _ _ _ usable_witness false) as (v & Ev & Av). exists v, (reals v). split; [exact Ev|]. split; [|split; reflexivity].
  destruct usable_witness as (_ & H). split; [|exact H]. destruct (hyps _ _ _ _ _ usable_witness) as (_ & Hph & Hv & Hc & Hn & _). destruct Av as [-> _]. rewrite (psfi_shape _ Hph Hv Hc) by reflexivity.
  rewrite Hn. destruct H as (_ & _ & _ & _ & _ & Hz). unfold hpar_model in Hz. now rewrite Hz.
Qed.
(** a range of three planes with seven measured planes *)
Definition wdict3 : pdict := wdict ++ [("zrange", KZ (ZList [FFin 0; FFin 1; FFin 2]))]%string.
Definition wctor3 : ctor :=
  mkCtor (VInt 520) (qf 6 5) (qf 3 2) (VInt 90) (VInt 64) (Some (VInt 100)) (Some (VInt 7)) (VStr "none") (VStr "none") (Some (ZList [FFin 0; FFin 1; FFin 2])) (VBool false).
Definition wmade3 (E : engine) : obj E := match construct E Hanser wctor3 with Ok o => o | Err _ => empty_obj E end.
Example mismatch_witness : ctor_of (forced 7 64 wdict3) = Ok wctor3 /\ construct numeric Hanser wctor3 = Ok (wmade3 numeric) /\
  finite_model (wmade3 numeric) /\ physical (hpar_model (wmade3 numeric)) /\ Z.of_nat (List.length (h_zrange (hpar_model (wmade3 numeric)))) = 3%Z.
Proof.
  assert (A : forall E, construct E Hanser wctor3 = Ok (wmade3 E)) by (intros E; vm_compute; reflexivity).
  assert (B : forall E, obj_params (wmade3 E) = obj_params (wmade3 toy)) by (intros E; vm_compute; reflexivity).
  assert (C1 : forall E a, o_attr (wmade3 E) a = o_attr (wmade3 toy) a) by (intros E []; vm_compute; reflexivity).
  assert (D : forall E, o_zrange (wmade3 E) = Some [FFin 0; FFin 1; FFin 2]) by (intros E; vm_compute; reflexivity).
  split; [reflexivity|]. split; [apply A|]. unfold hpar_model. split.
  - unfold finite_model. rewrite !C1, D. repeat (split; [vm_compute; eauto|]). eexists. split; [reflexivity|]. repeat constructor; eexists; reflexivity.
  - rewrite B. set (q := obj_params (wmade3 toy)). vm_compute in q. subst q. split; [|reflexivity]. unfold physical. cbn. unfold Q2R. cbn. repeat split; try lia; try lra.
Qed.
