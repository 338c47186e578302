(** C66: the LabVIEW wrapper. *)
From Verif Require Import M_Labview S_Utils S_PSF S_Phase L_PSF L_Ctor L_Center L_Sum L_Array T_PSF T_PSF2 T_Ctor T_Utils T_Phase T_Phase2.
From Coq Require Import Lra Qreals Qminmax.
Import M_Array.
Local Open Scope R_scope.

Definition lv_dict (wl na ni rs zres : pyval) : pdict := [("wl", KV wl); ("na", KV na); ("ni", KV ni); ("res", KV rs); ("zres", KV zres)]%string.
Definition lv_ctor (wl na ni rs zres : pyval) (nz s : Z) : ctor :=
  mkCtor wl na ni rs (VInt s) (not_none zres) (Some (VInt nz)) (VStr "none") (VStr "none") None (VBool false).
Lemma lv_ctor_ok wl na ni rs zres nz s : ctor_of (forced nz s (lv_dict wl na ni rs zres)) = Ok (lv_ctor wl na ni rs zres nz s).
Proof. reflexivity. Qed.
Lemma real_not_none v q : M_Val.num v = Some (FFin q) -> not_none v = Some v.
Proof. destruct v; cbn; congruence. Qed.
Lemma val_R_num v q : M_Val.num v = Some (FFin q) -> val_R (Some v) = Q2R q.
Proof. intros H. unfold val_R, num_or_nan. rewrite H. reflexivity. Qed.
Lemma Q2R_pos q : (0 < q)%Q -> 0 < Q2R q.
Proof. intros H. apply Qlt_Rlt in H. rewrite RMicromega.Q2R_0 in H. exact H. Qed.
Section L.
Context (nz s : Z) (wl na ni rs zres : pyval) (qw qn qi qr qz : Q).
Hypothesis (Hw : M_Val.num wl = Some (FFin qw)) (Hn : M_Val.num na = Some (FFin qn)) (Hi : M_Val.num ni = Some (FFin qi))
  (Hr : M_Val.num rs = Some (FFin qr)) (Hz : M_Val.num zres = Some (FFin qz)).
Lemma lv_construct : (0 < nz)%Z -> (0 < s)%Z ->
  ((exists o, construct numeric Hanser (lv_ctor wl na ni rs zres nz s) = Ok o) <-> (0 < qw)%Q /\ (0 < qn)%Q /\ (0 <= qi)%Q /\ (qr < qw / (2 * qn))%Q /\ (0 < qz)%Q).
Proof.
  intros Pn Ps. rewrite (C82_constructor_accepts numeric Hanser (lv_ctor wl na ni rs zres nz s) qw qn qi qr qz Hw Hn Hi Hr).
  2: { cbn [k_zres lv_ctor]. rewrite (real_not_none _ _ Hz). exact Hz. }
  cbn [k_size k_zsize k_vec_corr k_condition lv_ctor]. split; [tauto|]. intros (A & B & C & D & F).
  assert (whole_samples (VInt s)) by (left; exists s; split; [reflexivity|lia]). assert (whole_samples (VInt nz)) by (left; exists nz; split; [reflexivity|lia]).
  assert (one_of (VStr "none") ["none"; "x"; "y"; "z"; "total"]%string) by (eexists; split; [reflexivity|left; reflexivity]).
  assert (one_of (VStr "none") ["none"; "sine"; "herschel"]%string) by (eexists; split; [reflexivity|left; reflexivity]).
  repeat (split; [assumption|]). discriminate.
Qed.
Lemma lv_usable data : shape data = [nz; s; s] -> (0 < nz)%Z -> (2 <= s)%Z -> (0 < qw)%Q -> (0 < qn)%Q -> (0 < qi)%Q -> (0 < qr)%Q -> (qr < qw / (2 * qn))%Q -> (0 < qz)%Q ->
  exists model, usable data (lv_dict wl na ni rs zres) nz s model /\
    h_size (hpar_model model) = s /\ h_wl (hpar_model model) = Q2R qw /\ h_na (hpar_model model) = Q2R qn /\ h_ni (hpar_model model) = Q2R qi /\ h_res (hpar_model model) = Q2R qr /\
    h_zrange (hpar_model model) = map (fun i => Q2R (inject_Z (i - (nz + 1) / 2) * qz)) (zseq nz).
Proof.
  intros Sd Pn Ps Pw Pna Pni Pr Lr Pz. destruct (proj2 (lv_construct Pn ltac:(lia))) as (model & Hm). { repeat split; auto using Qlt_le_weak. }
  exists model. destruct (C74_constructor_arguments _ _ _ _ Hm) as (A1 & A2 & A3 & A4 & A5 & A6 & A7 & _ & _ & _ & AZ). specialize (AZ eq_refl).
  cbn [k_wl k_na k_ni k_res k_size k_zres k_zsize k_zrange lv_ctor] in A1, A2, A3, A4, A5, A6, A7, AZ. rewrite (real_not_none _ _ Hz) in A6.
  rewrite A6, A7 in AZ. cbn [gen_range as_int] in AZ. unfold num_or_nan in AZ. rewrite Hz in AZ. cbn [fl_mul] in AZ.
  assert (E1 : h_size (hpar_model model) = s). { unfold hpar_model, hpar_of. cbn [h_size p_size obj_params]. rewrite A5. reflexivity. }
  assert (E2 : h_wl (hpar_model model) = Q2R qw). { unfold hpar_model, hpar_of. cbn [h_wl p_wl obj_params]. rewrite A1. now apply val_R_num. }
  assert (E3 : h_na (hpar_model model) = Q2R qn). { unfold hpar_model, hpar_of. cbn [h_na p_na obj_params]. rewrite A2. now apply val_R_num. }
  assert (E4 : h_ni (hpar_model model) = Q2R qi). { unfold hpar_model, hpar_of. cbn [h_ni p_ni obj_params]. rewrite A3. now apply val_R_num. }
  assert (E5 : h_res (hpar_model model) = Q2R qr). { unfold hpar_model, hpar_of. cbn [h_res p_res obj_params]. rewrite A4. now apply val_R_num. }
  assert (E6 : h_zrange (hpar_model model) = map (fun i => Q2R (inject_Z (i - (nz + 1) / 2) * qz)) (zseq nz)). { unfold hpar_model, hpar_of. cbn [h_zrange p_zrange obj_params]. rewrite AZ, map_map. reflexivity. }
  split; [|auto 10]. split; [exact Sd|]. split; [lia|]. split; [exact Ps|].
  split. { eexists. split; [apply lv_ctor_ok|exact Hm]. }
  split. { unfold finite_model. rewrite A1, A2, A3, A4. split; [eexists; exact Hw|]. split; [eexists; exact Hn|]. split; [eexists; exact Hi|]. split; [eexists; exact Hr|]. eexists. split; [exact AZ|]. apply Forall_forall. intros f Hf. apply in_map_iff in Hf. destruct Hf as (i & <- & _). eexists. reflexivity. }
  split. { unfold physical. rewrite E1, E2, E3, E4, E5. split; [now apply Q2R_pos|]. split; [left; now apply Q2R_pos|]. split; [now apply Q2R_pos|]. split; [now apply Q2R_pos|lia]. }
  rewrite E6, map_length. unfold zseq. rewrite map_length, seq_length. lia.
Qed.
End L.
Lemma tolist_spec a m n : shape a = [m; n] -> (0 <= m)%Z -> (0 <= n)%Z ->
  Z.of_nat (List.length (tolist a)) = m /\ forall y, (0 <= y < m)%Z -> exists row, nth_error (tolist a) (Z.to_nat y) = Some row /\ Z.of_nat (List.length row) = n /\
    forall x, (0 <= x < n)%Z -> nth_error row (Z.to_nat x) = Some (get a [y; x]).
Proof.
  intros Sa Hm Hn. unfold tolist. rewrite Sa.
  assert (ZN : forall k, (0 <= k)%Z -> Z.of_nat (List.length (zseq k)) = k) by (intros k Hk; unfold zseq; rewrite map_length, seq_length; lia).
  assert (ZE : forall k i, (0 <= i < k)%Z -> nth_error (zseq k) (Z.to_nat i) = Some i).
  { intros k i H. unfold zseq. rewrite nth_error_map. rewrite (nth_error_nth' _ 0%nat) by (rewrite seq_length; lia). rewrite seq_nth by lia. cbn [option_map]. f_equal. lia. }
  split; [rewrite map_length; now apply ZN|]. intros y Hy. eexists. split; [rewrite nth_error_map, (ZE m y Hy); reflexivity|]. split; [rewrite map_length; now apply ZN|].
  intros x Hx. rewrite nth_error_map, (ZE n x Hx). reflexivity.
Qed.

(** A 3-D stack of non-negative integers, any (ny, nx), and parameters HanserPSF accepts: the call succeeds and returns s rows of
    s numbers, s the larger of ny and nx (so the squareness assertion of retrieve_phase never fires).  They are the phase
    retrieve_phase returns for the stack with 3/2 of its mode subtracted, clipped at 0 and padded with zeros to s x s about the
    centre, and for dict(wl, na, ni, res, zres).  Outside the aperture, |k| >= na / wl with k = (y - s//2, x - s//2) / (s res),
    they are 0. *)
Theorem C66_labview :
  forall u (data : array Z) nz ny nx s wl na ni rs zres qw qn qi qr qz k pt mt po,
    unwraps u -> shape data = [nz; ny; nx] -> (0 < nz)%Z -> (0 < ny)%Z -> (0 < nx)%Z -> (forall ix, inb (shape data) ix -> (0 <= get data ix)%Z) ->
    s = Z.max ny nx -> (2 <= s)%Z ->
    M_Val.num wl = Some (FFin qw) -> M_Val.num na = Some (FFin qn) -> M_Val.num ni = Some (FFin qi) -> M_Val.num rs = Some (FFin qr) -> M_Val.num zres = Some (FFin qz) ->
    (0 < qw)%Q -> (0 < qn)%Q -> (0 < qi)%Q -> (0 < qr)%Q -> (qr < qw / (2 * qn))%Q -> (0 < qz)%Q -> (1 <= k)%Z ->
    exists rows mode (prepared : array R) r,
      labview u data wl na ni rs zres k pt mt po = Ok rows /\
      is_mode (flat_list data) mode /\ shape prepared = [nz; s; s] /\
      (forall ix, inb [nz; s; s] ix ->
         (inb (shape data) (moved_from (shape data) [nz; s; s] ix) ->
            get prepared ix = Rmax 0 (IZR (get data (moved_from (shape data) [nz; s; s] ix)) - 3 / 2 * IZR mode)) /\
         (~ inb (shape data) (moved_from (shape data) [nz; s; s] ix) -> get prepared ix = 0)) /\
      fst (retrieve_phase u prepared [("wl", KV wl); ("na", KV na); ("ni", KV ni); ("res", KV rs); ("zres", KV zres)]%string k pt mt po) = Ok r /\
      Z.of_nat (List.length rows) = s /\
      forall y, (0 <= y < s)%Z -> exists row, nth_error rows (Z.to_nat y) = Some row /\ Z.of_nat (List.length row) = s /\
        forall x, (0 <= x < s)%Z -> exists v, nth_error row (Z.to_nat x) = Some v /\ v = get (r_phase r) [y; x] /\
          ((Q2R qn / Q2R qw) ^ 2 <= (IZR (y - s / 2) / (IZR s * Q2R qr)) ^ 2 + (IZR (x - s / 2) / (IZR s * Q2R qr)) ^ 2 -> v = 0).
Proof.
  intros u data nz ny nx s wl na ni rs zres qw qn qi qr qz k pt mt po Hu Sd P1 P2 P3 Hd Es Hs Hw Hn Hi Hr Hz Pw Pn Pi Pr Lr Pz Hk.
  destruct (C13_prep_pad data nz ny nx None (3 # 2) s Sd P1 P2 P3 Hd Es ltac:(lia)) as (b & mode & Eb & Hmode & Sb & Gin & Gout).
  destruct (lv_usable nz s wl na ni rs zres qw qn qi qr qz Hw Hn Hi Hr Hz (amap Q2R b) Sb P1 Hs Pw Pn Pi Pr Lr Pz) as (model & Hus & E1 & E2 & E3 & _ & E5 & _).
  destruct (C47_support u (amap Q2R b) _ nz s model pt mt po Hu Hus k Hk) as (r & Er & _ & Sp & G).
  exists (tolist (r_phase r)), mode, (amap Q2R b), r.
  split. { unfold labview. rewrite Eb. cbn [bind]. unfold lv_dict in Er. rewrite Er. reflexivity. }
  split; [exact Hmode|]. split; [exact Sb|]. split.
  { intros ix Hix. split; intros H; cbn [get amap].
    - rewrite (Qeq_eqR _ _ (Gin ix Hix H)). set (v := get data _). clearbody v.
      assert (Q : Q2R (inject_Z v - (3 # 2) * inject_Z mode) = IZR v - 3 / 2 * IZR mode).
      { rewrite Q2R_minus, Q2R_mult. unfold Q2R, inject_Z. cbn. field. }
      rewrite <- Q. unfold Rmax. destruct (Q.max_spec 0 (inject_Z v - (3 # 2) * inject_Z mode)) as [[L M]|[L M]]; rewrite (Qeq_eqR _ _ M).
      + apply Qlt_Rlt in L. rewrite RMicromega.Q2R_0 in L. destruct (Rle_dec 0 _); [reflexivity|lra].
      + apply Qle_Rle in L. rewrite RMicromega.Q2R_0 in *. destruct (Rle_dec 0 _); [lra|reflexivity].
    - rewrite (Gout ix Hix H). apply RMicromega.Q2R_0. }
  split; [exact Er|]. destruct (tolist_spec _ s s Sp ltac:(lia) ltac:(lia)) as [T1 T2]. split; [exact T1|].
  intros y Hy. destruct (T2 y Hy) as (row & R1 & R2 & R3). exists row. split; [exact R1|]. split; [exact R2|]. intros x Hx. eexists. split; [apply R3; exact Hx|]. split; [reflexivity|].
  intros Out. apply (G y x Hy Hx). unfold inside, cfreq. rewrite E1, E2, E3, E5. lra.
Qed.
Print Assumptions C66_labview.

(** What is refused: stacks that are not 3-D, empty or with a negative entry (ValueError); no iterations (AssertionError);
    parameters HanserPSF does not accept (res not below wl / (2 na), and so on). *)
Theorem C66_refused :
  forall u (data : array Z) wl na ni rs zres k pt mt po,
    (List.length (shape data) <> 3%nat -> labview u data wl na ni rs zres k pt mt po = Err ValueError) /\
    (forall nz ny nx, shape data = [nz; ny; nx] -> (0 <= nz)%Z -> (0 <= ny)%Z -> (0 <= nx)%Z ->
       ((nz = 0 \/ ny = 0 \/ nx = 0)%Z \/ exists ix, inb (shape data) ix /\ (get data ix < 0)%Z) ->
       labview u data wl na ni rs zres k pt mt po = Err ValueError) /\
    (forall nz ny nx, shape data = [nz; ny; nx] -> (0 < nz)%Z -> (0 < ny)%Z -> (0 < nx)%Z -> (forall ix, inb (shape data) ix -> (0 <= get data ix)%Z) ->
       ((k <= 0)%Z -> labview u data wl na ni rs zres k pt mt po = Err AssertionError) /\
       (forall qw qn qi qr qz, M_Val.num wl = Some (FFin qw) -> M_Val.num na = Some (FFin qn) -> M_Val.num ni = Some (FFin qi) -> M_Val.num rs = Some (FFin qr) -> M_Val.num zres = Some (FFin qz) ->
          ((qw <= 0)%Q \/ (qn <= 0)%Q \/ (qi < 0)%Q \/ (qw / (2 * qn) <= qr)%Q \/ (qz <= 0)%Q) ->
          exists e, labview u data wl na ni rs zres k pt mt po = Err e)).
Proof.
  intros u data wl na ni rs zres k pt mt po. split; [|split].
  - intros H. unfold labview, prep_data_for_PR. destruct (shape data) as [|a [|b [|c [|d l]]]]; try reflexivity. now contradiction H.
  - intros nz ny nx Sd P1 P2 P3 H. unfold labview, prep_data_for_PR. rewrite Sd. rewrite (C11_remove_bg_rejects data (3 # 2)); [reflexivity|rewrite Sd; repeat constructor; assumption|].
    destruct H as [H|H]; [left; rewrite Sd; cbn; destruct H as [->|[->| ->]]; auto|right; exact H].
  - intros nz ny nx Sd P1 P2 P3 Hd. destruct (C13_prep_pad data nz ny nx None (3 # 2) _ Sd P1 P2 P3 Hd eq_refl ltac:(lia)) as (b & mode & Eb & _ & Sb & _). unfold labview. rewrite Eb. cbn [bind]. split.
    + intros Hk. rewrite (proj1 (C45_refused u (amap Q2R b) _ k pt mt po) Hk). reflexivity.
    + intros qw qn qi qr qz Hw Hn Hi Hr Hz Bad. destruct (Z_lt_le_dec 0 k) as [Hk|Hk]; [|rewrite (proj1 (C45_refused u (amap Q2R b) _ k pt mt po) Hk); eexists; reflexivity].
      unfold retrieve_phase. replace (0 <? k)%Z with true by (symmetry; now apply Z.ltb_lt). cbn [negb]. cbn [shape amap]. rewrite Sb, Z.eqb_refl. cbn [negb fst].
      change [("wl", KV wl); ("na", KV na); ("ni", KV ni); ("res", KV rs); ("zres", KV zres)]%string with (lv_dict wl na ni rs zres). rewrite lv_ctor_ok. cbn [bind].
      destruct (construct numeric Hanser (lv_ctor wl na ni rs zres nz (Z.max ny nx))) as [o|e] eqn:Ec; [|eexists; reflexivity]. exfalso.
      destruct (proj1 (lv_construct nz (Z.max ny nx) wl na ni rs zres qw qn qi qr qz Hw Hn Hi Hr Hz P1 ltac:(lia)) (ex_intro _ o Ec)) as (A & B & C & D & F).
      destruct Bad as [X|[X|[X|[X|X]]]]; [exact (Qlt_irrefl _ (Qlt_le_trans _ _ _ A X))|exact (Qlt_irrefl _ (Qlt_le_trans _ _ _ B X))|exact (Qlt_irrefl _ (Qle_lt_trans _ _ _ C X))|exact (Qlt_irrefl _ (Qlt_le_trans _ _ _ D X))|exact (Qlt_irrefl _ (Qlt_le_trans _ _ _ F X))].
Qed.
Print Assumptions C66_refused.

(** Hypotheses of C66_labview on a 2 x 3 x 5 stack. *)
Example C66_witness : exists rows, labview (fun a => a) (mkArr [2; 3; 5]%Z (fun ix => match ix with [z; y; x] => (z + y * x)%Z | _ => 0%Z end))
    (VInt 520) (qf 6 5) (qf 3 2) (VInt 90) (VInt 100) 200 (Tol (1 / 100000000)) (Tol (1 / 100000000)) false = Ok rows /\ List.length rows = 5%nat.
Proof.
  destruct (C66_labview (fun a => a) (mkArr [2; 3; 5]%Z (fun ix => match ix with [z; y; x] => (z + y * x)%Z | _ => 0%Z end)) 2 3 5 5 (VInt 520) (qf 6 5) (qf 3 2) (VInt 90) (VInt 100)
    520 (6 # 5) (3 # 2) 90 100 200 (Tol (1 / 100000000)) (Tol (1 / 100000000)) false) as (rows & _ & _ & _ & E & _ & _ & _ & _ & L & _); try reflexivity; try lia.
  - apply unwraps_witness.
  - intros ix H. cbn [get]. cbn [shape] in H. inversion_clear H as [|? ? ? ? B1 H1]. inversion_clear H1 as [|? ? ? ? B2 H2]. inversion_clear H2 as [|? ? ? ? B3 H3]. inversion_clear H3. lia.
  - exists rows. split; [exact E|lia].
Qed.
