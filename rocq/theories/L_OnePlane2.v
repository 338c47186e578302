(** Phase retrieval with data and model of different plane counts: the run. *)
From Verif Require Import S_OnePlane L_Array L_Sum L_FFT L_FFT2 L_Polar L_PSF L_Ctor L_Hanser L_Hanser2 L_Hanser4 L_Aberr L_Phase L_Phase2 L_Phase3 L_Phase4 L_Phase5 L_Phase6 L_OnePlane T_Object.
Import M_Array.
Local Open Scope R_scope.

(** what depends on the model only through its numbers *)
Lemma psfa_at_hpar P P' a : hpar_of P = hpar_of P' -> psfa_at P a = psfa_at P' a.
Proof. intros E. unfold psfa_at. now rewrite E. Qed.
Lemma nextP_hpar P P' d po a : hpar_of P = hpar_of P' -> nextP P d po a = nextP P' d po a.
Proof. intros E. unfold nextP. now rewrite (psfa_at_hpar P P' a E), E. Qed.
Lemma seqP_hpar P P' d po i : hpar_of P = hpar_of P' -> seqP P d po i = seqP P' d po i.
Proof. intros E. induction i as [|i IH]; cbn [seqP]; [now rewrite E|]. rewrite IH. now apply nextP_hpar. Qed.
Lemma mse_of_hpar P P' d a : hpar_of P = hpar_of P' -> mse_of P d a = mse_of P' d a.
Proof. intros E. unfold mse_of. now rewrite (psfa_at_hpar P P' a E). Qed.

(** what the step sees *)
Lemma step_ext h K mg mk po P Q j i : (forall y x, (0 <= y < h_size h)%Z -> (0 <= x < h_size h)%Z -> P y x = Q y x) ->
  (0 <= j < h_size h)%Z -> (0 <= i < h_size h)%Z -> step h K mg mk po P j i = step h K mg mk po Q j i.
Proof.
  intros E Hj Hi. assert (A : avg h K mg P j i = avg h K mg Q j i).
  { unfold avg. f_equal. apply Csum_ext. intros z _. unfold back. f_equal. apply mop_ext; [now apply inb2|]. intros js Hjs. destruct (inb2_inv _ _ _ Hjs) as (y & x & -> & Hy & Hx). cbn [fl2].
    unfold fix_mag. f_equal. f_equal. f_equal. now apply amp_ext. }
  unfold step. now rewrite A.
Qed.

Section A.
Context (P0 : params) (Hr : h_ready P0 = true).
Let h := hpar_of P0.
Context (Hph : physical h) (Hv : h_vec h = VecNone) (Hc : h_cond h = CondNone) (Hn2 : (2 <= h_size h)%Z).
Let n := h_size h.
Let nz := Z.of_nat (List.length (h_zrange h)).
Context (Hnz : (1 <= nz)%Z) (dataA dataB : array R) (Hd : shape dataB = [nz; n; n]) (po : bool) (pt mt : tol).
Context (HN : forall P, shape P = [n; n] -> exists Q, next_pupil (amap psqrt dataA) (maskA h) po h (psfa_at P0 P) = Ok Q /\ shape Q = [n; n] /\
    forall j i, (0 <= j < n)%Z -> (0 <= i < n)%Z -> get Q [j; i] = step h nz (mgf dataB) (mkf h) po (fn P) j i).
Context (HM : forall P, shape P = [n; n] -> calc_mse dataA (sumsq (psfa_at P0 P)) = Ok (mse_of P0 dataA P)).
Let sqA := seqP P0 dataA po.
Let sqB := seqP P0 dataB po.
Let lineA := lineAt P0 dataA po.
Let convA i := converged pt mt (lineA i).
Lemma nextA P : shape P = [n; n] -> next_pupil (amap psqrt dataA) (maskA h) po h (psfa_at P0 P) = Ok (nextP P0 dataA po P) /\ shape (nextP P0 dataA po P) = [n; n] /\
  forall j i, (0 <= j < n)%Z -> (0 <= i < n)%Z -> get (nextP P0 dataA po P) [j; i] = step h nz (mgf dataB) (mkf h) po (fn P) j i.
Proof. intros HP. destruct (HN P HP) as (Q & EQ & SQ & GQ). unfold nextP. fold h. rewrite EQ. auto. Qed.
Lemma sqA_shape i : shape (sqA i) = [n; n].
Proof. unfold sqA. induction i as [|i IH]; [reflexivity|]. cbn [seqP]. now apply nextA. Qed.
Lemma sqB_shape i : shape (sqB i) = [n; n].
Proof. exact (seqP_shape P0 Hph Hv Hc Hn2 dataB Hd po i). Qed.
Lemma sq_same i : forall j x, (0 <= j < n)%Z -> (0 <= x < n)%Z -> get (sqA i) [j; x] = get (sqB i) [j; x].
Proof.
  induction i as [|i IH]; intros j x Hj Hx; [reflexivity|]. unfold sqA, sqB in *. cbn [seqP].
  destruct (nextA (seqP P0 dataA po i) (sqA_shape i)) as (_ & _ & GA). destruct (nextP_ok P0 Hph Hv Hc Hn2 dataB Hd po (seqP P0 dataB po i) (sqB_shape i)) as (_ & _ & GB). fold h n nz in GB.
  rewrite GA, GB by assumption. now apply step_ext.
Qed.
Lemma dpup_same i j : dpup (sqA i) (sqA j) = dpup (sqB i) (sqB j).
Proof.
  assert (G : forall a b, shape a = [n; n] -> shape b = [n; n] -> dpup a b =
    odiv (Some (Rsum (all_ix [n; n]) (fun ix => Cmod (Cminus (get a ix) (get b ix)) ^ 2) / IZR (size [n; n]))) (Some (Rsum (all_ix [n; n]) (fun ix => Cmod (get a ix) ^ 2) / IZR (size [n; n])))).
  { intros a b Ha Hb. unfold dpup, pupil_change. destruct (bop_eq (fun o n0 : C => Cmod (Cminus o n0) ^ 2) a b) as (c & E & Sc & Gc); [congruence|]. rewrite E. cbn [bind].
    rewrite Ha in Sc, Gc. unfold mean. cbn [amap shape get]. rewrite Sc, Ha. assert (Sz : (size [n; n] =? 0)%Z = false) by (apply Z.eqb_neq; replace (size [n; n]) with (n * n)%Z by (unfold size; cbn; ring); assert (2 <= n)%Z by exact Hn2; nia). rewrite Sz.
    f_equal. f_equal. f_equal. apply Rsum_ext. intros ix Hix. apply Gc. now apply in_all_ix. }
  rewrite !G by (apply sqA_shape || apply sqB_shape).
  f_equal; f_equal; f_equal; apply Rsum_ext; intros ix Hix; apply in_all_ix in Hix; destruct (inb2_inv _ _ _ Hix) as (y & x & -> & Hy & Hx); now rewrite !sq_same.
Qed.
Lemma pupil_diffs i : l_pupil_diff (lineA i) = l_pupil_diff (lineAt P0 dataB po i).
Proof. destruct i as [|i]; [reflexivity|]. unfold lineA. cbn [lineAt l_pupil_diff]. exact (dpup_same i (S i)). Qed.
Definition oldA (i : nat) : option (option R * array C) := match i with O => None | S j => Some (mse_of P0 dataA (sqA j), sqA j) end.
Lemma loopA : forall fuel i acc o, (1 <= fuel)%nat -> obj_params o = P0 ->
  exists m o', (1 <= m <= fuel)%nat /\
    pr_loop dataA (amap psqrt dataA) (maskA h) pt mt po fuel (oldA i) (sqA i) acc o =
      (Ok (sqA (if convA (i + m - 1) then i + m - 1 else i + m), acc ++ map lineA (seq i m)), o') /\
    obj_params o' = P0 /\ (forall k, (i <= k < i + m - 1)%nat -> convA k = false) /\ ((m < fuel)%nat -> convA (i + m - 1) = true).
Proof.
  induction fuel as [|fuel IH]; intros i acc o Hf Ho; [lia|]. clear Hf.
  destruct (L_Phase3.iter P0 Hr Hph (sqA i) o Ho (sqA_shape i)) as (o1 & o2 & v & w & E1 & E2 & Ev & E3 & Ew & Ep & _).
  assert (Step : pr_loop dataA (amap psqrt dataA) (maskA h) pt mt po (S fuel) (oldA i) (sqA i) acc o =
     (if convA i then (Ok (sqA i, acc ++ [lineA i]), o2)
      else pr_loop dataA (amap psqrt dataA) (maskA h) pt mt po fuel (oldA (S i)) (sqA (S i)) (acc ++ [lineA i]) o2)).
  { cbn [pr_loop]. unfold bindM at 1. rewrite E1. unfold bindM at 1. rewrite E2. unfold bindM at 1. rewrite Ev. unfold lift at 1. rewrite (HM _ (sqA_shape i)).
    unfold bindM at 1, lift at 1.
    assert (El : (match oldA i with
                  | Some (old_mse, old_pupil) => do pd <- pupil_change old_pupil (sqA i); Ok (mkLine (mse_of P0 dataA (sqA i)) (mse_change old_mse (mse_of P0 dataA (sqA i))) pd)
                  | None => Ok (mkLine (mse_of P0 dataA (sqA i)) None None) end) = Ok (lineA i)).
    { unfold lineA. destruct i as [|j]; cbn [oldA lineAt]; [reflexivity|]. rewrite (dpup_ok P0 (sqA j) (sqA (S j)) (sqA_shape j) (sqA_shape (S j))). reflexivity. }
    rewrite El. fold (convA i). destruct (convA i); [reflexivity|]. unfold bindM at 1. rewrite E3. unfold bindM at 1. rewrite Ep. fold h. rewrite Ew, amap_id.
    rewrite (proj1 (nextA _ (sqA_shape i))). reflexivity. }
  rewrite Step. destruct (convA i) eqn:Ec.
  - exists 1%nat, o2. replace (i + 1 - 1)%nat with i by lia. rewrite Ec. split; [lia|]. split; [reflexivity|]. split; [exact Ep|]. split; [intros; lia|auto].
  - destruct fuel as [|fuel'].
    + exists 1%nat, o2. replace (i + 1 - 1)%nat with i by lia. rewrite Ec. replace (i + 1)%nat with (S i) by lia. split; [lia|]. split; [reflexivity|]. split; [exact Ep|]. split; [intros; lia|lia].
    + destruct (IH (S i) (acc ++ [lineA i]) o2 ltac:(lia) Ep) as (m & o' & Hm & E & Po & Hn & Hl). exists (S m), o'.
      replace (i + S m)%nat with (S i + m)%nat by lia. split; [lia|]. split; [rewrite E; rewrite <- app_assoc; reflexivity|]. split; [exact Po|]. split.
      * intros k Hk. destruct (Nat.eq_dec k i) as [->|]; [exact Ec|]. apply Hn. lia.
      * intros. apply Hl. lia.
Qed.
(** the result shows the pupil of the other run *)
Lemma buildA u i lines model : unwraps u -> obj_params model = P0 ->
  exists ph mg, bop Rmult (u (fftshift axes2 (amap angle (sqA i)))) (fftshift axes2 (maskA h)) = Ok ph /\
    bop Rmult (fftshift axes2 (amap Cmod (sqA i))) (fftshift axes2 (maskA h)) = Ok mg /\ is_result P0 dataB po i (mk_result mg ph lines model).
Proof.
  intros Hu Ho. assert (Ss : shape (sqA i) = [n; n]) by apply sqA_shape. destruct (Hu (fftshift axes2 (amap angle (sqA i)))) as [Su Gu].
  assert (Sa : shape (fftshift axes2 (amap angle (sqA i))) = [n; n]) by exact Ss. rewrite Sa in Su, Gu.
  destruct (bop_same Rmult (u (fftshift axes2 (amap angle (sqA i)))) (fftshift axes2 (maskA h)) n Su eq_refl) as (ph & E1 & S1 & G1).
  destruct (bop_same Rmult (fftshift axes2 (amap Cmod (sqA i))) (fftshift axes2 (maskA h)) n Ss eq_refl) as (mg & E2 & S2 & G2).
  exists ph, mg. split; [exact E1|]. split; [exact E2|]. split; [exact S2|]. split; [exact S1|]. split; [exact Ho|]. intros y x Hy Hx. cbn [r_mag r_phase mk_result].
  assert (Ry : (0 <= row P0 y < n)%Z) by (apply (row_in P0 Hn2)). assert (Rx : (0 <= row P0 x < n)%Z) by (apply (row_in P0 Hn2)).
  rewrite G1, G2 by auto. rewrite !(shift2 P0 (maskA h)), !maskA_val by reflexivity. pose proof (sq_same i _ _ Ry Rx) as ES. change (sqB i) with (seqP P0 dataB po i) in ES. rewrite <- ES. split.
  - rewrite (shift2 P0) by exact Ss. cbn [get amap]. destruct (mkf_01 h (row P0 y) (row P0 x)) as [E|E]; fold h; rewrite E; [|ring].
    rewrite ES. rewrite (off P0 Hph Hv Hc Hn2 dataB Hd po i y x E), Cmod_0. ring.
  - destruct (Gu [y; x]) as [k Ek]; [now apply inb2|]. exists k. rewrite Ek. rewrite (shift2 P0) by exact Ss. reflexivity.
Qed.
End A.

(** the whole function *)
Section W.
Context (u : array R -> array R) (Hu : unwraps u) (data : array R) (params : pdict) (nd n : Z) (kA : ctor) (model : obj numeric) (dataB : array R) (pt mt : tol) (po : bool).
Let P0 := obj_params model.
Let h := hpar_of P0.
Let nz := Z.of_nat (List.length (h_zrange h)).
Context (Sd : shape data = [nd; n; n]) (Ek : ctor_of (forced nd n params) = Ok kA) (Em : construct numeric Hanser kA = Ok model).
Context (Hr : h_ready P0 = true) (Hph : physical h) (Hv : h_vec h = VecNone) (Hc : h_cond h = CondNone) (Hn : h_size h = n) (Hn2 : (2 <= n)%Z) (Hnz : (1 <= nz)%Z) (Hd : shape dataB = [nz; n; n]).
Context (HN : forall P, shape P = [n; n] -> exists Q, next_pupil (amap psqrt data) (maskA h) po h (psfa_at P0 P) = Ok Q /\ shape Q = [n; n] /\
    forall j i, (0 <= j < n)%Z -> (0 <= i < n)%Z -> get Q [j; i] = step h nz (mgf dataB) (mkf h) po (fn P) j i).
Context (HM : forall P, shape P = [n; n] -> calc_mse data (sumsq (psfa_at P0 P)) = Ok (mse_of P0 data P)).
Let conv i := converged pt mt (lineAt P0 data po i).
Lemma retrieveA k : (1 <= k)%Z ->
  exists m r, retrieve_phase u data params k pt mt po = (Ok r, forced nd n params) /\
    ((1 <= m <= Z.to_nat k)%nat /\ (forall i, (i < m - 1)%nat -> conv i = false) /\ ((m < Z.to_nat k)%nat -> conv (m - 1) = true)) /\
    r_mse r = map l_mse (map (lineAt P0 data po) (seq 0 m)) /\ r_pupil_diff r = map l_pupil_diff (map (lineAt P0 data po) (seq 0 m)) /\
    r_mse_diff r = map l_mse_diff (map (lineAt P0 data po) (seq 0 m)) /\
    is_result P0 dataB po (if conv (m - 1) then m - 1 else m) r.
Proof.
  intros Hk. assert (Hn2' : (2 <= h_size (hpar_of P0))%Z) by (change (hpar_of P0) with h; lia). rewrite <- Hn in Sd, Hd.
  assert (HN' : forall P, shape P = [h_size h; h_size h] -> exists Q, next_pupil (amap psqrt data) (maskA h) po h (psfa_at P0 P) = Ok Q /\ shape Q = [h_size h; h_size h] /\
    forall j i, (0 <= j < h_size h)%Z -> (0 <= i < h_size h)%Z -> get Q [j; i] = step h nz (mgf dataB) (mkf h) po (fn P) j i) by (rewrite Hn; exact HN).
  assert (HM' : forall P, shape P = [h_size h; h_size h] -> calc_mse data (sumsq (psfa_at P0 P)) = Ok (mse_of P0 data P)) by (rewrite Hn; exact HM).
  assert (G : gen_kr_pupil (hpar_of (obj_params model)) = Ok (gen_pupil h)).
  { unfold gen_kr_pupil. fold P0. fold h. destruct (physical_nz _ Hph) as [N1 N2]. destruct (Req_EM_T _ _); [contradiction|]. destruct (Req_EM_T _ _); [contradiction|]. reflexivity. }
  destruct (loopA P0 Hr Hph data dataB po pt mt HN' HM' (Z.to_nat k) 0 [] model ltac:(lia) eq_refl) as (m & o' & Hm & E & Ho & Hf & Hl).
  cbn [seqP oldA] in E. cbn [app plus Nat.add] in *.
  destruct (buildA P0 Hph Hv Hc Hn2' data dataB Hd po HN' u (if conv (m - 1) then m - 1 else m) (map (lineAt P0 data po) (seq 0 m)) o' Hu Ho) as (ph & mg & E1 & E2 & Hres).
  exists m, (mk_result mg ph (map (lineAt P0 data po) (seq 0 m)) o'). split; [|split; [split; [exact Hm|]; split; [intros i Hi; apply Hf; lia|exact Hl]|]; repeat (split; [reflexivity|]); exact Hres].
  rewrite <- Hn. rewrite <- Hn in Ek. apply (retrieve_fwd u data params k pt mt po nd (h_size h) kA model (gen_pupil h) (seqP P0 data po (if conv (m - 1) then m - 1 else m))); try assumption. lia.
Qed.
End W.
