(** Phase retrieval: the loop. *)
From Verif Require Import M_Phase S_Hanser L_Array L_Sum L_PSF L_Hanser L_Hanser2 L_Hanser4 L_Aberr L_Phase L_Phase2 T_Object.
Import M_Array.
Local Open Scope R_scope.

(** one apply_pupil and the reads that follow *)
Lemma iter_reads (E : engine) (p : pupil E) (o : obj E) (x : arr E) : e_gen_psf E (obj_params o) (Some p) = Ok x ->
  exists o1 o2, apply_pupil E p o = (Ok tt, o1) /\ read E Hanser PSFi o1 = (Ok (e_sumsq E x), o2) /\ read E Hanser PSFa o2 = (Ok x, o2) /\
    obj_params o2 = obj_params o /\
    fst (read E Hanser PSFa o2) = Ok x /\ fst (read E Hanser PSFi o2) = Ok (e_sumsq E x) /\
    fst (read E Hanser OTFi o2) = Ok (e_fft E (e_sumsq E x)) /\ fst (read E Hanser OTFa o2) = Ok (e_fft3 E x).
Proof.
  intros H. destruct (apply_cases E p o) as [(x' & Ex & Ea)|(e & Ee & _)]; [|congruence]. assert (x' = x) by congruence. subst x'.
  do 2 eexists. split; [exact Ea|]. split; [cbn; reflexivity|]. split; [cbn; reflexivity|]. split; [reflexivity|]. split; [reflexivity|]. split; [reflexivity|]. split; reflexivity.
Qed.

Section L.
Context (P0 : params) (Hr : h_ready P0 = true).
Let h := hpar_of P0.
Context (Hph : physical h) (Hv : h_vec h = VecNone) (Hc : h_cond h = CondNone) (Hn2 : (2 <= h_size h)%Z).
Let n := h_size h.
Let nz := Z.of_nat (List.length (h_zrange h)).
Context (Hnz : (1 <= nz)%Z) (data : array R) (Hd : shape data = [nz; n; n]) (po : bool) (pt mt : tol).
Definition psfa_at (P : array C) : array C := match M_Hanser.gen_psf h (Some P) with Ok A => A | Err _ => P end.
Definition nextP (P : array C) : array C :=
  match next_pupil (amap psqrt data) (maskA h) po h (psfa_at P) with Ok Q => Q | Err _ => P end.
Fixpoint seqP (i : nat) : array C := match i with O => gen_pupil h | S i => nextP (seqP i) end.
Definition mse_of (P : array C) : option R := match calc_mse data (sumsq (psfa_at P)) with Ok m => m | Err _ => None end.
Definition dpup (a b : array C) : option R := match pupil_change a b with Ok m => m | Err _ => None end.
Definition lineAt (i : nat) : line :=
  match i with
  | O => mkLine (mse_of (seqP O)) None None
  | S j => mkLine (mse_of (seqP i)) (mse_change (mse_of (seqP j)) (mse_of (seqP i))) (dpup (seqP j) (seqP i))
  end.
Definition oldAt (i : nat) : option (option R * array C) :=
  match i with O => None | S j => Some (mse_of (seqP j), seqP j) end.
Let conv i := converged pt mt (lineAt i).

Lemma psfa_at_ok P : shape P = [n; n] -> M_Hanser.gen_psf h (Some P) = Ok (psfa_at P).
Proof. intros HP. unfold psfa_at. destruct (gen_psf_ok h Hph (Some P)) as [A ->]; [intros ? [= <-]; exact HP|reflexivity]. Qed.
Lemma nextP_ok P : shape P = [n; n] ->
  next_pupil (amap psqrt data) (maskA h) po h (psfa_at P) = Ok (nextP P) /\ shape (nextP P) = [n; n] /\
  forall j i, (0 <= j < n)%Z -> (0 <= i < n)%Z -> get (nextP P) [j; i] = step h nz (mgf data) (mkf h) po (fn P) j i.
Proof.
  intros HP. destruct (next_val h Hph Hv Hc Hn2 data Hd po P (psfa_at P) HP (psfa_at_ok P HP)) as (Q & EQ & SQ & GQ).
  unfold nextP. rewrite EQ. auto.
Qed.
Lemma seqP_shape i : shape (seqP i) = [n; n].
Proof. induction i; [reflexivity|]. cbn [seqP]. now apply nextP_ok. Qed.
Lemma psfi_shape P : shape P = [n; n] -> shape (sumsq (psfa_at P)) = [nz; n; n].
Proof. intros HP. destruct (amp_val h Hph Hv Hc P _ HP (psfa_at_ok P HP)) as [SA _]. unfold sumsq. cbn [shape]. rewrite SA. reflexivity. Qed.
Lemma psfi_at P z y x : shape P = [n; n] -> (0 <= y < n)%Z -> (0 <= x < n)%Z -> get (sumsq (psfa_at P)) [z; y; x] = Cmod (amp h (fn P) z y x) ^ 2.
Proof.
  intros HP Hy Hx. destruct (amp_val h Hph Hv Hc P _ HP (psfa_at_ok P HP)) as [SA GA]. unfold sumsq. cbn [get]. rewrite SA. cbn [hd].
  change (zseq 1) with [0%Z]. cbn [Rsum]. rewrite GA by auto. rewrite Cnorm2_Cmod. ring.
Qed.
Lemma mse_ok P : shape P = [n; n] -> calc_mse data (sumsq (psfa_at P)) = Ok (mse_of P).
Proof.
  intros HP. unfold mse_of, calc_mse. destruct (bop_eq (fun a b => (a - b) ^ 2) data (sumsq (psfa_at P))) as (c & E & _); [rewrite psfi_shape, Hd; auto|]. rewrite E. reflexivity.
Qed.
Lemma size3 : size [nz; n; n] = (nz * (n * n))%Z. Proof. unfold size. cbn. ring. Qed.
Lemma size3_pos : (0 < nz * (n * n))%Z. Proof. unfold n. nia. Qed.
Lemma mse_val P : shape P = [n; n] ->
  mse_of P = Some (Rsum (all_ix [nz; n; n]) (fun ix => (get data ix - get (sumsq (psfa_at P)) ix) ^ 2) / IZR (nz * (n * n))).
Proof.
  intros HP. unfold mse_of, calc_mse. destruct (bop_eq (fun a b => (a - b) ^ 2) data (sumsq (psfa_at P))) as (c & E & Sc & Gc); [rewrite psfi_shape, Hd; auto|]. rewrite E. cbn [bind].
  unfold mean. rewrite Sc, Hd, size3. rewrite Hd in Gc. pose proof size3_pos. destruct (Z.eqb_spec (nz * (n * n)) 0); [lia|]. f_equal. f_equal.
  apply Rsum_ext. intros ix Hix. apply Gc. now apply in_all_ix.
Qed.
Lemma dpup_ok a b : shape a = [n; n] -> shape b = [n; n] -> pupil_change a b = Ok (dpup a b).
Proof. intros Ha Hb. unfold dpup, pupil_change. destruct (bop_eq (fun o n0 : C => Cmod (Cminus o n0) ^ 2) a b) as (c & E & _); [congruence|]. rewrite E. reflexivity. Qed.

Lemma iter P o : obj_params o = P0 -> shape P = [n; n] ->
  exists o1 o2 v w, apply_pupil numeric P o = (Ok tt, o1) /\ read numeric Hanser PSFi o1 = (Ok v, o2) /\ reals v = sumsq (psfa_at P) /\
    read numeric Hanser PSFa o2 = (Ok w, o2) /\ complexes w = amap (fun z => z) (psfa_at P) /\ obj_params o2 = P0 /\ shows o2 (psfa_at P).
Proof.
  intros Ho HP. pose proof (psfa_at_ok P HP) as HA.
  assert (G : e_gen_psf numeric (obj_params o) (Some P) = Ok (amap Some (psfa_at P))) by (cbn [numeric e_gen_psf]; rewrite Ho, Hr; fold h; rewrite HA; reflexivity).
  destruct (iter_reads numeric P o _ G) as (o1 & o2 & E1 & E2 & E3 & E4 & E5 & E6 & E7 & E8).
  pose proof (psfi_numeric (psfa_at P)) as PI. pose proof (otfi_numeric (sumsq (psfa_at P))) as OI.
  assert (E2' : read numeric Hanser PSFi o1 = (Ok (amap (fun r => Some (RtoC r)) (sumsq (psfa_at P))), o2)) by (rewrite <- PI; exact E2).
  exists o1, o2. do 2 eexists. split; [exact E1|]. split; [exact E2'|]. split; [reflexivity|]. split; [exact E3|]. split; [reflexivity|]. split; [rewrite <- Ho; exact E4|].
  unfold shows. split; [exact E5|]. split; [rewrite <- PI; exact E6|]. split.
  - rewrite <- OI, <- PI. exact E7.
  - eexists. split; [exact E8|]. apply otfa_numeric. eapply psfa_shape; eassumption.
Qed.
Lemma amap_id {A} (a : array A) : amap (fun z => z) a = a. Proof. destruct a; reflexivity. Qed.

Lemma loop : forall fuel i acc o, (1 <= fuel)%nat -> obj_params o = P0 ->
  exists m o', (1 <= m <= fuel)%nat /\
    pr_loop data (amap psqrt data) (maskA h) pt mt po fuel (oldAt i) (seqP i) acc o =
      (Ok (seqP (if conv (i + m - 1) then i + m - 1 else i + m), acc ++ map lineAt (seq i m)), o') /\
    obj_params o' = P0 /\ shows o' (psfa_at (seqP (i + m - 1))) /\
    (forall k, (i <= k < i + m - 1)%nat -> conv k = false) /\ ((m < fuel)%nat -> conv (i + m - 1) = true).
Proof.
  induction fuel as [|fuel IH]; intros i acc o Hf Ho; [lia|]. clear Hf.
  destruct (iter (seqP i) o Ho (seqP_shape i)) as (o1 & o2 & v & w & E1 & E2 & Ev & E3 & Ew & Ep & Sh).
  assert (Step : pr_loop data (amap psqrt data) (maskA h) pt mt po (S fuel) (oldAt i) (seqP i) acc o =
     (if conv i then (Ok (seqP i, acc ++ [lineAt i]), o2)
      else pr_loop data (amap psqrt data) (maskA h) pt mt po fuel (oldAt (S i)) (seqP (S i)) (acc ++ [lineAt i]) o2)).
  { cbn [pr_loop]. unfold bindM at 1. rewrite E1. unfold bindM at 1. rewrite E2. unfold bindM at 1. rewrite Ev. unfold lift at 1. rewrite (mse_ok _ (seqP_shape i)).
    unfold bindM at 1, lift at 1.
    assert (El : (match oldAt i with
                  | Some (old_mse, old_pupil) => do pd <- pupil_change old_pupil (seqP i); Ok (mkLine (mse_of (seqP i)) (mse_change old_mse (mse_of (seqP i))) pd)
                  | None => Ok (mkLine (mse_of (seqP i)) None None) end) = Ok (lineAt i)).
    { destruct i as [|j]; cbn [oldAt lineAt]; [reflexivity|]. rewrite (dpup_ok (seqP j) (seqP (S j)) (seqP_shape j) (seqP_shape (S j))). reflexivity. }
    rewrite El. fold (conv i). destruct (conv i); [reflexivity|]. unfold bindM at 1. rewrite E3. unfold bindM at 1. rewrite Ep. fold h. rewrite Ew, amap_id.
    rewrite (proj1 (nextP_ok _ (seqP_shape i))). reflexivity. }
  rewrite Step. destruct (conv i) eqn:Ec.
  - exists 1%nat, o2. replace (i + 1 - 1)%nat with i by lia. rewrite Ec. split; [lia|]. split; [reflexivity|]. split; [exact Ep|]. split; [exact Sh|]. split; [intros; lia|auto].
  - destruct fuel as [|fuel'].
    + exists 1%nat, o2. replace (i + 1 - 1)%nat with i by lia. rewrite Ec. replace (i + 1)%nat with (S i) by lia. split; [lia|]. split; [reflexivity|]. split; [exact Ep|]. split; [exact Sh|]. split; [intros; lia|lia].
    + destruct (IH (S i) (acc ++ [lineAt i]) o2 ltac:(lia) Ep) as (m & o' & Hm & E & Po & So & Hn & Hl). exists (S m), o'.
      replace (i + S m)%nat with (S i + m)%nat by lia. split; [lia|]. split; [rewrite E; rewrite <- app_assoc; reflexivity|]. split; [exact Po|]. split; [exact So|]. split.
      * intros k Hk. destruct (Nat.eq_dec k i) as [->|]; [exact Ec|]. apply Hn. lia.
      * intros. apply Hl. lia.
Qed.
End L.
