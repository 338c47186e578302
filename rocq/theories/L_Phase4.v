(** Phase retrieval: results. *)
From Verif Require Import S_Phase L_Array L_Sum L_FFT L_FFT2 L_Polar L_PSF L_Ctor L_Hanser L_Hanser2 L_Hanser4 L_Aberr L_Phase L_Phase2 L_Phase3 T_Object.
Import M_Array.
Local Open Scope R_scope.

Lemma cis_turns a k : cis (a + 2 * PI * IZR k) = cis a.
Proof.
  assert (forall m : nat, cis (a + 2 * PI * INR m) = cis a /\ cis (a - 2 * PI * INR m) = cis a) as H.
  { intros m. unfold cis. split; f_equal.
    - replace (a + 2 * PI * INR m) with (a + 2 * INR m * PI) by ring. apply cos_period.
    - replace (a + 2 * PI * INR m) with (a + 2 * INR m * PI) by ring. apply sin_period.
    - rewrite <- (cos_period (a - 2 * PI * INR m) m). f_equal. ring.
    - rewrite <- (sin_period (a - 2 * PI * INR m) m). f_equal. ring. }
  destruct (Z_le_gt_dec 0 k) as [Hk|Hk].
  - rewrite <- (Z2Nat.id k Hk), <- INR_IZR_INZ. apply H.
  - replace (a + 2 * PI * IZR k) with (a - 2 * PI * INR (Z.to_nat (- k))); [apply H|]. rewrite INR_IZR_INZ, Z2Nat.id, opp_IZR by lia. ring.
Qed.

Section R.
Context (P0 : params) (Hr : h_ready P0 = true).
Let h := hpar_of P0.
Context (Hph : physical h) (Hv : h_vec h = VecNone) (Hc : h_cond h = CondNone) (Hn2 : (2 <= h_size h)%Z).
Let n := h_size h.
Let nz := Z.of_nat (List.length (h_zrange h)).
Context (Hnz : (1 <= nz)%Z) (data : array R) (Hd : shape data = [nz; n; n]) (po : bool).
Let sq := seqP P0 data po.
Lemma npos : (0 < n)%Z. Proof. unfold n. lia. Qed.

(** the sequence stays admissible *)
Lemma sq_admissible i : admissible h (mkf h) po (fn (sq i)).
Proof.
  destruct i as [|i].
  - intros j x Hj Hx. unfold sq, fn. cbn [seqP gen_pupil get]. fold h. unfold mkf. split.
    + intros ->. reflexivity.
    + intros _ ->. rewrite Cmod_R. apply Rabs_R1.
  - intros j x Hj Hx. pose proof (step_admissible h nz (mgf data) (mkf h) po (fn (sq i)) j x Hj Hx) as A. unfold sq, fn at 1 2. cbn [seqP].
    destruct (nextP_ok P0 Hph Hv Hc Hn2 data Hd po (sq i)) as (_ & _ & G); [now apply seqP_shape|]. fold h n nz in G. fold sq. rewrite G by auto. exact A.
Qed.
Lemma sq_off i j x : (0 <= j < n)%Z -> (0 <= x < n)%Z -> mkf h j x = 0 -> get (sq i) [j; x] = RtoC 0.
Proof. intros Hj Hx. now apply (sq_admissible i j x). Qed.
Lemma sq_one i j x : (0 <= j < n)%Z -> (0 <= x < n)%Z -> po = true -> mkf h j x = 1 -> Cmod (get (sq i) [j; x]) = 1.
Proof. intros Hj Hx. now apply (sq_admissible i j x). Qed.

(** amplitude errors *)
Definition stack_sum (F : Z -> Z -> Z -> R) : R := Rsum (zseq nz) (fun z => plane_sum n (F z)).
Lemma stack_all (F : list Z -> R) : Rsum (all_ix [nz; n; n]) F = Rsum (zseq nz) (fun z => plane_sum n (fun y x => F [z; y; x])).
Proof.
  change (all_ix [nz; n; n]) with (flat_map (fun i => map (cons i) (all_ix [n; n])) (zseq nz)). rewrite Rsum_flat_map. apply Rsum_ext. intros z _. rewrite Rsum_map.
  now rewrite <- (plane_all n (fun ix => F (z :: ix))).
Qed.
Lemma amp_error_sq i psf : arr_eq psf (sumsq (psfa_at P0 (sq i))) -> amp_error data psf = aerr h nz (mgf data) (fn (sq i)).
Proof.
  intros [Es Eg]. unfold amp_error. rewrite Hd, stack_all. unfold aerr. apply Rsum_ext. intros z Hz. apply in_zseq_iff in Hz. fold n. apply plane_ext. intros y x Hy Hx.
  rewrite (psfi_shape P0 Hph Hv Hc) in Es by now apply seqP_shape. fold h n nz in Es. rewrite Eg by (rewrite Es; now apply inb3).
  rewrite (psfi_at P0 Hph Hv Hc) by first [assumption | now apply seqP_shape]. fold h. f_equal. f_equal.
  replace (Cmod _ ^ 2) with (Rsqr (Cmod (amp h (fn (sq i)) z y x))) by (unfold Rsqr; ring). apply sqrt_Rsqr, Cmod_ge_0.
Qed.
Lemma aerr_step i : aerr h nz (mgf data) (fn (sq (S i))) <= aerr h nz (mgf data) (fn (sq i)).
Proof.
  destruct (nextP_ok P0 Hph Hv Hc Hn2 data Hd po (sq i)) as (_ & _ & G); [now apply seqP_shape|]. fold h n nz in G.
  eapply Rle_trans; [|apply (step_decreases h Hph nz ltac:(lia) (mgf data) (mgf_pos data) (mkf h) (mkf_01 h) po (fn (sq i)) (sq_admissible i))].
  right. unfold aerr. apply Rsum_ext. intros z _. apply plane_ext. intros y x Hy Hx. f_equal. f_equal. f_equal. apply amp_ext; auto.
Qed.
Lemma aerr_le i j : (i <= j)%nat -> aerr h nz (mgf data) (fn (sq j)) <= aerr h nz (mgf data) (fn (sq i)).
Proof. induction 1; [lra|]. eapply Rle_trans; [apply aerr_step|assumption]. Qed.
End R.
