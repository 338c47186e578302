(** Convergence of phase retrieval: the sequence of pupils. *)
From Verif Require Import S_PSF S_Converge L_Array L_Sum L_FFT L_FFT2 L_Polar L_PSF L_Ctor L_Hanser L_Hanser2 L_Hanser4 L_Aberr L_Phase L_Phase2 L_Phase3 L_Phase4 L_Phase5 L_Phase6 L_Phase7 L_Converge T_PSF T_Object.
Import M_Array.
Local Open Scope R_scope.

Section R.
Context (P0 : params) (Hr : h_ready P0 = true).
Let h := hpar_of P0.
Context (Hph : physical h) (Hv : h_vec h = VecNone) (Hc : h_cond h = CondNone) (Hn2 : (2 <= h_size h)%Z).
Let n := h_size h.
Let nz := Z.of_nat (List.length (h_zrange h)).
Context (Hnz : (1 <= nz)%Z) (data : array R) (Hd : shape data = [nz; n; n]).
Let sq := seqP P0 data false.
Definition cc : R := IZR nz * / IZR (n * n).
Definition e_ i := en h (fn (sq i)).
Definition d_ i := en_diff h (fn (sq i)) (fn (sq (S i))).
Definition a_ i := aerr h nz (mgf data) (fn (sq i)).
Definition m_ := msum h nz (mgf data).
Lemma shp i : shape (sq i) = [n; n].
Proof. exact (seqP_shape P0 Hph Hv Hc Hn2 data Hd false i). Qed.
Lemma sq_S i j x : (0 <= j < n)%Z -> (0 <= x < n)%Z -> fn (sq (S i)) j x = step h nz (mgf data) (mkf h) false (fn (sq i)) j x.
Proof.
  intros Hj Hx. destruct (nextP_ok P0 Hph Hv Hc Hn2 data Hd false (sq i)) as (_ & _ & G); [now apply seqP_shape|]. fold h n nz in G. unfold fn at 1. unfold sq. cbn [seqP]. fold sq. now apply G.
Qed.
Lemma adm i : admissible h (mkf h) false (fn (sq i)).
Proof. exact (sq_admissible P0 Hph Hv Hc Hn2 data Hd false i). Qed.
Lemma cc_pos : 0 < cc. Proof. assert (Hz : (0 < nz)%Z) by lia. unfold cc. exact (c_pos h Hph nz Hz). Qed.
Lemma e_S i : en h (step h nz (mgf data) (mkf h) false (fn (sq i))) = e_ (S i).
Proof. apply plane_ext. intros j x Hj Hx. fold h n in Hj, Hx. now rewrite sq_S. Qed.
Lemma d_S i : en_diff h (fn (sq i)) (step h nz (mgf data) (mkf h) false (fn (sq i))) = d_ i.
Proof. apply plane_ext. intros j x Hj Hx. fold h n in Hj, Hx. now rewrite sq_S. Qed.
Lemma a_S i : aerr h nz (mgf data) (step h nz (mgf data) (mkf h) false (fn (sq i))) = a_ (S i).
Proof. unfold a_, aerr. apply Rsum_ext. intros z _. apply plane_ext. intros y x Hy Hx. f_equal. f_equal. f_equal. apply amp_ext; auto. intros j i' Hj Hi. symmetry. now apply sq_S. Qed.
Lemma e_nonneg i : 0 <= e_ i. Proof. apply en_nonneg. Qed.
Lemma d_nonneg i : 0 <= d_ i. Proof. apply en_diff_nonneg. Qed.
Lemma a_gain i : a_ (S i) + cc * d_ i <= a_ i.
Proof. rewrite <- a_S, <- d_S. apply gain; auto using mgf_pos, mkf_01, adm. lia. Qed.
Lemma e_grows i : e_ (S i) + d_ (S i) <= e_ (S (S i)).
Proof.
  pose proof (aerr_step_le h Hph nz ltac:(lia) (mgf data) (mkf h) (mkf_01 h) (mgf_pos data) (fn (sq i)) (adm i)) as A.
  pose proof (aerr_split h Hph nz ltac:(lia) (mgf data) (mkf h) (mkf_01 h) (fn (sq (S i))) (adm (S i))) as B.
  rewrite a_S, e_S in A. rewrite e_S, d_S in B. fold (a_ (S i)) in B. rewrite B in A. fold n in A. pose proof cc_pos as C. unfold cc in C. 
  set (c := IZR nz * / IZR (n * n)) in *. set (M := msum h nz (mgf data)) in *. nra.
Qed.
Lemma e_bound i : cc * e_ (S i) <= m_.
Proof. rewrite <- e_S. apply en_bound; auto using mkf_01, adm. lia. Qed.
Lemma e_first : osum h nz (mgf data) (fn (sq 0)) * osum h nz (mgf data) (fn (sq 0)) <= (cc * e_ 0) * (cc * e_ 1).
Proof. rewrite <- (e_S 0). apply first_light; auto using mkf_01, adm. lia. Qed.
Lemma e_mono i j : (1 <= i <= j)%nat -> e_ i <= e_ j.
Proof.
  intros [H1 H]. induction H as [|j H IH]; [lra|]. destruct j as [|j]; [lia|]. pose proof (e_grows j). pose proof (d_nonneg (S j)). lra.
Qed.
(** the sums of a PSF *)
Lemma light_sq i psf : arr_eq psf (sumsq (psfa_at P0 (sq i))) -> light psf = cc * e_ i.
Proof.
  intros [Es Eg]. rewrite (psfi_shape P0 Hph Hv Hc) in Es by apply shp. fold h n nz in Es. unfold light. rewrite Es.
  assert (Hz0 : (0 < nz)%Z) by lia. transitivity (Rsum (zseq nz) (fun z => plane_sum n (fun y x => Cnorm2 (amp h (fn (sq i)) z y x)))); [|exact (light_en h Hph nz Hz0 _)].
  etransitivity; [exact (stack_all P0 (get psf))|]. fold h n nz.
  apply Rsum_ext. intros z Hz. apply in_zseq_iff in Hz. apply plane_ext. intros y x Hy Hx. rewrite Eg by (rewrite Es; now apply inb3).
  rewrite (psfi_at P0 Hph Hv Hc (sq i) z y x (shp i) Hy Hx). fold h. rewrite Cnorm2_Cmod. ring.
Qed.
Lemma overlap_sq i psf : arr_eq psf (sumsq (psfa_at P0 (sq i))) -> overlap data psf = osum h nz (mgf data) (fn (sq i)).
Proof.
  intros [Es Eg]. rewrite (psfi_shape P0 Hph Hv Hc) in Es by apply shp. fold h n nz in Es. unfold overlap. rewrite Hd. etransitivity; [exact (stack_all P0 _)|]. fold h n nz. unfold osum. fold n.
  apply Rsum_ext. intros z Hz. apply in_zseq_iff in Hz. apply plane_ext. intros y x Hy Hx. rewrite Eg by (rewrite Es; now apply inb3).
  rewrite (psfi_at P0 Hph Hv Hc (sq i) z y x (shp i) Hy Hx). fold h. f_equal.
  replace (Cmod _ ^ 2) with (Rsqr (Cmod (amp h (fn (sq i)) z y x))) by (unfold Rsqr; ring). apply sqrt_Rsqr, Cmod_ge_0.
Qed.
Lemma measured_m : measured data = m_.
Proof.
  unfold measured. rewrite Hd. etransitivity; [exact (stack_all P0 _)|]. fold h n nz. unfold m_, msum. fold n. apply Rsum_ext. intros z Hz. apply plane_ext. intros y x Hy Hx.
  unfold mgf, psqrt. match goal with |- _ = ?s ^ 2 => replace (s ^ 2) with (s * s) by ring end. symmetry. apply sqrt_sqrt, Rmax_l.
Qed.
(** pupils that are 0 have the same error *)
Lemma e_zero i : e_ i = 0 -> forall j x, (0 <= j < n)%Z -> (0 <= x < n)%Z -> fn (sq i) j x = RtoC 0.
Proof.
  intros E j x Hj Hx. unfold e_, en, plane_sum in E. fold n in E.
  assert (NN : forall y, In y (zseq n) -> 0 <= Rsum (zseq n) (fun x => Cnorm2 (fn (sq i) y x))) by (intros; apply Rsum_nonneg; intros; apply Cnorm2_ge_0).
  assert (Ij : In j (zseq n)) by now apply in_zseq_iff. assert (Ix : In x (zseq n)) by now apply in_zseq_iff.
  pose proof (Rsum_ge_term (zseq n) (fun y => Rsum (zseq n) (fun x => Cnorm2 (fn (sq i) y x))) j NN Ij) as B1.
  pose proof (Rsum_ge_term (zseq n) (fun x => Cnorm2 (fn (sq i) j x)) x (fun _ _ => Cnorm2_ge_0 _) Ix) as B2. cbv beta in B1, B2.
  assert (E2 : Cnorm2 (fn (sq i) j x) = 0) by (pose proof (Cnorm2_ge_0 (fn (sq i) j x)); lra).
  rewrite Cnorm2_Cmod in E2. apply Cmod_eq_0. assert (0 <= Cmod (fn (sq i) j x)) by apply Cmod_ge_0. nra.
Qed.
Lemma mse_zero i j : e_ i = 0 -> e_ j = 0 -> mse_of P0 data (sq i) = mse_of P0 data (sq j).
Proof.
  intros Ei Ej. assert (Si : shape (sq i) = [n; n]) by apply shp. assert (Sj : shape (sq j) = [n; n]) by apply shp.
  rewrite !(mse_val P0 Hph Hv Hc Hn2 Hnz data Hd) by assumption. f_equal. f_equal. apply Rsum_ext. intros ix Hix. apply in_all_ix in Hix.
  destruct (inb3_inv _ _ _ _ Hix) as (z & y & x & -> & Hz & Hy & Hx). rewrite !(psfi_at P0 Hph Hv Hc) by assumption. f_equal. f_equal. f_equal. f_equal. apply amp_ext; try assumption.
  intros a b Ha Hb. rewrite !e_zero; auto.
Qed.
End R.
