From Verif Require Import M_Sheppard S_Sheppard S_FFT L_Array L_Sum L_FFT L_FFT2 L_Polar L_Hanser L_Hanser2 L_Sheppard L_Sheppard2.
Local Open Scope R_scope.
Section P.
Context (p : spar) (Hp : s_physical p).
Let n := s_size p.
Let nz := s_zsize p.

Lemma gen_otf_inv A : gen_otf p = Ok A -> A = fftshift axes123 (s_otf p).
Proof. rewrite (gen_otf_cases p Hp). destruct (Rlt_dec _ _); congruence. Qed.

Definition p0 := s_with_vec p VecNone.
Lemma Hp0 : s_physical p0. Proof. exact Hp. Qed.
Lemma scalar_get kz ky kx : get (fftshift axes123 (s_otf p0)) [0%Z; kz; ky; kx] =
  Some (RtoC (if s_valid p (un nz kz) (un n ky) (un n kx) then 1 else 0)).
Proof. rewrite otf_get. change (s_valid p0) with (s_valid p). cbn [s_size s_zsize p0 s_with_vec]. fold n nz. destruct (s_valid p _ _ _); reflexivity. Qed.
Lemma in_band_valid A0 kz ky kx : gen_otf p0 = Ok A0 -> (in_band A0 kz ky kx <-> s_valid p (un nz kz) (un n ky) (un n kx) = true).
Proof.
  intros H. assert (E : A0 = fftshift axes123 (s_otf p0)).
  { revert H. rewrite (gen_otf_cases p0 Hp0). destruct (Rlt_dec _ _); congruence. }
  unfold in_band. rewrite E, scalar_get. destruct (s_valid p _ _ _); split; auto; try discriminate. intros H'. apply Some_inj in H' || injection H' as H'. exfalso. lra.
Qed.
Lemma axis_ix k : (0 <= k < n)%Z -> (sfl p k = 0 <-> k = (n / 2)%Z).
Proof.
  intros Hk. destruct (sizes_pos p Hp) as [Hn _]. fold n in Hn. unfold sfl, cfreq. fold n.
  assert (Hr : 0 < s_res p) by apply Hp. assert (0 < IZR n) by now apply IZR_lt. assert (Hd : 0 < / (IZR n * s_res p)) by (apply Rinv_0_lt_compat; nra).
  unfold Rdiv. split.
  - intros E. apply Rmult_integral in E. destruct E as [E|E]; [|lra]. apply eq_IZR in E. lia.
  - intros ->. rewrite Z.sub_diag. ring.
Qed.

(** scalar peak *)
Definition top : list Z := [nz - nz / 2; n - n / 2; n - n / 2]%Z.
Lemma top_in : inb [nz; n; n] top.
Proof.
  destruct Hp as (_ & _ & _ & _ & _ & H1 & H2). fold n in H1. fold nz in H2. unfold top. repeat constructor; lia.
Qed.
Lemma val_real ix : s_vec p = VecNone -> exists v, cval (get (fftshift axes123 (s_otf p)) ix) = RtoC v /\ 0 <= v.
Proof.
  intros Hv. unfold fftshift. cbn [get]. unfold s_otf at 1. cbn [get]. destruct (shift_ix _ _ _ _) as [|c [|z [|y [|x [|]]]]];
    try (exists 0; split; [reflexivity|lra]). destruct (s_valid p z y x); [|exists 0; split; [reflexivity|lra]].
  unfold s_value. rewrite Hv. exists 1. split; [reflexivity|lra].
Qed.
Lemma scalar_some c r : s_vec p = VecNone -> (0 <= c < components (s_vec p))%Z -> inb [nz; n; n] r -> get (fftshift axes123 (s_otf p)) (c :: r) <> None.
Proof.
  intros Hv Hc Hr. destruct (inb3_inv _ _ _ _ Hr) as (a & b & d & -> & Ha & Hb & Hd). intros E. apply (elem_none p Hp) in E; auto. tauto.
Qed.
Lemma peak_psf A : s_vec p = VecNone -> A = fftshift axes123 (s_otf p) ->
  forall ix, inb [nz; n; n] ix -> exists v w, get (s_psfi (s_psfa A)) ix = Some v /\ get (s_psfi (s_psfa A)) top = Some w /\ v <= w.
Proof.
  intros Hv HA ix Hi. pose proof (otf_shape p) as HS. fold n nz in HS. rewrite <- HA in HS.
  destruct (psf_finite p A HS) as [_ Hf].
  { intros i Hi'. destruct (inb_cons_inv _ _ _ Hi') as (c & r & -> & Hc & Hr). rewrite HA. now apply scalar_some. }
  fold n nz in Hf. rewrite (Hf ix Hi), (Hf top top_in). do 2 eexists. split; [reflexivity|]. split; [reflexivity|].
  rewrite Hv. cbn [components]. change (zseq 1) with [0%Z]. cbn [Rsum]. apply Rplus_le_compat_r.
  rewrite Hv in HS. cbn [components] in HS.
  assert (Hin : forall r, inb [nz; n; n] r -> inb (shape (amap cval A)) (0%Z :: r)). { intros r Hr. cbn [shape amap]. rewrite HS. apply inb_cons. split; [lia|auto]. }
  rewrite !easy_ifft_mop by (apply Hin; auto using top_in). rewrite !Cnorm2_mult. apply Rmult_le_compat_l; [apply Cnorm2_ge_0|].
  cbn [shape amap]. rewrite HS. cbn [length]. change (axes_mask 4 (Some [1%nat; 2%nat; 3%nat])) with [false; true; true; true].
  destruct (sizes_pos p Hp) as [Hn Hnz]. fold n in Hn. fold nz in Hnz.
  unfold top. rewrite mop_kicen_top by auto.
  set (f := get (mkArr [1%Z; nz; n; n] (fun ix0 => cval (get A ix0)))).
  destruct (inb3_inv _ _ _ _ Hi) as (a & b & d & -> & Ha & Hb & Hd).
  assert (Hre : forall r, exists v, f r = RtoC v /\ 0 <= v). { intros r. unfold f. cbn [get]. rewrite HA. now apply val_real. }
  change (get (amap cval A)) with f.
  rewrite !Cnorm2_Cmod. pose proof (mop_bound kicen [false; true; true; true] [1%Z; nz; n; n] f [0%Z; a; b; d]) as Hbd.
  assert (Hk : forall n k j, Cmod (kicen n k j) <= 1) by (intros; unfold kicen; rewrite root_mod1; lra).
  specialize (Hbd Hk).
  assert (Ebox : Rsum (box [false; true; true; true] [1%Z; nz; n; n] [0%Z; a; b; d]) (fun js => Cmod (f js)) = Rsum (all_ix [nz; n; n]) (fun r => Cmod (f (0%Z :: r)))).
  { cbn [box]. rewrite Rsum_flat_map. cbn [Rsum]. rewrite Rsum_map, Rplus_0_r. pose proof (box_all [nz; n; n] [a; b; d] Hi) as Eb. cbn [length repeat] in Eb. cbn [box] in Eb. rewrite Eb. reflexivity. }
  rewrite Ebox in Hbd.
  assert (Etop : Cmod (Csum (all_ix [nz; n; n]) (fun r => f (0%Z :: r))) = Rsum (all_ix [nz; n; n]) (fun r => Cmod (f (0%Z :: r)))).
  { rewrite (Csum_ext _ _ (fun r => RtoC (Cmod (f (0%Z :: r))))).
    - rewrite <- Csum_RtoC, Cmod_R. apply Rabs_pos_eq. apply Rsum_nonneg. intros; apply Cmod_ge_0.
    - intros r _. destruct (Hre (0%Z :: r)) as (v & -> & Hv0). now rewrite Cmod_R, Rabs_pos_eq. }
  rewrite Etop. pose proof (Cmod_ge_0 (mop kicen [false; true; true; true] [1%Z; nz; n; n] f [0%Z; a; b; d])). nra.
Qed.
End P.
