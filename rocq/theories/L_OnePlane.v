(** Phase retrieval with data and model of different plane counts, one of them 1. *)
From Verif Require Import S_OnePlane L_Array L_Sum L_FFT L_FFT2 L_Polar L_PSF L_Ctor L_Hanser L_Hanser2 L_Hanser4 L_Aberr L_Phase L_Phase2 L_Phase3 L_Phase4 L_Phase5 L_Phase6 T_Object.
Import M_Array.
Local Open Scope R_scope.

(** ** broadcasting *)
Lemma bdim_1l k : bdim 1 k = Ok k.
Proof. unfold bdim. destruct (Z.eqb_spec 1 k); reflexivity. Qed.
Lemma bdim_1r k : bdim k 1 = Ok k.
Proof. unfold bdim. destruct (Z.eqb_spec k 1) as [->|]; [reflexivity|]. destruct (Z.eqb_spec k 1); [contradiction|]. reflexivity. Qed.
Lemma bop_first {A B D} (f : A -> B -> D) (a : array A) (b : array B) k n : shape a = [1; n; n]%Z -> shape b = [k; n; n] ->
  exists c, bop f a b = Ok c /\ shape c = [k; n; n] /\ forall z y x, (0 <= z < k)%Z -> (0 <= y < n)%Z -> (0 <= x < n)%Z -> get c [z; y; x] = f (get a [0%Z; y; x]) (get b [z; y; x]).
Proof.
  intros Ha Hb. unfold bop, bshape. rewrite Ha, Hb. cbn [rev app bshape_rev]. rewrite !bdim_same, bdim_1l. cbn. eexists. split; [reflexivity|]. split; [reflexivity|].
  intros z y x Hz Hy Hx. cbn [get]. unfold bget. rewrite Ha, Hb. cbn [List.length Nat.sub skipn bixs]. change (bix 1 z) with 0%Z. rewrite !bix_in by assumption. reflexivity.
Qed.
Lemma bop_second {A B D} (f : A -> B -> D) (a : array A) (b : array B) k n : shape a = [k; n; n] -> shape b = [1; n; n]%Z ->
  exists c, bop f a b = Ok c /\ shape c = [k; n; n] /\ forall z y x, (0 <= z < k)%Z -> (0 <= y < n)%Z -> (0 <= x < n)%Z -> get c [z; y; x] = f (get a [z; y; x]) (get b [0%Z; y; x]).
Proof.
  intros Ha Hb. unfold bop, bshape. rewrite Ha, Hb. cbn [rev app bshape_rev]. rewrite !bdim_same, bdim_1r. cbn. eexists. split; [reflexivity|]. split; [reflexivity|].
  intros z y x Hz Hy Hx. cbn [get]. unfold bget. rewrite Ha, Hb. cbn [List.length Nat.sub skipn bixs]. change (bix 1 z) with 0%Z. rewrite !bix_in by assumption. reflexivity.
Qed.
Lemma bop_image {A B D} (f : A -> B -> D) (a : array A) (b : array B) k n : shape a = [k; n; n] -> shape b = [n; n] ->
  exists c, bop f a b = Ok c /\ shape c = [k; n; n] /\ forall z y x, (0 <= z < k)%Z -> (0 <= y < n)%Z -> (0 <= x < n)%Z -> get c [z; y; x] = f (get a [z; y; x]) (get b [y; x]).
Proof.
  intros Ha Hb. unfold bop, bshape. rewrite Ha, Hb. cbn [rev app bshape_rev]. rewrite !bdim_same. cbn. eexists. split; [reflexivity|]. split; [reflexivity|].
  intros z y x Hz Hy Hx. cbn [get]. unfold bget. rewrite Ha, Hb. cbn [List.length Nat.sub skipn bixs]. rewrite !bix_in by (auto || lia). reflexivity.
Qed.

(** ** sums under the transform *)
Lemma mop_Csum {X} K mask sh (l : list X) (g : X -> list Z -> C) ks :
  mop K mask sh (fun js => Csum l (fun z => g z js)) ks = Csum l (fun z => mop K mask sh (g z) ks).
Proof.
  induction l as [|a l IH]; cbn [Csum].
  - transitivity (mop K mask sh (fun js => Cmult (RtoC 0) ((fun _ => RtoC 0) js)) ks); [apply mop_ext'; intros; ring|]. rewrite mop_scal. ring.
  - transitivity (mop K mask sh (fun js => Cplus (g a js) ((fun js => Csum l (fun z => g z js)) js)) ks); [reflexivity|].
    transitivity (mop K mask sh (fun js => Cplus (g a js) (Cmult (RtoC 1) ((fun js => Csum l (fun z => g z js)) js))) ks); [apply mop_ext'; intros; ring|].
    rewrite mop_plus. f_equal. rewrite mop_scal. cbv beta. rewrite IH. ring.
Qed.

(** ** one update *)
Section N.
Context (h : hpar) (Hph : physical h) (Hv : h_vec h = VecNone) (Hc : h_cond h = CondNone) (Hn2 : (2 <= h_size h)%Z).
Let n := h_size h.
Let nz := Z.of_nat (List.length (h_zrange h)).
Lemma finish mag po A N K B : (1 <= K)%Z -> nz = K \/ nz = 1%Z ->
  bop (fun m p => Cmult (RtoC m) (cis p)) mag (amap angle (squeeze A)) = Ok N -> shape N = [K; n; n] ->
  (forall z y x, (0 <= z < K)%Z -> (0 <= y < n)%Z -> (0 <= x < n)%Z -> get N [z; y; x] = B z y x) ->
  exists Q, next_pupil mag (maskA h) po h A = Ok Q /\ shape Q = [n; n] /\
    forall j i, (0 <= j < n)%Z -> (0 <= i < n)%Z -> get Q [j; i] =
      let a := Cmult (Cdiv (Csum (zseq K) (fun z => back h (B z) (if (nz =? 1)%Z then 0%Z else z) j i)) (RtoC (IZR K))) (RtoC (mkf h j i)) in
      if po then Cmult (cis (angle a)) (RtoC (mkf h j i)) else a.
Proof.
  intros HK Hz EN SN GN. unfold next_pupil. rewrite EN. cbn [bind].
  assert (IB : exists D, ibop Cdiv (fftn axes12 (ifftshift axes12 N)) (calc_defocus h) = Ok D /\ shape D = [K; n; n] /\
     forall z j i, (0 <= z < K)%Z -> (0 <= j < n)%Z -> (0 <= i < n)%Z -> get D [z; j; i] = Cdiv (get (fftn axes12 (ifftshift axes12 N)) [z; j; i]) (defocus h (if (nz =? 1)%Z then 0%Z else z) j i)).
  { assert (SF : shape (fftn axes12 (ifftshift axes12 N)) = [K; n; n]) by exact SN. destruct (Z.eqb_spec nz 1) as [E1|E1].
    - destruct (bop_second Cdiv (fftn axes12 (ifftshift axes12 N)) (calc_defocus h) K n SF) as (D & ED & SD & GD). { cbn [calc_defocus shape]. fold nz n. now rewrite E1. }
      exists D. assert (EI : ibop Cdiv (fftn axes12 (ifftshift axes12 N)) (calc_defocus h) = Ok D) by (unfold ibop; rewrite ED; cbn [bind]; rewrite SD, SF, zlist_eqb_refl; reflexivity). split; [exact EI|]. split; [exact SD|]. intros z j i Hz' Hj Hi. rewrite GD by auto. reflexivity.
    - assert (nz = K) by (destruct Hz; congruence). destruct (ibop_eq Cdiv (fftn axes12 (ifftshift axes12 N)) (calc_defocus h)) as (D & ED & SD & GD).
      { rewrite SF. cbn [calc_defocus shape]. fold nz n. congruence. }
      exists D. rewrite SF in SD, GD. split; [exact ED|]. split; [exact SD|]. intros z j i Hz' Hj Hi. rewrite GD by now apply inb3. reflexivity. }
  destruct IB as (D & ED & SD & GD). rewrite ED. cbn [bind].
  assert (VD : forall z j i, (0 <= z < K)%Z -> (0 <= j < n)%Z -> (0 <= i < n)%Z -> get D [z; j; i] = back h (B z) (if (nz =? 1)%Z then 0%Z else z) j i).
  { intros z j i Hz' Hj Hi. rewrite GD by auto. rewrite (fft_back N K n z j i SN Hz' Hj Hi). unfold back. fold n. f_equal.
    apply mop_ext; [now apply inb2|]. intros js Hjs. destruct (inb2_inv _ _ _ Hjs) as (y & x & -> & Hy & Hx). cbn [fl2]. now apply GN. }
  assert (Sm : shape (mean0 D) = [n; n]) by (unfold mean0; cbn [shape]; now rewrite SD).
  assert (Gm : forall j i, (0 <= j < n)%Z -> (0 <= i < n)%Z -> get (mean0 D) [j; i] = Cdiv (Csum (zseq K) (fun z => back h (B z) (if (nz =? 1)%Z then 0%Z else z) j i)) (RtoC (IZR K))).
  { intros j i Hj Hi. unfold mean0. cbn [get]. rewrite SD. cbn [hd]. f_equal. apply Csum_ext. intros z Hz'. apply in_zseq_iff in Hz'. now apply VD. }
  destruct (bop_same (fun z m => Cmult z (RtoC m)) (mean0 D) (maskA h) n Sm eq_refl) as (F & EF & SF & GF). rewrite EF. cbn [bind].
  destruct po.
  - destruct (bop_same (fun z m => Cmult (cis (angle z)) (RtoC m)) F (maskA h) n SF eq_refl) as (G & EG & SG & GG). exists G. split; [exact EG|]. split; [exact SG|].
    intros j i Hj Hi. rewrite GG, GF, Gm by auto. now rewrite maskA_val.
  - exists F. split; [reflexivity|]. split; [exact SF|]. intros j i Hj Hi. rewrite GF, Gm by auto. now rewrite maskA_val.
Qed.
Context (Hnz : (1 <= nz)%Z).
(** the amplitude PSF without its first axis *)
Lemma squeezed P A : shape P = [n; n] -> M_Hanser.gen_psf h (Some P) = Ok A ->
  (nz = 1%Z -> shape (squeeze A) = [n; n] /\ forall y x, (0 <= y < n)%Z -> (0 <= x < n)%Z -> get (squeeze A) [y; x] = amp h (fn P) 0 y x) /\
  (nz <> 1%Z -> shape (squeeze A) = [nz; n; n] /\ forall z y x, (0 <= y < n)%Z -> (0 <= x < n)%Z -> get (squeeze A) [z; y; x] = amp h (fn P) z y x).
Proof.
  intros HP HA. destruct (amp_val h Hph Hv Hc P A HP HA) as [SA GA]. assert (En : (n =? 1)%Z = false) by (apply Z.eqb_neq; unfold n; lia).
  fold nz in SA. fold n in SA, GA. split; intros E1.
  - split; [unfold squeeze; cbn [shape]; rewrite SA; cbn [filter]; rewrite E1, En; reflexivity|]. intros y x Hy Hx.
    unfold squeeze. cbn [get]. rewrite SA, E1. cbn [unsqueeze_ix Z.eqb]. rewrite En. now apply GA.
  - assert (E1' : (nz =? 1)%Z = false) by now apply Z.eqb_neq. split; [unfold squeeze; cbn [shape]; rewrite SA; cbn [filter]; rewrite E1', En; reflexivity|].
    intros z y x Hy Hx. unfold squeeze. cbn [get]. rewrite SA. cbn [unsqueeze_ix]. rewrite E1', En. now apply GA.
Qed.
(** one measured plane *)
Lemma next_one_plane data po P A : shape data = [1; n; n]%Z -> shape P = [n; n] -> M_Hanser.gen_psf h (Some P) = Ok A ->
  exists Q, next_pupil (amap psqrt data) (maskA h) po h A = Ok Q /\ shape Q = [n; n] /\
    forall j i, (0 <= j < n)%Z -> (0 <= i < n)%Z -> get Q [j; i] = step h nz (mgf (repeated nz data)) (mkf h) po (fn P) j i.
Proof.
  intros Sd HP HA. destruct (squeezed P A HP HA) as [Q1 Q2].
  assert (S : exists N, bop (fun m p => Cmult (RtoC m) (cis p)) (amap psqrt data) (amap angle (squeeze A)) = Ok N /\ shape N = [nz; n; n] /\
     forall z y x, (0 <= z < nz)%Z -> (0 <= y < n)%Z -> (0 <= x < n)%Z -> get N [z; y; x] = fix_mag h (mgf (repeated nz data)) (fn P) z y x).
  { destruct (Z.eq_dec nz 1) as [E1|E1].
    - destruct (Q1 E1) as [Ss Gs]. destruct (bop_image (fun m p => Cmult (RtoC m) (cis p)) (amap psqrt data) (amap angle (squeeze A)) 1 n Sd Ss) as (N & EN & SN & GN).
      exists N. split; [exact EN|]. split; [now rewrite E1|]. intros z y x Hz Hy Hx. assert (z = 0)%Z by lia. subst z. rewrite GN by (auto; lia). cbn [get amap]. rewrite Gs by auto. reflexivity.
    - destruct (Q2 E1) as [Ss Gs]. destruct (bop_first (fun m p => Cmult (RtoC m) (cis p)) (amap psqrt data) (amap angle (squeeze A)) nz n Sd Ss) as (N & EN & SN & GN).
      exists N. split; [exact EN|]. split; [exact SN|]. intros z y x Hz Hy Hx. rewrite GN by auto. cbn [get amap]. rewrite Gs by auto. reflexivity. }
  destruct S as (N & EN & SN & GN). destruct (finish (amap psqrt data) po A N nz _ Hnz (or_introl eq_refl) EN SN GN) as (Q & EQ & SQ & GQ).
  exists Q. split; [exact EQ|]. split; [exact SQ|]. intros j i Hj Hi. rewrite GQ by auto. unfold step, avg. cbv zeta.
  assert (E : Csum (zseq nz) (fun z => back h (fix_mag h (mgf (repeated nz data)) (fn P) z) (if (nz =? 1)%Z then 0%Z else z) j i) = Csum (zseq nz) (fun z => back h (fix_mag h (mgf (repeated nz data)) (fn P) z) z j i)).
  { apply Csum_ext. intros z Hz. apply in_zseq_iff in Hz. destruct (Z.eqb_spec nz 1); [|reflexivity]. replace z with 0%Z by lia. reflexivity. }
  rewrite E. reflexivity.
Qed.
(** one position *)
Lemma next_one_position data nd po P A : nz = 1%Z -> (1 <= nd)%Z -> shape data = [nd; n; n]%Z -> shape P = [n; n] -> M_Hanser.gen_psf h (Some P) = Ok A ->
  exists Q, next_pupil (amap psqrt data) (maskA h) po h A = Ok Q /\ shape Q = [n; n] /\
    forall j i, (0 <= j < n)%Z -> (0 <= i < n)%Z -> get Q [j; i] = step h 1 (mgf (merged data)) (mkf h) po (fn P) j i.
Proof.
  intros E1 Hnd Sd HP HA. destruct (squeezed P A HP HA) as [Q1 _]. destruct (Q1 E1) as [Ss Gs].
  destruct (bop_image (fun m p => Cmult (RtoC m) (cis p)) (amap psqrt data) (amap angle (squeeze A)) nd n Sd Ss) as (N & EN & SN & GN).
  destruct (finish (amap psqrt data) po A N nd (fun z y x => Cmult (RtoC (psqrt (get data [z; y; x]))) (cis (angle (amp h (fn P) 0 y x)))) Hnd (or_intror E1) EN SN) as (Q & EQ & SQ & GQ).
  { intros z y x Hz Hy Hx. rewrite GN by auto. cbn [get amap]. rewrite Gs by auto. reflexivity. }
  exists Q. split; [exact EQ|]. split; [exact SQ|]. intros j i Hj Hi. rewrite GQ by auto. unfold step, avg. cbv zeta. rewrite E1. cbn [Z.eqb Pos.eqb].
  assert (Hnd0 : IZR nd <> 0) by (apply not_0_IZR; lia).
  assert (E : Cdiv (Csum (zseq nd) (fun z => back h (fun y x => Cmult (RtoC (psqrt (get data [z; y; x]))) (cis (angle (amp h (fn P) 0 y x)))) 0 j i)) (RtoC (IZR nd)) =
              Cdiv (Csum (zseq 1) (fun z => back h (fix_mag h (mgf (merged data)) (fn P) z) z j i)) (RtoC (IZR 1))).
  { change (zseq 1) with [0%Z]. cbn [Csum].
    assert (Nz : RtoC (IZR nd) <> RtoC 0) by (intros X; apply Hnd0; now injection X).
    assert (Hb : back h (fix_mag h (mgf (merged data)) (fn P) 0) 0 j i =
                 Cdiv (Csum (zseq nd) (fun z => back h (fun y x => Cmult (RtoC (psqrt (get data [z; y; x]))) (cis (angle (amp h (fn P) 0 y x)))) 0 j i)) (RtoC (IZR nd))).
    { unfold back. fold n. set (d0 := defocus h 0 j i). assert (D0 : d0 <> RtoC 0) by apply defocus_nz.
      transitivity (Cdiv (mop kadj [true; true] [n; n] (fun js => Cmult (RtoC (/ IZR nd)) ((fun js => Csum (zseq nd) (fun z => fl2 (fun y x => Cmult (RtoC (psqrt (get data [z; y; x]))) (cis (angle (amp h (fn P) 0 y x)))) js)) js)) [j; i]) d0).
      { f_equal. apply mop_ext; [now apply inb2|]. intros js Hjs. destruct (inb2_inv _ _ _ Hjs) as (y & x & -> & Hy & Hx). cbv beta. cbn [fl2]. unfold fix_mag.
        assert (Em : mgf (merged data) 0 y x = / IZR nd * Rsum (zseq nd) (fun z => psqrt (get data [z; y; x]))).
        { unfold mgf, merged. cbn [get]. rewrite Sd. cbn [hd]. unfold psqrt.
          set (s := Rsum _ _). assert (Hs : 0 <= s) by (apply Rsum_nonneg; intros; apply sqrt_pos). assert (0 < IZR nd) by (apply IZR_lt; lia).
          assert (Hq : 0 <= s / IZR nd) by (apply Rmult_le_pos; [exact Hs|left; now apply Rinv_0_lt_compat]).
          rewrite Rmax_right by (apply pow2_ge_0). replace ((s / IZR nd) ^ 2) with (Rsqr (s / IZR nd)) by (unfold Rsqr; ring). rewrite sqrt_Rsqr by exact Hq. unfold Rdiv. ring. }
        rewrite Em, RtoC_mult, <- Cmult_assoc. f_equal. rewrite Csum_RtoC, (Cmult_comm _ (cis _)), <- Csum_scal_l. apply Csum_ext. intros; ring. }
      rewrite mop_scal, mop_Csum. rewrite RtoC_inv by exact Hnd0.
      assert (Ed : forall (f : Z -> C), Csum (zseq nd) (fun z => Cdiv (f z) d0) = Cdiv (Csum (zseq nd) f) d0).
      { intros f. unfold Cdiv. rewrite Cmult_comm, <- Csum_scal_l. apply Csum_ext. intros; ring. }
      rewrite Ed. set (S := Csum (zseq nd) (fun z => mop kadj [true; true] [n; n] (fl2 (fun y x => Cmult (RtoC (psqrt (get data [z; y; x]))) (cis (angle (amp h (fn P) 0 y x))))) [j; i])).
      change (Cdiv (Cmult (Cinv (RtoC (IZR nd))) S) d0 = Cdiv (Cdiv S d0) (RtoC (IZR nd))). field. auto. }
    rewrite <- Hb. field. intros X; injection X; lra. }
  rewrite E. reflexivity.
Qed.
End N.
