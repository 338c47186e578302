(** C81: plot_psf and plot_otf of PSF objects (pyotf/otf.py:214-257). *)
From Verif Require Import S_PsfPlot L_PSF L_Sum L_Phase2 L_Array L_Center L_Slice L_Radial L_FFT L_FFT2 L_Hanser T_PSF T_Hanser T_Object T_Object2 T_Micro4 T_Display T_Display2 T_Plot.
From Coq Require Import Lra Qabs.
From Flocq Require Import Core.
Import M_Array.

(** ** Spacing *)
Fixpoint qdiff (l : list Q) : list Q := match l with x :: ((y :: _) as l') => (y - x)%Q :: qdiff l' | _ => [] end.
Lemma diff_fin l : diff (map FFin l) = map FFin (qdiff l).
Proof. induction l as [|x [|y l] IH]; [reflexivity..|]. cbn [map diff qdiff] in *. rewrite IH. reflexivity. Qed.
Lemma qdiff_length l : List.length (qdiff l) = (List.length l - 1)%nat.
Proof. induction l as [|x [|y l] IH]; [reflexivity..|]. cbn [List.length qdiff] in *. rewrite IH. lia. Qed.
Lemma qdiff_nth l i : (S i < List.length l)%nat -> nth i (qdiff l) 0%Q = (nth (S i) l 0 - nth i l 0)%Q.
Proof.
  revert i. induction l as [|x [|y l] IH]; intros i H; [cbn in H; lia|cbn in H; lia|].
  cbn [qdiff]. destruct i; [reflexivity|]. cbn [nth]. rewrite IH by (cbn in *; lia). reflexivity.
Qed.
Lemma fold_fin l a : exists q, fold_left fl_add (map FFin l) (FFin a) = FFin q /\ (q == a + fold_left Qplus l 0)%Q.
Proof.
  assert (G : forall l a, exists q, fold_left fl_add (map FFin l) (FFin a) = FFin q /\ (q == fold_left Qplus l a)%Q).
  { clear. induction l as [|x l IH]; intros a; [exists a; split; [reflexivity|apply Qeq_refl]|]. cbn [map fold_left fl_add]. apply IH. }
  assert (S : forall l a, (fold_left Qplus l a == a + fold_left Qplus l 0)%Q).
  { clear. induction l as [|x l IH]; intros a; cbn [fold_left]; [ring|]. rewrite (IH (a + x)%Q), (IH (0 + x)%Q). ring. }
  destruct (G l a) as (q & E & H). exists q. split; [exact E|]. rewrite H. apply S.
Qed.
Lemma telescope l : (fold_left Qplus (qdiff l) 0 == nth (List.length l - 1) l 0 - nth 0 l 0)%Q.
Proof.
  assert (SS : forall l a, (fold_left Qplus l a == a + fold_left Qplus l 0)%Q).
  { clear. induction l as [|x l IH]; intros a; cbn [fold_left]; [ring|]. rewrite (IH (a + x)%Q), (IH (0 + x)%Q). ring. }
  induction l as [|x [|y l] IH]; [reflexivity|cbn; ring|]. cbn [qdiff fold_left]. rewrite SS, IH.
  replace (List.length (x :: y :: l) - 1)%nat with (S (List.length (y :: l) - 1)) by (cbn; lia).
  cbn [nth]. ring.
Qed.
Lemma bad_steps_fin l : bad_steps (map FFin l) = false <-> evenly_spaced l.
Proof.
  unfold bad_steps, evenly_spaced. rewrite diff_fin, map_length, qdiff_length. set (n := List.length l).
  rewrite orb_false_iff, negb_false_iff, Nat.ltb_ge. split; intros [H1 H2]; (assert (H1' : (2 <= n - 1)%nat) by lia); (split; [lia|]).
  - intros i Hi. unfold fl_mean in H2. destruct (fold_fin (qdiff l) 0) as (q & E & Hq). rewrite E, map_length, qdiff_length in H2. fold n in H2.
    rewrite forallb_forall in H2. specialize (H2 (FFin (nth i (qdiff l) 0%Q))).
    assert (I : In (FFin (nth i (qdiff l) 0%Q)) (map FFin (qdiff l))) by (apply in_map, nth_In; rewrite qdiff_length; fold n; lia).
    specialize (H2 I). cbn [isclose] in H2. apply Qle_bool_iff in H2. rewrite qdiff_nth in H2 by (fold n; lia).
    rewrite Hq, telescope in H2. fold n in H2. replace (Z.of_nat (n - 1)) with (Z.of_nat n - 1)%Z in H2 by lia.
    rewrite Qplus_0_l in H2. exact H2.
  - unfold fl_mean. destruct (fold_fin (qdiff l) 0) as (q & E & Hq). rewrite E, map_length, qdiff_length. fold n.
    apply forallb_forall. intros s Hs. apply in_map_iff in Hs. destruct Hs as (d & <- & Hd). destruct (In_nth _ _ 0%Q Hd) as (i & Hi & <-). rewrite qdiff_length in Hi. fold n in Hi.
    cbn [isclose]. apply Qle_bool_iff. rewrite qdiff_nth by (fold n; lia). rewrite Hq, telescope. fold n. replace (Z.of_nat (n - 1)) with (Z.of_nat n - 1)%Z by lia.
    rewrite Qplus_0_l. apply H2. lia.
Qed.

(** A non-finite plane is refused, except in the three-plane ranges (-inf, z, inf) and (inf, z, -inf). *)
Definition is_fin (f : fl) : bool := match f with FFin _ => true | _ => false end.
Definition all_fin (l : list fl) : Prop := forall f, In f l -> exists q, f = FFin q.
Lemma all_fin_map l : all_fin l -> exists q, l = map FFin q.
Proof.
  induction l as [|x l IH]; intros H; [exists []; reflexivity|]. destruct (H x (or_introl eq_refl)) as [q ->]. destruct IH as [r ->]; [intros f I; apply H; right; exact I|]. exists (q :: r). reflexivity.
Qed.
Lemma fold_nan l : fold_left fl_add l FNaN = FNaN. Proof. induction l as [|x l IH]; cbn [fold_left fl_add]; auto. Qed.
Lemma fold_inf l b : fold_left fl_add l (FInf b) = FInf b \/ fold_left fl_add l (FInf b) = FNaN.
Proof.
  induction l as [|[q| |c] l IH]; cbn [fold_left fl_add]; auto; [right; apply fold_nan|]. destruct (Bool.eqb b c); [apply IH|right; apply fold_nan].
Qed.
Lemma fold_nonfinite l q : existsb (fun f => negb (is_fin f)) l = true -> is_fin (fold_left fl_add l (FFin q)) = false.
Proof.
  revert q. induction l as [|[x| |c] l IH]; intros q H; [discriminate|..]; cbn [fold_left fl_add].
  - apply IH. exact H.
  - rewrite fold_nan. reflexivity.
  - destruct (fold_inf l c) as [-> | ->]; reflexivity.
Qed.
Lemma mean_nonfinite l : existsb (fun f => negb (is_fin f)) l = true -> is_fin (fl_mean l) = false.
Proof. intros H. unfold fl_mean. pose proof (fold_nonfinite l 0 H) as F. destruct (fold_left fl_add l (FFin 0)); [discriminate F|reflexivity..]. Qed.
Lemma diff_nonfinite l : (2 <= List.length l)%nat -> existsb (fun f => negb (is_fin f)) (diff l) = false -> all_fin l.
Proof.
  induction l as [|x [|y l] IH]; intros H; [cbn in H; lia|cbn in H; lia|]. cbn [diff existsb]. rewrite orb_false_iff. intros [H1 H2].
  assert (F : (exists q, x = FFin q) /\ exists q, y = FFin q).
  { destruct x as [a| |a], y as [b| |b]; try (cbn in H1; discriminate H1); [split; eexists; reflexivity|]. exfalso. cbn in H1. destruct a, b; discriminate H1. }
  destruct F as [Fx Fy]. destruct l as [|z l].
  - intros f [<-|[<-|[]]]; assumption.
  - intros f [<-|I]; [exact Fx|]. apply IH; [cbn; lia|exact H2|exact I].
Qed.
Lemma nonfinite_steps l : ~ all_fin l -> bad_steps l = false -> exists q b, l = [FInf b; FFin q; FInf (negb b)].
Proof.
  intros N H. unfold bad_steps in H. apply orb_false_iff in H. destruct H as [H1 H2]. apply Nat.ltb_ge in H1. apply negb_false_iff in H2.
  destruct l as [|x [|y [|z l]]]; [cbn in H1; lia|cbn in H1; lia|cbn in H1; lia|].
  set (L := x :: y :: z :: l) in *.
  destruct (existsb (fun f => negb (is_fin f)) (diff L)) eqn:E; [|exfalso; apply N, diff_nonfinite; [cbn; lia|exact E]].
  pose proof (mean_nonfinite _ E) as M. set (m := fl_mean (diff L)) in *. clearbody m.
  assert (A : forall s, In s (diff L) -> exists b, m = FInf b /\ s = FInf b).
  { intros s I. rewrite forallb_forall in H2. specialize (H2 s I). unfold isclose in H2. destruct m as [q| |b]; [discriminate M|destruct s; discriminate H2|].
    destruct s as [q| |c]; try discriminate H2. exists b. cbn in H2. apply eqb_prop in H2. subst c. auto. }
  destruct (A (fl_sub y x)) as (b & Hb & Hs); [left; reflexivity|]. destruct (A (fl_sub z y)) as (c & Hc & Ht); [right; left; reflexivity|].
  rewrite Hb in Hc. injection Hc as <-.
  assert (X : x = FInf (negb b) /\ (exists q, y = FFin q) /\ z = FInf b).
  { destruct x as [a1| |a1], y as [a2| |a2], z as [a3| |a3]; cbn in Hs, Ht; try discriminate; destruct b; try destruct a1; try destruct a2; try destruct a3; cbn in *; try discriminate; eauto. }
  destruct X as (-> & [q ->] & ->). destruct l as [|t l].
  - exists q, (negb b). rewrite negb_involutive. reflexivity.
  - exfalso. destruct (A (fl_sub t (FInf b))) as (c & Hc & Hu); [right; right; left; reflexivity|]. rewrite Hb in Hc. injection Hc as <-.
    destruct t as [a| |a], b; cbn in Hu; try discriminate; destruct a; discriminate.
Qed.

Lemma bad_refused c o l : o_zrange o = Some l -> bad_steps l = true -> plots_refused c o.
Proof.
  intros E B. unfold plots_refused, p_plot_psf, p_plot_otf, bindM. unfold validate_zrange. rewrite E, B. split; reflexivity.
Qed.
(** Refusal: too few planes, uneven or non-finite ones. *)
Theorem C81_refused : forall c o l, o_zrange o = Some l ->
  (forall q, l = map FFin q -> ~ evenly_spaced q -> plots_refused c o) /\
  (~ all_fin l -> (forall q b, l <> [FInf b; FFin q; FInf (negb b)]) -> plots_refused c o).
Proof.
  intros c o l E. split.
  - intros q -> N. apply (bad_refused c o _ E). destruct (bad_steps (map FFin q)) eqn:B; [reflexivity|]. exfalso. apply N, bad_steps_fin, B.
  - intros N X. apply (bad_refused c o _ E). destruct (bad_steps l) eqn:B; [reflexivity|]. destruct (nonfinite_steps l N B) as (q & b & ->). exfalso. now apply (X q b).
Qed.
Print Assumptions C81_refused.

(** ** Generated ranges *)
Lemma generated_spaced n q : evenly_spaced (map (fun i => (inject_Z (i - (n + 1) / 2) * q)%Q) (zseq n)) <-> (3 <= n)%Z.
Proof.
  set (f := fun i : Z => (inject_Z (i - (n + 1) / 2) * q)%Q).
  assert (N : forall i, (0 <= i < n)%Z -> nth (Z.to_nat i) (map f (zseq n)) 0%Q = f i).
  { intros i Hi. rewrite (nth_indep _ 0%Q (f 0%Z)) by (rewrite map_length, zseq_length; lia). rewrite (map_nth f). rewrite nth_zseq by exact Hi. reflexivity. }
  assert (L : List.length (map f (zseq n)) = Z.to_nat n) by (rewrite map_length; apply zseq_length).
  unfold evenly_spaced. rewrite L. split.
  - intros [H _]. lia.
  - intros H. split; [lia|]. intros i Hi.
    assert (N1 : nth (Z.to_nat n - 1) (map f (zseq n)) 0%Q = f (n - 1)%Z) by (rewrite <- N by lia; f_equal; lia).
    assert (N0 : nth 0 (map f (zseq n)) 0%Q = f 0%Z) by (rewrite <- N by lia; reflexivity).
    assert (Ni : nth i (map f (zseq n)) 0%Q = f (Z.of_nat i)) by (rewrite <- N by lia; f_equal; lia).
    assert (Nj : nth (S i) (map f (zseq n)) 0%Q = f (Z.of_nat i + 1)%Z) by (rewrite <- N by lia; f_equal; lia).
    rewrite N1, N0, Ni, Nj, Z2Nat.id by lia.
    assert (E : ((f (n - 1)%Z - f 0%Z) / inject_Z (n - 1) == q)%Q).
    { assert (Nz : ~ (inject_Z (n - 1) == 0)%Q) by (unfold Qeq; cbn; lia).
      assert (D : (f (n - 1)%Z - f 0%Z == inject_Z (n - 1) * q)%Q) by (unfold f; unfold Z.sub; rewrite !inject_Z_plus; change (inject_Z 0) with 0%Q; ring).
      rewrite D. field. exact Nz. }
    rewrite E.
    assert (Z0 : (f (Z.of_nat i + 1)%Z - f (Z.of_nat i) - q == 0)%Q) by (unfold f; unfold Z.sub; rewrite !inject_Z_plus; change (inject_Z 1) with 1%Q; ring).
    rewrite Z0. change (Qabs 0) with 0%Q. pose proof (Qabs_nonneg q) as A. set (a := Qabs q) in *. clearbody a.
    apply (Qle_trans _ (0 + 0)); [discriminate|]. apply Qplus_le_compat; [discriminate|]. apply Qmult_le_0_compat; [discriminate|exact A].
Qed.
(** A HanserPSF whose planes come from zsize and zres: constructed without zrange, or after an accepted assignment of one of
    the two.  Plots are refused exactly below three planes. *)
Definition generated (o : obj numeric) : Prop :=
  (exists k, construct numeric Hanser k = Ok o /\ k_zrange k = None) \/
  (exists k o0 h a v o1, construct numeric Hanser k = Ok o0 /\ o1 = run numeric Hanser h o0 /\ (a = A_zres \/ a = A_zsize) /\ assign numeric Hanser (SetNum a v) o1 = (Ok tt, o)).
Theorem C81_generated : forall o n d, generated o -> is_whole (o_attr o A_zsize) n -> is_real (o_attr o A_zres) d ->
  ((3 <= n)%Z -> plottable o) /\ ((n < 3)%Z -> plots_refused Hanser o).
Proof.
  intros o n d G Hn (w & q & Hw & Hq & Hd).
  assert (E : o_zrange o = gen_range (o_attr o A_zsize) (o_attr o A_zres)).
  { destruct G as [(k & Hk & Kz)|(k & o0 & h & a & v & o1 & Hk & -> & Ha & As)].
    - destruct (C27_zrange_history numeric k o [] Hk) as [E _]. rewrite Kz in E. exact E.
    - destruct (C27_zrange_history numeric k o0 (h ++ [Assign numeric (SetNum a v)]) Hk) as [_ E].
      assert (Rn : forall h o0 zr, run numeric Hanser (h ++ [Assign numeric (SetNum a v)]) o0 = snd (assign numeric Hanser (SetNum a v) (run numeric Hanser h o0)) /\
                zrange_after numeric (h ++ [Assign numeric (SetNum a v)]) o0 zr = zrange_step numeric (Assign numeric (SetNum a v)) (run numeric Hanser h o0) (zrange_after numeric h o0 zr)).
      { clear. induction h as [|x h IH]; intros o0 zr; [split; reflexivity|]. cbn [app run zrange_after]. apply IH. }
      destruct (Rn h o0 (o_zrange o0)) as [R1 R2]. rewrite R1, R2, As in E. cbn [snd] in E.
      destruct Ha as [-> | ->]; cbn [zrange_step exec] in E; rewrite As in E; exact E. }
  assert (V : o_zrange o = Some (map FFin (map (fun i => (inject_Z (i - (n + 1) / 2) * q)%Q) (zseq n)))).
  { rewrite E, Hw. assert (I : exists z, o_attr o A_zsize = Some z /\ as_int z = n) by (destruct Hn as [->|(b & -> & ->)]; eexists; (split; [reflexivity|]); [reflexivity|destruct b; reflexivity]).
    destruct I as (z & -> & Hz). unfold gen_range. rewrite Hz. unfold num_or_nan. rewrite Hq. rewrite map_map. reflexivity. }
  split; intros B.
  - right. eexists. split; [exact V|]. now apply generated_spaced.
  - apply (proj1 (C81_refused Hanser o _ V) _ eq_refl). rewrite generated_spaced. lia.
Qed.
Print Assumptions C81_generated.

(** ** plot_psf *)
Local Open Scope R_scope.
Lemma window_core (image : array R) (a : array (option R)) nz ny nx ax lat zp px mip : shape a = [nz; ny; nx] -> shape image = shape a -> (0 < nz)%Z -> (0 < ny)%Z -> (0 < nx)%Z ->
  (forall ix, inb (shape a) ix -> get a ix = Some (get image ix)) -> / 2 < ax -> / 2 < lat ->
  exists z0 y0 x0 wz w sz sy sx lz ly lx part ps am crop g,
    first_max r_ltb image [z0; y0; x0] /\ rounds_to ax wz /\ rounds_to lat w /\
    window_of nz z0 wz sz lz /\ window_of ny y0 w sy ly /\ window_of nx x0 w sx lx /\
    (wz / 2 <= z0 -> z0 + (wz + 1) / 2 <= nz -> lz = wz /\ sz + lz / 2 = z0)%Z /\
    (w / 2 <= y0 -> y0 + (w + 1) / 2 <= ny -> ly = w /\ sy + ly / 2 = y0)%Z /\
    (w / 2 <= x0 -> x0 + (w + 1) / 2 <= nx -> lx = w /\ sx + lx / 2 = x0)%Z /\
    (sz <= z0 < sz + lz /\ sy <= y0 < sy + ly /\ sx <= x0 < sx + lx)%Z /\
    shape part = [lz; ly; lx] /\
    (forall z y x, inb [lz; ly; lx] [z; y; x] -> get part [z; y; x] = get image [z + sz; y + sy; x + sx]%Z) /\
    psf_plot part zp px mip = Ok ps /\ argmax o_lt a = Ok am /\ r_slice_maker (unravel (shape a) am) [ax; lat; lat] = Ok crop /\ getitem a crop = Ok g /\
    (exists r, all_some (map (get a) (all_ix (shape a))) = Some r) /\
    amap (fun v : option R => match v with Some x => x | None => 0 end) g = part.
Proof.
  intros Sa Si Hz Hy Hx Va Pa Pl.
  assert (Fa : all_finite a) by (intros ix I; rewrite (Va ix I); discriminate).
  assert (Fp : Forall (fun n => 0 < n)%Z (shape a)) by (rewrite Sa; repeat constructor; assumption).
  pose proof (size_pos _ Fp) as Ps.
  destruct (argmax_inv o_lt o_lt_swo (flat a) (size (shape a)) Ps) as (Bm & Mx & Fst).
  set (am := argmax_from o_lt (flat a) (zseq (size (shape a))) 0%Z) in *.
  assert (Eam : argmax o_lt a = Ok am) by (unfold argmax; destruct (size (shape a) <=? 0)%Z eqn:E; [exfalso; lia|reflexivity]).
  set (loc := unravel (shape a) am) in *.
  assert (Iloc : inb (shape a) loc) by (apply inb_unravel; auto).
  assert (Hlr : ravel (shape a) loc = am) by (apply ravel_unravel; auto).
  assert (Hfl : forall ix, inb (shape a) ix -> get a ix = flat a (ravel (shape a) ix)) by (intros ix I; unfold flat; now rewrite unravel_ravel).
  assert (FM : first_max r_ltb image loc).
  { assert (cmp : forall i j, inb (shape a) i -> inb (shape a) j -> r_ltb (get image i) (get image j) = o_lt (get a i) (get a j)).
    { intros i j I J. rewrite (Va i I), (Va j J). reflexivity. }
    split; [rewrite Si; exact Iloc|]. split.
    - intros ix I. rewrite Si in I. rewrite cmp by assumption. rewrite !Hfl by assumption. rewrite Hlr. apply Mx. now apply ravel_bound.
    - intros ix I L. rewrite Si in I. rewrite cmp by assumption. rewrite !Hfl by assumption. rewrite Hlr. apply Fst.
      split; [apply ravel_bound; auto|]. rewrite <- Hlr. now apply ravel_lex. }
  assert (Il : inb [nz; ny; nx] loc) by (rewrite <- Sa; exact Iloc).
  destruct (inb3_inv _ _ _ _ Il) as (z0 & y0 & x0 & El0 & I1 & I2 & I3).
  rewrite El0 in FM.
  destruct (window_slice nz z0 (rint ax)) as (az & bz & Oz & Wz & Nz & Cz & Mz); [apply rint_nonneg; lra|assumption|].
  destruct (window_slice ny y0 (rint lat)) as (ay & by_ & Oy & Wy & Ny & Cy & My); [apply rint_nonneg; lra|assumption|].
  destruct (window_slice nx x0 (rint lat)) as (aw & bw & Ox & Wx & Nx & Cx & Mx'); [apply rint_nonneg; lra|assumption|].
  pose proof (rint_pos ax Pa) as Ra. pose proof (rint_pos lat Pl) as Rl. specialize (Mz Ra). specialize (My Rl). specialize (Mx' Rl).
  assert (Ec : r_slice_maker loc [ax; lat; lat] = Ok [Slice (Some az) (Some bz); Slice (Some ay) (Some by_); Slice (Some aw) (Some bw)]).
  { unfold r_slice_maker. rewrite El0. cbn [List.length Nat.eqb negb existsb map combine].
    destruct (Rlt_dec ax 0); [lra|]. destruct (Rlt_dec lat 0); [lra|]. cbn [orb slice_loop]. rewrite Oz, Oy, Ox. reflexivity. }
  set (lz := slice_len nz (Slice (Some az) (Some bz))) in *. set (ly := slice_len ny (Slice (Some ay) (Some by_))) in *. set (lx := slice_len nx (Slice (Some aw) (Some bw))) in *.
  set (crop := [Slice (Some az) (Some bz); Slice (Some ay) (Some by_); Slice (Some aw) (Some bw)]) in *.
  assert (Eg : exists g, getitem a crop = Ok g /\ shape g = [lz; ly; lx] /\ forall z y x, get g [z; y; x] = get a [az + z; ay + y; aw + x]%Z).
  { unfold getitem, crop. rewrite Sa. cbn [List.length Nat.ltb Nat.leb]. eexists. split; [reflexivity|]. split; [reflexivity|].
    intros z y x. cbn [get slice_index]. rewrite Nz, Ny, Nx. reflexivity. }
  destruct Eg as (g & Eg & Sg & Vg).
  set (part := amap (fun v : option R => match v with Some x => x | None => 0 end) g).
  destruct (C78_psf_panels part lz ly lx zp px mip) as (xy & xz & zy & Ep & _); [exact Sg|lia|lia|lia|].
  exists z0, y0, x0, (rint ax), (rint lat), az, ay, aw, lz, ly, lx, part. eexists. exists am, crop, g.
  split; [exact FM|]. split; [apply rint_spec|]. split; [apply rint_spec|].
  split; [exact Wz|]. split; [exact Wy|]. split; [exact Wx|].
  split; [intros L1 L2; destruct (Cz L1 L2) as [E1 E2]; rewrite E1; split; [reflexivity|exact E2]|].
  split; [intros L1 L2; destruct (Cy L1 L2) as [E1 E2]; rewrite E1; split; [reflexivity|exact E2]|].
  split; [intros L1 L2; destruct (Cx L1 L2) as [E1 E2]; rewrite E1; split; [reflexivity|exact E2]|].
  split; [auto|]. split; [exact Sg|]. split.
  { intros z y x I. unfold part. cbn [amap get]. rewrite Vg. rewrite (Z.add_comm az), (Z.add_comm ay), (Z.add_comm aw). rewrite Va; [reflexivity|].
    destruct (inb3_inv _ _ _ _ I) as (z' & y' & x' & E & J1 & J2 & J3). injection E as <- <- <-. rewrite Sa. destruct Wz as [_ Wz], Wy as [_ Wy], Wx as [_ Wx]. apply inb3; [apply Wz, J1|apply Wy, J2|apply Wx, J3]. }
  split; [exact Ep|]. split; [exact Eam|]. split; [exact Ec|]. split; [exact Eg|]. split; [apply finite_some, Fa|reflexivity].
Qed.

Lemma attr_R_eq a x (o o' : obj numeric) : finite_number (o_attr o a) x -> o_attr o' = o_attr o -> attr_R a o' = (Ok x, o').
Proof. intros (w & q & E1 & E2 & ->) E. unfold attr_R, bindM, getattr, lift. rewrite E, E1. unfold as_R. rewrite E2. reflexivity. Qed.
Lemma validate_ok o : plottable o -> validate_zrange o = (Ok tt, o).
Proof. intros [H|(l & H & S)]; unfold validate_zrange; rewrite H; [reflexivity|]. apply bad_steps_fin in S. rewrite S. reflexivity. Qed.

(** Any object (HanserPSF or SheppardPSF, in any state) showing a finite image: the window around its first maximum has the
    rounded widths 32 wl / (2 na) / res and 16 wl / (ni - sqrt(ni^2 - na^2)) / zres; it is drawn with zres and res. *)
Theorem C81_plot_psf : forall c o image nz ny nx mip na ni wl rs zr, shows_image c o image -> shape image = [nz; ny; nx] -> (0 < nz)%Z -> (0 < ny)%Z -> (0 < nx)%Z ->
  plottable o ->
  finite_number (o_attr o A_na) na -> finite_number (o_attr o A_ni) ni -> finite_number (o_attr o A_wl) wl ->
  finite_number (o_attr o A_res) rs -> finite_number (o_attr o A_zres) zr -> 0 < na <= ni -> 0 < rs -> 0 < zr ->
  rs < 32 * (wl / (2 * na)) * 2 -> zr < 16 * (wl / (ni - sqrt (ni ^ 2 - na ^ 2))) * 2 ->
  exists z0 y0 x0 wz w sz sy sx lz ly lx part ps,
    first_max r_ltb image [z0; y0; x0] /\
    rounds_to (16 * (wl / (ni - sqrt (ni ^ 2 - na ^ 2))) / zr) wz /\ rounds_to (32 * (wl / (2 * na)) / rs) w /\
    window_of nz z0 wz sz lz /\ window_of ny y0 w sy ly /\ window_of nx x0 w sx lx /\
    (wz / 2 <= z0 -> z0 + (wz + 1) / 2 <= nz -> lz = wz /\ sz + lz / 2 = z0)%Z /\
    (w / 2 <= y0 -> y0 + (w + 1) / 2 <= ny -> ly = w /\ sy + ly / 2 = y0)%Z /\
    (w / 2 <= x0 -> x0 + (w + 1) / 2 <= nx -> lx = w /\ sx + lx / 2 = x0)%Z /\
    (sz <= z0 < sz + lz /\ sy <= y0 < sy + ly /\ sx <= x0 < sx + lx)%Z /\
    shape part = [lz; ly; lx] /\
    (forall z y x, inb [lz; ly; lx] [z; y; x] -> get part [z; y; x] = get image [z + sz; y + sy; x + sx]%Z) /\
    psf_plot part zr rs mip = Ok ps /\ fst (p_plot_psf c mip o) = Ok (Some ps).
Proof.
  intros c o image nz ny nx mip na ni wl rs zr (B & EB & FB & SB & VB) Si Hz Hy Hx Pt Hna Hni Hwl Hrs Hzr Bna Prs Pzr B1 B2.
  set (ax := 16 * (wl / (ni - sqrt (ni ^ 2 - na ^ 2))) / zr) in *. set (lat := 32 * (wl / (2 * na)) / rs) in *.
  assert (Pl : / 2 < lat). { unfold lat. apply (Rmult_lt_reg_r rs); [lra|]. replace (32 * (wl / (2 * na)) / rs * rs) with (32 * (wl / (2 * na))) by (field; lra). lra. }
  assert (Pa : / 2 < ax). { unfold ax. apply (Rmult_lt_reg_r zr); [lra|]. set (T := 16 * (wl / _)) in *. replace (T / zr * zr) with T by (field; lra). lra. }
  assert (Dni : 0 < ni - sqrt (ni ^ 2 - na ^ 2)).
  { cut (sqrt (ni ^ 2 - na ^ 2) < ni); [lra|]. rewrite <- (sqrt_pow2 ni) at 2 by lra. apply sqrt_lt_1_alt. nra. }
  assert (El : lateral_extent wl na rs = Ok lat).
  { unfold lateral_extent, pdiv. destruct (Req_EM_T na 0); [lra|]. cbn [bind]. destruct (Req_EM_T rs 0); [lra|]. cbn [bind]. f_equal. unfold lat. field. lra. }
  assert (Eax : axial_extent wl na ni zr = Ok ax).
  { unfold axial_extent, pdiv. destruct (Req_EM_T zr 0); [lra|]. cbn [bind]. f_equal. unfold ax. field. split; lra. }
  clearbody lat ax.
  assert (Sr : shape (real_entries B) = [nz; ny; nx]) by (cbn [real_entries amap shape]; rewrite <- SB; exact Si).
  destruct (window_core image (real_entries B) nz ny nx ax lat zr rs mip Sr) as (z0 & y0 & x0 & wz & w & sz & sy & sx & lz & ly & lx & part & ps & am & crop & g & X1 & X2 & X3 & X4 & X5 & X6 & X7 & X8 & X9 & X10 & X11 & X12 & X13 & Eam & Ec & Eg & [r Er] & Ep); try assumption.
  { intros ix I. cbn [real_entries amap get shape] in *. rewrite (VB ix I). reflexivity. }
  exists z0, y0, x0, wz, w, sz, sy, sx, lz, ly, lx, part, ps.
  do 13 (split; [assumption|]).
  unfold p_plot_psf. unfold bindM at 1. rewrite (validate_ok o Pt).
  unfold bindM at 1. rewrite (attr_R_eq _ _ o o Hwl eq_refl). unfold bindM at 1. rewrite (attr_R_eq _ _ o o Hna eq_refl). unfold bindM at 1. rewrite (attr_R_eq _ _ o o Hrs eq_refl).
  unfold bindM at 1, lift at 1. rewrite El. unfold bindM at 1. rewrite (attr_R_eq _ _ o o Hni eq_refl). unfold bindM at 1. rewrite (attr_R_eq _ _ o o Hzr eq_refl).
  unfold bindM at 1, lift at 1. rewrite Eax. unfold bindM at 1. destruct (read numeric c PSFi o) as [rr o']. cbn [fst] in EB. subst rr.
  cbv zeta. unfold bindM at 1, lift at 1. rewrite Eam. unfold bindM at 1, lift at 1. rewrite Ec. unfold bindM at 1, lift at 1. rewrite Eg. rewrite Er.
  unfold bindM at 1, lift at 1. rewrite Ep, X13. reflexivity.
Qed.
Print Assumptions C81_plot_psf.

(** ** plot_otf *)
Lemma otf_peak (d : array R) (B : array (option C)) nz ny nx : shape d = shape B -> shape B = [nz; ny; nx] -> (0 < nz)%Z -> (0 < ny)%Z -> (0 < nx)%Z ->
  finite_all B = true -> (forall ix, inb (shape B) ix -> get B ix = Some (RtoC (get d ix))) -> (forall ix, inb (shape d) ix -> 0 <= get d ix) ->
  let S := Rsum (all_ix [nz; ny; nx]) (get d) in
  get (o_fft B) [nz / 2; ny / 2; nx / 2]%Z = Some (RtoC S) /\
  forall ix, inb [nz; ny; nx] ix -> exists c, get (o_fft B) ix = Some c /\ Cmod c <= S.
Proof.
  intros SB Sh Hz Hy Hx Fin VB Hn S. set (X := amap cval B).
  assert (G : forall ix, get (o_fft B) ix = Some (get (easy_fft None X) ix)) by (intros ix; unfold o_fft; cbn [get]; rewrite Fin; reflexivity).
  assert (ShX : shape X = [nz; ny; nx]) by exact Sh.
  assert (Bc : forall ix, In ix (all_ix [nz; ny; nx]) -> get X ix = RtoC (get d ix)) by (intros ix I; apply in_all_ix in I; unfold X; cbn [amap get]; rewrite VB by (rewrite Sh; exact I); reflexivity).
  assert (Box : forall k, inb [nz; ny; nx] k -> box (repeat true (List.length [nz; ny; nx])) [nz; ny; nx] k = all_ix [nz; ny; nx]) by (intros; now apply box_all).
  assert (K0 : inb [nz; ny; nx] [0; 0; 0]%Z) by (apply inb3; lia).
  split.
  - rewrite G. f_equal. pose proof (mop_centre (repeat true 3) [nz; ny; nx] (get X) [0; 0; 0]%Z K0) as Hc.
    rewrite easy_fft_mop; rewrite ShX. 2:{ apply (inb_at_centre (repeat true 3) [nz; ny; nx] [0; 0; 0]%Z K0). }
    etransitivity; [exact Hc|]. change 3%nat with (List.length [nz; ny; nx]). rewrite Box by exact K0. rewrite (Csum_ext _ _ (fun ix => RtoC (get d ix))) by exact Bc. rewrite <- Csum_RtoC. reflexivity.
  - intros ix Hk. exists (get (easy_fft None X) ix). split; [apply G|].
    rewrite easy_fft_mop; rewrite ShX; [|exact Hk]. eapply Rle_trans; [apply mop_bound; intros; unfold kcen; rewrite root_mod1; lra|].
    cbn [axes_mask]. rewrite Box by exact Hk. apply Rsum_le. intros jx I. rewrite (Bc jx I), Cmod_R. rewrite Rabs_pos_eq; [lra|]. apply Hn. rewrite SB, Sh. now apply in_all_ix.
Qed.
Lemma shown_peak o i0 S : all_finite o -> 0 < S -> inb (shape o) i0 -> get o i0 = Some (RtoC S) -> (forall ix c, inb (shape o) ix -> get o ix = Some c -> Cmod c <= S) ->
  exists s, shown o = Ok s /\ shape s = shape o /\ forall ix c, inb (shape o) ix -> get o ix = Some c -> get s ix = Rmax (Cmod c / S) machine_eps.
Proof.
  intros F PS I0 E0 B. unfold shown. destruct (finite_some o F) as [r ->]. set (mag := amap _ o).
  destruct (r_max mag) as [m|e] eqn:Em; cbn [bind].
  - assert (M1 : m = S).
    { apply Rle_antisym.
      - destruct (r_max_in mag m Em) as (ix & I & <-). cbn [mag amap get shape] in *. destruct (get o ix) eqn:G; [eapply B; eassumption|lra].
      - pose proof (r_max_is mag m i0 Em I0) as L. cbn [mag amap get] in L. rewrite E0, Cmod_R, Rabs_pos_eq in L by lra. exact L. }
    destruct (Req_EM_T m 0); [exfalso; lra|]. eexists. split; [reflexivity|]. split; [reflexivity|]. intros ix c I G. cbn [mag amap get]. rewrite G, M1, eps_val. reflexivity.
  - exfalso. unfold r_max in Em. apply in_all_ix in I0. change (shape mag) with (shape o) in Em. destruct (all_ix (shape o)); [exact I0|discriminate].
Qed.
(** Any reachable object showing a finite non-negative image with a positive sum: the panels show |OTFi| divided by that
    sum and clipped from below at 2^-52; the centre is 1; the axes are scaled with zres and res, whatever zrange is. *)
Theorem C81_plot_otf : forall c k o0 hist image nz n na ni wl rs zr, construct numeric c k = Ok o0 -> let o := run numeric c hist o0 in
  shows_image c o image -> shape image = [nz; n; n] -> (0 < nz)%Z -> (0 < n)%Z ->
  (forall ix, inb (shape image) ix -> 0 <= get image ix) -> let S := Rsum (all_ix [nz; n; n]) (get image) in 0 < S ->
  plottable o ->
  finite_number (o_attr o A_na) na -> finite_number (o_attr o A_ni) ni -> finite_number (o_attr o A_wl) wl ->
  finite_number (o_attr o A_res) rs -> finite_number (o_attr o A_zres) zr -> ni <> 0 -> wl <> 0 -> rs <> 0 -> zr <> 0 ->
  exists t xy xz zy ci ws, let dz := / (IZR nz * zr) in let d := / (IZR n * rs) in
    fst (read numeric c OTFi o) = Ok t /\ shape t = [nz; n; n] /\
    fst (p_plot_otf c o) = Ok ([
      mkPanel 3 "k_XY" xy (coord n d 0) (coord n d (n - 1)) (coord n d 0) (coord n d (n - 1));
      mkPanel 2 "k_YZ" xz (coord nz dz 0) (coord nz dz (nz - 1)) (coord n d 0) (coord n d (n - 1));
      mkPanel 1 "k_XZ" zy (coord n d 0) (coord n d (n - 1)) (coord nz dz 0) (coord nz dz (nz - 1))], ci, ws) /\
    shape xy = [n; n] /\ shape xz = [n; nz] /\ shape zy = [nz; n] /\
    (forall y x, (0 <= y < n)%Z -> (0 <= x < n)%Z -> exists v, get t [(nz / 2)%Z; y; x] = Some v /\ get xy [y; x] = Rmax (Cmod v / S) machine_eps /\ machine_eps <= get xy [y; x] <= 1) /\
    (forall x z, (0 <= x < n)%Z -> (0 <= z < nz)%Z -> exists v, get t [z; (n / 2)%Z; x] = Some v /\ get xz [x; z] = Rmax (Cmod v / S) machine_eps /\ machine_eps <= get xz [x; z] <= 1) /\
    (forall z y, (0 <= z < nz)%Z -> (0 <= y < n)%Z -> exists v, get t [z; y; (n / 2)%Z] = Some v /\ get zy [z; y] = Rmax (Cmod v / S) machine_eps /\ machine_eps <= get zy [z; y] <= 1) /\
    get xy [n / 2; n / 2]%Z = 1 /\ get xz [n / 2; nz / 2]%Z = 1 /\ get zy [nz / 2; n / 2]%Z = 1.
Proof.
  intros c k o0 hist image nz n na ni wl rs zr Hk o (B & EB & FB & SB & VB) Si Hz Hn Nn S PS Pt Hna Hni Hwl Hrs Hzr Z1 Z2 Z3 Z4.
  assert (Sh : shape B = [nz; n; n]) by (rewrite <- SB; exact Si).
  assert (ET : fst (read numeric c OTFi o) = Ok (o_fft B)).
  { pose proof (C24_reads_are_fresh numeric c k o0 hist OTFi Hk) as F1. pose proof (C24_reads_are_fresh numeric c k o0 hist PSFi Hk) as F2. cbv zeta in F1, F2. fold o in F1, F2.
    rewrite F1. rewrite EB in F2. cbn [scratch] in F2 |- *. rewrite <- F2. reflexivity. }
  destruct (otf_peak image B nz n n SB Sh Hz Hn Hn FB VB Nn) as [C0 Rest]. fold S in C0, Rest.
  set (t := o_fft B) in *. assert (St : shape t = [nz; n; n]) by exact Sh.
  assert (Ft : all_finite t) by (intros ix I N; rewrite St in I; destruct (Rest ix I) as (v & G & _); congruence).
  assert (I0 : inb (shape t) [nz / 2; n / 2; n / 2]%Z) by (rewrite St; apply inb3; lia).
  assert (Bo : forall ix v, inb (shape t) ix -> get t ix = Some v -> Cmod v <= S).
  { intros ix v I G. rewrite St in I. destruct (Rest ix I) as (v' & G' & L). congruence. }
  destruct (shown_peak t _ S Ft PS I0 C0 Bo) as (s & Es & Ss & Vs).
  rewrite St in Ss. assert (Hz1 : (1 <= nz)%Z) by lia. assert (Hn1 : (1 <= n)%Z) by lia.
  destruct (C78_otf_panels s nz n na ni wl zr rs Ss Hz1 Hn1 Z4 Z3 Z1 Z2) as (xy & xz & zy & ci & ws & Ep & S1 & S2 & S3 & V).
  assert (E : fst (p_plot_otf c o) = do s <- shown t; otf_plot s na ni wl zr rs).
  { unfold p_plot_otf. unfold bindM at 1. rewrite (validate_ok o Pt). unfold bindM at 1.
    pose proof (read_same numeric c OTFi o) as R. destruct (read numeric c OTFi o) as [r o'] eqn:ER. cbn [fst snd] in *. subst r. destruct R as [R _].
    unfold bindM at 1, lift at 1. destruct (shown t) as [s'|e]; [|reflexivity]. cbn [bind].
    unfold bindM at 1. rewrite (attr_R_eq _ _ o o' Hna R). unfold bindM at 1. rewrite (attr_R_eq _ _ o o' Hni R). unfold bindM at 1. rewrite (attr_R_eq _ _ o o' Hwl R).
    unfold bindM at 1. rewrite (attr_R_eq _ _ o o' Hzr R). unfold bindM at 1. rewrite (attr_R_eq _ _ o o' Hrs R). reflexivity. }
  exists t, xy, xz, zy, ci, ws. cbv zeta. split; [exact ET|]. split; [exact St|]. split; [rewrite E, Es; exact Ep|]. split; [exact S1|]. split; [exact S2|]. split; [exact S3|].
  assert (G : forall z y x, (0 <= z < nz)%Z -> (0 <= y < n)%Z -> (0 <= x < n)%Z -> exists v, get t [z; y; x] = Some v /\ get s [z; y; x] = Rmax (Cmod v / S) machine_eps /\ machine_eps <= get s [z; y; x] <= 1).
  { intros z y x Bz By Bx. assert (I : inb (shape t) [z; y; x]) by (rewrite St; apply inb3; lia). destruct (get t [z; y; x]) as [v|] eqn:Gv; [|exfalso; apply (Ft _ I Gv)].
    exists v. split; [reflexivity|]. rewrite (Vs _ v I Gv). split; [reflexivity|]. split; [apply Rmax_r|]. apply Rmax_lub; [|unfold machine_eps; lra].
    pose proof (Bo _ v I Gv) as L. apply (Rmult_le_reg_r S); [exact PS|]. replace (Cmod v / S * S) with (Cmod v) by (field; lra). lra. }
  assert (Ctr : get s [nz / 2; n / 2; n / 2]%Z = 1).
  { rewrite (Vs _ _ I0 C0), Cmod_R, Rabs_pos_eq by lra. replace (S / S) with 1 by (field; lra). apply Rmax_left; unfold machine_eps; lra. }
  split; [|split; [|split]].
  - intros y x By Bx. destruct (V x y 0%Z) as (-> & _ & _). apply G; lia.
  - intros x z Bx Bz. destruct (V x 0%Z z) as (_ & -> & _). apply G; lia.
  - intros z y Bz By. destruct (V 0%Z y z) as (_ & _ & ->). apply G; lia.
  - destruct (V (n / 2)%Z (n / 2)%Z (nz / 2)%Z) as (-> & -> & ->). auto.
Qed.
Print Assumptions C81_plot_otf.

(** ** Every HanserPSF in a physical state with evenly spaced planes can be plotted. *)
From Verif Require Import T_Micro5 L_Polar T_Micro3.
Lemma hanser_image k o0 hist h : construct numeric Hanser k = Ok o0 -> let o := run numeric Hanser hist o0 in
  in_force numeric Hanser hist o0 None = None -> h_describes h o -> physical h -> 0 < h_na h -> h_vec h <> VecZ -> h_zrange h <> [] ->
  exists image, shows_image Hanser o image /\ shape image = [Z.of_nat (List.length (h_zrange h)); h_size h; h_size h] /\
    (forall ix, inb (shape image) ix -> 0 <= get image ix) /\ 0 < Rsum (all_ix [Z.of_nat (List.length (h_zrange h)); h_size h; h_size h]) (get image).
Proof.
  intros Hk o Hf Hd Hp Hna Hv Hz. destruct (proj1 (C30_computes h Hp)) as [A HA].
  assert (Sh : shows o A) by (apply (C73_hanser_objects k o0 hist A Hk); fold o; rewrite (h_described h o Hd), Hf; exact HA).
  destruct Sh as (_ & S2 & _). destruct (C30_shape_sign h None A Hp ltac:(discriminate) HA) as (_ & SS & NN).
  exists (sumsq A). split; [|split; [exact SS|split]].
  - eexists. split; [exact S2|]. split; [unfold finite_all; apply forallb_forall; reflexivity|]. split; [reflexivity|]. intros ix _. reflexivity.
  - intros ix I. rewrite SS in I. now apply NN.
  - rewrite Rsum_all3. assert (L0 : (0 < Z.of_nat (List.length (h_zrange h)))%Z) by (destruct (h_zrange h); [congruence|cbn [List.length]; lia]).
    apply (Rsum_pos _ _ 0%Z); [|apply in_zseq; exact (conj (Z.le_refl 0) L0)|].
    + intros z _. exact (Rlt_le _ _ (C31_light h A z Hp Hna Hv HA)).
    + exact (C31_light h A 0 Hp Hna Hv HA).
Qed.
Theorem C81_hanser_plots : forall k o0 hist h zr mip, construct numeric Hanser k = Ok o0 -> let o := run numeric Hanser hist o0 in
  in_force numeric Hanser hist o0 None = None -> h_describes h o -> physical h -> 0 < h_na h <= h_ni h -> h_vec h <> VecZ ->
  plottable o -> is_real (o_attr o A_zres) zr -> 0 < zr ->
  let nz := Z.of_nat (List.length (h_zrange h)) in let n := h_size h in
  let dz := / (IZR nz * zr) in let d := / (IZR n * h_res h) in
  (exists xy xz zy ci ws, fst (p_plot_otf Hanser o) = Ok ([
      mkPanel 3 "k_XY" xy (coord n d 0) (coord n d (n - 1)) (coord n d 0) (coord n d (n - 1));
      mkPanel 2 "k_YZ" xz (coord nz dz 0) (coord nz dz (nz - 1)) (coord n d 0) (coord n d (n - 1));
      mkPanel 1 "k_XZ" zy (coord n d 0) (coord n d (n - 1)) (coord nz dz 0) (coord nz dz (nz - 1))], ci, ws)) /\
  (h_res h < 32 * (h_wl h / (2 * h_na h)) * 2 -> zr < 16 * (h_wl h / (h_ni h - sqrt (h_ni h ^ 2 - h_na h ^ 2))) * 2 ->
   exists ps, fst (p_plot_psf Hanser mip o) = Ok (Some ps)).
Proof.
  intros k o0 hist h zr mip Hk o Hf Hd Hp Hna Hv Pt Hzr Pz nz n dz d. pose proof Hd as (D1 & D2 & D3 & D4 & _ & _ & _ & l & Dz & Df). pose proof Hp as (P1 & P2 & P3 & P4 & P5).
  assert (Nz : h_zrange h <> []).
  { destruct Pt as [Pt|(q & Pt & Ev)]; [congruence|]. rewrite Dz in Pt. injection Pt as ->. destruct Ev as [Ev _]. intros E. rewrite E in Df. inversion Df as [Df'|]. destruct q; [cbn in Ev; lia|discriminate]. }
  destruct (hanser_image k o0 hist h Hk Hf Hd Hp (proj1 Hna) Hv Nz) as (image & Sim & Sh & Nn & Ps). fold o in Sim.
  assert (L0 : (0 < nz)%Z) by (unfold nz; destruct (h_zrange h); [congruence|cbn [List.length]; lia]). fold nz in Sh, Ps.
  split.
  - destruct (C81_plot_otf Hanser k o0 hist image nz n (h_na h) (h_ni h) (h_wl h) (h_res h) zr Hk Sim Sh L0 P5 Nn Ps Pt D2 D3 D1 D4 Hzr) as (t & xy & xz & zy & ci & ws & _ & _ & E & _); try lra.
    do 5 eexists. exact E.
  - intros B1 B2. destruct (C81_plot_psf Hanser o image nz n n mip (h_na h) (h_ni h) (h_wl h) (h_res h) zr Sim Sh L0 P5 P5 Pt D2 D3 D1 D4 Hzr Hna P4 Pz B1 B2) as (z0 & y0 & x0 & wz & w & sz & sy & sx & lz & ly & lx & part & ps & X).
    exists ps. decompose [and] X. assumption.
Qed.
Print Assumptions C81_hanser_plots.

(** [HanserPSF(wl=520, na=6/5, ni=3/2, res=90, size=64, zres=100, zrange=[-200, 0, 200])]: planes 200 apart, drawn as 100 apart.
    With zrange=[-200, 0, 300] or zrange=[0, 200] both plots are refused. *)
Definition zkw (l : list fl) : ctor := mkCtor (VInt 520) (qf 6 5) (qf 3 2) (VInt 90) (VInt 64) (Some (VInt 100)) (Some (VInt 7)) (VStr "none") (VStr "sine") (Some (ZList l)) (VBool false).
Definition zmade (E : engine) (l : list fl) : obj E := match construct E Hanser (zkw l) with Ok o => o | Err _ => empty_obj E end.
Lemma zmade_ok E l : construct E Hanser (zkw l) = Ok (zmade E l) /\ o_zrange (zmade E l) = Some l /\ o_attr (zmade E l) A_wl = Some (VInt 520) /\ o_attr (zmade E l) A_na = Some (qf 6 5) /\
  o_attr (zmade E l) A_ni = Some (qf 3 2) /\ o_attr (zmade E l) A_res = Some (VInt 90) /\ o_attr (zmade E l) A_size = Some (VInt 64) /\ o_attr (zmade E l) A_zres = Some (VInt 100) /\
  o_attr (zmade E l) A_vec_corr = Some (VStr "none") /\ o_attr (zmade E l) A_condition = Some (VStr "sine").
Proof. do 9 (split; [vm_compute; reflexivity|]). vm_compute; reflexivity. Qed.
Example C81_witness_scale : exists o, construct numeric Hanser (zkw (map FFin [-(200); 0; 200]%Q)) = Ok o /\ plottable o /\
  exists xy xz zy ci ws, let dz := / (3 * 100) in let d := / (64 * 90) in fst (p_plot_otf Hanser o) = Ok ([
      mkPanel 3 "k_XY" xy (- 32 * d) (31 * d) (- 32 * d) (31 * d);
      mkPanel 2 "k_YZ" xz (- dz) dz (- 32 * d) (31 * d);
      mkPanel 1 "k_XZ" zy (- 32 * d) (31 * d) (- dz) dz], ci, ws) /\ exists ps, fst (p_plot_psf Hanser true o) = Ok (Some ps).
Proof.
  set (l := map FFin [-(200); 0; 200]%Q). generalize (zmade_ok numeric l). generalize (zmade numeric l). intros o (Ok & Z & E1 & E2 & E3 & E4 & E5 & E6 & E7 & E8).
  assert (Pt : plottable o). { right. eexists. split; [exact Z|]. split; [cbn; lia|]. intros [|[|i]] Hi; cbn in Hi; try lia; vm_compute; discriminate. }
  exists o. split; [exact Ok|]. split; [exact Pt|].
  set (h := mkHpar (Q2R 520) (Q2R (6 # 5)) (Q2R (3 # 2)) (Q2R 90) 64 (map fl_R l) VecNone CondSine).
  assert (Hd : h_describes h o).
  { unfold h_describes. rewrite E1, E2, E3, E4, E5, E7, E8, Z. cbn [h_wl h_na h_ni h_res h_size h_vec h_cond h_zrange h].
    repeat (split; [first [do 2 eexists; split; [reflexivity|]; split; reflexivity | left; reflexivity | eexists; split; [reflexivity|]; cbn; tauto]|]).
    exists l. split; [reflexivity|]. repeat constructor; eexists; split; reflexivity. }
  assert (Hp : physical h) by (unfold physical, h, Q2R; cbn; repeat split; lra || lia).
  assert (Hna : 0 < h_na h <= h_ni h) by (unfold h, Q2R; cbn; lra).
  assert (Hz : is_real (o_attr o A_zres) 100) by (rewrite E6; exists (VInt 100), 100%Q; repeat split; unfold Q2R; cbn; lra).
  destruct (C81_hanser_plots (zkw l) o [] h 100 true Ok eq_refl Hd Hp Hna ltac:(discriminate) Pt Hz ltac:(lra)) as [(xy & xz & zy & ci & ws & E) B].
  exists xy, xz, zy, ci, ws. cbv zeta. split.
  - cbn [run] in E. rewrite E. clear. unfold h. cbn [h_zrange h_size h_res]. subst l. cbn [map List.length].
    assert (Q90 : Q2R 90 = 90) by (unfold Q2R; cbn; lra). rewrite Q90. change (Z.of_nat 3) with 3%Z.
    unfold coord. change (0 - 64 / 2)%Z with (-32)%Z. change (64 - 1 - 64 / 2)%Z with 31%Z. change (0 - 3 / 2)%Z with (-1)%Z. change (3 - 1 - 3 / 2)%Z with 1%Z.
    rewrite !Rmult_1_l. replace (-1 * / (3 * 100)) with (- / (3 * 100)) by lra. replace (-32 * / (64 * 90)) with (- (32) * / (64 * 90)) by lra. reflexivity.
  - cbn [run] in B. apply B; unfold h; cbn [h_res h_wl h_na h_ni]; unfold Q2R; cbn [Qnum Qden].
    + lra.
    + set (s := sqrt _). assert (S : 0 <= s < 3 / 2).
      { unfold s. split; [apply sqrt_pos|]. rewrite <- (sqrt_pow2 (3 / 2)) by lra. apply sqrt_lt_1_alt. lra. }
      assert (520 * / 1 * (2 / 3) <= 520 * / 1 / (3 * / 2 - s)); [|lra]. unfold Rdiv at 2. apply Rmult_le_compat_l; [lra|]. replace (2 / 3) with (/ (3 / 2)) by lra. apply Rinv_le_contravar; lra.
Qed.
Example C81_witness_refused : plots_refused Hanser (zmade numeric (map FFin [-(200); 0; 300]%Q)) /\ plots_refused Hanser (zmade numeric (map FFin [0; 200]%Q)).
Proof.
  split; (eapply (proj1 (C81_refused Hanser _ _ (proj1 (proj2 (zmade_ok numeric _)))) _ eq_refl)); intros [H1 H2]; [|cbn in H1; lia].
  specialize (H2 0%nat ltac:(cbn; lia)). vm_compute in H2. apply H2. reflexivity.
Qed.
Example C81_witness_generated : generated (made_of numeric Hanser) /\ is_whole (o_attr (made_of numeric Hanser) A_zsize) 7 /\ is_real (o_attr (made_of numeric Hanser) A_zres) 100.
Proof.
  split; [left; exists (kw Hanser); split; [apply kw_constructs|reflexivity]|]. split; [left; vm_compute; reflexivity|].
  exists (VInt 100), 100%Q. split; [vm_compute; reflexivity|]. split; [reflexivity|]. unfold Q2R. cbn. lra.
Qed.
