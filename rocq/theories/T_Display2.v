(** C78, C79: what psf_plot and otf_plot show (pyotf/display.py:87-257). *)
From Verif Require Import M_Display S_Display T_Display.
From Coq Require Import Lra.
Import M_Array.
Local Open Scope R_scope.

Lemma fold_max : forall (f : Z -> R) l m, m <= fold_left (fun m k => Rmax m (f k)) l m /\
  (forall k, In k l -> f k <= fold_left (fun m k => Rmax m (f k)) l m) /\
  (fold_left (fun m k => Rmax m (f k)) l m = m \/ exists k, In k l /\ f k = fold_left (fun m k => Rmax m (f k)) l m).
Proof.
  intros f l. induction l as [|a l IH]; intros m; cbn [fold_left].
  - split; [apply Rle_refl|]. split; [intros k []|left; reflexivity].
  - destruct (IH (Rmax m (f a))) as (A & B & C). pose proof (Rmax_l m (f a)). pose proof (Rmax_r m (f a)).
    split; [lra|]. split.
    + intros k [<-|Hk]; [lra|]. apply B, Hk.
    + destruct C as [C|(k & Hk & C)].
      * rewrite C. unfold Rmax. destruct Rle_dec; [right; exists a; split; [left; reflexivity|reflexivity]|left; reflexivity].
      * right. exists k. split; [right; assumption|assumption].
Qed.
Lemma zseq_cons : forall n, (0 < n)%Z -> zseq n = 0%Z :: tl (zseq n).
Proof. intros n H. unfold zseq. destruct (Z.to_nat n) eqn:E; [lia|]. reflexivity. Qed.
Lemma zseq_in : forall n k, In k (zseq n) <-> (0 <= k < n)%Z.
Proof.
  intros. unfold zseq. rewrite in_map_iff. split.
  - intros (x & <- & H). rewrite in_seq in H. lia.
  - intros H. exists (Z.to_nat k). rewrite in_seq. lia.
Qed.
Lemma max_over_is_max : forall n f, (0 < n)%Z -> is_max n f (max_over n f).
Proof.
  intros n f H. unfold max_over. destruct (fold_max f (tl (zseq n)) (f 0%Z)) as (A & B & C). split.
  - destruct C as [C|(k & Hk & C)].
    + exists 0%Z. split; [lia|]. symmetry. exact C.
    + exists k. split; [|exact C]. apply zseq_in. rewrite (zseq_cons n H). right. exact Hk.
  - intros k Hk. apply zseq_in in Hk. rewrite (zseq_cons n H) in Hk. destruct Hk as [<-|Hk]; [exact A|apply B, Hk].
Qed.

(** What a panel shows of a stack: projections or central sections. *)
Theorem C78_psf_panels : forall psf nz ny nx zres res mip, shape psf = [nz; ny; nx] ->
  (1 <= nz)%Z -> (1 <= ny)%Z -> (1 <= nx)%Z ->
  exists xy xz zy,
    psf_plot psf zres res mip = Ok [
      mkPanel 3 "XY" xy (coord nx res 0) (coord nx res (nx - 1)) (coord ny res 0) (coord ny res (ny - 1));
      mkPanel 2 "YZ" xz (coord nz zres 0) (coord nz zres (nz - 1)) (coord ny res 0) (coord ny res (ny - 1));
      mkPanel 1 "XZ" zy (coord nx res 0) (coord nx res (nx - 1)) (coord nz zres 0) (coord nz zres (nz - 1))] /\
    shape xy = [ny; nx] /\ shape xz = [nx; nz] /\ shape zy = [nz; ny] /\
    (mip = true -> forall x y z,
       is_max nz (fun k => get psf [k; y; x]) (get xy [y; x]) /\
       is_max ny (fun k => get psf [z; k; x]) (get xz [x; z]) /\
       is_max nx (fun k => get psf [z; y; k]) (get zy [z; y])) /\
    (mip = false -> forall x y z,
       get xy [y; x] = get psf [(nz / 2)%Z; y; x] /\
       get xz [x; z] = get psf [z; (ny / 2)%Z; x] /\
       get zy [z; y] = get psf [z; y; (nx / 2)%Z]).
Proof.
  intros psf nz ny nx zres res mip Hs Hz Hy Hx. unfold psf_plot. rewrite Hs.
  rewrite !C64_extents by assumption.
  unfold max0, max1, max2, slice0, slice1, slice2.
  destruct (nz <=? 0)%Z eqn:E1; [exfalso; lia|]. destruct (ny <=? 0)%Z eqn:E2; [exfalso; lia|].
  destruct (nx <=? 0)%Z eqn:E3; [exfalso; lia|].
  destruct (nz / 2 <? nz)%Z eqn:F1; [|exfalso; lia]. destruct (ny / 2 <? ny)%Z eqn:F2; [|exfalso; lia].
  destruct (nx / 2 <? nx)%Z eqn:F3; [|exfalso; lia].
  destruct mip; cbn [bind]; do 3 eexists; (split; [reflexivity|]); do 3 (split; [reflexivity|]);
    (split; intros E; [|try discriminate]); try discriminate; intros x y z; cbn.
  - repeat split; try (apply max_over_is_max; lia).
  - repeat split.
Qed.
Print Assumptions C78_psf_panels.

Theorem C78_psf_refused : forall psf zres res mip e, psf_plot psf zres res mip = Err e ->
  (List.length (shape psf) <> 3%nat /\ e = ValueError) \/
  (exists nz ny nx, shape psf = [nz; ny; nx] /\ (nz <= 0 \/ ny <= 0 \/ nx <= 0)%Z /\ e = if mip then ValueError else IndexError).
Proof.
  intros psf zres res mip e. unfold psf_plot.
  destruct (shape psf) as [|nz [|ny [|nx [|? ?]]]] eqn:S; intros H;
    try (left; split; [cbn; lia|congruence]).
  right. exists nz, ny, nx. split; [reflexivity|].
  unfold max0, max1, max2, slice0, slice1, slice2 in H.
  destruct (nz <=? 0)%Z eqn:E1, (ny <=? 0)%Z eqn:E2, (nx <=? 0)%Z eqn:E3,
    (nz / 2 <? nz)%Z eqn:F1, (ny / 2 <? ny)%Z eqn:F2, (nx / 2 <? nx)%Z eqn:F3;
  destruct mip; cbn [bind] in H; try discriminate; (split; [lia|congruence]).
Qed.
Print Assumptions C78_psf_refused.

(** The panel titled YZ shows x against z and the one titled XZ shows z against y; on square stacks
    that do not change when x and y are exchanged every panel shows what its title says. *)
Theorem C78_titles : forall psf nz n zres res, shape psf = [nz; n; n] -> (1 <= nz)%Z -> (1 <= n)%Z ->
  (forall z y x, get psf [z; y; x] = get psf [z; x; y]) ->
  exists pxy pyz pxz, psf_plot psf zres res true = Ok [pxy; pyz; pxz] /\ p_title pyz = "YZ"%string /\ p_title pxz = "XZ"%string /\
    forall x y z,
      is_max n (fun k => get psf [z; y; k]) (get (p_img pyz) [y; z]) /\
      is_max n (fun k => get psf [z; k; x]) (get (p_img pxz) [z; x]).
Proof.
  intros psf nz n zres res Hs Hz Hn Sy.
  destruct (C78_psf_panels psf nz n n zres res true Hs Hz Hn Hn) as (xy & xz & zy & E & _ & _ & _ & M & _).
  do 3 eexists. split; [exact E|]. split; [reflexivity|]. split; [reflexivity|]. intros x y z. cbn [p_img]. split.
  - destruct (M eq_refl y y z) as (_ & A & _). unfold is_max in *. destruct A as [(k & Hk & A) B]. split.
    + exists k. split; [assumption|]. rewrite Sy. exact A.
    + intros j Hj. rewrite Sy. apply B, Hj.
  - destruct (M eq_refl x x z) as (_ & _ & A). unfold is_max in *. destruct A as [(k & Hk & A) B]. split.
    + exists k. split; [assumption|]. rewrite Sy. exact A.
    + intros j Hj. rewrite Sy. apply B, Hj.
Qed.
Print Assumptions C78_titles.

(** ... and without that symmetry they do not: the 1x1x2 stack with values 1, 2 (nx = 2). *)
Example C78_swapped : exists psf pxy pyz pxz, shape psf = [1; 1; 2]%Z /\ psf_plot psf 1 1 false = Ok [pxy; pyz; pxz] /\
  p_title pyz = "YZ"%string /\ shape (p_img pyz) = [2; 1]%Z /\ get (p_img pyz) [0%Z; 0%Z] <> get (p_img pyz) [1%Z; 0%Z].
Proof.
  exists (mkArr [1; 1; 2]%Z (fun ix => match ix with [_; _; x] => IZR (x + 1) | _ => 0 end)).
  do 3 eexists. split; [reflexivity|]. split; [reflexivity|]. split; [reflexivity|]. split; [reflexivity|]. cbn. lra.
Qed.

(** Columns are drawn within half a pixel of their coordinate; rows, since row 0 is at the top, of
    the coordinate of the mirrored row. *)
Lemma drawn_off : forall n d i, (1 <= n)%Z ->
  coord n d 0 + (IZR i + / 2) / IZR n * (coord n d (n - 1) - coord n d 0) = coord n d i + d * (/ 2 - (IZR i + / 2) / IZR n).
Proof.
  intros n d i H. assert (IZR n <> 0) by (apply (IZR_neq n 0); lia). unfold coord. rewrite !minus_IZR. field. assumption.
Qed.
Lemma half_off : forall n d i, (1 <= n)%Z -> (0 <= i < n)%Z -> 0 <= d -> Rabs (d * (/ 2 - (IZR i + / 2) / IZR n)) <= d / 2.
Proof.
  intros n d i H Hi Hd. assert (0 < IZR n) by (apply (IZR_lt 0); lia).
  assert (0 <= IZR i) by (apply (IZR_le 0); lia). assert (IZR i + 1 <= IZR n) by (rewrite <- plus_IZR; apply IZR_le; lia).
  assert (0 <= (IZR i + / 2) / IZR n) by (apply Rmult_le_pos; [lra|left; apply Rinv_0_lt_compat; lra]).
  assert ((IZR i + / 2) / IZR n <= 1).
  { apply (Rmult_le_reg_r (IZR n)); [assumption|]. unfold Rdiv. rewrite Rmult_assoc, Rinv_l by lra. lra. }
  apply Rabs_le. split; nra.
Qed.
Theorem C78_drawn : forall psf nz ny nx zres res mip p, shape psf = [nz; ny; nx] ->
  (1 <= nz)%Z -> (1 <= ny)%Z -> (1 <= nx)%Z -> 0 <= res -> 0 <= zres ->
  (exists l, psf_plot psf zres res mip = Ok (p :: l)) ->
  forall y x, (0 <= y < ny)%Z -> (0 <= x < nx)%Z ->
    Rabs (drawn_x p x - coord nx res x) <= res / 2 /\
    Rabs (drawn_y p y - coord ny res (ny - 1 - y)) <= res / 2.
Proof.
  intros psf nz ny nx zres res mip p Hs Hz Hy Hx Hr Hzr [l Hl] y x Iy Ix.
  destruct (C78_psf_panels psf nz ny nx zres res mip Hs Hz Hy Hx) as (xy & xz & zy & E & S1 & _).
  rewrite E in Hl. injection Hl as <- _. unfold drawn_x, drawn_y, ncols, nrows. cbn [p_img p_left p_right p_top p_bottom].
  rewrite S1. cbn [nth]. split.
  - rewrite drawn_off by assumption. replace (_ + _ - _) with (res * (/ 2 - (IZR x + / 2) / IZR nx)) by ring.
    apply half_off; lia || assumption.
  - assert (N : IZR ny <> 0) by (apply (IZR_neq ny 0); lia).
    replace (_ - _ - _) with (res * (/ 2 - (IZR (ny - 1 - y) + / 2) / IZR ny)).
    + apply half_off; lia || assumption.
    + unfold coord. rewrite !minus_IZR. field. assumption.
Qed.
Print Assumptions C78_drawn.

(** otf_plot: the three central sections with the frequency axes of the transform. *)
Theorem C78_otf_panels : forall otf nz n na ni wl zres res, shape otf = [nz; n; n] -> (1 <= nz)%Z -> (1 <= n)%Z ->
  zres <> 0 -> res <> 0 -> ni <> 0 -> wl <> 0 ->
  exists xy xz zy c ws, let dz := / (IZR nz * zres) in let d := / (IZR n * res) in
    otf_plot otf na ni wl zres res = Ok ([
      mkPanel 3 "k_XY" xy (coord n d 0) (coord n d (n - 1)) (coord n d 0) (coord n d (n - 1));
      mkPanel 2 "k_YZ" xz (coord nz dz 0) (coord nz dz (nz - 1)) (coord n d 0) (coord n d (n - 1));
      mkPanel 1 "k_XZ" zy (coord n d 0) (coord n d (n - 1)) (coord nz dz 0) (coord nz dz (nz - 1))], c, ws) /\
    shape xy = [n; n] /\ shape xz = [n; nz] /\ shape zy = [nz; n] /\
    forall x y z, get xy [y; x] = get otf [(nz / 2)%Z; y; x] /\
       get xz [x; z] = get otf [z; (n / 2)%Z; x] /\
       get zy [z; y] = get otf [z; y; (n / 2)%Z].
Proof.
  intros otf nz n na ni wl zres res Hs Hz Hn Z1 Z2 Z3 Z4. unfold otf_plot. rewrite Hs. rewrite Z.eqb_refl. cbn [negb].
  assert (N1 : IZR n <> 0) by (apply (IZR_neq n 0); lia). assert (N2 : IZR nz <> 0) by (apply (IZR_neq nz 0); lia).
  assert (F : forall m d, (1 <= m)%Z -> d <> 0 -> fft_max_min m d = Ok (coord m (/ (IZR m * d)) 0, coord m (/ (IZR m * d)) (m - 1))).
  { intros m d Hm Hd. assert (IZR m <> 0) by (apply (IZR_neq m 0); lia). unfold fft_max_min, pdiv.
    destruct Req_EM_T; [contradiction|]. cbn [bind]. destruct Req_EM_T; [contradiction|]. cbn [bind].
    rewrite C64_extents by assumption. replace (1 / d / IZR m) with (/ (IZR m * d)) by (field; auto). reflexivity. }
  rewrite !F by assumption. cbn [bind]. unfold slice0, slice1, slice2.
  destruct (nz / 2 <? nz)%Z eqn:F1; [|exfalso; lia]. destruct (n / 2 <? n)%Z eqn:F2; [|exfalso; lia]. cbn [bind].
  unfold marginal_angle, pdiv. destruct (Req_EM_T ni 0); [contradiction|]. destruct (Req_EM_T wl 0); [contradiction|]. cbn [bind].
  do 5 eexists. split; [reflexivity|]. do 3 (split; [reflexivity|]). intros x y z. cbn. auto.
Qed.
Print Assumptions C78_otf_panels.

(** Unequal lateral sizes are refused. *)
Theorem C78_otf_square : forall otf nz ny nx na ni wl zres res, shape otf = [nz; ny; nx] -> nx <> ny ->
  otf_plot otf na ni wl zres res = Err AssertionError.
Proof.
  intros. unfold otf_plot. rewrite H. destruct (nx =? ny)%Z eqn:E; [exfalso; lia|reflexivity].
Qed.
Print Assumptions C78_otf_square.

(** The zero frequency is drawn exactly at the centre of the overlays when n is odd; when n is even
    it is half a pixel / n off horizontally and almost a whole pixel low vertically. *)
Theorem C78_otf_centre : forall otf nz n na ni wl zres res l c ws pxy rest, shape otf = [nz; n; n] -> (1 <= nz)%Z -> (1 <= n)%Z ->
  zres <> 0 -> res <> 0 -> ni <> 0 -> wl <> 0 ->
  otf_plot otf na ni wl zres res = Ok (l, c, ws) -> l = pxy :: rest ->
  let d := / (IZR n * res) in
  (Z.Odd n -> drawn_x pxy (n / 2) = 0 /\ drawn_y pxy (n / 2) = 0) /\
  (Z.Even n -> drawn_x pxy (n / 2) = - d / (2 * IZR n) /\ drawn_y pxy (n / 2) = - d + d / (2 * IZR n)).
Proof.
  intros otf nz n na ni wl zres res l c ws pxy rest Hs Hz Hn Z1 Z2 Z3 Z4 E El d.
  destruct (C78_otf_panels otf nz n na ni wl zres res Hs Hz Hn Z1 Z2 Z3 Z4) as (xy & xz & zy & c' & ws' & E' & S1 & _).
  rewrite E in E'. injection E' as -> _ _. injection El as <- _.
  unfold drawn_x, drawn_y, ncols, nrows. cbn [p_img p_left p_right p_top p_bottom]. rewrite S1. cbn [nth].
  assert (N : IZR n <> 0) by (apply (IZR_neq n 0); lia). fold d.
  clearbody d.
  split; intros [k K].
  - assert (NK : IZR n = 2 * IZR k + 1) by (rewrite K, plus_IZR, mult_IZR; reflexivity).
    split; unfold coord; replace (n / 2)%Z with k by lia; rewrite !minus_IZR, NK; rewrite NK in N; field; assumption.
  - assert (NK : IZR n = 2 * IZR k) by (rewrite K, mult_IZR; reflexivity).
    split; unfold coord; replace (n / 2)%Z with k by lia; rewrite !minus_IZR, NK; rewrite NK in N; field; lra.
Qed.
Print Assumptions C78_otf_centre.
