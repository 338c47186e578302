(** C90: phase retrieval does not depend on how the camera is mounted, on the direction of z, on the order of the planes or on the units. *)
From Verif Require Import S_View S_PSF L_Array L_Sum L_Hanser L_Hanser2 L_Hanser4 L_Phase2 L_Phase L_Phase3 L_Phase5 L_View T_PSF T_Object T_Phase T_Phase2.
Import M_Array.
Local Open Scope R_scope.

(** Two measurements of one specimen, for any combination of: rows or columns mirrored, rows and columns exchanged, z counted
    the other way, planes reordered, another unit of length, another scale of refractive index (na, ni and wl together).
    Whatever the tolerances, the iterations allowed and phase_only, both retrievals stop after the same number of iterations
    with the same three records; the PSFs show the same; the second pupil is the first one mirrored and turned accordingly
    (from the other side: also turned by half a turn, with its phase negated). *)
Theorem C90_views :
  forall u w data data' params params' nz n model model' pt mt po,
  unwraps u -> usable data params nz n model -> usable data' params' nz n model' ->
  proper w nz -> optics w nz (hpar_model model) (hpar_model model') -> seen w nz n data data' ->
  forall k, (1 <= k)%Z ->
  exists r r' P P' psf psf',
    fst (retrieve_phase u data params k pt mt po) = Ok r /\ fst (retrieve_phase u data' params' k pt mt po) = Ok r' /\
    r_mse r' = r_mse r /\ r_mse_diff r' = r_mse_diff r /\ r_pupil_diff r' = r_pupil_diff r /\
    complex_pupil (r_mag r) (r_phase r) = Ok P /\ complex_pupil (r_mag r') (r_phase r') = Ok P' /\ shape P = [n; n] /\ shape P' = [n; n] /\
    generate_psf r None None None = Ok psf /\ generate_psf r' None None None = Ok psf' /\ shape psf = [nz; n; n] /\ shape psf' = [nz; n; n] /\
    (forall y x, (0 <= y < n)%Z -> (0 <= x < n)%Z ->
       get P' [fst (pupil_pixel w n y x); snd (pupil_pixel w n y x)] = pupil_value w (get P [y; x]) /\
       get (r_mag r') [fst (pupil_pixel w n y x); snd (pupil_pixel w n y x)] = get (r_mag r) [y; x]) /\
    seen w nz n psf psf'.
Proof.
  intros u w data data' params params' nz n model model' pt mt po Hu Hus Hus' Hp Ho Hd k Hk.
  destruct (hyps _ _ _ _ _ Hus) as (Hr & Hph & Hv & Hc & Hn & Hn2 & Hnz & Hdd). destruct (hyps _ _ _ _ _ Hus') as (Hr' & Hph' & Hv' & Hc' & Hn' & Hn2' & Hnz' & Hdd').
  assert (Enz : Z.of_nat (List.length (h_zrange (hpar_of (obj_params model)))) = nz) by (destruct Hus as (_ & _ & _ & _ & _ & _ & X); exact X).
  assert (Enz' : Z.of_nat (List.length (h_zrange (hpar_of (obj_params model')))) = nz) by (destruct Hus' as (_ & _ & _ & _ & _ & _ & X); exact X).
  destruct (retrieve u Hu data params nz n model Hus pt mt po k Hk) as (m & r & E & Hst & R1 & R2 & R3 & Hres & _).
  destruct (retrieve u Hu data' params' nz n model' Hus' pt mt po k Hk) as (m' & r' & E' & Hst' & R1' & R2' & R3' & Hres' & _).
  pose proof (line_moved w data data' params params' nz n model model' Hus Hus' Hp Ho Hd po) as L.
  assert (Em : m' = m).
  { apply (stop_fun data model pt mt po (Z.to_nat k)); [|exact Hst]. destruct Hst' as (A & B & D). split; [exact A|]. split.
    - intros i Hi. rewrite <- L. now apply B.
    - intros X. rewrite <- L. now apply D. }
  subst m'. assert (Es : shown data' model' pt mt po m = shown data model pt mt po m) by (unfold shown; now rewrite L).
  rewrite Es in Hres'. set (s := shown data model pt mt po m) in *.
  destruct (result_pupil (obj_params model) Hph Hv Hc Hn2 data Hdd po _ r Hres) as (P & EP & SP & GP). destruct (result_pupil (obj_params model') Hph' Hv' Hc' Hn2' data' Hdd' po _ r' Hres') as (P' & EP' & SP' & GP').
  destruct (result_psf (obj_params model) Hr Hph Hv Hc Hn2 data Hdd po _ r Hres) as (psf & Ef & Sf & Gf). destruct (result_psf (obj_params model') Hr' Hph' Hv' Hc' Hn2' data' Hdd' po _ r' Hres') as (psf' & Ef' & Sf' & Gf').
  rewrite Hn in SP, GP. rewrite Hn' in SP', GP'.
  rewrite (psfi_shape (obj_params model) Hph Hv Hc) in Sf by now apply seqP_shape. rewrite (psfi_shape (obj_params model') Hph' Hv' Hc') in Sf' by now apply seqP_shape.
  rewrite Hn, Enz in Sf. rewrite Hn', Enz' in Sf'. rewrite Sf in Gf. rewrite Sf' in Gf'.
  exists r, r', P, P', psf, psf'. rewrite E, E'. cbn [fst]. rewrite R1, R1', R2, R2', R3, R3'. rewrite (map_ext _ _ L).
  repeat (split; [first [reflexivity|assumption]|]). split.
  - intros y x Hy Hx. destruct (q_in w data params nz n model Hus y x Hy Hx) as [Q1 Q2]. pose proof (sq_moved w data data' params params' nz n model model' Hus Hus' Hp Ho Hd po s y x Hy Hx) as Q.
    split; [rewrite GP, GP' by auto; exact Q|]. destruct Hres as (_ & _ & _ & Hm). destruct Hres' as (_ & _ & _ & Hm'). rewrite Hn in Hm. rewrite Hn' in Hm'.
    destruct (Hm y x Hy Hx) as [-> _]. destruct (Hm' _ _ Q1 Q2) as [-> _]. rewrite Q. apply pv_mod.
  - intros z y x Hz Hy Hx. destruct (moved_in n ltac:(lia) (v_mirror_y w) (v_mirror_x w) (v_swap w) y x Hy Hx) as [M1 M2].
    change (moved (v_mirror_y w) (v_mirror_x w) (v_swap w) n y x) with (pixel w n y x) in M1, M2. pose proof (proj1 (proj2 (proj2 Hp)) z Hz) as Hz'.
    rewrite Gf by now apply inb3. rewrite Gf' by now apply inb3.
    apply (psf_moved w data data' params params' nz n model model' Hus Hus' Hp Ho Hd po s); auto.
Qed.
Print Assumptions C90_views.

(** So a symmetry of the data is a symmetry of the retrieved pupil: when the stack looks the same in another view of the same
    microscope, so do the pupil and the PSF. *)
Theorem C90_symmetric_data :
  forall u w data params nz n model pt mt po,
  unwraps u -> usable data params nz n model -> proper w nz -> optics w nz (hpar_model model) (hpar_model model) -> seen w nz n data data ->
  forall k, (1 <= k)%Z ->
  exists r P psf, fst (retrieve_phase u data params k pt mt po) = Ok r /\ complex_pupil (r_mag r) (r_phase r) = Ok P /\ generate_psf r None None None = Ok psf /\
    (forall y x, (0 <= y < n)%Z -> (0 <= x < n)%Z -> get P [fst (pupil_pixel w n y x); snd (pupil_pixel w n y x)] = pupil_value w (get P [y; x])) /\
    seen w nz n psf psf.
Proof.
  intros u w data params nz n model pt mt po Hu Hus Hp Ho Hd k Hk.
  destruct (C90_views u w data data params params nz n model model pt mt po Hu Hus Hus Hp Ho Hd k Hk) as (r & r' & P & P' & psf & psf' & E & E' & _ & _ & _ & EP & EP' & _ & _ & Ef & Ef' & _ & _ & Q & S).
  rewrite E in E'. injection E' as <-. rewrite EP in EP'. injection EP' as <-. rewrite Ef in Ef'. injection Ef' as <-.
  exists r, P, psf. repeat (split; [assumption|]). split; [|exact S]. intros y x Hy Hx. now apply Q.
Qed.
Print Assumptions C90_symmetric_data.

(** The hypotheses are met: a stack of three planes at -1, 0 and 1 in nm, and the same specimen taken from the other side (planes in the opposite
    order), rows mirrored, rows and columns exchanged, with the lengths in units of 10 nm. *)
Definition vdict : pdict := wdict ++ [("zrange", KZ (ZList [FFin (-1); FFin 0; FFin 1]))]%string.
Definition vctor : ctor :=
  mkCtor (VInt 520) (qf 6 5) (qf 3 2) (VInt 90) (VInt 64) (Some (VInt 100)) (Some (VInt 3)) (VStr "none") (VStr "none") (Some (ZList [FFin (-1); FFin 0; FFin 1])) (VBool false).
Definition vmade (E : engine) : obj E := match construct E Hanser vctor with Ok o => o | Err _ => empty_obj E end.
Definition vdict' : pdict :=
  [("wl", KV (VInt 52)); ("na", KV (qf 6 5)); ("ni", KV (qf 3 2)); ("res", KV (VInt 9)); ("zres", KV (VInt 100)); ("size", KV (VInt 5));
   ("zrange", KZ (ZList [FFin (-1 # 10); FFin 0; FFin (1 # 10)]))]%string.
Definition vctor' : ctor :=
  mkCtor (VInt 52) (qf 6 5) (qf 3 2) (VInt 9) (VInt 64) (Some (VInt 100)) (Some (VInt 3)) (VStr "none") (VStr "none") (Some (ZList [FFin (-1 # 10); FFin 0; FFin (1 # 10)])) (VBool false).
Definition vmade' (E : engine) : obj E := match construct E Hanser vctor' with Ok o => o | Err _ => empty_obj E end.
Definition vdata : array R := mkArr [3; 64; 64]%Z (fun ix => match ix with [z; y; x] => IZR (z + y * x) | _ => 0 end).
Definition vdata' : array R := mkArr [3; 64; 64]%Z (fun ix => match ix with [z; y; x] => IZR ((2 - z) + mirrored 64 x * y) | _ => 0 end).
Definition vview : view := mkView true false true true (fun z => 2 - z)%Z (1 / 10) 1.
Lemma vparams E : obj_params (vmade E) = obj_params (vmade toy). Proof. vm_compute. reflexivity. Qed.
Lemma vparams' E : obj_params (vmade' E) = obj_params (vmade' toy). Proof. vm_compute. reflexivity. Qed.
Example vusable : usable vdata vdict 3 64 (vmade numeric).
Proof.
  assert (A : forall E, construct E Hanser vctor = Ok (vmade E)) by (intros E; vm_compute; reflexivity).
  assert (C1 : forall E a, o_attr (vmade E) a = o_attr (vmade toy) a) by (intros E []; vm_compute; reflexivity).
  assert (D : forall E, o_zrange (vmade E) = Some [FFin (-1); FFin 0; FFin 1]) by (intros E; vm_compute; reflexivity).
  split; [reflexivity|]. split; [lia|]. split; [lia|]. split; [exists vctor; split; [reflexivity|apply A]|]. unfold hpar_model. split.
  - unfold finite_model. rewrite !C1, D. repeat (split; [vm_compute; eauto|]). eexists. split; [reflexivity|]. repeat constructor; eexists; reflexivity.
  - rewrite vparams. set (q := obj_params (vmade toy)). vm_compute in q. subst q. split; [|reflexivity]. unfold physical. cbn. unfold Q2R. cbn. repeat split; try lia; try lra.
Qed.
Example vusable' : usable vdata' vdict' 3 64 (vmade' numeric).
Proof.
  assert (A : forall E, construct E Hanser vctor' = Ok (vmade' E)) by (intros E; vm_compute; reflexivity).
  assert (C1 : forall E a, o_attr (vmade' E) a = o_attr (vmade' toy) a) by (intros E []; vm_compute; reflexivity).
  assert (D : forall E, o_zrange (vmade' E) = Some [FFin (-1 # 10); FFin 0; FFin (1 # 10)]) by (intros E; vm_compute; reflexivity).
  split; [reflexivity|]. split; [lia|]. split; [lia|]. split; [exists vctor'; split; [reflexivity|apply A]|]. unfold hpar_model. split.
  - unfold finite_model. rewrite !C1, D. repeat (split; [vm_compute; eauto|]). eexists. split; [reflexivity|]. repeat constructor; eexists; reflexivity.
  - rewrite vparams'. set (q := obj_params (vmade' toy)). vm_compute in q. subst q. split; [|reflexivity]. unfold physical. cbn. unfold Q2R. cbn. repeat split; try lia; try lra.
Qed.
Example view_witness : proper vview 3 /\ optics vview 3 (hpar_model (vmade numeric)) (hpar_model (vmade' numeric)) /\ seen vview 3 64 vdata vdata' /\
  get vdata' [0; 1; 2]%Z <> get vdata [0; 1; 2]%Z.
Proof.
  split; [unfold proper, vview; cbn [v_unit v_index v_plane]; repeat split; try lra; intros; lia|].
  split.
  - unfold optics, hpar_model. rewrite vparams, vparams'. set (q := obj_params (vmade toy)). vm_compute in q. subst q. set (q := obj_params (vmade' toy)). vm_compute in q. subst q.
    cbn [vview v_unit v_index v_plane v_side]. unfold hpar_of. cbn. unfold Q2R. cbn. repeat (split; [lra|]).
    intros z Hz. assert (E : (z = 0 \/ z = 1 \/ z = 2)%Z) by lia.
    destruct E as [-> | [-> | ->]]; cbn; try change (Pos.to_nat 2) with 2%nat; try change (Pos.to_nat 1) with 1%nat; cbn; lra.
  - split.
    + intros z y x Hz Hy Hx. unfold pixel, moved, mirrored_if. cbn [vview v_plane v_mirror_y v_mirror_x v_swap fst snd vdata vdata' get]. f_equal. rewrite (mirrored_inv 64) by lia. lia.
    + cbn [vdata vdata' get]. change (mirrored 64 2) with 62%Z. intros X. apply eq_IZR in X. lia.
Qed.
(** ... and the centred spot, which looks the same in every mirror. *)
Example symmetric_witness : let w := mkView true false false false (fun z => z) 1 1 in
  let data := mkArr [7; 64; 64]%Z (fun ix => match ix with [z; y; x] => if ((y =? 32) && (x =? 32))%Z%bool then 1 else 0 | _ => 0 end) in
  usable data wdict 7 64 (wmade numeric) /\ proper w 7 /\ optics w 7 (hpar_model (wmade numeric)) (hpar_model (wmade numeric)) /\ seen w 7 64 data data.
Proof.
  cbv zeta. split; [destruct usable_witness as (_ & R); split; [reflexivity|exact R]|].
  split; [unfold proper; cbn [v_unit v_index v_plane]; repeat split; try lra; intros; lia|]. split.
  - unfold optics. cbn [v_unit v_index v_plane v_side]. repeat (split; [ring|]). intros. ring.
  - intros z y x Hz Hy Hx. cbn [v_plane pixel v_mirror_y v_mirror_x v_swap]. unfold pixel, moved. cbn [v_mirror_y v_mirror_x v_swap mirrored_if fst snd get].
    replace (mirrored 64 y =? 32)%Z with (y =? 32)%Z; [reflexivity|]. apply Bool.eq_iff_eq_true. rewrite !Z.eqb_eq. unfold mirrored. change (2 * (64 / 2))%Z with 64%Z.
    destruct (Z.eq_dec y 0) as [->|N]; [cbn; lia|]. rewrite Z.mod_small by lia. lia.
Qed.
