(** C56 (OTF), C59 (signs) and the microscopes as built. *)
From Verif Require Import S_FFT S_Micro S_Bin L_Sum L_Bin L_PSF L_Ctor L_Phase5 L_Micro T_PSF T_Bin L_Array L_FFT L_FFT2 L_Phase2 L_Polar T_Hanser T_Object T_Micro T_Micro2 T_Micro3 L_Micro2.
Import M_Array.
Local Open Scope R_scope.

(** ** C56 *)
Definition absent_zero (v : option R) : R := match v with Some x => x | None => 0 end.
Theorem C56_otf : forall m a nz ny nx, fresh m = Ok a -> shape a = [nz; ny; nx] -> (0 < nz)%Z -> (0 < ny)%Z -> (0 < nx)%Z ->
  (forall ix, inb (shape a) ix -> get a ix <> None) -> image_sum a = 1 ->
  exists o, fst (m_OTF (m_changed m)) = Ok o /\ shape o = [nz; ny; nx] /\
    get o [nz / 2; ny / 2; nx / 2]%Z = Some (RtoC 1) /\
    forall kz ky kx, inb [nz; ny; nx] [kz; ky; kx] ->
      exists c, get o [kz; ky; kx] = Some c /\
        get o [(2 * (nz / 2) - kz) mod nz; (2 * (ny / 2) - ky) mod ny; (2 * (nx / 2) - kx) mod nx]%Z = Some (Cconj c) /\
        Cmod c <= Rsum (all_ix [nz; ny; nx]) (fun ix => Rabs (absent_zero (get a ix))) /\
        (nonneg_image a -> Cmod c <= 1).
Proof.
  intros m a nz ny nx Hf Hs Hz Hy Hx Hall Hsum.
  assert (E : fst (m_OTF (m_changed m)) = Ok (o_fft (amap (option_map RtoC) a))).
  { unfold m_OTF. cbn [m_changed upd_cache mi_otf]. unfold fresh in Hf. unfold mbind. destruct (m_PSF (m_changed m)) as [[b|e] m'] eqn:EP; cbn [fst] in *; [|discriminate]. congruence. }
  exists (o_fft (amap (option_map RtoC) a)). split; [exact E|]. split; [exact Hs|].
  set (B := amap absent_zero a).
  assert (Fin : finite_all (amap (option_map RtoC) a) = true).
  { unfold finite_all. apply forallb_forall. intros ix Hix. apply in_all_ix in Hix. cbn [amap get shape] in *. specialize (Hall ix Hix). destruct (get a ix); [reflexivity|congruence]. }
  assert (Sh : shape (amap cval (amap (option_map RtoC) a)) = [nz; ny; nx]) by exact Hs.
  assert (Bc : forall ix, get (amap cval (amap (option_map RtoC) a)) ix = RtoC (get B ix)) by (intros ix; cbn [amap get]; unfold B; cbn [amap get]; destruct (get a ix); reflexivity).
  assert (Bb : Rsum (all_ix [nz; ny; nx]) (get B) = 1) by (rewrite <- Hsum; unfold image_sum; rewrite Hs; reflexivity).
  set (X := amap cval (amap (option_map RtoC) a)) in *.
  assert (G : forall ix, get (o_fft (amap (option_map RtoC) a)) ix = Some (get (easy_fft None X) ix)) by (intros ix; unfold o_fft; cbn [get]; rewrite Fin; reflexivity).
  assert (Box : forall k, inb [nz; ny; nx] k -> box (repeat true (List.length [nz; ny; nx])) [nz; ny; nx] k = all_ix [nz; ny; nx]) by (intros; now apply box_all).
  assert (K0 : inb [nz; ny; nx] [0; 0; 0]%Z) by (apply inb3; lia).
  split.
  - rewrite G. f_equal. pose proof (mop_centre (repeat true 3) [nz; ny; nx] (get X) [0; 0; 0]%Z K0) as Hc.
    rewrite easy_fft_mop; rewrite Sh. 2:{ apply (inb_at_centre (repeat true 3) [nz; ny; nx] [0; 0; 0]%Z K0). }
    etransitivity; [exact Hc|]. change 3%nat with (List.length [nz; ny; nx]). rewrite Box by exact K0. rewrite (Csum_ext _ _ (fun ix => RtoC (get B ix))) by (intros; apply Bc). rewrite <- Csum_RtoC. now rewrite Bb.
  - intros kz ky kx Hk. exists (get (easy_fft None X) [kz; ky; kx]). split; [apply G|].
    assert (Bd : Cmod (get (easy_fft None X) [kz; ky; kx]) <= Rsum (all_ix [nz; ny; nx]) (fun ix => Rabs (absent_zero (get a ix)))).
    { rewrite easy_fft_mop; rewrite Sh; [|exact Hk]. eapply Rle_trans; [apply mop_bound; intros; unfold kcen; rewrite root_mod1; lra|].
      cbn [axes_mask]. rewrite Box by exact Hk. apply Rsum_le. intros ix _. rewrite Bc, Cmod_R. unfold B. cbn [amap get]. lra. }
    split; [|split; [exact Bd|]].
    + rewrite G. f_equal. assert (Hmm := inb_mirror (repeat true 3) [nz; ny; nx] [kz; ky; kx] Hk).
      rewrite !easy_fft_mop by (rewrite Sh; auto). rewrite Sh. cbn [axes_mask List.length].
      etransitivity; [exact (mop_mirror (repeat true 3) [nz; ny; nx] (get X) [kz; ky; kx] Hk)|].
      rewrite (mop_conj (kcen (-1)) (kcen 1) (fun x => x)).
      * apply mop_ext; auto. intros js _. rewrite Bc. now rewrite Cconj_RtoC.
      * intros n k j. unfold kcen. rewrite root_conj. f_equal. ring.
    + intros Hn. eapply Rle_trans; [exact Bd|]. rewrite <- Bb. apply Rsum_le. intros ix Hix. apply in_all_ix in Hix. unfold B. cbn [amap get]. specialize (Hn ix). rewrite Hs in Hn. specialize (Hn Hix).
      destruct (get a ix); cbn; [rewrite Rabs_pos_eq by exact Hn; lra|rewrite Rabs_R0; lra].
Qed.
Print Assumptions C56_otf.

(** Widefield, confocal and apotome PSFs are never negative, whatever was done to the microscope before (as long as m.model is
    only replaced by models of the same class); so C56 gives |OTF| <= 1 for them. *)
Lemma Rdiv_nonneg a b : 0 <= a -> 0 <= b -> b <> 0 -> 0 <= a / b.
Proof. intros Ha Hb Hn. unfold Rdiv. apply Rmult_le_pos; [exact Ha|]. apply Rlt_le, Rinv_0_lt_compat. lra. Qed.
Lemma bin_nonneg f n p r : nonneg p -> bin_psf f n p = Ok r -> forall ix, inb (shape r) ix -> 0 <= get r ix.
Proof.
  intros Hp. unfold bin_psf. destruct (1 <? f)%Z eqn:Ef; [|intros [= <-] ix _; apply Hp]. apply Z.ltb_lt in Ef. fold (shifted f n p). intros E.
  assert (Ns : nonneg (shifted f n p)) by (intros ix; unfold shifted; destruct (_ =? _)%Z; [unfold roll; cbn [get]; apply Hp|apply Hp]).
  unfold bin_ndarray in E. destruct (bcast_bins _ _) as [bs|e]; cbn [bind] in E; [|discriminate]. destruct (getitem _ _) as [cr|e] eqn:Eg; cbn [bind] in E; [|discriminate].
  assert (Nc : nonneg cr). { unfold getitem in Eg. destruct (_ <? _)%nat; [discriminate|]. injection Eg as <-. intros ix. cbn [get]. apply Ns. }
  unfold bin_to in E. change (String.eqb (lower "sum") "sum") with true in E. cbn [bind] in E. destruct (negb _); [discriminate|]. cbn [bind] in E.
  destruct (reshape _ _) as [rs|e] eqn:Er; cbn [bind] in E; [|discriminate]. injection E as <-.
  assert (Nr : nonneg rs). { unfold reshape in Er. destruct (existsb _ _); [discriminate|]. destruct (_ =? _)%Z; [|discriminate]. injection Er as <-. intros ix. cbn [get]. unfold flat. apply Nc. }
  intros ix _. clear Er. revert rs Nr ix. generalize (seq 0 (List.length (map (fun nb : Z * Z => (fst nb / snd nb)%Z) (combine (shape (shifted f n p)) bs)))). clear. intros l.
  induction l as [|i l IH]; intros rs Nr; cbn [fold_left]; [apply Nr|].
  apply IH. intros ix. unfold reduce. cbn [get]. unfold op_sum. apply Rsum_nonneg. intros j _. apply Nr.
Qed.
Theorem C56_nonnegative : forall a m h arr, built_from a m -> mi_kind m <> SIM -> decent (mi_cls m) h ->
  fst (m_PSF (mrun h m)) = Ok arr -> nonneg_image arr.
Proof.
  intros a m h arr Hb Hk Hd E.
  assert (F : forall q b, sane q -> mi_kind q <> SIM -> fresh q = Ok b -> nonneg_image b).
  { intros q b Sq Kq Eb. rewrite fresh_compute in Eb. unfold compute_psf in Eb. apply mbind_ok in Eb. destruct Eb as ([p bl] & Ep & Eb). apply mbind_ok in Eb. destruct Eb as (v & _ & Eb). apply mbind_ok in Eb. destruct Eb as (d & _ & Eb). apply mbind_ok in Eb. destruct Eb as (r & Er & Eb).
    cbn [mlift mret fst snd] in *. destruct (par_Z _ _) as [n|]; cbn [bind] in Er; [|discriminate]. injection Eb as <-. intros ix Hix. cbn [normalise amap get shape fst snd] in *. destruct bl; [|exact I]. destruct (Req_EM_T (M_Micro.total r) 0) as [|N]; [exact I|].
    assert (Nr : forall ix, inb (shape r) ix -> 0 <= get r ix) by (apply (bin_nonneg (as_int v) n p r); [now apply (model_psf_nonneg q)|exact Er]).
    apply Rdiv_nonneg; [now apply Nr| |exact N]. unfold M_Micro.total. apply Rsum_nonneg. intros j Hj. apply Nr. now apply in_all_ix. }
  destruct (C57_snapshot m h (ex_intro _ a Hb)) as [E1 _]. rewrite E in E1.
  (* the snapshot is a sane microscope of the same kind *)
  assert (Sn : forall h0 q s, sane q -> decent (mi_cls q) h0 -> (forall x, s = Some x -> sane x /\ mi_kind x = mi_kind q) ->
            forall x, snapshot h0 q s = Some x -> sane x /\ mi_kind x = mi_kind q).
  { induction h0 as [|y h0 IH]; intros q s Sq Dq Hs x Hx; [now apply Hs|]. cbn [snapshot] in Hx. destruct (sane_step y q Sq) as (S1 & C1 & K1); [intros o ->; apply Dq; now left|].
    rewrite <- K1. refine (IH _ _ S1 _ _ x Hx); [intros o Ho; rewrite C1; apply Dq; now right|]. intros x'. rewrite K1. destruct (m_effective q y); [discriminate|]. destruct s as [x0|]; [apply Hs|]. destruct (_ && _); [intros [= <-]; auto|discriminate]. }
  pose proof (built_sane a m Hb) as Sm. destruct (snapshot h m None) as [q|] eqn:Eq.
  - destruct (Sn h m None Sm Hd ltac:(discriminate) q Eq) as [Sq Kq]. apply (F q arr); [exact Sq|congruence|now symmetry].
  - destruct (sane_run h m Sm Hd) as (S2 & _ & K2). apply (F (mrun h m) arr); [exact S2|congruence|now symmetry].
Qed.
Print Assumptions C56_nonnegative.

(** ** C55 for a microscope as constructed *)
Lemma model_shape c k o B : construct numeric c k = Ok o -> fst (read numeric c PSFi o) = Ok B ->
  let n := val_Z (o_attr o A_size) in
  shape B = [match c with Hanser => match o_zrange o with Some l => Z.of_nat (List.length l) | None => 0%Z end | Sheppard => val_Z (o_attr o A_zsize) end; n; n] /\ n <> 0%Z.
Proof.
  intros Hk E. pose proof (C24_reads_are_fresh numeric c k o [] PSFi Hk) as F. cbv zeta in F. cbn [run in_force] in F. rewrite F in E. cbn [scratch] in E.
  destruct c; cbn [scratch_PSFa numeric e_gen_psf e_gen_otf e_ifft3] in E.
  - destruct (h_ready _); [|discriminate]. unfold M_Hanser.gen_psf in E. destruct (Req_EM_T _ _) as [|N]; [discriminate|]. destruct (Req_EM_T _ _); [discriminate|]. cbn [bind rmap] in E. injection E as <-.
    cbn [numeric e_sumsq]. unfold s_psfi, amap. cbn [shape tl]. split.
    + unfold psfa_of, pupils. cbn. destruct (o_zrange o) as [l|]; cbn; [|reflexivity]. now rewrite map_length.
    + intros Z0. apply N. cbn. rewrite Z0. lra.
  - destruct (s_ready _); [|discriminate]. unfold M_Sheppard.gen_otf in E. destruct (Req_EM_T _ _) as [|N]; [discriminate|]. destruct (Req_EM_T _ _); [discriminate|]. destruct (Req_EM_T _ _); [discriminate|]. destruct (_ || _); [discriminate|]. destruct (Rlt_dec _ _); [discriminate|].
    cbn [rmap] in E. injection E as <-. split; [reflexivity|]. intros Z0. apply N. cbn. rewrite Z0. lra.
Qed.
Theorem C55_widefield : forall a m B, kwargs_ok a -> WidefieldMicroscope a = Ok m ->
  fst (read numeric (mi_cls m) PSFi (mi_model m)) = Ok B -> finite_all B = true ->
  exists nz n f, int_value (w_size a) = Some n /\ int_value (w_os a) = Some f /\ shape B = [nz; n * f; n * f]%Z /\
    (dget (w_kwargs a) "zrange" = None -> exists v, o_attr (mi_model m) A_zsize = Some v /\ int_value v = Some nz) /\
    let fine := amap (fun v => Re (cval v)) B in
    let light := Rsum (all_ix (shape B)) (get fine) in
    (light <> 0 -> exists r, fst (m_PSF m) = Ok r /\ shape r = [nz; n; n] /\
      (forall z y x, inb [nz; n; n] [z; y; x] -> get r [z; y; x] = Some (collected fine n f z y x / light)) /\ image_sum r = 1).
Proof.
  intros a m B Hk Hm HB Hfin. pose proof (built_wide a m Hm) as Hb. destruct (C54_geometry a m Hk Hb) as (f & n & Hf & Pf & Ef & Hn & _ & (v & Sv & Iv) & _ & _ & _ & _ & _).
  destruct (built_wide_result a m Hb) as (k & f' & p & c & kk & o & Kk & Hf' & _ & _ & Ep & Ec & Ek & Eo & Hc & Hpar & _ & Hmod & Hos). assert (f' = f) by congruence. subst f'.
  rewrite Hc, Hmod in HB. destruct (model_shape c kk o B Eo HB) as [Sh N0]. rewrite Hmod in Sv. assert (VZ : val_Z (o_attr o A_size) = (n * f)%Z). { rewrite Sv. cbn. now apply int_value_as. }
  rewrite VZ in Sh, N0. destruct (construct_ok numeric c kk o Eo) as [[Va _] _].
  assert (Pn : (0 < n)%Z). { destruct (Va A_size v Sv) as [_ P]. destruct (int_value_as v _ Iv) as (Ai & _ & _). rewrite Ai in P. nia. }
  destruct (C74_constructor_arguments _ _ _ _ Eo) as (_ & _ & _ & _ & _ & _ & A7 & _ & _ & _ & A10).
  set (nz := match c with Hanser => _ | Sheppard => _ end) in Sh. exists nz, n, f. split; [exact Hn|]. split; [exact Hf|]. split; [exact Sh|].
  assert (ZS : exists v, o_attr o A_zsize = Some v /\ isinstance v TInt = true /\ (0 <= as_int v)%Z). { eexists. split; [exact A7|]. apply (Va A_zsize _ A7). }
  destruct ZS as (vz & Ez & Tz & Pz). assert (Iz : int_value vz = Some (as_int vz)) by (destruct vz as [z|[|]| | | | |]; cbn in *; congruence).
  split.
  - intros Z0. exists vz. rewrite Hmod. split; [exact Ez|]. rewrite Iz. f_equal. unfold nz. destruct c.
    + assert (KZ : k_zrange kk = None).
      { assert (Kw : forall kw, In kw (map fst (w_kwargs a)) -> In kw (model_keywords Hanser)) by (apply Classical_Prop.NNPP; intros N; rewrite ctor_for_bad in Ek by exact N; discriminate).
        rewrite ctor_for_eq in Ek by assumption. unfold zrange_kw in Ek. rewrite Z0 in Ek. cbn [bind] in Ek. injection Ek as <-. reflexivity. }
      rewrite (A10 eq_refl), KZ, Ez. unfold gen_range. assert (Q : exists w, o_attr o A_zres = Some w) by (destruct (C74_constructor_arguments _ _ _ _ Eo) as (_ & _ & _ & _ & _ & A6 & _); eauto). destruct Q as [w ->].
      rewrite map_length. unfold zseq. rewrite map_length, seq_length. lia.
    + rewrite Ez. reflexivity.
  - intros fine light Hl.
    assert (Nz : (0 <= nz)%Z). { unfold nz. destruct c; [destruct (o_zrange o); lia|]. rewrite Ez. cbn. exact Pz. }
    assert (Mp : fst (model_psf m) = Ok (fine, true)).
    { unfold model_psf. rewrite (made_kind _ _ _ (wide_kind a) Hm). unfold model_PSFi. rewrite Hc, Hmod. destruct (read numeric c PSFi o) as [r o1]. cbn [fst] in HB. rewrite HB. cbn. unfold farr_of. rewrite Hfin. reflexivity. }
    assert (St : stored_size m (n * f)).
    { exists (fst p). split; [|now apply (fine_pair_ok a f p Pf Ep)]. rewrite Hpar, params_get by apply Hk. reflexivity. }
    destruct (C55_psf m fine nz n f Mp Sh Nz Pn (ex_intro _ _ (conj Hos Hf)) Pf Ef St) as (r & E1 & E2 & E3 & E4).
    + unfold light in Hl. rewrite Sh in Hl. exact Hl.
    + exists r. split; [|split; [exact E2|split; [|exact E4]]].
      * rewrite <- E1. destruct (C57_snapshot m [] (ex_intro _ a Hb)) as [E _]. exact E.
      * unfold light. rewrite Sh. exact E3.
Qed.
Print Assumptions C55_widefield.
