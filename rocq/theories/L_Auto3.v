(** The transform of |easy_ifft|^2 in three dimensions is the cyclic autocorrelation, times a phase ramp along axes of odd length. *)
From Verif Require Import M_Hanser S_Hanser L_Array L_Sum L_FFT L_FFT2 L_Polar L_Hanser L_Hanser2 L_Sheppard2 L_Phase2 L_Band.
Import M_Array.
Local Open Scope Z_scope.

(** the twist of one axis *)
Definition twist (m k : Z) : C := root m (2 * (m / 2) * (k - m / 2)).
Lemma axis_sum m k j j' : 0 < m -> 0 <= j < m -> 0 <= j' < m ->
  Csum (zseq m) (fun z => kcen (-1) m k z *c (kicen m z j *c Cconj (kicen m z j'))) = RtoC (IZR m) *c twist m k *c delta ((j - (k - m / 2)) mod m) j'.
Proof.
  intros Hm Hj Hj'. rewrite (Csum_ext _ _ (fun z => root m (2 * (m / 2) * (j - j')) *c root m ((z - m / 2) * (j - j' - (k - m / 2))))).
  2:{ intros z _. unfold kcen, kicen. rewrite root_conj, <- !root_add. f_equal. ring. }
  rewrite Csum_scal_l, cen_sum by exact Hm. unfold delta.
  destruct (Z.eqb_spec ((j - j' - (k - m / 2)) mod m) 0) as [E|E]; destruct (Z.eqb_spec ((j - (k - m / 2)) mod m) j') as [E'|E'].
  - unfold twist. rewrite (root_cong m (2 * (m / 2) * (j - j')) (2 * (m / 2) * (k - m / 2))); [ring|exact Hm|].
    replace (2 * (m / 2) * (j - j') - 2 * (m / 2) * (k - m / 2)) with ((2 * (m / 2)) * (j - j' - (k - m / 2))) by ring. rewrite Z.mul_mod, E, Z.mul_0_r by lia. apply Zmod_0_l.
  - exfalso. apply E'. apply (mod_inj m); [now apply Z.mod_pos_bound|exact Hj'|]. rewrite Zminus_mod_idemp_l. rewrite <- E. f_equal. ring.
  - exfalso. apply E. rewrite <- E'. replace (j - (j - (k - m / 2)) mod m - (k - m / 2)) with ((j - (k - m / 2)) - (j - (k - m / 2)) mod m) by ring. rewrite Zminus_mod_idemp_r, Z.sub_diag. apply Zmod_0_l.
  - ring.
Qed.
Lemma twist_even m k : 0 < m -> Z.even m = true -> twist m k = RtoC 1.
Proof.
  intros Hm He. unfold twist. rewrite Z.even_spec in He. destruct He as [q ->]. replace (2 * q / 2) with q by (rewrite Z.mul_comm, Z.div_mul; lia).
  rewrite (root_cong (2 * q) _ 0); [apply root_0|exact Hm|]. rewrite Z.sub_0_r, Z.mul_comm. apply Z_mod_mult.
Qed.
Lemma twist_odd m k : 0 < m -> Z.even m = false -> twist m k = root m (- (k - m / 2)).
Proof.
  intros Hm Ho. unfold twist. apply root_cong; [exact Hm|]. assert (E : 2 * (m / 2) = m - 1).
  { pose proof (Z.div_mod m 2 ltac:(lia)). rewrite <- Z.negb_odd in Ho. apply Bool.negb_false_iff in Ho. rewrite Zmod_odd, Ho in H. lia. }
  rewrite E. replace ((m - 1) * (k - m / 2) - - (k - m / 2)) with ((k - m / 2) * m) by ring. apply Z_mod_mult.
Qed.

Section N.
Context (a b d : Z) (Ha : 0 < a) (Hb : 0 < b) (Hd : 0 < d).
Let P := all_ix [a; b; d].
(** product kernel of the three axes *)
Definition k33 (K : Z -> Z -> Z -> C) (ix js : list Z) : C :=
  match ix, js with [z; y; x], [l; j; i] => K a z l *c (K b y j *c K d x i) | _, _ => RtoC 0 end.
Lemma mop_flat3 K f ix : inb [a; b; d] ix -> mop K [true; true; true] [a; b; d] f ix = Csum P (fun js => k33 K ix js *c f js).
Proof.
  intros H. destruct (inb3_inv _ _ _ _ H) as (z & y & x & -> & _). unfold P. rewrite Csum_all_ix_cons. cbn [mop].
  apply Csum_ext. intros l _. rewrite Csum_all_ix_cons, <- Csum_scal_l. apply Csum_ext. intros j _. rewrite Csum_all_ix_cons, <- !Csum_scal_l. apply Csum_ext. intros i _. cbn [all_ix Csum k33]. ring.
Qed.
(** position moved back by the frequency at ks, cyclically *)
Definition back3 (ks js : list Z) : list Z :=
  match ks, js with [kz; ky; kx], [l; j; i] => [(l - (kz - a / 2)) mod a; (j - (ky - b / 2)) mod b; (i - (kx - d / 2)) mod d] | _, _ => [] end.
Definition twist3 (ks : list Z) : C := match ks with [kz; ky; kx] => twist a kz *c (twist b ky *c twist d kx) | _ => RtoC 0 end.
Lemma triple3 kz ky kx l j i l' j' i' : inb [a; b; d] [l; j; i] -> inb [a; b; d] [l'; j'; i'] ->
  Csum P (fun ix => k33 (kcen (-1)) [kz; ky; kx] ix *c (k33 kicen ix [l; j; i] *c Cconj (k33 kicen ix [l'; j'; i']))) =
  RtoC (IZR (a * (b * d))) *c twist3 [kz; ky; kx] *c (delta ((l - (kz - a / 2)) mod a) l' *c (delta ((j - (ky - b / 2)) mod b) j' *c delta ((i - (kx - d / 2)) mod d) i')).
Proof.
  intros H1 H2. destruct (inb3_inv _ _ _ _ H1) as (? & ? & ? & [= <- <- <-] & Q1 & Q2 & Q3). destruct (inb3_inv _ _ _ _ H2) as (? & ? & ? & [= <- <- <-] & Q1' & Q2' & Q3').
  transitivity (Csum (zseq a) (fun z => kcen (-1) a kz z *c (kicen a z l *c Cconj (kicen a z l'))) *c
    (Csum (zseq b) (fun y => kcen (-1) b ky y *c (kicen b y j *c Cconj (kicen b y j'))) *c
     Csum (zseq d) (fun x => kcen (-1) d kx x *c (kicen d x i *c Cconj (kicen d x i'))))).
  - unfold P. rewrite (Csum_prod (zseq b)). rewrite Csum_prod. rewrite Csum_all_ix_cons. apply Csum_ext. intros z _. rewrite Csum_all_ix_cons. apply Csum_ext. intros y _.
    rewrite <- Csum_scal_l. rewrite Csum_all_ix_cons. apply Csum_ext. intros x _. cbn [Csum all_ix k33]. rewrite !Cconj_mult. ring.
  - rewrite !axis_sum by assumption. unfold twist3. rewrite !mult_IZR, !RtoC_mult. ring.
Qed.
Lemma autocorrelation3 f ks : inb [a; b; d] ks ->
  mop (kcen (-1)) [true; true; true] [a; b; d] (fun ix => RtoC (Cnorm2 (mop kicen [true; true; true] [a; b; d] f ix))) ks =
  RtoC (IZR (a * (b * d))) *c twist3 ks *c Csum P (fun js => f js *c Cconj (f (back3 ks js))).
Proof.
  intros Hk. rewrite mop_flat3 by exact Hk.
  transitivity (Csum P (fun ix => Csum P (fun js => Csum P (fun js' =>
     (f js *c Cconj (f js')) *c (k33 (kcen (-1)) ks ix *c (k33 kicen ix js *c Cconj (k33 kicen ix js'))))))).
  - apply Csum_ext. intros ix Hi. apply in_all_ix in Hi. rewrite Cnorm2_conj, mop_flat3 by exact Hi.
    rewrite Csum_conj, Csum_prod, <- Csum_scal_l. apply Csum_ext. intros js _. rewrite <- Csum_scal_l. apply Csum_ext. intros js' _. rewrite Cconj_mult. ring.
  - rewrite Csum_swap. rewrite <- Csum_scal_l. apply Csum_ext. intros js Hj. apply in_all_ix in Hj. rewrite Csum_swap.
    destruct (inb3_inv _ _ _ _ Hk) as (kz & ky & kx & -> & _). destruct (inb3_inv _ _ _ _ Hj) as (l & j & i & -> & _).
    transitivity (Csum P (fun js' => match js' with [l'; j'; i'] => delta ((l - (kz - a / 2)) mod a) l' *c (delta ((j - (ky - b / 2)) mod b) j' *c (delta ((i - (kx - d / 2)) mod d) i' *c
       (RtoC (IZR (a * (b * d))) *c twist3 [kz; ky; kx] *c (f [l; j; i] *c Cconj (f [l'; j'; i']))))) | _ => RtoC 0 end)).
    { apply Csum_ext. intros js' Hj'. apply in_all_ix in Hj'. destruct (inb3_inv _ _ _ _ Hj') as (l' & j' & i' & -> & _). rewrite Csum_scal_l, triple3 by assumption. ring. }
    unfold P. rewrite Csum_all_ix_cons. rewrite (Csum_ext _ _ (fun l' => delta ((l - (kz - a / 2)) mod a) l' *c
       (Csum (all_ix [b; d]) (fun r => match r with [j'; i'] => delta ((j - (ky - b / 2)) mod b) j' *c (delta ((i - (kx - d / 2)) mod d) i' *c
       (RtoC (IZR (a * (b * d))) *c twist3 [kz; ky; kx] *c (f [l; j; i] *c Cconj (f [l'; j'; i'])))) | _ => RtoC 0 end)))).
    2:{ intros l' _. rewrite <- Csum_scal_l. apply Csum_ext. intros r Hr. apply in_all_ix in Hr. destruct (inb2_inv _ _ _ Hr) as (j' & i' & -> & _). ring. }
    rewrite (Csum_delta a _ (fun l' => Csum (all_ix [b; d]) _)) by (now apply Z.mod_pos_bound). rewrite Csum_all_ix_cons.
    rewrite (Csum_ext _ _ (fun j' => delta ((j - (ky - b / 2)) mod b) j' *c
       (Csum (zseq d) (fun i' => delta ((i - (kx - d / 2)) mod d) i' *c
       (RtoC (IZR (a * (b * d))) *c twist3 [kz; ky; kx] *c (f [l; j; i] *c Cconj (f [(l - (kz - a / 2)) mod a; j'; i']))))))).
    2:{ intros j' _. rewrite Csum_all_ix_cons, <- Csum_scal_l. apply Csum_ext. intros i' _. cbn [all_ix Csum]. ring. }
    rewrite (Csum_delta b _ (fun j' => Csum (zseq d) _)) by (now apply Z.mod_pos_bound). rewrite (Csum_delta d _ (fun i' => _ *c (_ *c Cconj (f [_; _; i'])))) by (now apply Z.mod_pos_bound). reflexivity.
Qed.
End N.
