(** Properties of the keyword arguments of the PSF classes (pyotf/otf.py:53-55, 272, 452): C82. *)
From Verif Require Import M_Micro L_Phase5.

(** The parameters that have a default, and the default. *)
Definition default_of (c : cls) (k : string) : option pyval :=
  if (String.eqb k "zres" || String.eqb k "zsize")%string%bool then Some VNone
  else if String.eqb k "vec_corr" then Some (VStr "none")
  else if String.eqb k "condition" then Some (VStr "sine")
  else match c with
       | Hanser => if String.eqb k "zrange" then Some VNone else None
       | Sheppard => if String.eqb k "dual" then Some (VBool false) else None
       end.
Definition accepted_keywords (c : cls) : list string :=
  (["wl"; "na"; "ni"; "res"; "size"; "zres"; "zsize"; "vec_corr"; "condition"]%string ++ match c with Hanser => ["zrange"%string] | Sheppard => ["dual"%string] end)%list.
Definition required_keywords : list string := ["wl"; "na"; "ni"; "res"; "size"]%string.
Definition has_key (d : pdict) (k : string) : Prop := dget d k <> None.

Lemma has_key_in d k : has_key d k <-> In k (map fst d).
Proof.
  unfold has_key. induction d as [|[k' v] d IH]; cbn [dget map fst In]; [tauto|]. destruct (String.eqb_spec k k') as [->|N]; [split; [auto|discriminate]|].
  rewrite IH. split; [auto|intros [E|H]; [congruence|exact H]].
Qed.
Lemma keys_ok (l : list string) d : forallb (fun kv : string * kval => existsb (String.eqb (fst kv)) l) d = true <-> forall k, has_key d k -> In k l.
Proof.
  rewrite forallb_forall. split.
  - intros H k Hk. apply has_key_in in Hk. apply in_map_iff in Hk as ([k' v] & <- & Hi). specialize (H _ Hi). apply existsb_exists in H as (x & Hx & E). apply String.eqb_eq in E. cbn in *. now subst.
  - intros H [k v] Hi. apply existsb_exists. exists k. split; [|apply String.eqb_refl]. apply H, has_key_in, in_map_iff. now exists (k, v).
Qed.
Lemma eq_bool (a b : bool) : (a = true <-> b = true) -> a = b.
Proof. destruct a, b; intros [H1 H2]; auto; try (symmetry; auto; fail). Qed.
Lemma keys_same l d d' : (forall k, dget d k = dget d' k) ->
  forallb (fun kv : string * kval => existsb (String.eqb (fst kv)) l) d = forallb (fun kv : string * kval => existsb (String.eqb (fst kv)) l) d'.
Proof. intros H. apply eq_bool. rewrite !keys_ok. unfold has_key. split; intros K k; [rewrite <- H|rewrite H]; apply K. Qed.
Definition keywords (c : cls) : list string := match c with Hanser => hanser_keywords | Sheppard => sheppard_keywords end.
Lemma keywords_in c k : In k (keywords c) <-> In k (accepted_keywords c).
Proof. destruct c; cbn; tauto. Qed.

(** The order in which keywords are written does not matter. *)
Theorem C82_keyword_order : forall (c : cls) (d d' : pdict), (forall k, dget d k = dget d' k) -> ctor_for c d = ctor_for c d'.
Proof.
  intros c d d' H. destruct c; cbn [ctor_for]; unfold ctor_of, ctor_of_sheppard; rewrite (keys_same _ d d' H); unfold required, optional, zrange_kw; rewrite !H; reflexivity.
Qed.
Print Assumptions C82_keyword_order.

(** Passing a parameter its default value is the same as leaving it out. *)
Theorem C82_default_keywords : forall (c : cls) (k : string) (v : pyval) (d : pdict),
  default_of c k = Some v -> dget d k = None -> ctor_for c (dset d k (KV v)) = ctor_for c d.
Proof.
  intros c k v d Hk Hd.
  assert (Ik : In k (keywords c)).
  { unfold default_of in Hk. destruct (String.eqb_spec k "zres") as [->|]; [destruct c; cbn; tauto|]. destruct (String.eqb_spec k "zsize") as [->|]; [destruct c; cbn; tauto|].
    destruct (String.eqb_spec k "vec_corr") as [->|]; [destruct c; cbn; tauto|]. destruct (String.eqb_spec k "condition") as [->|]; [destruct c; cbn; tauto|]. cbn [orb] in Hk.
    destruct c; [destruct (String.eqb_spec k "zrange") as [->|]|destruct (String.eqb_spec k "dual") as [->|]]; try discriminate; cbn; tauto. }
  assert (Kq : forallb (fun kv : string * kval => existsb (String.eqb (fst kv)) (keywords c)) (dset d k (KV v)) = forallb (fun kv : string * kval => existsb (String.eqb (fst kv)) (keywords c)) d).
  { apply eq_bool. rewrite !keys_ok. unfold has_key. split; intros K k' Hk'.
    - apply K. rewrite dget_dset. destruct (String.eqb k' k); [discriminate|exact Hk'].
    - rewrite dget_dset in Hk'. destruct (String.eqb_spec k' k) as [Ek|]; [rewrite Ek; exact Ik|now apply K]. }
  unfold default_of in Hk.
  destruct c; cbn [ctor_for keywords] in *; unfold ctor_of, ctor_of_sheppard; rewrite Kq; unfold required, optional, zrange_kw; rewrite !dget_dset;
    (destruct (String.eqb_spec k "zres") as [->|N1]; [injection Hk as <-; cbn [orb String.eqb Ascii.eqb Bool.eqb]; rewrite Hd; reflexivity|]);
    (destruct (String.eqb_spec k "zsize") as [->|N2]; [injection Hk as <-; cbn [orb String.eqb Ascii.eqb Bool.eqb]; rewrite Hd; reflexivity|]);
    (destruct (String.eqb_spec k "vec_corr") as [->|N3]; [injection Hk as <-; cbn [orb String.eqb Ascii.eqb Bool.eqb]; rewrite Hd; reflexivity|]);
    (destruct (String.eqb_spec k "condition") as [->|N4]; [injection Hk as <-; cbn [orb String.eqb Ascii.eqb Bool.eqb]; rewrite Hd; reflexivity|]); cbn [orb] in Hk.
  - destruct (String.eqb_spec k "zrange") as [->|N5]; [|discriminate]. injection Hk as <-. cbn [String.eqb Ascii.eqb Bool.eqb]. rewrite Hd. reflexivity.
  - destruct (String.eqb_spec k "dual") as [->|N5]; [|discriminate]. injection Hk as <-. cbn [String.eqb Ascii.eqb Bool.eqb]. rewrite Hd. reflexivity.
Qed.
Print Assumptions C82_default_keywords.

(** A call with a keyword the class does not have, or without one of the five that have no default, is a TypeError; any
    other call reaches the checks of [C82_constructor_accepts] (with zrange restricted to None, numbers and arrays). *)
Theorem C82_unknown_or_missing_keyword : forall (c : cls) (d : pdict),
  ((exists k, has_key d k /\ ~ In k (accepted_keywords c)) \/ (exists k, In k required_keywords /\ ~ has_key d k) -> ctor_for c d = Err TypeError) /\
  ((forall k, has_key d k -> In k (accepted_keywords c)) -> (forall k, In k required_keywords -> has_key d k) ->
   (forall v, dget d "zrange" = Some (KV v) -> v = VNone \/ M_Val.num v <> None) -> exists kk, ctor_for c d = Ok kk).
Proof.
  intros c d.
  assert (Q : ctor_for c d = if negb (forallb (fun kv : string * kval => existsb (String.eqb (fst kv)) (keywords c)) d) then Err TypeError else ctor_for c d).
  { destruct c; cbn [ctor_for keywords]; unfold ctor_of, ctor_of_sheppard; destruct (negb _); reflexivity. }
  split.
  - intros [(k & Hk & Hn)|(k & Hk & Hn)].
    + rewrite Q. destruct (forallb _ d) eqn:F; [|reflexivity]. exfalso. apply Hn, keywords_in. now apply (proj1 (keys_ok _ d) F).
    + assert (Hm : dget d k = None) by (unfold has_key in Hn; destruct (dget d k); [exfalso; apply Hn; discriminate|reflexivity]). clear Q.
      destruct c; cbn [ctor_for]; unfold ctor_of, ctor_of_sheppard; (destruct (negb _); [reflexivity|]); unfold required;
        destruct Hk as [<-|[<-|[<-|[<-|[<-|[]]]]]]; rewrite Hm; destruct (dget d "wl"), (dget d "na"), (dget d "ni"), (dget d "res"); reflexivity.
  - intros H1 H2 H3. assert (F : forallb (fun kv : string * kval => existsb (String.eqb (fst kv)) (keywords c)) d = true) by (apply keys_ok; intros k Hk; now apply keywords_in, H1). clear Q.
    assert (R : forall k, In k required_keywords -> exists v, dget d k = Some v) by (intros k Hk; specialize (H2 k Hk); unfold has_key in H2; destruct (dget d k); [eauto|congruence]).
    destruct (R "wl"%string ltac:(cbn; tauto)) as [v1 E1]. destruct (R "na"%string ltac:(cbn; tauto)) as [v2 E2]. destruct (R "ni"%string ltac:(cbn; tauto)) as [v3 E3].
    destruct (R "res"%string ltac:(cbn; tauto)) as [v4 E4]. destruct (R "size"%string ltac:(cbn; tauto)) as [v5 E5].
    destruct c; cbn [ctor_for keywords] in *; unfold ctor_of, ctor_of_sheppard; rewrite F; cbn [negb]; unfold required; rewrite E1, E2, E3, E4, E5; cbn [bind]; [|eauto].
    unfold zrange_kw. destruct (dget d "zrange") as [[v|z]|] eqn:Z; cbn [bind]; eauto.
    destruct (H3 v eq_refl) as [->|N]; cbn [bind]; [eauto|]. destruct v; cbn [bind]; eauto; destruct (M_Val.num _); cbn [bind]; eauto; congruence.
Qed.
Print Assumptions C82_unknown_or_missing_keyword.

Example C82_keywords_witness : let d := [("wl", KV (VInt 1)); ("na", KV (VInt 1)); ("ni", KV (VInt 1)); ("res", KV (VFloat (FFin (1 # 4)))); ("size", KV (VInt 8))]%string in
  default_of Hanser "zrange" = Some VNone /\ dget d "zrange" = None /\ (exists kk, ctor_for Hanser (dset d "zrange" (KV VNone)) = Ok kk) /\ ctor_for Hanser (dset d "dual" (KV (VBool false))) = Err TypeError.
Proof. cbn. repeat split; eauto. Qed.
