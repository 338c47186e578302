(** C26, continued: a freshly constructed model satisfies the sampling limits. *)
From Verif Require Import M_PSF S_PSF L_PSF L_Ctor T_PSF.
Section C.
Context (E : engine).
Lemma step c a v oa ob : assign E c (SetNum a v) oa = (Ok tt, ob) -> a <> A_dual -> o_attr oa a = None -> o_attr ob a = Some v /\ forall b, b <> a -> o_attr ob b = o_attr oa b.
Proof. intros He Ha Hn. exact (assign_stores E c a v Ha oa ob He Hn). Qed.
Lemma construct_res c k o : construct E c k = Ok o -> exists o3 o4, assign E c (SetNum A_res (k_res k)) o3 = (Ok tt, o4) /\ o_attr o3 A_wl = Some (k_wl k) /\ o_attr o3 A_na = Some (k_na k).
Proof.
  unfold construct. destruct (init E c k (empty_obj E)) as [[[]|e] oo] eqn:H; [|discriminate]. intros [= <-]. unfold init, base_init in H.
  apply seq_ok in H. destruct H as (ob & Hb & Hl).
  apply seq_ok in Hb. destruct Hb as (o1 & S1 & Hb). apply step in S1; [|discriminate|reflexivity]. destruct S1 as [V1 K1].
  apply seq_ok in Hb. destruct Hb as (o2 & S2 & Hb). apply step in S2; [|discriminate|rewrite K1 by discriminate; reflexivity]. destruct S2 as [V2 K2].
  apply seq_ok in Hb. destruct Hb as (o3 & S3 & Hb). apply step in S3; [|discriminate|rewrite K2, K1 by discriminate; reflexivity]. destruct S3 as [V3 K3].
  apply seq_ok in Hb. destruct Hb as (o4 & S4 & Hb). exists o3, o4. split; [exact S4|]. rewrite !K3 by discriminate. rewrite (K2 A_wl) by discriminate. auto.
Qed.
Lemma construct_zres k o : construct E Sheppard k = Ok o -> exists o5 o6, assign E Sheppard (SetNum A_zres (default (k_res k) (k_zres k))) o5 = (Ok tt, o6) /\ o_attr o5 A_wl = Some (k_wl k) /\ o_attr o5 A_ni = Some (k_ni k).
Proof.
  unfold construct. destruct (init E Sheppard k (empty_obj E)) as [[[]|e] oo] eqn:H; [|discriminate]. intros [= <-]. unfold init, base_init in H.
  apply seq_ok in H. destruct H as (ob & Hb & Hl).
  apply seq_ok in Hb. destruct Hb as (o1 & S1 & Hb). apply step in S1; [|discriminate|reflexivity]. destruct S1 as [V1 K1].
  apply seq_ok in Hb. destruct Hb as (o2 & S2 & Hb). apply step in S2; [|discriminate|rewrite K1 by discriminate; reflexivity]. destruct S2 as [V2 K2].
  apply seq_ok in Hb. destruct Hb as (o3 & S3 & Hb). apply step in S3; [|discriminate|rewrite K2, K1 by discriminate; reflexivity]. destruct S3 as [V3 K3].
  apply seq_ok in Hb. destruct Hb as (o4 & S4 & Hb). apply step in S4; [|discriminate|rewrite K3, K2, K1 by discriminate; reflexivity]. destruct S4 as [V4 K4].
  apply seq_ok in Hb. destruct Hb as (o5 & S5 & Hb). apply step in S5; [|discriminate|rewrite K4, K3, K2, K1 by discriminate; reflexivity]. destruct S5 as [V5 K5].
  apply seq_ok in Hb. destruct Hb as (o6 & S6 & Hb). exists o5, o6. split; [exact S6|]. rewrite !K5, !K4, !K3 by discriminate. rewrite (K2 A_wl) by discriminate. auto.
Qed.
End C.
(** After construction with positive wl and na the pixel is below wl / (2 na); for SheppardPSF the axial pixel is also
    positive and below wl / (2 ni). *)
Theorem C26_constructed_within_limits :
  forall (E : engine) (c : cls) (k : ctor) (o : obj E) qw qn,
    construct E c k = Ok o -> num (k_wl k) = Some (FFin qw) -> (0 < qw)%Q ->
    (num (k_na k) = Some (FFin qn) -> (0 < qn)%Q -> forall qr, num (k_res k) = Some (FFin qr) -> (qr < qw / (2 * qn))%Q) /\
    (c = Sheppard -> num (k_ni k) = Some (FFin qn) -> (0 < qn)%Q ->
       exists qz, num (match k_zres k with Some v => v | None => k_res k end) = Some (FFin qz) /\ (0 < qz)%Q /\ (qz < qw / (2 * qn))%Q).
Proof.
  intros E c k o qw qn Hc Ew Pw. split.
  - intros En Pn qr Er. destruct (construct_res E c k o Hc) as (o3 & o4 & A & W & N). pose proof (C26_res_limit E c o3 _ _ qw qn (k_res k) W N Ew En Pw Pn) as X. rewrite A, Er in X. cbn [fst] in X. destruct (Qlt_le_dec qr _); [assumption|discriminate].
  - intros -> En Pn. destruct (construct_zres E k o Hc) as (o3 & o4 & A & W & N). pose proof (C26_sheppard_zres_limit E o3 _ _ qw qn (default (k_res k) (k_zres k)) W N Ew En (Qlt_le_weak _ _ Pw) Pn) as X. rewrite A in X. cbn [fst] in X.
    change (match k_zres k with Some v => v | None => k_res k end) with (default (k_res k) (k_zres k)). destruct (num (default (k_res k) (k_zres k))) as [[q| |b]|]; try discriminate X. exists q. destruct (Qlt_le_dec 0 q); [|discriminate X]. destruct (Qlt_le_dec q _); [auto|discriminate X].
Qed.
Print Assumptions C26_constructed_within_limits.
Example C26_constructed_case : forall E, exists o, construct E Sheppard (kw Sheppard) = Ok o /\ num (k_wl (kw Sheppard)) = Some (FFin 520) /\ num (k_na (kw Sheppard)) = Some (FFin (6 # 5)).
Proof. intros E. exists (made_of E Sheppard). split; [apply kw_constructs|]. split; vm_compute; reflexivity. Qed.
