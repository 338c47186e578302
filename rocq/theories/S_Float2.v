(** Ordinary parameters: sizes and lengths far from the limits of binary64. *)
From Verif Require Export M_Sheppard.
From Flocq Require Import Core.
Local Open Scope R_scope.
Definition rng (x : R) : Prop := bpow radix2 (-100) <= x <= bpow radix2 100.
Record ordinary (p : spar) : Prop := {
  ord_size : (3 <= s_size p <= 2 ^ 53)%Z; ord_zsize : (3 <= s_zsize p <= 2 ^ 53)%Z;
  ord_res : rng (s_res p); ord_zres : rng (s_zres p); ord_wl : rng (s_wl p); ord_ni : rng (s_ni p);
  ord_na : bpow radix2 (-100) <= s_na p <= s_ni p }.
