(** Vocabulary of C62 *)
From Coq Require Import QArith Qcanon.
From Verif Require Import Base CandHit_Model CHD_Spec.
Local Open Scope nat_scope.

(** the candidate stands for a pulse [f, l] of the derivative inside ticks [s, e) that falls for at least two ticks; only its two end ticks may
    lie outside [f, l], where ticks up to the neighbouring candidates were added *)
Definition morph_pulse (d : list Qc) (off s e : nat) (c : cand) : Prop := exists f a p b l,
  s <= f <= a /\ a + 2 <= b <= l /\ l < e /\ a <= p <= b /\
  off + s <= h_start c <= off + f /\ off + l <= h_stop c < off + e /\ h_maxT c = off + a /\ h_minT c = off + b /\ h_center c = off + p /\
  h_maxD c = nth a d 0%Qc /\ h_minD c = nth b d 0%Qc /\ h_sigma c = (Q2Qc (inject_Z (Z.of_nat (b - a))) / (1 + 1))%Qc /\
  rising d f a /\ falling d a b /\ settling d b l.
(** no tick is between successive candidates *)
Definition adjacent (c c' : cand) : Prop := h_stop c <= h_start c' <= h_stop c + 1.
