(** Vocabulary of C60 and C61: pulses of a derivative and groups of candidates *)
From Coq Require Import QArith Qcanon.
From Verif Require Import Base CandHit_Model.
Local Open Scope nat_scope.

Section Shape.
Variable d : list Qc.
Notation v i := (nth i d 0%Qc).
(** from tick [f] to [a] the derivative rises and is not negative before [a] *)
Definition rising (f a : nat) : Prop := forall i, f <= i < a -> (v i < v (S i))%Qc /\ (0 <= v i)%Qc.
(** from [a] to [b] it does not rise *)
Definition falling (a b : nat) : Prop := forall i, a <= i < b -> (v (S i) <= v i)%Qc.
(** from [b] to [l] it rises again, and is not positive behind [b] *)
Definition settling (b l : nat) : Prop := forall i, b <= i < l -> (v i < v (S i))%Qc /\ (v (S i) <= 0)%Qc.
(** the candidate stands for a pulse inside ticks [s, e): its derivative rises from start to maximum, falls to the minimum and rises again to
    stop; the drop from maximum to minimum takes and exceeds the configured amounts, or at least two ticks next to a merged hit *)
Definition deriv_pulse (fT : Z) (fP : Qc) (off s e : nat) (c : cand) : Prop := exists f a p b l,
  s <= f <= a /\ a < b <= l /\ l < e /\ a <= p <= b /\
  h_start c = off + f /\ h_stop c = off + l /\ h_maxT c = off + a /\ h_minT c = off + b /\ h_center c = off + p /\
  h_maxD c = v a /\ h_minD c = v b /\ h_sigma c = (Q2Qc (inject_Z (Z.of_nat (b - a))) / (1 + 1))%Qc /\
  rising f a /\ falling a b /\ settling b l /\
  ((fT <= Z.of_nat (b - a))%Z /\ (fP < v a - v b)%Qc \/ 2 <= b - a /\ (0 < v a - v b)%Qc).
End Shape.
(** candidates do not overlap, but may share an end tick *)
Definition in_order (c c' : cand) : Prop := h_stop c <= h_start c'.
(** successive elements of the list are related by R *)
Fixpoint linked {A} (R : A -> A -> Prop) (l : list A) : Prop := match l with x :: (y :: _) as l' => R x y /\ linked R l' | _ => True end.
