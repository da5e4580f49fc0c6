(** Vocabulary of C51-C53: triplets, and which of them belong where *)
From Coq Require Import QArith Qcanon.
From Verif Require Import Base QcUtil Solver_Model Triplet_Model.
Local Open Scope nat_scope.

(** both induction hits are there *)
Definition full (t : triplet) : bool := match t_u t, t_v t with Some _, Some _ => true | _, _ => false end.
Definition hit_is (o : option nat) (h : nat) : bool := match o with Some x => x =? h | None => false end.
(** the positions of the triplets with property [P] *)
Definition where_ (P : triplet -> bool) (ts : list triplet) : list nat := filter (fun k => match nth_error ts k with Some t => P t | None => false end) (seq 0 (length ts)).
(** induction hit [w] is part of a full triplet with a collection hit *)
Definition explained (ts : list triplet) (w : option nat) : bool :=
  match w with Some w => existsb (fun t => full t && (match t_x t with Some _ => true | None => false end) && (hit_is (t_u t) w || hit_is (t_v t) w)) ts | None => false end.
(** the triplets that make up the wire of collection hit [x]: the full ones, or all if there is none *)
Definition wire_triplets (ts : list triplet) (x : nat) : list nat :=
  if existsb (fun t => hit_is (t_x t) x && full t) ts then where_ (fun t => hit_is (t_x t) x && full t) ts else where_ (fun t => hit_is (t_x t) x) ts.
Definition hits_of (t : triplet) : list nat := opt_list (t_x t) ++ opt_list (t_u t) ++ opt_list (t_v t).

Local Open Scope Qc_scope.
(** squared distance, and coordinates that fit (in cm) *)
Definition d2 (p p' : Qc * Qc * Qc) : Qc :=
  (fst (fst p) - fst (fst p')) * (fst (fst p) - fst (fst p')) + (snd (fst p) - snd (fst p')) * (snd (fst p) - snd (fst p')) + (snd p - snd p') * (snd p - snd p').
Definition big : Qc := Q2Qc 10000000000.
Definition fits (p : Qc * Qc * Qc) : Prop := - big <= fst (fst p) /\ fst (fst p) <= big /\ - big <= snd (fst p) /\ snd (fst p) <= big /\ - big <= snd p /\ snd p <= big.
