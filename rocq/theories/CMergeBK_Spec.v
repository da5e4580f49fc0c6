(** Specification vocabulary for CMergeBookKeeper histories: it mentions only the log of
    calls and their answers, never the internal tables. *)
From Verif Require Import Base CMergeBK_Model.

Definition log := list (op * answer).

(** [i] and [j] are connected by a chain of Merge calls that returned normally *)
Definition linked (lg : log) : nat -> nat -> Prop :=
  clos_refl_sym_trans nat (fun a b => In (OMerge a b, ADone) lg).

(** a ProhibitMerge call on this (unordered) pair was accepted *)
Definition prohibited (lg : log) (a b : nat) : Prop :=
  In (OProhibit a b, ADone) lg \/ In (OProhibit b a, ADone) lg.

(** some member linked to [i] is prohibited from merging with some member linked to [j] *)
Definition blocked (lg : log) (i j : nat) : Prop :=
  exists a b, prohibited lg a b /\ linked lg a i /\ linked lg b j.

(** [ra] is a list of sets of original indexes (the result of a first keeper) and [lgB] the
    log of a second keeper whose clusters are those sets: [i] and [j] end together when the
    set of [i] and the set of [j] are linked in the second keeper. *)
Definition composed (ra : list (list nat)) (lgB : log) (i j : nat) : Prop :=
  exists p q, In i (nth p ra []) /\ In j (nth q ra []) /\ linked lgB p q.
