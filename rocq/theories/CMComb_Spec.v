(** What the combination generators should list. *)
From Coq Require Import List Arith Sorted.
Import ListNotations.

(** a choice of at least two planes, in increasing order, with one cluster of each;
    [seed] gives the number of clusters of each plane *)
Definition plane_choice (seed : list nat) (c : list (nat * nat)) : Prop :=
  2 <= length c /\ StronglySorted lt (map fst c) /\
  forall p k, In (p, k) c -> p < length seed /\ k < nth p seed 0.

(** [r] indexes out of [n] *)
Definition index_choice (n r : nat) (c : list nat) : Prop :=
  length c = r /\ StronglySorted lt c /\ forall i, In i c -> i < n.
