(** Vocabulary of C49: DBSCAN with a given, not necessarily symmetric, neighbourhood function *)
From Verif Require Import Base.
Local Open Scope nat_scope.

Section S.
Variables (nb : nat -> list nat) (minpts : nat).
(** core hit: at least [minpts] neighbours *)
Definition core (h : nat) : Prop := minpts <= length (nb h).
(** density reachable from [s]: along neighbours of core hits *)
Inductive reach (s : nat) : nat -> Prop :=
| reach_here : reach s s
| reach_step x y : reach s x -> core x -> In y (nb x) -> reach s y.

(** [cs] is the DBSCAN clustering of [hits]: no hit twice; cluster k grows from the first core hit not in clusters before it,
    and consists of the hits reachable from that one which are not in clusters before it; no core hit is left out *)
Record clustering (hits : list nat) (cs : list (list nat)) : Prop := mkClustering {
  cl_once : NoDup (concat cs);
  cl_grown : forall k c, nth_error cs k = Some c -> exists s rest pre post,
     c = s :: rest /\ hits = pre ++ s :: post /\ core s /\ ~ In s (concat (firstn k cs)) /\ (forall h, In h pre -> core h -> In h (concat (firstn k cs))) /\
     (forall h, In h c <-> reach s h /\ ~ In h (concat (firstn k cs)));
  cl_all : forall h, In h hits -> core h -> In h (concat cs) }.
End S.

(** density connected: a chain of core hits, each a neighbour of the one before *)
Definition linked (nb : nat -> list nat) (minpts : nat) (x y : nat) : Prop := core nb minpts x /\ core nb minpts y /\ In y (nb x).
Definition connected (nb : nat -> list nat) (minpts : nat) : nat -> nat -> Prop := clos_refl_trans nat (linked nb minpts).
Definition together (cs : list (list nat)) (x y : nat) : Prop := exists c, In c cs /\ In x c /\ In y c.
