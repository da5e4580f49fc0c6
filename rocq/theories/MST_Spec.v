(** Vocabulary of C67-C70: edges as an undirected graph over the hits *)
From Coq Require Import QArith Qcanon.
From Verif Require Import Base QcUtil MST_Model.
Local Open Scope nat_scope.

(** [e] joins [x] and [y], whichever way it points *)
Definition joins (e : edge) (x y : nat) : Prop := (e_src e = x /\ e_dst e = y) \/ (e_src e = y /\ e_dst e = x).
(** there is a chain of edges of [T] from [x] to [y] *)
Inductive connected (T : list edge) (x : nat) : nat -> Prop :=
| conn_refl : connected T x x
| conn_step y z e : connected T x y -> In e T -> joins e y z -> connected T x z.
(** there is a chain x, .., y in which every hit is a neighbour of the one before *)
Inductive reach (nb : nat -> list nat) (x : nat) : nat -> Prop :=
| reach_refl : reach nb x x
| reach_step y z : reach nb x y -> In z (nb y) -> reach nb x z.
(** neighbourhood goes both ways *)
Definition mutual (nb : nat -> list nat) : Prop := forall x y, In y (nb x) -> In x (nb y).
(** an edge from a hit to one of its neighbours, with the weight belonging to them *)
Definition neighbour_edge (nb : nat -> list nat) (wt : nat -> nat -> Qc) (e : edge) : Prop := In (e_dst e) (nb (e_src e)) /\ e_w e = wt (e_src e) (e_dst e).
(** the edges of [T] touching [h], all pointing away from it *)
Definition edges_at (T : list edge) (h : nat) : list edge :=
  flat_map (fun e => (if h =? e_src e then [e] else []) ++ (if h =? e_dst e then [mkEdge (e_dst e) (e_src e) (e_w e)] else [])) T.
Definition total (T : list edge) : Qc := qsum e_w T.
Definition spans (T : list edge) (hs : list nat) : Prop := forall x y, In x hs -> In y hs -> connected T x y.
Definition all_hits (cs : list cluster) : list nat := flat_map c_hits cs.

(** chain of hits, each joined to the next by an edge of [T], that never goes straight back *)
Fixpoint walk (T : list edge) (l : list nat) : Prop :=
  match l with
  | x :: ((y :: r) as l') => (exists e, In e T /\ joins e x y) /\ (match r with z :: _ => z <> x | [] => True end) /\ walk T l'
  | _ => True
  end.
(** no such chain comes back to a hit it has visited: there is no cycle *)
Definition acyclic (T : list edge) : Prop := forall l, walk T l -> NoDup l.
(** the edges [es] lead along the hits [l], one after the other *)
Fixpoint along (m : emap) (l : list nat) (es : list edge) : Prop :=
  match l, es with
  | [_], [] => True
  | x :: ((y :: _) as l'), e :: es' => e_src e = x /\ e_dst e = y /\ In e (m x) /\ along m l' es'
  | _, _ => False
  end.
