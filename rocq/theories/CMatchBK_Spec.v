(** What a match book keeper is supposed to return. Independent of the model of its register. *)
From Coq Require Import List ZArith Sorted.
From Verif Require Import CMatchBK_Model.
Import ListNotations.

(** the (score, set) pairs registered since the last Reset, in the order of the calls *)
Fixpoint registered (acc : list (Z * list nat)) (ops : list match_op) : list (Z * list nat) :=
  match ops with
  | [] => acc
  | OpMatch i s :: rest => registered (acc ++ [(s, i)]) rest
  | OpReset :: rest => registered [] rest
  end.

Definition score_at (h : list (Z * list nat)) (p : nat) : Z := fst (nth p h (0%Z, [])).
Definition set_at_pos (h : list (Z * list nat)) (p : nat) : list nat := snd (nth p h (0%Z, [])).

(** registration [p] takes precedence over registration [q] *)
Definition preferred (h : list (Z * list nat)) (p q : nat) : Prop :=
  (score_at h p > score_at h q)%Z \/ (score_at h p = score_at h q /\ p > q).

Definition share (a b : list nat) : Prop := exists i, In i a /\ In i b.

(** [res] is the greedy selection out of the registrations [h]:
    some registrations [sel] are kept, listed by precedence, pairwise disjoint, and each
    registration that is not kept conflicts with a kept one that takes precedence over it *)
Definition greedy_selection (h : list (Z * list nat)) (res : list (list nat)) : Prop :=
  exists sel : list nat,
    res = map (set_at_pos h) sel /\
    (forall p, In p sel -> p < length h) /\
    StronglySorted (preferred h) sel /\
    (forall p q, In p sel -> In q sel -> p <> q -> ~ share (set_at_pos h p) (set_at_pos h q)) /\
    (forall p, p < length h -> ~ In p sel ->
       exists q, In q sel /\ preferred h q p /\ share (set_at_pos h q) (set_at_pos h p)).
