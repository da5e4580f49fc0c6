(** Vocabulary of C63-C66 *)
From Coq Require Import QArith Qcanon.
From Verif Require Import Base HULL_Model.
Local Open Scope nat_scope.

(** points by growing x, at the same x by growing y *)
Definition lexle (a b : point) : Prop := (px a < px b)%Qc \/ (px a = px b /\ (py a <= py b)%Qc).
(** the two points are at the same place *)
Definition same (a b : point) : Prop := px a = px b /\ py a = py b.
(** twice the signed area of the triangle: positive when [p] is to the left of the line from [a] to [b], 0 when it is on it *)
Definition side (a b p : point) : Qc := ((px b - px a) * (py p - py a) - (py b - py a) * (px p - px a))%Qc.
Definition collinear (l : list point) : Prop := forall a b c, In a l -> In b l -> In c l -> side a b c = 0%Qc.
(** [a, b] is an edge of the polygon whose vertices are listed in [h] *)
Definition is_edge (h : list point) (a b : point) : Prop := exists h1 h2, h = h1 ++ a :: b :: h2.
Definition ascending (h : list point) : Prop := StronglySorted lexle h.
Definition descending (h : list point) : Prop := StronglySorted (fun a b => lexle b a) h.
(** sum of x y' - x' y over the edges *)
Fixpoint shoelace (h : list point) : Qc :=
  match h with
  | a :: r => match r with b :: _ => (px a * py b - px b * py a + shoelace r)%Qc | [] => 0%Qc end
  | [] => 0%Qc
  end.
Definition sqdist (p q : point) : Qc := ((px p - px q) * (px p - px q) + (py p - py q) * (py p - py q))%Qc.
(** the point of the segment [a, b] at the fraction [t] of its length *)
Definition along (a b : point) (t : Qc) : point := mkP (px a + t * (px b - px a)) (py a + t * (py b - py a)) 0.
(** [d] is the squared distance of [p] from the segment [a, b] *)
Definition seg_dist2 (p a b : point) (d : Qc) : Prop :=
  (exists t, (0 <= t)%Qc /\ (t <= 1)%Qc /\ d = sqdist p (along a b t)) /\ (forall t, (0 <= t)%Qc -> (t <= 1)%Qc -> (d <= sqdist p (along a b t))%Qc).
