(** Polygon2D: what the theorems say *)
From Coq Require Import QArith Qcanon.
From Verif Require Import Base QcUtil.
Local Open Scope Qc_scope.
Notation pt := (Qc * Qc)%type.
(** the sides of a polygon: from each vertex to the next, and from the last to the first *)
Definition sides_of (v : list pt) : list (pt * pt) := match v with [] => [] | a :: r => combine v (r ++ [a]) end.
(** twice the signed area of the triangle p a b *)
Definition turn_of (p a b : pt) : Qc := (fst a - fst p) * (snd b - snd p) - (fst b - fst p) * (snd a - snd p).
(** the signed area: the triangles from one point to all sides, with sign *)
Definition signed_area (p : pt) (v : list pt) : Qc := qsum (fun s => turn_of p (fst s) (snd s)) (sides_of v) * Q2Qc (1 # 2).
Definition len2 (s : pt * pt) : Qc := (fst (fst s) - fst (snd s)) * (fst (fst s) - fst (snd s)) + (snd (fst s) - snd (snd s)) * (snd (fst s) - snd (snd s)).
(** the point at the part [s] of the way from a to b *)
Definition along (a b : pt) (s : Qc) : pt := (fst a + s * (fst b - fst a), snd a + s * (snd b - snd a)).
Definition on_segment (a b p : pt) : Prop := exists s, 0 <= s /\ s <= 1 /\ p = along a b s.
(** two segments have a point in common *)
Definition meet (a b c d : pt) : Prop := exists p, on_segment a b p /\ on_segment c d p.
(** no end of one segment is on the line of the other *)
Definition apart (a b c d : pt) : Prop := turn_of a b c <> 0 /\ turn_of a b d <> 0 /\ turn_of c d a <> 0 /\ turn_of c d b <> 0.
(** the convex hull *)
Definition in_hull (v : list pt) (p : pt) : Prop :=
  exists w : list Qc, length w = length v /\ (forall x, In x w -> 0 <= x) /\ qsum (fun x => x) w = 1 /\ p = (qsum (fun z => fst z * fst (snd z)) (combine w v), qsum (fun z => fst z * snd (snd z)) (combine w v)).
(** two consecutive vertices one above the other *)
Definition vertical_side (v : list pt) : Prop := exists s, In s (sides_of v) /\ fst (fst s) = fst (snd s).
(** the call ends with the result [r], however much stack it is given beyond some point *)
Definition returns {A} (f : nat -> option A) (r : A) : Prop := exists n0, forall n, (n0 <= n)%nat -> f n = Some r.
Definition hangs {A} (f : nat -> option A) : Prop := forall n, f n = None.
(** the sides of the chain of vertices, without the one that closes the polygon *)
Definition chain (v : list pt) (i : nat) (s : pt * pt) : Prop := nth_error v i = Some (fst s) /\ nth_error v (S i) = Some (snd s).
(** strictly inside the triangle a b c, whichever way round its corners are given *)
Definition in_triangle (a b c p : pt) : Prop :=
  (0 < turn_of a b p /\ 0 < turn_of b c p /\ 0 < turn_of c a p) \/ (turn_of a b p < 0 /\ turn_of b c p < 0 /\ turn_of c a p < 0).
(** an odd number of the elements of the list have the property *)
Definition odd_many {A} (P : A -> Prop) (l : list A) : Prop := exists d, (forall x, In x l -> d x = true <-> P x) /\ Nat.Odd (length (filter d l)).
(** the point o sees every side of the polygon as a proper triangle, and neither p nor f is on a line of its sides *)
Definition generic (v : list pt) (o f p : pt) : Prop :=
  forall s, In s (sides_of v) -> turn_of o (fst s) (snd s) <> 0 /\ forall x, x = f \/ x = p -> turn_of o (fst s) x <> 0 /\ turn_of (fst s) (snd s) x <> 0.
