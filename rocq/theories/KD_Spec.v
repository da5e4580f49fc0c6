(** Vocabulary of C35, C36, C49 *)
From Coq Require Import QArith Qcanon.
From Verif Require Import Base Solver_Model GaussElim_Model KD_Model Triplet_Spec.
Local Open Scope nat_scope.

(** the hits at the leaves, from left to right *)
Fixpoint leaves (t : node) : list nat := match t with Null => [] | Leaf h => [h] | Split _ _ l r => leaves l ++ leaves r end.
(** at every split: left coordinates <= axis value <= right coordinates, and the value is halfway between the largest left and the smallest right coordinate *)
Fixpoint well_split (hit : nat -> hit3) (t : node) : Prop :=
  match t with
  | Null => False
  | Leaf _ => True
  | Split a v l r => a < 3 /\ (forall h, In h (leaves l) -> coord (hit h) a <= v)%Qc /\ (forall h, In h (leaves r) -> v <= coord (hit h) a)%Qc /\
      (exists hl hr, In hl (leaves l) /\ In hr (leaves r) /\ (forall h, In h (leaves l) -> coord (hit h) a <= coord (hit hl) a) /\ (forall h, In h (leaves r) -> coord (hit hr) a <= coord (hit h) a) /\ v = half * (coord (hit hl) a + coord (hit hr) a))%Qc /\ well_split hit l /\ well_split hit r
  end.

(** the part of the neighbour condition that does not depend on the search: same cryostat and TPC, compatible times, all wires less than 3 apart *)
Definition compatible (hit : nat -> hit3) (sigmas : Qc) (h k : nat) : Prop :=
  h_cryo (hit h) = h_cryo (hit k) /\ h_tpc (hit h) = h_tpc (hit k) /\ (qabs (h_time (hit h) - h_time (hit k)) < sigmas * (h_sigma (hit h) + h_sigma (hit k)))%Qc /\
  (Z.abs (h_w0 (hit h) - h_w0 (hit k)) < 3 /\ Z.abs (h_w1 (hit h) - h_w1 (hit k)) < 3 /\ Z.abs (h_w2 (hit h) - h_w2 (hit k)) < 3)%Z.
(** closer than [r] along every axis *)
Definition near_all (hit : nat -> hit3) (r : Qc) (h k : nat) : Prop := forall a, a < 3 -> (qabs (coord (hit h) a - coord (hit k) a) < r)%Qc.
(** std::sort for every comparison by coordinate *)
Definition sorts (hit : nat -> hit3) (sort : (nat -> nat -> bool) -> list nat -> list nat) : Prop := forall a, sorts_by (less_on hit a) (sort (less_on hit a)).

(** distance in the y-z plane, at least 0.0001 *)
Definition yz_sep (hit : nat -> hit3) (root : Qc -> Qc) (h k : nat) : Qc :=
  let d := root ((p_y (hit h) - p_y (hit k)) * (p_y (hit h) - p_y (hit k)) + (p_z (hit h) - p_z (hit k)) * (p_z (hit h) - p_z (hit k)))%Qc in
  if qc_lt (Q2Qc (1 # 10000)) d then d else Q2Qc (1 # 10000).
(** a hit that a search around [ref] should find: another hit, compatible, with separation below [refdist] and closer than [refdist] along every axis *)
Definition close_to (hit : nat -> hit3) (root : Qc -> Qc) (sigmas refdist : Qc) (ref h : nat) : Prop :=
  h <> ref /\ compatible hit sigmas ref h /\ (yz_sep hit root ref h < refdist)%Qc /\ near_all hit refdist ref h.
