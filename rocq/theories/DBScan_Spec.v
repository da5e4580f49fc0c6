(** DBSCAN, as in the textbook, over an arbitrary finite set of points 0..n-1 with a "within epsilon" relation (C23, C24). *)
From Coq Require Import QArith Qcanon.
From Verif Require Import Base Solver_Model DBScan_Model.
Local Open Scope nat_scope.

(** within epsilon: squared distance minus the squared bad channel allowance is at most epsilon squared (and epsilon is not
    negative, since distances are cut off at 0) *)
Definition sq_dist (a b : pt) : Qc := ((p_x a - p_x b) * (p_x a - p_x b) + (p_y a - p_y b) * (p_y a - p_y b) + (p_z a - p_z b) * (p_z a - p_z b))%Qc.
Definition within (C : cfg) (i j : nat) : Prop :=
  exists a b, nth_error (c_pts C) i = Some a /\ nth_error (c_pts C) j = Some b /\
    (sq_dist a b - (qc_nat (p_bad a + p_bad b) * c_weight C) * (qc_nat (p_bad a + p_bad b) * c_weight C) <= c_eps2 C)%Qc /\ (0 <= c_eps2 C)%Qc.

(** core point: at least minpts other points within epsilon *)
Definition core (C : cfg) (i : nat) : Prop :=
  i < length (c_pts C) /\ exists l, NoDup l /\ (forall j, In j l <-> j <> i /\ within C i j) /\ c_minpts C <= length l.
(** density connected: a chain of core points, each within epsilon of the next *)
Definition linked (C : cfg) (i j : nat) : Prop := core C i /\ core C j /\ i <> j /\ within C i j.
Definition connected (C : cfg) : nat -> nat -> Prop := clos_refl_trans nat (linked C).

Record clustering (C : cfg) (lab : list Z) : Prop := mkClustering {
  cl_length : length lab = length (c_pts C);
  (* core points: same cluster iff density connected, never noise *)
  cl_core : forall i, core C i -> (0 <= nth i lab UNCLASSIFIED)%Z;
  cl_same : forall i j, core C i -> core C j -> (nth i lab UNCLASSIFIED = nth j lab UNCLASSIFIED <-> connected C i j);
  (* border points: in the cluster of a core point in range *)
  cl_border : forall i, i < length (c_pts C) -> ~ core C i -> (exists j, core C j /\ within C i j) ->
     exists j, core C j /\ within C i j /\ nth i lab UNCLASSIFIED = nth j lab UNCLASSIFIED;
  (* everything else is noise *)
  cl_noise : forall i, i < length (c_pts C) -> ~ core C i -> ~ (exists j, core C j /\ within C i j) -> nth i lab UNCLASSIFIED = NOISE }.

(** clusters are numbered 0..k-1 and cluster c starts at the first core point not in clusters 0..c-1 *)
Definition numbered (C : cfg) (lab : list Z) (k : nat) : Prop :=
  (forall i, i < length (c_pts C) -> nth i lab UNCLASSIFIED = NOISE \/ (0 <= nth i lab UNCLASSIFIED < Z.of_nat k)%Z) /\
  (forall c, c < k -> exists i, core C i /\ nth i lab UNCLASSIFIED = Z.of_nat c /\
     forall j, core C j -> (Z.of_nat c <= nth j lab UNCLASSIFIED)%Z -> i <= j).
