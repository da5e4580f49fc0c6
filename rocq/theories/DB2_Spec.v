(** What the properties of the two-dimensional DBSCAN say, independently of the model's helpers. *)
From Coq Require Import QArith Qcanon Qround.
From Verif Require Import Base Solver_Model DB2_Model.
Local Open Scope nat_scope.

(** DBSCAN over the points 0..n-1 with a relation [near] *)
Section Scan.
Variables (n : nat) (near : nat -> nat -> Prop) (minpts : nat).
(** [minpts] points near it *)
Definition core (i : nat) : Prop :=
  i < n /\ exists l, NoDup l /\ (forall j, In j l <-> j < n /\ near i j) /\ minpts <= length l.
(** joined by core points, each near the next *)
Definition joined : nat -> nat -> Prop := clos_refl_trans nat (fun i j => core i /\ core j /\ near i j).
Definition at_label (l : list label) (i : nat) : label := nth i l Free.

(** [none]: the label of a point in no cluster *)
Record scanned (none : label) (l : list label) (k : nat) : Prop := {
  sc_len : length l = n;
  (** core points are in clusters, two of them in the same one exactly when they are joined *)
  sc_core : forall i, core i -> exists c, c < k /\ at_label l i = In_ c;
  sc_same : forall i j, core i -> core j -> (at_label l i = at_label l j <-> joined i j);
  (** any other point is in the cluster of a core point near it, if there is one, and in none otherwise *)
  sc_border : forall i j, i < n -> ~ core i -> core j -> near j i -> exists j', core j' /\ near j' i /\ at_label l i = at_label l j';
  sc_none : forall i, i < n -> ~ core i -> (forall j, core j -> ~ near j i) -> at_label l i = none;
  (** the clusters are 0..k-1, in the order of their first core points *)
  sc_first : forall c, c < k -> exists i, core i /\ at_label l i = In_ c /\ forall j c', core j -> at_label l j = In_ c' -> c <= c' -> i <= j }.
(** of the clusters in reach, a point is in the first *)
Definition first_come (l : list label) : Prop :=
  forall i j c c', core j -> near j i -> at_label l j = In_ c -> at_label l i = In_ c' -> c' <= c.
(** the clusters are the points of each label *)
Definition listed (l : list label) (cs : list (list nat)) : Prop :=
  forall c x, nth_error cs c = Some x -> NoDup x /\ forall i, In i x <-> i < n /\ at_label l i = In_ c.
End Scan.

(** the wire of a point; [dead a b]: the number of dead wires from the lower (included) to the higher (not included) *)
Definition absq (x : Qc) : Qc := if Qclt_le_dec x (Q2Qc 0) then (- x)%Qc else x.
Definition nwire (pitch x : Qc) : Z := Qfloor (x / pitch + Q2Qc (1 # 2))%Qc.
Definition dead (isdead : nat -> bool) (pitch : Qc) (a b : pt) : nat :=
  let lo := Z.min (nwire pitch (px a)) (nwire pitch (px b)) in
  let hi := Z.max (nwire pitch (px a)) (nwire pitch (px b)) in
  length (filter isdead (seq (Z.to_nat lo) (Z.to_nat hi - Z.to_nat lo))).
(** the width factor: the exponential of the widths, between 1 and 6.25 *)
Definition widen (ex : Qc -> Qc) (a b : pt) : Qc :=
  let v := (ex (Q2Qc (46 # 10) * (pw a * pw a + pw b * pw b)) * Q2Qc (1 # 10))%Qc in
  if Qclt_le_dec v (Q2Qc 1) then Q2Qc 1 else if Qclt_le_dec (Q2Qc (625 # 100)) v then Q2Qc (625 # 100) else v.
(** in the ellipse with half axes eps (in wire) and eps2 * root of the width factor (in time), after taking the dead wires
    off the line between the points (the part [s] of it) *)
Definition in_ellipse (isdead : nat -> bool) (pitch eps eps2 : Qc) (ex : Qc -> Qc) (a b : pt) : Prop :=
  let dx := absq (px b - px a) in
  let dy := absq (py b - py a) in
  let gap := (Q2Qc (inject_Z (Z.of_nat (dead isdead pitch a b))) * pitch)%Qc in
  let gapy := if Qclt_le_dec (Q2Qc (1 # 10000000000)) dx then (gap * (dy / dx))%Qc else Q2Qc 0 in
  ((dx - gap) * (dx - gap) * (eps2 * eps2 * widen ex a b) + (dy - gapy) * (dy - gapy) * (eps * eps) < eps * eps * (eps2 * eps2 * widen ex a b))%Qc.
Definition near_pts (isdead : nat -> bool) (pitch eps eps2 : Qc) (ex : Qc -> Qc) (ps : list pt) (i j : nat) : Prop :=
  exists a b, nth_error ps i = Some a /\ nth_error ps j = Some b /\ i <> j /\ in_ellipse isdead pitch eps eps2 ex a b.

(** an R*-tree of the points: below a node only what lies in its box; every point is a leaf with its box *)
Definition inside (a b : box) : Prop := (x0 b <= x0 a /\ x1 a <= x1 b /\ y0 b <= y0 a /\ y1 a <= y1 b)%Qc.
Inductive leaf_of : box -> nat -> tree -> Prop :=
| leaf_here b i : leaf_of b i (Leaf_ b i)
| leaf_below b i bx ch t : In t ch -> leaf_of b i t -> leaf_of b i (Node_ bx ch).
Inductive good_tree : tree -> Prop :=
| good_leaf b i : good_tree (Leaf_ b i)
| good_node bx ch : (forall t, In t ch -> good_tree t) -> (forall b i, leaf_of b i (Node_ bx ch) -> inside b bx) -> good_tree (Node_ bx ch).
Definition tree_of (ps : list pt) (t : tree) : Prop :=
  good_tree t /\ forall i a, nth_error ps i = Some a -> exists b, leaf_of b i t /\
    (x0 b = px a /\ x1 b = px a /\ y0 b = py a - absq (pw a / Q2Qc 2) /\ y1 b = py a + absq (pw a / Q2Qc 2))%Qc.

(** DBcluster: what is written for the hits 0.. on the planes [pl]; [run hs] the labels found for the hits [hs] of a plane *)
Definition on_plane (pl : list nat) (p : nat) (hs : list nat) : Prop :=
  StronglySorted lt hs /\ forall h, In h hs <-> nth_error pl h = Some p.
Record written (pl : list nat) (run : list nat -> outcome (list label * nat)) (o : list (nat * nat * list nat)) : Prop := {
  (** the ids are 0, 1, ... *)
  wr_ids : forall k id p hs, nth_error o k = Some (id, p, hs) -> id = k;
  (** each written cluster is one cluster found on one plane, in order and not empty *)
  wr_cluster : forall id p hs, In (id, p, hs) o -> exists all ls k c, on_plane pl p all /\ run all = Ok (ls, k) /\ c < k /\
    hs <> [] /\ StronglySorted lt hs /\ forall j h, nth_error all j = Some h -> (In h hs <-> nth_error ls j = Some (In_ c));
  (** each found cluster is written *)
  wr_all : forall p all ls k h j c, on_plane pl p all -> all <> [] -> run all = Ok (ls, k) -> nth_error all j = Some h -> nth_error ls j = Some (In_ c) -> c < k ->
    exists id hs, In (id, p, hs) o /\ In h hs;
  (** no hit twice *)
  wr_once : forall k1 k2 i1 i2 p1 p2 h1 h2 h, nth_error o k1 = Some (i1, p1, h1) -> nth_error o k2 = Some (i2, p2, h2) -> In h h1 -> In h h2 -> k1 = k2;
  (** in the order of the planes *)
  wr_order : StronglySorted (fun e f => snd (fst e) <= snd (fst f)) o }.
