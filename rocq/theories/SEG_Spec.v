(** TrackShowerHits, SimpleClustering, Segmentation2D: what the theorems say, in terms of hits and clusters only *)
From Coq Require Import QArith Qcanon.
From Verif Require Import Base QcUtil SEG_Model.
Import SEG_Model.
Local Open Scope nat_scope.

(** what "touching" means: on the same or on neighbouring wires, tick ranges that overlap or follow each other, and not the same wire with the same peak time *)
Definition neighbours (a b : hit) : Prop :=
  (wire a - 1 <= wire b <= wire a + 1)%Z /\ (tick0 a <= tick1 b + 1)%Z /\ (tick0 b <= tick1 a + 1)%Z /\ ~ (wire a = wire b /\ peak a = peak b).
(** a hit of a real channel off the edge of the wire numbers *)
Definition sane (h : hit) : Prop := (1 <= wire h < 4294967295)%Z /\ (tick0 h <= tick1 h)%Z.
(** a chain of touching hits of [l] leads from a to b *)
Definition linked (l : list hit) : hit -> hit -> Prop := clos_refl_trans hit (fun x y => In x l /\ In y l /\ neighbours x y).
(** in one cluster *)
Definition together (cls : list (list hit)) (a b : hit) : Prop := exists c, In c cls /\ In a c /\ In b c.

(** the call ends with the result [r], however much fuel it is given beyond some point *)
Definition returns {A} (f : nat -> option A) (r : A) : Prop := exists n0, forall n, n0 <= n -> f n = Some r.
(** the call never ends *)
Definition hangs {A} (f : nat -> option A) : Prop := forall n, f n = None.

(** what the standard promises of std::sort: a permutation in which no element is nearer to the point than one before it *)
Definition sorts (srt : pt -> list hit -> list hit) : Prop :=
  forall p l, Permutation (srt p l) l /\ StronglySorted (fun a b => (dist2 (pos a) p <= dist2 (pos b) p)%Qc) (srt p l).

(** hits of one event are distinct objects *)
Definition distinct (l : list hit) : Prop := NoDup (map key l).

(** a linear segment: more than one hit, and all within [line] of one straight line (compared squared); from the second one on, each hit touches an earlier one;
    behind the first hit the hits stand in order of their distance from it *)
Definition off_line (p q : pt) (h : hit) : Qc := ((fst (pos h) - fst p) * (snd q - snd p) - (snd (pos h) - snd p) * (fst q - fst p))%Qc.
Definition straight (line : Qc) (c : list hit) : Prop :=
  length c = 1 \/ exists p q, p <> q /\ forall h, In h c -> (off_line p q h * off_line p q h < (line * line) * dist2 p q)%Qc.
Definition chained (c : list hit) : Prop := forall a h b, c = a ++ h :: b -> a <> [] -> exists x, In x a /\ neighbours x h.
Definition outward (c : list hit) : Prop := match c with [] => True | f :: r => StronglySorted (fun a b => (dist2 (pos a) (pos f) <= dist2 (pos b) (pos f))%Qc) r end.

(** the position of the first and of the last hit of a cluster *)
Definition first_of (c : clu) : pt := match hs c with [] => (0%Qc, 0%Qc) | h :: _ => pos h end.
Definition last_of (c : clu) : pt := match rev (hs c) with [] => (0%Qc, 0%Qc) | h :: _ => pos h end.
Definition close_by (r : Qc) (a b : pt) : nat := if Qclt_le_dec (dist2 a b) (r * r) then 1 else 0.
(** the number of ends of track-like clusters within [r] of the point [p], an end of cluster [i]: the first and the last hit of every other cluster (a cluster
    of one hit has one end), and one for cluster [i] itself if its two ends are close to each other *)
Definition count_ends (r : Qc) (g : list clu) (i : nat) (p : pt) : nat :=
  list_sum (map (fun '(j, c) => if em c then 0
    else if j =? i then (if 1 <? length (hs c) then close_by r (first_of c) (last_of c) else 0)
    else close_by r p (first_of c) + (if 1 <? length (hs c) then close_by r p (last_of c) else 0)) (combine (seq 0 (length g)) g)).
(** an end of another cluster is within [r] of [p] *)
Definition end_near (r : Qc) (g : list clu) (i : nat) (p : pt) : Prop :=
  exists j d, j <> i /\ nth_error g j = Some d /\ ((dist2 p (first_of d) < r * r)%Qc \/ (dist2 p (last_of d) < r * r)%Qc).

(** a usable configuration: the widths are not zero and a vertex needs more than one end *)
Definition usable (cf : cfg) : Prop := f_line cf <> 0%Qc /\ f_rmin cf <> 0%Qc /\ 1 <= f_minN cf.
(** the same configuration with another DenseMinNVtx *)
Definition with_minN (cf : cfg) (n : nat) : cfg := Cfg (f_rmin cf) (f_rmax cf) (f_line cf) (f_vrad cf) n (f_hrad cf) (f_minH cf).

(** more than [m] other hits of [l] within [r] of the hit *)
Definition crowded (r : Qc) (m : nat) (l : list hit) (h : hit) : Prop :=
  exists s, NoDup s /\ length s = S m /\ forall x, In x s -> In x l /\ x <> h /\ (dist2 (pos h) (pos x) < r * r)%Qc.
(** the hits of one plane of one TPC *)
Definition same_plane (a b : hit) : Prop := cryo a = cryo b /\ tpc a = tpc b /\ view a = view b.
(** linked by a chain of touching hits of one plane *)
Definition linked_in_plane (hits : list hit) : hit -> hit -> Prop := clos_refl_trans hit (fun x y => In x hits /\ In y hits /\ same_plane x y /\ neighbours x y).
(** what the module looks for: more than [m] of the hits linked to [h] in its plane are within [r] of it *)
Definition in_shower (r : Qc) (m : nat) (hits : list hit) (h : hit) : Prop :=
  exists s, NoDup s /\ length s = S m /\ forall x, In x s -> linked_in_plane hits h x /\ x <> h /\ (dist2 (pos h) (pos x) < r * r)%Qc.
