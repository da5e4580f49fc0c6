(** What BlurredClusteringAlg is meant to do, written without the model's helpers. *)
From Coq Require Import QArith Qcanon.
From Verif Require Import Base RFF_Spec BC_Model.
Local Open Scope nat_scope.

(** an nx x ny array: nx columns (wires) of ny cells (ticks) *)
Definition rect {A} (nx ny : nat) (m : list (list A)) : Prop :=
  length m = nx /\ forall r, In r m -> length r = ny.

(** bins number the cells row by row: bin b is wire (b mod nx), tick (b / nx) *)
Definition wire_of (nx b : nat) : nat := b mod nx.
Definition tick_of (nx b : nat) : nat := b / nx.

(** the charge of a bin, and the hit of a bin *)
Definition charge_of (im : image) (nx b : nat) : Qc := nth (tick_of nx b) (nth (wire_of nx b) im []) (Q2Qc 0).
Definition hit_of (hm : hitmap) (nx b : nat) : option bhit := nth (tick_of nx b) (nth (wire_of nx b) hm []) None.
(** the time of a bin: that of its hit, and -10000 for a bin that only holds blurred charge *)
Definition time_of (hm : hitmap) (nx b : nat) : Qc :=
  match hit_of hm nx b with Some h => h_time h | None => Q2Qc (-10000 # 1) end.

Definition dist (a b : nat) : Z := Z.abs (Z.of_nat a - Z.of_nat b).
(** b lies in the clustering window around a (and is another bin) *)
Definition near (cf : config) (nx a b : nat) : Prop :=
  a <> b /\ (dist (wire_of nx a) (wire_of nx b) <= wireDist cf)%Z /\ (dist (tick_of nx a) (tick_of nx b) <= tickDist cf)%Z.
(** a and b are among each other's eight direct neighbours *)
Definition touching (nx a b : nat) : bool :=
  negb (a =? b) && (dist (wire_of nx a) (wire_of nx b) <=? 1)%Z && (dist (tick_of nx a) (tick_of nx b) <=? 1)%Z.
(** how many of the bins in [l] touch b *)
Definition touch_count (nx b : nat) (l : list nat) : nat := length (filter (touching nx b) l).
(** b lies on the edge of the array *)
Definition edge (nx ny b : nat) : bool :=
  (wire_of nx b =? 0) || (wire_of nx b =? nx - 1) || (tick_of nx b =? 0) || (tick_of nx b =? ny - 1).

(** two times are compatible *)
Definition in_time (cf : config) (t t' : Qc) : Prop :=
  ((t - t') < timeThreshold cf /\ (t' - t) < timeThreshold cf)%Qc.

Section Cluster.
Variables (cf : config) (hm : hitmap) (im : image) (nx ny : nat).
Let charge := charge_of im nx.
Let time := time_of hm nx.

(** some real hit (positive time) of the cluster is compatible in time with bin b *)
Definition time_match (c : list nat) (b : nat) : Prop :=
  exists a, In a c /\ (0 < time a)%Qc /\ in_time cf (time b) (time a).

(** bin b may be added to the growing cluster c while the bins of [prev] belong to earlier clusters *)
Definition may_grow (prev c : list nat) (b : nat) : Prop :=
  b < nx * ny /\ ~ In b prev /\ ~ In b c /\
  (exists a, In a c /\ near cf nx a b) /\
  (chargeThreshold cf < charge b)%Qc /\
  ((0 < time b)%Qc -> (exists a, In a c /\ (0 < time a)%Qc) -> time_match c b).

(** bin b may be added to cluster c as a hole *)
Definition may_fill (prev c : list nat) (b : nat) : Prop :=
  b < nx * ny /\ ~ In b prev /\ ~ In b c /\
  edge nx ny b = false /\
  (exists a, In a c /\ touching nx a b = true) /\
  nbThreshold cf < touch_count nx b (prev ++ c) /\
  time_match c b.

(** lists of bins grown from a seed *)
Inductive grown (prev : list nat) (seed : nat) : list nat -> Prop :=
| g_seed : seed < nx * ny -> ~ In seed prev -> (minSeed cf <= charge seed)%Qc -> grown prev seed [seed]
| g_add c b : grown prev seed c -> may_grow prev c b -> grown prev seed (c ++ [b]).

(** no more bins can be added *)
Definition saturated (prev c : list nat) : Prop := forall b, ~ may_grow prev c b.

(** the grown cluster with some holes filled *)
Inductive filled (prev g : list nat) : list nat -> Prop :=
| f_start : filled prev g g
| f_add c b : filled prev g c -> may_fill prev c b -> filled prev g (c ++ [b]).

(** every bin of c off the edge has enough direct neighbours in c or in earlier clusters *)
Definition supported (prev c : list nat) : Prop :=
  forall b, In b c -> edge nx ny b = false -> minNeighbours cf <= touch_count nx b (prev ++ c).

(** c is what is left of f when peninsulas are removed: the largest supported part of f, in order *)
Definition core_of (prev f c : list nat) : Prop :=
  subseq c f /\ supported prev c /\
  forall s, NoDup s -> incl s f -> supported prev s -> incl s c.

(** c is the cluster made from [seed] when the bins in [prev] are in earlier clusters *)
Definition cluster_from (prev : list nat) (seed : nat) (c : list nat) : Prop :=
  exists g f, grown prev seed g /\ saturated prev g /\ minSize cf <= length g /\
    filled prev g f /\ core_of prev f c /\ minSize cf <= length c.

(** growing from [seed] gives too few bins, either at once or after removing peninsulas *)
Definition too_small (prev : list nat) (seed : nat) : Prop :=
  exists g, grown prev seed g /\ saturated prev g /\
    (length g < minSize cf \/ exists f c, filled prev g f /\ core_of prev f c /\ length c < minSize cf).

(** cs are clusters made from [seeds], each with respect to the ones before it, in the order of falling charge *)
Definition made_from (seeds : list nat) (cs : list (list nat)) : Prop :=
  length seeds = length cs /\
  (forall i s c, nth_error seeds i = Some s -> nth_error cs i = Some c -> cluster_from (concat (firstn i cs)) s c) /\
  StronglySorted (fun s s' => (charge s' <= charge s)%Qc) seeds.

(** a and b are connected through bins above the charge threshold *)
Definition hot (b : nat) : Prop := b < nx * ny /\ (chargeThreshold cf < charge b)%Qc.
Definition link (a b : nat) : Prop := hot a /\ hot b /\ near cf nx a b.
Definition connected : nat -> nat -> Prop := clos_refl_trans nat link.
End Cluster.

(** std::sort(values.rbegin(), values.rend()): falling charge, then falling bin number *)
Definition sorts_falling (srt : list (Qc * nat) -> list (Qc * nat)) : Prop :=
  forall l, Permutation (srt l) l /\
    StronglySorted (fun p q => (fst q < fst p)%Qc \/ (fst q = fst p /\ snd q <= snd p)) (srt l).


(* ------------------------------------------------------------------ hits and image *)

(** t is the peak time q with its fraction dropped (rounding towards zero) *)
Definition tick_is (q : Qc) (t : Z) : Prop :=
  let z := Q2Qc (inject_Z t) in
  ((0 <= q -> z <= q /\ q < z + 1) /\ (q <= 0 -> q <= z /\ z < q + 1))%Qc.
(** hit h falls in wire w, tick t *)
Definition in_cell (w t : Z) (h : bhit) : Prop := h_wire h = w /\ tick_is (h_time h) t.

(** what the cell (w, t) shows: the first of the hits of largest charge there, provided that charge is positive *)
Definition cell_shows (hits : list bhit) (w t : Z) (charge : Qc) (shown : option bhit) : Prop :=
  match shown with
  | None => charge = Q2Qc 0 /\ forall h, In h hits -> in_cell w t h -> (h_charge h <= 0)%Qc
  | Some h => charge = h_charge h /\ (0 < charge)%Qc /\
      exists pre post, hits = pre ++ h :: post /\ in_cell w t h /\
        (forall h', In h' pre -> in_cell w t h' -> (h_charge h' < charge)%Qc) /\
        (forall h', In h' post -> in_cell w t h' -> (h_charge h' <= charge)%Qc)
  end.

(** the real hits of a list of bins, in order *)
Definition real_hits (hm : hitmap) (nx : nat) (bins : list nat) : list bhit :=
  flat_map (fun b => match hit_of hm nx b with Some h => [h] | None => [] end) bins.
