(** What the EM-shower properties say, independently of the model's helpers. *)
From Coq Require Import QArith Qround Qcanon.
From Verif Require Import Base RFF_Spec WT_Rms EMS_Model.
Local Open Scope nat_scope.

(** cluster [c] is linked to track [t]: a hit of the cluster belongs to that track and to no other, the track is long
    enough and the cluster is not ignored *)
Definition linked (fmh fmt : list (list nat)) (len : nat -> Qc) (minlen : Qc) (ign : list Z) (c t : nat) : Prop :=
  ~ In (Z.of_nat c) ign /\
  exists hs h, nth_error fmh c = Some hs /\ In h hs /\ nth_error fmt h = Some [t] /\ (minlen <= len t)%Qc.
(** every cluster and every hit of a cluster has an entry *)
Definition valid_assns (cls : list nat) (fmh fmt : list (list nat)) : Prop :=
  forall c, In c cls -> exists hs, nth_error fmh c = Some hs /\ forall h, In h hs -> h < length fmt.
(** no entry without clusters (tracks) *)
Definition no_empty (m : zmap (list Z)) : Prop := forall k l, In (k, l) m -> l <> [].
Definition increasing (m : zmap (list Z)) : Prop := StronglySorted Z.lt (map fst m).

(** two clusters belong to a common track; connected through tracks *)
Definition share (t2c : zmap (list Z)) (a b : Z) : Prop := exists t l, In (t, l) t2c /\ In a l /\ In b l.
Definition connected (t2c : zmap (list Z)) : Z -> Z -> Prop := clos_refl_trans Z (share t2c).
(** no cluster in two showers *)
Definition disjoint_showers (shs : list (list Z)) : Prop :=
  forall i j a b c, nth_error shs i = Some a -> nth_error shs j = Some b -> In c a -> In c b -> i = j.
(** track [l] touches shower [s] *)
Definition touches (s l : list Z) : Prop := exists c, In c s /\ In c l.

(** CheckShowerPlanes for the clusters [cs] of the first shower: plane of each cluster, planes of the hits of each *)
Definition nq (n : nat) : Qc := Q2Qc (inject_Z (Z.of_nat n)).
Definition total {A} (f : A -> Qc) (l : list A) : Qc := fold_right (fun x s => (f x + s)%Qc) (Q2Qc 0) l.
Definition on_plane (cpl : list Z) (cs : list nat) (p : Z) : list nat := filter (fun c => (nth c cpl (-1) =? p)%Z) cs.
Definition hits_on (hpl : list (list Z)) (cs : list nat) (p : Z) : nat :=
  length (filter (Z.eqb p) (flat_map (fun c => nth c hpl []) cs)).
(** mean over the clusters of the plane of (hits of the cluster) / (hits of the shower on the plane) *)
Definition mean_fraction (cpl : list Z) (hpl : list (list Z)) (cs : list nat) (p : Z) : Qc :=
  (total (fun c => nq (length (nth c hpl [])) / nq (hits_on hpl cs p)) (on_plane cpl cs p) / nq (length (on_plane cpl cs p)))%Qc.
(** [P]: the planes of the clusters, in increasing order *)
Definition planes_of (cpl : list Z) (cs : list nat) (P : list Z) : Prop :=
  StronglySorted Z.lt P /\ forall p, In p P <-> exists c, In c cs /\ nth c cpl (-1)%Z = p.
(** the mean of [p] is at least the quadrature sum of those of the other planes *)
Definition suspicious (cpl : list Z) (hpl : list (list Z)) (cs : list nat) (P : list Z) (p : Z) : Prop :=
  In p P /\
  (total (fun o => mean_fraction cpl hpl cs o * mean_fraction cpl hpl cs o) (filter (fun o => negb (o =? p)%Z) P)
   <= mean_fraction cpl hpl cs p * mean_fraction cpl hpl cs p)%Qc.

(** FindOrderOfHits_: slope of the line fitted to the hits with weight charge^2 ([None]: the hits are on one wire) *)
Definition slope (hs : list hit) : option Qc :=
  let s f := total (fun h => (hq h * hq h * f h)%Qc) hs in
  let d := (s (fun _ => Q2Qc 1) * s (fun h => hpx h * hpx h) - s hpx * s hpx)%Qc in
  if Qc_eq_dec d (Q2Qc 0) then None
  else Some ((s (fun _ => Q2Qc 1) * s (fun h => hpx h * hpy h) - s hpx * s hpy) / d)%Qc.
Definition charge (hs : list hit) : Qc := total hq hs.
(** position of a hit along the fitted line, or across it *)
Definition along (g : Qc) (perp : bool) (h : hit) : Qc := if perp then (hpy h - g * hpx h)%Qc else (hpx h + g * hpy h)%Qc.
(** the last hit of the list at that position *)
Definition last_at (f : hit -> Qc) (hs : list hit) (h : hit) : Prop :=
  exists l1 l2, hs = l1 ++ h :: l2 /\ forall x, In x l2 -> f x <> f h.

(** CheckIsolatedHits_: [p] is the only plane that starts in the TPC where it starts *)
Definition starts_in (m : hmap) (p : Z) (t : nat) : Prop := exists h r, In (p, h :: r) m /\ htp h = t.
Definition lone (m : hmap) (p : Z) (t : nat) : Prop := starts_in m p t /\ forall q, starts_in m q t -> q = p.
Definition two_tpcs (m : hmap) : Prop :=
  exists t1 t2 p1 p2, t1 <> t2 /\ starts_in m p1 t1 /\ starts_in m p2 t2 /\ forall q t, starts_in m q t -> t = t1 \/ t = t2.
Definition full (m : hmap) : Prop := StronglySorted Z.lt (map fst m) /\ forall p v, In (p, v) m -> v <> [].
(** the first [n] hits [v] of plane [p] are in TPC [t], at least the next 4n in the other TPC [t'], as are the second
    hits of the other planes with three hits or more *)
Definition stray (np : nat) (m : hmap) (p : Z) (n t t' : nat) (v : list hit) : Prop :=
  two_tpcs m /\ lone m p t /\ (forall q u, lone m q u -> u <= t) /\
  In (p, v) m /\ 3 <= length v /\ (n = 1 \/ n = 2) /\ t <> t' /\
  (forall i h, nth_error v i = Some h -> i < n -> htp h = t) /\
  (forall i h, nth_error v i = Some h -> n <= i < n + 4 * n -> htp h = t') /\
  (exists q w, q <> p /\ (0 <= q < Z.of_nat np)%Z /\ In (q, w) m /\ 3 <= length w) /\
  (forall q w h, q <> p -> (0 <= q < Z.of_nat np)%Z -> In (q, w) m -> 3 <= length w -> nth_error w 1 = Some h -> htp h = t').
(** what the loop does to the hits of the plane *)
Inductive moved : nat -> list hit -> list hit -> Prop :=
| moved1 a r : moved 1 (a :: r) (r ++ [a])
| moved2 a b c r : moved 2 (a :: b :: c :: r) ((b :: r) ++ [a; c]).
(** [m'] is [m] except for plane [p] *)
Definition replaced (m m' : hmap) (p : Z) (v : list hit) : Prop :=
  map fst m' = map fst m /\ In (p, v) m' /\ forall q w, q <> p -> (In (q, w) m' <-> In (q, w) m).

(** OrderShowerHits: the hits of plane [p] *)
Definition hits_of (p : Z) (hs : list hit) : list hit := filter (fun h => (hpl h =? p)%Z) hs.
(** no two hits of [v] at the same position along, or across, the fitted line *)
Definition separated (v : list hit) : Prop :=
  forall g perp i j a b, slope v = Some g -> nth_error v i = Some a -> nth_error v j = Some b -> along g perp a = along g perp b -> i = j.
(** the same planes, each with its hits in the same or the opposite order *)
Definition reoriented (m m' : hmap) : Prop :=
  Forall2 (fun a b => fst a = fst b /\ (snd b = snd a \/ snd b = rev (snd a))) m m'.
(** whole wires between the first and the last hit; sum of the squares for the planes other than [p] *)
Definition wires (v : list hit) : Z :=
  match v with
  | [] => 0%Z
  | a :: _ => let d := (hx a - hx (last v a))%Qc in Qfloor (if Qclt_le_dec d (Q2Qc 0) then (- d)%Qc else d)
  end.
Definition others_sq (m : hmap) (p : Z) : Z :=
  fold_right Z.add 0%Z (map (fun e => (wires (snd e) * wires (snd e))%Z) (filter (fun e => negb (fst e =? p)%Z) m)).
(** relative width (wires over the root of [others_sq]) below one over the number of planes *)
Definition narrow (m : hmap) (p : Z) : Prop :=
  exists v, In (p, v) m /\ (Z.of_nat (length m) * Z.of_nat (length m) * (wires v * wires v) < others_sq m p)%Z.
Definition wires_apart (m : hmap) : Prop := forall p q v w, In (p, v) m -> In (q, w) m -> wires v = wires w -> p = q.
(** [m'] is [m] without plane [p] *)
Definition without (p : Z) (m : hmap) : hmap := filter (fun e => negb (fst e =? p)%Z) m.
(** the verdict on the first hits of the planes: two planes, or planes 0, 1, 2; otherwise nothing is asked *)
Definition agree (ok2 : hit -> hit -> bool) (ok3 : Z -> hit -> hit -> hit -> bool) (m : hmap) : Prop :=
  (forall p a u q b v, m = [(p, a :: u); (q, b :: v)] -> ok2 a b = true) /\
  (forall a u b v c w p, m = [(0%Z, a :: u); (1%Z, b :: v); (2%Z, c :: w)] -> (0 <= p <= 2)%Z -> ok3 p a b c = true).

(** FindShowerStart_: nearest wire and tick *)
Definition wire_no (h : hit) : Z := WT_Rms.round (hx h).
Definition tick_no (h : hit) : Z := WT_Rms.round (ht h).
(** the first hit is more than three wires away from both ends of the shower *)
Definition crossing (v : list hit) : Prop :=
  exists f a b, hd_error v = Some f /\ In a v /\ In b v /\ (wire_no a + 3 < wire_no f)%Z /\ (wire_no f + 3 < wire_no b)%Z.
Definition alone (v : list hit) (h : hit) : Prop :=
  forall i j a b, nth_error v i = Some a -> nth_error v j = Some b -> wire_no a = wire_no h -> wire_no b = wire_no h -> i = j.
(** no hit one to five ticks further towards the last hit *)
Definition clear_ahead (v : list hit) (h : hit) : Prop :=
  forall f x k, hd_error v = Some f -> In x v -> (1 <= k <= 5)%Z ->
    ((ht f < ht (last v f))%Qc -> tick_no x <> (tick_no h + k)%Z) /\ ((ht (last v f) <= ht f)%Qc -> tick_no x <> (tick_no h - k)%Z).
(** two hits of [s] or more are in the TPC of [h] *)
Definition not_single (s : list hit) (h : hit) : Prop :=
  exists i j a b, i <> j /\ nth_error s i = Some a /\ nth_error s j = Some b /\ htp a = htp h /\ htp b = htp h.

(** MakeSpacePoints: all hits of the map; key of a hit in a point *)
Definition all_hits (m : hmap) : list hit := flat_map snd m.
Definition on (m : hmap) (p : Z) (h : hit) : Prop := exists v, In (p, v) m /\ In h v.
Definition in_point (ps : list (list hit)) (h : hit) : Prop := exists pt x, In pt ps /\ In x pt /\ hk x = hk h.
(** [q]: the lowest plane of [m] other than those in [ex] *)
Definition lowest_but (m : hmap) (ex : list Z) (q : Z) : Prop :=
  In q (map fst m) /\ ~ In q ex /\ forall x, In x (map fst m) -> ~ In x ex -> (q <= x)%Z.
(** a point made from hits [a] and [b], and the first hit [c] that confirms it if there is a third plane *)
Definition point_of (near3 : hit -> hit -> hit -> bool) (near2 : hit -> hit -> bool) (m : hmap) (pt : list hit) : Prop :=
  exists p q a b, on m p a /\ on m q b /\ lowest_but m [p] q /\ htp a = htp b /\
    ((pt = [a; b] /\ near2 a b = true /\ forall x, In x (map fst m) -> x = p \/ x = q) \/
     (exists r c, pt = [a; b; c] /\ on m r c /\ lowest_but m [p; q] r /\ htp c = htp a /\ near3 a b c = true)).
(** [a] and [b] could make a point *)
Definition could (near3 : hit -> hit -> hit -> bool) (near2 : hit -> hit -> bool) (m : hmap) (a b : hit) : Prop :=
  exists p q, on m p a /\ on m q b /\ lowest_but m [p] q /\ htp a = htp b /\
    ((near2 a b = true /\ forall x, In x (map fst m) -> x = p \/ x = q) \/
     (exists r c, on m r c /\ lowest_but m [p; q] r /\ htp c = htp a /\ near3 a b c = true)).

(** EMShower::produce for the showers [shs] (clusters of each): what is written for them *)
Section Written.
Variables (fmh : list (list nat)) (lk : nat -> nat -> Prop).
Variables (points : list nat -> list (list nat)) (complete : list nat -> bool) (save_all : bool).
Definition hits_in (sh : list Z) : list nat := flat_map (fun c => nth (Z.to_nat c) fmh []) sh.
Definition saved (sh : list Z) : bool := save_all || complete (hits_in sh).
Definition numbered {A} (l : list A) : list (nat * A) := List.combine (seq 0 (length l)) l.
(** number of the first space point of shower [j] (also those of the showers not saved are counted) *)
Definition base (shs : list (list Z)) (j : nat) : nat := length (flat_map (fun sh => points (hits_in sh)) (firstn j shs)).
Definition written (shs : list (list Z)) (o : out) : Prop :=
  let kept := filter saved shs in
  o_ids o = map (fun _ => 0%Z) kept /\
  o_c o = flat_map (fun e => map (pair (fst e)) (map Z.to_nat (snd e))) (numbered kept) /\
  o_h o = flat_map (fun e => map (pair (fst e)) (hits_in (snd e))) (numbered kept) /\
  (NoDup (o_t o) /\ forall i t, In (i, t) (o_t o) <-> exists sh c, nth_error kept i = Some sh /\ In c sh /\ lk (Z.to_nat c) t) /\
  o_np o = base shs (length shs) /\
  (forall i k, In (i, k) (o_sp o) <-> exists j sh, nth_error shs j = Some sh /\ saved sh = true /\ i = length (filter saved (firstn j shs)) /\
     base shs j <= k < base shs (S j)) /\
  (forall k h, In (k, h) (o_ph o) <-> exists j sh pt, nth_error shs j = Some sh /\ base shs j <= k < base shs (S j) /\
     nth_error (points (hits_in sh)) 0 = Some pt /\ In h pt).
End Written.
(** what a point-hit association should be: the hits of that very point *)
Definition own_hits (fmh : list (list nat)) (points : list nat -> list (list nat)) (shs : list (list Z)) (o : out) : Prop :=
  forall k h, In (k, h) (o_ph o) <-> exists j sh pt, nth_error shs j = Some sh /\ base fmh points shs j <= k < base fmh points shs (S j) /\
    nth_error (points (hits_in fmh sh)) (k - base fmh points shs j) = Some pt /\ In h pt.
