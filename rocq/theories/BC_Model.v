(** Model of BlurredClusteringAlg: larreco/RecoAlg/BlurredClusteringAlg.{h,cxx}.

    Numbers: charges, times and thresholds (double/float) are exact rationals; [int] is [Z] (no
    overflow), [unsigned int] is [nat]; bin numbers are [nat] where the code has just built or
    guarded them and [Z] where it adds signed offsets. *)
From Coq Require Import QArith Qcanon.
From Verif Require Import Base Solver_Model SPS_Model.
Local Open Scope nat_scope.

(** A recob::Hit, reduced to what the algorithm reads: identity of the art::Ptr, the global wire
    number of its WireID (GlobalWire, BlurredClusteringAlg.cxx 374-419, is taken as given: geometry
    service), PeakTime() and Integral(). *)
Record bhit := { h_id : nat; h_wire : Z; h_time : Qc; h_charge : Qc }.

(** The clustering parameters, BlurredClusteringAlg.h 147-154, constructor .cxx 37-56 *)
Record config := {
  wireDist : Z;            (* fClusterWireDistance *)
  tickDist : Z;            (* fClusterTickDistance *)
  nbThreshold : nat;       (* fNeighboursThreshold *)
  minNeighbours : nat;     (* fMinNeighbours *)
  minSize : nat;           (* fMinSize *)
  minSeed : Qc;            (* fMinSeed *)
  timeThreshold : Qc;      (* fTimeThreshold *)
  chargeThreshold : Qc     (* fChargeThreshold *)
}.

Definition image := list (list Qc).
Definition hitmap := list (list (option bhit)).

(** vector::operator[] and vector::at with a signed index: a negative int becomes a huge size_t *)
Definition idx_z {A} (l : list A) (z : Z) : outcome A :=
  if Z.ltb z 0 then Undef else idx l (Z.to_nat z).
Definition at_z {A} (l : list A) (z : Z) : outcome A :=
  if Z.ltb z 0 then Throw RangeExn else at_ l (Z.to_nat z).
Definition set_at_z {A} (l : list A) (z : Z) (v : A) : outcome (list A) :=
  if Z.ltb z 0 then Throw RangeExn else set_at l (Z.to_nat z) v.
Definition set_idx_z {A} (l : list A) (z : Z) (v : A) : outcome (list A) :=
  if Z.ltb z 0 then Undef else set_idx l (Z.to_nat z) v.

(** for (int z = lo; z <= hi; ++z): the values z takes *)
Definition zspan (lo hi : Z) : list Z :=
  map (fun k => (lo + Z.of_nat k)%Z) (seq 0 (Z.to_nat (hi - lo + 1))).

(** ConvertWireTickToBin, BlurredClusteringAlg.cxx 633-639 *)
Definition wire_tick_to_bin (im : image) (x y : nat) : nat := y * length im + x.

(** ConvertBinToCharge, BlurredClusteringAlg.cxx 641-648 *)
Definition bin_to_charge (im : image) (bin : nat) : outcome Qc :=
  do row <- at_ im (bin mod length im);
  at_ row (bin / length im).

(** ConvertBinToRecobHit, BlurredClusteringAlg.cxx 624-631; [None] is a null art::Ptr *)
Definition bin_to_hit (hm : hitmap) (im : image) (bin : nat) : outcome (option bhit) :=
  do row <- idx hm (bin mod length im);
  idx row (bin / length im).

(** GetTimeOfBin, BlurredClusteringAlg.cxx 704-709 *)
Definition time_of_bin (hm : hitmap) (im : image) (bin : nat) : outcome Qc :=
  do h <- bin_to_hit hm im bin;
  Ok (match h with None => Q2Qc (-10000 # 1) | Some h => h_time h end).

(** std::abs on doubles *)
Definition qabs (q : Qc) : Qc := if qc_lt q (Q2Qc 0) then Qcopp q else q.

(** PassesTimeCut, BlurredClusteringAlg.cxx 774-781 *)
Definition passes_time_cut (cf : config) (times : list Qc) (time : Qc) : bool :=
  existsb (fun t => qc_lt (qabs (Qcminus time t)) (timeThreshold cf)) times.

(** the eight (x, y) offsets in the order of the two loops, skipping (0,0):
    BlurredClusteringAlg.cxx 300-302 and 755-757 *)
Definition offsets8 : list (Z * Z) :=
  [(-1,-1); (-1,0); (-1,1); (0,-1); (0,1); (1,-1); (1,0); (1,1)]%Z.

(** NumNeighbours, BlurredClusteringAlg.cxx 748-772 *)
Definition num_neighbours (nbinsx : nat) (used : list bool) (bin : nat) : outcome nat :=
  foreach offsets8 (fun n d =>
    do u <- at_z used (Z.of_nat bin + fst d + snd d * Z.of_nat nbinsx);
    Ok (if u : bool then S n else n)) 0.

(** the border guard, BlurredClusteringAlg.cxx 306-308 and 338-340 *)
Definition on_border (nbinsx nbinsy : nat) (bin : Z) : bool :=
  ((bin <? Z.of_nat nbinsx)
   || (Z.rem bin (Z.of_nat nbinsx) =? 0)
   || (Z.rem bin (Z.of_nat nbinsx) =? Z.of_nat nbinsx - 1)
   || (Z.of_nat nbinsx * (Z.of_nat nbinsy - 1) <=? bin))%Z.

(** used / cluster / times of FindClusters (lines 198, 221, 222) and the added_cluster flag (243) *)
Record cstate := { used : list bool; clus : list nat; times : list Qc; added : bool }.

Section Find.
Variables (cf : config) (hm : hitmap) (im : image).
Let nbinsx := length im.

(** one neighbour cell of one clustered bin, BlurredClusteringAlg.cxx 253-278 *)
Definition grow_cell (nbinsy : nat) (binx biny : nat) (s : cstate) (xy : Z * Z) : outcome cstate :=
  let (x, y) := xy in
  if ((Z.of_nat nbinsx <=? x) || (x <? 0))%Z then Ok s else
  if ((Z.of_nat nbinsy <=? y) || (y <? 0))%Z then Ok s else
  if ((x =? Z.of_nat binx) && (y =? Z.of_nat biny))%Z then Ok s else
  let bin := wire_tick_to_bin im (Z.to_nat x) (Z.to_nat y) in
  if nbinsx * nbinsy <=? bin then Ok s else
  do u <- idx (used s) bin;
  if u : bool then Ok s else
  do v <- bin_to_charge im bin;
  do t <- time_of_bin hm im bin;
  if qc_lt (Q2Qc 0) t && negb (length (times s) =? 0) && negb (passes_time_cut cf (times s) t)
  then Ok s else
  if qc_lt (chargeThreshold cf) v then
    do us <- set_idx (used s) bin true;
    Ok {| used := us; clus := clus s ++ [bin];
          times := if qc_lt (Q2Qc 0) t then times s ++ [t] else times s; added := true |}
  else Ok s.

(** the window of cells around one clustered bin, BlurredClusteringAlg.cxx 247-279 *)
Definition grow_bin (nbinsy : nat) (s : cstate) (b : nat) : outcome cstate :=
  let binx := b mod nbinsx in
  let biny := ((b - binx) / nbinsx) mod nbinsy in
  foreach (flat_map (fun x => map (pair x)
                        (zspan (Z.of_nat biny - tickDist cf) (Z.of_nat biny + tickDist cf)))
             (zspan (Z.of_nat binx - wireDist cf) (Z.of_nat binx + wireDist cf)))
          (grow_cell nbinsy binx biny) s.

(** for (clusBin = k; clusBin < cluster.size(); ++clusBin) body(cluster[clusBin]), the vector growing
    during the loop; lines 245 and 297. [fuel] only bounds the recursion (out of fuel = [Undef]). *)
Fixpoint scan (fuel : nat) (body : cstate -> nat -> outcome cstate) (k : nat) (s : cstate) : outcome cstate :=
  match nth_error (clus s) k with
  | None => Ok s
  | Some b => match fuel with
              | 0 => Undef
              | S f => do s' <- body s b; scan f body (S k) s'
              end
  end.

(** while (true) { added_cluster = false; scan; if (!added_cluster) break; }, lines 241-285 *)
Fixpoint grow (fuel : nat) (nbinsy : nat) (s : cstate) : outcome cstate :=
  match fuel with
  | 0 => Undef
  | S f =>
    do s' <- scan (nbinsx * nbinsy) (grow_bin nbinsy) 0
               {| used := used s; clus := clus s; times := times s; added := false |};
    if added s' then grow f nbinsy s' else Ok s'
  end.

(** one neighbour of one clustered bin when filling holes, BlurredClusteringAlg.cxx 302-320 *)
Definition fill_cell (nbinsy : nat) (b : nat) (s : cstate) (d : Z * Z) : outcome cstate :=
  let nb := (Z.of_nat b + fst d + snd d * Z.of_nat nbinsx)%Z in
  if on_border nbinsx nbinsy nb then Ok s else
  let n := Z.to_nat nb in
  do t <- time_of_bin hm im n;
  do u <- idx (used s) n;
  if u : bool then Ok s else
  do k <- num_neighbours nbinsx (used s) n;
  if (nbThreshold cf <? k) && passes_time_cut cf (times s) t then
    do us <- set_idx (used s) n true;
    Ok {| used := us; clus := clus s ++ [n];
          times := if qc_lt (Q2Qc 0) t then times s ++ [t] else times s; added := added s |}
  else Ok s.

Definition fill_bin (nbinsy : nat) (s : cstate) (b : nat) : outcome cstate :=
  foreach offsets8 (fill_cell nbinsy b) s.

(** cluster.erase(cluster.begin() + k) *)
Definition erase {A} (l : list A) (k : nat) : list A := firstn k l ++ skipn (S k) l.

(** for (clusBin = k - 1; clusBin >= 0; clusBin--), BlurredClusteringAlg.cxx 334-348; the boolean is
    removed_cluster *)
Fixpoint prune_pass (nbinsy : nat) (k : nat) (s : list bool * list nat * bool) : outcome (list bool * list nat * bool) :=
  match k with
  | 0 => Ok s
  | S k' =>
    let '(us, cl, rm) := s in
    do bin <- idx cl k';
    if on_border nbinsx nbinsy (Z.of_nat bin) then prune_pass nbinsy k' s else
    do n <- num_neighbours nbinsx us bin;
    if n <? minNeighbours cf then
      do us' <- set_idx us bin false;
      prune_pass nbinsy k' (us', erase cl k', true)
    else prune_pass nbinsy k' s
  end.

(** while (true) { removed_cluster = false; pass; if (!removed_cluster) break; }, lines 330-351 *)
Fixpoint prune (fuel : nat) (nbinsy : nat) (us : list bool) (cl : list nat) : outcome (list bool * list nat) :=
  match fuel with
  | 0 => Undef
  | S f =>
    do r <- prune_pass nbinsy (length cl) (us, cl, false);
    let '(us', cl', rm) := r in
    if rm : bool then prune f nbinsy us' cl' else Ok (us', cl')
  end.

(** for (auto const bin : cluster) used[bin] = false, lines 289-292 and 358-361 *)
Definition release (us : list bool) (cl : list nat) : outcome (list bool) :=
  foreach cl (fun us b => set_idx us b false) us.

(** one iteration of the outer loop for an unused seed, lines 232-366: the new used vector and the
    cluster pushed, if any *)
Definition one_cluster (nbinsy : nat) (us : list bool) (bin : nat) : outcome (list bool * option (list nat)) :=
  do us1 <- set_idx us bin true;
  do t <- time_of_bin hm im bin;
  let s0 := {| used := us1; clus := [bin]; times := if qc_lt (Q2Qc 0) t then [t] else []; added := false |} in
  do s1 <- grow (S (nbinsx * nbinsy)) nbinsy s0;
  if length (clus s1) <? minSize cf then
    do us2 <- release (used s1) (clus s1); Ok (us2, None)
  else
    do s2 <- scan (nbinsx * nbinsy) (fill_bin nbinsy) 0 s1;
    do r <- prune (S (nbinsx * nbinsy)) nbinsy (used s2) (clus s2);
    let (us3, cl) := r in
    if length cl <? minSize cf then
      do us4 <- release us3 cl; Ok (us4, None)
    else Ok (us3, Some cl).

(** the outer while loop, lines 218-368: [vals] is the rest of the sorted values vector from niter on;
    reading values[niter] past the end is undefined behaviour *)
Fixpoint clusters_from (nbinsy : nat) (vals : list (Qc * nat)) (us : list bool) (acc : list (list nat))
  : outcome (list (list nat)) :=
  match vals with
  | [] => Undef
  | (v, bin) :: rest =>
    if qc_lt v (minSeed cf) then Ok acc else
    do u <- idx us bin;
    if u : bool then clusters_from nbinsy rest us acc else
    do r <- one_cluster nbinsy us bin;
    clusters_from nbinsy rest (fst r) (match snd r with None => acc | Some c => acc ++ [c] end)
  end.

(** values.emplace_back(charge, bin) in the order of the loops, lines 202-207 *)
Definition collect_values (nbinsy : nat) : outcome (list (Qc * nat)) :=
  foreach (flat_map (fun x => map (pair x) (seq 0 nbinsy)) (seq 0 nbinsx))
    (fun vs xy => let bin := wire_tick_to_bin im (fst xy) (snd xy) in
                  do v <- bin_to_charge im bin; Ok (vs ++ [(v, bin)])) [].

(** FindClusters, BlurredClusteringAlg.cxx 189-372: the vector allcluster afterwards and the value
    returned. [srt] is std::sort(values.rbegin(), values.rend()). *)
Definition find_clusters (srt : list (Qc * nat) -> list (Qc * nat)) (allcluster : list (list nat))
  : outcome (list (list nat) * nat) :=
  do row0 <- at_ im 0;
  let nbinsy := length row0 in
  do values <- collect_values nbinsy;
  do cs <- clusters_from nbinsy (srt values) (repeat false (nbinsx * nbinsy)) allcluster;
  Ok (cs, length cs).
End Find.

(* ------------------------------------------------------------------ hits <-> image *)

(** the bounds found by the first loop, BlurredClusteringAlg.cxx 138-148 *)
Record bounds := { loT : Z; upT : Z; loW : Z; upW : Z }.
Definition qz' (z : Z) : Qc := Q2Qc (inject_Z z).
Definition bound_step (b : bounds) (h : bhit) : bounds :=
  {| loT := if qc_lt (h_time h) (qz' (loT b)) then trunc (h_time h) else loT b;
     upT := if qc_lt (qz' (upT b)) (h_time h) then trunc (h_time h) else upT b;
     loW := if (h_wire h <? loW b)%Z then h_wire h else loW b;
     upW := if (upW b <? h_wire h)%Z then h_wire h else upW b |}.

(** fLowerTick, fUpperTick, fLowerWire, fUpperWire: lines 149-152 *)
Definition find_bounds (maxWires readout : Z) (hits : list bhit) : bounds :=
  let b := fold_left bound_step hits {| loT := readout; upT := 0; loW := maxWires; upW := 0 |} in
  {| loT := loT b - 20; upT := upT b + 20; loW := loW b - 20; upW := upW b + 20 |}%Z.

(** one hit of the filling loop, lines 164-174 *)
Definition fill_hit (b : bounds) (s : image * hitmap) (h : bhit) : outcome (image * hitmap) :=
  let (im, hm) := s in
  let w := (h_wire h - loW b)%Z in
  let t := (trunc (h_time h) - loT b)%Z in
  do row <- at_z im w;
  do c <- at_z row t;
  if qc_lt c (h_charge h) then
    do row' <- set_at_z row t (h_charge h);
    do im' <- set_at_z im w row';
    do hrow <- idx_z hm w;
    do hrow' <- set_idx_z hrow t (Some h);
    do hm' <- set_idx_z hm w hrow';
    Ok (im', hm')
  else Ok (im, hm).

(** ConvertRecobHitsToVector, BlurredClusteringAlg.cxx 133-187: the image returned, with fHitMap and
    the bounds left in the object. Not modelled: the dead-wire list (lines 176-184, channel-status
    service). A negative vector size throws std::length_error. *)
Definition hits_to_image (maxWires readout : Z) (hits : list bhit) : outcome (image * hitmap * bounds) :=
  let b := find_bounds maxWires readout hits in
  if ((upW b - loW b <? 0) || (upT b - loT b <? 0))%Z then Throw UserExn else
  let nw := Z.to_nat (upW b - loW b) in
  let nt := Z.to_nat (upT b - loT b) in
  do r <- foreach hits (fill_hit b) (repeat (repeat (Q2Qc 0) nt) nw, repeat (repeat None nt) nw);
  match hits with
  | [] => Undef                                    (* hits.front(), line 178 *)
  | _ :: _ => Ok (r, b)
  end.

(** ConvertBinsToRecobHits, BlurredClusteringAlg.cxx 604-622 *)
Definition bins_to_hits (hm : hitmap) (im : image) (bins : list nat) : outcome (list bhit) :=
  foreach bins (fun acc bin =>
    do h <- bin_to_hit hm im bin;
    Ok (match h with None => acc | Some h => acc ++ [h] end)) [].

(** ConvertBinsToClusters, BlurredClusteringAlg.cxx 108-131 *)
Definition bins_to_clusters (cf : config) (hm : hitmap) (im : image) (all : list (list nat))
  (clusters : list (list bhit)) : outcome (list (list bhit)) :=
  foreach all (fun acc bins =>
    do hs <- bins_to_hits hm im bins;
    Ok (if length hs <? minSize cf then acc else acc ++ [hs])) clusters.
