(** Model of MergeClusterAlg::MergeClusters (larreco/RecoAlg/MergeClusterAlg.{h,cxx}) and of the loop over planes of
    BlurredClustering::produce (larreco/ClusterFinder/BlurredClustering_module.cc). *)
From Coq Require Import QArith Qcanon.
From Verif Require Import Base Solver_Model BC_Model BC_Blur.
Local Open Scope nat_scope.

(** the merging parameters, MergeClusterAlg.h 76-81, constructor .cxx 22-24, the wire coordinate of a hit (GlobalWire,
    .cxx 162-174: geometry service) and the outcome of PassCuts (.cxx 314-333) for the angle, crossing distance, projected
    width, separation and longer length computed from the two hit lists (lines 234-289: principal components and square
    roots, taken as an arbitrary function of the two lists) *)
Record mergecfg := { minMerge : nat; maxSep : Qc; gwire : bhit -> Qc; pass_cuts : list bhit -> list bhit -> bool }.

Section Merge.
Variable mc : mergecfg.

(** (pos1 - pos2).Mod(), lines 128-131, squared *)
Definition hit_dist2 (a b : bhit) : Qc :=
  let dx := (gwire mc a - gwire mc b)%Qc in let dt := (h_time a - h_time b)%Qc in (dx * dx + dt * dt)%Qc.

(** FindMinSeparation, MergeClusterAlg.cxx 116-138; the squared result (all distances are >= 0, so squares order alike) *)
Definition min_sep2 (c1 c2 : list bhit) : Qc :=
  fold_left (fun m h1 => fold_left (fun m h2 => let d := hit_dist2 h1 h2 in if qc_lt d m then d else m) c2 m) c1
    (Q2Qc (99999 * 99999 # 1)).

(** separation > fMaxMergeSeparation, line 291, on squares: a separation is never negative *)
Definition too_far (c1 c2 : list bhit) : bool :=
  if qc_lt (maxSep mc) (Q2Qc 0) then true else qc_lt (maxSep mc * maxSep mc)%Qc (min_sep2 c1 c2).

(** the guard of lines 217-220 and 237-240 *)
Definition skipped (old : list (list bhit)) (merged : list nat) (i : nat) : outcome bool :=
  do c <- at_ old i; Ok ((length c <? minMerge mc) || existsb (Nat.eqb i) merged).

(** the for loop with break that picks the new cluster, lines 216-224 *)
Fixpoint pick (old : list (list bhit)) (is : list nat) (merged : list nat) : outcome (list bhit * list nat) :=
  match is with
  | [] => Ok ([], merged)
  | i :: is' =>
    do s <- skipped old merged i;
    if s : bool then pick old is' merged else do c <- at_ old i; Ok (c, merged ++ [i])
  end.

(** one pass over all clusters, lines 231-305; the state is (cluster, mergedClusters, nadded) *)
Definition merge_pass (old : list (list bhit)) (st : list bhit * list nat) : outcome (list bhit * list nat * nat) :=
  foreach (seq 0 (length old)) (fun (s : list bhit * list nat * nat) i =>
    let '(cluster, merged, nadded) := s in
    do sk <- skipped old merged i;
    if sk : bool then Ok s else
    do trial <- at_ old i;
    if too_far cluster trial then Ok s else
    if pass_cuts mc cluster trial then Ok (cluster ++ trial, merged ++ [i], S nadded) else Ok s) (fst st, snd st, 0).

(** while (!mergedAllToThisCluster), lines 227-309 *)
Fixpoint absorb (fuel : nat) (old : list (list bhit)) (st : list bhit * list nat) : outcome (list bhit * list nat) :=
  match fuel with
  | 0 => Undef
  | S f => do r <- merge_pass old st;
           let '(cluster, merged, nadded) := r in
           if nadded =? 0 then Ok (cluster, merged) else absorb f old (cluster, merged)
  end.

(** while (!mergedAllClusters), lines 209-313 *)
Fixpoint merge_all (fuel : nat) (old : list (list bhit)) (nclusters : nat) (merged : list nat) (clusters : list (list bhit))
  : outcome (list (list bhit)) :=
  match fuel with
  | 0 => Undef
  | S f => do st <- pick old (seq 0 (length old)) merged;
           do r <- absorb (S (length old)) old st;
           let clusters' := clusters ++ [fst r] in
           if length (snd r) =? nclusters then Ok clusters' else merge_all f old nclusters (snd r) clusters'
  end.

(** MergeClusters, MergeClusterAlg.cxx 182-316: [clusters] afterwards and the value returned. [srt] is the std::sort by
    falling size (not stable). [fuel] is the length of the input plus one: see [merge_clusters_ok]. *)
Definition merge_clusters (srt : list (list bhit) -> list (list bhit)) (planeClusters clusters : list (list bhit))
  : outcome (list (list bhit) * nat) :=
  let old := srt planeClusters in
  let nclusters := length (filter (fun c => minMerge mc <=? length c) old) in
  do cs <- merge_all (S (length old)) old nclusters [] clusters;
  Ok (cs, length cs).
End Merge.

(* ------------------------------------------------------------------ BlurredClustering::produce *)

(** planeToHits[key].push_back(hit), lines 156-162: the std::map as a list sorted by key *)
Definition key_lt (a b : Z * Z) : bool := ((fst a <? fst b) || ((fst a =? fst b) && (snd a <? snd b)))%Z.
Fixpoint map_push (k : Z * Z) (h : bhit) (m : list ((Z * Z) * list bhit)) : list ((Z * Z) * list bhit) :=
  match m with
  | [] => [(k, [h])]
  | (k', hs) :: m' => if key_lt k k' then (k, [h]) :: m
                      else if key_lt k' k then (k', hs) :: map_push k h m'
                      else (k', hs ++ [h]) :: m'
  end.
Definition plane_map (key : bhit -> Z * Z) (hits : list bhit) : list ((Z * Z) * list bhit) :=
  fold_left (fun m h => map_push (key h) h m) hits [].

(** what a plane's processing depends on besides its hits: the configured parameters, the blurring parameters (which
    FindBlurringParameters computes from the plane's hits), the dead wires, the sorts and the merging switch *)
Record prodcfg := {
  p_cfg : config; p_blur : list bhit -> blurcfg; p_dead : bounds -> list bool;
  p_sort : list (Qc * nat) -> list (Qc * nat); p_maxWires : Z; p_readout : Z;
  p_merge : option mergecfg; p_msort : list (list bhit) -> list (list bhit);
  p_key : bhit -> Z * Z
}.

(** finalClusters of one plane, BlurredClustering_module.cc 166-193 *)
Definition final_clusters (pc : prodcfg) (hits : list bhit) : outcome (list (list bhit)) :=
  if length hits <? minSize (p_cfg pc) then Ok [] else
  do cl <- plane_clusters (p_cfg pc) (p_blur pc hits) (p_dead pc) (p_sort pc) (p_maxWires pc) (p_readout pc) hits;
  match p_merge pc with
  | None => Ok cl
  | Some mc => do r <- merge_clusters mc (p_msort pc) cl []; Ok (fst r)
  end.

(** produce, BlurredClustering_module.cc 153-248 (hitsToCluster given): the clusters written, each with its ID
    (clusters->size() at the time) and the hits associated to it *)
Definition produce (pc : prodcfg) (hits : list bhit) : outcome (list (nat * list bhit)) :=
  foreach (plane_map (p_key pc) hits) (fun out kh =>
    do fin <- final_clusters pc (snd kh);
    Ok (fold_left (fun out (c : list bhit) => match c with [] => out | _ :: _ => out ++ [(length out, c)] end) fin out)) [].
