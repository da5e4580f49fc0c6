(** Prim's algorithm and the path searches of the 3D clustering:
    RecoAlg/Cluster3DAlgs/MinSpanTreeAlg_tool.cc (RunPrimsAlgorithm, LeastCostPath and its call; DepthFirstSearch and AStar are never used) and the copies of them in
    RecoAlg/Cluster3DAlgs/PathFinding/MSTPathFinder_tool.cc.

    Simplifications: hits are numbers (their addresses); [nb] is the list that kdTree::FindNearestNeighbors returns for a hit (modelled in
    KD_Model.v), with the distances left out; [wt] gives the weight of an edge (MinSpanTreeAlg: product of the chi squares of the two hits;
    MSTPathFinder: that times the distance); the weights are rationals, not doubles; printing and timing are left out. *)
From Coq Require Import QArith Qcanon.
From Verif Require Import Base Solver_Model CandHit_Model.
Local Open Scope nat_scope.

(** reco::EdgeTuple (lardataobj Cluster3D.h): from, to, weight *)
Record edge := mkEdge { e_src : nat; e_dst : nat; e_w : Qc }.
(** MinSpanTreeAlg_tool.cc:336-337: the same edge the other way round *)
Definition flip (e : edge) : edge := mkEdge (e_dst e) (e_src e) (e_w e).
(** reco::Hit3DToEdgeMap *)
Definition emap := nat -> list edge.
(** MinSpanTreeAlg_tool.cc:335-336: map[h].push_back(e) *)
Definition mpush (m : emap) (h : nat) (e : edge) : emap := fun x => if x =? h then m x ++ [e] else m x.
(** reco::ClusterParameters: hit list and edge map (the other fields are not touched here) *)
Record cluster := mkC { c_hits : list nat; c_map : emap }.
Definition no_cluster : cluster := mkC [] (fun _ => []).

Section Prim.
Context (nb : nat -> list nat) (wt : nat -> nat -> Qc) (sort : list edge -> list edge).

(** MinSpanTreeAlg_tool.cc:328-330: the comparison given to the sort *)
Definition lighter (a b : edge) : bool := qc_lt (e_w a) (e_w b).

(** the variables that live through the loop: hits with CLUSTERATTACHED set, curEdgeList, lastAddedHit, the part of hitPairList from freeHitItr on,
    the finished clusters and the current one *)
Record state := mkS { s_att : list nat; s_cur : list edge; s_last : nat; s_free : list nat; s_done : list cluster; s_cl : cluster }.
Definition attached (att : list nat) (h : nat) : bool := existsb (Nat.eqb h) att.
(** MinSpanTreeAlg_tool.cc:305-307: std::find_if from freeHitItr *)
Fixpoint next_free (att : list nat) (l : list nat) : list nat :=
  match l with [] => [] | h :: r => if attached att h then next_free att r else l end.

(** MinSpanTreeAlg_tool.cc:264-342 (MSTPathFinder_tool.cc:341-422): one round of the loop; inl: the loop is left *)
Definition step (s : state) : list cluster + state :=
  let att := s_last s :: s_att s in                                                      (* :266 *)
  let cur := filter (fun e => negb (attached att (e_dst e))) (s_cur s) in                (* :269-275 *)
  let cl := mkC (c_hits (s_cl s) ++ [s_last s]) (c_map (s_cl s)) in                      (* :278 *)
  let cur := cur ++ map (fun v => mkEdge (s_last s) v (wt (s_last s) v)) (filter (fun v => negb (attached att v)) (nb (s_last s))) in (* :281-294 *)
  match cur with
  | [] =>                                                                                (* :297 *)
    match next_free att (s_free s) with
    | [] => inl (s_done s ++ [cl])                                                       (* :310 *)
    | h :: r => inr (mkS att [] h r (s_done s ++ [cl]) no_cluster)                       (* :317-323 *)
    end
  | _ =>
    match sort cur with                                                                  (* :328-333 *)
    | [] => inl (s_done s ++ [cl])   (* unreachable: the sort keeps the edges *)
    | (e :: _) as cur =>
      let m := mpush (mpush (c_map cl) (e_src e) e) (e_dst e) (flip e) in                (* :335-337 *)
      inr (mkS att cur (e_dst e) (s_free s) (s_done s) (mkC (c_hits cl) m))              (* :340 *)
    end
  end.
Fixpoint loop (fuel : nat) (s : state) : option (list cluster) :=
  match fuel with 0 => None | S k => match step s with inl r => Some r | inr s => loop k s end end.

(** MinSpanTreeAlg_tool.cc:228-350 RunPrimsAlgorithm, called with an empty cluster list and no CLUSTERATTACHED bit set
    (the hits are new, MinSpanTreeAlg, or kdTree.cxx:90-93 has just cleared the bits, MSTPathFinder).  The loop has no bound of its
    own; [fuel] is one, and the theorems show that the number of hits is enough. *)
Definition run_prims (fuel : nat) (hits : list nat) : option (list cluster) :=
  match hits with
  | [] => Some []                                                                        (* :233 *)
  | h :: r => loop fuel (mkS [] [] h r [] no_cluster)                                    (* :247-261 *)
  end.
End Prim.

(** MinSpanTreeAlg_tool.cc:604-648 LeastCostPath (MSTPathFinder_tool.cc:705-751): for an edge and a goal, what is pushed on the front of the hit
    and edge lists, and the cost; inner None: std::numeric_limits<float>::max(), nothing is pushed; outer None: the search has not ended within [fuel]
    calls (the recursion has no bound of its own) *)
Definition found := option (option (list nat * list edge * Qc)).
Section Try.
Context (rec : edge -> found) (goal from : nat).
(** MinSpanTreeAlg_tool.cc:620-641: the loop over the edges of the hit reached *)
Fixpoint try_edges (l : list edge) : found :=
  match l with
  | [] => Some None
  | f :: r =>
    if e_dst f =? from then try_edges r                                                  (* :622 *)
    else if e_dst f =? goal then Some (Some ([goal], [f], e_w f))                        (* :625-630 *)
    else match rec f with                                                                (* :633-640 *)
         | None => None
         | Some (Some (p, es, c)) => Some (Some (p, es, (e_w f + c)%Qc))
         | Some None => try_edges r
         end
  end.
End Try.
Fixpoint least_cost (m : emap) (goal : nat) (fuel : nat) (e : edge) : found :=
  match fuel with
  | 0 => None
  | S k => match try_edges (least_cost m goal k) goal (e_src e) (m (e_dst e)) with
           | Some (Some (p, es, c)) => Some (Some (e_dst e :: p, e :: es, c))             (* :644-647 *)
           | x => x
           end
  end.
(** MinSpanTreeAlg_tool.cc:483-487 FindBestPathInCluster (MSTPathFinder_tool.cc:571-575): the best hit and edge lists (empty before) for two hits of the cluster;
    which two (the outermost isolated ones along the principal axis) is left to the caller.  front() of an empty list is undefined. *)
Definition best_path (m : emap) (fuel : nat) (start stop : nat) : outcome (list nat * list edge) :=
  match m start with
  | [] => Undef
  | e :: _ => match least_cost m stop fuel e with
              | None => Undef
              | Some None => Ok ([start], [])
              | Some (Some (p, es, _)) => Ok (start :: p, es)
              end
  end.
