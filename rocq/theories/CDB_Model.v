(** Model of larreco/RecoAlg/Cluster3DAlgs/DBScanAlg_tool.cc: Cluster3DHits (both overloads) and expandCluster, on top of the kd-tree model.
    Hits are addresses (numbers); their status bits are a state.  BuildClusterInfo, which fills in the parameters of the
    clusters found, timing and log messages are not modelled. *)
From Coq Require Import QArith Qcanon.
From Verif Require Import Base KD_Model.
Local Open Scope nat_scope.

(** the bits CLUSTERVISITED, CLUSTERATTACHED and CLUSTERNOISE of the hits *)
Record bits := mkBits { visited : nat -> bool; attached : nat -> bool; noise : nat -> bool }.
(** setStatusBit *)
Definition mark (f : nat -> bool) (h : nat) : nat -> bool := fun k => if Nat.eqb k h then true else f k.
Definition set_visited (h : nat) (b : bits) := mkBits (mark (visited b) h) (attached b) (noise b).
Definition set_attached (h : nat) (b : bits) := mkBits (visited b) (mark (attached b) h) (noise b).
Definition set_noise (h : nat) (b : bits) := mkBits (visited b) (attached b) (mark (noise b) h).

Section DB.
(** the hits FindNearestNeighbors finds around a hit, in order *)
Variable (nb : nat -> list nat).
Variable (minpts : nat).

(** DBScanAlg_tool.cc:273-313 expandCluster: the loop over the list of candidates; [fuel] bounds its steps ([None]: exceeded) *)
Fixpoint expand_cluster (fuel : nat) (queue : list nat) (cluster : list nat) (b : bits) : option (list nat * bits) :=
  match queue with
  | [] => Some (cluster, b)
  | h :: rest =>
      match fuel with
      | 0 => None
      | S fuel' =>
          let v := visited b h in
          let b1 := if v then b else set_visited h b in
          let more := if v then [] else if minpts <=? length (nb h) then nb h else [] in
          if attached b1 h then expand_cluster fuel' (rest ++ more) cluster b1
          else expand_cluster fuel' (rest ++ more) (cluster ++ [h]) (set_attached h b1)
      end
  end.
(** DBScanAlg_tool.cc:143-171 (213-241): the loop over the hits *)
Fixpoint cluster_loop (fuel : nat) (hits : list nat) (clusters : list (list nat)) (b : bits) : option (list (list nat) * bits) :=
  match hits with
  | [] => Some (clusters, b)
  | h :: hits' =>
      if visited b h then cluster_loop fuel hits' clusters b
      else
        let b1 := set_visited h b in
        if length (nb h) <? minpts then cluster_loop fuel hits' clusters (set_noise h b1)
        else
          match expand_cluster fuel (nb h) [h] (set_attached h b1) with
          | Some (c, b2) => cluster_loop fuel hits' (clusters ++ [c]) b2
          | None => None
          end
  end.
End DB.

(** kdTree.cxx:89-97: the pointer overload of BuildKdTree clears the clustering bits of its hits *)
Definition clear (hits : list nat) (b : bits) : bits :=
  let keep f k := if in_dec Nat.eq_dec k hits then false else f k in mkBits (keep (visited b)) (keep (attached b)) (keep (noise b)).

Section Tool.
Variables (hit : nat -> hit3) (sort : (nat -> nat -> bool) -> list nat -> list nat) (root : Qc -> Qc) (sigmas refdist : Qc) (minpts : nat).
(** DBScanAlg_tool.cc:150-154, 289-292: a search of the tree of all hits with the largest float as starting distance.
    By c36_sound the search returns for every tree of a non-empty list; with an empty list it is not called. *)
Definition around (t : node) (h : nat) : list nat := match neighbours hit root sigmas refdist h t ([], Far) with Ok (c, _) => map snd c | _ => [] end.
(** DBScanAlg_tool.cc:119-194 Cluster3DHits(HitPairList) *)
Definition cluster3d_list (fuel : nat) (hits : list nat) (clusters : list (list nat)) (b : bits) : option (list (list nat) * bits) :=
  match build_tree hit sort hits with Some t => cluster_loop (around t) minpts fuel hits clusters b | None => None end.
(** DBScanAlg_tool.cc:196-271 Cluster3DHits(HitPairListPtr) *)
Definition cluster3d_ptr (fuel : nat) (hits : list nat) (clusters : list (list nat)) (b : bits) : option (list (list nat) * bits) :=
  cluster3d_list fuel hits clusters (clear hits b).
End Tool.
