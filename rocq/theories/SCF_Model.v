(** Model of larreco/RecoAlg/SmallClusterFinderAlg.cxx and larreco/ClusterFinder/SmallClusterFinder_module.cc.
    Numbers are exact rationals; util::GeometryUtilities::Get2DDistance is the Euclidean distance in cm, for any two conversion factors; distances are
    compared by their squares. The printing and the members that are never read (74-79) are left out. *)
From Coq Require Import QArith Qcanon.
From Verif Require Import Base QcUtil SortUtil Solver_Model.
Local Open Scope nat_scope.

(** an art::Ptr<recob::Hit>: the key of the hit, the TPC, plane and wire numbers of its WireID and its peak time *)
Record hit := H { h_id : nat; h_tpc : nat; h_plane : nat; h_wire : nat; h_tick : Qc }.
(** cm per wire and per tick *)
Record scale := Sc { wcm : Qc; tcm : Qc }.
(** fNPlanes, fRadiusSizePar, fNHitsInClust, 56-64 *)
Record cfg := Cfg { f_np : nat; f_rad : Qc; f_n : Qc }.
(** smallClustList, hitlistbyplane, hitlistrefined, hitlistleftover *)
Record st := St { s_small : list (list (list hit)); s_plane : list (list hit); s_ref : list (list hit); s_left : list (list hit) }.

Section Alg.
Variables (g : scale) (cf : cfg).
(** the squared distance of 221, 249, and the test with the radius of 223, 251 *)
Definition dist2 (a b : hit) : Qc :=
  let w := ((qc_nat (h_wire a) - qc_nat (h_wire b)) * wcm g)%Qc in let t := ((h_tick a - h_tick b) * tcm g)%Qc in (w * w + t * t)%Qc.
Definition close (a b : hit) : bool := qc_lt 0 (f_rad cf) && qc_lt (dist2 a b) (f_rad cf * f_rad cf)%Qc.

(** ClearandResizeVectors, 187-197 *)
Definition clear : st := St (repeat [] (f_np cf)) (repeat [] (f_np cf)) (repeat [] (f_np cf)) (repeat [] (f_np cf)).
(** SelectLocalHitlist, 205-225 *)
Definition select (l local : list hit) (seed : hit) : outcome (list hit) := foreach l (fun acc h => Ok (if close h seed then acc ++ [h] else acc)) local.
(** SelectLocalHitlist with the indices, 230-260 *)
Definition select_ix (l local : list hit) (seed : hit) (ix : list nat) : outcome (list hit * list nat) :=
  do r <- foreach l (fun (s : list hit * list nat * nat) h => let '(acc, ix, i) := s in Ok (if close h seed then (acc ++ [h], ix ++ [i], i + 1) else (acc, ix, i + 1))) (local, ix, 0);
  let '(acc, ix, _) := r in Ok (acc, isort Nat.ltb ix).
(** CreateHighHitlist, 263-306: the isolated hits and the leftovers *)
Definition create_high (l lft : list hit) : outcome (list hit * list hit) :=
  foreach l (fun (s : list hit * list hit) h =>
    let '(tot, lft) := s in do loc <- select l [] h; Ok (if qc_lt (qc_nat (length loc)) (f_n cf) then (tot ++ [h], lft) else (tot, lft ++ [h]))) ([], lft).
(** vector::erase, 177 *)
Definition erase (sv : list hit) (i : nat) : outcome (list hit) := if i <? length sv then Ok (firstn i sv ++ skipn (S i) sv) else Undef.

(** 151-181: [None] when the loop needs more than [fuel] turns *)
Definition one_split (seed : hit) (sv : list hit) (small : list (list (list hit))) : outcome (list hit * list (list (list hit))) :=
  do r <- select_ix sv [] seed [];
  do l <- idx small (h_plane seed);
  do small <- set_idx small (h_plane seed) (l ++ [fst r]);
  do sv <- foreach (rev (snd r)) erase sv;
  Ok (sv, small).
Fixpoint split_loop (fuel : nat) (sv : list hit) (small : list (list (list hit))) : option (outcome (list (list (list hit)))) :=
  match sv with
  | [] => Some (Ok small)
  | seed :: _ => match fuel with
    | 0 => None
    | S f => match one_split seed sv small with Ok (sv, small) => split_loop f sv small | Throw e => Some (Throw e) | Undef => Some Undef end
    end
  end.
(** 142-182 *)
Fixpoint split_all (fuel : nat) (ps : list nat) (refined : list (list hit)) (small : list (list (list hit))) : option (outcome (list (list (list hit)))) :=
  match ps with
  | [] => Some (Ok small)
  | p :: ps => match idx refined p with
    | Ok sv => match split_loop fuel sv small with Some (Ok small) => split_all fuel ps refined small | r => r end
    | Throw e => Some (Throw e) | Undef => Some Undef
    end
  end.
(** 89-95 *)
Definition by_plane (hits : list hit) (bp : list (list hit)) : outcome (list (list hit)) := foreach hits (fun bp h => do l <- idx bp (h_plane h); set_idx bp (h_plane h) (l ++ [h])) bp.
(** 107-116 *)
Definition refine (s : st) : outcome st :=
  foreach (seq 0 (f_np cf)) (fun s ip =>
    do l <- idx (s_plane s) ip; do lft <- idx (s_left s) ip; do r <- create_high l lft; do rf <- set_idx (s_ref s) ip (fst r); do lf <- set_idx (s_left s) ip (snd r);
    Ok (St (s_small s) (s_plane s) rf lf)) s.
(** FindSmallClusters, 67-183, from any state of the object *)
Definition find (fuel : nat) (s : st) (hits : list hit) : option (outcome st) :=
  let s := clear in
  match hits with
  | [] => Some (Ok s)
  | _ => match (do bp <- by_plane hits (s_plane s); refine (St (s_small s) bp (s_ref s) (s_left s))) with
    | Ok s => match split_all fuel (seq 0 (f_np cf)) (s_ref s) (s_small s) with
              | Some (Ok small) => Some (Ok (St small (s_plane s) (s_ref s) (s_left s))) | Some (Throw e) => Some (Throw e) | Some Undef => Some Undef | None => None end
    | Throw e => Some (Throw e) | Undef => Some Undef
    end
  end.
(** GetSmallClustersByPlane, 323-328; GetLeftoversByPlane, 330-335 *)
Definition small_of (s : st) (p : nat) : outcome (list (list hit)) := if p <? f_np cf then idx (s_small s) p else Ok [].
Definition left_of (s : st) (p : nat) : outcome (list hit) := if p <? f_np cf then idx (s_left s) p else Ok [].

(** an output cluster: id, TPC and plane, hits *)
Record oclu := Oc { o_id : nat; o_tpc : nat; o_plane : nat; o_hits : list hit }.
Definition write (out : list oclu) (id : nat) (hs : list hit) : outcome (list oclu) := match hs with [] => Undef | f :: _ => Ok (out ++ [Oc id (h_tpc f) (h_plane f) hs]) end.
(** SmallClusterFinder_module.cc 159-224 *)
Definition write_all (s : st) : outcome (list oclu) :=
  foreach (seq 0 (f_np cf)) (fun out p =>
    do lft <- left_of s p;
    do out <- match lft with [] => Ok out | _ => write out (p * 100) lft end;
    do cl <- small_of s p;
    foreach (seq 0 (length cl)) (fun out i => do c <- idx cl i; write out (p * 100 + i + 1) c) out) [].
(** produce, 116-228: the state of the algorithm and what is put in the event, if anything *)
Definition produce (fuel : nat) (s : st) (hits : list hit) : option (outcome (st * option (list oclu))) :=
  match hits with
  | [] => Some (Ok (s, None))
  | _ => match find fuel s hits with
    | Some (Ok s) => Some (do out <- write_all s; Ok (s, Some out))
    | Some (Throw e) => Some (Throw e) | Some Undef => Some Undef | None => None
    end
  end.
End Alg.
