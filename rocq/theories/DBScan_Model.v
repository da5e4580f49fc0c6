(** Model of larreco/RecoAlg/DBScan3DAlg.{h,cxx}: dbscan and its helpers.
    Coordinates, epsilon and the bad channel weight are exact rationals; allocation failure (FAILURE returns, calloc) is
    not modelled; the linked list of seeds is a list; cluster ids are unbounded integers (int in the code).
    init's geometry lookup is replaced by an arbitrary number of bad channels per point. *)
From Coq Require Import QArith Qcanon.
From Verif Require Import Base Solver_Model.
Local Open Scope Qc_scope.

(** DBScan3DAlg.h:33-34 *)
Definition UNCLASSIFIED : Z := (-1)%Z.
Definition NOISE : Z := (-2)%Z.
(** DBScan3DAlg.h:57-62 point_s (cluster_id kept separately) and the parameters of DBScan3DAlg.h:89-92 *)
Record pt := mkPt { p_x : Qc; p_y : Qc; p_z : Qc; p_bad : nat }.
Record cfg := mkCfg { c_eps2 : Qc (* already squared: DBScan3DAlg.cxx:24 *); c_minpts : nat; c_weight : Qc; c_pts : list pt }.
Definition pt0 : pt := mkPt 0 0 0 0.

(** DBScan3DAlg.cxx:199-210 dist *)
Definition dist (C : cfg) (a b : pt) : Qc :=
  let nb := qc_nat (p_bad a + p_bad b) in
  let dx := p_x a - p_x b in let dy := p_y a - p_y b in let dz := p_z a - p_z b in
  let d := dx * dx + dy * dy + dz * dz - (nb * c_weight C) * (nb * c_weight C) in
  if qc_lt d 0 then 0 else d.

(** DBScan3DAlg.cxx:98-118 get_epsilon_neighbours *)
Definition neighbours (C : cfg) (index : nat) : list nat :=
  filter (fun i => negb (Nat.eqb i index) && negb (qc_lt (c_eps2 C) (dist C (nth index (c_pts C) pt0) (nth i (c_pts C) pt0))))
         (seq 0 (length (c_pts C))).

(** DBScan3DAlg.cxx:178-192: the loop of spread; returns the labels and the seeds appended *)
Fixpoint spread_loop (nb : list nat) (cid : Z) (lab : list Z) : list Z * list nat :=
  match nb with
  | [] => (lab, [])
  | n :: nb' =>
      let d := nth n lab UNCLASSIFIED in
      if (d =? NOISE)%Z || (d =? UNCLASSIFIED)%Z then
        let r := spread_loop nb' cid (upd lab n cid) in
        (fst r, if (d =? UNCLASSIFIED)%Z then n :: snd r else snd r)
      else spread_loop nb' cid lab
  end.
(** DBScan3DAlg.cxx:171-197 spread *)
Definition spread (C : cfg) (index : nat) (cid : Z) (lab : list Z) : list Z * list nat :=
  let nb := neighbours C index in
  if Nat.leb (c_minpts C) (length nb) then spread_loop nb cid lab else (lab, []).

(** DBScan3DAlg.cxx:159-163: the loop over the growing seed list; [queue] are the seeds not yet visited *)
Fixpoint run_seeds (C : cfg) (fuel : nat) (cid : Z) (queue : list nat) (lab : list Z) : option (list Z) :=
  match queue with
  | [] => Some lab
  | h :: queue' =>
      match fuel with
      | O => None
      | S fuel' => let r := spread C h cid lab in run_seeds C fuel' cid (queue' ++ snd r) (fst r)
      end
  end.

(** DBScan3DAlg.cxx:143-169 expand: new labels and whether [index] is a core point *)
Definition expand (C : cfg) (fuel : nat) (index : nat) (cid : Z) (lab : list Z) : option (list Z * bool) :=
  let seeds := neighbours C index in
  if Nat.ltb (length seeds) (c_minpts C) then Some (upd lab index NOISE, false)
  else
    let lab1 := fold_left (fun l h => upd l h cid) seeds (upd lab index cid) in
    match run_seeds C fuel cid seeds lab1 with Some l => Some (l, true) | None => None end.

(** DBScan3DAlg.cxx:133-141 dbscan *)
Fixpoint dbscan_loop (C : cfg) (fuel : nat) (is : list nat) (cid : nat) (lab : list Z) : option (list Z) :=
  match is with
  | [] => Some lab
  | i :: is' =>
      if (nth i lab UNCLASSIFIED =? UNCLASSIFIED)%Z then
        match expand C fuel i (Z.of_nat cid) lab with
        | Some (l, true) => dbscan_loop C fuel is' (S cid) l
        | Some (l, false) => dbscan_loop C fuel is' cid l
        | None => None
        end
      else dbscan_loop C fuel is' cid lab
  end.
(** init (DBScan3DAlg.cxx:52-64) sets every label to UNCLASSIFIED, then dbscan; [fuel] bounds the seed list walk *)
Definition dbscan (C : cfg) (fuel : nat) : option (list Z) :=
  dbscan_loop C fuel (seq 0 (length (c_pts C))) 0 (repeat UNCLASSIFIED (length (c_pts C))).
