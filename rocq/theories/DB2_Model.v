(** larreco/RecoAlg/DBScanAlg.cxx (the two-dimensional DBSCAN of DBcluster) and larreco/ClusterFinder/DBcluster_module.cc.
    Coordinates are exact rationals. The exponential is an argument (any function). The pitch is that of plane 0 of TPC 0, as in the code. The R*-tree (an external library)
    is not modelled: what a query returns is an argument; its acceptors are modelled. unsigned int is nat: kNO_CLUSTER and
    kNOISE_CLUSTER are separate labels. *)
From Coq Require Import QArith Qcanon.
From Verif Require Import Base SortUtil Solver_Model SPS_Model.
Local Open Scope nat_scope.

(** the label of a point: kNO_CLUSTER, kNOISE_CLUSTER or a cluster, cxx:238-241 *)
Inductive label := Free | Noise | In_ (c : nat).

(** fps[i]: wire * pitch, time and width in cm *)
Record pt := P { px : Qc; py : Qc; pw : Qc }.
Definition pt0 : pt := P 0 0 0.
Definition qabs (x : Qc) : Qc := if qc_lt x 0 then (- x)%Qc else x.

(* ---------------------------------------------------------------- similarities *)

(** (unsigned int)(x / pitch + 0.5) for x >= 0, cxx:364-366 *)
Definition wire_of (pitch x : Qc) : nat := Z.to_nat (trunc (x / pitch + Q2Qc (1 # 2))%Qc).
(** cxx:369-377 and 402-410: bad channels [i] with wire1 <= i < wire2 *)
Definition to_bridge (bad : list nat) (pitch : Qc) (a b : pt) : nat :=
  let w1 := wire_of pitch (px a) in
  let w2 := wire_of pitch (px b) in
  let lo := if w2 <? w1 then w2 else w1 in
  let hi := if w2 <? w1 then w1 else w2 in
  length (filter (fun i => existsb (Nat.eqb i) bad) (range lo hi)).
(** getSimilarity, cxx:350-383 *)
Definition similarity (bad : list nat) (pitch : Qc) (a b : pt) : Qc :=
  let cm := (qc_nat (to_bridge bad pitch a b) * pitch)%Qc in
  let d := (qabs (px b - px a) - cm)%Qc in (d * d)%Qc.
(** getSimilarity2, cxx:386-422 *)
Definition similarity2 (bad : list nat) (pitch : Qc) (a b : pt) : Qc :=
  let cm := (qc_nat (to_bridge bad pitch a b) * pitch)%Qc in
  let cm := if qc_lt (Q2Qc (1 # 10000000000)) (qabs (px b - px a)) then (cm * qabs ((py b - py a) / (px b - px a)))%Qc else Q2Qc 0 in
  let d := (qabs (py b - py a) - cm)%Qc in (d * d)%Qc.

(** getWidthFactor, cxx:425-449 *)
Definition width_factor (ex : Qc -> Qc) (a b : pt) : Qc :=
  let v := (ex (Q2Qc (46 # 10) * (pw a * pw a + pw b * pw b)) * Q2Qc (1 # 10))%Qc in
  if qc_lt (Q2Qc 1) v then if qc_lt v (Q2Qc (625 # 100)) then v else Q2Qc (625 # 100) else Q2Qc 1.
(** computeSimilarity(2), computeWidthFactor, cxx:472-506: an n x n matrix *)
Definition matrix : Type := list (list Qc).
Definition mget (m : matrix) (i j : nat) : outcome Qc := do r <- idx m i; idx r j.
Definition mput (m : matrix) (i j : nat) (v : Qc) : outcome matrix := do r <- idx m i; do r' <- set_idx r j v; set_idx m i r'.
Definition compute (f : pt -> pt -> Qc) (ps : list pt) : outcome matrix :=
  let n := length ps in
  for_ (seq 0 n) (fun m i => for_ (range (S i) n) (fun m j =>
    do a <- idx ps i; do b <- idx ps j;
    do m <- mput m i j (f a b); mput m j i (f a b)) m) (repeat (repeat (Q2Qc 0) n) n).

(** findNeighbors, cxx:454-469 *)
Definition find_neighbours (s1 s2 s3 : matrix) (eps eps2 : Qc) (pid : nat) : outcome (list nat) :=
  for_ (seq 0 (length s1)) (fun ne j =>
    if pid =? j then Ok ne
    else do a <- mget s1 pid j; do b <- mget s2 pid j; do w <- mget s3 pid j;
         if qc_lt (a / (eps * eps) + b / (eps2 * eps2 * w))%Qc (Q2Qc 1) then Ok (ne ++ [j]) else Ok ne) [].

(* ---------------------------------------------------------------- clustering by neighbour lists *)

Section FN.
(** the neighbours of a point: findNeighbors, or RegionQuery_vector *)
Variables (nb : nat -> outcome (list nat)) (minpts : nat).
Record fn := F { vis : list bool; lab : list label; cls : list (list nat) }.

(** the loop over the growing vector ne, cxx:676-701 and 753-778; [c]: the new cluster *)
Fixpoint fn_loop (fuel : nat) (ne : list nat) (cid : nat) (s : list bool * list label * list nat)
  : outcome (list bool * list label * list nat) :=
  match ne with
  | [] => Ok s
  | x :: r =>
    match fuel with
    | 0 => Undef
    | S f =>
      match s with (v, l, c) =>
        do seen <- idx v x;
        do more <- (if seen then Ok [] else do ne1 <- nb x; Ok (if minpts <=? length ne1 then ne1 else []));
        do v' <- set_idx v x true;
        do y <- idx l x;
        match y with
        | Free => do l' <- set_idx l x (In_ cid); fn_loop f (r ++ more) cid (v', l', c ++ [x])
        | _ => fn_loop f (r ++ more) cid (v', l, c)
        end
      end
    end
  end.
(** run_FN_cluster and run_FN_naive_cluster, cxx:653-708 and 730-785, over [n] points *)
Definition run_fn (fuel n : nat) : outcome fn :=
  for_ (seq 0 n) (fun s pid =>
    do seen <- idx (vis s) pid;
    if seen then Ok s
    else
      do v <- set_idx (vis s) pid true;
      do ne <- nb pid;
      if length ne <? minpts then Ok (F v (lab s) (cls s))
      else
        let cid := length (cls s) in
        do l <- set_idx (lab s) pid (In_ cid);
        do r <- fn_loop fuel ne cid (v, l, [pid]);
        match r with (v', l', c) => Ok (F v' l' (cls s ++ [c])) end)
    (F (repeat false n) (repeat Free n) []).
End FN.

(** method 0, cxx:517-521 *)
Definition run_naive (bad : list nat) (pitch eps eps2 : Qc) (ex : Qc -> Qc) (minpts fuel : nat) (ps : list pt) : outcome fn :=
  do s1 <- compute (similarity bad pitch) ps;
  do s2 <- compute (similarity2 bad pitch) ps;
  do s3 <- compute (width_factor ex) ps;
  run_fn (find_neighbours s1 s2 s3 eps eps2) minpts fuel (length ps).

(* ---------------------------------------------------------------- clustering as in the paper *)

(** std::set<unsigned int>: increasing lists *)
Fixpoint sins (x : nat) (s : list nat) : list nat :=
  match s with [] => [x] | y :: r => if x <? y then x :: s else if y <? x then y :: sins x r else s end.
Definition sdel (x : nat) (s : list nat) : list nat := filter (fun y => negb (y =? x)) s.

Section PAPER.
(** RegionQuery: the set of the points near a point, the point itself included *)
Variables (rq : nat -> outcome (list nat)) (minpts : nat).

(** the while loop of ExpandCluster, cxx:626-642 *)
Fixpoint expand_loop (fuel cid : nat) (seeds : list nat) (l : list label) : outcome (list label) :=
  match seeds with
  | [] => Ok l
  | p :: _ =>
    match fuel with
    | 0 => Undef
    | S f =>
      do res <- rq p;
      do s <- (if minpts <=? length res
               then foreach res (fun (s : list nat * list label) x =>
                      do y <- idx (snd s) x;
                      match y with
                      | Free => do l' <- set_idx (snd s) x (In_ cid); Ok (sins x (fst s), l')
                      | Noise => do l' <- set_idx (snd s) x (In_ cid); Ok (fst s, l')
                      | In_ _ => Ok s
                      end) (seeds, l)
               else Ok (seeds, l));
      expand_loop f cid (sdel p (fst s)) (snd s)
    end
  end.
(** ExpandCluster, cxx:609-645 *)
Definition expand (fuel point cid : nat) (l : list label) : outcome (bool * list label) :=
  do seeds <- rq point;
  if length seeds <? minpts then do l <- set_idx l point Noise; Ok (false, l)
  else
    do l <- set_idx l point (In_ cid);
    do l <- foreach seeds (fun l x => set_idx l x (In_ cid)) l;
    do l <- expand_loop fuel cid (sdel point seeds) l;
    Ok (true, l).
(** run_dbscan_cluster, cxx:530-561: labels and fclusters *)
Definition run_paper (fuel n : nat) : outcome (list label * list (list nat)) :=
  do s <- for_ (seq 0 n) (fun (s : nat * list label) pid =>
    do y <- idx (snd s) pid;
    match y with
    | Free => do r <- expand fuel pid (fst s) (snd s); Ok (if fst r then S (fst s) else fst s, snd r)
    | _ => Ok s
    end) (0, repeat Free n);
  do c <- for_ (seq 0 n) (fun c y =>
    do z <- idx (snd s) y;
    match z with In_ k => do r <- idx c k; set_idx c k (r ++ [y]) | _ => Ok c end) (repeat [] (fst s));
  Ok (snd s, c).
End PAPER.

(* ---------------------------------------------------------------- the acceptor of the R*-tree query *)

(** BoundingBox: low and high edge in wire and time *)
Record box := B { x0 : Qc; x1 : Qc; y0 : Qc; y1 : Qc }.
Definition half (a b : Qc) : Qc := ((a + b) / Q2Qc 2)%Qc.
(** isNear with [nbr] = wirestobridge, cxx:159-200 *)
Definition near_with (ex : Qc -> Qc) (eps eps2 pitch : Qc) (nbr : nat) (t b : box) : bool :=
  let dx := qabs (half (x0 t) (x1 t) - half (x0 b) (x1 b)) in
  let dy := (half (y0 t) (y1 t) - half (y0 b) (y1 b))%Qc in
  let cm := (qc_nat nbr * pitch)%Qc in
  let s := ((dx - cm) * (dx - cm))%Qc in
  let cm := if qc_lt (Q2Qc (1 # 10000000000)) dx then (cm * qabs (dy / (half (x0 t) (x1 t) - half (x0 b) (x1 b))))%Qc else cm in
  let s2 := ((qabs dy - cm) * (qabs dy - cm))%Qc in
  let tw := qabs (y1 t - y0 t) in
  let bw := qabs (y1 b - y0 b) in
  let v := (ex (Q2Qc (46 # 10) * (tw * tw + bw * bw)) * Q2Qc (1 # 10))%Qc in
  let v := if qc_lt v (Q2Qc 1) then Q2Qc 1 else v in
  let v := if qc_lt (Q2Qc (625 # 100)) v then Q2Qc (625 # 100) else v in
  negb (qc_lt (Q2Qc 1) (s / (eps * eps) + s2 / (eps2 * eps2 * v))%Qc).
(** the number of wires to bridge, cxx:170-180, from the running sum [bws] of the bad channels *)
Definition bridge (bws : list nat) (pitch : Qc) (t b : box) : outcome nat :=
  let w1 := wire_of pitch (half (x0 t) (x1 t)) in
  let w2 := wire_of pitch (half (x0 b) (x1 b)) in
  let w1 := if w1 <? length bws then length bws else w1 in
  let w2 := if w2 <? length bws then length bws else w2 in
  do a <- idx bws w1; do c <- idx bws w2;
  Ok (if a <? c then c - a else a - c).
Definition is_near (ex : Qc -> Qc) (eps eps2 pitch : Qc) (bws : list nat) (t b : box) : outcome bool :=
  do k <- bridge bws pitch t b; Ok (near_with ex eps eps2 pitch k t b).
(** fBadWireSum, cxx:295-304 *)
Definition bad_wire_sum (bad : list nat) (nchannels : nat) : list nat :=
  map (fun i => length (filter (fun c => existsb (Nat.eqb c) bad) (seq 0 (S i)))) (seq 0 nchannels).
(** nearestPoint, cxx:201-225 *)
Definition nearest_point (maxw : Qc) (t b : box) : box :=
  let cx := half (x0 t) (x1 t) in
  let cy := half (y0 t) (y1 t) in
  let nx := if qc_lt cx (x0 b) then x0 b else if qc_lt (x1 b) cx then x1 b else cx in
  let ny := if qc_lt cy (y0 b) then y0 b else if qc_lt (x1 b) cx then y1 b else cy in
  B nx nx (ny - maxw / Q2Qc 2) (ny + maxw / Q2Qc 2).
Definition overlaps (a b : box) : bool :=
  negb (qc_lt (x1 b) (x0 a)) && negb (qc_lt (x1 a) (x0 b)) && negb (qc_lt (y1 b) (y0 a)) && negb (qc_lt (y1 a) (y0 b)).
(** the acceptor for a node, cxx:226-234, with [nbr] wires to bridge *)
Definition accept_node_with (ex : Qc -> Qc) (eps eps2 pitch maxw : Qc) (nbr : nat) (t node : box) : bool :=
  overlaps t node || near_with ex eps eps2 pitch nbr t (nearest_point maxw t node).
Definition accept_node (ex : Qc -> Qc) (eps eps2 pitch maxw : Qc) (bws : list nat) (t node : box) : outcome bool :=
  if overlaps t node then Ok true else is_near ex eps eps2 pitch bws t (nearest_point maxw t node).
(** dbsPoint::bounds, cxx:37-46, for the point made at cxx:329 *)
Definition bounds (a : pt) : box := B (px a) (px a) (py a - qabs (pw a / Q2Qc 2)) (py a + qabs (pw a / Q2Qc 2)).
(** the R*-tree as a query sees it (external library): the leaves below the nodes accepted, if accepted, in order *)
Inductive tree := Leaf_ (b : box) (i : nat) | Node_ (b : box) (ch : list tree).
Fixpoint query (an al : box -> outcome bool) (t : tree) : outcome (list nat) :=
  match t with
  | Leaf_ b i => do ok <- al b; Ok (if ok then [i] else [])
  | Node_ b ch =>
    do ok <- an b;
    if ok then (fix go (l : list tree) : outcome (list nat) :=
                  match l with [] => Ok [] | c :: r => do x <- query an al c; do y <- go r; Ok (x ++ y) end) ch
    else Ok []
  end.
(** RegionQuery_vector, cxx:588-605 *)
Definition region_query (ex : Qc -> Qc) (eps eps2 pitch maxw : Qc) (bws : list nat) (ps : list pt) (t : tree) (point : nat) : outcome (list nat) :=
  do a <- idx ps point;
  do v <- query (accept_node ex eps eps2 pitch maxw bws (bounds a)) (is_near ex eps eps2 pitch bws (bounds a)) t;
  Ok (filter (fun i => negb (i =? point)) v).
(** RegionQuery, cxx:573-585 *)
Definition region_query_set (ex : Qc -> Qc) (eps eps2 pitch maxw : Qc) (bws : list nat) (ps : list pt) (t : tree) (point : nat) : outcome (list nat) :=
  do a <- idx ps point;
  do v <- query (accept_node ex eps eps2 pitch maxw bws (bounds a)) (is_near ex eps eps2 pitch bws (bounds a)) t;
  Ok (fold_left (fun s x => sins x s) v []).

(* ---------------------------------------------------------------- the module *)

(** the hits of the event grouped by plane, DBcluster_module.cc:115-118: [pl] the plane number of each hit *)
Definition planes_in (pl : list nat) : list nat := isort Nat.ltb (nodup Nat.eq_dec pl).
Definition hits_of_plane (pl : list nat) (p : nat) : list nat := filter (fun i => nth i pl 0 =? p) (seq 0 (length pl)).
(** produce, cc:126-189; [run hs]: the labels and the number of clusters found for the hits [hs] of a plane;
    what is written: for each cluster its id, plane and hits *)
Definition produce (pl : list nat) (run : list nat -> outcome (list label * nat)) : outcome (list (nat * nat * list nat)) :=
  foreach (planes_in pl) (fun o p =>
    let hs := hits_of_plane pl p in
    do r <- run hs;
    for_ (seq 0 (snd r)) (fun o i =>
      do ch <- for_ (seq 0 (length (fst r))) (fun ch j =>
        do y <- idx (fst r) j;
        match y with In_ c => if c =? i then do h <- idx hs j; Ok (ch ++ [h]) else Ok ch | _ => Ok ch end) [];
      match ch with [] => Ok o | _ => Ok (o ++ [(length o, p, ch)]) end) o) [].
