(** Model of larreco/SpacePointSolver/SpacePointSolver_module.cc: BuildSystem, AddNeighbours, FillSystemToSpacePoints(AndAssns) and produce
    from the triplets on, on top of Solver_Model.v (the solver) and Triplet_Model.v (what a triplet is).
    Hits are addresses, their Integral() a function.  The SpaceCharge made for the k-th triplet is named k, an InductionWireHit by its hit.
    std::set of hits is the list of its elements in the order of addresses.  exp(-sqrt(d2)/2) is an oracle.  Doubles are exact rationals:
    the test for 1/sqrt(d2) being NaN or infinite, which aborts, cannot fire for d2 > 0.  Channels and printing are left out. *)
From Coq Require Import QArith Qcanon.
From Verif Require Import Base SortUtil Solver_Model Triplet_Model.
Local Open Scope nat_scope.

Definition is_some {A} (o : option A) : bool := match o with Some _ => true | None => false end.
Definition set_of (l : list nat) : list nat := isort Nat.ltb (nodup Nat.eq_dec l).
(** SpacePointSolver_module.cc:242-248: chits and ihits *)
Definition chits (ts : list triplet) : list nat := set_of (flat_map (fun t => opt_list (t_x t)) ts).
Definition ihits (ts : list triplet) : list nat := set_of (flat_map (fun t => opt_list (t_u t) ++ opt_list (t_v t)) ts).

(** std::map<const recob::Hit*, std::vector<SpaceCharge*>>; a missing key reads as the empty vector *)
Definition cmap := option nat -> list nat.
Definition push (m : cmap) (x : option nat) (k : nat) : cmap := fun y => if opt_eqb y x then m y ++ [k] else m y.
(** SpacePointSolver_module.cc:258-280: (collectionMap, collectionMapBad, satisfiedInduction) *)
Record maps := mkMaps { m_good : cmap; m_bad : cmap; m_sat : list nat }.
Fixpoint sort_triplets (ts : list triplet) (k : nat) (m : maps) : maps :=
  match ts with
  | [] => m
  | t :: ts' =>
      sort_triplets ts' (S k)
        (if is_some (t_u t) && is_some (t_v t)
         then mkMaps (push (m_good m) (t_x t) k) (m_bad m) (if is_some (t_x t) then m_sat m ++ opt_list (t_u t) ++ opt_list (t_v t) else m_sat m)
         else mkMaps (m_good m) (push (m_bad m) (t_x t) k) (m_sat m))
  end.
(** the system: wires with their hits, orphans, deleted space charges, SpaceCharge::fCWire *)
Record system := mkSys { s_wires : list (nat * list nat); s_orphans : list nat; s_deleted : list nat }.
(** SpacePointSolver_module.cc:284-306: one collection hit *)
Definition add_hit (m : maps) (s : system) (hit : nat) : system :=
  let good := m_good m (Some hit) in
  let scs := match good with [] => m_bad m (Some hit) | _ => good end in
  let deleted := match good with [] => [] | _ => m_bad m (Some hit) end in
  mkSys (match scs with [] => s_wires s | _ => s_wires s ++ [(hit, scs)] end) (s_orphans s) (s_deleted s ++ deleted).
(** SpacePointSolver_module.cc:310-318: one space charge without a collection hit; [w1], [w2] are its induction wires *)
Definition count (sat : list nat) (w : option nat) : bool := match w with Some w => existsb (Nat.eqb w) sat | None => false end.
Definition add_orphan (w1 w2 : nat -> option nat) (m : maps) (s : system) (k : nat) : system :=
  if negb (count (m_sat m) (w1 k)) || negb (count (m_sat m) (w2 k)) then mkSys (s_wires s) (s_orphans s ++ [k]) (s_deleted s)
  else mkSys (s_wires s) (s_orphans s) (s_deleted s ++ [k]).
Definition nth_t {A} (f : triplet -> option A) (ts : list triplet) (k : nat) : option A := match nth_error ts k with Some t => f t | None => None end.
(** SpacePointSolver_module.cc:235-320 BuildSystem *)
Definition build_system (ts : list triplet) : system :=
  let m := sort_triplets ts 0 (mkMaps (fun _ => []) (fun _ => []) []) in
  fold_left (add_orphan (nth_t t_u ts) (nth_t t_v ts) m) (m_good m None) (fold_left (add_hit m) (chits ts) (mkSys [] [] [])).
(** line 304, 319: spaceCharges *)
Definition charges (s : system) : list nat := flat_map snd (s_wires s) ++ s_orphans s.
(** lines 305-306: SpaceCharge::fCWire, given by the hit of the wire *)
Definition cwire_of (s : system) (k : nat) : option nat := option_map fst (find (fun w => existsb (Nat.eqb k) (snd w)) (s_wires s)).

(* ------------------------------------------------------------ AddNeighbours *)
Local Open Scope Qc_scope.
Definition pos3 : Type := Qc * Qc * Qc.
Definition crit : Qc := Q2Qc 5.
(** conversion of a double to int: towards zero, undefined out of range *)
Definition trunc (q : Qc) : Z := Z.quot (Qnum (this q)) (Zpos (Qden (this q))).
Definition int_ok (z : Z) : bool := ((-2147483648 <=? z) && (z <=? 2147483647))%Z.
Definition to_int (q : Qc) : outcome Z := let z := trunc q in if int_ok z then Ok z else Undef.
Definition cell : Type := Z * Z * Z.
(** SpacePointSolver_module.cc:143-147 IntCoord(sc) *)
Definition int_coord (p : pos3) : outcome cell :=
  match p with (x, y, z) => do a <- to_int (x / crit); do b <- to_int (y / crit); do c <- to_int (z / crit); Ok (a, b, c) end.
Definition int_plus (a b : Z) : outcome Z := if int_ok (a + b)%Z then Ok (a + b)%Z else Undef.
(** SpacePointSolver_module.cc:154-166 Neighbours *)
Definition cell_neighbours (c : cell) : outcome (list cell) :=
  match c with (x, y, z) =>
    foreach [-1; 0; 1]%Z (fun ret dx => foreach [-1; 0; 1]%Z (fun ret dy => foreach [-1; 0; 1]%Z (fun ret dz =>
      do a <- int_plus x dx; do b <- int_plus y dy; do c <- int_plus z dz; Ok (ret ++ [(a, b, c)])) ret) ret) []
  end.
Definition cell_eqb (a b : cell) : bool := match a, b with (x, y, z), (x', y', z') => ((x =? x') && (y =? y') && (z =? z'))%Z end.
(** SpacePointSolver_module.cc:174-177: scMap *)
Definition cell_map (pos : nat -> pos3) (scs : list nat) : outcome (cell -> list nat) :=
  foreach scs (fun m s => do c <- int_coord (pos s); Ok (fun c' => if cell_eqb c' c then m c' ++ [s] else m c')) (fun _ => []).
Definition dist2 (p q : pos3) : Qc :=
  match p, q with (x, y, z), (x', y', z') => (x - x') * (x - x') + (y - y') * (y - y') + (z - z') * (z - z') end.
(** SpacePointSolver_module.cc:190-209: one candidate *)
Definition try_neighbour (ex : Qc -> Qc) (pos : nat -> pos3) (s1 : nat) (l : list (nat * Qc)) (s2 : nat) : list (nat * Qc) :=
  if Nat.eqb s1 s2 then l
  else let d := dist2 (pos s1) (pos s2) in
       if qc_lt (crit * crit) d then l else if qc_eqb d 0 then l else l ++ [(s2, ex d)].
(** SpacePointSolver_module.cc:138-222 AddNeighbours up to the potentials *)
Definition add_neighbours (ex : Qc -> Qc) (pos : nat -> pos3) (scs : list nat) : outcome (nat -> list (nat * Qc)) :=
  do m <- cell_map pos scs;
  foreach scs (fun nei s1 =>
    do c <- int_coord (pos s1);
    do cs <- cell_neighbours c;
    do l <- foreach cs (fun l icn => Ok (fold_left (try_neighbour ex pos s1) (m icn) l)) (nei s1);
    Ok (fun s => if Nat.eqb s s1 then l else nei s)) (fun _ => []).

(* ------------------------------------------------------------ the module *)
Definition tpos (ts : list triplet) (k : nat) : pos3 := match nth_error ts k with Some t => (t_px t, t_py t, t_pz t) | None => (0, 0, 0) end.
Definition cws_of (q : nat -> Qc) (s : system) : list cwire := map (fun w => mkCW (q (fst w)) (snd w)) (s_wires s).
(** SpacePointSolver_module.cc:235-325: the network and its initial state; [inc] is incNei *)
Definition make_system (ex : Qc -> Qc) (q : nat -> Qc) (inc : bool) (ts : list triplet) : outcome (system * net * mem) :=
  let s := build_system ts in
  do nei <- (if inc then add_neighbours ex (tpos ts) (charges s) else Ok (fun _ => []));
  let N := mkNet (nth_t t_u ts) (nth_t t_v ts) nei q in
  do m <- build N (cws_of q s) (s_orphans s);
  Ok (s, N, m).
(** a space point: position, id, charge, and the hits it is associated with *)
Record spoint := mkSP { sp_pos : pos3; sp_id : nat; sp_q : Qc; sp_hits : list nat }.
(** SpacePointSolver_module.cc:326-338 AddSpacePoint and the loops of 341-387; ids count the skipped ones too; [hits] are the associations *)
Fixpoint fill (ts : list triplet) (m : mem) (hits : nat -> list nat) (scs : list nat) (i : nat) : list spoint :=
  match scs with
  | [] => []
  | k :: scs' =>
      (if qc_eqb (m_pred m k) 0 then [] else [mkSP (tpos ts k) i (m_pred m k) (hits k)]) ++ fill ts m hits scs' (S i)
  end.
(** SpacePointSolver_module.cc:341-355 FillSystemToSpacePoints *)
Definition fill_points (ts : list triplet) (s : system) (m : mem) : list spoint := fill ts m (fun _ => []) (charges s) 0.
(** SpacePointSolver_module.cc:358-387 FillSystemToSpacePointsAndAssns: orphans first *)
Definition assns (ts : list triplet) (s : system) (k : nat) : list nat := opt_list (cwire_of s k) ++ opt_list (nth_t t_u ts k) ++ opt_list (nth_t t_v ts k).
Definition fill_assns (ts : list triplet) (s : system) (m : mem) : list spoint := fill ts m (assns ts s) (s_orphans s ++ flat_map snd (s_wires s)) 0.
(** SpacePointSolver_module.cc:497-540: from the triplets to (pre, noreg, final) collections; [None]: Iterate ran out of fuel *)
Definition produce (ex : Qc -> Qc) (q : nat -> Qc) (alpha : Qc) (it0 it1 : nat) (ts : list triplet) : outcome (option (list spoint * list spoint * list spoint)) :=
  do r <- make_system ex q (negb (qc_eqb alpha 0)) ts;
  let s := fst (fst r) in let N := snd (fst r) in let cws := cws_of q s in
  do om <- minimize N 0 cws (s_orphans s) (length cws) it0 (metric_cwires N 0 cws (snd r)) (snd r);
  match om with
  | None => Ok None
  | Some m1 =>
      do om2 <- minimize N alpha cws (s_orphans s) (length cws) it1 (metric_cwires N alpha cws m1) m1;
      match om2 with
      | None => Ok None
      | Some m2 => Ok (Some (fill_points ts s (snd r), fill_points ts s m1, fill_assns ts s m2))
      end
  end.
