(** Model of larreco/SpacePointSolver/QuadExpr.{h,cxx}, Solver.{h,cxx} and of the system construction in
    SpacePointSolver_module.cc (AddNeighbours' effect on potentials; the neighbour search itself is in SolverNei_Model.v).
    Doubles are exact rationals [Qc]; a division by zero is modelled as IEEE does it (inf / NaN).
    Objects are addresses ([nat]); the network is fixed, the charges are the memory. *)
From Coq Require Import QArith Qcanon.
From Verif Require Import Base.
Local Open Scope Qc_scope.

Definition qc_lt (x y : Qc) : bool := if Qclt_le_dec x y then true else false.
Definition qc_eqb (x y : Qc) : bool := if Qc_eq_dec x y then true else false.
Definition two : Qc := 1 + 1.

(* ------------------------------------------------------------------ QuadExpr *)
(** QuadExpr.h:9-37: a*x^2 + b*x + c *)
Record quad := mkQ { q_a : Qc; q_b : Qc; q_c : Qc }.
(** QuadExpr.h:11 *)
Definition qconst (v : Qc) : quad := mkQ 0 0 v.
(** QuadExpr.cxx:8-13 *)
Definition qX : quad := mkQ 0 1 0.
(** QuadExpr.cxx:15-28 *)
Definition qadd (e f : quad) : quad := mkQ (q_a e + q_a f) (q_b e + q_b f) (q_c e + q_c f).
(** QuadExpr.cxx:30-43 *)
Definition qsub (e f : quad) : quad := mkQ (q_a e - q_a f) (q_b e - q_b f) (q_c e - q_c f).
(** QuadExpr.cxx:45-60, aborting on higher degree *)
Definition qmul (e f : quad) : outcome quad :=
  if (negb (qc_eqb (q_b e) 0) && negb (qc_eqb (q_a f) 0))
     || (negb (qc_eqb (q_a e) 0) && negb (qc_eqb (q_b f) 0))
     || (negb (qc_eqb (q_a e) 0) && negb (qc_eqb (q_a f) 0))
  then Throw AbortExn
  else Ok (mkQ (q_c e * q_a f + q_a e * q_c f + q_b e * q_b f) (q_c e * q_b f + q_b e * q_c f) (q_c e * q_c f)).
(** QuadExpr.cxx:67-70 *)
Definition qeval (e : quad) (x : Qc) : Qc := q_a e * x * x + q_b e * x + q_c e.
(** QuadExpr.h:28-30,36-47: mixed operators with a double *)
Definition qscale (v : Qc) (e : quad) : outcome quad := qmul e (qconst v).
Definition qplus_c (v : Qc) (e : quad) : quad := qadd e (qconst v).
Definition qminus_c (v : Qc) (e : quad) : quad := qsub (qconst v) e.
(** Solver.cxx:9-13 sqr at QuadExpr *)
Definition qsqr (e : quad) : outcome quad := qmul e e.

(* ------------------------------------------------------------------ the network *)
(** Solver.h:16-62: fixed part of InductionWireHit (fCharge), SpaceCharge (fWire1, fWire2, fNeighbours) *)
Record net := mkNet {
  n_w1 : nat -> option nat;
  n_w2 : nat -> option nat;
  n_nei : nat -> list (nat * Qc);
  n_q : nat -> Qc }.
(** Solver.h: SpaceCharge::fPred, SpaceCharge::fNeiPotential, InductionWireHit::fPred *)
Record mem := mkMem { m_pred : nat -> Qc; m_pot : nat -> Qc; m_wpred : nat -> Qc }.
(** Solver.h:64-75 CollectionWireHit: fCharge, fCrossings *)
Record cwire := mkCW { cw_q : Qc; cw_cross : list nat }.

(** f[k] += v *)
Definition bump (f : nat -> Qc) (k : nat) (v : Qc) : nat -> Qc := fun s => if Nat.eqb s k then f s + v else f s.
Definition bump_opt (f : nat -> Qc) (k : option nat) (v : Qc) : nat -> Qc :=
  match k with Some k => bump f k v | None => f end.

(** Solver.cxx:32-41 SpaceCharge::AddCharge *)
Definition add_charge (N : net) (s : nat) (dq : Qc) (m : mem) : mem :=
  mkMem (bump (m_pred m) s dq)
        (fold_left (fun pot nc => bump pot (fst nc) (dq * snd nc)) (n_nei N s) (m_pot m))
        (bump_opt (bump_opt (m_wpred m) (n_w1 N s) dq) (n_w2 N s) dq).

(** Solver.cxx:44-57 CollectionWireHit::CollectionWireHit *)
Definition qc_nat (n : nat) : Qc := Q2Qc (inject_Z (Z.of_nat n)).
Definition new_cwire (N : net) (w : cwire) (m : mem) : outcome mem :=
  if qc_lt (cw_q w) 0 then Throw AbortExn
  else Ok (fold_left (fun m s => add_charge N s (cw_q w / qc_nat (length (cw_cross w))) m) (cw_cross w) m).

(** Solver.cxx:82-104 Metric(scs, alpha); the std::set of wires is summed in some order, here first occurrence last *)
Definition opt_list {A} (o : option A) : list A := match o with Some a => [a] | None => [] end.
Definition iwires_of (N : net) (scs : list nat) : list nat :=
  nodup Nat.eq_dec (flat_map (fun s => opt_list (n_w1 N s) ++ opt_list (n_w2 N s)) scs).
Definition sqr (x : Qc) : Qc := x * x.
Definition metric_scs (N : net) (alpha : Qc) (scs : list nat) (m : mem) : Qc :=
  fold_left (fun ret w => ret + sqr (n_q N w - m_wpred m w)) (iwires_of N scs)
    (fold_left (fun ret s => if qc_eqb alpha 0 then ret
                             else ret - alpha * sqr (m_pred m s) - alpha * m_pred m s * m_pot m s) scs 0).
(** Solver.cxx:107-113 Metric(cwires, alpha) *)
Definition metric_cwires (N : net) (alpha : Qc) (cws : list cwire) (m : mem) : Qc :=
  metric_scs N alpha (flat_map cw_cross cws) m.

(** Solver.cxx:76-79 Metric(double, QuadExpr) *)
Definition metric_q (q : Qc) (p : quad) : outcome quad := qsqr (qminus_c q p).

(** Solver.cxx:139-151: the first neighbour entry of [i] that is [j] *)
Definition find_nei (j : nat) (l : list (nat * Qc)) : option Qc :=
  match List.find (fun nc => Nat.eqb (fst nc) j) l with Some nc => Some (snd nc) | None => None end.

Definition opt_eqb (a b : option nat) : bool :=
  match a, b with Some x, Some y => Nat.eqb x y | None, None => true | _, _ => false end.

(** Solver.cxx:154-183: contribution of one of the two induction views *)
Definition metric_view (N : net) (m : mem) (wi wj : option nat) (ret : quad) : outcome quad :=
  let qi := match wi with Some w => n_q N w | None => 0 end in
  let pi := match wi with Some w => m_wpred m w | None => 0 end in
  let qj := match wj with Some w => n_q N w | None => 0 end in
  let pj := match wj with Some w => m_wpred m w | None => 0 end in
  if opt_eqb wi wj then
    match wi with Some _ => Ok (qadd ret (qconst (sqr (qi - pi)))) | None => Ok ret end
  else
    do r1 <- match wi with
             | Some _ => do e <- metric_q qi (qplus_c pi qX); Ok (qadd ret e)
             | None => Ok ret end;
    match wj with
    | Some _ => do e <- metric_q qj (qminus_c pj qX); Ok (qadd r1 e)
    | None => Ok r1 end.

(** Solver.cxx:116-186 Metric(sci, scj, alpha) *)
Definition metric_pair (N : net) (alpha : Qc) (i j : nat) (m : mem) : outcome quad :=
  let pi := m_pred m i in
  let pj := m_pred m j in
  let ei := qplus_c pi qX in          (* scip + x *)
  let ej := qminus_c pj qX in         (* scjp - x *)
  do ret <-
    (if qc_eqb alpha 0 then Ok (qconst 0)
     else
       do s1 <- qsqr ei; do t1 <- qscale alpha s1;
       do s2 <- qsqr ej; do t2 <- qscale alpha s2;
       do u1 <- qscale (two * alpha) ei; do t3 <- qmul u1 (qconst (m_pot m i));
       do u2 <- qscale (two * alpha) ej; do t4 <- qmul u2 (qconst (m_pot m j));
       let ret := qsub (qsub (qsub (qsub (qconst 0) t1) t2) t3) t4 in
       match find_nei j (n_nei N i) with
       | None => Ok ret
       | Some c =>
           do a1 <- qscale (two * alpha) ei; do a2 <- qmul a1 (qconst pj); do a3 <- qmul a2 (qconst c);
           do b1 <- qscale (two * alpha) ej; do b2 <- qmul b1 (qconst pi); do b3 <- qmul b2 (qconst c);
           do c1 <- qscale (two * alpha) ei; do c2 <- qmul c1 ej; do c3 <- qmul c2 (qconst c);
           Ok (qsub (qadd (qadd ret a3) b3) c3)
       end);
  do ret1 <- metric_view N m (n_w1 N i) (n_w1 N j) ret;
  metric_view N m (n_w2 N i) (n_w2 N j) ret1.

(** Solver.cxx:189-212 Metric(sc, alpha); both wires are dereferenced *)
Definition metric_one (N : net) (alpha : Qc) (s : nat) (m : mem) : outcome quad :=
  let p := m_pred m s in
  do ret <-
    (if qc_eqb alpha 0 then Ok (qconst 0)
     else
       do s1 <- qsqr (qplus_c p qX); do t1 <- qscale alpha s1;
       do u1 <- qscale (two * alpha) (qplus_c p qX); do t2 <- qmul u1 (qconst (m_pot m s));
       Ok (qsub (qsub (qconst 0) t1) t2));
  match n_w1 N s, n_w2 N s with
  | Some w1, Some w2 =>
      do e1 <- metric_q (n_q N w1) (qplus_c (m_wpred m w1) qX);
      do e2 <- metric_q (n_q N w2) (qplus_c (m_wpred m w2) qX);
      Ok (qadd (qadd ret e1) e2)
  | _, _ => Undef                                   (* null pointer dereference *)
  end.

(* ------------------------------------------------------------------ the updates *)
(** IEEE double: a finite number, an infinity or NaN *)
Inductive ext := Fin (x : Qc) | PInf | MInf | NaN.
(** -b / (2a) in IEEE arithmetic (the coefficient a is never -0.0: it starts as +0 and is changed by += and -=) *)
Definition vertex (e : quad) : ext :=
  if qc_eqb (q_a e) 0 then
    if qc_lt (q_b e) 0 then PInf else if qc_lt 0 (q_b e) then MInf else NaN
  else Fin (- q_b e / (two * q_a e)).
Definition ext_lt (x y : ext) : bool :=
  match x, y with
  | Fin a, Fin b => qc_lt a b
  | MInf, Fin _ | Fin _, PInf | MInf, PInf => true
  | _, _ => false
  end.
(** std::min(a,b) = (b < a) ? b : a;  std::max(a,b) = (a < b) ? b : a *)
Definition ext_min (a b : ext) : ext := if ext_lt b a then b else a.
Definition ext_max (a b : ext) : ext := if ext_lt a b then b else a.
Definition qc_min (a b : Qc) : Qc := if qc_lt b a then b else a.

(** Solver.cxx:215-257 SolvePair.  (The non-finite last case is shown unreachable.) *)
Definition solve_pair (N : net) (alpha : Qc) (i j : nat) (m : mem) : outcome Qc :=
  do chisq <- metric_pair N alpha i j m;
  let chisq0 := qeval chisq 0 in
  let xmin := - m_pred m i in
  let xmax := m_pred m j in
  match ext_max (Fin xmin) (ext_min (Fin xmax) (vertex chisq)) with
  | Fin x =>
      let chisq_new := qeval chisq x in
      let chisq_p := qeval chisq xmax in
      let chisq_n := qeval chisq xmin in
      if qc_lt (chisq0 + 1) (qc_min (qc_min chisq_p chisq_n) chisq_new) then Throw AbortExn
      else if qc_lt (qc_min chisq_n chisq_p) chisq_new then
        Ok (if qc_lt chisq_n chisq_p then xmin else xmax)
      else Ok x
  | _ => Undef
  end.

(** Solver.cxx:270-277: body of the pair loop *)
Definition pair_step (N : net) (alpha : Qc) (m : mem) (i j : nat) : outcome mem :=
  do x <- solve_pair N alpha i j m;
  if qc_eqb x 0 then Ok m else Ok (add_charge N j (- x) (add_charge N i x m)).

(** Solver.cxx:260-280 Iterate(cwire, alpha) *)
Definition iterate_cwire (N : net) (alpha : Qc) (w : cwire) (m : mem) : outcome mem :=
  let n := length (cw_cross w) in
  for_ (range 0 (n - 1)) (fun m i =>
    do sci <- idx (cw_cross w) i;
    for_ (range (i + 1) n) (fun m j =>
      do scj <- idx (cw_cross w) j;
      pair_step N alpha m sci scj) m) m.

(** Solver.cxx:283-307 Iterate(sc, alpha).  An infinite x (coefficient of x^2 exactly zero) leaves exact
    arithmetic: the charge becomes +inf; modelled as [Undef]. *)
Definition iterate_orphan (N : net) (alpha : Qc) (s : nat) (m : mem) : outcome mem :=
  do chisq <- metric_one N alpha s m;
  let xmin := - m_pred m s in
  match ext_max (Fin xmin) (vertex chisq) with
  | Fin x =>
      let chisq_new := qeval chisq x in
      let chisq_n := qeval chisq xmin in
      Ok (add_charge N s (if qc_lt chisq_n chisq_new then xmin else x) m)
  | _ => Undef
  end.

(** Solver.cxx:310-328 Iterate(cwires, orphanSCs, alpha): the do-while over collection wires.
    unsigned int is 32 bits; the modulus is taken with the (64-bit) container size.  The loop is given [fuel] rounds
    and [None] when they do not suffice; [visits] records the indices. *)
Definition step_prime : N := 1299827.
Definition next_idx (n i : N) : N := (((i + step_prime) mod 4294967296) mod n) mod 4294967296.
Fixpoint visits (fuel : nat) (n i : N) : option (list N) :=
  match fuel with
  | O => None
  | S fuel' =>
      let i' := next_idx n i in
      if N.eqb i' 0 then Some [i]
      else match visits fuel' n i' with Some l => Some (i :: l) | None => None end
  end.
Definition iterate_all (N : net) (alpha : Qc) (cws : list cwire) (orphans : list nat) (fuel : nat) (m : mem)
    : outcome (option mem) :=
  do om <- match cws with
           | [] => Ok (Some m)
           | _ :: _ =>
               match visits fuel (N.of_nat (length cws)) 0 with
               | None => Ok None
               | Some l => do m' <- foreach l (fun m i => do w <- idx cws (N.to_nat i); iterate_cwire N alpha w m) m;
                           Ok (Some m')
               end
           end;
  match om with
  | None => Ok None
  | Some m' => do m'' <- foreach orphans (fun m s => iterate_orphan N alpha s m) m'; Ok (Some m'')
  end.

(** SpacePointSolver_module.cc:225-229: potentials initialised once the neighbours are known *)
Definition init_potentials (N : net) (scs : list nat) (m : mem) : mem :=
  mkMem (m_pred m)
        (fold_left (fun pot s => fold_left (fun pot nc => bump pot s (snd nc * m_pred m (fst nc))) (n_nei N s) pot) scs (m_pot m))
        (m_wpred m).
Definition without_neighbours (N : net) : net := mkNet (n_w1 N) (n_w2 N) (fun _ => []) (n_q N).
(** SpacePointSolver_module.cc:235-322 BuildSystem: wires constructed without neighbours, then AddNeighbours *)
Definition mem0 : mem := mkMem (fun _ => 0) (fun _ => 0) (fun _ => 0).
Definition build (N : net) (cws : list cwire) (orphans : list nat) : outcome mem :=
  do m <- foreach cws (fun m w => new_cwire (without_neighbours N) w m) mem0;
  Ok (init_potentials N (flat_map cw_cross cws ++ orphans) m).

(** SpacePointSolver_module.cc:390-408 Minimize (printing left out); metric comparison 1e-3 * |prev| *)
Definition qc_abs (x : Qc) : Qc := if qc_lt x 0 then - x else x.
Fixpoint minimize (N : net) (alpha : Qc) (cws : list cwire) (orphans : list nat) (fuel iters : nat) (prev : Qc) (m : mem)
    : outcome (option mem) :=
  match iters with
  | O => Ok (Some m)
  | S k =>
      do om <- iterate_all N alpha cws orphans fuel m;
      match om with
      | None => Ok None
      | Some m' =>
          let metric := metric_cwires N alpha cws m' in
          if qc_lt prev metric then Ok (Some m')
          else if qc_lt (qc_abs (metric - prev)) (Q2Qc (1 # 1000) * qc_abs prev) then Ok (Some m')
          else minimize N alpha cws orphans fuel k metric m'
      end
  end.
