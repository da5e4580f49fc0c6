(** Model of larreco/HitFinder/HitFinderTools/CandHitDerivative_tool.cc.
    Samples are exact rationals (float in the code), iterators are indices; reading outside the vector is [Undef].  The optional
    histograms, the printout for empty results and the wire lookup are left out.  hitCenter is kept as the tick below it (0.5 is added
    in the code, and cut off again where it is used as an index).  Candidates are those of [CandHit_Model]. *)
From Coq Require Import QArith Qcanon.
From Verif Require Import Base Solver_Model CandHit_Model WT_Model.
Local Open Scope nat_scope.

Section Wave.
Variable w : list Qc.
(** CandHitDerivative_tool.cc:384-401 findNearestMin; [d] more positions before stopItr - 1 *)
Fixpoint nearest_min (i d : nat) : outcome nat :=
  match d with
  | O => Ok i
  | S d' => do v <- idx w (S i); do u <- idx w i; if qc_lt u v then Ok i else nearest_min (S i) d'
  end.
(** CandHitDerivative_tool.cc:410-418: lastItr = startItr + 1 + d *)
Fixpoint back_max (s d : nat) : outcome nat :=
  match d with
  | O => Ok (s + 1)
  | S d' => do v <- idx w (s + 1 + d'); do u <- idx w (s + 1 + d); if qc_lt v u then Ok (s + 1 + d) else back_max s d'
  end.
(** CandHitDerivative_tool.cc:403-421 findNearestMax *)
Definition nearest_max (mi s : nat) : outcome nat := if s <? mi then back_max s (mi - 1 - s) else Ok mi.
(** CandHitDerivative_tool.cc:436-443: lastItr = startItr + 1 + d *)
Fixpoint back_start (s d : nat) : outcome nat :=
  match d with
  | O => Ok (s + 1)
  | S d' => do v <- idx w (s + 1 + d'); do u <- idx w (s + 1 + d); if qc_lt v 0 || negb (qc_lt v u) then Ok (s + 1 + d) else back_start s d'
  end.
(** CandHitDerivative_tool.cc:423-449 findStartTick *)
Definition start_tick (mx s : nat) : outcome nat := if s <? mx then back_start s (mx - 1 - s) else Ok s.
(** CandHitDerivative_tool.cc:460-467: [d] positions from loopItr = i + 1 to stopItr *)
Fixpoint fwd_stop (i d : nat) : outcome nat :=
  match d with
  | O => Ok i
  | S d' => do v <- idx w (S i); do u <- idx w i; if qc_lt 0 v || negb (qc_lt u v) then Ok i else fwd_stop (S i) d'
  end.
(** CandHitDerivative_tool.cc:451-471 findStopTick *)
Definition stop_tick (mi e : nat) : outcome nat := if 1 <? e - mi then fwd_stop mi (e - (mi + 1)) else Ok mi.
(** the sample before an iterator *)
Definition before (i : nat) : outcome Qc := match i with O => Undef | S j => idx w j end.
Definition smaller_abs (a b : Qc) : bool := qc_lt (fabs a) (fabs b).

Variables (fT : Z) (fP : Qc).
(** CandHitDerivative_tool.cc:231-342 findHitCandidates on [s, e): the candidates appended; [None]: recursion deeper than [fuel] *)
Fixpoint find_deriv (fuel : nat) (s e roi : nat) (dT : Z) (dP : Qc) : outcome (option (list cand)) :=
  match fuel with
  | O => Ok None
  | S fuel' =>
      do mn0 <- best_elem smaller w s e;
      do mx0 <- best_elem larger_eq w s e;
      do vmx <- idx w mx0; do vmn <- idx w mn0;
      do mm <- (if qc_lt (fabs vmn) (fabs vmx) then do mi <- nearest_min mx0 (e - 1 - mx0); Ok (mx0, mi) else do mx <- nearest_max mn0 s; Ok (mx, mn0));
      let mx := fst mm in let mi := snd mm in
      do a <- idx w mx; do b <- idx w mi;
      if (dT <=? Z.of_nat mi - Z.of_nat mx)%Z && qc_lt dP (a - b)%Qc then
        do ne <- start_tick mx s;
        do ns <- stop_tick mi e;
        do lft <- (if (dT <? Z.of_nat (ne - s))%Z then
                     do v <- before ne;
                     let t := if qc_lt 0 v then (2%Z, 0%Qc) else (fT, fP) in
                     do l <- find_deriv fuel' s (ne + 1) roi (fst t) (snd t);
                     Ok (fst t, l)
                   else Ok (dT, Some []));
        do pk0 <- best_elem smaller_abs w mx mi;
        let pk := if 2 * (mi - pk0) <? pk0 - mx then pk0 - 1 else if 2 * (pk0 - mx) <? mi - pk0 then pk0 + 1 else pk0 in
        let sig := (qc_nat (mi - mx) / two)%Qc in
        let c := mkCand (roi + (ne - s)) (roi + (ns - s)) (roi + (mx - s)) (roi + (mi - s)) (if mx =? e then 0%Qc else a) (if mi =? e then 0%Qc else b)
                        (roi + (pk - s)) sig (sig * (a - b) / Q2Qc (1213 # 1000))%Qc in
        do rgt <- (if (fst lft <? Z.of_nat (e - ns))%Z then
                     do v <- idx w (ns + 1);
                     let t := if qc_lt v 0 then (2%Z, 0%Qc) else (fT, fP) in
                     find_deriv fuel' ns e (roi + (ns - s)) (fst t) (snd t)
                   else Ok (Some []));
        match snd lft, rgt with Some l, Some r => Ok (Some (l ++ c :: r)) | _, _ => Ok None end
      else Ok (Some [])
  end.
End Wave.

(** CandHitDerivative_tool.cc:164-168: the height is read from the waveform *)
Definition set_height (c : cand) (h : Qc) : cand := mkCand (h_start c) (h_stop c) (h_maxT c) (h_minT c) (h_maxD c) (h_minD c) (h_center c) (h_sigma c) h.
Fixpoint heights (w : list Qc) (l : list cand) : outcome (list cand) :=
  match l with
  | [] => Ok []
  | c :: l' => do h <- at_ w (h_center c); do r <- heights w l'; Ok (set_height c h :: r)
  end.
(** CandHitDerivative_tool.cc:121-229 findHitCandidates; the derivative and smoothing vectors are new *)
Definition deriv_candidates (w : list Qc) (fT : Z) (fP : Qc) (roi : nat) : outcome (option (list cand)) :=
  do raw <- first_derivative w [];
  do der <- triangle_smooth raw [] 0;
  do r <- find_deriv der fT fP (S (length der)) 0 (length der) roi fT fP;
  match r with
  | Some l => do l' <- heights w l; Ok (Some l')
  | None => Ok None
  end.
(** CandHitDerivative_tool.cc:344-382 MergeHitCandidates: groups finished, group being built, lastStopTick *)
Definition merge_step (minH : Qc) (gap : nat) (st : list (list cand) * list cand * nat) (c : cand) : list (list cand) * list cand * nat :=
  match st with (done, grp, last) =>
    if qc_lt minH (h_height c) then
      if (last + gap <? h_start c) && negb (match grp with [] => true | _ => false end) then (done ++ [grp], [c], h_stop c)
      else (done, grp ++ [c], h_stop c)
    else st
  end.
Definition merge_cands (minH : Qc) (gap : nat) (l : list cand) : list (list cand) :=
  match l with
  | [] => []
  | c0 :: _ => match fold_left (merge_step minH gap) l ([], [], h_stop c0) with (done, grp, _) => match grp with [] => done | _ => done ++ [grp] end end
  end.
