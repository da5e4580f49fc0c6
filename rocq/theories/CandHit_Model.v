(** Model of larreco/HitFinder/HitFinderTools/CandHitStandard_tool.cc.
    The waveform is a list of exact rationals; an iterator is an index into it; reading outside the waveform is [Undef].
    The plane number, which is only passed along, is dropped.  hitCenter is kept as a tick number (a float in the code). *)
From Coq Require Import QArith Qcanon.
From Verif Require Import Base Solver_Model.
Local Open Scope nat_scope.

(** ICandidateHitFinder.h:25-35 HitCandidate *)
Record cand := mkCand { h_start : nat; h_stop : nat; h_maxT : nat; h_minT : nat; h_maxD : Qc; h_minD : Qc; h_center : nat; h_sigma : Qc; h_height : Qc }.

Section Wave.
Variables (w : list Qc) (thr nadc : Qc).

(** std::max_element(startItr, stopItr): CandHitStandard_tool.cc:80; position [best] so far, [n] positions from [i] left to look at *)
Fixpoint max_elem (best i n : nat) : outcome nat :=
  match n with
  | O => Ok best
  | S n' => do vb <- idx w best; do vi <- idx w i; max_elem (if qc_lt vb vi then i else best) (S i) n'
  end.

(** CandHitStandard_tool.cc:89-97: firstItr = s + k *)
Fixpoint back_scan (s k : nat) : outcome nat :=
  match k with
  | O => Ok s
  | S k' =>
      do v <- idx w (s + k);
      if qc_lt v (- thr)%Qc then Ok (s + k)
      else
        do vn <- idx w (s + k + 1);
        do stop <- (if qc_lt v vn then do vp <- idx w (s + k'); Ok (negb (qc_lt (vp - v)%Qc nadc)) else Ok false);
        if stop then Ok (s + k) else back_scan s k'
  end.
(** CandHitStandard_tool.cc:107-115: [d] steps before stopItr - 1 *)
Fixpoint fwd_scan (i d : nat) : outcome nat :=
  match d with
  | O => Ok i
  | S d' =>
      do v <- idx w i;
      if qc_lt v (- thr)%Qc then Ok i
      else
        do vn <- idx w (i + 1);
        do stop <- (if negb (qc_lt (vn - v)%Qc nadc) then do vp <- idx w (i - 1); Ok (qc_lt v vp) else Ok false);
        if stop then Ok i else fwd_scan (i + 1) d'
  end.

Definition qmax (a b : Qc) : Qc := if qc_lt a b then b else a.
(** CandHitStandard_tool.cc:71-141 findHitCandidates on [s,e); [fuel] bounds the recursion depth ([None]: exceeded) *)
Fixpoint find_hits (fuel : nat) (s e roi : nat) : option (outcome (list cand)) :=
  match fuel with
  | O => None
  | S fuel' =>
      if Nat.ltb 4 (e - s) then
        match max_elem s (s + 1) (e - s - 1) with
        | Ok mx =>
            match idx w mx with
            | Ok v =>
                if qc_lt thr v then
                  match (if Nat.ltb 2 (mx - s) then back_scan s (mx - 1 - s) else Ok s) with
                  | Ok first =>
                      match find_hits fuel' s (first + 1) roi with
                      | Some (Ok lft) =>
                          match (if Nat.ltb 2 (e - mx) then fwd_scan (mx + 1) (e - 1 - (mx + 1)) else Ok (e - 1)) with
                          | Ok last =>
                              match idx w first, idx w last with
                              | Ok vf, Ok vl =>
                                  let c := mkCand (roi + (first - s)) (roi + (last - s)) (roi + (first - s)) (roi + (last - s)) vf vl (roi + (mx - s))
                                                  (qmax (qc_nat 2) (qc_nat (last - first) / qc_nat 6)%Qc) v in
                                  match find_hits fuel' (last + 1) e (roi + (last + 1 - s)) with
                                  | Some (Ok rgt) => Some (Ok (lft ++ c :: rgt))
                                  | r => r
                                  end
                              | Undef, _ | _, Undef => Some Undef
                              | Throw x, _ | _, Throw x => Some (Throw x)
                              end
                          | Undef => Some Undef
                          | Throw x => Some (Throw x)
                          end
                      | r => r
                      end
                  | Undef => Some Undef
                  | Throw x => Some (Throw x)
                  end
                else Some (Ok [])
            | Undef => Some Undef
            | Throw x => Some (Throw x)
            end
        | Undef => Some Undef
        | Throw x => Some (Throw x)
        end
      else Some (Ok [])
  end.
(** CandHitStandard_tool.cc:53-69: the public entry *)
Definition find_hit_candidates (fuel roi : nat) : option (outcome (list cand)) := find_hits fuel 0 (length w) roi.
End Wave.

(** CandHitStandard_tool.cc:156-171: [group] is groupedHitVec *)
Fixpoint merge_loop (cs : list cand) (lastTick : Z) (group : list cand) : list (list cand) :=
  match cs with
  | [] => match group with [] => [] | _ => [group] end
  | c :: cs' =>
      if (1 <? Z.of_nat (h_start c) - lastTick)%Z
      then group :: merge_loop cs' (Z.of_nat (h_stop c)) [c]
      else merge_loop cs' (Z.of_nat (h_stop c)) (group ++ [c])
  end.
(** CandHitStandard_tool.cc:143-172 MergeHitCandidates (the vector appended to mergedHitsVec) *)
Definition merge_hits (cs : list cand) : list (list cand) :=
  match cs with [] => [] | c :: _ => merge_loop cs (Z.of_nat (h_stop c)) [] end.
