(** Model of larreco/HitFinder/HitFinderTools/CandHitMorphological_tool.cc.
    Samples are exact rationals (float in the code), iterators are indices; reading outside a vector is [Undef].  Histograms are left out.
    hitCenter is kept as the tick below it (0.5 is added in the code); tick differences fit an int.  findNearestMin, findNearestMax,
    findStartTick and findStopTick (CandHitMorphological_tool.cc:736-823) and MergeHitCandidates (695-734) are, word for word, those of
    CandHitDerivative_tool.cc and are taken from [CHD_Model]. *)
From Coq Require Import QArith Qround Qcanon.
From Verif Require Import Base Solver_Model CandHit_Model WT_Model CHD_Model.
Local Open Scope nat_scope.

Section Wave.
Variables (der ero dil : list Qc).
Variables (mt : Z) (fP : Qc).
(** (candStartItr, maxItr, minItr, candStopItr) *)
Definition params : Type := nat * nat * nat * nat.
(** CandHitMorphological_tool.cc:636-693 getListOfHitCandidates on [s, e): (found, params appended) *)
Fixpoint get_list (fuel : nat) (s e : nat) (dT : Z) (dP : Qc) : outcome (option (bool * list params)) :=
  match fuel with
  | O => Ok None
  | S fuel' =>
      if (Z.of_nat (e - s) <? mt)%Z then Ok (Some (false, []))
      else
        do mn0 <- best_elem smaller der s e;
        do mx0 <- best_elem larger_eq der s e;
        do vmx <- idx der mx0; do vmn <- idx der mn0;
        do mm <- (if qc_lt (fabs vmn) (fabs vmx) then do mi <- nearest_min der mx0 (e - 1 - mx0); Ok (mx0, mi) else do mx <- nearest_max der mn0 s; Ok (mx, mn0));
        let mx := fst mm in let mi := snd mm in
        do a <- idx der mx; do b <- idx der mi;
        if mi - mx <? 2 then Ok (Some (false, []))
        else
          let found := (dT <=? Z.of_nat (mi - mx))%Z && qc_lt dP (a - b)%Qc in
          do cs <- start_tick der mx s;
          do ce <- stop_tick der mi e;
          do l <- get_list fuel' s cs dT dP;
          do r <- get_list fuel' ce e dT dP;
          match l, r with Some l, Some r => Ok (Some (found || fst l || fst r, snd l ++ (cs, mx, mi, ce) :: snd r)) | _, _ => Ok None end
  end.
Definition set_stop (c : cand) (t : nat) : cand := mkCand (h_start c) t (h_maxT c) (h_minT c) (h_maxD c) (h_minD c) (h_center c) (h_sigma c) (h_height c).
(** CandHitMorphological_tool.cc:519-528: ticks between neighbouring hits are divided between them *)
Definition adjust (acc : list cand) (st : nat) : list cand * nat :=
  match rev acc with
  | [] => (acc, st)
  | b :: r => if h_stop b <? st then let k := (st - h_stop b) / 2 in (rev r ++ [set_stop b (h_stop b + k)], st - k) else (acc, st)
  end.
(** CandHitMorphological_tool.cc:496-543: one candidate *)
Definition convert (s e roi : nat) (acc : list cand) (q : params) : outcome (list cand) :=
  match q with (cs, mx, mi, ce) =>
    do pk0 <- best_elem smaller_abs der mx mi;
    let pk := if 2 * (mi - pk0) <? pk0 - mx then pk0 - 1 else if 2 * (pk0 - mx) <? mi - pk0 then pk0 + 1 else pk0 in
    let ad := adjust acc (roi + (cs - s)) in
    do a <- (if mx =? e then Ok 0%Qc else idx der mx);
    do b <- (if mi =? e then Ok 0%Qc else idx der mi);
    let sig := (qc_nat (mi - mx) / two)%Qc in
    Ok (fst ad ++ [mkCand (snd ad) (roi + (ce - s)) (roi + (mx - s)) (roi + (mi - s)) a b (roi + (pk - s)) sig (sig * (a - b) / Q2Qc (1213 # 1000))%Qc])
  end.
(** CandHitMorphological_tool.cc:484-634 findHitCandidates on a region [s, e) of the derivative *)
Definition region_hits (fuel s e roi : nat) (acc : list cand) : outcome (option (list cand)) :=
  do r <- get_list fuel s e mt fP;
  match r with
  | Some (true, ps) => do acc' <- foreach ps (convert s e roi) acc; Ok (Some acc')
  | Some (false, _) => Ok (Some acc)
  | None => Ok None
  end.

Variables (thr fE : Qc).
(** CandHitMorphological_tool.cc:414-425: firstDerItr = s + d, [pv] = firstDerivValue *)
Fixpoint region_start (cut : Qc) (s : nat) (pv : Qc) (d : nat) : outcome nat :=
  match d with
  | O => Ok s
  | S d' =>
      do er <- idx ero (s + d);
      do v <- idx der (s + d);
      if qc_lt er cut && (negb (qc_lt 0 (v * pv)%Qc) && qc_lt 0 pv) then Ok (s + d)
      else region_start cut s v d'
  end.
(** CandHitMorphological_tool.cc:438-448: lastDerItr = i, [d] positions before derivStopItr, [pv] = lastDerivValue *)
Fixpoint region_stop (cut : Qc) (i : nat) (pv : Qc) (d : nat) : outcome nat :=
  match d with
  | O => Ok i
  | S d' =>
      do er <- idx ero i;
      do v <- idx der i;
      if negb (qc_lt cut er) && (negb (qc_lt 0 (v * pv)%Qc) && qc_lt pv 0) then Ok i
      else region_stop cut (S i) v d'
  end.
(** CandHitMorphological_tool.cc:376-482 findHitCandidates on [s, e) of the three vectors, which have the same length *)
Fixpoint find_morph (fuel : nat) (s e roi : nat) (acc : list cand) : outcome (option (list cand)) :=
  match fuel with
  | O => Ok None
  | S fuel' =>
      if (Z.of_nat (e - s) <? mt)%Z then Ok (Some acc)
      else
        do m <- best_elem larger dil s e;
        do mv <- idx dil m;
        if qc_lt mv thr then Ok (Some acc)
        else
          let cut := (fE * mv)%Qc in
          do f <- region_start cut s (Q2Qc (-1)) (m - s);
          do l <- region_stop cut m 1%Qc (e - m);
          do r1 <- (if (mt <? Z.of_nat (f - s))%Z then find_morph fuel' s f roi acc else Ok (Some acc));
          match r1 with
          | None => Ok None
          | Some acc1 =>
              do r2 <- region_hits (S (l - f)) f l (roi + (f - s)) acc1;
              match r2 with
              | None => Ok None
              | Some acc2 => if (mt <? Z.of_nat (e - l))%Z then find_morph fuel' l e (roi + (l - s)) acc2 else Ok (Some acc2)
              end
          end
  end.
End Wave.

(** conversion of a non-negative float to size_t *)
Definition to_tick (q : Qc) : nat := Z.to_nat (Qfloor (this q)).
Definition set_ends (c : cand) (a b : nat) : cand := mkCand a b (h_maxT c) (h_minT c) (h_maxD c) (h_minD c) (h_center c) (h_sigma c) (h_height c).
(** CandHitMorphological_tool.cc:236-244: limit to a number of sigmas from the centre *)
Definition limit (ns : Qc) (c : cand) : cand :=
  if qc_lt 0 ns then
    let ctr := (qc_nat (h_center c) + Q2Qc (1 # 2))%Qc in
    let a := (ctr - ns * h_sigma c)%Qc in
    set_ends c (if qc_lt a 0 then h_start c else Nat.max (h_start c) (to_tick a)) (Nat.min (h_stop c) (to_tick (ctr + ns * h_sigma c)%Qc))
  else c.
(** CandHitMorphological_tool.cc:191-374 findHitCandidates; hitCandidateVec [acc] is not cleared *)
Definition morph_candidates (w : list Qc) (se : Z) (mt : Z) (fP thr fE ns : Qc) (roi : nat) (acc : list cand) : outcome (option (list cand)) :=
  do raw <- first_derivative w [];
  do der <- triangle_smooth raw [] 0;
  do ed <- erosion_dilation w se;
  match ed with (ero, dil, _, _) =>
    do r <- find_morph der ero dil mt fP thr fE (S (length der)) 0 (length der) roi acc;
    match r with
    | Some l => do l' <- heights w (map (limit ns) l); Ok (Some l')
    | None => Ok None
    end
  end.
