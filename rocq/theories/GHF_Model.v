(** Model of larreco/HitFinder/GausHitFinder_module.cc (produce, 216-663) and larreco/HitFinder/HitFilterAlg.cxx (16-36).
    Samples, peak parameters and chi2 are exact rationals (float/double in the code); an amplitude may also be NaN ([None]), and so may be the chi2 of
    the fit ([None] stands for infinite or NaN).  Iterators into the ROI are integers relative to range.begin(); adding a float to an iterator truncates
    it towards zero.  The candidate finder and the peak fitter are parameters of the model (CandHit*_tool, PeakFitter*_tool).  Errors of the parameters,
    the integral of the hit and the histograms (single threaded only) are left out. *)
From Coq Require Import QArith Qcanon String.
From Verif Require Import Base Solver_Model SPS_Model.
Local Open Scope nat_scope.

Definition zq (z : Z) : Qc := Q2Qc (inject_Z z).
Definition q2 : Qc := Q2Qc (2 # 1).
(** IPeakFitter::PeakFitParams_t *)
Record peak := mkPeak { p_mean : Qc; p_sigma : Qc; p_amp : option Qc }.
(** recob::Hit, the fields filled at GausHitFinder_module.cc:539-557 *)
Record hit := mkHit { h_start : Z; h_end : Z; h_rms : Qc; h_time : Qc; h_amp : Qc; h_roisum : Qc; h_sum : Qc; h_mult : Z; h_index : nat; h_gof : Qc; h_dof : Z; h_plane : nat }.

(** std::accumulate over [range.begin() + a, range.begin() + b) *)
Definition accumulate (sig : list Qc) (a b : Z) : outcome Qc :=
  if ((0 <=? a) && (a <=? b) && (b <=? Z.of_nat (List.length sig)))%Z
  then Ok (fold_left Qcplus (firstn (Z.to_nat (b - a)) (skipn (Z.to_nat a) sig)) 0%Qc) else Undef.

(* ------------------------------------------------------------------ long pulses *)
(** GausHitFinder_module.cc:387-395: number and width of the hits; integer division by zero is undefined *)
Definition long_params (startT endT w mx : Z) : outcome (Z * Z) :=
  if (w =? 0)%Z then Undef else
  let n := Z.quot (endT - startT) w in
  do nw <- (if (mx <? n)%Z then if (mx =? 0)%Z then Undef else Ok (mx, Z.quot (endT - startT) mx) else Ok (n, w));
  let n := fst nw in let w := snd nw in
  Ok ((if n * w <? endT - startT then n + 1 else n)%Z, w).
(** GausHitFinder_module.cc:405-428: the tick intervals of the k hits still to make *)
Fixpoint long_ticks (k : nat) (first last w endT : Z) : list (Z * Z) :=
  match k with O => [] | S k' => (first, last) :: long_ticks k' last (Z.min (last + w) endT) w endT end.
(** GausHitFinder_module.cc:407-423 *)
Definition long_peak (sig : list Qc) (fl : Z * Z) : outcome peak :=
  do s <- accumulate sig (fst fl) (snd fl);
  let sigma := (zq (snd fl - fst fl) / Q2Qc (3 # 1))%Qc in
  Ok (mkPeak (zq (fst fl + snd fl) / q2)%Qc sigma (Some (Q2Qc (3989 # 10000) * s / sigma)%Qc)).
Definition long_peaks (sig : list Qc) (startT endT w mx : Z) : outcome (list peak) :=
  do nw <- long_params startT endT w mx;
  foreach (long_ticks (Z.to_nat (fst nw)) startT (Z.min (startT + snd nw) endT) (snd nw) endT) (fun acc fl => do p <- long_peak sig fl; Ok (acc ++ [p])) [].

(* ------------------------------------------------------------------ hits of the peaks *)
(** loop state: numHits, the hits made, newleft, newright (the prev/next values are read again whenever they are used) *)
Record hst := mkHst { s_num : nat; s_out : list hit; s_left : Qc; s_right : Qc }.
Section Pulse.
Variables (sig : list Qc) (plane : nat) (roi startT endT : Z).
(** [ng] is nGausForFit *)
Variables (peaks : list peak) (ng : Z) (gof : Qc) (dof : Z).
(** GausHitFinder_module.cc:447-568: one peak *)
Definition one_peak (s : hst) (p : peak) : outcome hst :=
  let n := s_num s in
  let left := if n =? 0 then zq (-9999) else s_left s in
  let right := if n =? 0 then zq 9999 else s_right s in
  let has_next := (Z.of_nat n <? ng - 1)%Z in
  do next <- (if has_next then do x <- at_ peaks (n + 1); Ok (Some x) else Ok None);
  do prev <- (if 0 <? n then do x <- at_ peaks (n - 1); Ok (Some x) else Ok None);
  match p_amp p with
  | None => Ok (mkHst n (s_out s) left right)
  | Some amp =>
      let m := p_mean p in let w := p_sigma p in
      do l <- match prev with
              | Some pr =>
                  if (1 <? ng)%Z && qc_lt (m - q2 * w) (p_mean pr + q2 * p_sigma pr)
                  then if qc_eqb (p_sigma pr + w) 0 then Undef   (* NaN converted to an integer *)
                       else let d := ((m - p_mean pr) * (p_sigma pr / (p_sigma pr + w)))%Qc in Ok ((trunc (p_mean pr) + trunc d)%Z, (p_mean pr + d)%Qc)
                  else Ok ((trunc m - trunc (q2 * w))%Z, left)
              | None => Ok ((trunc m - trunc (q2 * w))%Z, left)
              end;
      do r <- match next with
              | Some nx =>
                  if (1 <? ng)%Z && qc_lt (p_mean nx - q2 * p_sigma nx) (m + q2 * w)
                  then if qc_eqb (p_sigma nx + w) 0 then Undef
                       else let d := ((p_mean nx - m) * (w / (p_sigma nx + w)))%Qc in Ok ((trunc m + trunc d)%Z, (m + d)%Qc)
                  else Ok ((trunc m + trunc (q2 * w))%Z, right)
              | None => Ok ((trunc m + trunc (q2 * w))%Z, right)
              end;
      if qc_lt (snd r - snd l) 0 then Ok (mkHst n (s_out s) (snd l) (snd r))
      else
        let a := if (fst l <? startT)%Z then startT else fst l in
        let b := if (endT <? fst r)%Z then endT else fst r in
        if (b <? a)%Z then Ok (mkHst n (s_out s) (snd l) (snd r))
        else
          do rs <- accumulate sig startT endT;
          do hs <- accumulate sig a b;
          Ok (mkHst (n + 1) (s_out s ++ [mkHit (startT + roi) (endT + roi) w (m + zq roi) amp rs hs ng n gof dof plane]) (snd l) (snd r))
  end.
Definition make_hits : outcome (list hit) := do s <- foreach peaks one_peak (mkHst 0 [] 0%Qc 0%Qc); Ok (s_out s).
End Pulse.

(* ------------------------------------------------------------------ filtering *)
(** HitFilterAlg.cxx:16-36 *)
Definition is_good_hit (minPH minSig : list Qc) (h : hit) : bool :=
  match nth_error minSig (h_plane h), nth_error minPH (h_plane h) with
  | Some s, Some a => qc_lt a (h_amp h) && qc_lt s (h_rms h)
  | _, _ => true
  end.
Definition higher (a b : hit) : bool := qc_lt (h_amp b) (h_amp a).
Definition earlier (a b : hit) : bool := qc_lt (h_time a) (h_time b).
(** std::find_if ... resize: the hits before the first small one *)
Fixpoint before_small (big thr : Qc) (l : list hit) : list hit :=
  match l with [] => [] | h :: r => if qc_lt (h_amp h) (Q2Qc (8 # 1)) && qc_lt (h_amp h / big) thr then [] else h :: before_small big thr r end.
(** the configuration of the module *)
Record config := mkConfig { c_filter : bool; c_instance : string; c_longmax : list Z; c_longwidth : list Z; c_maxmulti : nat; c_chi2 : Qc;
  c_height : list Qc; c_width : list Qc; c_ratio : list Qc; c_minPH : list Qc; c_minSig : list Qc }.
Section Cfg.
Variable c : config.
(** the two calls of std::sort *)
Variables (sort_amp sort_time : list hit -> list hit).
(** GausHitFinder_module.cc:571-627; called with a non empty vector only *)
Definition filter_hits (plane : nat) (hits : list hit) : outcome (list hit) :=
  match sort_amp hits with
  | [] => Ok []
  | h0 :: _ =>
      do hc <- at_ (c_height c) plane;
      do fv <- (if qc_lt (h_amp h0) hc then Ok [] else do wc <- at_ (c_width c) plane; Ok (if qc_lt (h_rms h0) wc then [] else sort_amp hits));
      do fv2 <- match fv with
                | f0 :: _ :: _ => do thr <- at_ (c_ratio c) plane; Ok (sort_time (before_small (h_amp f0) thr fv))
                | _ => Ok fv
                end;
      Ok (filter (is_good_hit (c_minPH c) (c_minSig c)) fv2)
  end.

(* ------------------------------------------------------------------ one region of interest *)
(** a candidate as used here (startTick, stopTick) *)
Definition cand : Type := Z * Z.
(** fPeakFitterTool->findPeakParameters: (peaks, chi2 per degree of freedom, degrees of freedom) *)
Variable fit : list Qc -> list cand -> list peak * option Qc * Z.
(** GausHitFinder_module.cc:338-430: peaks, nGausForFit, chi2PerNDF, NDF of a pulse *)
Definition pulse_peaks (sig : list Qc) (plane : nat) (cands : list cand) (startT endT : Z) : outcome (list peak * Z * Qc * Z) :=
  let few := List.length cands <=? c_maxmulti c in
  let f := fit sig cands in
  let chi := if few then match snd (fst f) with Some x => x | None => (q2 * c_chi2 c)%Qc end else 0%Qc in
  let ndf := if few then match snd (fst f) with Some _ => snd f | None => 2%Z end else 1%Z in
  let peaks := if few then fst (fst f) else [] in
  let n := Z.of_nat (List.length cands) in
  if negb few || qc_lt (c_chi2 c) (zq n * chi)%Qc
  then do w <- at_ (c_longwidth c) plane;
       do mx <- (if (w =? 0)%Z then Undef else at_ (c_longmax c) plane);
       do nw <- long_params startT endT w mx;
       do ps <- long_peaks sig startT endT w mx;
       Ok (ps, fst nw, if qc_lt (c_chi2 c) chi then chi else zq (-1), 1%Z)
  else Ok (peaks, n, chi, ndf).
(** what a task does to the shared vectors: push_back on hitstruct_vec / filthitstruct_vec *)
Inductive event := PushAll (h : hit) | PushFilt (h : hit).
(** GausHitFinder_module.cc:338-628: one pulse *)
Definition do_pulse (sig : list Qc) (plane : nat) (roi : Z) (cands : list cand) : outcome (list event) :=
  match cands with
  | [] => Undef
  | c0 :: _ =>
      let startT := fst c0 in
      let endT := snd (last cands c0) in
      if (endT - startT <? 5)%Z then Ok []
      else
        do pp <- pulse_peaks sig plane cands startT endT;
        match pp with (peaks, ng, gof, dof) =>
          do hits <- make_hits sig plane roi startT endT peaks ng gof dof;
          do kept <- (if c_filter c then match hits with [] => Ok [] | _ => filter_hits plane hits end else Ok []);
          Ok (map PushAll hits ++ map PushFilt kept)
        end
  end.
(** a region of interest: first tick and samples *)
Definition region : Type := Z * list Qc.
(** findHitCandidates + MergeHitCandidates of the tool of the plane (None: fHitFinderToolVec.at(plane) throws) *)
Variable find : nat -> list Qc -> option (list (list cand)).
(** GausHitFinder_module.cc:317-629: the body of the inner parallel_for *)
Definition do_region (plane : nat) (g : region) : outcome (list event) :=
  match find plane (snd g) with
  | None => Throw RangeExn
  | Some ps => foreach ps (fun acc cs => do ev <- do_pulse (snd g) plane (fst g) cs; Ok (acc ++ ev)) []
  end.

(* ------------------------------------------------------------------ the event *)
(** a wire: its plane (first WireID of the channel) and its regions of interest *)
Definition wire : Type := nat * list region.
(** the tasks of the two nested parallel_for (282-632), with the number of their wire *)
Definition tasks (ws : list wire) : list (nat * outcome (list event)) :=
  List.concat (map (fun iw => map (fun g => (fst iw, do_region (fst (snd iw)) g)) (snd (snd iw))) (List.combine (seq 0 (List.length ws)) ws)).

(** the shared vectors while the tasks run: what each task still has to do, hitstruct_vec, filthitstruct_vec *)
Record pstate := mkPs { t_todo : list (nat * list event); t_all : list (hit * nat); t_filt : list (hit * nat) }.
(** one push_back by any of the tasks (284-632): a concurrent_vector keeps the elements in the order in which their places were taken *)
Inductive pstep : pstate -> pstate -> Prop :=
| push_all pre w h r post a f : pstep (mkPs (pre ++ (w, PushAll h :: r) :: post) a f) (mkPs (pre ++ (w, r) :: post) (a ++ [(h, w)]) f)
| push_filt pre w h r post a f : pstep (mkPs (pre ++ (w, PushFilt h :: r) :: post) a f) (mkPs (pre ++ (w, r) :: post) a (f ++ [(h, w)])).
Definition all_done (s : pstate) : Prop := forall t, In t (t_todo s) -> snd t = [].
(** GausHitFinder_module.cc:634-662: what is put into the event: instance name, hits with their wire *)
Definition put (s : pstate) : list (string * list (hit * nat)) :=
  if c_filter c then if String.eqb (c_instance c) "" then [(EmptyString, t_filt s)] else [(EmptyString, t_filt s); (c_instance c, t_all s)]
  else [(c_instance c, t_all s)].
(** GausHitFinder_module.cc:216-663: possible results of produce; an exception in a task ends the parallel_for and is thrown again by it *)
Inductive produces (ws : list wire) : outcome (list (string * list (hit * nat))) -> Prop :=
| prod_ok todo s : map (fun t => (fst t, Ok (snd t))) todo = tasks ws -> clos_refl_trans _ pstep (mkPs todo [] []) s -> all_done s -> produces ws (Ok (put s))
| prod_throw w e : In (w, Throw e) (tasks ws) -> produces ws (Throw e)
| prod_undef w : In (w, Undef) (tasks ws) -> produces ws Undef.
End Cfg.
