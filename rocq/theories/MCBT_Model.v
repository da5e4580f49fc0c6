(** Model of larreco/MCComp/MCBTAlg.{h,cxx} and MCMatchAlg.{h,cxx}.
    Charges are exact rationals.  Channels, times and registered track ids are naturals (no wrap of id + 1 or of the vector size as int); the track id of a
    deposit is an integer.  The number of planes and the plane of a channel come from the geometry: parameters.  A tick range is given by its two TDC
    values, already converted (clockData.TPCTick2TDC and the conversion to unsigned are not modelled).  kINVALID_INDEX is [None].
    Division by zero (x/0 in C++ is inf or NaN) is 0 here: the theorems only speak of non-zero divisors. *)
From Coq Require Import QArith Qcanon.
From Verif Require Import Base Solver_Model.
Local Open Scope nat_scope.

(** sim::SimChannel: Channel(), TDCIDEMap() as (time, [(trackID, numElectrons)]) *)
Record simch := mkSim { sc_ch : nat; sc_map : list (nat * list (Z * Qc)) }.
(** MCBTAlg.h:125-128 members; ch_info_t is a std::map: an association list with increasing keys *)
Record bt := mkBT { b_event : list (list (nat * list Qc)); b_index : list (option nat); b_sum : list (list Qc); b_parts : nat }.

(** vector::resize(n, v) to a larger size *)
Definition grow {A} (v : A) (n : nat) (l : list A) : list A := l ++ repeat v (n - length l).

(** MCBTAlg.cxx:170-179 Register(id) on (_trkid_to_index, _num_parts) *)
Definition register (st : list (option nat) * nat) (id : nat) : outcome (list (option nat) * nat) :=
  let t := if length (fst st) <=? id then grow None (id + 1) (fst st) else fst st in
  do v <- idx t id;
  match v with
  | None => do t' <- set_idx t id (Some (snd st)); Ok (t', snd st + 1)
  | Some _ => Ok (t, snd st)
  end.
(** MCBTAlg.cxx:181-198 Register(ids) *)
Definition register_group (st : list (option nat) * nat) (ids : list nat) : outcome (list (option nat) * nat) :=
  let max_id := fold_left Nat.max ids 0 in
  let t := if length (fst st) <=? max_id then grow None (max_id + 1) (fst st) else fst st in
  do t' <- foreach ids (fun t id => do v <- idx t id; match v with None => set_idx t id (Some (snd st)) | Some _ => Throw UserExn end) t;
  Ok (t', snd st + 1).

(** std::map operator[] and find *)
Fixpoint fetch (m : list (nat * list Qc)) (t : nat) : option (list Qc) :=
  match m with [] => None | (t', v) :: m' => if Nat.eqb t' t then Some v else fetch m' t end.
Fixpoint store (m : list (nat * list Qc)) (t : nat) (v : list Qc) : list (nat * list Qc) :=
  match m with
  | [] => [(t, v)]
  | (t', v') :: m' => if t <? t' then (t, v) :: m else if Nat.eqb t' t then (t, v) :: m' else (t', v') :: store m' t v
  end.
(** v[i] += q *)
Definition add_at (v : list Qc) (i : nat) (q : Qc) : outcome (list Qc) := do x <- idx v i; set_idx v i (x + q)%Qc.

Section Geo.
Variables (nplanes : nat) (plane_of : nat -> nat).

(** MCBTAlg.cxx:74-86 one deposit, on (edep_info, _sum_mcq[plane]); a negative trackID is less than the (int) size and is then converted to a huge index *)
Definition deposit (tab : list (option nat)) (parts : nat) (st : list Qc * list Qc) (ide : Z * Qc) : outcome (list Qc * list Qc) :=
  do index <- (if (fst ide <? Z.of_nat (length tab))%Z then (if (fst ide <? 0)%Z then Undef else idx tab (Z.to_nat (fst ide))) else Ok None);
  match (match index with Some i => if parts <=? i then None else Some i | None => None end) with
  | None => do e <- add_at (fst st) (length (fst st) - 1) (snd ide); do s <- add_at (snd st) (length (snd st) - 1) (snd ide); Ok (e, s)
  | Some i => do e <- add_at (fst st) i (snd ide); do s <- add_at (snd st) i (snd ide); Ok (e, s)
  end.
(** MCBTAlg.cxx:64-87 one time, on (ch_info, _sum_mcq) *)
Definition process_time (tab : list (option nat)) (parts plane : nat) (st : list (nat * list Qc) * list (list Qc)) (ti : nat * list (Z * Qc)) : outcome (list (nat * list Qc) * list (list Qc)) :=
  let old := match fetch (fst st) (fst ti) with Some v => v | None => [] end in
  let edep := match old with [] => repeat 0%Qc parts | _ => old end in
  do row <- idx (snd st) plane;
  do r <- foreach (snd ti) (deposit tab parts) (edep, row);
  do sums <- set_idx (snd st) plane (snd r);
  Ok (store (fst st) (fst ti) (fst r), sums).
(** MCBTAlg.cxx:55-63 one channel, on (_event_info, _sum_mcq) *)
Definition process_channel (tab : list (option nat)) (parts : nat) (st : list (list (nat * list Qc)) * list (list Qc)) (sch : simch) : outcome (list (list (nat * list Qc)) * list (list Qc)) :=
  let ev := if length (fst st) <=? sc_ch sch then grow [] (sc_ch sch + 1) (fst st) else fst st in
  do m <- idx ev (sc_ch sch);
  do r <- foreach (sc_map sch) (process_time tab parts (plane_of (sc_ch sch))) (m, snd st);
  do ev' <- set_idx ev (sc_ch sch) (fst r);
  Ok (ev', snd r).
(** MCBTAlg.cxx:50-88 ProcessSimChannel after the clear() of Reset *)
Definition process (tab : list (option nat)) (parts : nat) (chs : list simch) : outcome bt :=
  do r <- foreach chs (process_channel tab parts) ([], repeat (repeat 0%Qc parts) nplanes);
  Ok (mkBT (fst r) tab (snd r) parts).
(** MCBTAlg.cxx:22-34, 36-48 Reset: everything in the old object is cleared *)
Definition reset (old : bt) (ids : list nat) (chs : list simch) : outcome bt :=
  do r <- foreach ids register ([], 0); process (fst r) (snd r + 1) chs.
Definition reset_groups (old : bt) (groups : list (list nat)) (chs : list simch) : outcome bt :=
  do r <- foreach groups register_group ([], 0); process (fst r) (snd r + 1) chs.

(** MCBTAlg.cxx:90-95 MCQSum *)
Definition mcq_sum (b : bt) (plane : nat) : outcome (list Qc) := if length (b_sum b) <? plane then Throw UserExn else idx (b_sum b) plane.
(** MCBTAlg.cxx:164-168 Index *)
Definition index (b : bt) (id : nat) : outcome (option nat) := if length (b_index b) <=? id then Ok None else idx (b_index b) id.
(** MCBTAlg.h:115 NumParts *)
Definition num_parts (b : bt) : nat := b_parts b - 1.

(** res[i] += v[i] for i < n *)
Definition vadd (n : nat) (res v : list Qc) : outcome (list Qc) := for_ (range 0 n) (fun res i => do x <- idx v i; add_at res i x) res.
(** number of keys satisfying a predicate at the front: iterator positions *)
Fixpoint leading (p : nat -> bool) (m : list (nat * list Qc)) : nat := match m with (t, _) :: m' => if p t then S (leading p m') else 0 | [] => 0 end.
(** MCBTAlg.cxx:97-120 MCQ(hit): from lower_bound(lo) while neither end() nor upper_bound(hi + 1) is met; if the latter lies before the former the loop runs
    to end() *)
Definition mcq (b : bt) (ch lo hi : nat) : outcome (list Qc) :=
  let res := repeat 0%Qc (b_parts b) in
  if length (b_event b) <=? ch then Ok res
  else
    do m <- idx (b_event b) ch;
    let low := leading (fun t => t <? lo) m in
    let up := leading (fun t => t <=? hi + 1) m in
    let entries := if low <=? up then firstn (up - low) (skipn low m) else skipn low m in
    foreach entries (fun res e => vadd (b_parts b) res (snd e)) res.
(** MCBTAlg.cxx:137-147 MCQ(hits) *)
Definition mcq_hits (b : bt) (hits : list (nat * nat * nat)) : outcome (list Qc) :=
  foreach hits (fun res h => do tmp <- mcq b (fst (fst h)) (snd (fst h)) (snd h); vadd (length res) res tmp) (repeat 0%Qc (b_parts b)).
(** MCBTAlg.cxx:122-135, 149-162 MCQFrac: from the vector MCQ gave *)
Definition frac (res : list Qc) : outcome (list Qc) :=
  match res with
  | [] => Ok res
  | _ =>
      let sum := fold_left (fun a v => a + v)%Qc res 0%Qc in
      do lst <- idx res (length res - 1);
      do res <- for_ (range 0 (length res - 1)) (fun res i => do x <- idx res i; set_idx res i (x / (sum - lst))%Qc) res;
      set_idx res (length res - 1) (lst / sum)%Qc
  end.
Definition mcq_frac (b : bt) (ch lo hi : nat) : outcome (list Qc) := do r <- mcq b ch lo hi; frac r.
Definition mcq_frac_hits (b : bt) (hits : list (nat * nat * nat)) : outcome (list Qc) := do r <- mcq_hits b hits; frac r.

(* ------------------------------------------------------------------ MCMatchAlg *)
(** a reconstructed hit: channel, start and end TDC, plane of its wire *)
Record rhit := mkHit { h_ch : nat; h_lo : nat; h_hi : nat; h_plane : nat }.
(** MCMatchAlg.h:96-100 members *)
Record matcher := mkMatch { k_bt : bt; k_sum : list (list Qc); k_mcq : list (list Qc); k_plane : list nat; k_best : list (list Z) }.

(** MCMatchAlg.cxx:70-84 plane of a cluster: that of its first hit *)
Definition cluster_plane (c : list rhit) : nat := fold_left (fun p h => if Nat.eqb p nplanes then h_plane h else p) c nplanes.
(** MCMatchAlg.cxx:68-95 one cluster, on (_summed_mcq, _cluster_mcq_v, _cluster_plane_id) *)
Definition add_cluster (b : bt) (st : list (list Qc) * list (list Qc) * list nat) (c : list rhit) : outcome (list (list Qc) * list (list Qc) * list nat) :=
  let plane := cluster_plane c in
  do q <- mcq_hits b (map (fun h => (h_ch h, h_lo h, h_hi h)) c);
  do sums <- for_ (range 0 (length q)) (fun sums i => do row <- idx sums i; do x <- idx q i; do row' <- add_at row plane x; set_idx sums i row') (fst (fst st));
  Ok (sums, snd (fst st) ++ [q], snd st ++ [plane]).
(** MCMatchAlg.cxx:107-117 inner body, on the rows (bmatch_mcq[mc], _bmatch_id[mc]) *)
Definition best_step (mcqs : list (list Qc)) (planes : list nat) (mc : nat) (st : list Qc * list Z) (ci : nat) : outcome (list Qc * list Z) :=
  do plane <- at_ planes ci;
  do v <- idx mcqs ci;
  do q <- idx v mc;
  do b <- idx (fst st) plane;
  if qc_lt b q then do bq <- set_idx (fst st) plane q; do bi <- set_idx (snd st) plane (Z.of_nat ci); Ok (bq, bi) else Ok st.
(** MCMatchAlg.cxx:42-121 BuildMap *)
Definition build (b : bt) (clusters : list (list rhit)) : outcome matcher :=
  let nmc := num_parts b in
  do st <- foreach clusters (add_cluster b) (repeat (repeat 0%Qc nplanes) (nmc + 1), [], []);
  let '(sums, mcqs, planes) := st in
  do best <- foreach (seq 0 nmc) (fun acc mc =>
      do r <- for_ (range 0 (length clusters)) (best_step mcqs planes mc) (repeat 0%Qc nplanes, repeat (-1)%Z nplanes);
      Ok (acc ++ [snd r])) [];
  Ok (mkMatch b sums mcqs planes best).

(** MCMatchAlg.cxx:123-144 ClusterCorrectness; [None] is the returned -1 *)
Definition correctness (k : matcher) (ci mc : nat) : outcome (option Qc) :=
  if Nat.eqb (length (k_best k)) 0 then Throw UserExn
  else if length (k_mcq k) <=? ci then Throw UserExn
  else if length (k_best k) <=? mc then Throw UserExn
  else
    do plane <- at_ (k_plane k) ci;
    do row <- at_ (k_best k) mc;
    do best <- at_ row plane;
    if (best <? 0)%Z then Ok None
    else
      do v <- at_ (k_mcq k) ci; do q <- at_ v mc;
      do vb <- at_ (k_mcq k) (Z.to_nat best); do qb <- at_ vb mc;
      Ok (Some (q / qb)%Qc).
(** MCMatchAlg.cxx:146-185 ShowerCorrectness *)
Definition shower_correctness (k : matcher) (cis : list nat) : outcome (nat * Qc) :=
  if Nat.eqb (length (k_best k)) 0 then Throw UserExn
  else if length (k_mcq k) <? length cis then Throw UserExn
  else if Nat.eqb (length cis) 0 then Throw UserExn
  else
    do effs <- foreach cis (fun effs ci => for_ (range 0 (length (k_best k))) (fun effs mc =>
        do c <- correctness k ci mc;
        match c with
        | Some x => if qc_lt x 0%Qc then Ok effs else do e <- at_ effs mc; set_at effs mc (e * x)%Qc
        | None => Ok effs
        end) effs) (repeat 1%Qc (length (k_best k)));
    for_ (range 0 (length effs)) (fun res mc => do e <- at_ effs mc; if qc_lt e (snd res) then Ok res else Ok (mc, e)) (0, (- (1))%Qc).
(** MCMatchAlg.cxx:187-216 ClusterEP *)
Definition cluster_ep (k : matcher) (ci mc : nat) : outcome (Qc * Qc) :=
  if Nat.eqb (length (k_best k)) 0 then Throw UserExn
  else if length (k_mcq k) <=? ci then Throw UserExn
  else if length (k_best k) <=? mc then Throw UserExn
  else
    do plane <- idx (k_plane k) ci;
    do v <- idx (k_mcq k) ci; do q <- idx v mc;
    do row <- idx (k_sum k) mc; do tot <- idx row plane;
    Ok (q / tot, q / fold_left (fun a x => a + x) v 0)%Qc.
(** MCMatchAlg.cxx:218-227 BestClusters *)
Definition best_clusters (k : matcher) (mc : nat) : outcome (list Z) :=
  if Nat.eqb (length (k_best k)) 0 then Throw UserExn else if length (k_best k) <=? mc then Throw UserExn else idx (k_best k) mc.
(** MCMatchAlg.cxx:229-245 BestClusterEP *)
Definition best_cluster_ep (k : matcher) (mc plane : nat) : outcome (Qc * Qc) :=
  do v <- best_clusters k mc;
  if length v <=? plane then Throw UserExn
  else do c <- idx v plane; if (c <? 0)%Z then Ok (0%Qc, 0%Qc) else cluster_ep k (Z.to_nat c) mc.
End Geo.
