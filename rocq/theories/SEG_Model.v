(** Model of larreco/ClusterFinder/TrackShowerSplitter: Segmentation2D/SimpleClustering.{h,cxx}, Segmentation2D/Segmentation2D.cxx, Segmentation2D/TssHit2D.{h,cxx}
    and TrackShowerHits_module.cc. Coordinates are exact rationals (TVector2 is a pair of doubles); the order std::sort gives to equal elements is left open:
    the sort is an arbitrary function [srt] and the theorems ask only what the standard promises of it. *)
From Coq Require Import QArith Qcanon.
From Verif Require Import Base QcUtil Solver_Model.
Local Open Scope nat_scope.

Notation pt := (Qc * Qc)%type.

(** tss::Hit2D, TssHit2D.h 28-56: Wire() (unsigned int), StartTick(), EndTick(), PeakTime(), Point2D(), View(), WireID's cryostat and TPC.
    [key] stands for the art::Ptr and for the address of the tss::Hit2D (the module makes one Hit2D for each Ptr, TrackShowerHits_module.cc 82-88). *)
Record hit := Hit { key : nat; wire : Z; tick0 : Z; tick1 : Z; peak : Qc; pos : pt; view : nat; cryo : nat; tpc : nat }.

(** tss::Cluster2D, SimpleClustering.h 37-121: fHits, fTag, fDenseStart, fDenseEnd, fIsEM *)
Record clu := Clu { hs : list hit; tag : bool; dstart : bool; dend : bool; em : bool }.

(** pma::Dist2, PMAlg/Utilities.cxx 39-43 *)
Definition dist2 (a b : pt) : Qc := ((fst a - fst b) * (fst a - fst b) + (snd a - snd b) * (snd a - snd b))%Qc.

(** unsigned int arithmetic *)
Definition u32 (x : Z) : Z := (x mod 4294967296)%Z.

(** SimpleClustering::hitsTouching of two hits, SimpleClustering.cxx 180-193 (EndTick() + 1 does not overflow) *)
Definition touch (h1 h2 : hit) : bool :=
  if ((wire h1 =? wire h2)%Z && Qc_eq_bool (peak h1) (peak h2)) then false
  else if ((u32 (wire h2 - 1) <=? wire h1)%Z && (wire h1 <=? u32 (wire h2 + 1))%Z)
  then ((tick0 h2 <=? tick0 h1)%Z && (tick0 h1 <=? tick1 h2 + 1)%Z) || ((tick0 h2 <=? tick1 h1 + 1)%Z && (tick1 h1 <=? tick1 h2)%Z) || ((tick0 h1 <=? tick0 h2)%Z && (tick1 h2 <=? tick1 h1)%Z)
  else false.
(** hitsTouching of a cluster and a hit, 196-202 *)
Definition touch1 (c1 : list hit) (h2 : hit) : bool := existsb (fun h => touch h h2) c1.
(** hitsTouching of two clusters, 205-211: the hits of the first play the part of [h2] *)
Definition touch2 (c1 c2 : list hit) : bool := existsb (fun h => touch1 c2 h) c1.

(** SimpleClustering::merge, the loop on j, 222-233: cluster i swallows the clusters behind it that touch what it has become. Result: cluster i, the others, whether something was merged *)
Fixpoint absorb (c : list hit) (l : list (list hit)) : list hit * list (list hit) * bool :=
  match l with
  | [] => (c, [], false)
  | x :: l' => if touch2 c x then (fst (fst (absorb (c ++ x) l')), snd (fst (absorb (c ++ x) l')), true)
               else (fst (fst (absorb c l')), x :: snd (fst (absorb c l')), snd (absorb c l'))
  end.
(** the loop on i, 220-235 ([n] counts down: at most one turn for each cluster; the last turn has no j). For an empty vector clusters.size() - 1 wraps
    around and the loop makes 2^64 - 1 turns without effect: the callers never pass one *)
Fixpoint sweep (n : nat) (l : list (list hit)) : list (list hit) * bool :=
  match n, l with
  | S n, c :: l => let '(c', r, m) := absorb c l in (c' :: fst (sweep n r), m || snd (sweep n r))
  | _, _ => (l, false)
  end.
(** while (merged), 216-236; [None] when the fuel runs out *)
Fixpoint merge (n : nat) (l : list (list hit)) : option (list (list hit)) :=
  match n with
  | 0 => None
  | S n => let '(l', m) := sweep (length l) l in if m then merge n l' else Some l'
  end.
(** the search for the first cluster that touches the hit, 245-254 and 267-276 *)
Fixpoint put (h : hit) (l : list (list hit)) : list (list hit) :=
  match l with
  | [] => [[h]]
  | c :: l' => if touch1 c h then (c ++ [h]) :: l' else c :: put h l'
  end.
(** SimpleClustering::run, 240-259 and 262-281 *)
Definition gather (inp : list hit) : list (list hit) := fold_left (fun r h => put h r) inp [].
Definition simple (n : nat) (inp : list hit) : option (list (list hit)) := merge n (gather inp).

(** Cluster2D::release, SimpleClustering.cxx 31-39 *)
Fixpoint release (h : hit) (l : list hit) : list hit :=
  match l with [] => [] | x :: l' => if key x =? key h then l' else x :: release h l' end.
(** Cluster2D::closest, 41-57 *)
Definition closest (p : pt) (l : list hit) : option hit :=
  match l with [] => None | x :: l' => Some (fold_left (fun b h => if qc_lt (dist2 (pos h) p) (dist2 (pos b) p) then h else b) l' x) end.
(** Cluster2D::outermost, 60-82 *)
Definition mean (l : list hit) : pt :=
  ((qsum (fun h => fst (pos h)) l * (1 / qc_nat (length l)))%Qc, (qsum (fun h => snd (pos h)) l * (1 / qc_nat (length l)))%Qc).
Definition outermost (l : list hit) : option hit :=
  match l with [] => None | x :: l' => Some (fold_left (fun b h => if qc_lt (dist2 (pos b) (mean l)) (dist2 (pos h) (mean l)) then h else b) l' x) end.
(** Cluster2D::dist2 of a point, with the index of the hit, 142-158; for an empty cluster the distance is 0 and the index 0 *)
Definition dist_at (p : pt) (l : list hit) : Qc * nat :=
  match l with
  | [] => (0%Qc, 0)
  | x :: l' => let '(d, i, _) := fold_left (fun '(d, i, k) h => if qc_lt (dist2 (pos h) p) d then (dist2 (pos h) p, k, S k) else (d, i, S k)) l' (dist2 (pos x) p, 0, 1) in (d, i)
  end.
(** Cluster2D::length2, SimpleClustering.h 52-58; start() and end(), 81-94, dereferenced by every caller *)
Definition startp (c : clu) : outcome pt := match hs c with [] => Undef | h :: _ => Ok (pos h) end.
Definition endp (c : clu) : outcome pt := match rev (hs c) with [] => Undef | h :: _ => Ok (pos h) end.

(** Segmentation2D::reconfigure, Segmentation2D.cxx 15-26 *)
Record cfg := Cfg { f_rmin : Qc; f_rmax : Qc; f_line : Qc; f_vrad : Qc; f_minN : nat; f_hrad : Qc; f_minH : nat }.

Section Alg.
Variable srt : pt -> list hit -> list hit. (* std::sort with bDistToPointLess, SimpleClustering.h 21-35 and 95-99 *)
Variable cf : cfg.

(** pma::GetProjectionToSegment, PMAlg/Utilities.cxx 112-117 and 144-149; [None]: the segment has no length and the quotient is not a number *)
Definition proj (p p0 p1 : pt) : option pt :=
  let vx := (fst p1 - fst p0)%Qc in let vy := (snd p1 - snd p0)%Qc in let m := (vx * vx + vy * vy)%Qc in
  if Qc_eq_bool m 0%Qc then None
  else let b := (((fst p - fst p0) * vx + (snd p - snd p0) * vy) / m)%Qc in Some ((fst p0 + vx * b)%Qc, (snd p0 + vy * b)%Qc).
(** buildSegment, the test of one hit, Segmentation2D.cxx 116-121 (0.1 compared squared; a comparison with not-a-number is false) *)
Definition cand (center fin : pt) (h : hit) : bool :=
  match proj (pos h) center fin with
  | None => false
  | Some q => qc_lt (dist2 (pos h) q) (f_line cf * f_line cf)%Qc &&
      (negb (qc_lt ((fst (pos h) - fst center) * (fst fin - fst center) + (snd (pos h) - snd center) * (snd fin - snd center))%Qc 0%Qc) || qc_lt (dist2 (pos h) center) (Q2Qc (1 # 100)))
  end.
(** the candidates and the index of the first of the nearest ones (firstIdx stays 0 when all are 1e9 away or farther), 108-129; distances compared squared *)
Definition candidates (center fin : pt) (inp : list hit) : list hit := filter (cand center fin) inp.
Definition first_idx (center : pt) (l : list hit) : nat :=
  snd (fst (fold_left (fun '(d, i, k) h => if qc_lt (dist2 (pos h) center) d then (dist2 (pos h) center, k, S k) else (d, i, S k)) l (Q2Qc (1000000000000000000 # 1), 0, 0))).
(** 130-135, with Cluster2D::sort, SimpleClustering.h 95-99 *)
Definition arrange (center : pt) (l : list hit) : outcome (list hit) :=
  if 1 <? length l then
    do hf <- idx l (first_idx center l);
    do h0 <- idx l 0;
    match upd (upd l (first_idx center l) h0) 0 hf with
    | f :: r => Ok (if 2 <? length l then f :: srt (pos f) r else f :: r)
    | [] => Undef
    end
  else Ok l.
(** 144-150 *)
Fixpoint grow (seg cands inp : list hit) : list hit * list hit :=
  match cands with
  | [] => (seg, inp)
  | c :: cands' => if touch1 seg c then grow (seg ++ [c]) cands' (release c inp) else (seg, inp)
  end.
(** buildSegment, 102-154: the segment and what is left of the input *)
Definition build (inp : list hit) (center fin : pt) : outcome (list hit * list hit) :=
  do l <- arrange center (candidates center fin inp);
  match l with [] => Ok ([], inp) | c :: l' => Ok (grow [c] l' (release c inp)) end.

(** selectRing, 153-165 *)
Definition ring (inp : list hit) (center : pt) : list hit :=
  filter (fun h => negb (qc_lt (dist2 center (pos h)) (f_rmin cf * f_rmin cf)%Qc) && negb (qc_lt (f_rmax cf * f_rmax cf)%Qc (dist2 center (pos h)))) inp.

Definition fresh (l : list hit) : clu := Clu l false false false false.
(** run, the choice of the seed, 72-82: the index of the seed and of its hit *)
Definition pick (center : pt) (seeds : list (list hit)) : nat * nat :=
  match seeds with
  | [] => (0, 0)
  | s :: l => let '(d, s, i, _) := fold_left (fun '(d, s, i, k) x => if qc_lt (fst (dist_at center x)) d then (fst (dist_at center x), k, snd (dist_at center x), S k) else (d, s, i, S k)) l
                (fst (dist_at center s), 0, snd (dist_at center s), 1) in (s, i)
  end.
(** vector::erase at an index *)
Definition cut {A} (l : list A) (i : nat) : list A := firstn i l ++ skipn (S i) l.
(** what one inner run carries: the input cluster, the result, the centers *)
Record st := St { s_inp : list hit; s_res : list clu; s_cen : list pt }.
(** while (seeds.size()), 71-94 ([n] is seeds.size(): each turn erases one) *)
Fixpoint seeds_loop (n : nat) (center : pt) (seeds : list (list hit)) (s : st) : outcome st :=
  match n with
  | 0 => Ok s
  | S n =>
    let '(si, hi) := pick center seeds in
    do sd <- idx seeds si; do h <- idx sd hi;
    do b <- build (s_inp s) center (pos h);
    let '(seg, inp) := b in
    let res := match seg with [] => s_res s | _ => s_res s ++ [fresh seg] end in
    let cen := match rev seg with e :: _ :: _ => s_cen s ++ [pos e] | _ => s_cen s end in
    seeds_loop n center (cut seeds si) (St inp res cen)
  end.
(** run of one center, 51-99; [None]: SimpleClustering ran out of fuel (it never does) *)
Definition run1 (n : nat) (s : st) : option (outcome st) :=
  match s_cen s with
  | [] => Some (Ok s)
  | c0 :: cen =>
    match closest c0 (s_inp s) with
    | None => Some (Ok (St (s_inp s) (s_res s) cen))
    | Some hf =>
      if qc_lt (Q2Qc (1 # 4)) (dist2 (pos hf) c0) then Some (Ok (St (s_inp s) (s_res s) cen))
      else match ring (s_inp s) (pos hf) with
        | [] => Some (Ok (St (release hf (s_inp s)) (s_res s ++ [fresh [hf]]) cen))
        | r => match simple n r with None => None | Some seeds => Some (seeds_loop (length seeds) (pos hf) seeds (St (s_inp s) (s_res s) cen)) end
        end
    end
  end.
(** while (centers.size()), 38-40 *)
Fixpoint centers_loop (n : nat) (s : st) : option (outcome st) :=
  match s_cen s, n with
  | [], _ => Some (Ok s)
  | _ :: _, 0 => None
  | _ :: _, S n' => match run1 n s with Some (Ok s') => centers_loop n' s' | r => r end
  end.
(** while (inp.size() > 1), 31-41 *)
Fixpoint split_loop (n : nat) (inp : list hit) (res : list clu) : option (outcome (list hit * list clu)) :=
  if length inp <=? 1 then Some (Ok (inp, res))
  else match n with
    | 0 => None
    | S n' => match outermost inp with
      | None => Some (Ok (inp, res))
      | Some hf => match centers_loop n (St inp res [pos hf]) with
        | Some (Ok s) => split_loop n' (s_inp s) (s_res s)
        | Some (Throw x) => Some (Throw x) | Some Undef => Some Undef | None => None
        end
      end
    end.

Definition rad2 : Qc := (f_vrad cf * f_vrad cf)%Qc.
Definition near (a b : pt) : bool := qc_lt (dist2 a b) rad2.
Definition set_start (c : clu) : clu := Clu (hs c) (tag c) true (dend c) (em c).
Definition set_end (c : clu) : clu := Clu (hs c) (tag c) (dstart c) true (em c).
Definition set_em (c : clu) : clu := Clu (hs c) (tag c) (dstart c) (dend c) true.
Definition set_tag (b : bool) (c : clu) : clu := Clu (hs c) b (dstart c) (dend c) (em c).
(** tagDenseEnds, the body for one j, 177-202: the group and the two flags *)
Definition tag_one (i : nat) (start0 end0 : pt) (s : list clu * (bool * bool)) (j : nat) : outcome (list clu * (bool * bool)) :=
  if i =? j then Ok s else
  do c <- idx (fst s) j; do start1 <- startp c; do end1 <- endp c;
  let '(fs, fe) := snd s in
  let '(c1, fs1, fe1) := if dstart c then (c, fs, fe) else
      (if near start1 start0 || near start1 end0 then set_start c else c, fs || near start1 start0, fe || near start1 end0) in
  let '(c2, fs2, fe2) := if dend c1 then (c1, fs1, fe1) else
      (if near end1 start0 || near end1 end0 then set_end c1 else c1, fs1 || near end1 start0, fe1 || near end1 end0) in
  do g <- set_idx (fst s) j c2; Ok (g, (fs2, fe2)).
(** tagDenseEnds, 168-208 *)
Definition tag_dense (g : list clu) : outcome (list clu) :=
  for_ (range 0 (length g)) (fun g i =>
    do c <- idx g i; do start0 <- startp c; do end0 <- endp c;
    do r <- for_ (range 0 (length g)) (tag_one i start0 end0) (g, (false, false));
    let '(g, (fs, fe)) := r in
    do c <- idx g i;
    let c1 := if fs then set_start c else c in
    set_idx g i (if fe then set_end c1 else c1)) g.

(** mergeDenseParts, the loop on j, 229-250 and 259-280 ([p] is the start or the end of cluster i): how many ends are near, and the clusters they belong to *)
Definition around_one (i : nat) (p : pt) (g : list clu) (s : nat * list nat) (j : nat) : outcome (nat * list nat) :=
  do c <- idx g j;
  if em c then Ok s else
  do s1 <- startp c; do e1 <- endp c;
  if i =? j then Ok (if (1 <? length (hs c)) && qc_lt (dist2 s1 e1) rad2 then (S (fst s), snd s) else s)
  else let ns := near p s1 in let ne := (1 <? length (hs c)) && near p e1 in
    Ok (fst s + (if ns then 1 else 0) + (if ne then 1 else 0), if ns || ne then snd s ++ [j] else snd s).
Definition around (i : nat) (p : pt) (g : list clu) : outcome (nat * list nat) := for_ (range 0 (length g)) (around_one i p g) (0, []).
(** the best start or end so far: maxS, idxMaxS (no index: -1) and toMergeS *)
Record best := Best { b_max : nat; b_idx : option nat; b_list : list nat }.
Definition better (b : best) (i : nat) (r : nat * list nat) : best := if b_max b <? fst r then Best (fst r) (Some i) (snd r) else b.
(** 223-287 *)
Definition look (g : list clu) : outcome (best * best) :=
  for_ (range 0 (length g)) (fun s i =>
    do c <- idx g i;
    if em c then Ok s else
    do bs <- (if dstart c then do p <- startp c; do r <- around i p g; Ok (better (fst s) i r) else Ok (fst s));
    do be <- (if (1 <? length (hs c)) && dend c then do p <- endp c; do r <- around i p g; Ok (better (snd s) i r) else Ok (snd s));
    Ok (bs, be)) (Best (f_minN cf) None [], Best (f_minN cf) None []).
(** 289-294: idxMaxE > idxMaxS *)
Definition chosen (b : best * best) : option (nat * list nat) :=
  match b_idx (fst b), b_idx (snd b) with
  | None, None => None
  | None, Some e => Some (e, b_list (snd b))
  | Some s, None => Some (s, b_list (fst b))
  | Some s, Some e => if s <? e then Some (e, b_list (snd b)) else Some (s, b_list (fst b))
  end.
(** mergeClusters, the loop, 321-329: what cluster k becomes and what stays behind it *)
Definition swallow (c : clu) (l : list clu) : list clu :=
  Clu (hs c ++ concat (map hs (filter tag l))) (tag c) (dstart c) (dend c) (em c) :: filter (fun x => negb (tag x)) l.
(** mergeClusters, 307-333: the group and the returned index ([None]: -1) *)
Definition merge_clusters (g : list clu) (idxs : list nat) : outcome (list clu * option nat) :=
  match idxs with
  | [] | [_] => Ok (g, Some 0)
  | k :: _ =>
    do r <- foreach idxs (fun '(g, ok) i => if negb ok then Ok (g, ok) else if i <? length g then do c <- idx g i; do g' <- set_idx g i (set_tag true c); Ok (g', true) else Ok (g, false)) (g, true);
    let '(g1, ok) := r in
    if negb ok then Ok (g1, None) else
    do c <- idx g1 k;
    match swallow c (skipn (S k) g1) with
    | c' :: l => Ok (firstn k g1 ++ set_tag false c' :: l, Some k)
    | [] => Undef
    end
  end.
(** while (merged), 215-303 *)
Fixpoint merge_dense (n : nat) (g : list clu) : option (outcome (list clu)) :=
  match n with
  | 0 => None
  | S n =>
    match look g with
    | Ok b => match chosen b with
      | None => Some (Ok g)
      | Some (i, l) =>
        match merge_clusters g (l ++ [i]) with
        | Ok (g', None) => merge_dense n g'
        | Ok (g', Some k) => match (do c <- idx g' k; set_idx g' k (set_em c)) with Ok g'' => merge_dense n g'' | Throw x => Some (Throw x) | Undef => Some Undef end
        | Throw x => Some (Throw x) | Undef => Some Undef
        end
      end
    | Throw x => Some (Throw x) | Undef => Some Undef
    end
  end.
(** run, 28-48 *)
Definition run (n : nat) (inp : list hit) : option (outcome (list clu)) :=
  match split_loop n inp [] with
  | Some (Ok (_, res)) => match tag_dense res with Ok g => merge_dense n g | Throw x => Some (Throw x) | Undef => Some Undef end
  | Some (Throw x) => Some (Throw x) | Some Undef => Some Undef | None => None
  end.

(** splitHits, 336-356: the track hits and the EM hits *)
Definition split_hits (g : list clu) : list hit * list hit :=
  fold_left (fun '(t, e) c => match hs c with [] => (t, e) | _ => if em c then (t, e ++ hs c) else (t ++ hs c, e) end) g ([], []).
(** splitHitsNaive of one cluster, 359-381 *)
Definition nei (l : list hit) (hx : hit) : nat :=
  length (filter (fun hy => negb (key hx =? key hy) && qc_lt (dist2 (pos hx) (pos hy)) (f_hrad cf * f_hrad cf)%Qc) l).
Definition split_naive (l : list hit) : list hit * list hit :=
  fold_left (fun '(t, e) hx => if f_minH cf <? nei l hx then (t, e ++ [hx]) else (t ++ [hx], e)) l ([], []).
(** splitHitsNaive of many clusters, 384-414 *)
Definition split_naive2 (g : list clu) : list hit * list hit :=
  fold_left (fun s c => fold_left (fun '(t, e) hx => if f_minH cf <? fold_left (fun n cy => n + nei (hs cy) hx) g 0 then (t, e ++ [hx]) else (t ++ [hx], e)) (hs c) s) g ([], []).

(** TrackShowerHits::produce, the loop of FindHugeShowers, TrackShowerHits_module.cc 112-127: [todo] are the clusters from c to clsSize, [done] those before c, [back] those appended *)
Fixpoint huge (todo : list clu) (done back : list clu) : list clu :=
  match todo with
  | [] => done ++ back
  | c :: todo' => if length (hs c) <? 2 then huge todo' (done ++ [c]) back
                  else huge todo' done (back ++ [fresh (fst (split_naive (hs c))); set_em (fresh (snd (split_naive (hs c))))])
  end.
(** the loop of FindMoreShowers, 133-147 *)
Fixpoint more (n : nat) (todo : list clu) (done back : list clu) : option (outcome (list clu)) :=
  match todo with
  | [] => Some (Ok (done ++ back))
  | c :: todo' => if em c || (length (hs c) <? 2) then more n todo' (done ++ [c]) back
                  else match run n (hs c) with Some (Ok segs) => more n todo' done (back ++ segs) | r => r end
  end.
(** one view of one TPC, 106-148 *)
Definition one_view (fh fm : bool) (n : nat) (l : list hit) : option (outcome (list clu)) :=
  match simple n l with
  | None => None
  | Some cls => let c1 := map fresh cls in let c2 := if fh then huge c1 [] [] else c1 in if fm then more n c2 [] [] else Some (Ok c2)
  end.
(** a written recob::Cluster: its ID, view and NHits, and the associated hits, 150-190 *)
Record out := Out { o_id : Z; o_view : nat; o_hits : list hit }.
(** sortHits, 82-88, and the iteration over a std::map: the views of the TPC in increasing order, each with its hits in the order of the list *)
Definition in_tpc (t : nat * nat) (h : hit) : bool := (cryo h =? fst t) && (tpc h =? snd t).
Definition views (l : list hit) : list nat := filter (fun v => existsb (fun h => view h =? v) l) (range 0 (S (fold_left (fun m h => Nat.max m (view h)) l 0))).
Definition em_tag : Z := 65536%Z.
(** 150-190: the clusters of one view are written (cidx counts them; cidx + emTag does not wrap around) *)
Definition write (o : list out) (cls : list clu) : list out :=
  fold_left (fun o c => match hs c with [] => o | h :: _ => if em c then o ++ [Out (Z.of_nat (length o) + em_tag)%Z (view h) (hs c)] else o end) cls o.
(** produce, 95-199: the geometry gives the list of TPCs *)
Fixpoint all_views (fh fm : bool) (n : nat) (l : list (list hit)) (o : list out) : option (outcome (list out)) :=
  match l with
  | [] => Some (Ok o)
  | v :: l' => match one_view fh fm n v with
    | Some (Ok cls) => all_views fh fm n l' (write o cls)
    | Some (Throw x) => Some (Throw x) | Some Undef => Some Undef | None => None
    end
  end.
Definition by_view (t : nat * nat) (l : list hit) : list (list hit) :=
  map (fun v => filter (fun h => in_tpc t h && (view h =? v)) l) (views (filter (in_tpc t) l)).
Definition produce (fh fm : bool) (n : nat) (geom : list (nat * nat)) (hits : list hit) : option (outcome (list out)) :=
  all_views fh fm n (flat_map (fun t => by_view t hits) geom) [].
End Alg.
