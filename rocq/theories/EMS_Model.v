(** larreco/RecoAlg/EMShowerAlg.cxx and the non-PFParticle path of larreco/ShowerFinder/EMShower_module.cc.
    Not modelled: the geometry (3D points, projections, global wire numbers: values or verdicts given as
    arguments), energies, dE/dx, the track fit, plots and debug printout, floating-point rounding,
    narrowing of size_t keys to int. *)
From Coq Require Import QArith Qround Qcanon.
From Verif Require Import Base Solver_Model SPS_Model WT_Rms.
Local Open Scope nat_scope.

(** std::map<int, A>: entries in increasing key order *)
Definition zmap (A : Type) : Type := list (Z * A).
Fixpoint mfind {A} (k : Z) (m : zmap A) : option A :=
  match m with [] => None | (a, v) :: r => if (k =? a)%Z then Some v else mfind k r end.
(** m[k] = v *)
Fixpoint mset {A} (k : Z) (v : A) (m : zmap A) : zmap A :=
  match m with
  | [] => [(k, v)]
  | (a, x) :: r => if (k <? a)%Z then (k, v) :: m else if (k =? a)%Z then (k, v) :: r else (a, x) :: mset k v r
  end.
(** m.at(k) *)
Definition mat {A} (k : Z) (m : zmap A) : outcome A := match mfind k m with Some v => Ok v | None => Throw RangeExn end.
(** the vector m[k] (created empty) *)
Definition mvec {A} (k : Z) (m : zmap (list A)) : list A := match mfind k m with Some v => v | None => [] end.
(** m[k].push_back(x) *)
Definition mpush {A} (k : Z) (x : A) (m : zmap (list A)) : zmap (list A) := mset k (mvec k m ++ [x]) m.
(** m.erase(k) *)
Fixpoint merase {A} (k : Z) (m : zmap A) : zmap A :=
  match m with [] => [] | (a, v) :: r => if (k =? a)%Z then r else (a, v) :: merase k r end.
(** ++m[k] *)
Definition mincr (k : Z) (m : zmap nat) : zmap nat := mset k (S (match mfind k m with Some n => n | None => 0 end)) m.

(** cet::search_all *)
Definition zmem (x : Z) (l : list Z) : bool := existsb (Z.eqb x) l.

(** a recob::Hit: its key, plane and TPC; HitCoordinates_ (global wire, tick); HitPosition_ in cm; Integral;
    wire number *)
Record hit := HT { hk : nat; hpl : Z; htp : nat; hx : Qc; ht : Qc; hpx : Qc; hpy : Qc; hq : Qc; hwi : nat }.

(* ---------------------------------------------------------------- clusters and tracks *)

(** one hit [h] of cluster [c], EMShowerAlg.cxx:91-114; state (clusterToTracks, trackToClusters);
    [fmt]: keys of the tracks of each hit; [len]: Track::Length *)
Definition assoc_hit (fmt : list (list nat)) (len : nat -> Qc) (minlen : Qc) (ign : list Z) (c : nat)
  (s : zmap (list Z) * zmap (list Z)) (h : nat) : outcome (zmap (list Z) * zmap (list Z)) :=
  do ts <- at_ fmt h;
  match ts with
  | [t] =>
    if qc_lt (len t) minlen then Ok s
    else
      let track := Z.of_nat t in
      let cluster := Z.of_nat c in
      if zmem cluster ign then Ok s
      else
        let t2c := if zmem cluster (mvec track (snd s)) then snd s else mpush track cluster (snd s) in
        let c2t := if zmem track (mvec cluster (fst s)) then fst s else mpush cluster track (fst s) in
        Ok (c2t, t2c)
  | _ => Ok s
  end.

(** AssociateClustersAndTracks, cxx:74-117, into the given maps; [cls]: keys of the clusters *)
Definition associate (cls : list nat) (fmh fmt : list (list nat)) (len : nat -> Qc) (minlen : Qc) (ign : list Z)
  (s : zmap (list Z) * zmap (list Z)) : outcome (zmap (list Z) * zmap (list Z)) :=
  foreach cls (fun s c => do hs <- at_ fmh c; foreach hs (assoc_hit fmt len minlen ign c) s) s.

(** AssociateClustersAndTracks, cxx:62-72 *)
Definition associate_all (cls : list nat) (fmh fmt : list (list nat)) (len : nat -> Qc) (minlen : Qc)
  (s : zmap (list Z) * zmap (list Z)) := associate cls fmh fmt len minlen [(-999)%Z] s.

(** cxx:720-727: matchingShowers *)
Definition matching (shs : list (list Z)) (cl : list Z) : list nat :=
  fold_left (fun m s => fold_left (fun m c =>
    if zmem c (nth s shs []) && negb (existsb (Nat.eqb s) m) then m ++ [s] else m) cl m)
    (seq 0 (length shs)) [].

(** cxx:740-743 *)
Definition add_missing (sh cl : list Z) : list Z :=
  fold_left (fun sh c => if zmem c sh then sh else sh ++ [c]) cl sh.

(** FindShowers, cxx:710-748 *)
Definition find_showers (t2c : zmap (list Z)) : list (list Z) :=
  fold_left (fun shs cl =>
    match matching shs cl with
    | [] => shs ++ [cl]
    | s :: _ => upd shs s (add_missing (nth s shs []) cl)
    end) (map snd t2c) [].

(* ---------------------------------------------------------------- bad planes *)

(** CheckShowerPlanes, cxx:292-390; [cpl]: plane of each cluster (clusters.at); [fmh]: planes of the hits of each cluster.
    avg >= sqrt(sum of squares) is written avg^2 >= sum (both sides are non-negative) *)
Definition plane_clusters (cpl : list Z) (sh : list Z) : outcome (zmap (list nat)) :=
  foreach sh (fun m c => do p <- at_ cpl (Z.to_nat c); Ok (mpush p (Z.to_nat c) m)) [].
Definition plane_hits (fmh : list (list Z)) (sh : list Z) : outcome (zmap nat) :=
  foreach sh (fun m c => do hs <- at_ fmh (Z.to_nat c); Ok (fold_left (fun m p => mincr p m) hs m)) [].
Definition qn (n : nat) : Qc := Q2Qc (inject_Z (Z.of_nat n)).
Definition average (fmh : list (list Z)) (nh : nat) (cs : list nat) : outcome Qc :=
  do fs <- foreach cs (fun fs c => do hs <- at_ fmh c; Ok (fs ++ [(qn (length hs) / qn nh)%Qc])) [];
  Ok (fold_left Qcplus fs (Q2Qc 0) / qn (length cs))%Qc.
Definition check_planes (cpl : list Z) (fmh : list (list Z)) (shs : list (list Z)) : outcome (list Z) :=
  match shs with
  | [] => Ok []
  | sh :: _ =>
    do pc <- plane_clusters cpl sh;
    do ph <- plane_hits fmh sh;
    if length pc <? 3 then Ok []
    else
      do av <- foreach pc (fun av e => do n <- mat (fst e) ph; do a <- average fmh n (snd e); Ok (av ++ [(fst e, a)])) [];
      let bad := fold_left (fun b e =>
        let others := filter (fun o => negb (fst e =? fst o)%Z) av in
        let quad := fold_left (fun s o => (s + snd o * snd o)%Qc) others (Q2Qc 0) in
        if qc_lt (snd e * snd e)%Qc quad then b else fst e) av (-1)%Z in
      if (bad =? -1)%Z then Ok []
      else do cs <- mat bad pc; Ok (map Z.of_nat cs)
  end.

(* ---------------------------------------------------------------- hit order *)

Definition hmap : Type := zmap (list hit).

(** ShowerCenter_ and ShowerDirection_, cxx:1777-1820: charge-weighted centre and gradient. A zero denominator
    (NaN or infinite coordinates) is [Undef] *)
Definition qsuml (l : list Qc) : Qc := fold_left Qcplus l (Q2Qc 0).
Definition centre (hs : list hit) : outcome (Qc * Qc) :=
  let tot := qsuml (map hq hs) in
  if qc_eqb tot 0 then Undef
  else Ok (qsuml (map (fun h => hq h * hpx h) hs) / tot, qsuml (map (fun h => hq h * hpy h) hs) / tot)%Qc.
Definition gradient (hs : list hit) : outcome Qc :=
  let w h := (hq h * hq h)%Qc in
  let sw := qsuml (map w hs) in
  let sx := qsuml (map (fun h => w h * hpx h)%Qc hs) in
  let sy := qsuml (map (fun h => w h * hpy h)%Qc hs) in
  let sxx := qsuml (map (fun h => w h * hpx h * hpx h)%Qc hs) in
  let sxy := qsuml (map (fun h => w h * hpx h * hpy h)%Qc hs) in
  let d := (sw * sxx - sx * sx)%Qc in
  if qc_eqb d 0 then Undef else Ok ((sw * sxy - sx * sy) / d)%Qc.

(** std::map<double, hit>::operator[] = *)
Fixpoint qset {A} (k : Qc) (v : A) (m : list (Qc * A)) : list (Qc * A) :=
  match m with
  | [] => [(k, v)]
  | (a, x) :: r => if qc_lt k a then (k, v) :: m else if qc_lt a k then (a, x) :: qset k v r else (a, v) :: r
  end.

(** FindOrderOfHits_, cxx:652-708. The direction is not normalised to length one (the order and the coincidences
    of the projections are the same); the rotation by pi/2 is exact *)
Definition find_order (hs : list hit) (perp : bool) : outcome (list hit) :=
  do c <- centre hs;
  do g <- gradient hs;
  let d := if perp then (- g, Q2Qc 1)%Qc else (Q2Qc 1, g) in
  let key h := (fst d * (hpx h - fst c) + snd d * (hpy h - snd c))%Qc in
  Ok (map snd (fold_left (fun m h => qset (key h) h m) hs [])).

(** the loop cxx:189-194, with iterators as indices: [i] the iterator, [e] = nHits *)
Fixpoint naughty (fuel i e : nat) (v acc : list hit) : list hit * list hit :=
  match fuel with
  | 0 => (v, acc)
  | S f => if i =? e then (v, acc)
           else match nth_error v i with
                | Some h => naughty f (S i) e (firstn i v ++ skipn (S i) v) (acc ++ [h])
                | None => (v, acc)
                end
  end.

(** the number of leading hits in TPC [t], cxx:154-158 *)
Fixpoint leading (t : nat) (v : list hit) : nat :=
  match v with h :: r => if htp h =? t then S (leading t r) else 0 | [] => 0 end.

(** CheckIsolatedHits_, cxx:119-198; [np]: MaxPlanes() *)
Definition first_tpc (m : hmap) : outcome (zmap (list Z)) :=
  foreach m (fun f e => do h <- at_ (snd e) 0; Ok (mpush (Z.of_nat (htp h)) (fst e) f)) [].
Definition tpcs (v : list hit) : zmap nat := fold_left (fun m h => mincr (Z.of_nat (htp h)) m) v [].
Definition isolated (np : nat) (m : hmap) : outcome hmap :=
  do f <- first_tpc m;
  if negb (length f =? 2) then Ok m
  else
    let problem := fold_left (fun p e => match snd e with [x] => x | _ => p end) f (-1)%Z in
    do v <- mat problem m;
    if length v <? 3 then Ok m
    else
      let others := filter (fun p => negb (p =? problem)%Z &&
                                     match mfind p m with Some w => 3 <=? length w | None => false end)
                           (map Z.of_nat (seq 0 np)) in
      match others with
      | [] => Ok m
      | _ =>
        do h0 <- at_ v 0;
        let n := leading (htp h0) v in
        if 2 <? n then Ok m
        else if 1 <? length (tpcs (firstn (4 * n) (skipn n v))) then Ok m
        else
          do seconds <- foreach others (fun l p => do w <- mat p m; Ok (l ++ firstn 1 (skipn 1 w))) [];
          match tpcs seconds with
          | [(t, _)] =>
            do h <- idx v n;
            if (t =? Z.of_nat (htp h))%Z
            then let r := naughty (length v) 0 n v [] in Ok (mset problem (fst r ++ snd r) m)
            else Ok m
          | _ => Ok m
          end
      end.

(** RelativeWireWidth_, cxx:1738-1775, as the squares of the relative widths; [None]: infinite; 0/0 (NaN) is [Undef] *)
Definition wlen (v : list hit) : outcome Z :=
  do a <- idx v 0; do b <- idx v (length v - 1);
  Ok (let d := (hx a - hx b)%Qc in trunc (if qc_lt d 0 then (- d)%Qc else d)).
Definition wless (a b : option Qc) : bool :=
  match a, b with Some x, Some y => qc_lt x y | Some _, None => true | None, _ => false end.
Fixpoint wset {A} (k : option Qc) (v : A) (m : list (option Qc * A)) : list (option Qc * A) :=
  match m with
  | [] => [(k, v)]
  | (a, x) :: r => if wless k a then (k, v) :: m else if wless a k then (a, x) :: wset k v r else (a, v) :: r
  end.
Definition wire_widths (np : nat) (m : hmap) : outcome (list (option Qc * Z)) :=
  do ls <- foreach m (fun ls e => do w <- wlen (snd e); Ok (ls ++ [(fst e, w)])) [];
  foreach ls (fun ws e =>
    let quad := fold_left (fun q p => match mfind p ls with
                                      | Some w => if (p =? fst e)%Z then q else (q + w * w)%Z
                                      | None => q end) (map Z.of_nat (seq 0 np)) 0%Z in
    if (quad =? 0)%Z
    then if (snd e =? 0)%Z then Undef else Ok (wset None (fst e) ws)
    else Ok (wset (Some (Q2Qc (inject_Z (snd e * snd e)) / Q2Qc (inject_Z quad))%Qc) (fst e) ws)) [].

(** GetPlanePermutations_, cxx:865-949: permutations[0], [1], ...; [widths]: the planes of wireWidthMap in order *)
Definition perm1 (ws : list Z) (p : Z) (b : bool) : zmap bool :=
  fold_left (fun m x => if negb (p =? x)%Z then mset x (negb b) m else m) ws [(p, b)].
Definition same_perm (a b : zmap bool) : bool :=
  (length a =? length b) && forallb (fun e => (fst (fst e) =? fst (snd e))%Z && Bool.eqb (snd (fst e)) (snd (snd e))) (List.combine a b).
Definition add_perm (l : list (zmap bool)) (x : zmap bool) : list (zmap bool) :=
  if existsb (same_perm x) l then l else l ++ [x].
Definition permutations (planes ws : list Z) : list (zmap bool) :=
  let used := fold_left (fun l p => add_perm l (perm1 ws p true)) ws [] in
  let used := fold_left (fun l p => add_perm l (perm1 ws p false)) (rev ws) used in
  [map (fun p => (p, false)) planes] ++ used ++ [map (fun p => (p, true)) planes].

Section Order.
(** MaxPlanes(); ShowerHitRMS_; sign of ShowerHitRMSGradient_; verdicts of CheckShowerHits_ on the first hits *)
Variables (np : nat) (rms : list hit -> Qc) (gneg : list hit -> bool).
Variables (ok2 : hit -> hit -> bool) (ok3 : Z -> hit -> hit -> hit -> bool).

(** CheckShowerHits_, cxx:200-290: the test of one plane of three is [ok3 plane] on the first hits of planes 0, 1, 2 *)
Definition check_hits (m : hmap) : outcome bool :=
  do st <- foreach m (fun l e => do h <- idx (snd e) 0; Ok (l ++ [(fst e, h)])) [];
  match st with
  | [(_, a); (_, b)] => Ok (ok2 a b)
  | [_; _; _] =>
    do a <- mat 0%Z st; do b <- mat 1%Z st; do c <- mat 2%Z st;
    Ok (forallb (fun p => ok3 p a b c) [0; 1; 2]%Z)
  | _ => Ok true
  end.

(** one pass of the loop cxx:1545-1549 *)
Definition orient (orig : hmap) (p : zmap bool) : hmap :=
  map (fun e => (fst e, if match mfind (fst e) p with Some b => b | None => false end then rev (snd e) else snd e)) orig.
(** the while loop cxx:1541-1551: [n] = permutation, at most 2^planes of them *)
Fixpoint search (fuel n : nat) (perms : list (zmap bool)) (orig m : hmap) : outcome hmap :=
  do ok <- check_hits m;
  if ok then Ok m
  else match fuel with
       | 0 => Ok m
       | S f => search f (S n) perms orig (orient orig (nth n perms []))
       end.

(** planes grouped, cxx:1372-1376 *)
Definition group (hs : list hit) : hmap := fold_left (fun m h => mpush (hpl h) h m) hs [].

(** the first two stages, cxx:1378-1462 *)
Definition order_planes (want : Z) (m0 : hmap) : outcome hmap :=
  do r <- foreach m0 (fun r e =>
    if negb (want =? fst e)%Z && negb (want =? -1)%Z then Ok r
    else do o <- find_order (snd e) false; Ok (mset (fst e) o (fst r), mset (fst e) (rms o) (snd r))) (m0, []);
  let m := fst r in let pr := snd r in
  do m <- foreach m (fun m e =>
    do x <- mat (fst e) pr;
    let others := filter (fun p => negb (p =? fst e)%Z) (map Z.of_nat (seq 0 np)) in
    let os := flat_map (fun p => match mfind p pr with Some y => [y] | None => [] end) others in
    match os with
    | [] => Ok m                           (* 0/0: the comparison with NaN fails *)
    | _ => if qc_lt (qsuml os / qn (length os) * Q2Qc 2)%Qc x
           then do o <- find_order (snd e) true; Ok (mset (fst e) o m)
           else Ok m
    end) m;
  Ok (map (fun e => (fst e, if gneg (snd e) then rev (snd e) else snd e)) m).

(** the search for a consistent orientation, cxx:1534-1554 *)
Definition settle (m1 : hmap) : outcome hmap :=
  do ws1 <- wire_widths np m1;
  do m2 <- search (2 ^ length m1) 0 (permutations (map fst m1) (map snd ws1)) m1 m1;
  do ok <- check_hits m2;
  Ok (if ok then m2 else m1).

(** cxx:1515-1532 and 1569-1572 *)
Definition orientate (m : hmap) : outcome hmap :=
  do ws <- wire_widths np m;
  let lim := (Q2Qc 1 / (qn (length ws) * qn (length ws)))%Qc in
  let bad := map snd (filter (fun e => wless (fst e) (Some lim)) ws) in
  do ig <- match bad with [b] => do v <- mat b m; Ok (Some (b, v)) | _ => Ok None end;
  do m3 <- settle (match ig with Some (b, _) => merase b m | None => m end);
  Ok (match ig with Some (b, v) => mset b v m3 | None => m3 end).

(** OrderShowerHits, cxx:1360-1573 *)
Definition order_hits (want : Z) (hs : list hit) : outcome hmap :=
  do m <- order_planes want (group hs);
  do m <- isolated np m;
  orientate m.
End Order.

(* ---------------------------------------------------------------- start of the shower *)

(** round of HitCoordinates_ *)
Definition rw (h : hit) : Z := round (hx h).
Definition rt (h : hit) : Z := round (ht h).
Definition cnt (f : hit -> Z) (v : list hit) (x : Z) : nat := length (filter (fun h => (f h =? x)%Z) v).

(** the loop cxx:779-803 over the remaining hits; [mw] = multipleWires *)
Fixpoint wire_start (v : list hit) (up : bool) (l : list hit) (mw : nat) : list hit :=
  match l with
  | [] => []
  | h :: r =>
    let w := rw h in
    let at_wire k := cnt rw v (if up then w + k else w - k)%Z in
    if 1 <? cnt rw v w then if 5 <? S mw then [] else wire_start v up r (S mw)
    else if (1 <? at_wire 1%Z) && ((1 <? at_wire 2%Z) || (1 <? at_wire 3%Z))
    then if (at_wire 4%Z <? 2) && (at_wire 5%Z <? 2) && (at_wire 6%Z <? 2) && (1 <? at_wire 9%Z)
         then h :: wire_start v up r mw else []
    else h :: wire_start v up r mw
  end.
(** the loop cxx:817-828 *)
Fixpoint tick_start (v : list hit) (up : bool) (l : list hit) : list hit :=
  match l with
  | [] => []
  | h :: r =>
    if existsb (fun k => 0 <? cnt rt v (if up then rt h + k else rt h - k)%Z) [1; 2; 3; 4; 5]%Z then []
    else h :: tick_start v up r
  end.
Definition zmin (l : list Z) : Z := fold_left Z.min l (hd 0%Z l).
Definition zmax (l : list Z) : Z := fold_left Z.max l (hd 0%Z l).

(** FindShowerStart_, cxx:750-863, for the hits [v] of one plane *)
Definition start_hits (v : list hit) : outcome (list hit) :=
  do f <- idx v 0; do b <- idx v (length v - 1);
  let ws := map rw v in
  let along := negb ((3 <? Z.abs (zmin ws - rw f))%Z && (3 <? Z.abs (zmax ws - rw f))%Z) in
  let i0 := if along then wire_start v (qc_lt (hx f) (hx b)) v 0 else tick_start v (qc_lt (ht f) (ht b)) v in
  let i1 := match i0 with [] => [f] | _ => i0 end in
  do i2 <- (if (length i1 =? 1) && (2 <? length v) then do h <- idx v 1; Ok (i1 ++ [h]) else Ok i1);
  let single := map fst (filter (fun e => snd e =? 1) (tpcs i2)) in
  match single with
  | [] => Ok i2
  | _ => let n := filter (fun h => negb (zmem (Z.of_nat (htp h)) single)) i2 in
         Ok (match n with [] => [f] | _ => n end)
  end.
Definition shower_start (m : hmap) : outcome hmap :=
  foreach m (fun r e => do v <- start_hits (snd e); Ok (mset (fst e) v r)) [].

(* ---------------------------------------------------------------- space points *)

Section Points.
(** MaxPlanes(); the point of two hits projects within fSpacePointSize of a third hit; of both hits *)
Variables (np : nat) (near3 : hit -> hit -> hit -> bool) (near2 : hit -> hit -> bool).

Definition used (u : list nat) (h : hit) : bool := existsb (Nat.eqb (hk h)) u.

(** the loop over the second plane, cxx:1266-1339; state (usedHits, hits of each space point) *)
Definition pair_step (third : option (list hit)) (a : hit) (s : list nat * list (list hit)) (b : hit)
  : list nat * list (list hit) :=
  if used (fst s) a then s
  else if negb (htp b =? htp a) || used (fst s) b then s
  else match third with
       | Some cs => match find (fun c => (htp c =? htp a) && near3 a b c) cs with
                    | Some c => (fst s ++ [hk a; hk b; hk c], snd s ++ [[a; b; c]])
                    | None => s
                    end
       | None => if near2 a b then (fst s ++ [hk a; hk b], snd s ++ [[a; b]]) else s
       end.
Definition plane_points (others : list (list hit)) (v : list hit) (s : list nat * list (list hit)) :=
  match others with
  | [] => s
  | o :: os => fold_left (fun s a => if used (fst s) a then s else fold_left (pair_step (hd_error os) a) o s) v s
  end.
(** the hits of the planes other than [p], cxx:1248-1251 *)
Definition other_planes (m : hmap) (p : Z) : list (list hit) :=
  flat_map (fun q => if (q =? p)%Z then [] else match mfind q m with Some w => [w] | None => [] end) (map Z.of_nat (seq 0 np)).
(** MakeSpacePoints, cxx:1219-1358: hitAssns; the coordinates of a point are those of its first two hits *)
Fixpoint space_loop (m : hmap) (l : list (Z * list hit)) (s : list nat * list (list hit)) : list nat * list (list hit) :=
  match l with
  | [] => s
  | e :: r => match other_planes m (fst e) with
              | [] => s
              | o => space_loop m r (plane_points o (snd e) s)
              end
  end.
Definition space_points (m : hmap) : list (list hit) := snd (space_loop m m ([], [])).
End Points.

(* ---------------------------------------------------------------- small helpers *)

(** isCleanShower, cxx:2033-2050 *)
Definition clean_shower (v : list hit) : bool :=
  let n := length v in
  if n =? 0 then false
  else if (2000 <? N.of_nat n)%N then true
  else if n <? 20 then true
  else
    let ws := fold_left (fun m h => mincr (Z.of_nat (hwi h)) m) (skipn 2 (firstn 20 v)) [] in
    negb (qc_lt (Q2Qc (7 # 5) * qn (length ws))%Qc (qn 18)).

(** the two planes with most hits of MakeShower, cxx:1081-1105; [l]: (plane, number of hits) in plane order *)
Definition two_planes (l : list (Z * nat)) : Z * Z :=
  let r := fold_left (fun (s : Z * nat * (Z * nat)) e =>
    match s with (p0, m0, (p1, m1)) =>
      if m0 <? snd e then (if (p0 =? -1)%Z then (fst e, snd e, (p1, m1)) else (fst e, snd e, (p0, m0)))
      else if m1 <? snd e then (p0, m0, (fst e, snd e)) else s
    end) l ((-1)%Z, 0, ((-1)%Z, 0)) in
  match r with (p0, _, (p1, _)) => (p0, p1) end.

(** the best plane of MakeShower, cxx:1013-1036 (hits by view: [l] the hits of each plane 0 .. MaxPlanes-1);
    initialHitsMap.at throws for a plane with hits but no entry *)
Definition best_plane (init : list Z) (l : list nat) : outcome Z :=
  do r <- foreach (List.combine (seq 0 (length l)) l) (fun (s : Z * nat) e =>
    if 0 <? snd e
    then if negb (zmem (Z.of_nat (fst e)) init) then Throw RangeExn
         else if snd s <? snd e then Ok (Z.of_nat (fst e), snd e) else Ok s
    else Ok s) ((-1)%Z, 0);
  Ok (fst r).

(* ---------------------------------------------------------------- the module *)

(** what the module writes: the ids of the showers; (shower, hit), (shower, cluster), (shower, track), (shower, point),
    (point, hit) associations; the number of space points *)
Record out := O { o_ids : list Z; o_h : list (nat * nat); o_c : list (nat * nat); o_t : list (nat * nat);
                  o_sp : list (nat * nat); o_ph : list (nat * nat); o_np : nat }.

Section Module.
(** keys of the hits of each cluster; number of clusters and tracks; the space points made for a shower (as the hits of
    each) from its hits; whether MakeShower found a start point *)
Variables (fmh : list (list nat)) (ncl ntr : nat).
Variables (points : list nat -> list (list nat)) (complete : list nat -> bool).

(** clusters, hits and tracks of a shower, EMShower_module.cc:293-340 (no CNN) *)
Definition gather (c2t : zmap (list Z)) (sh : list Z) : outcome (list nat * list nat * list Z) :=
  foreach sh (fun (s : list nat * list nat * list Z) c =>
    match s with (cs, hs, ts) =>
      let k := Z.to_nat c in
      if ncl <=? k then Throw RangeExn
      else do h <- at_ fmh k; do t <- mat c c2t;
           Ok (cs ++ [k], hs ++ h, fold_left (fun ts x => if zmem x ts then ts else ts ++ [x]) t ts)
    end) ([], [], []).

(** one shower, cc:277-412, with showerNum = [num]; returned with the new showerNum *)
Definition one_shower (want : Z) (save_all : bool) (c2t : zmap (list Z)) (num : Z) (o : out) (sh : list Z) : outcome (Z * out) :=
  if negb (num =? want)%Z && negb (want =? -1)%Z then Ok (num, o)
  else
    do g <- gather c2t sh;
    match g with (cs, hs, ts) =>
      do tk <- foreach ts (fun l t => if ntr <=? Z.to_nat t then Throw RangeExn else Ok (l ++ [Z.to_nat t])) [];
      let ps := points hs in
      let nsp := 0 in                                        (* nSpacePoint, never incremented *)
      do ph <- foreach (seq 0 (length ps)) (fun l i =>
        do a <- at_ ps nsp; Ok (l ++ map (fun h => (o_np o + i, h)) a)) [];
      let o1 := O (o_ids o) (o_h o) (o_c o) (o_t o) (o_sp o) (o_ph o ++ ph) (o_np o + length ps) in
      if save_all || complete hs
      then let s := length (o_ids o) in
           Ok (num, O (o_ids o ++ [num]) (o_h o ++ map (pair s) hs) (o_c o ++ map (pair s) cs) (o_t o ++ map (pair s) tk)
                      (o_sp o ++ map (fun i => (s, o_np o + i)) (seq 0 (length ps))) (o_ph o1) (o_np o1))
      else Ok (num, o1)
    end.

(** produce without PFParticles, cc:189-211 and 275-464; [clear]: the clusters of the bad plane *)
Definition produce (fmt : list (list nat)) (len : nat -> Qc) (minlen : Qc) (find_bad : bool)
  (cpl : list Z) (hpls : list (list Z)) (want : Z) (save_all : bool) : outcome out :=
  do m <- associate_all (seq 0 ncl) fmh fmt len minlen ([], []);
  let shs := find_showers (snd m) in
  do ign <- (if find_bad then check_planes cpl hpls shs else Ok []);
  do ms <- match ign with
           | [] => Ok (m, shs)
           | _ => do m' <- associate (seq 0 ncl) fmh fmt len minlen ign ([], []); Ok (m', find_showers (snd m'))
           end;
  do r <- foreach (snd ms) (fun (s : Z * out) sh => one_shower want save_all (fst (fst ms)) (fst s) (snd s) sh)
    (0%Z, O [] [] [] [] [] [] 0);
  Ok (snd r).
End Module.
