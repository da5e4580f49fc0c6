(** larreco/RecoAlg/SpacePointAlg.cxx: space points from hits on two or three wire planes.
    double is an exact rational; a wire is given by its end points, centre and half length in (y, z); the detector (TPCs, planes,
    wires, time offsets) is an argument. useMC is false everywhere (the BackTracker is not modelled); update() and the statistics are
    not modelled. An art::Ptr to a hit and the address of the hit are one number [hid] (all hits in one collection). A conversion to int
    of a quotient with divisor zero is Undef. Elsewhere a division by zero (infinity or NaN in C++) gives 0: the theorems that depend on
    it exclude it. *)
From Coq Require Import QArith Qcanon Qround.
From Verif Require Import Base SortUtil Solver_Model SPS_Model.
Local Open Scope nat_scope.

(** geo::View_t: kU, kV, kZ (= kW), anything else *)
Inductive view := VU | VV | VW | VX.
Definition view_eqb (a b : view) : bool :=
  match a, b with VU, VU | VV, VV | VW, VW | VX, VX => true | _, _ => false end.

(** recob::Hit: PeakTime, SigmaPeakTime, WireID, View *)
Record hit := Hit { hid : nat; hcryo : nat; htpc : nat; hplane : nat; hwire : nat; hview : view; htime : Qc; hsig : Qc }.
(** geo::WireGeo: GetStart, GetEnd, GetCenter, HalfL *)
Record wire := Wire { ys : Qc; zs : Qc; ye : Qc; ze : Qc; yc : Qc; zc : Qc; hl : Qc }.
(** the detector: number of planes by cryostat and TPC; wires, wire pitch, signal type, GetXTicksOffset by plane; GetXTicksCoefficient *)
Record geo := Geo {
  g_shape : list (list nat);
  g_wire : nat -> nat -> nat -> nat -> wire;
  g_pitch : nat -> nat -> nat -> Qc;
  g_coll : nat -> nat -> nat -> bool;
  g_off : nat -> nat -> nat -> Qc;
  g_x : Qc }.
(** the parameters of the constructor, cxx:47-81 *)
Record cfg := Cfg {
  maxdt : Qc; maxs : Qc; minviews : nat; enu : bool; env : bool; enw : bool;
  filt : bool; merge : bool; prefer : bool; offu : Qc; offv : Qc; offw : Qc }.
(** recob::SpacePoint *)
Record sp := SP { sp_id : Z; sp_x : Qc; sp_y : Qc; sp_z : Qc; sp_exx : Qc; sp_eyy : Qc; sp_eyz : Qc; sp_ezz : Qc; sp_chi : Qc }.

Definition qabs (x : Qc) : Qc := if qc_lt x 0 then (- x)%Qc else x.
Definition qmin (x y : Qc) : Qc := if qc_lt y x then y else x.
Definition qmx (x y : Qc) : Qc := if qc_lt x y then y else x.
Definition qle (x y : Qc) : bool := negb (qc_lt y x).

(** the constructor throws when both Filter and Merge are set, cxx:61-64 *)
Definition construct (c : cfg) : outcome cfg := if filt c && merge c then Throw UserExn else Ok c.

Definition wire_of (g : geo) (h : hit) : wire := g_wire g (hcryo h) (htpc h) (hplane h) (hwire h).
Definition sin_of (w : wire) : Qc := ((ye w - yc w) / hl w)%Qc.
Definition cos_of (w : wire) : Qc := ((ze w - zc w) / hl w)%Qc.
Definition dist_of (w : wire) : Qc := (zc w * sin_of w - yc w * cos_of w)%Qc.

(** hit.PeakTime() - GetXTicksOffset(...), cxx:285-286, 314-315, 448-449 *)
Definition tick (g : geo) (h : hit) : Qc := (htime h - g_off g (hcryo h) (htpc h) (hplane h))%Qc.

(** correctedTime, cxx:161-175 *)
Definition corrected_time (g : geo) (c : cfg) (h : hit) : Qc :=
  match hview h with
  | VU => (tick g h - offu c)%Qc | VV => (tick g h - offv c)%Qc | VW => (tick g h - offw c)%Qc | VX => tick g h
  end.

(** sinth[], costh[], dist[] indexed by plane (three entries each), cxx:194-248 and 362-389 *)
Definition put_wire (g : geo) (a : list Qc * list Qc * list Qc) (h : hit) : outcome (list Qc * list Qc * list Qc) :=
  let '(s, c, d) := a in
  let w := wire_of g h in
  do s' <- set_idx s (hplane h) (sin_of w);
  do c' <- set_idx c (hplane h) (cos_of w);
  do d' <- set_idx d (hplane h) (dist_of w);
  Ok (s', c', d').
Definition zero3 : list Qc * list Qc * list Qc := ([0%Qc; 0%Qc; 0%Qc], [0%Qc; 0%Qc; 0%Qc], [0%Qc; 0%Qc; 0%Qc]).
(** cxx:250-252 and 393-395 *)
Definition s_of (a : list Qc * list Qc * list Qc) : Qc :=
  let '(s, c, d) := a in
  let f l i := nth i l 0%Qc in
  let s0 := f s 0 in let s1 := f s 1 in let s2 := f s 2 in
  let c0 := f c 0 in let c1 := f c 1 in let c2 := f c 2 in
  ((s1 * c2 - c1 * s2) * f d 0%nat + (s2 * c0 - c2 * s0) * f d 1%nat + (s0 * c1 - c0 * s1) * f d 2%nat)%Qc.

(** separation, cxx:179-254: the checks on hit [i] come before its wire is used, against all earlier hits *)
Fixpoint sep_loop (g : geo) (seen : list hit) (a : list Qc * list Qc * list Qc) (hits : list hit) : outcome (option (list Qc * list Qc * list Qc)) :=
  match hits with
  | [] => Ok (Some a)
  | h :: r =>
    if existsb (fun j => negb (hcryo j =? hcryo h) || negb (htpc j =? htpc h) || (hplane j =? hplane h)) seen then Ok None
    else do a' <- put_wire g a h; sep_loop g (seen ++ [h]) a' r
  end.
Definition separation (g : geo) (hits : list hit) : outcome Qc :=
  if length hits <? 3 then Ok 0%Qc else if 3 <? length hits then Ok 0%Qc
  else do a <- sep_loop g [] zero3 hits; match a with Some a => Ok (s_of a) | None => Ok 0%Qc end.

(** cxx:303-319 *)
Definition pair_ok (g : geo) (c : cfg) (h1 h2 : hit) : bool :=
  (htpc h1 =? htpc h2) && negb (view_eqb (hview h1) (hview h2)) && (hcryo h1 =? hcryo h2) && qle (qabs (tick g h1 - tick g h2)) (maxdt c).
(** the double loop, cxx:280-353 *)
Fixpoint pairs_ok (g : geo) (c : cfg) (hits : list hit) : bool :=
  match hits with [] => true | h :: r => forallb (pair_ok g c h) r && pairs_ok g c r end.
(** compatible, cxx:260-404: [tpc0] and [cstat0] are those of the first hit of the last pair that passed *)
Definition compatible (g : geo) (c : cfg) (hits : list hit) : outcome bool :=
  let n := length hits in
  if (2 <=? n) && (n <=? 3) then
    if pairs_ok g c hits then
      if n =? 3 then
        do h1 <- idx hits 1;
        do a <- foreach hits (fun a h =>
          if negb (htpc h =? htpc h1) || negb (hcryo h =? hcryo h1) then Throw UserExn else put_wire g a h) zero3;
        Ok (qc_lt (qabs (s_of a)) (maxs c))
      else Ok true
    else Ok false
  else Ok false.

(** fSptHitMap *)
Definition hmap := list (Z * list hit).
Definition mfind (i : Z) (m : hmap) : option (list hit) :=
  match find (fun e => Z.eqb (fst e) i) m with Some e => Some (snd e) | None => None end.
(** getAssociatedHits, cxx:1441-1453 *)
Definition assoc_hits (m : hmap) (s : sp) : outcome (list hit) :=
  match mfind (sp_id s) m with Some l => Ok l | None => Throw UserExn end.

Definition fsum {A} (f : A -> Qc) (l : list A) : Qc := fold_left (fun s x => (s + f x)%Qc) l 0%Qc.

(** the position, errors and chisquare of fillSpacePoint and fillComplexSpacePoint for given hit weights:
    [wt h] multiplies 1 / et^2 and 1 / eu^2; eu = pitch / sqrt 12, so 1 / eu^2 = 12 / pitch^2.
    [vart sumw sumt2w drift]: the variance of the time. cxx:427-525 and 660-757 *)
Definition point (g : geo) (wt : hit -> Qc) (vart : Qc -> Qc -> Qc -> Qc) (hits : list hit) (id : Z) : sp :=
  let w h := (wt h / (hsig h * hsig h))%Qc in
  let t := tick g in
  let sumt2w := fsum (fun h => w h * t h * t h)%Qc hits in
  let sumtw := fsum (fun h => w h * t h)%Qc hits in
  let sumw := fsum w hits in
  let zero := qc_eqb sumw 0 in
  let drift := if zero then 0%Qc else (sumtw / sumw)%Qc in
  let var := if zero then 0%Qc else let v := vart sumw sumt2w drift in if qc_lt v 0 then 0%Qc else v in
  let chi := if zero then 0%Qc else let v := (sumt2w - sumtw * drift)%Qc in if qc_lt v 0 then 0%Qc else v in
  let s h := sin_of (wire_of g h) in
  let c h := cos_of (wire_of g h) in
  let u h := dist_of (wire_of g h) in
  let p h := g_pitch g (hcryo h) (htpc h) (hplane h) in
  let v h := (wt h * (Q2Qc 12 / (p h * p h)))%Qc in
  let sus := fsum (fun h => v h * u h * s h)%Qc hits in
  let suc := fsum (fun h => v h * u h * c h)%Qc hits in
  let sc2 := fsum (fun h => v h * c h * c h)%Qc hits in
  let ss2 := fsum (fun h => v h * s h * s h)%Qc hits in
  let ssc := fsum (fun h => v h * s h * c h)%Qc hits in
  let denom := (sc2 * ss2 - ssc * ssc)%Qc in
  let flat := qc_eqb denom 0 in
  SP id (drift * g_x g)%Qc
     (if flat then 0%Qc else ((- suc * ss2 + sus * ssc) / denom)%Qc)
     (if flat then 0%Qc else ((sus * sc2 - suc * ssc) / denom)%Qc)
     (var * g_x g * g_x g)%Qc
     (if flat then 0%Qc else (ss2 / denom)%Qc)
     (if flat then 0%Qc else (ssc / denom)%Qc)
     (if flat then 0%Qc else (sc2 / denom)%Qc)
     chi.

(** fillSpacePoint, cxx:410-528: the hits are remembered even when no point is made *)
Definition fill (g : geo) (hits : list hit) (sptv : list sp) (id : Z) (m : hmap) : outcome (list sp * hmap) :=
  match mfind id m with
  | Some _ => Throw UserExn
  | None =>
    let m' := (id, hits) :: m in
    if 2 <=? length hits then
      Ok (sptv ++ [point g (fun _ => 1%Qc) (fun sumw _ _ => (1 / sumw)%Qc) hits id], m')
    else Ok (sptv, m')
  end.

(** numhits[], weight[]: one over the cube of the number of hits in the plane, cxx:636-658 *)
Definition plane_weight (hits : list hit) (h : hit) : Qc :=
  let np := qc_nat (length (filter (fun k => hplane k =? hplane h) hits)) in (1 / (np * np * np))%Qc.
(** fillComplexSpacePoint, cxx:608-759 *)
Definition fill_complex (g : geo) (hits : list hit) (sptv : list sp) (id : Z) (m : hmap) : outcome (list sp * hmap) :=
  match mfind id m with
  | Some _ => Throw UserExn
  | None =>
    let m' := (id, hits) :: m in
    if 2 <=? length hits then
      Ok (sptv ++ [point g (plane_weight hits) (fun sumw sumt2w drift => (sumt2w / sumw - drift * drift)%Qc) hits id], m')
    else Ok (sptv, m')
  end.

(** fillSpacePoints, cxx:548-600. The track map in order of path length; None: not a KHitWireX.
    State: hits, compatible_hits, the points, fSptHitMap. *)
Definition runs_step (g : geo) (c : cfg) (s : list hit * list hit * list sp * hmap) (k : option hit) : outcome (list hit * list hit * list sp * hmap) :=
  let '(hits, comp, spts, m) := s in
  match k with
  | None => Ok s
  | Some h =>
    let hits1 := hits ++ [h] in
    do ok <- compatible g c hits1;
    if ok : bool then Ok (hits1, hits1, spts, m)
    else
      do r <- (if 2 <=? length comp then fill g comp spts (Z.of_nat (length m)) m else Ok (spts, m));
      Ok ([h], [h], fst r, snd r)
  end.
Definition fill_runs (g : geo) (c : cfg) (track : list (option hit)) (spts : list sp) (m : hmap) : outcome (list sp * hmap) :=
  do s <- foreach track (runs_step g c) ([], [], spts, m);
  let '(_, comp, spts, m) := s in
  if 2 <=? length comp then fill g comp spts (Z.of_nat (length m)) m else Ok (spts, m).

(* ---------------------------------------------------------------- makeSpacePoints *)

(** std::multimap<unsigned, art::Ptr<Hit>>::insert: after the equal keys *)
Fixpoint insw (h : hit) (l : list hit) : list hit :=
  match l with [] => [h] | k :: r => if hwire h <? hwire k then h :: l else k :: insw h r end.

(** cxx:840-841 *)
Definition enabled (c : cfg) (h : hit) : bool :=
  match hview h with VU => enu c | VV => env c | VW => enw c | VX => false end.

(** hitmap[cryostat][tpc][plane], cxx:818-846 *)
Definition hitmap := list (list (list (list hit))).
Definition add_hit (hm : hitmap) (h : hit) : outcome hitmap :=
  do a <- idx hm (hcryo h);
  do b <- idx a (htpc h);
  do l <- idx b (hplane h);
  Ok (upd hm (hcryo h) (upd a (htpc h) (upd b (hplane h) (insw h l)))).
Definition empty_map (g : geo) : hitmap := map (map (fun n => repeat [] n)) (g_shape g).
Definition sort_hits (g : geo) (c : cfg) (hits : list hit) : outcome hitmap :=
  foreach hits (fun hm h => if enabled c h then add_hit hm h else Ok hm) (empty_map g).

(** the order of the planes, cxx:976-996 *)
Definition order_swap (pc : nat -> bool) (planes : list (list hit)) (i : nat) (index : list nat) (j : nat) : outcome (list nat) :=
  do a <- idx index i;
  do b <- idx index j;
  do la <- idx planes a;
  do lb <- idx planes b;
  if ((length lb <? length la) && negb (pc b)) || pc a then Ok (upd (upd index i b) j a) else Ok index.
Definition order (pc : nat -> bool) (planes : list (list hit)) : outcome (list nat) :=
  let np := length planes in
  for_ (range 0 (np - 1)) (fun index i => for_ (range (i + 1) np) (order_swap pc planes i) index) (seq 0 np).

(** sptmap: multimap from the address of the hit on the last plane to points; sptkeys: the set of its keys; cxx:957-959 *)
Fixpoint insk (k : nat) (p : sp) (l : list (nat * sp)) : list (nat * sp) :=
  match l with [] => [(k, p)] | e :: r => if k <? fst e then (k, p) :: l else e :: insk k p r end.
Fixpoint inss (k : nat) (l : list nat) : list nat :=
  match l with [] => [k] | e :: r => if k <? e then k :: l else if k =? e then l else e :: inss k r end.

(** fSptHitMap, sptmap, sptkeys, spts *)
Record st := St { s_map : hmap; s_mm : list (nat * sp); s_keys : list nat; s_out : list sp }.

(** the elements from lower_bound(lo) to upper_bound(hi); when hi + 1 < lo the iterators may be in the wrong order *)
Definition between (lo hi : Z) (l : list hit) : outcome (list hit) :=
  if (lo <=? hi + 1)%Z then Ok (filter (fun h => (lo <=? Z.of_nat (hwire h))%Z && (Z.of_nat (hwire h) <=? hi)%Z) l) else Undef.

(** sine, cosine, offset of wire 0 of a plane, cxx:1026-1034, 1126-1174 (from the start point, over the whole length) *)
Definition sin0 (w : wire) : Qc := ((ye w - ys w) / (Q2Qc 2 * hl w))%Qc.
Definition cos0 (w : wire) : Qc := ((ze w - zs w) / (Q2Qc 2 * hl w))%Qc.
Definition dist0 (w : wire) : Qc := (- ys w * cos0 w + zs w * sin0 w)%Qc.

(** the wires of the second plane between the projections of the ends of wire [w1], cxx:1063-1073, 1197-1207 *)
Definition reach (w1 w2 : wire) (pitch2 : Qc) : outcome (Z * Z) :=
  if qc_eqb pitch2 0 || qc_eqb (hl w2) 0 then Undef else
  let a := ((- ys w1 * cos0 w2 + zs w1 * sin0 w2 - dist0 w2) / pitch2)%Qc in
  let b := ((- ye w1 * cos0 w2 + ze w1 * sin0 w2 - dist0 w2) / pitch2)%Qc in
  Ok (trunc (qmx 0 (qmin a b)), trunc (qmx 0 (qmx a b + 1))%Qc).

(** a point from [hits] with identifier [id], filed under the last hit, cxx:1100-1104, 1289-1293 *)
Definition add_point (g : geo) (hits : list hit) (last : hit) (id : Z) (s : st) : outcome st :=
  do r <- fill g hits [] id (s_map s);
  do p <- idx (fst r) (length (fst r) - 1);
  Ok (St (snd r) (insk (hid last) p (s_mm s)) (inss (hid last) (s_keys s)) (s_out s)).

(** the hits of plane2 for one hit of plane1, cxx:1075-1107 *)
Definition pair_hit (g : geo) (c : cfg) (cr t p2 : nat) (l2 : list hit) (s : st) (h1 : hit) : outcome st :=
  do r <- reach (wire_of g h1) (g_wire g cr t p2 0) (g_pitch g cr t p2);
  do hs <- between (fst r) (snd r) l2;
  foreach hs (fun s h2 =>
    do ok <- compatible g c [h1; h2];
    if ok : bool then add_point g [h1; h2] h2 (Z.of_nat (length (s_mm s))) s else Ok s) s.
(** pairs of planes, cxx:1012-1110 *)
Definition two_views (g : geo) (c : cfg) (cr t : nat) (planes : list (list hit)) (index : list nat) (s : st) : outcome st :=
  let np := length planes in
  for_ (range 0 (np - 1)) (fun s i =>
    do p1 <- idx index i;
    do l1 <- idx planes p1;
    if length l1 =? 0 then Ok s else
    for_ (range (i + 1) np) (fun s j =>
      do p2 <- idx index j;
      do l2 <- idx planes p2;
      if length l2 =? 0 then Ok s else
      if negb (prefer c) && (length l2 <? length l1) then Throw UserExn else
      foreach l1 (pair_hit g c cr t p2 l2) s) s) s.

(** the third hit, cxx:1250-1296 *)
Definition third_hit (g : geo) (c : cfg) (t1 t2 t3off : Qc) (su : Qc -> Qc) (pitch3 dist3 : Qc) (h1 h2 : hit) (s : st) (h3 : hit) : outcome st :=
  let t3 := (htime h3 - t3off)%Qc in
  if qle (qabs (t1 - t3)) (maxdt c) && qle (qabs (t2 - t3)) (maxdt c) then
    let u3 := (qc_nat (hwire h3) * pitch3 + dist3)%Qc in
    if qle (qabs (su u3)) (maxs c) then
      do ok <- compatible g c [h1; h2; h3];
      if ok : bool then add_point g [h1; h2; h3] h3 (Z.of_nat (length (s_mm s)) - 1) s else Ok s
    else Ok s
  else Ok s.
(** triplets, cxx:1112-1302 *)
Definition three_views (g : geo) (c : cfg) (cr t : nat) (planes : list (list hit)) (index : list nat) (s : st) : outcome st :=
  do p1 <- idx index 0; do p2 <- idx index 1; do p3 <- idx index 2;
  do l1 <- idx planes p1; do l2 <- idx planes p2; do l3 <- idx planes p3;
  let w1 := g_wire g cr t p1 0 in let w2 := g_wire g cr t p2 0 in let w3 := g_wire g cr t p3 0 in
  let pitch1 := g_pitch g cr t p1 in let pitch2 := g_pitch g cr t p2 in let pitch3 := g_pitch g cr t p3 in
  let s12 := (sin0 w1 * cos0 w2 - sin0 w2 * cos0 w1)%Qc in
  let s23 := (sin0 w2 * cos0 w3 - sin0 w3 * cos0 w2)%Qc in
  let s31 := (sin0 w3 * cos0 w1 - sin0 w1 * cos0 w3)%Qc in
  foreach l1 (fun s h1 =>
    let t1 := (htime h1 - g_off g cr t p1)%Qc in
    let u1 := (qc_nat (hwire h1) * pitch1 + dist0 w1)%Qc in
    do r <- reach (wire_of g h1) w2 pitch2;
    do hs <- between (fst r) (snd r) l2;
    foreach hs (fun s h2 =>
      let t2 := (htime h2 - g_off g cr t p2)%Qc in
      if qle (qabs (t1 - t2)) (maxdt c) then
        do ok <- compatible g c [h1; h2];
        if ok : bool then
          let u2 := (qc_nat (hwire h2) * pitch2 + dist0 w2)%Qc in
          if qc_eqb s12 0 || qc_eqb pitch3 0 then Undef else
          let u3pred := ((- u1 * s23 - u2 * s31) / s12)%Qc in
          let w3pred := ((u3pred - dist0 w3) / pitch3)%Qc in
          let w3delta := qabs (maxs c / (s12 * pitch3))%Qc in
          do hs3 <- between (Z.max 0 (Qceiling (w3pred - w3delta)%Qc)) (Z.max 0 (Qfloor (w3pred + w3delta)%Qc)) l3;
          foreach hs3 (third_hit g c t1 t2 (g_off g cr t p3) (fun u3 => (s23 * u1 + s31 * u2 + s12 * u3)%Qc) pitch3 (dist0 w3) h1 h2) s
        else Ok s
      else Ok s) s) s.

(** the best point of one key: the first of the lowest chisquare, cxx:1318-1339 *)
Definition best (k : nat) (mm : list (nat * sp)) : option sp :=
  fold_left (fun b e => if fst e =? k then match b with None => Some (snd e) | Some p => if qc_lt (sp_chi (snd e)) (sp_chi p) then Some (snd e) else b end else b) mm None.
Definition do_filter (s : st) : outcome st :=
  foreach (s_keys s) (fun s k =>
    match best k (s_mm s) with None => Throw UserExn | Some p => Ok (St (s_map s) (s_mm s) (s_keys s) (s_out s ++ [p])) end) s.

(** std::unique *)
Fixpoint unique (l : list hit) : list hit :=
  match l with
  | [] => []
  | h :: r => match r with k :: _ => if hid h =? hid k then unique r else h :: unique r | [] => [h] end
  end.
Definition ptr_lt (a b : hit) : bool := hid a <? hid b.
(** merging, cxx:1347-1404 *)
Definition merge_key (g : geo) (s : st) (k : nat) : outcome st :=
  do hits <- foreach (filter (fun e => fst e =? k) (s_mm s)) (fun acc e => do l <- assoc_hits (s_map s) (snd e); Ok (acc ++ l)) [];
  do r <- fill_complex g (unique (isort ptr_lt hits)) (s_out s) (Z.of_nat (length (s_mm s)) + Z.of_nat (length (s_out s)) - 1) (s_map s);
  Ok (St (snd r) (s_mm s) (s_keys s) (fst r)).
Definition do_merge (g : geo) (s : st) : outcome st := foreach (s_keys s) (merge_key g) s.
(** no filter, no merge, cxx:1406-1427 *)
Definition do_copy (s : st) : outcome st := Ok (St (s_map s) (s_mm s) (s_keys s) (s_out s ++ map snd (s_mm s))).

(** one TPC, cxx:962-1428 *)
Definition one_tpc (g : geo) (c : cfg) (hm : hitmap) (s : st) (ct : nat * nat) : outcome st :=
  let '(cr, t) := ct in
  do a <- idx hm cr;
  do planes <- idx a t;
  do index <- order (fun p => prefer c && g_coll g cr t p) planes;
  let np := length planes in
  let nviews := length (filter (fun l : list hit => negb (length l =? 0)) planes) in
  do s <- (if ((nviews =? 2) || (np =? 2)) && (minviews c <=? 2) then two_views g c cr t planes index s else Ok s);
  do s <- (if (3 <=? np) && (minviews c <=? 3) then three_views g c cr t planes index s else Ok s);
  if filt c then do_filter s else if merge c then do_merge g s else do_copy s.

(** geom->Iterate<geo::TPCID>() *)
Definition tpcs (g : geo) : list (nat * nat) :=
  flat_map (fun cr => map (pair cr) (seq 0 (length (nth cr (g_shape g) [])))) (seq 0 (length (g_shape g))).

(** makeSpacePoints, cxx:789-1436: the points and fSptHitMap *)
Definition make (g : geo) (c : cfg) (hits : list hit) : outcome (list sp * hmap) :=
  do hm <- sort_hits g c hits;
  do s <- foreach (tpcs g) (one_tpc g c hm) (St [] [] [] []);
  Ok (s_out s, s_map s).
