(** Model of the searches for vertices in TrajCluster: Find2DVertices, AttachAnyTrajToVertex,
    Reconcile2Vs (clustering) and Find3DVertices.
    /repo/larreco/RecoAlg/TCAlg/TCVertex.cxx.

    Simplifications (whole file): as in TV_Model. All geometry is an oracle; the oracles may look at
    the whole slice. One TPC. *)
From Verif Require Import Base TV_Model.
From Coq Require Import QArith Qcanon.
Import TV_Model.
Local Open Scope nat_scope.

Section Find.
Variable npl : nat.     (* slc.nPlanes *)
Variable cut : Qc.      (* tcc.vtx2DCuts[7] *)

(** ** Find2DVertices *)

(** the verdicts used while searching for 2D vertices; trajectories and vertices are given by index *)
Record f2_geo := F2 {
  shower : nat -> bool;                               (* SSID > 0 or kShowerLike *)
  wrong : nat -> bool -> bool;                        (* PDGCode == 111 and not the start end *)
  weak : nat -> nat -> bool;                          (* both MCSMom too small *)
  end_of : slice -> nat -> bool -> nat -> bool;       (* the end of the second one closer to the first *)
  cuts : slice -> nat -> bool -> nat -> bool;         (* the cuts on positions, lines 225-375 *)
  fits : slice -> nat -> bool -> nat -> bool;         (* FitVertex *)
  close_to : slice -> nat -> bool -> nat -> nat;      (* IsCloseToVertex *)
  mgeo : slice -> nat -> bool -> nat -> mwv_geo;      (* MergeWithVertex *)
  vpos : slice -> nat -> bool -> nat -> Z;            (* the wire *)
  far : slice -> nat -> nat -> bool;                  (* trajectory, vertex: sep > 100 *)
  nearend : slice -> nat -> nat -> bool;              (* the end closest to the vertex *)
  fom : slice -> nat -> nat -> Qc;                    (* pull * (sep + 1) *)
  fom0 : Qc;                                          (* 2 * vtx2DCuts[3] * (vtx2DCuts[0] + 1) *)
  verd : slice -> nat -> nat -> verdict;              (* AttachTrajToVertex *)
  score2 : slice -> nat -> Qc }.                      (* SetVx2Score *)

(** AttachAnyTrajToVertex, TCVertex.cxx:1678-1719, for vertex index [vi] with vtx2DCuts[0] >= 0 and
    Topo neither 5 nor 6 *)
Definition attach_any (g : f2_geo) (s : slice) (vi : nat) : outcome (bool * slice) :=
  if List.length (vs s) <=? vi then Ok (false, s)
  else do v <- idx (vs s) vi;
       if vid v =? 0 then Ok (false, s)
       else
         do best <- for_ (seq 0 (List.length (tjs s))) (fun best ti =>
           do t <- idx (tjs s) ti;
           if dead t || halo t then Ok best
           else if negb (tctp t =? vctp v) then Ok best
           else if far g s ti vi then Ok best
           else if 0 <? vtxid t (nearend g s ti vi) then Ok best
           else if qlt (snd best) (fom g s ti vi) then Ok best
           else Ok (Some ti, fom g s ti vi)) (None, fom0 g);
         match fst best with
         | None => Ok (false, s)
         | Some ti => attach s ti vi (nearend g s ti vi) (verd g s ti vi)
         end.

(** the loop over it2, TCVertex.cxx:206-418 *)
Definition f2_pair (g : f2_geo) (ctp i1 : nat) (b1 : bool) (s : slice) (i2 : nat) : outcome slice :=
  do t2 <- idx (tjs s) i2;
  if dead t2 || halo t2 then Ok s
  else if shower g i2 then Ok s
  else if negb (tctp t2 =? ctp) then Ok s
  else do t1 <- idx (tjs s) i1;
       if 0 <? vtxid t1 b1 then Ok s
       else if weak g i1 i2 then Ok s
       else let b2 := end_of g s i1 b1 i2 in
            if 0 <? vtxid t2 b2 then Ok s
            else if wrong g i2 b2 then Ok s
            else if (0 <? vtxid t1 (negb b1)) && (vtxid t1 (negb b1) =? vtxid t2 (negb b2)) then Ok s
            else if negb (cuts g s i1 b1 i2) then Ok s
            else do r <- try_vertex s ctp i1 b1 i2 b2 (fits g s i1 b1 i2) (close_to g s i1 b1 i2)
                                    (mgeo g s i1 b1 i2) (vpos g s i1 b1 i2);
                 if negb (fst r) then Ok (snd r)
                 else do a <- attach_any g (snd r) (List.length (vs (snd r)) - 1);
                      set_vx2_score (score2 g) (snd a) (List.length (vs (snd a)) - 1).

(** Find2DVertices, TCVertex.cxx:131-420, with vtx2DCuts[0] > 0, before the last pass (the calls of
    FindHammerVertices, 423-426, are not modelled) *)
Definition find2d (g : f2_geo) (ctp : nat) (s : slice) : outcome slice :=
  if List.length (tjs s) <? 2 then Ok s
  else for_ (seq 0 (List.length (tjs s) - 1)) (fun s i1 =>
         do t1 <- idx (tjs s) i1;
         if dead t1 || halo t1 then Ok s
         else if shower g i1 then Ok s
         else if negb (tctp t1 =? ctp) then Ok s
         else foreach [false; true] (fun s b1 =>
                do t1 <- idx (tjs s) i1;
                if 0 <? vtxid t1 b1 then Ok s
                else if wrong g i1 b1 then Ok s
                else for_ (seq (i1 + 1) (List.length (tjs s) - (i1 + 1))) (f2_pair g ctp i1 b1) s) s) s.

(** ** Reconcile2Vs: the clusters of close 2D vertices *)

(** TCVertex.cxx:1097-1123 for one close pair of IDs *)
Fixpoint join_pair (a b : nat) (cl : list (list nat)) : list (list nat) :=
  match cl with
  | [] => [[a; b]]
  | c :: r =>
      let goti := existsb (Nat.eqb a) c in let gotj := existsb (Nat.eqb b) c in
      if goti && gotj then c :: r
      else if goti then (c ++ [b]) :: r
      else if gotj then (c ++ [a]) :: r
      else c :: join_pair a b r
  end.

(** TCVertex.cxx:1072-1125 for one plane; [close i j] is the verdict of lines 1084-1096 for the
    indices i < j *)
Definition clusters (close : nat -> nat -> bool) (s : slice) (p : nat) : outcome (list (list nat)) :=
  for_ (seq 0 (List.length (vs s) - 1)) (fun cl ii =>
    do vi <- idx (vs s) ii;
    if vid vi =? 0 then Ok cl
    else if negb (plane (vctp vi) =? p) then Ok cl
    else for_ (seq (ii + 1) (List.length (vs s) - (ii + 1))) (fun cl jj =>
           do vj <- idx (vs s) jj;
           if vid vj =? 0 then Ok cl
           else if negb (plane (vctp vj) =? p) then Ok cl
           else if negb (close ii jj) then Ok cl
           else Ok (join_pair (vid vi) (vid vj) cl)) cl) [].

(** GetAssns(slc, "2V", id, "T"), Utils.cxx:4747-4757; trajectory IDs are distinct *)
Definition tjs_of (s : slice) (id : nat) : list nat :=
  flat_map (fun t => if dead t || halo t then [] else if (e0 t =? id) || (e1 t =? id) then [tid t] else []) (tjs s).

(** Reconcile2VTs, TCVertex.cxx:1154-1256, up to the sum of the positions: [clean] is the verdict that
    NearbyCleanPt finds a point for every pull (1180-1193). vx.Pos is an array of two floats, so line
    1214 reads past its end. What follows that line is not modelled. *)
Definition reconcile (clean : bool) (s : slice) (cls : list nat) : outcome (bool * slice) :=
  if List.length cls <? 2 then Ok (false, s)
  else
    do r <- foreach cls (fun acc id =>
      match acc with
      | None => Ok None
      | Some l => do v <- at1 (vs s) id;
                  if vid v =? 0 then Ok None else Ok (Some (union l (tjs_of s (vid v))))
      end) (Some []);
    match r with
    | None => Ok (true, s)
    | Some l => if List.length l <? 3 then Ok (false, s)
                else if negb clean then Ok (false, s)
                else Undef
    end.

(** ** Find3DVertices *)

(** a candidate 3D vertex: Vx2ID, Wire, Score *)
Record cand := C3 { c2 : list nat; cw : Z; csc : Qc }.

(** the verdicts: [posok]: Pos[0] >= -0.4; [m2 i j]: the two vertices (by index) match, with the
    position error (0 below 0.5) and kWire; [m3 i j k]: the third one matches with that position
    error; [wt] is vtx3DCuts[2]; [srt] is std::sort by increasing score; [sc2] is SetVx2Score *)
Record f3_geo := F3 { posok : nat -> bool; m2 : nat -> nat -> option (Qc * Z);
                      m3 : nat -> nat -> nat -> option Qc; wt : Qc;
                      srt : list cand -> list cand; sc2 : slice -> nat -> Qc }.

(** vIndex[p], TCVertex.cxx:1268-1277 *)
Definition vindex (s : slice) (p : nat) : list nat :=
  filter (fun i => match nth_error (vs s) i with
                   | Some v => negb (vid v =? 0) && (plane (vctp v) =? p)
                   | None => false
                   end) (seq 0 (List.length (vs s))).

(** vX[i] != FLT_MAX, TCVertex.cxx:1297-1305 *)
Definition usable (g : f3_geo) (s : slice) (i : nat) : bool :=
  match nth_error (vs s) i with
  | Some v => negb (vid v =? 0) && negb (qlt (vsc v) cut) && posok g i
  | None => false
  end.

(** SetVx3Score of a candidate (2225-2243, with ID = 666) and lines 1387-1392 or 1435-1440 *)
Definition cand_score (g : f3_geo) (s : slice) (ids : list nat) (pe : Qc) : outcome (slice * Qc) :=
  do x <- vx3_score npl s ids;
  do s1 <- (if qlt cut x then high_bits s ids else Ok s);
  Ok (s1, (pe + wt g / x)%Qc).

Definition f3_state := (slice * list cand * Qc)%type.

(** a 3-plane match, TCVertex.cxx:1412-1446. Simplification: a vertex whose vX is FLT_MAX fails the
    dX cut of line 1417. *)
Definition f3_third (g : f3_geo) (i j kpl : nat) (l : list nat) (st : f3_state) (k : nat) : outcome f3_state :=
  let '(s, cs, mx) := st in
  if negb (usable g s k) then Ok st
  else match m3 g i j k with
       | None => Ok st
       | Some pe =>
           do v <- idx (vs s) k;
           do l' <- set_idx l kpl (vid v);
           do r <- cand_score g s l' pe;
           Ok (fst r, cs ++ [C3 l' (-1)%Z (snd r)], if qlt mx (snd r) then snd r else mx)
       end.

(** a 2-plane match, TCVertex.cxx:1326-1447 *)
Definition f3_pair (g : f3_geo) (ipl i jpl : nat) (st : f3_state) (j : nat) : outcome f3_state :=
  let '(s, cs, mx) := st in
  if negb (usable g s j) then Ok st
  else match m2 g i j with
       | None => Ok st
       | Some (pe, kw) =>
           do vi <- idx (vs s) i; do vj <- idx (vs s) j;
           do l0 <- set_idx (repeat 0 npl) ipl (vid vi);
           do l1 <- set_idx l0 jpl (vid vj);
           do l2 <- (if npl =? 2 then set_idx l1 2 0 else Ok l1);
           do r <- cand_score g s l2 pe;
           let st1 := (fst r, cs ++ [C3 l2 kw (snd r)], mx) in
           if npl =? 2 then Ok st1
           else let kpl := 3 - ipl - jpl in
                foreach (vindex s kpl) (f3_third g i j kpl l2) st1
       end.

(** the list of candidates, TCVertex.cxx:1318-1450 *)
Definition f3_cands (g : f3_geo) (s : slice) : outcome f3_state :=
  foreach [0; 1] (fun st ipl =>
    foreach (vindex s ipl) (fun st i =>
      if negb (usable g (fst (fst st)) i) then Ok st
      else foreach (seq (ipl + 1) (2 - ipl)) (fun st jpl =>
             foreach (vindex s jpl) (f3_pair g ipl i jpl) st) st) st) (s, [], 0%Qc).

(** TCVertex.cxx:1487-1496: the candidate shares a 2D vertex with one already selected *)
Definition clash (c d : cand) : bool :=
  existsb (fun p => negb (nth p (c2 c) 0 =? 0) && (nth p (c2 c) 0 =? nth p (c2 d) 0)) (seq 0 npl).

(** TCVertex.cxx:1482-1499 *)
Definition select (l : list cand) : list cand :=
  fold_left (fun sel c => if existsb (clash c) sel then sel else sel ++ [c]) l [].

(** TCVertex.cxx:1515-1534 for one selected vertex *)
Definition store3 (s : slice) (c : cand) : outcome slice :=
  let id := List.length (ws s) + 1 in
  let s1 := set_g3 s (S (g3 s)) in
  let s2 := set_ws s1 (ws s ++ [W id (c2 c) (csc c) (cw c) false false (S (g3 s))]) in
  for_ (seq 0 npl) (fun s p =>
    do x <- idx (c2 c) p;
    if x =? 0 then Ok s
    else do v <- at1 (vs s) x; Ok (set_vs s (upd (vs s) (x - 1) (set_v3 v id)))) s2.

(** TCVertex.cxx:1544-1561 *)
Definition f3_tail (g : f3_geo) (s : slice) : outcome slice :=
  let s1 := set_tjs s (map (fun t => if dead t || halo t then t else set_thi t false) (tjs s)) in
  do s2 <- for_ (seq 0 (List.length (vs s1))) (set_vx2_score (sc2 g)) s1;
  for_ (seq 0 (List.length (ws s2)))
       (fun s k => do w <- idx (ws s) k; if wid w =? 0 then Ok s else set_vx3_score npl cut s k) s2.

(** Find3DVertices, TCVertex.cxx:1258-1563, with vtx3DCuts[0] >= 0. The functions that complete
    incomplete vertices (1537-1540) are taken as switched off (useAlg[kComp3DVx] and
    useAlg[kComp3DVxIG] false, lines 2380 and 2476). vIndex has three elements. *)
Definition find3d (g : f3_geo) (s : slice) : outcome slice :=
  if List.length (vs s) <? 2 then Ok s
  else
    do n <- for_ (seq 0 npl) (fun n p =>
              do l <- idx [vindex s 0; vindex s 1; vindex s 2] p;
              Ok (match l with [] => n | _ => S n end)) 0;
    if n <? 2 then Ok s
    else
      do r <- f3_cands g s;
      let '(s1, cs, mx) := r in
      match cs with
      | [] => Ok s1
      | _ =>
          let cs1 := map (fun c => if (0 <=? cw c)%Z then C3 (c2 c) (cw c) (csc c + (mx + 1))%Qc else c) cs in
          let sel := select (srt g cs1) in
          do s2 <- foreach sel store3 s1;
          f3_tail g s2
      end.

End Find.
