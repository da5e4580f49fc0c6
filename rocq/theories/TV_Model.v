(** Model of the TrajCluster vertex book-keeping: which trajectory end belongs to which 2D vertex,
    which 2D vertices make up which 3D vertex, and how vertices are stored, attached, merged, scored,
    checked and killed.
    /repo/larreco/RecoAlg/TCAlg/TCVertex.cxx, Utils.cxx, TCShower.cxx, DataStructs.h.

    Simplifications (whole file):
    - one slice; evt.global2V_UID and evt.global3V_UID are part of the slice state;
    - the [int] and [unsigned short] identifiers are natural numbers (fewer than 65535 objects), 0 is
      "none" for a reference and "obsolete" for an ID, as in the code;
    - positions, fits and pulls are not computed: every geometrical verdict the code computes is an
      argument of the operation (an oracle); float scores are exact rationals;
    - log printing is left out. *)
From Verif Require Import Base SortUtil QcUtil.
From Coq Require Import QArith Qcanon.
Local Open Scope nat_scope.

(** struct Trajectory, DataStructs.h:191-218: ID, CTP, AlgMod[kKilled], AlgMod[kHaloTj], VtxID[0],
    VtxID[1], AlgMod[kTjHiVx3Score], AlgMod[kPhoton] *)
Record tj := T { tid : nat; tctp : nat; dead : bool; halo : bool; e0 : nat; e1 : nat;
                 thi : bool; pho : bool }.

(** struct VtxStore, DataStructs.h:73-90: ID, CTP, Vx3ID, UID, NTraj, Score, Stat[kHiVx3Score], and
    the wire coordinate Pos[0] *)
Record vx := V { vid : nat; vctp : nat; v3 : nat; vuid : nat; nt : nat; vsc : Qc; vhi : bool;
                 vwire : Z }.

(** struct Vtx3Store, DataStructs.h:105-120: ID, Vx2ID, Score, Wire, Primary, Neutrino, UID *)
Record vx3 := W { wid : nat; w2 : list nat; wsc : Qc; wire : Z; prim : bool; neu : bool; wuid : nat }.

(** struct PFPStruct: ID and Vx3ID[0], Vx3ID[1] *)
Record pfp := PF { pid : nat; p0 : nat; p1 : nat }.

(** struct TCSlice: tjs, vtxs, vtx3s, pfps; evt.global2V_UID, evt.global3V_UID *)
Record slice := SL { tjs : list tj; vs : list vx; ws : list vx3; ps : list pfp; g2 : nat; g3 : nat }.

Definition set_tjs s l := SL l (vs s) (ws s) (ps s) (g2 s) (g3 s).
Definition set_vs s l := SL (tjs s) l (ws s) (ps s) (g2 s) (g3 s).
Definition set_ws s l := SL (tjs s) (vs s) l (ps s) (g2 s) (g3 s).
Definition set_ps s l := SL (tjs s) (vs s) (ws s) l (g2 s) (g3 s).
Definition set_g2 s n := SL (tjs s) (vs s) (ws s) (ps s) n (g3 s).
Definition set_g3 s n := SL (tjs s) (vs s) (ws s) (ps s) (g2 s) n.

(** an end of a trajectory: false is end 0, true is end 1 *)
Definition vtxid (t : tj) (e : bool) : nat := if e then e1 t else e0 t.
Definition set_end (t : tj) (e : bool) (x : nat) : tj :=
  if e then T (tid t) (tctp t) (dead t) (halo t) (e0 t) x (thi t) (pho t)
  else T (tid t) (tctp t) (dead t) (halo t) x (e1 t) (thi t) (pho t).
Definition set_thi (t : tj) b := T (tid t) (tctp t) (dead t) (halo t) (e0 t) (e1 t) b (pho t).
Definition set_pho (t : tj) b := T (tid t) (tctp t) (dead t) (halo t) (e0 t) (e1 t) (thi t) b.
Definition set_dead (t : tj) b := T (tid t) (tctp t) b (halo t) (e0 t) (e1 t) (thi t) (pho t).

Definition set_vid (v : vx) x := V x (vctp v) (v3 v) (vuid v) (nt v) (vsc v) (vhi v) (vwire v).
Definition set_v3 (v : vx) x := V (vid v) (vctp v) x (vuid v) (nt v) (vsc v) (vhi v) (vwire v).
Definition set_vuid (v : vx) x := V (vid v) (vctp v) (v3 v) x (nt v) (vsc v) (vhi v) (vwire v).
Definition set_nt (v : vx) x := V (vid v) (vctp v) (v3 v) (vuid v) x (vsc v) (vhi v) (vwire v).
Definition set_vsc (v : vx) x := V (vid v) (vctp v) (v3 v) (vuid v) (nt v) x (vhi v) (vwire v).
Definition set_vhi (v : vx) x := V (vid v) (vctp v) (v3 v) (vuid v) (nt v) (vsc v) x (vwire v).

Definition set_wid (w : vx3) x := W x (w2 w) (wsc w) (wire w) (prim w) (neu w) (wuid w).
Definition set_w2 (w : vx3) x := W (wid w) x (wsc w) (wire w) (prim w) (neu w) (wuid w).
Definition set_wsc (w : vx3) x := W (wid w) (w2 w) x (wire w) (prim w) (neu w) (wuid w).
Definition set_wire (w : vx3) x := W (wid w) (w2 w) (wsc w) x (prim w) (neu w) (wuid w).
Definition set_wuid (w : vx3) x := W (wid w) (w2 w) (wsc w) (wire w) (prim w) (neu w) x.

(** DecodeCTP(CTP).Plane, DataStructs.cxx:100-107 *)
Definition plane (ctp : nat) : nat := ctp mod 10.

Definition qle (a b : Qc) : bool := if Qclt_le_dec b a then false else true.
Definition qlt (a b : Qc) : bool := if Qclt_le_dec a b then true else false.

(** slc.vtxs[id - 1]: undefined for id = 0 (the index wraps around) and beyond the end *)
Definition at1 {A} (l : list A) (id : nat) : outcome A :=
  match id with O => Undef | S i => idx l i end.

Fixpoint map_o {A B} (f : A -> outcome B) (l : list A) : outcome (list B) :=
  match l with
  | [] => Ok []
  | a :: r => do b <- f a; do r' <- map_o f r; Ok (b :: r')
  end.

Section Cuts.
Variable npl : nat.     (* slc.nPlanes *)
Variable cut : Qc.      (* tcc.vtx2DCuts[7] *)

(** ** Reading the associations *)

(** GetVtxTjIDs for a 2D vertex, TCVertex.cxx:2807-2820 *)
Definition vtx_tjs (s : slice) (v : vx) : list nat :=
  if vid v =? 0 then []
  else flat_map (fun t => if dead t then [] else if negb (tctp t =? vctp v) then []
                          else (if e0 t =? vid v then [tid t] else []) ++
                               (if e1 t =? vid v then [tid t] else [])) (tjs s).

(** ** Storing a vertex *)

(** StoreVertex, TCVertex.cxx:1908-1940. Returns the verdict and the slice. *)
Definition store_vertex (s : slice) (v : vx) : bool * slice :=
  if negb (vid v =? List.length (vs s) + 1) then (false, s)
  else
    let s1 := set_g2 s (S (g2 s)) in
    let v1 := set_vuid v (S (g2 s)) in
    let refs t := (vid v =? e0 t) || (vid v =? e1 t) in
    let nvxtj := List.length (filter (fun t => negb (dead t) && refs t) (tjs s)) in
    let nok := List.length (filter (fun t => negb (dead t) && (vctp v =? tctp t) && refs t) (tjs s)) in
    if negb (nok =? nvxtj) then
      (false, set_tjs s1 (map (fun t => if dead t then t else
                                let t1 := if e0 t =? vid v then set_end t false 0 else t in
                                if e1 t1 =? vid v then set_end t1 true 0 else t1) (tjs s)))
    else (true, set_vs s1 (vs s ++ [set_nt v1 nok])).

(** ** Attaching a trajectory *)

(** What the geometry decides in AttachTrajToVertex, TCVertex.cxx:1740-1815 and 1823-1840:
    rejected; accepted but not near an end (dpt > 2, line 1815); accepted. An accepted attachment
    carries whether there is no signal between (kPhoton) and the re-fit: [Some score] when FitVertex
    succeeds (then SetVx2Score). *)
Inductive verdict := Reject | Inside | Accept (photon : bool) (refit : option Qc).

(** AttachTrajToVertex, TCVertex.cxx:1722-1841, for trajectory index [ti], vertex index [vi]; [e] is
    the end closest to the vertex (1745-1753). FitVertex and SetVx2Score of the copy change only its
    score here (its position and errors are not modelled). *)
Definition attach (s : slice) (ti vi : nat) (e : bool) (g : verdict) : outcome (bool * slice) :=
  do t <- idx (tjs s) ti; do v <- idx (vs s) vi;
  if dead t || halo t then Ok (false, s)
  else if negb (tctp t =? vctp v) then Ok (false, s)
  else if (e0 t =? vid v) || (e1 t =? vid v) then Ok (false, s)
  else if 0 <? vtxid t e then Ok (false, s)
  else match g with
       | Reject => Ok (false, s)
       | Inside => Ok (true, s)
       | Accept ph refit =>
           let s1 := set_tjs s (upd (tjs s) ti (set_pho (set_end t e (vid v)) ph)) in
           match refit with
           | Some sc => Ok (true, set_vs s1 (upd (vs s1) vi (set_vsc v sc)))
           | None => Ok (true, s1)
           end
       end.

(** ** High-score bits and scores *)

(** the loop over one trajectory's ends, TCVertex.cxx:2195-2203 *)
Definition mark_end (t : tj) (st : list vx * list nat) (e : bool) : outcome (list vx * list nat) :=
  let '(l, out) := st in
  if vtxid t e =? 0 then Ok st
  else do u <- at1 l (vtxid t e);
       if vhi u then Ok st
       else Ok (upd l (vtxid t e - 1) (set_vhi u true), out ++ [vid u]).

(** the loop over tjlist, TCVertex.cxx:2194-2204 *)
Definition mark_tj (st : slice * list nat) (id : nat) : outcome (slice * list nat) :=
  let '(s, out) := st in
  do t <- at1 (tjs s) id;
  let t' := set_thi t true in
  do r <- mark_end t' (vs s, out) false;
  do r' <- mark_end t' r true;
  Ok (SL (upd (tjs s) (id - 1) t') (fst r') (ws s) (ps s) (g2 s) (g3 s), snd r').

(** newtjlist, TCVertex.cxx:2208-2216 *)
Definition new_tjs (s : slice) (tjlist vxlist : list nat) : outcome (list nat) :=
  foreach vxlist (fun acc id =>
    do u <- at1 (vs s) id;
    Ok (acc ++ filter (fun x => negb (existsb (Nat.eqb x) tjlist)) (vtx_tjs s u))) [].

(** while (true), TCVertex.cxx:2190-2219; running out of fuel (never, see TV_High) is Undef *)
Fixpoint spread (fuel : nat) (s : slice) (tjlist : list nat) : outcome slice :=
  match fuel with
  | O => Undef
  | S f =>
      do r <- foreach tjlist mark_tj (s, []);
      let '(s1, vxlist) := r in
      match vxlist with
      | [] => Ok s1
      | _ => do nl <- new_tjs s1 tjlist vxlist;
             match nl with [] => Ok s1 | _ => spread f s1 nl end
      end
  end.

(** SetHighScoreBits, TCVertex.cxx:2177-2222, for the 2D vertices [ids] of a 3D vertex that is not
    obsolete; the planes are visited in order *)
Definition high_bits (s : slice) (ids : list nat) : outcome slice :=
  foreach ids (fun s id =>
    if id =? 0 then Ok s
    else do v <- at1 (vs s) id;
         let s1 := set_vs s (upd (vs s) (id - 1) (set_vhi v false)) in
         spread (S (List.length (vs s))) s1 (vtx_tjs s1 v)) s.

(** the sum and average of the 2D scores, TCVertex.cxx:2232-2240 *)
Definition vx3_score (s : slice) (ids : list nat) : outcome Qc :=
  do sum <- foreach ids (fun acc id => if id =? 0 then Ok acc
                                      else do v <- at1 (vs s) id; Ok (acc + vsc v)%Qc) 0%Qc;
  let x := (sum / Q2Qc (inject_Z (Z.of_nat npl)))%Qc in
  Ok (if qlt x (Q2Qc (1 # 1000)) then Q2Qc (1 # 1000) else x).

(** SetVx3Score, TCVertex.cxx:2225-2243, for the stored 3D vertex with index [k] *)
Definition set_vx3_score (s : slice) (k : nat) : outcome slice :=
  do w <- idx (ws s) k;
  if wid w =? 0 then Ok s
  else do x <- vx3_score s (w2 w);
       let s1 := set_ws s (upd (ws s) k (set_wsc w x)) in
       if qlt cut x then high_bits s1 (w2 w) else Ok s1.

(** SetVx2Score, TCVertex.cxx:2255-2373: the score of a live vertex as a function of the slice is the
    oracle [sc] (it depends on positions, charges and momenta) *)
Definition set_vx2_score (sc : slice -> nat -> Qc) (s : slice) (i : nat) : outcome slice :=
  do v <- idx (vs s) i;
  if vid v =? 0 then Ok s else Ok (set_vs s (upd (vs s) i (set_vsc v (sc s i)))).

(** ScoreVertices, TCVertex.cxx:2132-2156 *)
Definition score_vertices (sc : slice -> nat -> Qc) (s : slice) : outcome slice :=
  let s1 := set_vs s (map (fun v => if vid v =? 0 then v else set_vhi v false) (vs s)) in
  let s2 := set_tjs s1 (map (fun t => if dead t || halo t then t else set_thi t false) (tjs s1)) in
  do s3 <- for_ (seq 0 (List.length (vs s2))) (set_vx2_score sc) s2;
  for_ (seq 0 (List.length (ws s3)))
       (fun s k => do w <- idx (ws s) k; if wid w =? 0 then Ok s else set_vx3_score s k) s3.

(** ** Making vertices obsolete *)

(** the loop over the ends, TCVertex.cxx:2721-2748. Simplification: the loop over the points
    (2726-2739) changes nothing and is left out. *)
Definition mvo_end (l : list vx) (id : nat) (e : bool) (t : tj) : outcome tj :=
  if negb (vtxid t e =? id) then Ok t
  else
    let t1 := set_pho (set_end t e 0) false in
    if thi t1 then
      if 0 <? vtxid t1 (negb e) then
        do o <- at1 l (vtxid t1 (negb e)); Ok (if vhi o then t1 else set_thi t1 false)
      else Ok t1
    else Ok t1.

(** the loop over the trajectories, TCVertex.cxx:2719-2749 *)
Definition mvo_tj (l : list vx) (id : nat) (t : tj) : outcome tj :=
  if dead t || halo t then Ok t
  else do t1 <- mvo_end l id false t; mvo_end l id true t1.

(** TCVertex.cxx:2715-2716 *)
Definition clear_id (id : nat) (l : list nat) : list nat := map (fun x => if x =? id then 0 else x) l.

(** MakeVertexObsolete of the 2D vertex with index [i], TCVertex.cxx:2698-2786. Simplification: n2D
    (2762-2764) counts all entries of Vx2ID (there are nPlanes of them, TCVertex.cxx:1377). *)
Definition mvo2 (s : slice) (i : nat) (force : bool) : outcome (bool * slice) :=
  do v <- idx (vs s) i;
  let has := 0 <? v3 v in
  do prot <- (if has && negb force then do w <- at1 (ws s) (v3 v); Ok (qle cut (wsc w)) else Ok false);
  if (prot : bool) then Ok (false, s)
  else
    do s1 <- (if has then do w <- at1 (ws s) (v3 v);
                          Ok (set_ws s (upd (ws s) (v3 v - 1) (set_w2 w (clear_id (vid v) (w2 w)))))
              else Ok s);
    let s2 := set_vs s1 (upd (vs s1) i (set_vid v 0)) in
    do ts <- map_o (mvo_tj (vs s2) (vid v)) (tjs s2);
    let s3 := set_tjs s2 ts in
    if negb has then Ok (true, s3)
    else
      do w <- at1 (ws s3) (v3 v);
      do x <- idx (w2 w) (plane (vctp v));
      if negb (x =? vid v) then Ok (true, s3)
      else
        let w' := set_wire (set_w2 w (upd (w2 w) (plane (vctp v)) 0)) (vwire v) in
        let s4 := set_ws s3 (upd (ws s3) (v3 v - 1) w') in
        if 1 <? List.length (filter (fun x => 0 <? x) (w2 w')) then
          do s5 <- set_vx3_score s4 (v3 v - 1); Ok (true, s5)
        else
          let s5 := set_vs s4 (map (fun u => if vid u =? 0 then u
                                             else if v3 u =? wid w' then set_v3 u 0 else u) (vs s4)) in
          let s6 := set_ps s5 (map (fun p => PF (pid p) (if p0 p =? wid w' then 0 else p0 p)
                                                (if p1 p =? wid w' then 0 else p1 p)) (ps s5)) in
          Ok (true, set_ws s6 (upd (ws s6) (v3 v - 1) (set_wid w' 0))).

(** MakeVertexObsolete of the 3D vertex with index [k], TCVertex.cxx:2789-2804. The entries of Vx2ID
    are read one at a time, after the calls made for the earlier entries. *)
Definition mvo3 (s : slice) (k : nat) : outcome (bool * slice) :=
  do w <- idx (ws s) k;
  if wid w =? 0 then Ok (true, s)
  else if List.length (ws s) <? wid w then Ok (false, s)
  else
    do s1 <- for_ (seq 0 (List.length (w2 w))) (fun s p =>
               do w' <- idx (ws s) k; do id <- idx (w2 w') p;
               if (id =? 0) || (List.length (vs s) <? id) then Ok s
               else do r <- mvo2 s (id - 1) true; Ok (snd r)) s;
    do w1 <- idx (ws s1) k;
    Ok (true, set_ws s1 (upd (ws s1) k (set_wid w1 0))).

(** KillPoorVertices, TCVertex.cxx:2159-2174 *)
Definition kill_poor (s : slice) : outcome slice :=
  for_ (seq 0 (List.length (vs s))) (fun s i =>
    do v <- idx (vs s) i;
    if vid v =? 0 then Ok s
    else if qlt cut (vsc v) then Ok s
    else do keep <- (if 0 <? v3 v then do w <- at1 (ws s) (v3 v); Ok (prim w || qle cut (wsc w))
                     else Ok false);
         if (keep : bool) then Ok s else do r <- mvo2 s i false; Ok (snd r)) s.

(** KillVerticesInShower, TCShower.cxx:704-744, for a shower in [ctp]; [inside i] is the verdict of
    PointInsideEnvelope for vertex index [i]. Simplification: dontCluster and the AlgMod tag
    kKillInShowerVx are left out. *)
Definition kill_in_shower (ctp : nat) (inside : nat -> bool) (s : slice) : outcome slice :=
  for_ (seq 0 (List.length (vs s))) (fun s i =>
    do v <- idx (vs s) i;
    if vid v =? 0 then Ok s
    else if negb (vctp v =? ctp) then Ok s
    else do nu <- (if 0 <? v3 v then do w <- at1 (ws s) (v3 v); Ok (neu w) else Ok false);
         if (nu : bool) then Ok s
         else if negb (inside i) then Ok s
         else if 0 <? v3 v then do r <- mvo3 s (v3 v - 1); Ok (snd r)
         else do r <- mvo2 s i true; Ok (snd r)) s.

(** ** Checking the associations *)

(** TCVertex.cxx:2065-2085 for one 2D vertex: true when the check passes *)
Definition chk2 (s : slice) (ctp : nat) (v : vx) : outcome bool :=
  if negb (vctp v =? ctp) then Ok true
  else if vid v =? 0 then Ok true
  else if v3 v =? 0 then Ok true
  else if List.length (ws s) <? v3 v then Ok false
  else do w <- at1 (ws s) (v3 v);
       if wid w =? 0 then Ok false
       else do x <- idx (w2 w) (plane ctp); Ok (x =? vid v).

(** TCVertex.cxx:2087-2101 for one 3D vertex *)
Definition chk3 (s : slice) (ctp : nat) (w : vx3) : outcome bool :=
  if wid w =? 0 then Ok true
  else do x <- idx (w2 w) (plane ctp);
       if x =? 0 then Ok true
       else if List.length (vs s) <? x then Ok false
       else do v <- at1 (vs s) x; Ok (v3 v =? wid w).

Fixpoint all_o {A} (f : A -> outcome bool) (l : list A) : outcome bool :=
  match l with
  | [] => Ok true
  | a :: r => do b <- f a; if (b : bool) then all_o f r else Ok false
  end.

(** TCVertex.cxx:2104-2125: the first trajectory end that refers to no live vertex is cleared *)
Definition bad_end (s : slice) (t : tj) (e : bool) : outcome bool :=
  if vtxid t e =? 0 then Ok false
  else if List.length (vs s) <? vtxid t e then Ok true
  else do v <- at1 (vs s) (vtxid t e); Ok (vid v =? 0).

Fixpoint chk_tjs (s : slice) (l : list tj) : outcome (bool * list tj) :=
  match l with
  | [] => Ok (true, [])
  | t :: r =>
      if dead t || halo t then do q <- chk_tjs s r; Ok (fst q, t :: snd q)
      else do b0 <- bad_end s t false;
           if (b0 : bool) then Ok (false, set_end t false 0 :: r)
           else do b1 <- bad_end s t true;
                if (b1 : bool) then Ok (false, set_end t true 0 :: r)
                else do q <- chk_tjs s r; Ok (fst q, t :: snd q)
  end.

(** ChkVtxAssociations, TCVertex.cxx:2058-2129 *)
Definition chk_assns (s : slice) (ctp : nat) : outcome (bool * slice) :=
  do b2 <- all_o (chk2 s ctp) (vs s);
  if negb b2 then Ok (false, s)
  else do b3 <- all_o (chk3 s ctp) (ws s);
       if negb b3 then Ok (false, s)
       else do q <- chk_tjs s (tjs s); Ok (fst q, set_tjs s (snd q)).

(** ** Merging a new vertex with an existing one *)

(** the verdicts of MergeWithVertex: the fit of the simple case, the first fit, the fits with the
    further trajectories (by position in the list), the end of each trajectory (by ID) that is closest
    to the average position, the order by decreasing length, and the new score of the old vertex *)
Record mwv_geo := MG { fit_simple : bool; fit_first : bool; fit_more : nat -> bool;
                       near : nat -> bool; order : list nat -> list nat; new_score : Qc }.

(** std::find-based union, TCVertex.cxx:454-456 *)
Definition union (a b : list nat) : list nat :=
  fold_left (fun acc x => if existsb (Nat.eqb x) acc then acc else acc ++ [x]) b a.

(** TCVertex.cxx:464-469 *)
Definition reassign (from to : nat) (t : tj) : tj :=
  let t1 := if e0 t =? from then set_end t false to else t in
  if e1 t1 =? from then set_end t1 true to else t1.

(** TCVertex.cxx:547-555: the trajectories kept in the fit *)
Fixpoint keep_fit (more : nat -> bool) (ii : nat) (l : list nat) : list nat :=
  match l with
  | [] => []
  | x :: r => if more ii then x :: keep_fit more (S ii) r else keep_fit more (S ii) r
  end.

(** TCVertex.cxx:570-576 *)
Fixpoint set_new (near : nat -> bool) (to : nat) (s : slice) (l : list nat) : outcome (bool * slice) :=
  match l with
  | [] => Ok (true, s)
  | x :: r =>
      do t <- at1 (tjs s) x;
      if negb (vtxid t (near x) =? 0) then Ok (false, s)
      else set_new near to (set_tjs s (upd (tjs s) (x - 1) (set_end t (near x) to))) r
  end.

(** MergeWithVertex, TCVertex.cxx:433-598, with useAlg[kVxMerge] on; [v] is not stored yet *)
Definition merge_with (g : mwv_geo) (s : slice) (v : vx) (o : nat) : outcome (bool * slice) :=
  if List.length (vs s) <? o then Ok (false, s)
  else
    do ov <- at1 (vs s) o;
    if negb (vctp v =? vctp ov) then Ok (false, s)
    else
      let l1 := vtx_tjs s v in
      if match l1 with [] => true | _ => false end then Ok (false, s)
      else
        let l2 := vtx_tjs s ov in
        if match l2 with [] => true | _ => false end then Ok (false, s)
        else
          let l := union l1 l2 in
          if List.length l <? 2 then Ok (false, s)
          else if List.length l =? 2 then
            do s1 <- foreach l (fun s id => do t <- at1 (tjs s) id;
                       Ok (set_tjs s (upd (tjs s) (id - 1) (reassign (vid v) (vid ov) t)))) s;
            Ok (fit_simple g, s1)
          else
            let l' := order g l in
            if negb (fit_first g) then Ok (false, s)
            else
              let fitpts := firstn 2 l' ++ keep_fit (fit_more g) 2 (skipn 2 l') in
              let s1 := set_tjs s (map (fun t =>
                          if dead t || halo t then t
                          else if negb (tctp t =? vctp v) then t
                          else reassign o 0 (reassign (vid v) 0 t)) (tjs s)) in
              do r <- set_new (near g) o s1 fitpts;
              if negb (fst r) then Ok (false, snd r)
              else
                do ov1 <- at1 (vs (snd r)) o;
                Ok (true, set_vs (snd r) (upd (vs (snd r)) (o - 1)
                            (set_vsc (set_nt ov1 (List.length fitpts)) (new_score g)))).

(** The end of the search for a vertex between two trajectory ends, Find2DVertices,
    TCVertex.cxx:376-408: a new vertex with the next ID, both ends attached to it, the fit ([fit]),
    the merge with a close vertex [close] (0 when none), and StoreVertex. True when stored. *)
Definition try_vertex (s : slice) (ctp : nat) (i1 : nat) (b1 : bool) (i2 : nat) (b2 : bool)
           (fit : bool) (close : nat) (g : mwv_geo) (wire : Z) : outcome (bool * slice) :=
  let id := List.length (vs s) + 1 in
  let v := V id ctp 0 0 0 0%Qc false wire in
  do t1 <- idx (tjs s) i1;
  let s1 := set_tjs s (upd (tjs s) i1 (set_end t1 b1 id)) in
  do t2 <- idx (tjs s1) i2;
  let s2 := set_tjs s1 (upd (tjs s1) i2 (set_end t2 b2 id)) in
  if negb fit then
    do u1 <- idx (tjs s2) i1;
    let s3 := set_tjs s2 (upd (tjs s2) i1 (set_end u1 b1 0)) in
    do u2 <- idx (tjs s3) i2;
    Ok (false, set_tjs s3 (upd (tjs s3) i2 (set_end u2 b2 0)))
  else
    do m <- (if 0 <? close then merge_with g s2 v close else Ok (false, s2));
    if fst m then Ok (false, snd m) else Ok (store_vertex (snd m) v).

End Cuts.
