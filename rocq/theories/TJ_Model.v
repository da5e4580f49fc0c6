(** Model of the TrajCluster trajectory book-keeping: which trajectory owns which hit.
    /repo/larreco/RecoAlg/TCAlg/Utils.cxx, /repo/larreco/RecoAlg/TCAlg/DataStructs.h,
    /repo/larreco/RecoAlg/TCAlg/TCVertex.cxx.

    Simplifications (whole file):
    - one slice; [evt.globalT_UID] is part of the slice state;
    - the [unsigned short] counters are natural numbers (vectors shorter than 65535);
    - charges and positions are integers (the code only compares them);
    - the fit quantities (AngErr, AveChg, KinkSig, ChgRMS, MCSMom, Environment, dEdx) are left out,
      and with them the reads of slHits made by UpdateTjChgProperties;
    - a trajectory-point hit and its UseHit bit form one pair. *)
From Verif Require Import Base SortUtil.
Local Open Scope nat_scope.

(** struct TrajPoint, DataStructs.h:153-176: Hits with UseHit, Chg, Pos *)
Record tp := TP { thits : list (nat * bool); chg : Z; pos : Z * Z }.

(** struct Trajectory, DataStructs.h:191-218 *)
Record traj := TJ {
  pts : list tp;
  tid : Z; wid : Z; par : Z; uid : Z;            (* ID, WorkID, ParentID, UID *)
  killed : bool; shower : bool; halo : bool;     (* AlgMod[kKilled], [kShowerTj], [kHaloTj] *)
  ep0 : nat; ep1 : nat;                          (* EndPt *)
  vx0 : nat; vx1 : nat;                          (* VtxID *)
  dir : Z; pdg : Z;                              (* StepDir, PDGCode *)
  bragg0 : bool; bragg1 : bool;                  (* EndFlag[.][kBragg] *)
  delta : bool }.                                (* AlgMod[kDeltaRay] *)

(** struct VtxStore: ID (0 when obsolete) and whether it belongs to a high-score 3D vertex
    (TCVertex.cxx:2703-2704) *)
Record vtx := VX { vid : nat; vhi : bool }.

(** struct TCSlice: slHits[i].InTraj (DataStructs.h:610-614), tjs, vtxs, the TjIDs of each pfp,
    and evt.globalT_UID *)
Record slc := SL { own : list Z; tjs : list traj; vxs : list vtx; pfps : list (list Z); gid : Z }.

Definition set_own (s : slc) o := SL o (tjs s) (vxs s) (pfps s) (gid s).
Definition set_tjs (s : slc) l := SL (own s) l (vxs s) (pfps s) (gid s).
Definition set_pts (t : traj) p :=
  TJ p (tid t) (wid t) (par t) (uid t) (killed t) (shower t) (halo t) (ep0 t) (ep1 t) (vx0 t) (vx1 t)
     (dir t) (pdg t) (bragg0 t) (bragg1 t) (delta t).
Definition set_ends (t : traj) a b :=
  TJ (pts t) (tid t) (wid t) (par t) (uid t) (killed t) (shower t) (halo t) a b (vx0 t) (vx1 t)
     (dir t) (pdg t) (bragg0 t) (bragg1 t) (delta t).
Definition set_killed (t : traj) k :=
  TJ (pts t) (tid t) (wid t) (par t) (uid t) k (shower t) (halo t) (ep0 t) (ep1 t) (vx0 t) (vx1 t)
     (dir t) (pdg t) (bragg0 t) (bragg1 t) (delta t).
Definition set_pdg (t : traj) c :=
  TJ (pts t) (tid t) (wid t) (par t) (uid t) (killed t) (shower t) (halo t) (ep0 t) (ep1 t) (vx0 t) (vx1 t)
     (dir t) c (bragg0 t) (bragg1 t) (delta t).
Definition set_vx (t : traj) a b :=
  TJ (pts t) (tid t) (wid t) (par t) (uid t) (killed t) (shower t) (halo t) (ep0 t) (ep1 t) a b
     (dir t) (pdg t) (bragg0 t) (bragg1 t) (delta t).
Definition set_ids (t : traj) i w p u :=
  TJ (pts t) i w p u (killed t) (shower t) (halo t) (ep0 t) (ep1 t) (vx0 t) (vx1 t)
     (dir t) (pdg t) (bragg0 t) (bragg1 t) (delta t).
Definition set_bragg1 (t : traj) b :=
  TJ (pts t) (tid t) (wid t) (par t) (uid t) (killed t) (shower t) (halo t) (ep0 t) (ep1 t) (vx0 t) (vx1 t)
     (dir t) (pdg t) (bragg0 t) b (delta t).
Definition set_delta (t : traj) p d :=
  TJ (pts t) (tid t) (wid t) p (uid t) (killed t) (shower t) (halo t) (ep0 t) (ep1 t) (vx0 t) (vx1 t)
     (dir t) (pdg t) (bragg0 t) (bragg1 t) d.

(** PutTrajHitsInVector with kUsedHits / kAllHits on one point, Utils.cxx:2703-2711 *)
Definition used_pt (p : tp) : list nat := map fst (filter snd (thits p)).
Definition all_pt (p : tp) : list nat := map fst (thits p).
(** PutTrajHitsInVector(tj, kUsedHits), Utils.cxx:2689-2713 (a shower Tj returns all hits, 2695-2699) *)
Definition used_hits (t : traj) : list nat :=
  if shower t then flat_map all_pt (pts t) else flat_map used_pt (pts t).
(** PutTrajHitsInVector(tj, kAllHits), Utils.cxx:2689-2713 *)
Definition all_hits (t : traj) : list nat := flat_map all_pt (pts t).

(** ReleaseHits, Utils.cxx:1049-1058 *)
Definition release_hits (o : list Z) (t : traj) : outcome (list Z) :=
  foreach (flat_map all_pt (pts t))
    (fun o h => do x <- idx o h; if (x =? tid t)%Z then set_idx o h 0%Z else Ok o) o.

(** SetEndPoints, Utils.cxx:3330-3355 *)
Fixpoint first_chg (l : list tp) (i : nat) : option nat :=
  match l with
  | [] => None
  | p :: r => if negb (chg p =? 0)%Z then Some i else first_chg r (S i)
  end.
Fixpoint last_chg (l : list tp) (i : nat) (best : option nat) : option nat :=
  match l with
  | [] => best
  | p :: r => last_chg r (S i) (if negb (chg p =? 0)%Z then Some i else best)
  end.
Definition or0 (o : option nat) := match o with Some n => n | None => 0 end.
Definition set_end_points (t : traj) : traj :=
  if shower t || halo t then t
  else set_ends t (or0 (first_chg (pts t) 0)) (or0 (last_chg (pts t) 0 None)).

(** Utils.cxx:1150-1165: claim the used hits one by one; [false] = the error return.
    [iht > slc.slHits.size() - 1] is false for every [iht] when slHits is empty. *)
Fixpoint claim (o : list Z) (trid : Z) (hs : list nat) : outcome (list Z * bool) :=
  match hs with
  | [] => Ok (o, true)
  | h :: r =>
      if (0 <? length o) && (length o - 1 <? h) then Ok (o, false)
      else do x <- idx o h;
           if (0 <? x)%Z then Ok (o, false)
           else do o' <- set_idx o h trid; claim o' trid r
  end.

(** the points EndPt[0] .. EndPt[1] *)
Definition between {A} (l : list A) (a b : nat) : list A := firstn (S b - a) (skipn a l).

(** Utils.cxx:1086: USHRT_MAX *)
Definition maxtj : N := 65535%N.

(** StoreTraj, Utils.cxx:1074-1199. The result is the returned bool and the new slice (the changes
    to the caller's own copy of [tj] other than its hits' InTraj are not returned).
    Simplification: [tj.Pts[EndPt[1]]] out of range is [Undef]; the fit quantities are left out. *)
Definition store_traj (s : slc) (t0 : traj) : outcome (bool * slc) :=
  if existsb (fun p => 16 <? length (thits p)) (pts t0) then Ok (false, s)     (* 1077-1079 *)
  else
    let t := set_end_points t0 in                                              (* 1084 *)
    if (maxtj <=? N.of_nat (length (tjs s)))%N || (ep1 t <=? ep0 t) || (length (pts t) <? ep1 t)
    then do o <- release_hits (own s) t; Ok (false, set_own s o)               (* 1086-1089 *)
    else if ep1 t - ep0 t + 1 <? 2 then Ok (false, s)                          (* 1091-1092 *)
    else
      do _ <- idx (pts t) (ep1 t);                                             (* 1095 *)
      let trid := Z.of_nat (length (tjs s) + 1) in                             (* 1148 *)
      do r <- claim (own s) trid (flat_map used_pt (between (pts t) (ep0 t) (ep1 t)));
      let '(o, ok) := r in
      if negb ok then do o' <- release_hits o t; Ok (false, set_own s o')      (* 1154-1161 *)
      else if existsb (fun x => (x =? tid t)%Z) o then Ok (false, set_own s o) (* 1168-1174 *)
      else
        let p := if (par t =? 0)%Z then trid else par t in                     (* 1182 *)
        let t' := set_ids t trid (tid t) p (gid s + 1)%Z in                    (* 1176-1180 *)
        Ok (true, SL o (tjs s ++ [t']) (vxs s) (pfps s) (gid s + 1)%Z).        (* 1183 *)

(** [itj > slc.tjs.size() - 1]: unsigned, so never true when tjs is empty *)
Definition beyond {A} (l : list A) (i : nat) : bool := (0 <? length l) && (length l - 1 <? i).

(** MakeTrajectoryObsolete, Utils.cxx:2138-2147 *)
Definition make_obsolete (s : slc) (i : nat) : outcome slc :=
  if beyond (tjs s) i then Ok s
  else do t <- idx (tjs s) i;
       Ok (SL (map (fun x => if (x =? tid t)%Z then 0%Z else x) (own s))
              (upd (tjs s) i (set_killed t true)) (vxs s) (pfps s) (gid s)).

(** RestoreObsoleteTrajectory, Utils.cxx:2150-2169 *)
Definition restore_obsolete (s : slc) (i : nat) : outcome slc :=
  if beyond (tjs s) i then Ok s
  else do t <- idx (tjs s) i;
       if negb (killed t) then Ok s
       else do o <- foreach (flat_map used_pt (pts t))
                      (fun o h => do x <- idx o h;
                                  if (x =? 0)%Z then set_idx o h (tid t) else Ok o) (own s);
            Ok (SL o (upd (tjs s) i (set_killed t false)) (vxs s) (pfps s) (gid s)).

(** Utils.cxx:2293-2297 and 2302-2306: count charged points, stop after the third *)
Fixpoint charged (p : list tp) (l : list nat) (n : nat) : outcome nat :=
  match l with
  | [] => Ok n
  | i :: r => do q <- idx p i;
              let n' := if (0 <? chg q)%Z then S n else n in
              if 2 <? n' then Ok n' else charged p r n'
  end.

(** Utils.cxx:2327-2334: hand the used hits of one point over to the new trajectory *)
Fixpoint hand_hits (o : list Z) (old new : Z) (hs : list (nat * bool))
  : outcome (list Z * list (nat * bool)) :=
  match hs with
  | [] => Ok (o, [])
  | (h, u) :: r =>
      if negb u then do q <- hand_hits o old new r; Ok (fst q, (h, u) :: snd q)
      else do x <- idx o h;
           if negb (x =? old)%Z then do q <- hand_hits o old new r; Ok (fst q, (h, u) :: snd q)
           else do o' <- set_idx o h new;
                do q <- hand_hits o' old new r; Ok (fst q, (h, false) :: snd q)
  end.
(** Utils.cxx:2325-2335, on the points pos+1 .. EndPt[1] *)
Fixpoint hand_pts (o : list Z) (old new : Z) (l : list tp) : outcome (list Z * list tp) :=
  match l with
  | [] => Ok (o, [])
  | p :: r => do q <- hand_hits o old new (thits p);
              do q' <- hand_pts (fst q) old new r;
              Ok (fst q', TP (snd q) 0%Z (pos p) :: snd q')
  end.

(** Utils.cxx:2361-2365: UseHit false, Chg 0 *)
Definition clear_pt (p : tp) : tp := TP (map (fun q => (fst q, false)) (thits p)) 0%Z (pos p).
Fixpoint clear3 (n : nat) (l : list tp) : outcome (list tp) :=
  match n with
  | O => Ok l
  | S m => match l with [] => Undef | p :: r => do r' <- clear3 m r; Ok (clear_pt p :: r') end
  end.

Section Oracles.
(** SetPDGCode, Utils.cxx:4226-4258: the code it gives, from a fit-quality decision that is not modelled *)
Variable pdg_of : traj -> Z.
(** AttachAnyVertexToTraj, TCVertex.cxx:1637-1675: which end of the new trajectory (true = end 1) is
    attached to which vertex ID, if any (geometry, not modelled) *)
Variable attach : slc -> option (bool * nat).

Definition with_vx1 (t : traj) (v : option nat) := match v with Some n => set_vx t (vx0 t) n | None => t end.
Definition with_vx0 (t : traj) (v : option nat) := match v with Some n => set_vx t n (vx1 t) | None => t end.

(** SplitTraj(slc, itj, pos, ivx), Utils.cxx:2269-2381. [ivx = None] is USHRT_MAX.
    Simplification: [pos < 2] makes the unsigned [pos - 2] larger than any vector. *)
Definition split_traj (s : slc) (i p : nat) (ivx : option nat) : outcome (bool * slc) :=
  if beyond (tjs s) i then Ok (false, s)
  else
    do t0 <- idx (tjs s) i;
    if (p <? ep0 t0 + 1) || (ep1 t0 <? p + 1) then Ok (false, s)                    (* 2277 *)
    else if match ivx with Some v => beyond (vxs s) v | None => false end then Ok (false, s)
    else
      let muon := (pdg t0 =? 13)%Z in
      let t := if muon then set_pdg t0 0%Z else t0 in                              (* 2283-2284 *)
      let s1 := set_tjs s (upd (tjs s) i t) in
      do n1 <- charged (pts t) (range 0 (p + 1)) 0;
      if n1 <? 3 then Ok (false, s1)
      else
        do n2 <- charged (pts t) (range (p + 1) (ep1 t + 1)) 0;
        if n2 <? 3 then Ok (false, s1)
        else
          let newid := Z.of_nat (length (tjs s) + 1) in
          let g := (gid s + 1)%Z in
          do _ <- idx (pts t) (ep1 t);
          do r <- hand_pts (own s) (tid t) newid (between (pts t) (p + 1) (ep1 t));   (* 2325-2335 *)
          let '(o, mid) := r in
          let t1 := set_end_points
                      (set_pts t (firstn (p + 1) (pts t) ++ mid ++ skipn (ep1 t + 1) (pts t))) in
          let t2 := if muon then set_pdg t1 (pdg_of t1) else t1 in
          if (p <? 2) || (length (pts t) - 1 <? p - 2)
          then Ok (false, SL o (upd (tjs s) i t) (vxs s) (pfps s) g)                (* 2345-2349 *)
          else
            let v := match ivx with
                     | Some v => option_map vid (nth_error (vxs s) v) | None => None end in
            let t3 := with_vx1 t2 v in                                              (* 2351 *)
            do np <- clear3 3 (skipn (p - 2) (pts t));                              (* 2359-2365 *)
            let n1 := set_end_points (set_pts (set_ids t newid (wid t) (par t) g) np) in
            let n2 := if muon then set_pdg n1 (pdg_of n1) else n1 in
            let n3 := with_vx0 n2 v in
            let n4 := set_ids n3 newid (wid t) 0%Z g in                             (* 2372 *)
            Ok (true, SL o (upd (tjs s) i t3 ++ [n4]) (vxs s) (pfps s) g).          (* 2373 *)

(** GetPFPIndex, Utils.cxx:1038-1046 *)
Definition in_pfp (s : slc) (id : Z) : bool := existsb (existsb (Z.eqb id)) (pfps s).

(** ReverseTraj, Utils.cxx:3219-3243 *)
Definition reverse_traj (t : traj) : traj :=
  match pts t with
  | [] => t
  | _ => set_end_points
           (TJ (rev (pts t)) (tid t) (wid t) (par t) (uid t) (killed t) (shower t) (halo t) (ep0 t) (ep1 t)
               (vx1 t) (vx0 t) (- dir t)%Z (pdg t) (bragg1 t) (bragg0 t) (delta t))
  end.

Definition sep2 (a b : Z * Z) : Z :=
  ((fst a - fst b) * (fst a - fst b) + (snd a - snd b) * (snd a - snd b))%Z.

(** MakeVertexObsolete("MAS", slc, vx, false), TCVertex.cxx:2698-2786; the 3D vertices are not modelled *)
Definition kill_vertex (s : slc) (k : nat) : outcome (bool * slc) :=
  do v <- idx (vxs s) k;
  if vhi v then Ok (false, s)                                                       (* 2703-2705 *)
  else
    let clr (t : traj) :=
      if killed t || halo t then t
      else set_vx t (if vx0 t =? vid v then 0 else vx0 t) (if vx1 t =? vid v then 0 else vx1 t) in
    Ok (true, SL (own s) (map clr (tjs s)) (upd (vxs s) k (VX 0 (vhi v))) (pfps s) (gid s)).

(** TrajPointTrajDOCA, Utils.cxx:2384-2404, with minSep = 1000: the closest point in EndPt[0]..EndPt[1] *)
Fixpoint close_pt (l : list (nat * tp)) (q : Z * Z) (best : Z) (c : option nat) : option nat :=
  match l with
  | [] => c
  | (i, p) :: r => let d := sep2 (pos p) q in
                   if (d <? best)%Z then close_pt r q d (Some i) else close_pt r q best c
  end.

(** Utils.cxx:4647-4658 *)
Fixpoint bump (fuel : nat) (p2 : list tp) (e1 : nat) (h1 : list nat) (c : nat) : outcome nat :=
  do p <- idx p2 c;
  if existsb (fun h => existsb (Nat.eqb h) h1) (all_pt p) && (c <? e1)
  then match fuel with O => Undef | S f => bump f p2 e1 h1 (S c) end
  else Ok c.

Fixpoint dup (l : list nat) : bool :=
  match l with [] => false | x :: r => existsb (Nat.eqb x) r || dup r end.
(** HasDuplicateHits, Utils.cxx:2745-2760; with no hit at all [size() - 1] wraps and the loop never ends *)
Definition has_dup (t : traj) : outcome bool :=
  match all_hits t with [] => Undef | l => Ok (dup l) end.

(** MergeAndStore, Utils.cxx:4521-4701. Merging shower trajectories (4534-4535) is not modelled: [Undef]. *)
Definition merge_and_store (s : slc) (a b : nat) : outcome (bool * slc) :=
  if beyond (tjs s) a || beyond (tjs s) b then Ok (false, s)
  else
    do ta <- idx (tjs s) a; do tb <- idx (tjs s) b;
    if killed ta || killed tb then Ok (false, s)
    else if halo ta || halo tb then Ok (false, s)
    else if shower ta || shower tb then Undef
    else if in_pfp s (tid ta) && in_pfp s (tid tb) then Ok (false, s)               (* 4541 *)
    else
      let sw := negb (in_pfp s (tid ta)) && in_pfp s (tid tb) in                    (* 4543 *)
      let '(i1, i2) := if sw then (b, a) else (a, b) in
      let u1 := if sw then tb else ta in
      let u2a := if sw then ta else tb in
      let u2 := if (dir u2a =? dir u1)%Z then u2a else reverse_traj u2a in          (* 4551 *)
      do p10 <- idx (pts u1) (ep0 u1); do p11 <- idx (pts u1) (ep1 u1);
      do p20 <- idx (pts u2) (ep0 u2); do p21 <- idx (pts u2) (ep1 u2);
      let far := (sep2 (pos p21) (pos p10) <? sep2 (pos p11) (pos p20))%Z in         (* 4564 *)
      let t1 := if far then u2 else u1 in
      let t2 := if far then u1 else u2 in
      let e10 := fst (pos (if far then p20 else p10)) in
      let e11 := fst (pos (if far then p21 else p11)) in
      let e20 := fst (pos (if far then p10 else p20)) in
      let e21 := fst (pos (if far then p11 else p21)) in
      if (if (1 <? dir t1)%Z                                                         (* 4581-4595 *)
          then ((e10 <? e20) && (e21 <? e11)) || ((e20 <? e10) && (e11 <? e21))
          else ((e11 <? e21) && (e20 <? e10)) || ((e21 <? e11) && (e10 <? e20)))%Z
      then Ok (false, s)
      else
        do rv <- (if (0 <? vx1 t1) && (vx0 t2 =? vx1 t1)
                  then kill_vertex s (vx1 t1 - 1) else Ok (true, s));               (* 4597-4605 *)
        let '(okv, s1) := rv in
        if negb okv then Ok (false, s1)
        else if bragg1 t1 then Ok (false, s1)                                        (* 4607-4612 *)
        else
          let q1 := firstn (ep1 t1 + 1) (pts t1) in                                  (* 4615 *)
          do e <- idx q1 (ep1 t1);
          let cand := List.combine (seq (ep0 t2) (S (ep1 t2) - ep0 t2)) (between (pts t2) (ep0 t2) (ep1 t2)) in
          match close_pt cand (pos e) 1000000%Z None with
          | None => Ok (false, s1)                                                   (* 4629 *)
          | Some c0 =>
              let h1 := flat_map all_pt (firstn 11 (rev q1)) in                      (* 4638-4645 *)
              do c <- bump (ep1 t2 - c0) (pts t2) (ep1 t2) h1 c0;                    (* 4647-4658 *)
              let m := set_bragg1 (set_end_points (set_pts t1 (q1 ++ skipn c (pts t2)))) (bragg1 t2) in
              do d <- has_dup m;
              if d then Ok (false, s1)                                               (* 4668 *)
              else
                let m1 := if 0 <? vx1 t2 then set_vx m (vx0 m) (vx1 t2) else m in     (* 4669-4672 *)
                let m2 := if delta t2 then set_delta m1 (par t2) true else m1 in      (* 4675-4678 *)
                do s2 <- make_obsolete s1 i1;
                do s3 <- make_obsolete s2 i2;                                        (* 4683-4684 *)
                let m3 := set_ids m2 (wid m2) (wid m2) (par m2) (uid m2) in           (* 4686 *)
                let m4 := set_pdg m3 (pdg_of m3) in                                  (* 4687 *)
                do r <- store_traj s3 m4;
                let '(ok, s4) := r in
                if negb ok then Ok (false, s4)                                       (* 4689 *)
                else
                  let nid := Z.of_nat (length (tjs s4)) in
                  let re (t : traj) :=                                               (* 4696-4697 *)
                    if ((par t =? tid t1) || (par t =? tid t2))%Z
                    then set_ids t (tid t) (wid t) nid (uid t) else t in
                  let s5 := set_tjs s4 (map re (tjs s4)) in
                  Ok (true, match attach s5 with                                     (* 4699 *)
                            | None => s5
                            | Some (e1, v) =>
                                let k := length (tjs s5) - 1 in
                                match nth_error (tjs s5) k with
                                | None => s5
                                | Some t => set_tjs s5 (upd (tjs s5) k
                                              (if e1 then set_vx t (vx0 t) v else set_vx t v (vx1 t)))
                                end
                            end)
          end.
End Oracles.

(** std::equal(tHits.begin(), tHits.end(), atHits.begin()): reads past the end of a shorter atHits *)
Fixpoint equal_ (t a : list nat) : outcome bool :=
  match t with
  | [] => Ok true
  | x :: t' => match a with
               | [] => Undef
               | y :: a' => if x =? y then equal_ t' a' else Ok false
               end
  end.

(** the hits whose InTraj is [id], Utils.cxx:1273-1276 *)
Fixpoint at_hits (o : list Z) (id : Z) (i : nat) : list nat :=
  match o with
  | [] => []
  | x :: r => if (x =? id)%Z then i :: at_hits r id (S i) else at_hits r id (S i)
  end.

(** InTrajOK, Utils.cxx:1257-1314; [tID] is an unsigned short. The slice changes only by the kill at 1306
    (not returned). *)
Fixpoint in_traj_ok (s : slc) (l : list traj) : outcome bool :=
  match l with
  | [] => Ok true
  | t :: r =>
      if killed t then in_traj_ok s r
      else
        let th := isort Nat.ltb (used_hits t) in
        if length th <? 2 then in_traj_ok s r
        else
          let ah := at_hits (own s) (tid t mod 65536)%Z 0 in
          if length ah <? 2 then in_traj_ok s r
          else do e <- equal_ th ah;
               if negb e then Ok false
               else if (length (vxs s) <? vx0 t) || (length (vxs s) <? vx1 t) then Ok false
               else in_traj_ok s r
  end.
