(** larreco/RecoAlg/ClusterCrawlerAlg.{h,cxx}: the book-keeping of hits and clusters.
    Not modelled: positions, slopes, charges, angles and fits (verdicts of fits are arguments), debug
    printout, the width of unsigned short loop counters (clusters of fewer than 65536 hits). *)
From Verif Require Import Base SortUtil.
Local Open Scope nat_scope.

(** a recob::Hit: cryostat, TPC, plane and wire of its WireID *)
Record hit := H { hc : nat; ht : nat; hp : nat; hw : nat }.
(** ClusterStore, ClusterCrawlerAlg.h:56-78 *)
Record clus := C { cid : Z; proc : Z; cctp : nat * nat * nat; bw : nat; ew : nat; bv : Z; ev : Z; ch : list nat }.
(** the members fHits, inClus, tcl, NClusters and the NClusters of each vtx, h:214, 220-224 *)
Record st := ST { hits : list hit; inc : list Z; tcl : list clus; ncl : Z; vtx : list nat }.

Definition set_inc (s : st) (i : list Z) : st := ST (hits s) i (tcl s) (ncl s) (vtx s).
Definition set_tcl (s : st) (t : list clus) : st := ST (hits s) (inc s) t (ncl s) (vtx s).
Definition set_vtx (s : st) (v : list nat) : st := ST (hits s) (inc s) (tcl s) (ncl s) v.
Definition set_cid (c : clus) (i : Z) : clus := C i (proc c) (cctp c) (bw c) (ew c) (bv c) (ev c) (ch c).
Definition set_proc (c : clus) (p : Z) : clus := C (cid c) p (cctp c) (bw c) (ew c) (bv c) (ev c) (ch c).
Definition set_bv (c : clus) (v : Z) : clus := C (cid c) (proc c) (cctp c) (bw c) (ew c) v (ev c) (ch c).
Definition set_ev (c : clus) (v : Z) : clus := C (cid c) (proc c) (cctp c) (bw c) (ew c) (bv c) v (ch c).
Definition set_ch (c : clus) (l : list nat) : clus := C (cid c) (proc c) (cctp c) (bw c) (ew c) (bv c) (ev c) l.

Definition wid (x : hit) : nat * nat * nat := (hc x, ht x, hp x).
Definition same_wid (x y : hit) : bool := (hc x =? hc y) && (ht x =? ht y) && (hp x =? hp y).

(** CrawlInit and RunCrawler, cxx:152-182, 206-227 *)
Definition start (hs : list hit) : st := ST hs (map (fun _ => 0%Z) hs) [] 0 [].

(** the loop over [l], one assignment each *)
Definition mark (i : list Z) (l : list nat) (v : Z) : outcome (list Z) := foreach l (fun i h => set_idx i h v) i.

(** MakeClusterObsolete, cxx:825-838 *)
Definition make_obs (s : st) (k : nat) : outcome st :=
  do c <- idx (tcl s) k;
  if (cid c <=? 0)%Z then Ok s
  else do i <- mark (inc s) (ch c) 0; Ok (set_inc (set_tcl s (upd (tcl s) k (set_cid c (- cid c)))) i).

(** RestoreObsoleteCluster, cxx:841-853 *)
Definition restore (s : st) (k : nat) : outcome st :=
  do c <- idx (tcl s) k;
  if (0 <? cid c)%Z then Ok s
  else do i <- mark (inc s) (ch c) (- cid c); Ok (set_inc (set_tcl s (upd (tcl s) k (set_cid c (- cid c)))) i).

(** the loop of TmpStore over the hits, cxx:3464-3483; [dec]: clProcCode < 900 *)
Fixpoint claim (hs : list hit) (i : list Z) (id : Z) (dec : bool) (h0 : hit) (last : option nat) (l : list nat) : outcome (bool * list Z) :=
  match l with
  | [] => Ok (true, i)
  | h :: r =>
    do v <- idx i h;
    if negb (v =? 0)%Z then Ok (false, i)
    else do x <- idx hs h;
         if negb (same_wid x h0) then Ok (false, i)
         else if dec && (match last with Some w => w <=? hw x | None => false end) then Ok (false, i)
         else do i' <- set_idx i h id; claim hs i' id dec h0 (Some (hw x)) r
  end.

(** TmpStore, cxx:3447-3536, with fcl2hits = [l] and clProcCode = [p]; [ec], [bc]: clEndChg and
    clBeginChg are positive already *)
Definition tmp_store (s : st) (l : list nat) (p : Z) (ec bc : bool) : outcome (bool * st) :=
  if List.length l <? 2 then Ok (false, s)
  else if List.length (hits s) <? List.length l then Ok (false, s)
  else if (ncl s =? 32767)%Z then Ok (false, s)
  else do h0 <- idx (hits s) (hd 0 l);
       do r <- claim (hits s) (inc s) (ncl s + 1) (p <? 900)%Z h0 None l;
       if negb (fst r) then Ok (false, set_inc s (snd r))
       else if negb (ec && bc) && (List.length l <? 3) then Undef
       else do hl <- idx (hits s) (last l 0);
            Ok (true, ST (hits s) (snd r) (tcl s ++ [C (ncl s + 1) p (wid h0) (hw h0) (hw hl) (-99) (-99) l]) (ncl s + 1) (vtx s)).

(** a change of the last cluster, tcl[tcl.size() - 1] *)
Definition on_last (s : st) (f : clus -> clus) : outcome st :=
  do c <- idx (tcl s) (List.length (tcl s) - 1); Ok (set_tcl s (upd (tcl s) (List.length (tcl s) - 1) (f c))).

(** SplitCluster, cxx:2669-2783; [ec], [bc]: the charges of the second piece are known *)
Definition split_cluster (s : st) (k pos : nat) (iv : Z) (ec bc : bool) : outcome (bool * st) :=
  do c <- idx (tcl s) k;
  if (cid c <? 0)%Z then Ok (false, s)
  else
    do s <- make_obs s k;
    do r1 <- (if 2 <? pos then
                if List.length (ch c) <? pos then Undef
                else do r <- tmp_store s (firstn pos (ch c)) (proc c) true true;
                     if negb (fst r) then do s' <- restore (snd r) k; Ok (false, s')
                     else do s' <- on_last (snd r) (fun n => set_bv (set_ev n iv) (bv c)); Ok (true, s')
              else Ok (true, s));
    if negb (fst r1) then Ok r1
    else
      let s := snd r1 in
      if (List.length (ch c) <? 3) || (pos <? List.length (ch c) - 3) then
        let l := skipn pos (ch c) in
        do used <- foreach l (fun (b : bool) h => if b then Ok true else do v <- idx (inc s) h; Ok (negb (v =? 0)%Z)) false;
        if used then do s' <- restore s k; Ok (false, s')
        else
          do r <- tmp_store s l (proc c) ec bc;
          if negb (fst r) then
            do s' <- make_obs (snd r) (List.length (tcl (snd r)) - 1); do s' <- restore s' k; Ok (false, s')
          else do s' <- on_last (snd r) (fun n => set_bv (set_ev n (ev c)) iv); Ok (true, s')
      else Ok (true, s).

(** the vector wirehit of DoMerge, cxx:3157-3170 *)
Definition put_wires (hs : list hit) (lo : nat) (w : list (option nat)) (l : list nat) : outcome (list (option nat)) :=
  foreach l (fun w h => do x <- idx hs h; if hw x <? lo then Undef else set_idx w (hw x - lo) (Some h)) w.
Definition somes (w : list (option nat)) : list nat := flat_map (fun o => match o with Some h => [h] | None => [] end) w.

(** DoMerge, cxx:3129-3251; [fit]: clChisq <= 5; [p]: the clProcCode left over; [np]: inProcCode + pass.
    hiwire + 2 < lowire (a vector of about 2^32 elements) is Undef here. *)
Definition do_merge (s : st) (k1 k2 : nat) (fit : bool) (p np : Z) (ec bc : bool) : outcome st :=
  do c1 <- idx (tcl s) k1;
  do c2 <- idx (tcl s) k2;
  if List.length (ch c1) <? 3 then Ok s
  else if List.length (ch c2) <? 3 then Ok s
  else
    let ds := negb (bw c1 <? bw c2) in
    let hi := if ds then bw c1 else bw c2 in
    let lo := if ew c2 <? ew c1 then ew c2 else ew c1 in
    if hi + 2 <? lo then Undef
    else
      do w <- put_wires (hits s) lo (repeat None (hi + 2 - lo)) (ch c2);
      do w <- put_wires (hits s) lo w (ch c1);
      let l := somes (rev w) in
      if negb fit then Ok s
      else
        do s <- make_obs s k1;
        do s <- make_obs s k2;
        do r <- tmp_store s l p ec bc;
        if negb (fst r) then Ok (snd r)
        else
          let s := snd r in
          let d1 := if ds then ev c1 else bv c1 in
          let d2 := if ds then bv c2 else ev c2 in
          do s <- (if (0 <=? d1)%Z && (d1 =? d2)%Z then do v <- set_idx (vtx s) (Z.to_nat d1) 0; Ok (set_vtx s v) else Ok s);
          on_last s (fun n => set_ev (set_bv (set_proc n np) (if ds then bv c1 else bv c2)) (if ds then ev c2 else ev c1)).

(** the overlap region of MergeOverlap, cxx:717-751: the hit of each wire closest to the line; [d h]:
    |PeakTime - prtime|, [mx]: maxDTick. cxx:720-729 walks icl from its Begin while the wire is at least
    [e]; cxx:731-740 walks jcl from its End while the wire is at most [b] *)
Fixpoint while_wire (hs : list hit) (ok : nat -> bool) (l : list nat) : outcome (list nat) :=
  match l with [] => Ok [] | h :: r => do x <- idx hs h; if ok (hw x) then do t <- while_wire hs ok r; Ok (h :: t) else Ok [] end.
Definition near_line (hs : list hit) (d : nat -> Z) (e : nat) (w : list (option nat * Z)) (l : list nat) : outcome (list (option nat * Z)) :=
  foreach l (fun w h => do x <- idx hs h; if hw x <? e then Undef else
    do o <- idx w (hw x - e); if (snd o <? d h)%Z then Ok w else Ok (upd w (hw x - e) (Some h, d h))) w.
Definition overlap_hits (hs : list hit) (ci cj : clus) (d : nat -> Z) (mx : Z) : outcome (list nat) :=
  let e := ew cj in let b := bw ci in
  do li <- while_wire hs (fun w => e <=? w) (ch ci);
  do lj <- while_wire hs (fun w => w <=? b) (rev (ch cj));
  do w <- near_line hs d e (repeat (None, mx) (b + 1 - e)) li;
  do w <- near_line hs d e w lj;
  Ok (isort (fun i j => j <? i) (somes (map fst w))).
(** cxx:760-784: the hits of jcl downstream of the overlap, the overlap, the hits of icl upstream of it *)
Definition drop_to (hs : list hit) (e : nat) := fix go (l : list nat) : outcome (list nat) :=
  match l with [] => Ok [] | h :: r => do x <- idx hs h; if e <=? hw x then go r else Ok (h :: r) end.
Definition overlap_list (hs : list hit) (ci cj : clus) (o : list nat) : outcome (list nat) :=
  do a <- while_wire hs (fun w => bw ci <? w) (ch cj);
  do z <- drop_to hs (ew cj) (ch ci);
  Ok (a ++ o ++ z).
(** the pair (icl, jcl) of MergeOverlap once the cuts of cxx:660-708 are passed, cxx:717-812; [fit]: the
    size and chi-square cuts of cxx:749-756 *)
Definition overlap_pair (s : st) (ki kj : nat) (d : nat -> Z) (mx : Z) (fit : bool) (ec bc : bool) : outcome st :=
  do ci <- idx (tcl s) ki;
  do cj <- idx (tcl s) kj;
  do o <- overlap_hits (hits s) ci cj d mx;
  if negb fit || (List.length o <? 3) then Ok s
  else
    do l <- overlap_list (hits s) ci cj o;
    do s <- make_obs s ki;
    do s <- make_obs s kj;
    do r <- tmp_store s l (proc ci + 500) ec bc;
    if negb (fst r) then do s <- restore (snd r) ki; restore s kj
    else on_last (snd r) (fun n => set_ev (set_bv n (bv cj)) (bv ci)).

(** ChkClusterDS, cxx:1118-1150: the hits [ds] found downstream are put before the hits of cluster [k] *)
Definition extend_ds (s : st) (k : nat) (ds : list nat) (ec : bool) : outcome st :=
  do c <- idx (tcl s) k;
  let l := isort (fun i j => j <? i) ds ++ ch c in
  do i <- mark (inc s) (ch c) 0;
  do s <- make_obs (set_inc s i) k;
  do r <- tmp_store s l (proc c + 5000) ec true;
  if negb (fst r) then Ok (snd r)
  else on_last (snd r) (fun n => set_ev (set_bv n (bv c)) (ev c)).

(** VtxClusterSplit, cxx:1506-1524: drop the last [n] hits of cluster [k] *)
Definition lop (s : st) (k n : nat) (iv : Z) (ec bc : bool) : outcome st :=
  do c <- idx (tcl s) k;
  if List.length (ch c) <? n then Undef
  else
    do i <- mark (inc s) (rev (skipn (List.length (ch c) - n) (ch c))) 0;
    do s <- make_obs (set_inc s i) k;
    do r <- tmp_store s (firstn (List.length (ch c) - n) (ch c)) (proc c + 1000) ec bc;
    if negb (fst r) then Ok (snd r)
    else on_last (snd r) (fun m => set_ev (set_bv m (bv c)) iv).

(** KillGarbageClusters, cxx:623-628, once the clusters [l] to kill are chosen *)
Definition kill_all (s : st) (l : list nat) : outcome st :=
  foreach l (fun s k => do c <- idx (tcl s) k; if (cid c <? 0)%Z then Ok s
                        else make_obs (set_tcl s (upd (tcl s) k (set_proc c 666))) k) s.

(** the inClus values written by MergeHits, cxx:1642-1649: the free hits of the multiplet [lo, hi) other than
    [th] become obsolete. Not here: when it is called and the merged hit. *)
Definition merge_marks (s : st) (lo hi th : nat) : outcome st :=
  do i <- for_ (seq lo (hi - lo)) (fun i j => if j =? th then Ok i else do v <- idx i j; if (v =? 0)%Z then set_idx i j (-1)%Z else Ok i) (inc s);
  Ok (set_inc s i).

(** CheckHitClusterAssociations, cxx:875-930: the number of error messages. Stop = return from it. *)
Inductive chk := Go (n : nat) | Stop (n : nat).
Definition err (n : nat) : chk := if 10 <? S n then Stop (S n) else Go (S n).
Definition chk1 (s : st) : outcome chk :=
  foreach (tcl s) (fun r c => match r with Stop n => Ok (Stop n) | Go n =>
    if (cid c <? 0)%Z then Ok (Go n)
    else foreach (ch c) (fun r h => match r with Stop n => Ok (Stop n) | Go n =>
      if (0 <? List.length (hits s)) && (List.length (hits s) - 1 <? h) then Ok (Stop (S n))
      else do v <- idx (inc s) h; if (v =? cid c)%Z then Ok (Go n) else Ok (err n) end) (Go n) end) (Go 0).
Definition chk2 (s : st) (n : nat) : outcome chk :=
  for_ (seq 0 (List.length (hits s))) (fun r h => match r with Stop n => Ok (Stop n) | Go n =>
    do v <- idx (inc s) h;
    if (v <=? 0)%Z then Ok (Go n)
    else do c <- idx (tcl s) (Z.to_nat v - 1);
         match (if (cid c <? 0)%Z then err n else Go n) with
         | Stop n => Ok (Stop n)
         | Go n => if existsb (Nat.eqb h) (ch c) then Ok (Go n) else Ok (err n)
         end end) (Go n).
Definition check (s : st) : outcome nat :=
  if negb (List.length (hits s) =? List.length (inc s)) then Ok 1
  else do r <- chk1 s;
       match r with
       | Stop n => Ok n
       | Go n => do r <- chk2 s n; Ok (match r with Stop n => n | Go n => n end)
       end.

(** std::find and the assignment through the iterator *)
Fixpoint replace1 (l : list nat) (a b : nat) : list nat :=
  match l with [] => [] | x :: r => if x =? a then b :: r else x :: replace1 r a b end.
(** RemoveObsoleteHits, cxx:933-970: the state and destHit after each step *)
Definition rm_step (sd : st * nat) (src : nat) : outcome (st * nat) :=
  let (s, dst) := sd in
  do v <- idx (inc s) src;
  if (v <? 0)%Z then Ok (s, dst)
  else if src =? dst then Ok (s, S dst)
  else
    do x <- idx (hits s) src;
    do hs <- set_idx (hits s) dst x;
    do i <- set_idx (inc s) dst v;
    if (0 <? v)%Z then
      do c <- idx (tcl s) (Z.to_nat v - 1);
      Ok (ST hs i (upd (tcl s) (Z.to_nat v - 1) (set_ch c (replace1 (ch c) src dst))) (ncl s) (vtx s), S dst)
    else Ok (ST hs i (tcl s) (ncl s) (vtx s), S dst).
Definition remove_obsolete (s : st) : outcome st :=
  if negb (List.length (hits s) =? List.length (inc s)) then Ok s
  else do r <- for_ (seq 0 (List.length (hits s))) rm_step (s, 0);
       let s := fst r in Ok (ST (firstn (snd r) (hits s)) (firstn (snd r) (inc s)) (tcl s) (ncl s) (vtx s)).

(** ClusterCrawler::produce, ClusterCrawler_module.cc:116-136 and 158-217: nothing is written when the
    check fails; otherwise the hits and, for every live cluster, its plane and hits *)
Definition produce (s : st) : outcome (option (list hit * list ((nat * nat * nat) * list nat))) :=
  do ok <- foreach (tcl s) (fun b c => if negb b then Ok false else if (cid c <? 0)%Z then Ok true
    else foreach (ch c) (fun b h => if negb b then Ok false
           else do x <- at_ (hits s) h;
                if negb (hp x =? snd (cctp c)) then Ok false
                else do v <- idx (inc s) h; Ok (v =? cid c)%Z) true) true;
  if negb ok then Ok None
  else do cl <- foreach (tcl s) (fun acc c => if (cid c <? 0)%Z then Ok acc
                  else do _x <- idx (ch c) 0; Ok (acc ++ [(cctp c, ch c)])) [];
       Ok (Some (hits s, cl)).
