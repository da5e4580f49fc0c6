(** Model of the track trees of the Projection Matching Algorithm: larreco/RecoAlg/PMAlg/PmaTrkCandidate.{h,cxx} and the parts of
    PmaTrack3D.cxx it uses.  Nodes (Node3D, a SortedBranchBase) and segments (Segment3D, a SortedObjectBase) live in the heap of
    SortedObj_Model.v; a track has its lists of nodes and segments.  Positions, hits, reference points, TPC numbers and log messages are not
    modelled.  Recursions and loops that follow pointers take fuel; running out of it ([Undef]) stands for not terminating. *)
From Verif Require Import Base SortedObj_Model.

(** PmaTrack3D.h: fNodes, fSegments *)
Record ptrack := mkPT { t_nodes : list nat; t_segs : list nat }.
(** the heap, Segment3D::fParent (PmaSegment3D.h) and the live tracks *)
Record world := mkW { w_heap : heap; w_par : nat -> nat; w_trk : nat -> option ptrack }.
(** PmaTrkCandidate.h:72-82 TrkCandidate; fMse, fValidation, fGood are not modelled *)
Record cand := mkC { c_trk : option nat; c_key : Z; c_tree : Z; c_clus : list nat; c_parent : Z; c_dau : list nat }.
Definition set_tree (c : cand) (id : Z) : cand := mkC (c_trk c) (c_key c) id (c_clus c) (c_parent c) (c_dau c).
Definition set_clus (c : cand) (l : list nat) : cand := mkC (c_trk c) (c_key c) (c_tree c) l (c_parent c) (c_dau c).
Definition set_parent (c : cand) (p : Z) : cand := mkC (c_trk c) (c_key c) (c_tree c) (c_clus c) p (c_dau c).
Definition set_dau (c : cand) (l : list nat) : cand := mkC (c_trk c) (c_key c) (c_tree c) (c_clus c) (c_parent c) l.
(** PmaTrkCandidate.h:41 *)
Definition valid (c : cand) : bool := match c_trk c with Some _ => true | None => false end.

Definition deref_t (w : world) (t : option nat) : outcome ptrack :=
  match t with Some t => match w_trk w t with Some T => Ok T | None => Undef end | None => Undef end.
(** Nodes().front() *)
Definition front (T : ptrack) : outcome nat := idx (t_nodes T) 0.
(** Next(0) .. Next(NextCount()-1) of a node *)
Definition nexts (w : world) (n : nat) : outcome (list nat) := do o <- deref (w_heap w) n; Ok (o_nexts o).
Definition prev (w : world) (n : nat) : outcome (option nat) := do o <- deref (w_heap w) n; Ok (o_prev o).
(** PmaTrack3D.cxx:1005-1016 NextSegment *)
Definition next_segment (w : world) (t n : nat) : outcome (option nat) := do l <- nexts w n; Ok (find (fun s => Nat.eqb (w_par w s) t) l).

(** PmaTrkCandidate.cxx:49-54 getCandidateIndex; [None] is -1 *)
Fixpoint cand_index (cs : list cand) (t : option nat) : option nat :=
  match cs with
  | [] => None
  | c :: cs' => if match c_trk c, t with Some a, Some b => Nat.eqb a b | None, None => true | _, _ => false end then Some 0 else option_map S (cand_index cs' t)
  end.
(** PmaTrkCandidate.cxx:56-63 getCandidateTreeId *)
Definition cand_tree_id (cs : list cand) (t : option nat) : outcome Z := match cand_index cs t with Some k => do c <- idx cs k; Ok (c_tree c) | None => Ok (-1)%Z end.

(** PmaTrkCandidate.cxx:134-153: the loop along the track; [rec] is setTreeId(id, ., false) *)
Fixpoint walk (rec : list cand -> nat -> outcome (list cand)) (fuel : nat) (w : world) (t : nat) (vtx : nat) (cs : list cand) : outcome (list cand) :=
  match fuel with
  | O => Undef
  | S f =>
      do sthis <- next_segment w t vtx;
      do nx <- nexts w vtx;
      do cs1 <- foreach nx (fun cs s =>
                  if same sthis s then Ok cs
                  else match cand_index cs (Some (w_par w s)) with Some k => rec cs k | None => Ok cs end) cs;
      match sthis with
      | None => Ok cs1
      | Some s => do o <- deref (w_heap w) s; match o_next o with Some v => walk rec f w t v cs1 | None => Ok cs1 end
      end
  end.
(** PmaTrkCandidate.cxx:122-156 setTreeId *)
Fixpoint set_tree_id (fuel : nat) (w : world) (id : Z) (cs : list cand) (k : nat) (is_root : bool) : outcome (list cand) :=
  match fuel with
  | O => Undef
  | S f =>
      do c <- idx cs k;
      do T <- deref_t w (c_trk c);
      do vtx0 <- front T;
      let t := match c_trk c with Some t => t | None => 0 end in
      do vtx <- (if is_root then Ok (Some vtx0)
                 else do s <- next_segment w t vtx0; match s with Some s => do o <- deref (w_heap w) s; Ok (o_next o) | None => Ok (Some vtx0) end);
      do cs1 <- match vtx with Some v => walk (fun cs k => set_tree_id f w id cs k false) f w t v cs | None => Ok cs end;
      do c1 <- idx cs1 k;
      set_idx cs1 k (set_tree c1 id)
  end.
(** PmaTrack3D.cxx:1742-1755 GetRoot *)
Fixpoint get_root (fuel : nat) (w : world) (t : nat) : outcome nat :=
  match fuel with
  | O => Undef
  | S f =>
      do T <- deref_t w (Some t);
      match t_nodes T with
      | [] => Throw UserExn
      | n :: _ => do p <- prev w n; match p with Some s => get_root f w (w_par w s) | None => Ok t end
      end
  end.
(** PmaTrkCandidate.cxx:158-179 setTreeIds *)
Definition set_tree_ids (fuel : nat) (w : world) (cs : list cand) : outcome (list cand * Z) :=
  let cs0 := map (fun c => set_tree c (-1)) cs in
  for_ (range 0 (length cs0)) (fun st k =>
    do c <- idx (fst st) k;
    if negb (valid c) || (0 <=? c_tree c)%Z then Ok st
    else
      do r <- match c_trk c with Some t => get_root fuel w t | None => Undef end;
      do cs1 <- match cand_index (fst st) (Some r) with Some k' => set_tree_id fuel w (snd st) (fst st) k' true | None => Ok (fst st) end;
      Ok (cs1, (snd st + 1)%Z)) (cs0, 0%Z).

(** PmaTrkCandidate.cxx:80-118: the candidates and the primaries *)
Definition link_one (w : world) (st : list cand * list cand) (t : nat) : outcome (list cand * list cand) :=
  do c <- idx (fst st) t;
  match c_trk c with
  | None => Ok st
  | Some trk =>
      do T <- deref_t w (Some trk);
      do n0 <- front T;
      do p <- prev w n0;
      do st1 <- match p with
                | Some s =>
                    do cs1 <- set_idx (fst st) t (set_parent c (match cand_index (fst st) (Some (w_par w s)) with Some k => Z.of_nat k | None => -1 end)%Z);
                    Ok (cs1, snd st)
                | None =>
                    if (c_parent c <? 0)%Z then
                      let pri := (length (fst st) + length (snd st ++ [c]) - 1)%nat in
                      do nx <- nexts w n0;
                      do r <- foreach nx (fun r s =>
                                match cand_index (fst r) (Some (w_par w s)) with
                                | Some k => do ck <- idx (fst r) k; do cs1 <- set_idx (fst r) k (set_parent ck (Z.of_nat pri)); Ok (cs1, snd r ++ [k])
                                | None => Ok r
                                end) (fst st, []);
                      Ok (fst r, snd st ++ [mkC None (-1) (c_tree c) [] (-1) (snd r)])
                    else Ok st
                end;
      do cs2 <- foreach (tl (t_nodes T)) (fun cs n =>
                  do nx <- nexts w n;
                  foreach nx (fun cs s =>
                    if Nat.eqb (w_par w s) trk then Ok cs
                    else match cand_index cs (Some (w_par w s)) with
                         | Some k => do ct <- idx cs t; set_idx cs t (set_dau ct (c_dau ct ++ [k]))
                         | None => Ok cs
                         end) cs) (fst st1);
      Ok (cs2, snd st1)
  end.
(** PmaTrkCandidate.cxx:65-119 setParentDaughterConnections; lines 70-78 erase the invalid candidates and reset the others *)
Definition connect (w : world) (cs : list cand) : outcome (list cand * list cand) :=
  let cs0 := map (fun c => set_dau (set_parent c (-1)) []) (filter valid cs) in
  for_ (range 0 (length cs0)) (link_one w) (cs0, []).

(** PmaTrack3D.cxx:2367-2372 DeleteSegments *)
Definition delete_segments (h : heap) (ss : list nat) : outcome heap := foreach ss (fun h s => destroy h s) h.
(** PmaTrack3D.cxx:1719-1724: take the nodes of [src], joining each to the last one by a new segment; [addrs] are the addresses new returns *)
Fixpoint append_nodes (w : world) (this : nat) (ns addrs : list nat) : outcome world :=
  match ns, addrs with
  | [], _ => Ok w
  | n :: ns', a :: addrs' =>
      do T <- deref_t w (Some this);
      match rev (t_nodes T) with
      | [] => Undef
      | b :: _ =>
          do h <- construct (w_heap w) a false (Some b) (Some n);
          append_nodes (mkW h (fun s => if Nat.eqb s a then this else w_par w s) (fun t => if Nat.eqb t this then Some (mkPT (t_nodes T ++ [n]) (t_segs T ++ [a])) else w_trk w t)) this ns' addrs'
      end
  | _ :: _, [] => Undef
  end.
(** PmaTrack3D.cxx:1711-1740 ExtendWith; the source is deleted *)
Definition extend_with (w : world) (this src : nat) (addrs : list nat) : outcome world :=
  do S0 <- deref_t w (Some src);
  do n0 <- front S0;
  do p <- prev w n0;
  match p with
  | Some _ => Throw UserExn
  | None =>
      do h <- delete_segments (w_heap w) (t_segs S0);
      do w1 <- append_nodes (mkW h (w_par w) (w_trk w)) this (t_nodes S0) addrs;
      Ok (mkW (w_heap w1) (w_par w1) (fun t => if Nat.eqb t src then None else w_trk w1 t))
  end.
(** vector::erase(begin() + i), undefined out of range *)
Definition erase {A} (l : list A) (i : nat) : outcome (list A) := if i <? length l then Ok (firstn i l ++ skipn (S i) l) else Undef.
(** PmaTrkCandidate.cxx:329-340 merge *)
Definition merge (fuel : nat) (w : world) (cs : list cand) (i1 i2 : nat) (addrs : list nat) : outcome (world * list cand) :=
  do c1 <- idx cs i1;
  do c2 <- idx cs i2;
  match c_trk c1, c_trk c2 with
  | Some t1, Some t2 =>
      do w1 <- extend_with w t1 t2 addrs;
      do cs1 <- foreach (c_clus c2) (fun cs c => do c1 <- idx cs i1; set_idx cs i1 (set_clus c1 (c_clus c1 ++ [c]))) cs;
      do cs2 <- erase cs1 i2;
      do c <- idx cs2 i1;
      do cs3 <- set_tree_id fuel w1 (c_tree c) cs2 i1 true;
      Ok (w1, cs3)
  | _, _ => Undef
  end.
