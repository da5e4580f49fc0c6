(** Model of cmtool::CMManagerBase and cmtool::CMergeManager.
    Sources: larreco/RecoAlg/CMTool/CMToolBase/CMManagerBase.{h,cxx}, CMergeManager.{h,cxx},
    larreco/RecoAlg/ClusterRecoUtil/ClusterParamsAlg.{h,cxx} (SetHits, Plane, GetNHits only).
    The pluggable algorithms are arbitrary functions over a hidden state [W] which they may
    read and change at every call, so every deterministic or randomised behaviour is covered;
    they are assumed to return (an exception thrown by an algorithm is not modelled). *)
From Verif Require Import Base MultiMap CMergeBK_Model.

(** implicit conversion size_t -> unsigned short at CMergeBookKeeper calls *)
Definition ushort (n : nat) : nat := Z.to_nat (Z.of_nat n mod 65536).
(** implicit conversion int -> UChar_t *)
Definition uchar (z : Z) : Z := (z mod 256)%Z.

Section Manager.
Context {hit : Type} (hit_plane : hit -> Z).
(** everything ClusterParamsAlg computes from its hits: [fill] is FillParams + FillPolygon as
    called by the manager (deterministic in the hits), [extra0] the cleared parameters *)
Context {extra : Type} (extra0 : extra) (fill_in fill_out : list hit -> extra).
Context {W : Type}.

(** ClusterParamsAlg.h:226-249: hits, plane and derived parameters *)
Record cluster := mkC { chits : list hit; cplane : Z; cextra : extra }.

(** the registered algorithms; [None] is a null pointer *)
Record config := mkCfg {
  merge_alg : option (W -> cluster -> cluster -> W * bool);
  sep_alg : option (W -> cluster -> cluster -> W * bool);
  prio_alg : option (W -> cluster -> W * Z);
  hook : W -> list cluster -> W;      (* EventBegin / IterationBegin / IterationEnd / EventEnd *)
  till_converge : bool;
  min_nhits : nat
}.

(** ClusterParamsAlg.cxx:48-73 SetHits on a cluster whose parameters are cleared first
    (Initialize, cxx:126-170, does not touch the plane); the integer is the return value *)
Definition set_hits (min : nat) (hs : list hit) : outcome (cluster * Z) :=
  match hs with
  | [] => Throw UserExn
  | h :: _ => Ok (mkC hs (hit_plane h) extra0,
                  if length hs <? min then (-1)%Z else Z.of_nat (length hs))
  end.

(** CMManagerBase.cxx:34-73 SetClusters(gser, hits): a fresh parameter object per hit list *)
Definition set_clusters (min : nat) (css : list (list hit)) : outcome (list cluster) :=
  foreach css (fun acc hs =>
    do r <- set_hits min hs;
    let (c, n) := r in
    Ok (acc ++ [if (n <? 3)%Z then c else mkC (chits c) (cplane c) (fill_in (chits c))])) [].

(** CMManagerBase.cxx:155-192 ComputePriority: multimap and plane set.
    (default priority: the number of hits converted to float, exact below 2^24) *)
Definition ask_prio (cfg : config) (w : W) (c : cluster) : W * Z :=
  match prio_alg cfg with
  | Some f => f w c
  | None => (w, Z.of_nat (length (chits c)))
  end.
Definition prio_step (cfg : config) (cl : list cluster)
    (st : W * (list (Z * nat) * list Z)) (i : nat) : outcome (W * (list (Z * nat) * list Z)) :=
  let '(w, (pr, planes)) := st in
  let c_index := length cl - i - 1 in
  do c <- at_ cl c_index;
  let (w', p) := ask_prio cfg w c in
  Ok (w', if (0 <? p)%Z
          then (mm_insert p c_index pr,
                if existsb (Z.eqb (uchar (cplane c))) planes then planes else uchar (cplane c) :: planes)
          else (pr, planes)).
Definition compute_priority (cfg : config) (w : W) (cl : list cluster)
    : outcome (W * (list (Z * nat) * list Z)) :=
  for_ (range 0 (length cl)) (prio_step cfg cl) (w, ([], [])).

(** CMergeManager.cxx:318-379 RunSeparate. The third component records what the algorithm
    was asked and answered (observable by the algorithm itself). *)
Definition asked := list (nat * nat * bool).
Definition separate_pair (alg : W -> cluster -> cluster -> W * bool) (cl : list cluster) (c1 : nat)
    (st : W * bk * asked) (c2 : nat) : outcome (W * bk * asked) :=
  let '(w, b, tr) := st in
  do k1 <- at_ cl c1;
  do k2 <- at_ cl c2;
  if negb (uchar (cplane k1) =? uchar (cplane k2))%Z then Ok st
  else
    let (w', sep) := alg w k1 k2 in
    do b' <- (if sep then prohibit b (ushort c1) (ushort c2) else Ok b);
    Ok (w', b', tr ++ [(c1, c2, sep)]).
Definition run_separate alg (cl : list cluster) (st : W * bk * asked) : outcome (W * bk * asked) :=
  for_ (range 0 (length cl)) (fun st c1 =>
    for_ (range (c1 + 1) (length cl)) (separate_pair alg cl c1) st) st.

(** CMergeManager.cxx:236-316 RunMerge over the priority list in decreasing order *)
Definition merge_one (alg : W -> cluster -> cluster -> W * bool) (cl : list cluster)
    (flags : list bool) (c1 : nat) (st : W * bk * asked) (c2 : nat) : outcome (W * bk * asked) :=
  let '(w, b, tr) := st in
  do k1 <- at_ cl c1;
  do k2 <- at_ cl c2;
  if negb (uchar (cplane k1) =? uchar (cplane k2))%Z then Ok st
  else
    do f2 <- at_ flags c2;
    do skip <- (if (f2 : bool) then Ok false else do f1 <- at_ flags c1; Ok (negb f1));
    if (skip : bool) then Ok st
    else
      do allowed <- merge_allowed b (ushort c1) (ushort c2);
      if negb allowed then Ok st
      else
        let (w', m) := alg w k1 k2 in
        do b' <- (if m then (let (b', r) := merge b (ushort c1) (ushort c2) in do _ <- r; Ok b')
                  else Ok b);
        Ok (w', b', tr ++ [(c1, c2, m)]).
Fixpoint merge_rows alg cl flags (order : list nat) (st : W * bk * asked) : outcome (W * bk * asked) :=
  match order with
  | [] => Ok st
  | c1 :: rest =>
      do st' <- for_ rest (merge_one alg cl flags c1) st;
      merge_rows alg cl flags rest st'
  end.
Definition run_merge alg (cl : list cluster) (flags : list bool) (pr : list (Z * nat))
    (st : W * bk * asked) : outcome (W * bk * asked) :=
  if negb (length flags =? length cl) then Throw UserExn
  else merge_rows alg cl flags (map snd (rev pr)) st.

(** CMergeManager.cxx:193-218: the cluster built for one set of merged indexes *)
Definition build_out (cl : list cluster) (indexes : list nat) : outcome cluster :=
  if length indexes =? 1 then do i0 <- at_ indexes 0; at_ cl i0
  else
    do hs <- foreach indexes (fun acc i => do c <- at_ cl i; Ok (acc ++ chits c)) [];
    do r <- set_hits 10 hs;          (* a default-constructed ClusterParamsAlg: fMinNHits = 10 *)
    let (c, n) := r in
    Ok (if (n <? 1)%Z then c else mkC (chits c) (cplane c) (fill_out (chits c))).

(** the state of a CMergeManager between framework calls *)
Record mgr := mkMgr {
  in_cl : list cluster; out_cl : list cluster; book : bk; bkv : list bk;
  tmp_cl : list cluster; tmp_idx : list (list nat); iter : nat; mw : W
}.

(** what one iteration did, for the statements about iterations *)
Record iteration := mkIt {
  it_in : list cluster;              (* the clusters it worked on *)
  it_prio : list (Z * nat);          (* priorities, in multimap order *)
  it_sep : asked; it_merge : asked;  (* separation / merge questions and answers *)
  it_sets : list (list nat);         (* sets of merged indexes *)
  it_out : list cluster
}.

(** CMergeManager.cxx:172-175 *)
Definition merge_switch (n : nat) (idxs : list (list nat)) : outcome (list bool) :=
  for_ (range 0 (length idxs)) (fun sw i =>
    do v <- at_ idxs i;
    if length v =? 1 then set_at sw i false else Ok sw) (repeat true n).

(** CMergeManager.cxx:159-228 IterationProcess; the boolean is its return value *)
Definition iteration_process (cfg : config) (m : mgr) : outcome (mgr * bool * iteration) :=
  let cl := if iter m =? 0 then in_cl m else out_cl m in
  let b0 := reset (ushort (length cl)) in
  do sw <- merge_switch (length cl) (tmp_idx m);
  do pp <- compute_priority cfg (mw m) cl;
  let '(w1, (pr, planes)) := pp in
  do s1 <- (match sep_alg cfg with
            | Some alg => run_separate alg cl (w1, b0, [])
            | None => Ok (w1, b0, []) end);
  let '(w2, b1, trs) := s1 in
  do s2 <- (match merge_alg cfg with
            | Some alg => run_merge alg cl sw pr (w2, b1, [])
            | None => Undef (* _merge_algo dereferenced *) end);
  let '(w3, b2, trm) := s2 in
  do idxs <- pass_result b2;
  do oo <- (if length (out b2) =? length idxs then Ok (cl, bkv m)
            else do o <- foreach idxs (fun acc v => do c <- build_out cl v; Ok (acc ++ [c])) [];
                 Ok (o, bkv m ++ [b2]));
  let (outc, bv) := oo in
  let going := negb (length cl =? length outc) && negb (length outc =? length planes) in
  Ok (mkMgr (in_cl m) outc (book m) bv cl idxs (iter m) w3, going,
      mkIt cl pr trs trm idxs outc).

(** CMergeManager.cxx:41-77 EventBegin *)
Definition event_begin (cfg : config) (m : mgr) : outcome mgr :=
  match merge_alg cfg with
  | None => Throw UserExn
  | Some _ => Ok (mkMgr (in_cl m) (out_cl m) (reset (ushort (length (in_cl m)))) [] [] [] 0
                        (hook cfg (mw m) (in_cl m)))
  end.

(** CMergeManager.cxx:142-157 EventEnd *)
Definition event_end (cfg : config) (m : mgr) : outcome mgr :=
  do b <- foreach (bkv m) (fun b x => let (b', r) := combine b x in do _ <- r; Ok b') (book m);
  Ok (mkMgr (in_cl m) (out_cl m) b [] [] [] (iter m) (hook cfg (mw m) [])).

(** CMManagerBase.cxx:104-144: the iteration loop; [None] = still running after [fuel] iterations *)
Fixpoint iterate (fuel : nat) (cfg : config) (m : mgr) (its : list iteration)
    : option (outcome (mgr * list iteration)) :=
  match fuel with
  | 0 => None
  | S fuel' =>
      let m0 := mkMgr (in_cl m) (out_cl m) (book m) (bkv m) (tmp_cl m) (tmp_idx m) (iter m)
                      (hook cfg (mw m) (in_cl m)) in            (* IterationBegin *)
      match iteration_process cfg m0 with
      | Throw e => Some (Throw e)
      | Undef => Some Undef
      | Ok (m1, going, it) =>
          let m2 := mkMgr (in_cl m1) (out_cl m1) (book m1) (bkv m1) (tmp_cl m1) (tmp_idx m1)
                          (S (iter m1)) (hook cfg (mw m1) []) in  (* IterationEnd *)
          if negb (till_converge cfg) || negb going then Some (Ok (m2, its ++ [it]))
          else iterate fuel' cfg m2 (its ++ [it])
      end
  end.

(** CMManagerBase.cxx:89-153 Process *)
Definition process (fuel : nat) (cfg : config) (m : mgr) : option (outcome (mgr * list iteration)) :=
  match in_cl m with
  | [] => Some (Ok (m, []))
  | _ :: _ =>
      match event_begin cfg m with
      | Throw e => Some (Throw e)
      | Undef => Some Undef
      | Ok m1 =>
          match iterate fuel cfg m1 [] with
          | None => None
          | Some (Throw e) => Some (Throw e)
          | Some Undef => Some Undef
          | Some (Ok (m2, its)) => Some (do m3 <- event_end cfg m2; Ok (m3, its))
          end
      end
  end.

(** CMergeManager.cxx:19-25 constructor (Reset, with null algorithms) *)
Definition new_mgr (w : W) : mgr := mkMgr [] [] (reset 0) [] [] [] 0 w.

(** CMManagerBase.cxx:27-32,34-73: SetClusters resets through the *non-virtual*
    CMManagerBase::Reset (CMManagerBase.h declares it without [virtual]), so the members of
    CMergeManager are not cleared. *)
Definition set_in (m : mgr) (cl : list cluster) : mgr :=
  mkMgr cl (out_cl m) (book m) (bkv m) (tmp_cl m) (tmp_idx m) (iter m) (mw m).

End Manager.
Arguments cluster : clear implicits.
Arguments config : clear implicits.
Arguments mgr : clear implicits.
Arguments iteration : clear implicits.
