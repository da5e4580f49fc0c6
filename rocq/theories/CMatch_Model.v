(** Model of cmtool::CMatchManager.
    Source: larreco/RecoAlg/CMTool/CMToolBase/CMatchManager.{h,cxx}. Clusters, priority
    computation and the convention for algorithms are those of CMgr_Model.v; the match
    algorithm (CFloatAlgoBase::Float) is an arbitrary function of the hidden state and the
    clusters it is given. Debug printing and Report() are not modelled. *)
From Verif Require Import Base MultiMap CMergeBK_Model CMgr_Model CMatchBK_Model CMComb_Model.

(** implicit conversion size_t -> unsigned int in tmp_index_v.push_back, CMatchManager.cxx:229 *)
Definition u32 (n : nat) : nat := Z.to_nat (Z.of_nat n mod 4294967296).

(** [v.at(z)] for an int [z] converted to size_t *)
Definition at_int {A} (l : list A) (z : Z) : outcome A :=
  if (z <? 0)%Z then Throw RangeExn else at_ l (Z.to_nat z).

Section MatchManager.
Context {hit extra W : Type}.
Notation cluster := (cluster hit extra).

(** the members a CMatchManager carries between calls: CMManagerBase::_in_clusters and
    CMatchManager::_book_keeper (CMatchManager.h:73), and the algorithms' hidden state *)
Record mmgr := mkMM { mm_in : list cluster; mm_reg : reg; mm_w : W }.

(** one question put to the match algorithm: the cluster indexes and the score *)
Definition questions := list (list nat * Z).

(** CMatchManager.cxx:194-204: which planes get an entry, and where *)
Definition plane_index (nplanes : nat) (planes : list Z) : outcome (list nat * list (list nat)) :=
  for_ (range 0 nplanes) (fun (st : list nat * list (list nat)) plane =>
    let (pti, ca) := st in
    if existsb (Z.eqb (uchar (Z.of_nat plane))) planes
    then do pti' <- set_idx pti plane (length ca); Ok (pti', ca ++ [[]])
    else Ok st) (repeat nplanes nplanes, []).

(** CMatchManager.cxx:206-209 *)
Definition fill_one (cl : list cluster) (pti : list nat) (ca : list (list nat)) (i : nat)
    : outcome (list (list nat)) :=
  do c <- at_ cl i;
  do r <- at_int pti (cplane c);
  do row <- at_ ca r;
  set_at ca r (row ++ [i]).

(** CMatchManager.cxx:220-253: one combination *)
Definition ask_one (alg : W -> list cluster -> W * Z) (cl : list cluster) (ca : list (list nat))
    (st : W * reg * questions) (comb : list (nat * nat)) : outcome (W * reg * questions) :=
  let '(w, r, tr) := st in
  do rows <- foreach comb (fun (acc : list nat * list cluster) pc =>
      do row <- at_ ca (fst pc);
      do i <- at_ row (snd pc);
      do c <- at_ cl i;
      Ok (fst acc ++ [u32 i], snd acc ++ [c])) ([], []);
  let (w', score) := alg w (snd rows) in
  Ok (w', if (0 <? score)%Z then reg_match r (fst rows) score else r, tr ++ [(fst rows, score)]).

(** CMatchManager.cxx:172-262 IterationProcess; it always returns false *)
Definition match_iteration (nplanes : nat) (alg : W -> list cluster -> W * Z) (cfg : config hit extra W)
    (m : mmgr) : outcome (mmgr * questions) :=
  do pp <- compute_priority cfg (mm_w m) (mm_in m);
  let '(w1, (pr, planes)) := pp in
  if length planes <? 2 then Ok (mkMM (mm_in m) (mm_reg m) w1, [])
  else if nplanes <? length planes then Throw UserExn
  else
    do pc <- plane_index nplanes planes;
    do ca <- foreach (map snd (rev pr)) (fill_one (mm_in m) (fst pc)) (snd pc);
    do combs <- plane_cluster_combinations (map (@length nat) ca);
    do r <- foreach combs (ask_one alg (mm_in m) ca) (w1, mm_reg m, []);
    let '(w2, reg2, tr) := r in
    Ok (mkMM (mm_in m) reg2 w2, tr).

(** CMManagerBase.cxx:89-153 Process with the CMatchManager hooks (CMatchManager.cxx:41-68):
    exactly one iteration, because IterationProcess returns false. A null match algorithm is
    dereferenced in EventBegin. *)
Definition match_process (nplanes : nat) (alg : option (W -> list cluster -> W * Z))
    (cfg : config hit extra W) (m : mmgr) : outcome (mmgr * questions) :=
  match mm_in m with
  | [] => Ok (m, [])
  | _ :: _ =>
      match alg with
      | None => Undef
      | Some f =>
          let w0 := hook cfg (hook cfg (mm_w m) (mm_in m)) (mm_in m) in
          do r <- match_iteration nplanes f cfg (mkMM (mm_in m) (mm_reg m) w0);
          let (m1, tr) := r in
          Ok (mkMM (mm_in m1) (mm_reg m1) (hook cfg (hook cfg (mm_w m1) []) []), tr)
      end
  end.

(** CMManagerBase.cxx:27-32,75-87 SetClusters: runs the non-virtual CMManagerBase::Reset, so
    the book keeper is kept *)
Definition mm_set_clusters (m : mmgr) (cl : list cluster) : mmgr := mkMM cl (mm_reg m) (mm_w m).
(** CMatchManager.cxx:33-39 Reset (the algorithms' own Reset is part of the hidden state) *)
Definition mm_reset (m : mmgr) : mmgr := mkMM [] reg_reset (mm_w m).
(** CMatchManager.cxx:26-31 constructor *)
Definition mm_new (w : W) : mmgr := mkMM [] reg_reset w.
End MatchManager.
Arguments mmgr : clear implicits.
