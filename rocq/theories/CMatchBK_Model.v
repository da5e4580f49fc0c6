(** Model of cmtool::CMatchBookKeeper.
    Sources: larreco/RecoAlg/CMTool/CMToolBase/CMatchBookKeeper.{h,cxx}.
    Scores are [Z] (see MultiMap.v: an order embedding of the non-NaN floats). *)
From Verif Require Import Base MultiMap.

(** CMatchBookKeeper.h:44  std::multimap<float, std::vector<unsigned int>> _register *)
Definition reg := list (Z * list nat).

(** CMatchBookKeeper.cxx:5-13 constructor and Reset *)
Definition reg_reset : reg := [].

(** CMatchBookKeeper.cxx:15-18 Match *)
Definition reg_match (r : reg) (idxs : list nat) (score : Z) : reg := mm_insert score idxs r.

(** [index + 1] in unsigned int arithmetic, CMatchBookKeeper.cxx:47 *)
Definition u32_succ (i : nat) : nat := Z.to_nat ((Z.of_nat i + 1) mod 4294967296).

(** std::vector<bool>::resize(n, false) *)
Definition resize_false (v : list bool) (n : nat) : list bool :=
  firstn n v ++ repeat false (n - length v).

(** CMatchBookKeeper.cxx:41-52: growing the table and testing one set *)
Definition check_set (used : list bool) (s : list nat) : outcome (list bool * bool) :=
  foreach s (fun (st : list bool * bool) i =>
    let (used, valid) := st in
    if length used <=? i then Ok (resize_false used (u32_succ i), valid)
    else do u <- at_ used i; Ok (used, if (u : bool) then false else valid)) (used, true).

(** CMatchBookKeeper.cxx:37-61: one turn of the reverse loop over the register *)
Definition pass_step (st : list bool * list (list nat)) (e : Z * list nat)
    : outcome (list bool * list (list nat)) :=
  let (used, result) := st in
  do uv <- check_set used (snd e);
  let (used', valid) := uv in
  if (valid : bool)
  then do used'' <- foreach (snd e) (fun u i => set_at u i true) used';
       Ok (used'', result ++ [snd e])
  else Ok (used', result).

(** CMatchBookKeeper.cxx:20-62 GetResult / PassResult *)
Definition match_result (r : reg) : outcome (list (list nat)) :=
  do st <- foreach (rev r) pass_step ([], []);
  Ok (snd st).

(** the mutating interface *)
Inductive match_op := OpMatch (idxs : list nat) (score : Z) | OpReset.
Definition match_do (r : reg) (o : match_op) : reg :=
  match o with OpMatch i s => reg_match r i s | OpReset => reg_reset end.
Definition match_run (r : reg) (ops : list match_op) : reg := fold_left match_do ops r.
