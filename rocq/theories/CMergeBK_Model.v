(** Model of cmtool::CMergeBookKeeper.
    Source: larreco/RecoAlg/CMTool/CMToolBase/CMergeBookKeeper.{h,cxx}.
    [unsigned short] / [size_t] values are [nat]; no operation here can wrap: the only
    decrement ([v -= 1], cxx:106) is guarded by [v > out_index2], and every [size_t]
    subtraction has a left operand that is proved no smaller on reachable states
    (out_index1 < out_index2 < _out_cluster_count, CMergeBK_Proofs). *)
From Verif Require Import Base.

(** CMergeBookKeeper.h:33-94: the object *is* a vector of output indexes ([out]),
    plus [_prohibit_merge] ([proh]) and [_out_cluster_count] ([cnt]). *)
Record bk := mkBk { out : list nat; proh : list (list bool); cnt : nat }.

(** CMergeBookKeeper.cxx:15-27 Reset (the argument is an unsigned short: see [ushort] in
    CMergeMgr_Model for the conversion the caller performs). *)
Definition reset (n : nat) : bk :=
  mkBk (seq 0 n) (map (fun i => repeat false (n - i)) (seq 0 n)) n.

(** [_prohibit_merge.at(i).at(j)] and its assignment *)
Definition at2 (t : list (list bool)) (i j : nat) : outcome bool :=
  do row <- at_ t i; at_ row j.
Definition set2 (t : list (list bool)) (i j : nat) (b : bool) : outcome (list (list bool)) :=
  do row <- at_ t i; do row' <- set_at row j b; set_at t i row'.

(** the common argument checks, cxx:31-37 = 52-58 = 73-79 *)
Definition check_args (s : bk) (i j : nat) : outcome unit :=
  if i =? j then Throw UserExn
  else if (length (out s) <=? i) || (length (out s) <=? j) then Throw UserExn
  else Ok tt.

(** cxx:29-48 ProhibitMerge *)
Definition prohibit (s : bk) (i j : nat) : outcome bk :=
  do _ <- check_args s i j;
  do a <- at_ (out s) i;
  do b <- at_ (out s) j;
  if a =? b then Throw UserExn
  else
    let o1 := Nat.min a b in
    let o2 := Nat.max a b in
    do t <- set2 (proh s) o1 (o2 - o1) true;
    Ok (mkBk (out s) t (cnt s)).

(** cxx:50-69 MergeAllowed *)
Definition merge_allowed (s : bk) (i j : nat) : outcome bool :=
  do _ <- check_args s i j;
  do a <- at_ (out s) i;
  do b <- at_ (out s) j;
  if a =? b then Ok true
  else
    let o1 := Nat.min a b in
    let o2 := Nat.max a b in
    do p <- at2 (proh s) o1 (o2 - o1);
    Ok (negb p).

(** cxx:101-107 relabelling of the output indexes *)
Definition relabel (o1 o2 v : nat) : nat :=
  if (v =? o1) || (v =? o2) then o1
  else if o2 <? v then v - 1
  else v.

(** cxx:113-139 loop (1): rows with index < out_index1.
    (C++ [||] skips the second read when the first is true; both reads are in range.) *)
Definition loop1 (o1 o2 c : nat) (t : list (list bool)) : outcome (list (list bool)) :=
  for_ (range 0 o1) (fun t index =>
    do x1 <- at2 t index (o1 - index);
    do x2 <- at2 t index (o2 - index);
    do t <- set2 t index (o1 - index) (x1 || x2);
    do t <- for_ (range (o2 - index) (c - index - 1)) (fun t k =>
              do v <- at2 t index (k + 1);
              set2 t index k v) t;
    set2 t index (c - index - 1) false) t.

(** cxx:141-175 loop (2): row out_index1 *)
Definition loop2 (o1 o2 c : nat) (t : list (list bool)) : outcome (list (list bool)) :=
  do t <- for_ (range 1 (c - o1 - 1)) (fun t k =>
    if k + o1 <? o2 then
      do x1 <- at2 t o1 k;
      do x2 <- at2 t (k + o1) (o2 - (k + o1));
      set2 t o1 k (x1 || x2)
    else
      do x1 <- at2 t o1 (k + 1);
      do x2 <- at2 t o2 (k + 1 + o1 - o2);
      set2 t o1 k (x1 || x2)) t;
  set2 t o1 (c - o1 - 1) false.

(** cxx:177-188 loop (3): rows strictly between out_index1 and out_index2 *)
Definition loop3 (o1 o2 c : nat) (t : list (list bool)) : outcome (list (list bool)) :=
  for_ (range (o1 + 1) o2) (fun t index =>
    do t <- for_ (range (o2 - index) (c - index - 1)) (fun t k =>
              do v <- at2 t index (k + 1);
              set2 t index k v) t;
    set2 t index (c - index - 1) false) t.

(** cxx:189-203 loop (4): rows from out_index2 on are copied from the next row *)
Definition loop4 (o1 o2 c : nat) (t : list (list bool)) : outcome (list (list bool)) :=
  for_ (range o2 (c - 1)) (fun t index =>
    do row <- at_ t index;
    for_ (range 0 (length row)) (fun t k =>
      do next <- at_ t (index + 1);
      if k <? length next then
        do v <- at2 t (index + 1) k;
        set2 t index k v
      else set2 t index k false) t) t.

(** cxx:73-99: the checks made before anything is written. [None]: already merged, return. *)
Definition merge_pre (s : bk) (i j : nat) : outcome (option (nat * nat)) :=
  do _ <- check_args s i j;
  do a <- at_ (out s) i;
  do b <- at_ (out s) j;
  if a =? b then Ok None
  else
    let o1 := Nat.min a b in
    let o2 := Nat.max a b in
    do p <- at2 (proh s) o1 (o2 - o1);
    if (p : bool) then Throw UserExn else Ok (Some (o1, o2)).

(** cxx:111-203: the four loops over the table *)
Definition merge_table (s : bk) (o1 o2 : nat) : outcome (list (list bool)) :=
  do t <- loop1 o1 o2 (cnt s) (proh s);
  do t <- loop2 o1 o2 (cnt s) t;
  do t <- loop3 o1 o2 (cnt s) t;
  loop4 o1 o2 (cnt s) t.

(** cxx:71-205 Merge, with the object as it is when the function returns or throws: the
    output indexes are overwritten in place (cxx:101-107) before the table loops run.
    (If a table loop threw, the table shown here is the old one; unreachable, see C04.) *)
Definition merge (s : bk) (i j : nat) : bk * outcome unit :=
  match merge_pre s i j with
  | Throw e => (s, Throw e)
  | Undef => (s, Undef)
  | Ok None => (s, Ok tt)
  | Ok (Some (o1, o2)) =>
      let out' := map (relabel o1 o2) (out s) in
      match merge_table s o1 o2 with
      | Ok t => (mkBk out' t (cnt s - 1), Ok tt)
      | Throw e => (mkBk out' (proh s) (cnt s), Throw e)
      | Undef => (mkBk out' (proh s) (cnt s), Undef)
      end
  end.

(** cxx:229-235 IsMerged *)
Definition is_merged (s : bk) (i j : nat) : outcome bool :=
  if (length (out s) <=? i) || (length (out s) <=? j) then Throw UserExn
  else do a <- at_ (out s) i; do b <- at_ (out s) j; Ok (a =? b).

(** cxx:237-249 GetMergedSet *)
Definition get_merged_set (s : bk) (i : nat) : outcome (list nat) :=
  if length (out s) <=? i then Throw UserExn
  else
    do o <- at_ (out s) i;
    for_ (range 0 (length (out s))) (fun acc k =>
      do v <- at_ (out s) k;
      Ok (if v =? o then acc ++ [k] else acc)) [].

(** cxx:251-259 PassResult *)
Definition pass_result (s : bk) : outcome (list (list nat)) :=
  for_ (range 0 (length (out s))) (fun res k =>
    do v <- at_ (out s) k;
    do r <- at_ res v;
    set_at res v (r ++ [k])) (repeat [] (cnt s)).

(** a range-for whose body may throw, keeping the object as it is at that moment *)
Fixpoint foreach_st {A S} (l : list A) (body : S -> A -> S * outcome unit) (s : S) : S * outcome unit :=
  match l with
  | [] => (s, Ok tt)
  | a :: l' => match body s a with (s', Ok _) => foreach_st l' body s' | r => r end
  end.

(** run a read-only computation, then continue *)
Definition with_ {A S} (s : S) (x : outcome A) (f : A -> S * outcome unit) : S * outcome unit :=
  match x with Ok a => f a | Throw e => (s, Throw e) | Undef => (s, Undef) end.

(** cxx:261-299 Combine.  An inner [Merge] may throw; the exception propagates and leaves
    the merges already made in place. *)
Definition combine (s : bk) (another : bk) : bk * outcome unit :=
  with_ s (pass_result s) (fun my =>
  if negb (length my =? length (out another)) then (s, Throw UserExn)
  else
    with_ s (pass_result another) (fun ar =>
    if length my <=? length ar then (s, Throw UserExn)
    else
      foreach_st ar (fun s ares =>
        if length ares =? 1 then (s, Ok tt)
        else
          with_ s (do a0 <- at_ ares 0; do r0 <- at_ my a0; at_ r0 0) (fun target =>
          foreach_st ares (fun s res_index =>
            with_ s (at_ my res_index) (fun origs =>
            foreach_st origs (fun s orig =>
              if target =? orig then (s, Ok tt) else merge s target orig) s)) s)) s)).

(* ---------------------------------------------------------------- *)
(** Histories of calls. *)
Inductive op :=
| OMerge (i j : nat)
| OProhibit (i j : nat)
| OAllowed (i j : nat).

Inductive answer := ADone | ABool (b : bool) | AThrow (e : exn) | AUndef.

Definition to_answer (r : outcome unit) : answer :=
  match r with Ok _ => ADone | Throw e => AThrow e | Undef => AUndef end.

Definition step (s : bk) (o : op) : bk * answer :=
  match o with
  | OMerge i j => let (s', r) := merge s i j in (s', to_answer r)
  | OProhibit i j =>   (* the table write is the last thing ProhibitMerge does *)
      match prohibit s i j with
      | Ok s' => (s', ADone) | Throw e => (s, AThrow e) | Undef => (s, AUndef) end
  | OAllowed i j =>
      (s, match merge_allowed s i j with
          | Ok b => ABool b | Throw e => AThrow e | Undef => AUndef end)
  end.

(** run a history, returning the final object and the log of (call, answer), oldest first *)
Fixpoint run (s : bk) (ops : list op) : bk * list (op * answer) :=
  match ops with
  | [] => (s, [])
  | o :: rest =>
      let (s1, a) := step s o in
      let (s2, log) := run s1 rest in
      (s2, (o, a) :: log)
  end.
