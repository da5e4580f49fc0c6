(** Model of the combination generators of cmtool::CMatchManager.
    Source: larreco/RecoAlg/CMTool/CMToolBase/CMatchManager.cxx:70-170. *)
From Verif Require Import Base.

(** CMatchManager.cxx:70-73 CMFactorial, in 32-bit unsigned arithmetic *)
Fixpoint fact32 (n : nat) : Z :=
  match n with
  | 0 => 1%Z
  | S n' => ((fact32 n' * Z.of_nat n) mod 4294967296)%Z
  end.

(** std::next_permutation on a vector<bool> (false < true): keep the longest prefix for which the
    rest still has a successor; at the pivot [x], with a non-increasing rest, exchange it with the
    last greater element of the rest and reverse the rest. [None] = returns false. *)
Fixpoint last_true (t : list bool) : option nat :=
  match t with
  | [] => None
  | b :: t' => match last_true t' with
               | Some j => Some (S j)
               | None => if b then Some 0 else None
               end
  end.
Fixpoint next_permutation (l : list bool) : option (list bool) :=
  match l with
  | [] => None
  | x :: t =>
      match next_permutation t with
      | Some t' => Some (x :: t')
      | None => if x then None
                else match last_true t with
                     | Some j => Some (true :: rev (upd t j false))
                     | None => None
                     end
      end
  end.

(** CMatchManager.cxx:88-91: the indexes [i] with [v[i]] *)
Fixpoint positions (k : nat) (v : list bool) : list nat :=
  match v with
  | [] => []
  | b :: v' => if b then k :: positions (S k) v' else positions (S k) v'
  end.

(** CMatchManager.cxx:86-94 the do-while loop, cut after [fuel] rounds ([None]) *)
Fixpoint perm_loop (fuel : nat) (v : list bool) (res : list (list nat)) : option (list (list nat)) :=
  match fuel with
  | 0 => None
  | S f =>
      let res' := res ++ [positions 0 v] in
      match next_permutation v with
      | Some v' => perm_loop f v' res'
      | None => Some res'
      end
  end.

(** CMatchManager.cxx:75-97 SimpleCombination. The argument of reserve() divides by two
    factorials, so it is undefined when one of them is 0 modulo 2^32. Running out of fuel is
    shown below not to happen. Memory exhaustion is not modelled. *)
Definition simple_combination (n r : nat) : outcome (list (list nat)) :=
  if (n =? 0) || (r =? 0) then Throw AbortExn
  else if n <? r then Throw AbortExn
  else if ((fact32 (n - r) =? 0) || (fact32 r =? 0))%Z then Undef
  else match perm_loop (2 ^ n) (repeat false (n - r) ++ repeat true r) [] with
       | Some res => Ok res
       | None => Undef
       end.

(** CMatchManager.cxx:113-122: the counter incremented from the last digit; the flag says
    whether the carry left the first digit *)
Fixpoint increment (ctr seed : list nat) : list nat * bool :=
  match ctr, seed with
  | c :: cs, s :: ss =>
      let (cs', carry) := increment cs ss in
      if carry then (if c + 1 <? s then (c + 1 :: cs', false) else (0 :: cs', true))
      else (c :: cs', false)
  | _, _ => ([], true)
  end.

(** CMatchManager.cxx:106-130 *)
Fixpoint odometer (fuel : nat) (seed ctr : list nat) (res : list (list nat)) : option (list (list nat)) :=
  match fuel with
  | 0 => None
  | S f =>
      let res' := res ++ [ctr] in
      let ctr' := fst (increment ctr seed) in
      if forallb (fun v => v =? 0) ctr' then Some res' else odometer f seed ctr' res'
  end.

(** CMatchManager.cxx:99-132 ClusterCombinations *)
Definition cluster_combinations (seed : list nat) : outcome (list (list nat)) :=
  match odometer (S (fold_right Nat.mul 1 seed)) seed (repeat 0 (length seed)) [] with
  | Some res => Ok res
  | None => Undef
  end.

(** CMatchManager.cxx:148-167: the choices for one set of planes *)
Definition combine_planes (seed : list nat) (result : list (list (nat * nat))) (plane_comb : list nat)
    : outcome (list (list (nat * nat))) :=
  do sv <- foreach plane_comb (fun acc index => do x <- idx seed index; Ok (acc ++ [x])) [];
  do cc <- cluster_combinations sv;
  foreach cc (fun result comb =>
    do row <- for_ (range 0 (length comb)) (fun row i =>
                do p <- at_ plane_comb i; do c <- at_ comb i; Ok (row ++ [(p, c)])) [];
    Ok (result ++ [row])) result.

(** CMatchManager.cxx:140-168: the outer loop with its break *)
Fixpoint plane_loop (seed : list nat) (is : list nat) (result : list (list (nat * nat)))
    : outcome (list (list (nat * nat))) :=
  match is with
  | [] => Ok result
  | i :: is' =>
      if length seed <? 2 + i then Ok result
      else do pc <- simple_combination (length seed) (length seed - i);
           do result' <- foreach pc (combine_planes seed) result;
           plane_loop seed is' result'
  end.

(** CMatchManager.cxx:134-170 PlaneClusterCombinations *)
Definition plane_cluster_combinations (seed : list nat) : outcome (list (list (nat * nat))) :=
  plane_loop seed (range 0 (length seed)) [].
