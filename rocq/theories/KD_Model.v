(** Model of larreco/RecoAlg/Cluster3DAlgs/kdTree.{h,cxx}.
    Floats are exact rationals; FLT_MAX, with which callers start a search, is the separate value [Far] (larger than every coordinate sum).
    Hits are addresses; their data is given by functions.  Nodes live in a std::list, so references between them stay valid: a tree value.
    std::sort is a function returning a sorted permutation (premise of the theorems), std::sqrt is an oracle.
    Timing, the container of nodes and the clearing of status bits by the HitPairListPtr overload are not modelled. *)
From Coq Require Import QArith Qcanon.
From Verif Require Import Base Solver_Model CandHit_Model GaussElim_Model.
Local Open Scope nat_scope.

(** Cluster3D.h ClusterHit3D: the parts read here *)
Record hit3 := mkH3 { p_x : Qc; p_y : Qc; p_z : Qc; h_cryo : nat; h_tpc : nat; h_time : Qc; h_sigma : Qc; h_w0 : Z; h_w1 : Z; h_w2 : Z }.
(** getPosition()[i], i < 3 *)
Definition coord (h : hit3) (a : nat) : Qc := match a with 0 => p_x h | 1 => p_y h | _ => p_z h end.
(** kdTree.h:127-170 KdTreeNode *)
Inductive node := Null | Leaf (h : nat) | Split (axis : nat) (val : Qc) (l r : node).
(** a search distance *)
Inductive dist := Far | D (q : Qc).

Section KD.
Variable (hit : nat -> hit3).
Variable (sort : (nat -> nat -> bool) -> list nat -> list nat).
Variable (root : Qc -> Qc).
Variables (sigmas refdist : Qc).

Definition less_on (a : nat) (h k : nat) : bool := qc_lt (coord (hit h) a) (coord (hit k) a).
(** kdTree.cxx:121-145 minmax_element on one axis and the difference *)
Definition extent (a : nat) (l : list nat) : Qc :=
  match l with
  | [] => 0%Qc
  | h :: l' => (fold_left (fun m k => qmax m (coord (hit k) a)) l' (coord (hit h) a) - fold_left (fun m k => if qc_lt (coord (hit k) a) m then coord (hit k) a else m) l' (coord (hit h) a))%Qc
  end.
(** kdTree.cxx:147-149 max_element: the first largest *)
Definition widest (l : list nat) : nat :=
  let b := if qc_lt (extent 0 l) (extent 1 l) then 1 else 0 in if qc_lt (extent b l) (extent 2 l) then 2 else b.
(** kdTree.cxx:162-170 walk back over repeated values, not below position 1 *)
Fixpoint walk_back (a : nat) (l : list nat) (m : nat) : nat :=
  match m with
  | S (S _ as m1) => if qc_lt (coord (hit (nth m1 l 0)) a) (coord (hit (nth m l 0)) a) then m else walk_back a l m1
  | _ => m
  end.
Definition half : Qc := (/ (1 + 1))%Qc.
(** kdTree.cxx:109-181 BuildKdTree(first, last); [fuel] bounds the recursion depth ([None]: exhausted) *)
Fixpoint build_range (fuel : nat) (l : list nat) : option node :=
  match fuel with
  | 0 => None
  | S fuel' =>
      match l with
      | [] => Some Null
      | [h] => Some (Leaf h)
      | _ =>
          let a := widest l in
          let s := sort (less_on a) l in
          let m := walk_back a s (length s / 2) in
          let v := (half * (coord (hit (nth m s 0%nat)) a + coord (hit (nth (m - 1) s 0%nat)) a))%Qc in
          match build_range fuel' (firstn m s), build_range fuel' (skipn m s) with
          | Some t1, Some t2 => Some (Split a v t1 t2)
          | _, _ => None
          end
      end
  end.
(** kdTree.cxx:48-107 BuildKdTree(hit list) *)
Definition build_tree (l : list nat) : option node := build_range (S (length l)) l.

(** kdTree.cxx:342-353 *)
Definition dist_yz (h k : nat) : Qc :=
  let dy := (p_y (hit h) - p_y (hit k))%Qc in let dz := (p_z (hit h) - p_z (hit k))%Qc in root (dy * dy + dz * dz)%Qc.
Definition minsep : Qc := Q2Qc (1 # 10000).
Definition separation (h k : nat) : Qc := qmax minsep (dist_yz h k).
Definition wire_ok (h k : nat) : bool :=
  (Z.abs (h_w0 (hit h) - h_w0 (hit k)) <? 3)%Z && (Z.abs (h_w1 (hit h) - h_w1 (hit k)) <? 3)%Z && (Z.abs (h_w2 (hit h) - h_w2 (hit k)) <? 3)%Z.
(** kdTree.cxx:297-340 consistentPairs, returning the new bestDist; "the largest of the sorted deltas is below 3" is written as "all are" *)
Definition consistent (h k : nat) (best : dist) : option Qc :=
  match best with
  | Far => None
  | D b =>
      if Nat.eqb (h_cryo (hit h)) (h_cryo (hit k)) && Nat.eqb (h_tpc (hit h)) (h_tpc (hit k)) then
        if qc_lt (qabs (h_time (hit h) - h_time (hit k))) (sigmas * (h_sigma (hit h) + h_sigma (hit k)))%Qc then
          if wire_ok h k then
            if qc_lt (separation h k) b then Some (separation h k) else None
          else None
        else None
      else None
  end.
(** ref + best > axis, ref - best < axis *)
Definition reach_up (r : Qc) (best : dist) (v : Qc) : bool := match best with Far => true | D b => qc_lt v (r + b)%Qc end.
Definition reach_down (r : Qc) (best : dist) (v : Qc) : bool := match best with Far => true | D b => qc_lt (r - b)%Qc v end.

(** kdTree.cxx:183-222 FindNearestNeighbors, on (CandPairList, bestDist); a null node is not a leaf and has no position component (undefined) *)
Fixpoint neighbours (ref : nat) (t : node) (st : list (Qc * nat) * dist) : outcome (list (Qc * nat) * dist) :=
  match t with
  | Null => Undef
  | Leaf h =>
      if Nat.eqb ref h then Ok (fst st, D refdist)
      else match consistent ref h (snd st) with
           | Some s => Ok (fst st ++ [(s, h)], D (qmax refdist s))
           | None => Ok st
           end
  | Split a v l r =>
      let x := coord (hit ref) a in
      if qc_lt x v then do st1 <- neighbours ref l st; if reach_up x (snd st1) v then neighbours ref r st1 else Ok st1
      else do st1 <- neighbours ref r st; if reach_down x (snd st1) v then neighbours ref l st1 else Ok st1
  end.

(** kdTree.cxx:224-275 FindEntry, on (CandPairList, bestDist, selfNotFound), with the returned flag *)
Fixpoint find_entry (ref : nat) (t : node) (st : list (Qc * nat) * dist * bool) : outcome (bool * (list (Qc * nat) * dist * bool)) :=
  match t with
  | Null => Undef
  | Leaf h =>
      let '(cands, best, nf) := st in
      let nf' := if Nat.eqb ref h then false else nf in
      match consistent ref h (D 0%Qc) with
      | Some s => Ok (negb nf', (cands ++ [(s, h)], match best with D b => D (qmax b s) | Far => D (qmax half s) end, nf'))
      | None => Ok (negb nf', (cands, best, nf'))
      end
  | Split a v l r =>
      let x := coord (hit ref) a in
      if qc_lt x v then
        do fs <- find_entry ref l st;
        if negb (fst fs) && reach_up x (snd (fst (snd fs))) v then find_entry ref r (snd fs) else Ok fs
      else
        do fs <- find_entry ref r st;
        if negb (fst fs) && reach_down x (snd (fst (snd fs))) v then find_entry ref l (snd fs) else Ok fs
  end.
(** kdTree.cxx:277-293 FindEntryBrute; a null node refers to itself: it never ends (undefined) *)
Fixpoint find_brute (ref : nat) (t : node) : outcome bool :=
  match t with
  | Null => Undef
  | Leaf h => Ok (Nat.eqb ref h)
  | Split _ _ l r => do f <- find_brute ref l; if f then Ok true else find_brute ref r
  end.
End KD.
