(** Model of larreco/RecoAlg/Cluster3DAlgs/ConvexHull/ConvexHull.cxx (getKinkPoints is left out).
    A Point is std::tuple<float, float, const ClusterHit3D*>: the coordinates are exact rationals (float in the code) and the hit is a number
    standing for its address.  Reading front() of an empty list or past its end is [Undef].  The lists used as stacks are kept with their
    back first. *)
From Coq Require Import QArith Qcanon.
From Verif Require Import Base Solver_Model.
Local Open Scope nat_scope.

(** ConvexHull.h:31-32 *)
Record point := mkP { px : Qc; py : Qc; ph : nat }.
(** std::tuple's operator== *)
Definition peqb (a b : point) : bool := qc_eqb (px a) (px b) && qc_eqb (py a) (py b) && (ph a =? ph b).

(** ConvexHull.cxx:59-68 *)
Definition cross (p0 p1 p2 : point) : Qc :=
  ((px p1 - px p0) * (py p2 - py p0) - (py p1 - py p0) * (px p2 - px p0))%Qc.
(** ConvexHull.cxx:50-55 *)
Definition is_left (p0 p1 pc : point) : bool := qc_lt 0 (cross p0 p1 pc).

(** ConvexHull.cxx:150-161 and 178-189: the while loop that pops the stack *)
Fixpoint unwind (st : list point) (c : point) : list point :=
  match st with
  | lst :: rest => match rest with nxt :: _ => if is_left nxt lst c then st else unwind rest c | [] => st end
  | [] => st
  end.
(** ConvexHull.cxx:136-164 (167-192 on the reversed list): the body of the range-for *)
Definition add_point (a b : point) (st : list point) (c : point) : list point :=
  if is_left a b c then st else c :: unwind st c.
Definition half_hull (pts : list point) (a b : point) : list point := rev (fold_left (add_point a b) pts [a]).

(** the elements before the first one that [find_if] accepts *)
Fixpoint take_while {A} (f : A -> bool) (l : list A) : list A :=
  match l with [] => [] | x :: l' => if f x then x :: take_while f l' else [] end.
Definition same_x (p q : point) : bool := qc_eqb (px q) (px p).

(** ConvexHull.cxx:109-133: (pMinMin, pMinMax, pMaxMin, pMaxMax) *)
Definition corners (l : list point) : outcome (point * point * (point * point)) :=
  match l, rev l with
  | mn :: _, mx :: _ => Ok (mn, last (take_while (same_x mn) l) mn, (last (take_while (same_x mx) (rev l)) mx, mx))
  | _, _ => Undef
  end.
(** ConvexHull.cxx:106-204 getConvexHull: fConvexHull *)
Definition convex_hull (l : list point) : outcome (list point) :=
  do c <- corners l;
  let '((minmin, minmax), (maxmin, maxmax)) := c in
  let lower := half_hull l minmin maxmin in
  let upper := half_hull (rev l) maxmax minmax in
  let upper' := if peqb maxmin maxmax then tl upper else upper in
  Ok (lower ++ upper' ++ (if peqb minmin minmax then [] else [minmin])).

(** ConvexHull.cxx:72-102 Area *)
Definition area (h : list point) : outcome Qc :=
  let n := qc_nat (length h) in
  let sx := fold_left (fun s p => (s + px p)%Qc) h 0%Qc in
  let sy := fold_left (fun s p => (s + py p)%Qc) h 0%Qc in
  let center := mkP (sx / n) (sy / n) 0 in
  match h with
  | [] => Undef
  | f :: _ =>
      Ok (fst (fold_left (fun s p => (if peqb p (snd s) then fst s else (fst s + Q2Qc (1 # 2) * cross center (snd s) p)%Qc, p)) h (0%Qc, f)))
  end.

(** ConvexHull.cxx:206-272 getExtremePoints.  The iterators are indices; the sign of the product of two normalised edges is that of the
    product of the edges (Eigen leaves a null vector alone), and the separations are compared by their squares. *)
Definition edge (a b : point) : Qc * Qc := (px b - px a, py b - py a)%Qc.
Definition dot (u v : Qc * Qc) : Qc := (fst u * fst v + snd u * snd v)%Qc.
Definition sep2 (a b : point) : Qc := dot (edge a b) (edge a b).
(** ConvexHull.cxx:229-258: the inner loop with endPointItr advanced over [l], the points after nextPointItr: the number of points passed and
    whether a turnaround was found *)
Fixpoint turnaround (fe : Qc * Qc) (next : point) (l : list point) : nat * point * bool :=
  match l with
  | [] => (0, next, false)
  | e :: l' => if qc_lt (dot fe (edge next e)) 0 then (0, next, true)
               else let '(k, p, b) := turnaround fe e l' in (S k, p, b)
  end.
Fixpoint extremes (fuel : nat) (h : list point) (fi ni : nat) (best : point * point) (mx : Qc) : outcome (option (point * point)) :=
  match fuel with
  | O => Ok None
  | S fuel' =>
      if ni =? length h then Ok (Some best)
      else
        do first <- idx h fi;
        do next <- idx h ni;
        do after <- idx h (S fi);
        let '(k, next', found) := turnaround (edge first after) next (skipn (S ni) h) in
        let ni' := ni + k in
        if found then
          let better := qc_lt mx (sep2 first next') in
          extremes fuel' h (S fi) (if S fi =? ni' then S ni' else ni') (if better then (first, next') else best) (if better then sep2 first next' else mx)
        else Ok (Some best)
  end.
(** Point(0, 0, NULL) *)
Definition no_point : point := mkP 0 0 0.
Definition extreme_points (h : list point) : outcome (option (point * point)) :=
  match h with [] => Undef | _ => extremes (length h) h 0 1 (no_point, no_point) 0 end.

(** ConvexHull.cxx:347-369: the squared distance of [p] from the edge [a, b].  projection and edgeLength are only compared with each other and
    divided, so their squares do.  None: the edge has no length and the distance is not a number, which is less than nothing. *)
Definition doca2 (p a b : point) : option Qc :=
  let d := edge a b in
  let l2 := dot d d in
  if qc_eqb l2 0 then None
  else
    let proj := dot (edge a p) d in
    let doca := mkP (px a + proj * fst d / l2) (py a + proj * snd d / l2) 0 in
    let doca := if qc_lt l2 proj then b else doca in
    let doca := if qc_lt proj 0 then a else doca in
    Some (sep2 doca p).
(** ConvexHull.cxx:343-378: the loop, [l] being the points from curPointItr on; the last point is copied to curPoint but the loop is over then.
    The closest distance starts as the largest float, taken to be more than any distance (None). *)
Fixpoint nearest_loop (p : point) (prev cur : point) (l : list point) (best : point * point) (d2 : option Qc) : (point * point) * option Qc :=
  match l with
  | [] => (best, d2)
  | nxt :: l' =>
      let upd := if peqb cur prev then None
                 else match doca2 p prev cur with
                      | None => None
                      | Some d => match d2 with None => Some d | Some m => if qc_lt d m then Some d else None end
                      end in
      match upd with
      | Some d => nearest_loop p cur nxt l' (prev, cur) (Some d)
      | None => nearest_loop p cur nxt l' best d2
      end
  end.
(** ConvexHull.cxx:329-387 findNearestEdge: the edge, the squared distance and whether it is returned with a minus sign *)
Definition nearest_edge (h : list point) (p : point) : outcome ((point * point) * option Qc * bool) :=
  match h with
  | a :: b :: _ => let '(e, d2) := nearest_loop p a b (tl h) (a, b) None in Ok (e, d2, is_left (fst e) (snd e) p)
  | _ => Undef
  end.
