(** Model of larreco/RecoAlg/ClusterRecoUtil/Polygon2D.{h,cxx}. Coordinates are exact rationals (float and double in the code); sqrt, tan, sin and cos are
    arbitrary functions; a quotient by zero is [None] (infinity or not-a-number: tan of either is not-a-number, and every comparison with that is false). *)
From Coq Require Import QArith Qcanon.
From Verif Require Import Base QcUtil Solver_Model.
Local Open Scope nat_scope.

Notation pt := (Qc * Qc)%type.
Notation poly := (list pt).
Definition origin0 : pt := (0%Qc, 0%Qc).

(** FindSlope, Polygon2D.cxx 7-11 *)
Definition slope (p1 p2 : pt) : option Qc := if Qc_eq_bool (fst p2 - fst p1)%Qc 0%Qc then None else Some ((snd p2 - snd p1) / (fst p2 - fst p1))%Qc.
(** Clockwise, 14-17 *)
Definition clockwise (a b c : pt) : bool := qc_lt ((snd b - snd a) * (fst c - fst a))%Qc ((snd c - snd a) * (fst b - fst a))%Qc.
(** SegmentOverlap, 20-33 *)
Definition seg_overlap (a b c d : pt) : bool := xorb (clockwise a c d) (clockwise b c d) && xorb (clockwise a b c) (clockwise a b d).
(** GetIntersection, 36-60; [None] when a quotient is by zero *)
Definition intersection (a b c d : pt) : option pt :=
  match slope a b, slope c d with
  | Some s1, Some s2 =>
    let c1 := (snd b - s1 * fst b)%Qc in let c2 := (snd d - s2 * fst d)%Qc in
    if Qc_eq_bool (s2 - s1)%Qc 0%Qc then None else let x := ((c2 - c1) / (s2 - s1))%Qc in Some (x, (s1 * x + c1)%Qc)
  | _, _ => None
  end.

(** Point, 158-172: at(0) of an empty polygon throws; the callers ask only for points of polygons that have one *)
Definition point (v : poly) (p : nat) : pt := if p <? length v then nth p v origin0 else nth 0 v origin0.
(** Area, 118-133: the i-th side goes to vertex i + 1, the last one to vertex 0 *)
Definition area_sum (v : poly) : Qc :=
  fold_left (fun s i =>
    let s1 := if i <? length v - 1 then (s + (snd (nth i v origin0) + snd (nth (i + 1) v origin0)) * (fst (nth i v origin0) - fst (nth (i + 1) v origin0)) * Q2Qc (1 # 2))%Qc else s in
    if i =? length v - 1 then (s1 + (snd (nth i v origin0) + snd (nth 0 v origin0)) * (fst (nth i v origin0) - fst (nth 0 v origin0)) * Q2Qc (1 # 2))%Qc else s1) (range 0 (length v)) 0%Qc.
Definition area (v : poly) : Qc := if qc_lt (area_sum v) 0%Qc then (- area_sum v)%Qc else area_sum v.
(** Perimeter, 136-155: the number under the square root *)
Definition side2 (a b : pt) : Qc := ((snd a - snd b) * (snd a - snd b) + (fst a - fst b) * (fst a - fst b))%Qc.
Definition perimeter_sum (v : poly) : Qc :=
  fold_left (fun s i =>
    let s1 := if i <? length v - 1 then (s + side2 (nth i v origin0) (nth (i + 1) v origin0))%Qc else s in
    if i =? length v - 1 then (s1 + side2 (nth i v origin0) (nth 0 v origin0))%Qc else s1) (range 0 (length v)) 0%Qc.
Definition perimeter (sqrt : Qc -> Qc) (v : poly) : Qc := sqrt (perimeter_sum v).

Section Trig.
Variables tan sin cos : Qc -> Qc.
(** Project, 175-196 *)
Definition far : Qc := Q2Qc (10000 # 1).
Definition project (v : poly) (p : pt) (theta : option Qc) : Qc * Qc :=
  fold_left (fun r i =>
    match theta with
    | None => r
    | Some t =>
      let x := ((fst (nth i v origin0) - fst p) * cos t + (snd (nth i v origin0) - snd p) * sin t)%Qc in
      let r1 := if qc_lt x (fst r) then (x, snd r) else r in
      if qc_lt (snd r1) x then (fst r1, x) else r1
    end) (range 0 (length v)) (far, 0%Qc).
(** Overlap, 199-218: [sl] is the slope *)
Definition lef (x y : Qc) : bool := negb (qc_lt y x).
Definition overlap (v : poly) (sl : option Qc) (w : poly) (o : pt) : bool :=
  let theta := match sl with Some s => Some (tan s) | None => None end in
  let r1 := project v o theta in let r2 := project w o theta in
  ((lef (fst r1) (snd r2) && lef (fst r2) (fst r1)) || (lef (snd r1) (snd r2) && lef (fst r2) (snd r1))) ||
  ((lef (fst r2) (snd r1) && lef (fst r1) (fst r2)) || (lef (snd r2) (snd r1) && lef (fst r1) (snd r2))).
(** PolyOverlap, 221-244 *)
Definition poly_overlap (v w : poly) : bool :=
  forallb (fun i => overlap v (slope (point v i) (point v (i + 1))) w (point v i)) (range 0 (length v)) &&
  forallb (fun i => overlap w (slope (point w i) (point w (i + 1))) v (point w i)) (range 0 (length w)).
End Trig.

(** PointInside, 271-293 *)
Definition far_corner : pt := (far, far).
Definition crossings (v : poly) (p : pt) : nat :=
  fold_left (fun n i => if seg_overlap (point v i) (point v (i + 1)) far_corner p then n + 1 else n) (range 0 (length v)) 0.
Definition point_inside (v : poly) (p : pt) : bool := negb (crossings v p mod 2 =? 0).
(** Contained, 296-306 *)
Definition contained (v w : poly) : bool := forallb (fun i => point_inside v (point w i)) (range 0 (length w)).
(** PolyOverlapSegments, 247-268 *)
Definition poly_overlap_segments (v w : poly) : bool :=
  if contained v w || contained w v then true
  else existsb (fun i => existsb (fun j => seg_overlap (point v i) (point v (i + 1)) (point w j) (point w (j + 1))) (range 0 (length w))) (range 0 (length v)).
(** the constructor of the common part, 63-115; [None] stands for a vertex with a coordinate that is not a number *)
Definition common (tan sin cos : Qc -> Qc) (v w : poly) : list (option pt) :=
  if poly_overlap tan sin cos v w then
    map Some (filter (point_inside w) (map (point v) (range 0 (length v)))) ++ map Some (filter (point_inside v) (map (point w) (range 0 (length w)))) ++
    flat_map (fun i => flat_map (fun j => if seg_overlap (point v i) (point v (i + 1)) (point w j) (point w (j + 1))
        then [intersection (point v i) (point v (i + 1)) (point w j) (point w (j + 1))] else []) (range 0 (length w))) (range 0 (length v))
  else [].

(** UntanglePolygon, 309-339. [rec] is the recursive call. The body of the inner loop: [a] and [b] were read before it and are not refreshed; every index is in range *)
Definition pt_eqb (a b : pt) : bool := Qc_eq_bool (fst a) (fst b) && Qc_eq_bool (snd a) (snd b).
Definition swap (v : poly) (i j : nat) : poly := upd (upd v i (nth j v origin0)) j (nth i v origin0).
Definition turn (rec : poly -> option poly) (a b : pt) (i : nat) (s : option poly) (j : nat) : option poly :=
  match s with
  | None => None
  | Some v => if pt_eqb (nth i v origin0) (nth (j + 1) v origin0) then Some v
              else if seg_overlap a b (nth j v origin0) (nth (j + 1) v origin0) then rec (swap v (i + 1) j) else Some v
  end.
Definition sides (rec : poly -> option poly) (v : poly) : option poly :=
  fold_left (fun s i => match s with
    | None => None
    | Some v => fold_left (turn rec (nth i v origin0) (nth (i + 1) v origin0) i) (range (i + 2) (length v - 1)) (Some v)
    end) (range 0 (length v - 1)) (Some v).
(** [None]: more than [n] nested calls. Without vertices size() - 1 wraps around and at(0) throws *)
Fixpoint untangle' (n : nat) (v : poly) : option poly := match n with 0 => None | S n => sides (untangle' n) v end.
Definition untangle (n : nat) (v : poly) : option (outcome poly) :=
  match v with [] => Some (Throw RangeExn) | _ => option_map Ok (untangle' n v) end.
