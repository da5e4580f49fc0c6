(** What Find3DVertices is supposed to do with the 2D vertices, in terms of the slice contents and of
    the geometrical matches only (three planes). *)
From Verif Require Import Base TV_Model TV_Spec TV_FModel.
From Coq Require Import QArith Qcanon Permutation.
Import TV_Model.
Local Open Scope nat_scope.

(** 2D vertex [x] of plane [p] with a score that is not below the cut, inside the detector *)
Definition usable_2V (cut : Qc) (g : f3_geo) (s : slice) (p x : nat) : Prop :=
  exists v, is_2V s x v /\ vctp v mod 10 = p /\ (cut <= vsc v)%Qc /\ posok g (x - 1) = true.

(** the list with [x] in plane [p], [y] in plane [q] and [z] in the third plane *)
Definition in_planes (l : list nat) (p x q y z : nat) : Prop :=
  length l = 3 /\ nth_error l p = Some x /\ nth_error l q = Some y /\ nth_error l (3 - p - q) = Some z.

(** the score SetVx3Score gives to a vertex made of the 2D vertices [l]: the average over the three
    planes, at least 0.001 *)
Definition avg3 (s : slice) (l : list nat) : Qc :=
  let a := (score_sum s l / Q2Qc 3)%Qc in if Qclt_le_dec a (Q2Qc (1 # 1000)) then Q2Qc (1 # 1000) else a.

(** the figure of merit of a candidate (small is good): position error + weight / score *)
Definition fom3 (g : f3_geo) (s : slice) (l : list nat) (pe : Qc) : Qc := (pe + wt g / avg3 s l)%Qc.

(** two-plane and three-plane matches *)
Definition match2 cut g s (c : cand) : Prop :=
  exists p q x y pe kw, p < q /\ q < 3 /\ usable_2V cut g s p x /\ usable_2V cut g s q y /\
    m2 g (x - 1) (y - 1) = Some (pe, kw) /\ in_planes (c2 c) p x q y 0 /\
    cw c = kw /\ csc c = fom3 g s (c2 c) pe.
Definition match3 cut g s (c : cand) : Prop :=
  exists p q x y z pe kw pe3, p < q /\ q < 3 /\ usable_2V cut g s p x /\ usable_2V cut g s q y /\
    usable_2V cut g s (3 - p - q) z /\
    m2 g (x - 1) (y - 1) = Some (pe, kw) /\ m3 g (x - 1) (y - 1) (z - 1) = Some pe3 /\
    in_planes (c2 c) p x q y z /\ cw c = (-1)%Z /\ csc c = fom3 g s (c2 c) pe3.

(** two lists of 2D vertices share one *)
Definition shares (l l' : list nat) : Prop := exists x, x <> 0 /\ In x l /\ In x l'.

(** std::sort with valsIncreasing: any permutation that is in order of increasing score *)
Definition sorts3 (f : list cand -> list cand) : Prop := forall l, Permutation l (f l) /\
  forall i j a b, i < j -> nth_error (f l) i = Some a -> nth_error (f l) j = Some b -> (csc a <= csc b)%Qc.

(** the rank of a candidate: two-plane candidates (those with a wire in the third plane) are moved
    behind by [M] + 1 *)
Definition rank (M : Qc) (c : cand) : Qc := if (0 <=? cw c)%Z then (csc c + (M + 1))%Qc else csc c.

(** the selection [sel] among the matches: no 2D vertex is used twice, and every match loses only
    against one that is at least as good *)
Record selection (cut : Qc) (g : f3_geo) (s : slice) (M : Qc) (sel : list cand) : Prop := {
  sel_pos : (0 <= M)%Qc;
  sel_max : forall c, match3 cut g s c -> (csc c <= M)%Qc;
  sel_in : forall c, In c sel -> match2 cut g s c \/ match3 cut g s c;
  sel_apart : forall i j a b, i < j -> nth_error sel i = Some a -> nth_error sel j = Some b -> ~ shares (c2 a) (c2 b);
  sel_best : forall c, match2 cut g s c \/ match3 cut g s c ->
               exists d, In d sel /\ shares (c2 c) (c2 d) /\ (rank M d <= rank M c)%Qc }.
