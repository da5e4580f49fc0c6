(** What cluster merging is meant to do, written without the model's helpers. *)
From Coq Require Import QArith Qcanon.
From Verif Require Import Base BC_Model MCA_Model.
Local Open Scope nat_scope.

(** the clusters are to be joined: two of their hits are within [maxSep] of each other (in wire/tick space), and the cuts pass.
    (A separation of 99999 or more counts as 99999.) *)
Definition hits_within (mc : mergecfg) (r : Qc) (c1 c2 : list bhit) : Prop :=
  exists a b, In a c1 /\ In b c2 /\
    ((gwire mc a - gwire mc b) * (gwire mc a - gwire mc b) + (h_time a - h_time b) * (h_time a - h_time b) <= r * r)%Qc.
Definition joinable (mc : mergecfg) (c1 c2 : list bhit) : Prop :=
  (0 <= maxSep mc)%Qc /\ (hits_within mc (maxSep mc) c1 c2 \/ (Q2Qc (99999 # 1) <= maxSep mc)%Qc) /\ pass_cuts mc c1 c2 = true.

Section Groups.
Variable mc : mergecfg.
(** c swallows one of the remaining clusters *)
Inductive absorbs : list bhit * list (list bhit) -> list bhit * list (list bhit) -> Prop :=
| abs_step c l1 x l2 : joinable mc c x -> absorbs (c, l1 ++ x :: l2) (c ++ x, l1 ++ l2).
(** clusters, in the given order, joined into groups: each group starts with the first cluster left and is closed off only when
    none of the clusters still left can be joined to it *)
Inductive merges : list (list bhit) -> list (list bhit) -> Prop :=
| m_nil : merges [] []
| m_group h t c rest out :
    clos_refl_trans _ absorbs (h, t) (c, rest) -> (forall x, In x rest -> ~ joinable mc c x) ->
    merges rest out -> merges (h :: t) (c :: out).
End Groups.

(** std::sort by falling size: any order among equals *)
Definition sorts_by_size (srt : list (list bhit) -> list (list bhit)) : Prop :=
  forall l, Permutation (srt l) l /\ StronglySorted (fun a b => length b <= length a) (srt l).
