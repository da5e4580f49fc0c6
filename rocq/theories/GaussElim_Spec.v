(** Vocabulary of C30 and C46: linear systems *)
From Coq Require Import QArith Qcanon.
From Verif Require Import Base QcUtil GaussElim_Model.
Local Open Scope nat_scope.

Definition get (m : list (list Qc)) (i j : nat) : Qc := nth j (nth i m []) 0%Qc.
(** an augmented matrix: n rows of n+1 entries, the last column being the right-hand side *)
Definition augmented (m : list (list Qc)) : Prop := forall r, In r m -> length r = length m + 1.
(** [x] solves every equation of [m] *)
Definition solves (m : list (list Qc)) (x : nat -> Qc) : Prop :=
  forall i, i < length m -> qsum (fun j => get m i j * x j)%Qc (seq 0 (length m)) = get m i (length m).
(** each diagonal entry is larger in size than the rest of its row together *)
Definition dominant (m : list (list Qc)) : Prop :=
  forall i, i < length m -> (qsum (fun j => if Nat.eqb j i then 0 else qabs (get m i j)) (seq 0 (length m)) < qabs (get m i i))%Qc.
