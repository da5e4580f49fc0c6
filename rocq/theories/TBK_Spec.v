(** Vocabulary of C39 *)
From Coq Require Import QArith Qcanon.
From Verif Require Import Base QcUtil Solver_Model TBK_Model.
Local Open Scope nat_scope.

Section S.
Context {P V H F I S : Type}.
Notation op := (op P V H F I S).
(** what each addPoint call was given *)
Definition points (ops : list op) : list P := flat_map (fun o => match o with Add p _ _ _ _ _ => [p] | _ => [] end) ops.
Definition vectors (ops : list op) : list V := flat_map (fun o => match o with Add _ v _ _ _ _ => [v] | _ => [] end) ops.
Definition hits (ops : list op) : list H := flat_map (fun o => match o with Add _ _ h _ _ _ => [h] | _ => [] end) ops.
Definition flags (ops : list op) : list F := flat_map (fun o => match o with Add _ _ _ f _ _ => [f] | _ => [] end) ops.
(** the fit infos given *)
Definition infos (ops : list op) : list I := flat_map (fun o => match o with Add _ _ _ _ _ (Some (mkOpe (Some i) _)) => [i] | _ => [] end) ops.
(** the chi2 arguments that are numbers >= 0 *)
Definition chi2s (ops : list op) : list Qc := flat_map (fun o => match o with Add _ _ _ _ (Some c) _ => if Qclt_le_dec c 0 then [] else [c] | _ => [] end) ops.
Definition sets_chi2 (o : op) : bool := match o with SetChi2 _ => true | _ => false end.
End S.
