(** Vocabulary of C37: the records a candidate should hold *)
From Verif Require Import Base TCand_Model.
Local Open Scope nat_scope.

Section S.
Context {R : Type} (r0 : R).
(** detector, hit, rho and plane of one hit *)
Record hrec := mkR { r_det : nat; r_hit : nat; r_rho : R; r_plane : nat }.
Fixpoint zip (ds hs : list nat) (rs : list R) : list hrec :=
  match ds, hs, rs with d :: ds', h :: hs', r :: rs' => mkR d h r 0 :: zip ds' hs' rs' | _, _, _ => [] end.
(** what each operation should do to the lists of records: constructors store rho 0 if none is given and plane 0; append copies
    the other candidate's hits with plane 0 (it does not take over planes); reset removes all hits *)
Definition log_step (w : list (list hrec)) (o : op) : list (list hrec) :=
  match o with
  | New0 => w ++ [[]]
  | New5 ds hs => w ++ [zip ds hs (repeat r0 (length ds))]
  | New6 ds hs rs => w ++ [zip ds hs (rs ++ repeat r0 (length ds))] (* 0 for missing ones *)
  | AddHit k d h r p => upd w k (nth k w [] ++ [mkR d h r p])
  | Append k j => upd w k (nth k w [] ++ map (fun x => mkR (r_det x) (r_hit x) (r_rho x) 0) (nth j w []))
  | Reset k => upd w k []
  end.
Definition logs (ops : list op) : list (list hrec) := fold_left log_step ops [].
(** as many rhos as hits are given *)
Definition rhos_match (o : op (R := R)) : Prop := match o with New6 ds hs rs => length rs = length ds | _ => True end.
Definition is_reset (o : op (R := R)) : bool := match o with Reset _ => true | _ => false end.
Definition gives_hits (o : op (R := R)) : bool := match o with New5 _ _ | New6 _ _ _ => true | _ => false end.
End S.
