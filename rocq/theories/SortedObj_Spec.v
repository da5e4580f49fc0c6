(** What chains and branches of objects are for their user (C25): every live object has an ordered list of children. *)
From Verif Require Import Base SortedObj_Model.

(** live object -> (is a branch, children in order) *)
Definition forest := nat -> option (bool * list nat).
Definition without (b : nat) (l : list nat) : list nat := filter (fun x => negb (Nat.eqb x b)) l.
Definition put (s : forest) (x : nat) (v : option (bool * list nat)) : forest := fun y => if Nat.eqb y x then v else s y.
Definition detach (s : forest) (b : nat) : forest := fun y => match s y with Some (k, l) => Some (k, without b l) | None => None end.
Definition children (s : forest) (a : nat) : list nat := match s a with Some (_, l) => l | None => [] end.
Definition is_branch (s : forest) (a : nat) : bool := match s a with Some (k, _) => k | None => false end.
Definition live (s : forest) (a : nat) : Prop := s a <> None.
Definition mem (b : nat) (l : list nat) : bool := existsb (Nat.eqb b) l.
Fixpoint position (b : nat) (l : list nat) : Z := match l with [] => 0 | x :: l' => if Nat.eqb x b then 0 else 1 + position b l' end.

(** a chain object has room for one child: the new one replaces it; a branch appends; either takes the child from its old parent *)
Definition s_add (s : forest) (a b : nat) : forest * bool :=
  if Nat.eqb a b then (s, false)
  else if is_branch s a then
    if mem b (children s a) then (s, false) else (put (detach s b) a (Some (true, children s a ++ [b])), true)
  else (put (detach s b) a (Some (false, [b])), true).
Definition s_remove (s : forest) (a b : nat) : forest * Z :=
  if mem b (children s a)
  then (put s a (Some (is_branch s a, without b (children s a))), if is_branch s a then position b (children s a) else 0%Z)
  else (s, (-1)%Z).
Definition s_disconnect (s : forest) (a : nat) : forest := put (detach s a) a (Some (is_branch s a, [])).
Definition s_step (s : forest) (c : op) : forest * res :=
  match c with
  | New x k p n =>
      let s0 := put s x (Some (k, [])) in
      let s1 := match p with Some p => fst (s_add s0 p x) | None => s0 end in
      (match n with Some n => fst (s_add s1 x n) | None => s1 end, RUnit)
  | Add a (Some b) => (fst (s_add s a b), RBool (snd (s_add s a b)))
  | Add a None => (s, RBool false)
  | Remove a (Some b) => (fst (s_remove s a b), RInt (snd (s_remove s a b)))
  | Remove a None => (s, RInt (-1))
  | Disconnect a => (s_disconnect s a, RUnit)
  | Delete a => (put (s_disconnect s a) a None, RUnit)
  end.
(** the client only uses live objects, and new objects live at unused addresses *)
Definition allowed (s : forest) (c : op) : Prop :=
  let ok o := match o with Some x => live s x | None => True end in
  match c with
  | New x _ p n => ~ live s x /\ ok p /\ ok n
  | Add a b | Remove a b => live s a /\ ok b
  | Disconnect a | Delete a => live s a
  end.
Fixpoint s_run (s : forest) (cs : list op) : forest * list res :=
  match cs with [] => (s, []) | c :: cs' => let r := s_step s c in let r' := s_run (fst r) cs' in (fst r', snd r :: snd r') end.
Fixpoint all_allowed (s : forest) (cs : list op) : Prop :=
  match cs with [] => True | c :: cs' => allowed s c /\ all_allowed (fst (s_step s c)) cs' end.
