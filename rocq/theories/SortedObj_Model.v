(** Model of larreco/RecoAlg/PMAlg/SortedObjects.{h,cxx}.
    A heap maps addresses to live objects; dereferencing anything else is [Undef].  [o_branch] is the dynamic type
    (SortedBranchBase or plain SortedObjectBase).  Log messages are not modelled. *)
From Verif Require Import Base.

(** SortedObjects.h:53-54 next, prev; SortedObjects.h:88 next_vector *)
Record obj := mkO { o_branch : bool; o_next : option nat; o_prev : option nat; o_nexts : list nat }.
Definition heap := nat -> option obj.
Definition deref (h : heap) (x : nat) : outcome obj := match h x with Some o => Ok o | None => Undef end.
Definition hset (h : heap) (x : nat) (o : option obj) : heap := fun y => if Nat.eqb y x then o else h y.
Definition set_next (o : obj) (n : option nat) : obj := mkO (o_branch o) n (o_prev o) (o_nexts o).
Definition set_prev (o : obj) (p : option nat) : obj := mkO (o_branch o) (o_next o) p (o_nexts o).
Definition set_nexts (o : obj) (l : list nat) : obj := mkO (o_branch o) (o_next o) (o_prev o) l.
(** read-modify-write of one object *)
Definition modify (h : heap) (x : nat) (f : obj -> obj) : outcome heap := do o <- deref h x; Ok (hset h x (Some (f o))).
Definition same (a : option nat) (b : nat) : bool := match a with Some x => Nat.eqb x b | None => false end.

(** SortedObjects.cxx:44-60 SortedObjectBase::RemoveNext *)
Definition base_remove (h : heap) (this : nat) (nx : option nat) : outcome (heap * Z) :=
  do o <- deref h this;
  match nx with
  | Some b =>
      if same (o_next o) b then
        do ob <- deref h b;
        do h1 <- (if same (o_prev ob) this then modify h b (fun o => set_prev o None) else Ok h);
        do h2 <- modify h1 this (fun o => set_next o None);
        Ok (h2, 0%Z)
      else Ok (h, (-1)%Z)
  | None => Ok (h, (-1)%Z)
  end.

(** position of the first occurrence: SortedObjects.cxx:106-112 *)
Fixpoint find_pos (l : list nat) (b : nat) : option nat :=
  match l with [] => None | x :: l' => if Nat.eqb x b then Some 0 else option_map S (find_pos l' b) end.
(** next_vector.erase(begin() + i) *)
Fixpoint erase_at (l : list nat) (i : nat) : list nat :=
  match l, i with [], _ => [] | _ :: l', O => l' | x :: l', S i' => x :: erase_at l' i' end.
(** next_vector.back() or 0 *)
Definition back (l : list nat) : option nat := match rev l with [] => None | x :: _ => Some x end.
(** SortedObjects.cxx:102-127 SortedBranchBase::RemoveNext *)
Definition branch_remove (h : heap) (this : nat) (nx : option nat) : outcome (heap * Z) :=
  do o <- deref h this;
  match nx with
  | None => Ok (h, (-1)%Z)
  | Some b =>
      if Nat.eqb b this then Ok (h, (-1)%Z)
      else match find_pos (o_nexts o) b with
           | None => Ok (h, (-1)%Z)
           | Some i =>
               do ob <- deref h b;
               if negb (same (o_prev ob) this) then Ok (h, (-1)%Z)
               else
                 do h1 <- modify h b (fun o => set_prev o None);
                 do h2 <- modify h1 this (fun o => set_nexts o (erase_at (o_nexts o) i));
                 do h3 <- modify h2 this (fun o => set_next o (back (o_nexts o)));
                 Ok (h3, Z.of_nat i)
           end
  end.
(** virtual call RemoveNext *)
Definition remove_next (h : heap) (this : nat) (nx : option nat) : outcome (heap * Z) :=
  do o <- deref h this; if o_branch o then branch_remove h this nx else base_remove h this nx.

(** SortedObjects.cxx:31-42 SortedObjectBase::AddNext *)
Definition base_add (h : heap) (this : nat) (nx : option nat) : outcome (heap * bool) :=
  do o <- deref h this;
  match nx with
  | None => Ok (h, false)
  | Some b =>
      if Nat.eqb b this then Ok (h, false)
      else
        do h1 <- match o_next o with
                 | Some c => do oc <- deref h c; if same (o_prev oc) this then modify h c (fun o => set_prev o None) else Ok h
                 | None => Ok h
                 end;
        do ob <- deref h1 b;
        do h2 <- match o_prev ob with
                 | Some p => if Nat.eqb p this then Ok h1 else do r <- remove_next h1 p (Some b); Ok (fst r)
                 | None => Ok h1
                 end;
        do h3 <- modify h2 this (fun o => set_next o (Some b));
        do h4 <- modify h3 b (fun o => set_prev o (Some this));
        Ok (h4, true)
  end.
(** SortedObjects.cxx:69-100 SortedBranchBase::AddNext *)
Definition branch_add (h : heap) (this : nat) (nx : option nat) : outcome (heap * bool) :=
  do o <- deref h this;
  match nx with
  | None => Ok (h, false)
  | Some b =>
      if Nat.eqb b this then Ok (h, false)
      else if existsb (fun x => Nat.eqb x b) (o_nexts o) then Ok (h, false)
      else
        do ob <- deref h b;
        do h1 <- match o_prev ob with
                 | Some p => do r <- remove_next h p (Some b); Ok (fst r)
                 | None => Ok h
                 end;
        do h2 <- modify h1 this (fun o => set_next o (Some b));
        do h3 <- modify h2 b (fun o => set_prev o (Some this));
        do h4 <- modify h3 this (fun o => set_nexts o (o_nexts o ++ [b]));
        Ok (h4, true)
  end.
(** virtual call AddNext *)
Definition add_next (h : heap) (this : nat) (nx : option nat) : outcome (heap * bool) :=
  do o <- deref h this; if o_branch o then branch_add h this nx else base_add h this nx.

(** SortedObjects.cxx:25-29 SortedObjectBase::Disconnect; [rm] is the RemoveNext seen from the current dynamic type *)
Definition base_disconnect (rm : heap -> nat -> option nat -> outcome (heap * Z)) (h : heap) (this : nat) : outcome heap :=
  do o <- deref h this;
  do h1 <- match o_prev o with Some p => do r <- remove_next h p (Some this); Ok (fst r) | None => Ok h end;
  do o1 <- deref h1 this;
  match o_next o1 with Some c => do r <- rm h1 this (Some c); Ok (fst r) | None => Ok h1 end.
(** SortedObjects.cxx:64-65 the while loop; it can only fail to end if RemoveNext makes no progress, which is [Undef] here *)
Fixpoint branch_clear (fuel : nat) (h : heap) (this : nat) : outcome heap :=
  do o <- deref h this;
  match o_nexts o with
  | [] => Ok h
  | c :: _ => match fuel with O => Undef | S f => do r <- branch_remove h this (Some c); branch_clear f (fst r) this end
  end.
(** SortedObjects.cxx:62-67 SortedBranchBase::Disconnect *)
Definition branch_disconnect (h : heap) (this : nat) : outcome heap :=
  do o <- deref h this;
  do h1 <- branch_clear (length (o_nexts o)) h this;
  do o1 <- deref h1 this;
  match o_prev o1 with Some p => do r <- remove_next h1 p (Some this); Ok (fst r) | None => Ok h1 end.
(** virtual call Disconnect *)
Definition disconnect (h : heap) (this : nat) : outcome heap :=
  do o <- deref h this; if o_branch o then branch_disconnect h this else base_disconnect remove_next h this.

(** constructors: SortedObjects.h:26-27 and .cxx:17-23; SortedObjects.h:61-66.  The branch constructor runs the base one, in which
    AddNext is the base version, then pushes [next] on next_vector *)
Definition construct (h : heap) (x : nat) (branch : bool) (prevE nextE : option nat) : outcome heap :=
  let h0 := hset h x (Some (mkO branch None None [])) in
  do h1 <- match prevE with Some p => do r <- add_next h0 p (Some x); Ok (fst r) | None => Ok h0 end;
  do h2 <- match nextE with Some c => do r <- base_add h1 x (Some c); Ok (fst r) | None => Ok h1 end;
  if branch then
    match nextE with
    | Some _ => modify h2 x (fun o => set_nexts o (o_nexts o ++ match o_next o with Some c => [c] | None => [] end))
    | None => Ok h2
    end
  else Ok h2.
(** destructors: SortedObjects.h:32 and h:70: branch part first, then the base part with base RemoveNext *)
Definition destroy (h : heap) (x : nat) : outcome heap :=
  do o <- deref h x;
  do h1 <- (if o_branch o then branch_disconnect h x else Ok h);
  do h2 <- base_disconnect base_remove h1 x;
  Ok (hset h2 x None).

(** client operations *)
Inductive op :=
| New (x : nat) (branch : bool) (prevE nextE : option nat)
| Add (a : nat) (b : option nat)
| Remove (a : nat) (b : option nat)
| Disconnect (a : nat)
| Delete (a : nat).
Inductive res := RUnit | RBool (b : bool) | RInt (z : Z).
Definition step (h : heap) (c : op) : outcome (heap * res) :=
  match c with
  | New x k p n => do h1 <- construct h x k p n; Ok (h1, RUnit)
  | Add a b => do r <- add_next h a b; Ok (fst r, RBool (snd r))
  | Remove a b => do r <- remove_next h a b; Ok (fst r, RInt (snd r))
  | Disconnect a => do h1 <- disconnect h a; Ok (h1, RUnit)
  | Delete a => do h1 <- destroy h a; Ok (h1, RUnit)
  end.
Fixpoint run (h : heap) (cs : list op) : outcome (heap * list res) :=
  match cs with
  | [] => Ok (h, [])
  | c :: cs' => do r <- step h c; do r' <- run (fst r) cs'; Ok (fst r', snd r :: snd r')
  end.
(** observers: SortedObjects.h:39-50 and h:77-85 *)
Definition get_prev (h : heap) (x : nat) : outcome (option nat) := do o <- deref h x; Ok (o_prev o).
Definition next_count (h : heap) (x : nat) : outcome nat :=
  do o <- deref h x; Ok (if o_branch o then length (o_nexts o) else match o_next o with Some _ => 1 | None => 0 end).
Definition get_next (h : heap) (x : nat) (i : nat) : outcome (option nat) :=
  do o <- deref h x;
  if o_branch o then match o_nexts o with [] => Ok None | _ => do c <- idx (o_nexts o) i; Ok (Some c) end else Ok (o_next o).
