(** A concrete stable sort: shows that the assumption "std::sort returns a sorted permutation" is satisfiable. *)
From Verif Require Import Base.

Section ISort.
Context {A : Type} (less : A -> A -> bool).
Fixpoint ins (x : A) (l : list A) : list A :=
  match l with [] => [x] | y :: l' => if less x y then x :: l else y :: ins x l' end.
Definition isort (l : list A) : list A := fold_right ins [] l.

Lemma ins_perm x l : Permutation (ins x l) (x :: l).
Proof.
  induction l as [|y l IH]; simpl; [constructor; constructor|]. destruct (less x y); [reflexivity|].
  rewrite IH. apply perm_swap.
Qed.
Lemma isort_perm l : Permutation (isort l) l.
Proof. induction l as [|x l IH]; simpl; [constructor|]. rewrite ins_perm. constructor. exact IH. Qed.

Hypothesis Htr : forall a b c, less b a = false -> less c b = false -> less c a = false.
Hypothesis Has : forall a b, less a b = true -> less b a = false.
Lemma ins_sorted x l : StronglySorted (fun a b => less b a = false) l -> StronglySorted (fun a b => less b a = false) (ins x l).
Proof.
  induction 1 as [|y l H IH Hf]; simpl; [repeat constructor|]. destruct (less x y) eqn:E.
  - constructor; [constructor; assumption|]. constructor; [apply Has, E|]. rewrite Forall_forall in *.
    intros z Hz. apply (Htr x y z); [apply Has, E|apply Hf, Hz].
  - constructor; [exact IH|]. rewrite Forall_forall in *. intros z Hz. apply (Permutation_in _ (ins_perm x l)) in Hz.
    destruct Hz as [<-|Hz]; [exact E|apply Hf, Hz].
Qed.
Lemma isort_sorted l : StronglySorted (fun a b => less b a = false) (isort l).
Proof. induction l as [|x l IH]; simpl; [constructor|]. apply ins_sorted, IH. Qed.
End ISort.
