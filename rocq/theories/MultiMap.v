(** std::multimap<float, V> as an association list in iteration order.
    C++11 insert places an equal key after the existing equal ones. Keys are [Z]: the
    non-NaN floats are a finite totally ordered set, so they embed order-preservingly into Z
    (with 0 sent to 0); NaN never becomes a key in the modelled code (guarded by [> 0]). *)
From Verif Require Import Base.

Fixpoint mm_insert {V} (k : Z) (v : V) (l : list (Z * V)) : list (Z * V) :=
  match l with
  | [] => [(k, v)]
  | (k', v') :: t => if (k <? k')%Z then (k, v) :: (k', v') :: t else (k', v') :: mm_insert k v t
  end.

Definition mm_sorted {V} (l : list (Z * V)) := StronglySorted (fun a b => (fst a <= fst b)%Z) l.

Lemma mm_insert_perm {V} k (v : V) l : Permutation (mm_insert k v l) ((k, v) :: l).
Proof.
  induction l as [|[k' v'] t IH]; simpl; [reflexivity|].
  destruct (k <? k')%Z; [reflexivity|].
  rewrite IH. apply perm_swap.
Qed.

Lemma mm_insert_in {V} k (v : V) l x : In x (mm_insert k v l) <-> x = (k, v) \/ In x l.
Proof.
  split; intros H.
  - apply (Permutation_in _ (mm_insert_perm k v l)) in H. destruct H; auto.
  - apply (Permutation_in _ (Permutation_sym (mm_insert_perm k v l))). destruct H; [left; auto|right; auto].
Qed.

(** the new element sits after everything not greater and before everything greater *)
Lemma mm_insert_split {V} k (v : V) l : mm_sorted l ->
  exists l1 l2, l = l1 ++ l2 /\ mm_insert k v l = l1 ++ (k, v) :: l2 /\
    Forall (fun x => (fst x <= k)%Z) l1 /\ Forall (fun x => (k < fst x)%Z) l2.
Proof.
  induction l as [|[k' v'] t IH]; intros S.
  - exists [], []. simpl. auto.
  - inversion S as [|? ? St HF]; subst. simpl. destruct (Z.ltb_spec k k') as [L|L].
    + exists [], ((k', v') :: t). repeat split; auto. constructor; [exact L|].
      eapply Forall_impl; [|exact HF]. intros x Hx; simpl in Hx. lia.
    + destruct (IH St) as (l1 & l2 & E1 & E2 & F1 & F2).
      exists ((k', v') :: l1), l2. rewrite E2. subst t. repeat split; auto.
Qed.

Lemma mm_insert_sorted {V} k (v : V) l : mm_sorted l -> mm_sorted (mm_insert k v l).
Proof.
  induction l as [|[k' v'] t IH]; intros S; simpl.
  - constructor; [constructor|constructor].
  - inversion S as [|? ? St HF]; subst. destruct (Z.ltb_spec k k') as [L|L].
    + constructor; [exact S|]. constructor; [simpl; lia|].
      eapply Forall_impl; [|exact HF]. intros x Hx; simpl in *. lia.
    + constructor; [apply IH; exact St|]. apply Forall_forall. intros x Hx.
      apply mm_insert_in in Hx. destruct Hx as [->|Hx]; [simpl; lia|].
      rewrite Forall_forall in HF. apply HF, Hx.
Qed.
