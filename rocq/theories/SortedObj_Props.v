(** C25 *)
From Verif Require Import Base Util SortedObj_Model SortedObj_Spec SortedObj_Proofs.

Definition no_objects : heap := fun _ => None.
Definition no_forest : forest := fun _ => None.

(** observers on the heap: Prev() and the list Next(0) .. Next(NextCount()-1) *)
Fixpoint nexts_from (h : heap) (a : nat) (i n : nat) : outcome (list nat) :=
  match n with
  | O => Ok []
  | S n' => do c <- get_next h a i; do l <- nexts_from h a (S i) n'; Ok (match c with Some c => c :: l | None => l end)
  end.
Definition next_list (h : heap) (a : nat) : outcome (list nat) := do n <- next_count h a; nexts_from h a 0 n.

Lemma nexts_from_branch h a o : h a = Some o -> o_branch o = true -> forall n i, i + n = length (o_nexts o) -> nexts_from h a i n = Ok (skipn i (o_nexts o)).
Proof.
  intros E Hb. induction n as [|n IH]; intros i Hi; cbn [nexts_from].
  - rewrite skipn_all2 by lia. reflexivity.
  - unfold get_next, deref. rewrite E. cbn [obind]. rewrite Hb. destruct (o_nexts o) as [|c0 l0] eqn:El; [simpl in Hi; lia|]. rewrite <- El in *.
    assert (Hlt : i < length (o_nexts o)) by lia. rewrite (idx_ok _ _ 0 Hlt). cbn [obind]. rewrite (IH (S i)) by lia. cbn [obind]. f_equal.
    clear -Hlt. revert i Hlt. induction (o_nexts o) as [|x l IHl]; intros i Hlt; [simpl in Hlt; lia|]. destruct i; [reflexivity|]. cbn [skipn nth]. simpl in Hlt. apply IHl. lia.
Qed.
Lemma next_list_spec h s prv a : H h s prv -> I s prv -> live s a -> next_list h a = Ok (children s a) /\ get_prev h a = Ok (prv a) /\ next_count h a = Ok (length (children s a)).
Proof.
  intros Hh HI Ha. assert (E := H_live h s prv a Hh Ha). unfold next_list, get_prev, next_count. rewrite (deref_eq _ _ _ E). cbn [obind o_branch o_next o_prev o_nexts].
  destruct (is_branch s a) eqn:Ek.
  - rewrite (nexts_from_branch h a _ E); [repeat split|reflexivity|reflexivity].
  - assert (L := i_one _ _ HI a Ek). destruct (children s a) as [|c [|d l]]; simpl in L; [repeat split| |lia].
    cbn [back rev app nexts_from]. unfold get_next. rewrite (deref_eq _ _ _ E). cbn [obind o_branch o_next back rev app length]. repeat split.
Qed.

(** C25: every allowed history runs without touching a dead object and without looping, returns what the forest of ordered
    children returns, and leaves the observers showing that forest *)
Theorem c25_refines cs : all_allowed no_forest cs ->
  exists h, run no_objects cs = Ok (h, snd (s_run no_forest cs)) /\
    let s := fst (s_run no_forest cs) in
    (forall a, h a = None <-> ~ live s a) /\
    (forall a, live s a -> next_list h a = Ok (children s a) /\ next_count h a = Ok (length (children s a))) /\
    (forall a, live s a -> exists p, get_prev h a = Ok p /\ forall b, p = Some b <-> In a (children s b)).
Proof.
  intros Ha. destruct (run_ok cs _ _ R_empty Ha) as (h & E & (prv & Hh & HI)). exists h. split; [exact E|]. cbv zeta. split; [|split].
  - intros a. rewrite Hh. unfold cell, live, no_forest. destruct (fst (s_run (fun _ => None) cs) a) as [[k l]|]; split; try discriminate; try congruence.
    intros X. exfalso. apply X. discriminate.
  - intros a La. destruct (next_list_spec h _ prv a Hh HI La) as (X & _ & Y). split; assumption.
  - intros a La. exists (prv a). split; [apply (next_list_spec h _ prv a Hh HI La)|]. intros b. apply (i_prv _ _ HI).
Qed.
Print Assumptions c25_refines.

(** C25 in the words of the property: mutual links, one parent, listed once, no dead references *)
Theorem c25_links_consistent cs : all_allowed no_forest cs ->
  exists h rs, run no_objects cs = Ok (h, rs) /\
    forall a b, live (fst (s_run no_forest cs)) a -> live (fst (s_run no_forest cs)) b ->
      (get_prev h b = Ok (Some a) <-> exists l, next_list h a = Ok l /\ In b l) /\
      (forall l, next_list h a = Ok l -> NoDup l /\ ~ In a l /\ forall c, In c l -> h c <> None) /\
      (forall c, get_prev h b = Ok (Some c) -> h c <> None).
Proof.
  intros Ha. destruct (run_ok cs _ _ R_empty Ha) as (h & E & (prv & Hh & HI)). exists h, (snd (s_run no_forest cs)). split; [exact E|]. intros a b La Lb.
  change (fun _ : nat => @None (bool * list nat)) with no_forest in *.
  destruct (next_list_spec h _ prv a Hh HI La) as (N1 & _ & _). destruct (next_list_spec h _ prv b Hh HI Lb) as (_ & P1 & _).
  assert (LH : forall c, live (fst (s_run no_forest cs)) c -> h c <> None) by (intros c Lc; rewrite (H_live h _ prv c Hh Lc); discriminate).
  split; [|split].
  - rewrite P1. split.
    + intros X. inversion X as [X']. exists (children (fst (s_run no_forest cs)) a). split; [exact N1|]. apply (i_prv _ _ HI), X'.
    + intros (l & X & Hin). rewrite N1 in X. inversion X; subst. f_equal. apply (i_prv _ _ HI), Hin.
  - intros l X. rewrite N1 in X. inversion X; subst. split; [apply (i_nd _ _ HI)|]. split; [apply (i_self _ _ HI)|]. intros c Hc. apply LH, (i_live _ _ HI _ _ Hc).
  - intros c X. rewrite P1 in X. inversion X as [X']. apply (i_prv _ _ HI) in X'. apply LH, (child_parent_live _ _ _ X').
Qed.
Print Assumptions c25_links_consistent.

(** C25: order of a branch is insertion order: adding a new child puts it last, leaving the others; removing keeps the order of the rest *)
Theorem c25_branch_order cs a b : all_allowed no_forest (cs ++ [Add a (Some b)]) ->
  let s := fst (s_run no_forest cs) in
  is_branch s a = true -> a <> b -> ~ In b (children s a) ->
  exists h rs, run no_objects (cs ++ [Add a (Some b)]) = Ok (h, rs) /\ next_list h a = Ok (children s a ++ [b]).
Proof.
  intros Hall s Hk Hab Hin. destruct (run_ok _ _ _ R_empty Hall) as (h & E & (prv & Hh & HI)). exists h. eexists. split; [exact E|].
  assert (F : forall cs' s0, fst (s_run s0 (cs' ++ [Add a (Some b)])) = fst (s_add (fst (s_run s0 cs')) a b)).
  { induction cs' as [|c cs' IH]; intros s0; [reflexivity|]. cbn [app s_run fst]. apply IH. }
  assert (Es : fst (s_run (fun _ => None) (cs ++ [Add a (Some b)])) a = Some (true, children s a ++ [b])).
  { rewrite F. fold no_forest. fold s. unfold s_add. destruct (Nat.eqb_spec a b); [congruence|]. rewrite Hk. apply mem_false in Hin. rewrite Hin. cbn [fst].
    unfold put. rewrite Nat.eqb_refl. reflexivity. }
  assert (La : live (fst (s_run (fun _ => None) (cs ++ [Add a (Some b)]))) a) by (unfold live; rewrite Es; discriminate).
  destruct (next_list_spec h _ prv a Hh HI La) as (N1 & _ & _). rewrite N1. unfold children at 1. rewrite Es. reflexivity.
Qed.
Print Assumptions c25_branch_order.

(** a non-trivial allowed history: two nodes (branches), three segments; re-parenting, chain replacement, removal, destruction *)
Definition ex_ops : list op :=
  [ New 1 true None None; New 2 false (Some 1) None; New 3 true (Some 2) None; New 4 false (Some 3) None; New 5 false (Some 3) None;
    Add 1 (Some 4); Add 2 (Some 5); Add 2 (Some 3); Add 3 (Some 5); Remove 1 (Some 2); Add 1 (Some 2); Delete 2; Disconnect 3 ].
Example c25_nonvacuous : all_allowed no_forest ex_ops /\
  map (children (fst (s_run no_forest ex_ops))) [1; 3] = [[4]; []] /\
  map (children (fst (s_run no_forest (firstn 11 ex_ops)))) [1; 2; 3] = [[4; 2]; [3]; [5]].
Proof.
  split; [|split; vm_compute; reflexivity].
  assert (L : forall s x, match s x with Some _ => True | None => False end -> live s x) by (intros s x X; unfold live; destruct (s x); [discriminate|contradiction]).
  unfold ex_ops. cbn [all_allowed]. repeat match goal with |- _ /\ _ => split end; cbn [allowed]; try exact Logic.I;
    repeat match goal with |- _ /\ _ => split end; try exact Logic.I; try (apply L; vm_compute; exact Logic.I); intros X; vm_compute in X; congruence.
Qed.
