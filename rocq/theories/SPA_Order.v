(** the order of the planes *)
From Coq Require Import FinFun.
From Verif Require Import Base SPA_Model SPA_Spec.
Import SPA_Model.
Local Open Scope nat_scope.

Lemma swap_perm (l : list nat) i j a b : i <> j -> nth_error l i = Some a -> nth_error l j = Some b -> Permutation l (upd (upd l i b) j a).
Proof.
  intros D A B. apply Permutation_nth_error. split; [rewrite !upd_length; reflexivity|].
  exists (fun n => if n =? i then j else if n =? j then i else n). split.
  - intros x y. cbv beta. destruct (Nat.eqb_spec x i), (Nat.eqb_spec y i), (Nat.eqb_spec x j), (Nat.eqb_spec y j); intros; congruence.
  - intros n. assert (Li : i < length l) by (apply nth_error_Some; congruence). assert (Lj : j < length l) by (apply nth_error_Some; congruence).
    rewrite !nth_error_upd, upd_length. rewrite (proj2 (Nat.ltb_lt _ _) Li), (proj2 (Nat.ltb_lt _ _) Lj), !andb_true_r.
    destruct (Nat.eqb_spec n i) as [->|X].
    + destruct (Nat.eqb_spec i j); [contradiction|]. congruence.
    + destruct (Nat.eqb_spec n j) as [->|Y]; congruence.
Qed.

Section order.
Context (pc : nat -> bool) (planes : list (list hit)).
Let np := length planes.
Let sz (p : nat) := length (nth p planes []).
(** [p] may come before [q] *)
Definition before (p q : nat) : Prop := (pc p = true -> pc q = true) /\ (pc p = false -> pc q = false -> sz p <= sz q).
Lemma before_trans p q r : before p q -> before q r -> before p r.
Proof.
  intros (A1 & A2) (B1 & B2). split; [auto|]. intros P R. destruct (pc q) eqn:Q; [rewrite (B1 eq_refl) in R; discriminate|].
  specialize (A2 P eq_refl). specialize (B2 eq_refl R). lia.
Qed.
Definition head_ok (i j : nat) (index : list nat) : Prop :=
  Permutation (seq 0 np) index /\
  (forall a b p q, a < i -> a < b -> nth_error index a = Some p -> nth_error index b = Some q -> before p q) /\
  (forall b p q, i < b < j -> nth_error index i = Some p -> nth_error index b = Some q -> before p q).

Lemma perm_len index : Permutation (seq 0 np) index -> length index = np.
Proof. intros P. apply Permutation_length in P. rewrite seq_length in P. auto. Qed.
Lemma perm_lt index i p : Permutation (seq 0 np) index -> nth_error index i = Some p -> p < np.
Proof. intros P N. apply nth_error_In in N. apply (Permutation_in _ (Permutation_sym P)) in N. apply in_seq in N. lia. Qed.

Lemma swap_ok i j index : i < j < np -> head_ok i j index -> exists index', order_swap pc planes i index j = Ok index' /\ head_ok i (S j) index'.
Proof.
  intros L (P & H1 & H2). pose proof (perm_len _ P) as Len. unfold order_swap.
  destruct (nth_error index i) as [a|] eqn:Ea; [|apply nth_error_None in Ea; lia].
  destruct (nth_error index j) as [b|] eqn:Eb; [|apply nth_error_None in Eb; lia].
  pose proof (perm_lt _ _ _ P Ea) as La. pose proof (perm_lt _ _ _ P Eb) as Lb.
  unfold idx. rewrite Ea, Eb. cbn [obind].
  rewrite (nth_error_nth' planes [] La), (nth_error_nth' planes [] Lb). cbn [obind]. fold (sz a). fold (sz b).
  destruct (((sz b <? sz a) && negb (pc b)) || pc a) eqn:C.
  - eexists. split; [reflexivity|].
    assert (BA : before b a).
    { apply orb_true_iff in C as [C|C].
      - apply andb_true_iff in C as (C1 & C2). apply Nat.ltb_lt in C1. apply negb_true_iff in C2. split; [congruence|intros; lia].
      - split; [auto|congruence]. }
    assert (N : forall k, nth_error (upd (upd index i b) j a) k = if k =? j then Some a else if k =? i then Some b else nth_error index k).
    { intros k. rewrite !nth_error_upd, upd_length. rewrite (proj2 (Nat.ltb_lt j (length index))), (proj2 (Nat.ltb_lt i (length index))), !andb_true_r by lia. reflexivity. }
    split; [|split].
    + eapply Permutation_trans; [exact P|]. apply swap_perm; [lia|exact Ea|exact Eb].
    + intros x y p q Lx Ly Hp Hq. rewrite N in Hp, Hq.
      destruct (Nat.eqb_spec x j); [lia|]. destruct (Nat.eqb_spec x i); [lia|].
      destruct (Nat.eqb_spec y j) as [->|]; [injection Hq as <-; exact (H1 x i p a Lx Lx Hp Ea)|].
      destruct (Nat.eqb_spec y i) as [->|]; [injection Hq as <-; exact (H1 x j p b Lx ltac:(lia) Hp Eb)|]. exact (H1 x y p q Lx Ly Hp Hq).
    + intros y p q Ly Hp Hq. rewrite N in Hp, Hq. destruct (Nat.eqb_spec i j); [lia|]. rewrite Nat.eqb_refl in Hp. injection Hp as <-.
      destruct (Nat.eqb_spec y j) as [->|]; [injection Hq as <-; exact BA|]. destruct (Nat.eqb_spec y i); [lia|].
      apply before_trans with a; [exact BA|]. apply (H2 y a q); [lia|reflexivity|exact Hq].
  - exists index. split; [reflexivity|]. split; [exact P|]. split; [exact H1|].
    intros y p q Ly Hp Hq. destruct (Nat.eq_dec y j) as [->|]; [|apply (H2 y p q); [lia|congruence|exact Hq]].
    assert (p = a) by congruence. assert (q = b) by congruence. subst p q.
    apply orb_false_iff in C as (C1 & C2). split; [congruence|]. intros _ Pb. apply andb_false_iff in C1 as [C1|C1]; [apply Nat.ltb_ge in C1; exact C1|]. rewrite Pb in C1. discriminate.
Qed.

Lemma order_ok : exists index, order pc planes = Ok index /\ Permutation (seq 0 np) index /\
  forall i j p q, i < j -> nth_error index i = Some p -> nth_error index j = Some q -> before p q.
Proof.
  unfold order. fold np.
  destruct (for_range_inv (fun i index => Permutation (seq 0 np) index /\ forall a b p q, a < i -> a < b -> nth_error index a = Some p -> nth_error index b = Some q -> before p q)
    (fun index i => for_ (range (i + 1) np) (order_swap pc planes i) index) 0 (np - 1) (seq 0 np)) as (index & E & P & H).
  - lia.
  - split; [reflexivity|]. intros; lia.
  - intros i index Li (P & H).
    destruct (for_range_inv (fun j index => head_ok i j index) (order_swap pc planes i) (i + 1) np index) as (index' & E & P' & H1 & H2).
    + lia.
    + split; [exact P|]. split; [exact H|]. intros; lia.
    + intros j s Lj Hs. apply swap_ok; [lia|exact Hs].
    + exists index'. split; [exact E|]. split; [exact P'|]. intros a b p q La Lb Hp Hq.
      destruct (Nat.eq_dec a i) as [->|]; [|apply (H1 a b p q); auto; lia].
      apply (H2 b p q); auto. split; [exact Lb|]. rewrite <- (perm_len _ P'). apply nth_error_Some. congruence.
  - exists index. split; [exact E|]. split; [exact P|]. intros i j p q L Hp Hq. apply (H i j p q); auto.
    assert (j < length index) by (apply nth_error_Some; congruence). rewrite (perm_len _ P) in *. lia.
Qed.
End order.
