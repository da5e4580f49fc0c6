(** Theorem C38 *)
From Coq Require Import QArith Qcanon.
From Verif Require Import Base Util QcUtil Solver_Model GFC_Model GFC_Spec GFC_Proofs.
Local Open Scope nat_scope.

(** whatever was called before, Get(n) returns a function that is the sum of n Gaussians with 3n parameters in order, for every n the cache supports; beyond that it always throws *)
Theorem c38_right exp k os n : (supports k n -> exists p f, fst (get k (after k os (new_cache k)) n) = Ok p /\ nth_error (heap (snd (get k (after k os (new_cache k)) n))) p = Some f /\ sum_of exp k n f) /\
  (~ supports k n -> fst (get k (after k os (new_cache k)) n) = Throw UserExn).
Proof.
  destruct (after_ok k os (new_cache k) (new_good k)) as [G _]. destruct (get_ok k _ n G) as (_ & _ & P & Q). split; [|exact Q]. intros S. destruct (P S) as (p & E1 & _ & E3). exists p, (fun_of k n). split; [exact E1|]. split; [exact E3|apply right_fun].
Qed.
(** a later Get(n) returns the same object, which has not changed *)
Theorem c38_stable k os n p os' : fst (get k (after k os (new_cache k)) n) = Ok p ->
  fst (get k (after k os' (snd (get k (after k os (new_cache k)) n))) n) = Ok p /\
  forall f, nth_error (heap (snd (get k (after k os (new_cache k)) n))) p = Some f -> nth_error (heap (after k os' (snd (get k (after k os (new_cache k)) n)))) p = Some f.
Proof.
  intros E. destruct (after_ok k os (new_cache k) (new_good k)) as [G _]. set (c := after k os (new_cache k)) in *. destruct (get_ok k c n G) as (G1 & _ & P & Q).
  assert (S : supports k n). { destruct k as [|m|m cut]; cbn in *; [exact I|destruct (Nat.le_gt_cases n m) as [L|L]; [exact L|exfalso; assert (X := Q ltac:(lia)); congruence]..]. }
  destruct (P S) as (p' & E1 & E2 & E3). rewrite E in E1. inversion E1; subst p'. destruct (after_ok k os' _ G1) as [G2 X2]. set (c2 := after k os' (snd (get k c n))) in *.
  destruct (get_ok k c2 n G2) as (_ & X3 & P3 & _). destruct (P3 S) as (q & F1 & F2 & F3). destruct X2 as (X2 & H2 & _). split; [|intros f; apply H2].
  destruct X3 as (X3 & _). apply X2, X3 in E2. rewrite F1. congruence.
Qed.
(** different orders have different objects *)
Theorem c38_distinct k os n p os' m q : fst (get k (after k os (new_cache k)) n) = Ok p -> fst (get k (after k os' (snd (get k (after k os (new_cache k)) n))) m) = Ok q -> n <> m -> p <> q.
Proof.
  intros E Em Hne <-. apply Hne. destruct (after_ok k os (new_cache k) (new_good k)) as [G _]. set (c := after k os (new_cache k)) in *. destruct (get_ok k c n G) as (G1 & _ & P & Q).
  assert (S : supports k n). { destruct k as [|j|j cut]; cbn in *; [exact I|destruct (Nat.le_gt_cases n j) as [L|L]; [exact L|exfalso; assert (X := Q ltac:(lia)); congruence]..]. }
  destruct (P S) as (p' & E1 & E2 & _). rewrite E in E1. inversion E1; subst p'. destruct (after_ok k os' _ G1) as [G2 (X2 & _)]. set (c2 := after k os' (snd (get k c n))) in *.
  destruct (get_ok k c2 m G2) as (G3 & (X3 & _) & P3 & Q3).
  assert (S' : supports k m). { destruct k as [|j|j cut]; cbn in *; [exact I|destruct (Nat.le_gt_cases m j) as [L|L]; [exact L|exfalso; assert (X := Q3 ltac:(lia)); congruence]..]. }
  destruct (P3 S') as (q' & F1 & F2 & _). rewrite Em in F1. inversion F1; subst q'. eapply (g_once _ _ G3); [apply X3, X2, E2|exact F2].
Qed.
(** GetClone of the run-time cache gives a new object with the same function, which the cache does not own; compiled caches refuse *)
Theorem c38_clone exp k os n : let c := after k os (new_cache k) in
  match k with
  | RunTime => exists q f, fst (get_clone k c n) = Ok q /\ nth_error (heap (snd (get_clone k c n))) q = Some f /\ sum_of exp k n f /\ nth_error (heap c) q = None /\ forall m, nth m (funcs (snd (get_clone k c n))) None <> Some q
  | _ => fst (get_clone k c n) = Throw UserExn
  end.
Proof.
  intros c. destruct (after_ok k os (new_cache k) (new_good k)) as [G _]. destruct (clone_ok k _ n G) as (_ & _ & P). fold c in P. destruct k as [|m|m cut]; [|exact P..]. destruct P as (q & A & B & C & D). exists q, (fun_of RunTime n).
  split; [exact A|]. split; [exact B|]. split; [apply right_fun|]. split; [apply nth_error_None, C|exact D].
Qed.
(** the destructor deletes every function of the cache once *)
Theorem c38_owned k os : let c := after k os (new_cache k) in forall n m p, nth n (funcs c) None = Some p -> nth m (funcs c) None = Some p -> n = m.
Proof. intros c. destruct (after_ok k os (new_cache k) (new_good k)) as [G _]. apply (g_once _ _ G). Qed.
Print Assumptions c38_right. Print Assumptions c38_stable. Print Assumptions c38_distinct. Print Assumptions c38_clone. Print Assumptions c38_owned.

Example c38_ex1 : let c := after RunTime [Get 2; GetClone 1; Get 0; Get 2] (new_cache RunTime) in funcs c = [Some 3; Some 1; Some 0] /\ heap c = [Formula [0; 3]; Formula [0]; Formula [0]; Formula []].
Proof. split; reflexivity. Qed.
Example c38_ex2 : let c := after (Compiled 2) [Get 5; Get 1] (new_cache (Compiled 2)) in funcs c = [Some 0; Some 1; Some 2; None; None; None] /\ fst (get (Compiled 2) c 1) = Ok 1 /\ fst (get (Compiled 2) c 4) = Throw UserExn.
Proof. repeat split. Qed.
