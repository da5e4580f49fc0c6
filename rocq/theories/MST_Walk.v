(** trees have no cycles; the searches over them *)
From Coq Require Import QArith Qcanon Lqa.
From Verif Require Import Base QcUtil Solver_Model Solver_Proofs CandHit_Model MST_Model MST_Spec MST_Proofs.
Local Open Scope nat_scope.

Lemma walk_cons2 T x y r : walk T (x :: y :: r) <-> (exists e, In e T /\ joins e x y) /\ (match r with z :: _ => z <> x | [] => True end) /\ walk T (y :: r).
Proof. reflexivity. Qed.
Lemma walk_app_l T a b : walk T (a ++ b) -> walk T a.
Proof.
  revert b. induction a as [|x a IH]; intros b H; [exact I|]. destruct a as [|y a]; [exact I|]. change ((x :: y :: a) ++ b) with (x :: y :: (a ++ b)) in H. apply walk_cons2 in H. destruct H as (A & B & C).
  apply walk_cons2. split; [exact A|]. split; [destruct a; [exact I|exact B]|]. apply (IH b). exact C.
Qed.
Lemma walk_tl T x l : walk T (x :: l) -> walk T l.
Proof. destruct l as [|y l]; [intros _; exact I|]. intros H. apply walk_cons2 in H. apply H. Qed.
Lemma walk_app_r T a b : walk T (a ++ b) -> walk T b.
Proof. induction a as [|x a IH]; intros H; [exact H|]. apply IH, (walk_tl T x), H. Qed.

Lemma grown_ends hs T : grown hs T -> forall e, In e T -> In (e_src e) hs /\ In (e_dst e) hs.
Proof.
  induction 1 as [h|hs T e G IH Hs Hd]; intros f Hf; [destruct Hf|]. apply in_app_or in Hf. destruct Hf as [Hf|[<-|[]]].
  - destruct (IH f Hf). split; apply in_or_app; left; assumption.
  - split; apply in_or_app; [left; exact Hs|right; left; reflexivity].
Qed.
Lemma grown_nodup hs T : grown hs T -> NoDup hs.
Proof.
  induction 1 as [h|hs T e G IH Hs Hd]; [repeat constructor; intros []|]. eapply Permutation_NoDup; [apply Permutation_cons_append|]. constructor; assumption.
Qed.
Lemma joins_ends hs T e x y : grown hs T -> In e T -> joins e x y -> In x hs /\ In y hs.
Proof. intros G He J. destruct (grown_ends hs T G e He) as [A B]. destruct J as [[<- <-]|[<- <-]]; auto. Qed.
Lemma walk_in hs T x y r : grown hs T -> walk T (x :: y :: r) -> incl (x :: y :: r) hs.
Proof.
  intros G. revert x y. induction r as [|z r IH]; intros x y H; apply walk_cons2 in H; destruct H as ((e & He & J) & _ & H); destruct (joins_ends hs T e x y G He J) as [A B]; intros v Hv.
  - destruct Hv as [<-|[<-|[]]]; assumption.
  - destruct Hv as [<-|Hv]; [exact A|]. apply (IH y z H v Hv).
Qed.

Section Leaf.
Context (hs : list nat) (T : list edge) (e : edge) (G : grown hs T) (Hs : In (e_src e) hs) (Hd : ~ In (e_dst e) hs).
Lemma leaf_edge f x y : In f (T ++ [e]) -> joins f x y -> (In f T /\ x <> e_dst e /\ y <> e_dst e) \/ (x = e_src e /\ y = e_dst e) \/ (x = e_dst e /\ y = e_src e).
Proof using G Hs Hd.
  intros Hf J. apply in_app_or in Hf. destruct Hf as [Hf|[<-|[]]].
  - left. destruct (joins_ends hs T f x y G Hf J) as [A B]. split; [exact Hf|]. split; intros ->; contradiction.
  - right. destruct J as [[<- <-]|[<- <-]]; auto.
Qed.
Lemma leaf_neq : e_src e <> e_dst e. Proof using Hs Hd. intros X. rewrite X in Hs. contradiction. Qed.
Lemma walk_without l : walk (T ++ [e]) l -> ~ In (e_dst e) l -> walk T l.
Proof using G Hs Hd.
  induction l as [|x [|y r] IH]; intros H N; [exact I|exact I|]. apply walk_cons2 in H. destruct H as ((f & Hf & J) & B & C). apply walk_cons2.
  split; [|split; [exact B|apply IH; [exact C|intros X; apply N; right; exact X]]]. exists f. split; [|exact J].
  destruct (leaf_edge f x y Hf J) as [[A _]|[[_ ->]|[-> _]]]; [exact A| |]; exfalso; apply N; [right; left|left]; reflexivity.
Qed.
Lemma leaf_last x r : walk (T ++ [e]) (x :: e_dst e :: r) -> x = e_src e /\ r = [].
Proof using G Hs Hd.
  intros H. apply walk_cons2 in H. destruct H as ((f & Hf & J) & B & C).
  assert (X : x = e_src e). { destruct (leaf_edge f x _ Hf J) as [(_ & _ & A)|[[A _]|[_ A]]]; [congruence|exact A|exfalso; apply leaf_neq; auto]. }
  split; [exact X|]. destruct r as [|z r]; [reflexivity|]. exfalso. apply walk_cons2 in C. destruct C as ((g & Hg & K) & _ & _).
  destruct (leaf_edge g _ z Hg K) as [(_ & A & _)|[[A _]|[_ A]]]; [congruence|apply leaf_neq; auto|]. apply B. congruence.
Qed.
Lemma first_occ (v : nat) l : In v l -> exists a b, l = a ++ v :: b /\ ~ In v a.
Proof using.
  induction l as [|x l IH]; [intros []|]. intros H. destruct (Nat.eq_dec x v) as [->|N]; [exists [], l; split; [reflexivity|intros []]|].
  destruct H as [H|H]; [contradiction|]. destruct (IH H) as (a & b & -> & Na). exists (x :: a), b. split; [reflexivity|]. intros [X|X]; contradiction.
Qed.
Lemma leaf_occ a b : walk (T ++ [e]) (a ++ e_dst e :: b) -> a <> [] -> exists a', a = a' ++ [e_src e] /\ b = [].
Proof using G Hs Hd.
  intros H Ha. destruct (exists_last Ha) as (a' & x & ->). rewrite <- app_assoc in H. apply walk_app_r in H. cbn [app] in H. destruct (leaf_last x b H) as [-> ->]. exists a'. auto.
Qed.
Lemma leaf_acyclic : acyclic T -> acyclic (T ++ [e]).
Proof using G Hs Hd.
  intros A l H. destruct (in_dec Nat.eq_dec (e_dst e) l) as [Hi|Hi]; [|apply A, walk_without; assumption].
  destruct (first_occ _ _ Hi) as (a & b & -> & Na). destruct (list_eq_dec Nat.eq_dec a []) as [->|Ha].
  - cbn [app] in *. destruct (in_dec Nat.eq_dec (e_dst e) b) as [Hb|Hb].
    + exfalso. destruct (first_occ _ _ Hb) as (m & b' & -> & Nm). pose proof (walk_tl _ _ _ H) as H2. destruct (list_eq_dec Nat.eq_dec m []) as [->|Hm].
      * cbn [app] in H. destruct (leaf_last _ _ H) as [X _]. apply leaf_neq. auto.
      * destruct (leaf_occ m b' H2 Hm) as (m' & -> & ->). destruct m' as [|z m'].
        -- cbn [app] in H. apply walk_cons2 in H. destruct H as (_ & B & _). apply B. reflexivity.
        -- assert (Z : z = e_src e).
           { cbn [app] in H. apply walk_cons2 in H. destruct H as ((g & Hg & K) & _ & _). destruct (leaf_edge g _ _ Hg K) as [(_ & B & _)|[[B _]|[_ B]]]; [congruence|exfalso; apply leaf_neq; auto|exact B]. }
           assert (N : NoDup ((z :: m') ++ [e_src e])). { apply A, walk_without; [|exact Nm]. eapply walk_app_l. exact H2. }
           cbn [app] in N. inversion N as [|? ? N1 _]; subst. apply N1, in_or_app. right. left. reflexivity.
    + constructor; [exact Hb|]. apply A, walk_without; [|exact Hb]. eapply walk_tl. exact H.
  - destruct (leaf_occ a b H Ha) as (a' & Ea & ->). eapply Permutation_NoDup; [apply Permutation_cons_append|]. constructor; [exact Na|]. apply A, walk_without; [|exact Na]. eapply walk_app_l. exact H.
Qed.
End Leaf.
Lemma grown_acyclic hs T : grown hs T -> acyclic T.
Proof.
  induction 1 as [h|hs T e G IH Hs Hd].
  - intros [|x [|y r]] H; [constructor|repeat constructor; intros []|]. apply walk_cons2 in H. destruct H as ((f & [] & _) & _).
  - apply (leaf_acyclic hs); assumption.
Qed.

(** chains without going back between any two hits of a tree *)
Lemma walk_snoc T l x y : walk T (l ++ [x]) -> (exists e, In e T /\ joins e x y) -> (match rev l with z :: _ => z <> y | [] => True end) -> walk T (l ++ [x; y]).
Proof.
  induction l as [|a l IH]; intros H J N; [cbn [app]; apply walk_cons2; repeat split; exact J|]. destruct l as [|b l].
  - cbn [app] in *. apply walk_cons2 in H. destruct H as (A & _ & _). apply walk_cons2. split; [exact A|]. split; [cbn in N; congruence|]. apply walk_cons2. repeat split. exact J.
  - change ((a :: b :: l) ++ [x]) with (a :: b :: (l ++ [x])) in H. apply walk_cons2 in H. destruct H as (A & B & C). change ((a :: b :: l) ++ [x; y]) with (a :: b :: (l ++ [x; y])). apply walk_cons2. split; [exact A|].
    split; [destruct l; exact B|]. apply IH; [exact C|exact J|]. cbn [rev] in N |- *. rewrite <- app_assoc in N. destruct (rev l); exact N.
Qed.
Lemma conn_walk T x y : connected T x y -> exists l, walk T (x :: l) /\ last (x :: l) x = y.
Proof.
  induction 1 as [|y z e _ (l & W & L) He J]; [exists []; split; [exact I|reflexivity]|].
  destruct (exists_last (l := x :: l) ltac:(discriminate)) as (pre & y' & E). rewrite E in *. rewrite last_last in L. subst y'.
  destruct (exists_last (l := x :: l) ltac:(discriminate)) as (? & ? & _).
  assert (B : (match rev pre with w :: _ => w <> z | [] => True end) \/ exists pre', pre = pre' ++ [z]).
  { destruct pre as [|p pre]; [left; exact I|]. destruct (exists_last (l := p :: pre) ltac:(discriminate)) as (pp & w & Ep). rewrite Ep, rev_app_distr. cbn [rev app]. destruct (Nat.eq_dec w z) as [->|Nw]; [right; exists pp; reflexivity|left; exact Nw]. }
  destruct B as [B|(pre' & ->)].
  - pose proof (walk_snoc T pre y z W (ex_intro _ e (conj He J)) B) as W2. assert (E2 : pre ++ [y; z] = x :: (l ++ [z])). { change (x :: l ++ [z]) with ((x :: l) ++ [z]). rewrite E, <- app_assoc. reflexivity. }
    exists (l ++ [z]). rewrite <- E2. split; [exact W2|]. change [y; z] with ([y] ++ [z]). rewrite app_assoc, last_last. reflexivity.
  - apply walk_app_l in W. destruct pre' as [|p pre'].
    + cbn [app] in E. injection E as -> _. exists []. split; [exact I|reflexivity].
    + cbn [app] in E. injection E as -> _. exists (pre' ++ [z]). change (p :: pre' ++ [z]) with ((p :: pre') ++ [z]). split; [exact W|apply last_last].
Qed.
