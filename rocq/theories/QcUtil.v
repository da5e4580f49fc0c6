(** Arithmetic helpers over canonical rationals (no model here). *)
From Coq Require Import QArith Qcanon List Lia Lqa Permutation.
Import ListNotations.
Local Open Scope Qc_scope.

Lemma this_Q2Qc q : (this (Q2Qc q) == q)%Q. Proof. simpl. apply Qred_correct. Qed.
Lemma this_plus x y : (this (x + y) == this x + this y)%Q. Proof. apply this_Q2Qc. Qed.
Lemma this_mult x y : (this (x * y) == this x * this y)%Q. Proof. apply this_Q2Qc. Qed.
Lemma this_opp x : (this (- x) == - this x)%Q. Proof. apply this_Q2Qc. Qed.
Lemma this_minus x y : (this (x - y) == this x - this y)%Q.
Proof. unfold Qcminus. rewrite this_plus, this_opp. reflexivity. Qed.
Lemma this_0 : (this 0 == 0)%Q. Proof. reflexivity. Qed.
Lemma this_1 : (this 1 == 1)%Q. Proof. reflexivity. Qed.
Lemma Qc_eq_this x y : (this x == this y)%Q <-> x = y.
Proof. split; [apply Qc_is_canon|intros ->; reflexivity]. Qed.
Lemma Qcle_this x y : x <= y <-> (this x <= this y)%Q. Proof. reflexivity. Qed.
Lemma Qclt_this x y : x < y <-> (this x < this y)%Q. Proof. reflexivity. Qed.
Lemma Qcle_not_lt' x y : ~ x < y <-> y <= x.
Proof. split; [apply Qcnot_lt_le|apply Qcle_not_lt]. Qed.
Lemma Qclt_not_le' x y : ~ x <= y <-> y < x.
Proof. split; [apply Qcnot_le_lt|apply Qclt_not_le]. Qed.

(** turn every Qc comparison in sight into one over Q with the operations pushed out *)
Ltac qc2q :=
  repeat match goal with
  | H : Qcle ?x ?y |- _ => change (Qle (this x) (this y)) in H
  | H : Qclt ?x ?y |- _ => change (Qlt (this x) (this y)) in H
  | H : @eq Qc ?x ?y |- _ => apply Qc_eq_this in H
  | |- Qcle ?x ?y => change (Qle (this x) (this y))
  | |- Qclt ?x ?y => change (Qlt (this x) (this y))
  | |- @eq Qc ?x ?y => apply Qc_eq_this
  end;
  repeat match goal with
  | H : context [this (_ + _)] |- _ => setoid_rewrite this_plus in H
  | H : context [this (_ * _)] |- _ => setoid_rewrite this_mult in H
  | H : context [this (_ - _)] |- _ => setoid_rewrite this_minus in H
  | H : context [this (- _)] |- _ => setoid_rewrite this_opp in H
  | H : context [this (Q2Qc ?q)] |- _ => setoid_rewrite (this_Q2Qc q) in H
  | |- context [this (_ + _)] => setoid_rewrite this_plus
  | |- context [this (_ * _)] => setoid_rewrite this_mult
  | |- context [this (_ - _)] => setoid_rewrite this_minus
  | |- context [this (- _)] => setoid_rewrite this_opp
  | |- context [this (Q2Qc ?q)] => setoid_rewrite (this_Q2Qc q)
  end.
Ltac qclra := qc2q; lra.
Ltac qcnra := qc2q; nra.

Definition qsum {A} (f : A -> Qc) (l : list A) : Qc := fold_right (fun x s => f x + s) 0 l.
Lemma qsum_cons {A} (f : A -> Qc) x l : qsum f (x :: l) = f x + qsum f l. Proof. reflexivity. Qed.
Lemma qsum_app {A} (f : A -> Qc) l1 l2 : qsum f (l1 ++ l2) = qsum f l1 + qsum f l2.
Proof. induction l1 as [|x l IH]; simpl; [ring|]. rewrite IH. ring. Qed.
Lemma qsum_ext {A} (f g : A -> Qc) l : (forall x, In x l -> f x = g x) -> qsum f l = qsum g l.
Proof. induction l as [|x l IH]; intros H; simpl; [reflexivity|]. rewrite (H x (or_introl eq_refl)), IH; [reflexivity|]. intros y Hy; apply H; right; exact Hy. Qed.
Lemma qsum_plus {A} (f g : A -> Qc) l : qsum (fun x => f x + g x) l = qsum f l + qsum g l.
Proof. induction l as [|x l IH]; simpl; [ring|]. rewrite IH. ring. Qed.
Lemma qsum_minus {A} (f g : A -> Qc) l : qsum (fun x => f x - g x) l = qsum f l - qsum g l.
Proof. induction l as [|x l IH]; simpl; [ring|]. rewrite IH. ring. Qed.
Lemma qsum_scal {A} c (f : A -> Qc) l : qsum (fun x => c * f x) l = c * qsum f l.
Proof. induction l as [|x l IH]; simpl; [ring|]. rewrite IH. ring. Qed.
Lemma qsum_zero {A} (l : list A) : qsum (fun _ => 0) l = 0.
Proof. induction l as [|x l IH]; simpl; [reflexivity|]. rewrite IH. ring. Qed.
Lemma qsum_zero' {A} (f : A -> Qc) (l : list A) : (forall x, In x l -> f x = 0) -> qsum f l = 0.
Proof. intros H. rewrite (qsum_ext f (fun _ => 0) l H). apply qsum_zero. Qed.
Lemma qsum_swap {A B} (f : A -> B -> Qc) l1 l2 :
  qsum (fun x => qsum (f x) l2) l1 = qsum (fun y => qsum (fun x => f x y) l1) l2.
Proof.
  induction l1 as [|x l1 IH]; simpl; [symmetry; apply qsum_zero|].
  rewrite IH, <- qsum_plus. reflexivity.
Qed.
Lemma qsum_perm {A} (f : A -> Qc) l1 l2 : Permutation l1 l2 -> qsum f l1 = qsum f l2.
Proof. induction 1; simpl; congruence || (try ring). Qed.
Lemma qsum_nonneg {A} (f : A -> Qc) l : (forall x, In x l -> 0 <= f x) -> 0 <= qsum f l.
Proof.
  induction l as [|x l IH]; intros H; simpl; [apply Qcle_refl|].
  assert (0 <= f x) by (apply H; left; reflexivity). assert (0 <= qsum f l) by (apply IH; intros; apply H; right; assumption).
  qclra.
Qed.
Lemma qsum_map {A B} (f : B -> Qc) (g : A -> B) l : qsum f (map g l) = qsum (fun x => f (g x)) l.
Proof. induction l as [|x l IH]; simpl; congruence. Qed.
(** a sum in which only one element differs *)
Lemma qsum_single (f : nat -> Qc) k l : NoDup l -> In k l -> (forall x, In x l -> x <> k -> f x = 0) -> qsum f l = f k.
Proof.
  induction l as [|x l IH]; intros ND Hin Hz; [destruct Hin|]. inversion ND as [|? ? Hni ND']; subst. simpl.
  destruct Hin as [->|Hin].
  - rewrite (qsum_zero' f l); [ring|]. intros y Hy. apply Hz; [right; exact Hy|]. intros ->. contradiction.
  - rewrite IH by (auto; intros; apply Hz; auto; right; auto). rewrite Hz; [ring|left; reflexivity|]. intros ->. contradiction.
Qed.
