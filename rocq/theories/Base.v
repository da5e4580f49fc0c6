(** Common vocabulary: outcomes of C++ calls, vectors, bounded for-loops. *)
From Coq Require Export List Arith ZArith Lia Bool Permutation Sorted Relations.
Export ListNotations.

(** How a call can end besides returning normally.
    [UserExn]  : an exception the code throws on purpose (CMTException, MCBTException, ...)
    [RangeExn] : std::out_of_range thrown by [vector::at]
    [AbortExn] : abort() / exit()
    [Undef]    : undefined behaviour (out-of-range operator[], null dereference, ...). *)
Inductive exn := UserExn | RangeExn | AbortExn.
Inductive outcome (A : Type) := Ok (a : A) | Throw (e : exn) | Undef.
Arguments Ok {A} a.
Arguments Throw {A} e.
Arguments Undef {A}.

Definition obind {A B} (x : outcome A) (f : A -> outcome B) : outcome B :=
  match x with Ok a => f a | Throw e => Throw e | Undef => Undef end.
Notation "'do' x <- e1 ; e2" := (obind e1 (fun x => e2))
  (at level 200, x name, e1 at level 100, e2 at level 200, right associativity).

(** [upd l i v]: the vector [l] with element [i] overwritten (no effect out of range). *)
Fixpoint upd {A} (l : list A) (i : nat) (v : A) : list A :=
  match l, i with
  | [], _ => []
  | _ :: t, 0 => v :: t
  | x :: t, S i' => x :: upd t i' v
  end.

(** [l.at(i)] *)
Definition at_ {A} (l : list A) (i : nat) : outcome A :=
  match nth_error l i with Some x => Ok x | None => Throw RangeExn end.
(** [l[i]] *)
Definition idx {A} (l : list A) (i : nat) : outcome A :=
  match nth_error l i with Some x => Ok x | None => Undef end.
(** [l.at(i) = v] *)
Definition set_at {A} (l : list A) (i : nat) (v : A) : outcome (list A) :=
  if i <? length l then Ok (upd l i v) else Throw RangeExn.
(** [l[i] = v] *)
Definition set_idx {A} (l : list A) (i : nat) (v : A) : outcome (list A) :=
  if i <? length l then Ok (upd l i v) else Undef.

(** [for (i = lo; i < hi; ++i)] *)
Definition range (lo hi : nat) : list nat := seq lo (hi - lo).

(** a loop over a list of indices, stopping at the first exception *)
Fixpoint for_ {S} (l : list nat) (body : S -> nat -> outcome S) (s : S) : outcome S :=
  match l with
  | [] => Ok s
  | i :: l' => do s' <- body s i; for_ l' body s'
  end.

(** the same for a range-for over arbitrary elements *)
Fixpoint foreach {A S} (l : list A) (body : S -> A -> outcome S) (s : S) : outcome S :=
  match l with
  | [] => Ok s
  | a :: l' => do s' <- body s a; foreach l' body s'
  end.

(* ------------------------------------------------------------------ *)
(** Lemmas *)

Lemma upd_length {A} (l : list A) i v : length (upd l i v) = length l.
Proof. revert i; induction l as [|x l IH]; intros [|i]; simpl; auto. Qed.

Lemma nth_upd {A} (l : list A) i j v d :
  nth j (upd l i v) d = if (j =? i) && (i <? length l) then v else nth j l d.
Proof.
  revert i j; induction l as [|x l IH]; intros i j.
  - simpl. destruct j; rewrite andb_false_r; reflexivity.
  - destruct i as [|i], j as [|j]; simpl; try reflexivity.
    rewrite IH. reflexivity.
Qed.

Lemma nth_error_upd {A} (l : list A) i j v :
  nth_error (upd l i v) j = if (j =? i) && (i <? length l) then Some v else nth_error l j.
Proof.
  revert i j; induction l as [|x l IH]; intros i j.
  - simpl. destruct j; rewrite andb_false_r; reflexivity.
  - destruct i as [|i], j as [|j]; simpl; try reflexivity.
    rewrite IH. reflexivity.
Qed.

Lemma at_ok {A} (l : list A) i d : i < length l -> at_ l i = Ok (nth i l d).
Proof. intros H; unfold at_. rewrite (nth_error_nth' l d H). reflexivity. Qed.

Lemma at_inv {A} (l : list A) i x : at_ l i = Ok x -> i < length l /\ nth_error l i = Some x.
Proof.
  unfold at_. destruct (nth_error l i) eqn:E; [|discriminate]. intros [= ->].
  split; [|reflexivity]. apply nth_error_Some. congruence.
Qed.

Lemma idx_ok {A} (l : list A) i d : i < length l -> idx l i = Ok (nth i l d).
Proof. intros H; unfold idx. rewrite (nth_error_nth' l d H). reflexivity. Qed.

Lemma idx_inv {A} (l : list A) i x : idx l i = Ok x -> i < length l /\ nth_error l i = Some x.
Proof.
  unfold idx. destruct (nth_error l i) eqn:E; [|discriminate]. intros [= ->].
  split; [|reflexivity]. apply nth_error_Some. congruence.
Qed.

Lemma set_at_ok {A} (l : list A) i v : i < length l -> set_at l i v = Ok (upd l i v).
Proof. intros H; unfold set_at. destruct (Nat.ltb_spec i (length l)); [reflexivity|lia]. Qed.

Lemma set_idx_ok {A} (l : list A) i v : i < length l -> set_idx l i v = Ok (upd l i v).
Proof. intros H; unfold set_idx. destruct (Nat.ltb_spec i (length l)); [reflexivity|lia]. Qed.

Lemma in_range i lo hi : In i (range lo hi) <-> lo <= i < hi.
Proof. unfold range. rewrite in_seq. lia. Qed.

(** invariant rule for a for-loop that never throws *)
Lemma for_seq_inv {S} (P : nat -> S -> Prop) body lo k s :
  P lo s ->
  (forall i s, lo <= i < lo + k -> P i s -> exists s', body s i = Ok s' /\ P (Datatypes.S i) s') ->
  exists s', for_ (seq lo k) body s = Ok s' /\ P (lo + k) s'.
Proof.
  revert lo s; induction k as [|k IH]; intros lo s H0 Hstep; simpl.
  - exists s. split; [reflexivity|]. rewrite Nat.add_0_r. exact H0.
  - destruct (Hstep lo s) as (s1 & E1 & H1); [lia|exact H0|].
    rewrite E1; simpl.
    destruct (IH (Datatypes.S lo) s1 H1) as (s2 & E2 & H2).
    + intros i s' Hi HP. apply Hstep; [lia|exact HP].
    + exists s2. split; [exact E2|]. replace (lo + Datatypes.S k) with (Datatypes.S lo + k) by lia. exact H2.
Qed.

Lemma for_range_inv {S} (P : nat -> S -> Prop) body lo hi s :
  lo <= hi ->
  P lo s ->
  (forall i s, lo <= i < hi -> P i s -> exists s', body s i = Ok s' /\ P (Datatypes.S i) s') ->
  exists s', for_ (range lo hi) body s = Ok s' /\ P hi s'.
Proof.
  intros Hle H0 Hstep. unfold range.
  destruct (for_seq_inv P body lo (hi - lo) s H0) as (s' & E & H).
  - intros i s1 Hi. apply Hstep. lia.
  - exists s'. split; [exact E|]. replace (lo + (hi - lo)) with hi in H by lia. exact H.
Qed.

Lemma for_app {S} l1 l2 (body : S -> nat -> outcome S) s :
  for_ (l1 ++ l2) body s = obind (for_ l1 body s) (for_ l2 body).
Proof.
  revert s; induction l1 as [|i l1 IH]; intros s; simpl; [reflexivity|].
  destruct (body s i); simpl; auto.
Qed.

Lemma nth_nil {A} i (d : A) : nth i [] d = d.
Proof. destruct i; reflexivity. Qed.

Lemma nth_ext_length {A} (d : A) (l l' : list A) :
  length l = length l' -> (forall i, i < length l -> nth i l d = nth i l' d) -> l = l'.
Proof. intros H1 H2. exact (nth_ext l l' d d H1 H2). Qed.

Lemma nth_map_seq {A} (f : nat -> A) n i d : i < n -> nth i (map f (seq 0 n)) d = f i.
Proof.
  intros H. rewrite nth_indep with (d' := f 0) by (rewrite map_length, seq_length; lia).
  rewrite map_nth, seq_nth by lia. reflexivity.
Qed.
