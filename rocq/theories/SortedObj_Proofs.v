From Verif Require Import Base Util SortedObj_Model SortedObj_Spec.

Notation setp f x v := (fun y => if Nat.eqb y x then v else f y).

(** the heap cell a forest and a parent map prescribe *)
Definition cell (s : forest) (prv : nat -> option nat) (x : nat) : option obj :=
  match s x with None => None | Some (k, l) => Some (mkO k (back l) (prv x) (if k then l else [])) end.
Definition H (h : heap) (s : forest) (prv : nat -> option nat) : Prop := forall x, h x = cell s prv x.
Record I (s : forest) (prv : nat -> option nat) : Prop := mkI {
  i_prv : forall x y, prv x = Some y <-> In x (children s y);
  i_nd : forall y, NoDup (children s y);
  i_self : forall y, ~ In y (children s y);
  i_live : forall x y, In x (children s y) -> live s x;
  i_one : forall y, is_branch s y = false -> length (children s y) <= 1 }.

Lemma H_live h s prv x : H h s prv -> live s x -> h x = Some (mkO (is_branch s x) (back (children s x)) (prv x) (if is_branch s x then children s x else [])).
Proof. intros Hh Hl. rewrite Hh. unfold cell, is_branch, children, live in *. destruct (s x) as [[k l]|]; [reflexivity|congruence]. Qed.

Lemma modify_eq h x f o : h x = Some o -> modify h x f = Ok (hset h x (Some (f o))).
Proof. intros E. unfold modify, deref. rewrite E. reflexivity. Qed.
Lemma deref_eq h x o : h x = Some o -> deref h x = Ok o.
Proof. intros E. unfold deref. rewrite E. reflexivity. Qed.
Lemma same_refl x : same (Some x) x = true. Proof. apply Nat.eqb_refl. Qed.

(* ------------------------------------------------------------ lists *)
Lemma mem_In b l : mem b l = true <-> In b l.
Proof. unfold mem. rewrite existsb_exists. split; [intros (x & Hx & E); apply Nat.eqb_eq in E; subst; exact Hx|intros Hx; exists b; split; [exact Hx|apply Nat.eqb_refl]]. Qed.
Lemma mem_false b l : mem b l = false <-> ~ In b l.
Proof. rewrite <- mem_In. destruct (mem b l); split; congruence. Qed.
Lemma in_without x b l : In x (without b l) <-> In x l /\ x <> b.
Proof. unfold without. rewrite filter_In, negb_true_iff, Nat.eqb_neq. reflexivity. Qed.
Lemma without_id b l : ~ In b l -> without b l = l.
Proof.
  induction l as [|x l IH]; intros Hn; simpl; [reflexivity|]. destruct (Nat.eqb_spec x b) as [->|]; [exfalso; apply Hn; left; reflexivity|].
  simpl. f_equal. apply IH. intros Hx; apply Hn; right; exact Hx.
Qed.
Lemma without_length b l : length (without b l) <= length l.
Proof. unfold without. induction l as [|x l IH]; simpl; [lia|]. destruct (negb _); simpl; lia. Qed.
Lemma find_pos_spec l b : In b l -> NoDup l -> exists i, find_pos l b = Some i /\ erase_at l i = without b l /\ Z.of_nat i = position b l.
Proof.
  induction l as [|x l IH]; intros Hin Hnd; [destruct Hin|]. inversion Hnd as [|? ? Hx Hnd']; subst. cbn [find_pos position without filter].
  destruct (Nat.eqb_spec x b) as [->|Hne]; cbn [negb].
  - exists 0. split; [reflexivity|]. split; [simpl; symmetry; apply without_id; exact Hx|reflexivity].
  - destruct Hin as [->|Hin]; [congruence|]. destruct (IH Hin Hnd') as (i & E1 & E2 & E3). exists (S i). rewrite E1. split; [reflexivity|].
    split; [simpl; f_equal; exact E2|]. rewrite <- E3. lia.
Qed.
Lemma find_pos_none l b : ~ In b l -> find_pos l b = None.
Proof. induction l as [|x l IH]; intros Hn; simpl; [reflexivity|]. destruct (Nat.eqb_spec x b) as [->|]; [exfalso; apply Hn; left; reflexivity|]. rewrite IH; [reflexivity|]. intros Hx; apply Hn; right; exact Hx. Qed.
Lemma back_app l b : back (l ++ [b]) = Some b.
Proof. unfold back. rewrite rev_app_distr. reflexivity. Qed.
Lemma one_list (l : list nat) b : length l <= 1 -> In b l -> l = [b].
Proof. destruct l as [|x [|y l]]; simpl; intros Hl Hin; [destruct Hin|destruct Hin as [->|[]]; reflexivity|lia]. Qed.
Lemma back_nil_inv l : back l = None -> l = [].
Proof. unfold back. destruct (rev l) eqn:E; [|discriminate]. intros _. apply (f_equal (@rev nat)) in E. rewrite rev_involutive in E. exact E. Qed.
Lemma back_In l x : back l = Some x -> In x l.
Proof. unfold back. destruct (rev l) eqn:E; [discriminate|]. intros [= ->]. apply in_rev. rewrite E. left. reflexivity. Qed.

(* ------------------------------------------------------------ forests *)
Lemma children_put s a k l y : children (put s a (Some (k, l))) y = if Nat.eqb y a then l else children s y.
Proof. unfold children, put. destruct (Nat.eqb y a); reflexivity. Qed.
Lemma branch_put s a k l y : is_branch (put s a (Some (k, l))) y = if Nat.eqb y a then k else is_branch s y.
Proof. unfold is_branch, put. destruct (Nat.eqb y a); reflexivity. Qed.
Lemma live_put s a k l y : live s y -> live (put s a (Some (k, l))) y.
Proof. unfold live, put. destruct (Nat.eqb y a); [discriminate|auto]. Qed.
Lemma children_detach s b y : children (detach s b) y = without b (children s y).
Proof. unfold children, detach. destruct (s y) as [[k l]|]; reflexivity. Qed.
Lemma branch_detach s b y : is_branch (detach s b) y = is_branch s y.
Proof. unfold is_branch, detach. destruct (s y) as [[k l]|]; reflexivity. Qed.
Lemma live_detach s b y : live (detach s b) y <-> live s y.
Proof. unfold live, detach. destruct (s y) as [[k l]|]; split; congruence. Qed.
Lemma live_some s x : live s x -> s x = Some (is_branch s x, children s x).
Proof. unfold live, is_branch, children. destruct (s x) as [[k l]|]; [reflexivity|congruence]. Qed.
Lemma child_parent_live s x y : In x (children s y) -> live s y.
Proof. unfold children, live. destruct (s y); [discriminate|intros []]. Qed.

(** detaching changes at most the parent's list *)
Lemma detach_none s prv b : I s prv -> prv b = None -> forall y, detach s b y = s y.
Proof.
  intros HI E y. unfold detach. destruct (s y) as [[k l]|] eqn:Es; [|reflexivity]. rewrite without_id; [reflexivity|].
  intros Hin. assert (X : prv b = Some y) by (apply (i_prv _ _ HI); unfold children; rewrite Es; exact Hin). congruence.
Qed.
Lemma detach_some s prv b p : I s prv -> prv b = Some p -> forall y, detach s b y = put s p (Some (is_branch s p, without b (children s p))) y.
Proof.
  intros HI E y. unfold detach, put. assert (Hp : In b (children s p)) by (apply (i_prv _ _ HI); exact E).
  destruct (Nat.eqb_spec y p) as [->|Hne].
  - rewrite (live_some s p (child_parent_live _ _ _ Hp)). reflexivity.
  - destruct (s y) as [[k l]|] eqn:Es; [|reflexivity]. rewrite without_id; [reflexivity|].
    intros Hin. assert (X : prv b = Some y) by (apply (i_prv _ _ HI); unfold children; rewrite Es; exact Hin). congruence.
Qed.

(** parents stay unique: [l] is the new list of [a], [b] its new or lost child *)
Lemma I_remove s prv a b : I s prv -> live s a -> I (put s a (Some (is_branch s a, without b (children s a)))) (if mem b (children s a) then (setp prv b None) else prv).
Proof.
  intros HI Ha. destruct (mem b (children s a)) eqn:Em.
  - apply mem_In in Em. assert (Hp : prv b = Some a) by (apply (i_prv _ _ HI), Em). split.
    + intros x y. rewrite children_put. destruct (Nat.eqb_spec x b) as [->|Hne].
      * split; [discriminate|]. destruct (Nat.eqb_spec y a) as [->|Hya]; [rewrite in_without; intros [_ X]; congruence|].
        intros X. apply (i_prv _ _ HI) in X. congruence.
      * rewrite (i_prv _ _ HI). destruct (Nat.eqb_spec y a) as [->|]; [|reflexivity]. rewrite in_without. tauto.
    + intros y. rewrite children_put. destruct (Nat.eqb y a); [apply NoDup_filter|]; apply (i_nd _ _ HI).
    + intros y. rewrite children_put. destruct (Nat.eqb_spec y a) as [->|]; [rewrite in_without; intros [X _]|intros X]; apply (i_self _ _ HI _ X).
    + intros x y. rewrite children_put. destruct (Nat.eqb_spec y a) as [->|]; intros X; apply live_put; [apply in_without in X; destruct X as [X _]|]; apply (i_live _ _ HI _ _ X).
    + intros y. rewrite children_put, branch_put. destruct (Nat.eqb_spec y a) as [->|]; [|apply (i_one _ _ HI)].
      intros X. assert (Y := i_one _ _ HI a X). transitivity (length (children s a)); [|exact Y]. apply without_length.
  - apply mem_false in Em. rewrite without_id by exact Em. split.
    + intros x y. rewrite children_put. destruct (Nat.eqb_spec y a) as [->|]; apply (i_prv _ _ HI).
    + intros y. rewrite children_put. destruct (Nat.eqb_spec y a) as [->|]; apply (i_nd _ _ HI).
    + intros y. rewrite children_put. destruct (Nat.eqb_spec y a) as [->|]; apply (i_self _ _ HI).
    + intros x y. rewrite children_put. destruct (Nat.eqb_spec y a) as [->|]; intros X; apply live_put, (i_live _ _ HI _ _ X).
    + intros y. rewrite children_put, branch_put. destruct (Nat.eqb_spec y a) as [->|]; apply (i_one _ _ HI).
Qed.

Definition add_prv (s : forest) (prv : nat -> option nat) (a b : nat) : nat -> option nat :=
  fun x => if Nat.eqb x b then Some a else if negb (is_branch s a) && mem x (children s a) then None else prv x.
Definition add_list (s : forest) (a b : nat) : list nat := if is_branch s a then children s a ++ [b] else [b].
Lemma I_add s prv a b : I s prv -> live s a -> live s b -> a <> b -> (is_branch s a = true -> ~ In b (children s a)) ->
  I (put (detach s b) a (Some (is_branch s a, add_list s a b))) (add_prv s prv a b).
Proof.
  intros HI Ha Hb Hab Hnew. unfold add_prv, add_list. split.
  - intros x y. rewrite children_put, children_detach. destruct (Nat.eqb_spec x b) as [->|Hxb].
    + destruct (Nat.eqb_spec y a) as [->|Hya].
      * split; [intros _|reflexivity]. destruct (is_branch s a); [apply in_or_app; right|]; left; reflexivity.
      * rewrite in_without. split; [congruence|intros [_ X]; congruence].
    + destruct (is_branch s a) eqn:Ek; cbn [negb andb].
      * rewrite (i_prv _ _ HI). destruct (Nat.eqb_spec y a) as [->|Hya].
        -- rewrite in_app_iff. simpl. split; [auto|]. intros [X|[X|[]]]; [exact X|congruence].
        -- rewrite in_without. tauto.
      * destruct (mem x (children s a)) eqn:Em.
        -- apply mem_In in Em. assert (Hp : prv x = Some a) by (apply (i_prv _ _ HI), Em). split; [discriminate|]. destruct (Nat.eqb_spec y a) as [->|Hya].
           ++ intros [X|[]]. congruence.
           ++ rewrite in_without. intros [X _]. apply (i_prv _ _ HI) in X. congruence.
        -- apply mem_false in Em. rewrite (i_prv _ _ HI). destruct (Nat.eqb_spec y a) as [->|Hya].
           ++ split; [contradiction|intros [X|[]]; congruence].
           ++ rewrite in_without. tauto.
  - intros y. rewrite children_put, children_detach. destruct (Nat.eqb_spec y a) as [->|Hya].
    + destruct (is_branch s a); [|repeat constructor; intros []]. apply (Permutation_NoDup (l := b :: children s a)); [apply Permutation_cons_append|].
      constructor; [apply Hnew; reflexivity|apply (i_nd _ _ HI)].
    + apply NoDup_filter, (i_nd _ _ HI).
  - intros y. rewrite children_put, children_detach. destruct (Nat.eqb_spec y a) as [->|Hya].
    + destruct (is_branch s a); [|intros [X|[]]; congruence]. rewrite in_app_iff. intros [X|[X|[]]]; [apply (i_self _ _ HI _ X)|congruence].
    + rewrite in_without. intros [X _]. apply (i_self _ _ HI _ X).
  - intros x y. rewrite children_put, children_detach. destruct (Nat.eqb_spec y a) as [->|Hya]; intros X; apply live_put, live_detach.
    + destruct (is_branch s a); [apply in_app_or in X; destruct X as [X|[<-|[]]]; [apply (i_live _ _ HI _ _ X)|exact Hb]|destruct X as [<-|[]]; exact Hb].
    + apply in_without in X. apply (i_live _ _ HI _ _ (proj1 X)).
  - intros y. rewrite children_put, children_detach, branch_put, branch_detach. destruct (Nat.eqb_spec y a) as [->|Hya].
    + intros ->. simpl. lia.
    + intros X. assert (Y := i_one _ _ HI y X). transitivity (length (children s y)); [|exact Y]. apply without_length.
Qed.

Definition disc_prv (s : forest) (prv : nat -> option nat) (a : nat) : nat -> option nat :=
  fun x => if Nat.eqb x a then None else if mem x (children s a) then None else prv x.
Lemma I_disc s prv a : I s prv -> live s a -> I (s_disconnect s a) (disc_prv s prv a).
Proof.
  intros HI Ha. unfold s_disconnect, disc_prv. split.
  - intros x y. rewrite children_put, children_detach. destruct (Nat.eqb_spec x a) as [->|Hxa].
    + split; [discriminate|]. destruct (Nat.eqb y a); [intros []|]. rewrite in_without. intros [_ X]. congruence.
    + destruct (mem x (children s a)) eqn:Em.
      * apply mem_In in Em. assert (Hp : prv x = Some a) by (apply (i_prv _ _ HI), Em). split; [discriminate|].
        destruct (Nat.eqb_spec y a); [intros []|]. rewrite in_without. intros [X _]. apply (i_prv _ _ HI) in X. congruence.
      * apply mem_false in Em. rewrite (i_prv _ _ HI). destruct (Nat.eqb_spec y a) as [->|]; [split; [contradiction|intros []]|]. rewrite in_without. tauto.
  - intros y. rewrite children_put, children_detach. destruct (Nat.eqb y a); [constructor|apply NoDup_filter, (i_nd _ _ HI)].
  - intros y. rewrite children_put, children_detach. destruct (Nat.eqb y a); [intros []|]. rewrite in_without. intros [X _]. apply (i_self _ _ HI _ X).
  - intros x y. rewrite children_put, children_detach. destruct (Nat.eqb y a); [intros []|]; intros X; apply live_put, live_detach. apply in_without in X. apply (i_live _ _ HI _ _ (proj1 X)).
  - intros y. rewrite children_put, children_detach, branch_put, branch_detach. destruct (Nat.eqb_spec y a); [simpl; lia|]. intros X.
    assert (Y := i_one _ _ HI y X). transitivity (length (children s y)); [|exact Y]. apply without_length.
Qed.

(* ------------------------------------------------------------ RemoveNext *)
Lemma rm_eff h s prv p b : H h s prv -> In b (children s p) -> NoDup (children s p) -> p <> b -> live s b -> prv b = Some p ->
  (is_branch s p = false -> length (children s p) <= 1) ->
  exists h', remove_next h p (Some b) = Ok (h', if is_branch s p then position b (children s p) else 0%Z) /\
     (is_branch s p = true -> branch_remove h p (Some b) = remove_next h p (Some b)) /\
     (is_branch s p = false -> base_remove h p (Some b) = remove_next h p (Some b)) /\
     H h' (put s p (Some (is_branch s p, without b (children s p)))) ((setp prv b None)).
Proof.
  intros Hh Hin Hnd Hpb Hb Hprv Hone. assert (Hp := child_parent_live _ _ _ Hin).
  assert (Ep := H_live h s prv p Hh Hp). assert (Eb := H_live h s prv b Hh Hb).
  assert (Fin : forall k l, s p = Some (k, l) -> forall h', (forall x, h' x = if Nat.eqb x p then Some (mkO k (back (without b l)) (prv p) (if k then without b l else [])) else
      if Nat.eqb x b then Some (set_prev (mkO (is_branch s b) (back (children s b)) (prv b) (if is_branch s b then children s b else [])) None) else h x) ->
      H h' (put s p (Some (k, without b l))) ((setp prv b None))).
  { intros k l Es h' E x. rewrite E. unfold cell, put. destruct (Nat.eqb_spec x p) as [->|Hxp].
    - destruct (Nat.eqb_spec p b); [congruence|reflexivity].
    - destruct (Nat.eqb_spec x b) as [->|Hxb]; [rewrite (live_some s b Hb); reflexivity|]. rewrite Hh. unfold cell.
      destruct (s x) as [[k' l']|]; [|reflexivity]. destruct (Nat.eqb_spec x b); [congruence|reflexivity]. }
  unfold remove_next. rewrite (deref_eq _ _ _ Ep). cbn [obind o_branch]. destruct (is_branch s p) eqn:Ek.
  - destruct (find_pos_spec _ _ Hin Hnd) as (i & F1 & F2 & F3).
    unfold branch_remove. rewrite (deref_eq _ _ _ Ep). cbn [obind o_nexts]. destruct (Nat.eqb_spec b p); [congruence|]. rewrite F1.
    rewrite (deref_eq _ _ _ Eb). cbn [obind o_prev]. rewrite Hprv, same_refl. cbn [negb].
    rewrite (modify_eq _ _ _ _ Eb). cbn [obind].
    rewrite (modify_eq _ p _ (mkO true (back (children s p)) (prv p) (children s p))) by (unfold hset; destruct (Nat.eqb_spec p b); [congruence|exact Ep]).
    cbn [obind]. unfold set_nexts at 1. cbn [o_branch o_next o_prev o_nexts].
    rewrite (modify_eq _ p _ (mkO true (back (children s p)) (prv p) (without b (children s p)))) by (unfold hset; rewrite Nat.eqb_refl; f_equal; f_equal; exact F2).
    cbn [obind]. unfold set_next. cbn [o_branch o_next o_prev o_nexts]. rewrite F3. eexists. split; [reflexivity|]. split; [reflexivity|]. split; [discriminate|].
    apply (Fin true (children s p)); [rewrite (live_some s p Hp), Ek; reflexivity|]. intros x. unfold hset.
    destruct (Nat.eqb_spec x p); [reflexivity|]. destruct (Nat.eqb_spec x b); [|reflexivity]. rewrite Hprv. reflexivity.
  - assert (El := one_list _ _ (Hone eq_refl) Hin). unfold base_remove. rewrite (deref_eq _ _ _ Ep). cbn [obind o_next]. rewrite El. cbn [back rev app]. rewrite same_refl.
    rewrite (deref_eq _ _ _ Eb). cbn [obind o_prev]. rewrite Hprv, same_refl. rewrite (modify_eq _ _ _ _ Eb). cbn [obind].
    rewrite (modify_eq _ p _ (mkO false (back (children s p)) (prv p) [])) by (unfold hset; destruct (Nat.eqb_spec p b); [congruence|exact Ep]).
    cbn [obind]. eexists. split; [reflexivity|]. split; [discriminate|]. split; [reflexivity|].
    rewrite <- El. apply (Fin false (children s p)); [rewrite (live_some s p Hp), Ek; reflexivity|]. intros x. unfold hset.
    destruct (Nat.eqb_spec x p); [|destruct (Nat.eqb_spec x b); [|reflexivity]].
    + rewrite El. simpl. rewrite Nat.eqb_refl. reflexivity.
    + rewrite Hprv. reflexivity.
Qed.

Definition R h s := exists prv, H h s prv /\ I s prv.
Lemma R_ext h s s' : (forall x, s x = s' x) -> R h s -> R h s'.
Proof.
  intros E (prv & Hh & HI). exists prv. split.
  - intros x. rewrite Hh. unfold cell. rewrite E. reflexivity.
  - assert (C : forall y, children s' y = children s y) by (intros; unfold children; rewrite E; reflexivity).
    split; intros *; unfold live; rewrite ?C, <- ?E; try apply HI. unfold is_branch. rewrite <- E. apply HI.
Qed.

Lemma remove_ok h s a nx : R h s -> live s a ->
  exists h', remove_next h a nx = Ok (h', match nx with Some b => snd (s_remove s a b) | None => (-1)%Z end) /\
             R h' (match nx with Some b => fst (s_remove s a b) | None => s end).
Proof.
  intros (prv & Hh & HI) Ha. assert (Ea := H_live h s prv a Hh Ha). destruct nx as [b|].
  2:{ exists h. split; [|exists prv; split; assumption]. unfold remove_next. rewrite (deref_eq _ _ _ Ea). cbn [obind o_branch].
      destruct (is_branch s a); unfold branch_remove, base_remove; rewrite (deref_eq _ _ _ Ea); reflexivity. }
  unfold s_remove. destruct (mem b (children s a)) eqn:Em; cbn [fst snd].
  - apply mem_In in Em. assert (Hab : a <> b) by (intros ->; apply (i_self _ _ HI b Em)).
    destruct (rm_eff h s prv a b Hh Em (i_nd _ _ HI a) Hab (i_live _ _ HI _ _ Em) (proj2 (i_prv _ _ HI b a) Em) (i_one _ _ HI a)) as (h' & E & _ & _ & Hh').
    exists h'. split; [exact E|]. exists ((setp prv b None)). split; [exact Hh'|]. assert (X := I_remove s prv a b HI Ha). apply mem_In in Em. rewrite Em in X. exact X.
  - apply mem_false in Em. exists h. split; [|exists prv; split; assumption]. unfold remove_next. rewrite (deref_eq _ _ _ Ea). cbn [obind o_branch].
    destruct (is_branch s a) eqn:Ek.
    + unfold branch_remove. rewrite (deref_eq _ _ _ Ea). cbn [obind o_nexts]. destruct (Nat.eqb b a); [reflexivity|]. rewrite find_pos_none by exact Em. reflexivity.
    + unfold base_remove. rewrite (deref_eq _ _ _ Ea). cbn [obind o_next]. destruct (same (back (children s a)) b) eqn:Es; [exfalso|reflexivity].
      destruct (back (children s a)) as [x|] eqn:Eb; [|discriminate]. cbn [same] in Es. apply Nat.eqb_eq in Es. subst x. apply Em, back_In, Eb.
Qed.

(* ------------------------------------------------------------ AddNext *)
Lemma H_ext h s s' prv prv' : (forall x, s x = s' x) -> (forall x, live s x -> prv x = prv' x) -> H h s prv -> H h s' prv'.
Proof. intros Es Ep Hh x. rewrite Hh. unfold cell. rewrite <- Es. destruct (s x) as [[k l]|] eqn:E; [|reflexivity]. rewrite Ep; [reflexivity|]. unfold live. congruence. Qed.

(** the part of AddNext that takes the child from its old parent; [s1], [prv1] may differ from [s], [prv] at other children *)
Lemma take h s prv prv1 b : H h s prv1 -> I s prv -> live s b -> (forall p, prv1 b = Some p -> prv b = Some p) ->
  exists h', match o_prev (mkO (is_branch s b) (back (children s b)) (prv1 b) (if is_branch s b then children s b else [])) with
             | Some p => do r <- remove_next h p (Some b); Ok (fst r) | None => Ok h end = Ok h' /\
    H h' (match prv1 b with Some _ => detach s b | None => s end) ((setp prv1 b None)).
Proof.
  intros Hh HI Hb Hp. cbn [o_prev]. destruct (prv1 b) as [p|] eqn:E.
  - specialize (Hp p eq_refl). assert (Hin : In b (children s p)) by (apply (i_prv _ _ HI), Hp).
    assert (Hpb : p <> b) by (intros ->; apply (i_self _ _ HI b Hin)).
    destruct (rm_eff h s prv1 p b Hh Hin (i_nd _ _ HI p) Hpb Hb E (i_one _ _ HI p)) as (h' & Er & _ & _ & Hh').
    rewrite Er. cbn [obind fst]. exists h'. split; [reflexivity|]. apply (H_ext h' _ _ _ _ (fun x => eq_sym (detach_some s prv b p HI Hp x)) (fun _ _ => eq_refl) Hh').
  - exists h. split; [reflexivity|]. apply (H_ext h s s prv1); auto. intros x _. destruct (Nat.eqb_spec x b) as [->|]; [exact E|reflexivity].
Qed.

Lemma base_add_ok h s prv a b : H h s prv -> I s prv -> live s a -> live s b -> a <> b -> length (children s a) <= 1 -> is_branch s a = false \/ children s a = [] ->
  exists h', base_add h a (Some b) = Ok (h', true) /\
    forall x, h' x = if Nat.eqb x a then Some (mkO (is_branch s a) (Some b) (add_prv s prv a b a) []) else cell (detach s b) (add_prv s prv a b) x.
Proof.
  intros Hh HI Ha Hb Hab Hone Hk. assert (Ea := H_live h s prv a Hh Ha). assert (Eb := H_live h s prv b Hh Hb).
  unfold base_add. rewrite (deref_eq _ _ _ Ea). cbn [obind o_next]. destruct (Nat.eqb_spec b a); [congruence|].
  (* clearing the old child's back link *)
  set (prv1 := fun x => if mem x (children s a) then None else prv x).
  assert (St1 : exists h1, match back (children s a) with
       | Some c => do oc <- deref h c; if same (o_prev oc) a then modify h c (fun o => set_prev o None) else Ok h
       | None => Ok h end = Ok h1 /\ H h1 s prv1).
  { destruct (back (children s a)) as [c|] eqn:Ec.
    - assert (Hc := back_In _ _ Ec). assert (El := one_list _ _ Hone Hc). assert (Hlc := i_live _ _ HI _ _ Hc).
      assert (Eoc := H_live h s prv c Hh Hlc). rewrite (deref_eq _ _ _ Eoc). cbn [obind o_prev].
      assert (Hpc : prv c = Some a) by (apply (i_prv _ _ HI), Hc). rewrite Hpc, same_refl. rewrite (modify_eq _ _ _ _ Eoc). eexists. split; [reflexivity|].
      intros x. unfold hset, cell, prv1. destruct (Nat.eqb_spec x c) as [->|Hxc].
      + rewrite (live_some s c Hlc). apply mem_In in Hc. rewrite Hc. reflexivity.
      + rewrite Hh. unfold cell. destruct (s x) as [[k l]|]; [|reflexivity]. rewrite El. simpl. destruct (Nat.eqb_spec x c); [congruence|reflexivity].
    - exists h. split; [reflexivity|]. apply (H_ext h s s prv); auto. intros x _. unfold prv1. rewrite (back_nil_inv _ Ec). reflexivity. }
  destruct St1 as (h1 & E1 & Hh1). rewrite E1. cbn [obind].
  assert (Eb1 := H_live h1 s prv1 b Hh1 Hb). rewrite (deref_eq _ _ _ Eb1). cbn [obind].
  destruct (take h1 s prv prv1 b Hh1 HI Hb) as (h2 & E2 & Hh2).
  { intros p. unfold prv1. destruct (mem b (children s a)); [discriminate|auto]. }
  assert (Hneq : forall p, prv1 b = Some p -> Nat.eqb p a = false).
  { intros p. unfold prv1. destruct (mem b (children s a)) eqn:Em; [discriminate|]. intros Hp. apply Nat.eqb_neq. intros ->.
    apply (i_prv _ _ HI) in Hp. apply mem_false in Em. contradiction. }
  cbn [o_prev] in *. 
  replace (match prv1 b with Some p => if Nat.eqb p a then Ok h1 else do r <- remove_next h1 p (Some b); Ok (fst r) | None => Ok h1 end) with (Ok h2).
  2:{ rewrite <- E2. destruct (prv1 b) as [p|] eqn:Ep; [|reflexivity]. rewrite (Hneq p eq_refl). reflexivity. }
  cbn [obind]. set (s2 := match prv1 b with Some _ => detach s b | None => s end) in *.
  assert (B2 : forall x, is_branch s2 x = is_branch s x) by (intros; unfold s2; destruct (prv1 b); [apply branch_detach|reflexivity]).
  assert (L2 : forall x, live s x -> live s2 x) by (intros x Hx; unfold s2; destruct (prv1 b); [apply live_detach|]; exact Hx).
  assert (Ea2 := H_live h2 s2 _ a Hh2 (L2 a Ha)). rewrite (modify_eq _ _ _ _ Ea2). cbn [obind].
  assert (Eb2 := H_live h2 s2 _ b Hh2 (L2 b Hb)).
  rewrite (modify_eq _ b _ (mkO (is_branch s2 b) (back (children s2 b)) None (if is_branch s2 b then children s2 b else []))).
  2:{ unfold hset. destruct (Nat.eqb_spec b a); [congruence|]. rewrite Eb2, Nat.eqb_refl. reflexivity. }
  cbn [obind]. eexists. split; [reflexivity|]. intros x. unfold hset, set_next, set_prev. cbn [o_branch o_next o_prev o_nexts].
  assert (Pr : forall y, y <> b -> prv1 y = add_prv s prv a b y).
  { intros y Hy. unfold prv1, add_prv. destruct (Nat.eqb_spec y b); [congruence|]. destruct Hk as [Hk|Hk]; [rewrite Hk; reflexivity|rewrite Hk; simpl; rewrite andb_false_r; reflexivity]. }
  (* outside a, s2 is detach s b *)
  assert (S2 : forall y, y <> a -> s2 y = detach s b y).
  { intros y Hy. unfold s2. destruct (prv1 b) eqn:Ep; [reflexivity|]. unfold prv1 in Ep. destruct (mem b (children s a)) eqn:Em.
    - apply mem_In in Em. rewrite (detach_some s prv b a HI); [|apply (i_prv _ _ HI), Em]. unfold put. destruct (Nat.eqb_spec y a); [congruence|reflexivity].
    - symmetry. apply (detach_none s prv b HI Ep). }
  destruct (Nat.eqb_spec x b) as [->|Hxb].
  - destruct (Nat.eqb_spec b a); [congruence|]. unfold cell. rewrite <- S2 by congruence. rewrite (live_some s2 b (L2 b Hb)). unfold add_prv. rewrite Nat.eqb_refl. reflexivity.
  - destruct (Nat.eqb_spec x a) as [->|Hxa].
    + destruct (Nat.eqb_spec a b); [congruence|]. rewrite Pr by congruence. rewrite B2. f_equal. f_equal. destruct (is_branch s a) eqn:Eka; [|reflexivity]. destruct Hk as [Hk|Hk]; [congruence|].
      unfold s2. destruct (prv1 b); [rewrite children_detach, Hk; reflexivity|exact Hk].
    + rewrite Hh2. unfold cell. rewrite S2 by exact Hxa. destruct (detach s b x) as [[k l]|]; [|reflexivity]. destruct (Nat.eqb_spec x b); [congruence|]. rewrite Pr by exact Hxb. reflexivity.
Qed.

Lemma add_ok h s a nx : R h s -> live s a -> match nx with Some b => live s b | None => True end ->
  exists h', add_next h a nx = Ok (h', match nx with Some b => snd (s_add s a b) | None => false end) /\
             R h' (match nx with Some b => fst (s_add s a b) | None => s end).
Proof.
  intros (prv & Hh & HI) Ha Hb. assert (Ea := H_live h s prv a Hh Ha).
  assert (Triv : forall z : bool, add_next h a nx = Ok (h, z) -> exists h', add_next h a nx = Ok (h', z) /\ R h' s) by (intros z E; exists h; split; [exact E|exists prv; split; assumption]).
  unfold add_next in *. rewrite (deref_eq _ _ _ Ea) in *. cbn [obind o_branch] in *. destruct nx as [b|].
  2:{ apply Triv. destruct (is_branch s a); unfold branch_add, base_add; rewrite (deref_eq _ _ _ Ea); reflexivity. }
  unfold s_add. destruct (Nat.eqb_spec a b) as [<-|Hab].
  { cbn [fst snd]. apply Triv. destruct (is_branch s a); unfold branch_add, base_add; rewrite (deref_eq _ _ _ Ea); cbn [obind]; rewrite Nat.eqb_refl; reflexivity. }
  destruct (is_branch s a) eqn:Ek.
  - destruct (mem b (children s a)) eqn:Em; cbn [fst snd].
    { apply Triv. unfold branch_add. rewrite (deref_eq _ _ _ Ea). cbn [obind o_nexts]. destruct (Nat.eqb_spec b a); [congruence|].
      replace (existsb (fun x => Nat.eqb x b) (children s a)) with true; [reflexivity|]. symmetry. apply existsb_exists. exists b. split; [apply mem_In, Em|apply Nat.eqb_refl]. }
    unfold branch_add. rewrite (deref_eq _ _ _ Ea). cbn [obind o_nexts]. destruct (Nat.eqb_spec b a); [congruence|].
    apply mem_false in Em. replace (existsb (fun x => Nat.eqb x b) (children s a)) with false.
    2:{ symmetry. destruct (existsb _ _) eqn:Ex; [exfalso|reflexivity]. apply existsb_exists in Ex. destruct Ex as (x & Hx & E). apply Nat.eqb_eq in E. subst. contradiction. }
    assert (Eb := H_live h s prv b Hh Hb). rewrite (deref_eq _ _ _ Eb). cbn [obind].
    destruct (take h s prv prv b Hh HI Hb (fun _ X => X)) as (h1 & E1 & Hh1). rewrite E1. cbn [obind].
    assert (Hh1' : H h1 (detach s b) ((setp prv b None))).
    { refine (H_ext _ _ _ _ _ _ (fun _ _ => eq_refl) Hh1). intros x. destruct (prv b) eqn:Ep; [reflexivity|]. symmetry. apply (detach_none s prv b HI Ep). }
    clear Hh1. assert (Ea1 := H_live h1 _ _ a Hh1' (proj2 (live_detach s b a) Ha)). assert (Eb1 := H_live h1 _ _ b Hh1' (proj2 (live_detach s b b) Hb)).
    rewrite branch_detach, Ek, children_detach, without_id in Ea1 by exact Em.
    rewrite (modify_eq _ _ _ _ Ea1). cbn [obind].
    erewrite (modify_eq _ b) by (unfold hset; destruct (Nat.eqb_spec b a); [congruence|exact Eb1]). cbn [obind].
    erewrite (modify_eq _ a) by (unfold hset; destruct (Nat.eqb_spec a b); [congruence|rewrite Nat.eqb_refl; reflexivity]). cbn [obind].
    eexists. split; [reflexivity|]. exists (add_prv s prv a b). split.
    + intros x. unfold hset, set_next, set_prev, set_nexts. cbn [o_branch o_next o_prev o_nexts]. unfold cell, put.
      assert (Pr : forall y, y <> b -> prv y = add_prv s prv a b y).
      { intros y Hy. unfold add_prv. destruct (Nat.eqb_spec y b); [congruence|]. rewrite Ek. reflexivity. }
      destruct (Nat.eqb_spec x a) as [->|Hxa].
      * destruct (Nat.eqb_spec a b); [congruence|]. rewrite back_app, Pr by congruence. reflexivity.
      * destruct (Nat.eqb_spec x b) as [->|Hxb].
        -- rewrite (live_some _ b (proj2 (live_detach s b b) Hb)). unfold add_prv. rewrite Nat.eqb_refl. reflexivity.
        -- rewrite Hh1'. unfold cell. destruct (detach s b x) as [[k l]|]; [|reflexivity]. destruct (Nat.eqb_spec x b); [congruence|]. rewrite Pr by congruence. reflexivity.
    + assert (X := I_add s prv a b HI Ha Hb Hab (fun _ => Em)). rewrite Ek in X. unfold add_list in X. rewrite Ek in X. exact X.
  - cbn [fst snd]. destruct (base_add_ok h s prv a b Hh HI Ha Hb Hab (i_one _ _ HI a Ek) (or_introl Ek)) as (h' & E & Hh'). exists h'. split; [exact E|].
    exists (add_prv s prv a b). split.
    + intros x. rewrite Hh'. rewrite Ek. unfold cell, put. destruct (Nat.eqb_spec x a) as [->|]; reflexivity.
    + assert (X := I_add s prv a b HI Ha Hb Hab). rewrite Ek in X. unfold add_list in X. rewrite Ek in X. apply X. discriminate.
Qed.

(* ------------------------------------------------------------ Disconnect *)
(** removing from the parent, if any *)
Lemma off_parent h s prv a : H h s prv -> I s prv -> live s a ->
  exists h', match prv a with Some p => do r <- remove_next h p (Some a); Ok (fst r) | None => Ok h end = Ok h' /\ H h' (detach s a) ((setp prv a None)) /\ I (detach s a) ((setp prv a None)).
Proof.
  intros Hh HI Ha. destruct (take h s prv prv a Hh HI Ha (fun _ X => X)) as (h' & E & Hh'). cbn [o_prev] in E. exists h'. split; [exact E|].
  assert (Es : forall x, (match prv a with Some _ => detach s a | None => s end) x = detach s a x).
  { intros x. destruct (prv a) eqn:Ep; [reflexivity|]. symmetry. apply (detach_none s prv a HI Ep). }
  split; [apply (H_ext _ _ _ _ _ Es (fun _ _ => eq_refl) Hh')|].
  split.
  - intros x y. rewrite children_detach, in_without. destruct (Nat.eqb_spec x a) as [->|]; [split; [discriminate|tauto]|]. rewrite (i_prv _ _ HI). tauto.
  - intros y. rewrite children_detach. apply NoDup_filter, (i_nd _ _ HI).
  - intros y. rewrite children_detach, in_without. intros [X _]. apply (i_self _ _ HI _ X).
  - intros x y. rewrite children_detach, in_without. intros [X _]. apply live_detach, (i_live _ _ HI _ _ X).
  - intros y. rewrite children_detach, branch_detach. intros X. assert (Y := i_one _ _ HI y X). transitivity (length (children s y)); [|exact Y]. apply without_length.
Qed.

Definition clear_prv (s : forest) (prv : nat -> option nat) (a : nat) : nat -> option nat := fun x => if mem x (children s a) then None else prv x.
Lemma branch_clear_ok a : forall fuel h s prv, H h s prv -> I s prv -> live s a -> is_branch s a = true -> length (children s a) <= fuel ->
  exists h', branch_clear fuel h a = Ok h' /\ H h' (put s a (Some (true, []))) (clear_prv s prv a) /\ I (put s a (Some (true, []))) (clear_prv s prv a).
Proof.
  induction fuel as [|fuel IH]; intros h s prv Hh HI Ha Hk Hf; cbn [branch_clear];
    assert (Ea := H_live h s prv a Hh Ha); rewrite Hk in Ea; rewrite (deref_eq _ _ _ Ea); cbn [obind o_nexts];
    destruct (children s a) as [|c l] eqn:El; try (simpl in Hf; lia).
  1,2: exists h; split; [reflexivity|]; assert (X : forall x, s x = put s a (Some (true, [])) x) by
     (intros x; unfold put; destruct (Nat.eqb_spec x a) as [->|]; [rewrite (live_some s a Ha), Hk, El; reflexivity|reflexivity]);
     assert (Y : forall x, prv x = clear_prv s prv a x) by (intros x; unfold clear_prv; rewrite El; reflexivity);
     split; [apply (H_ext _ _ _ _ _ X (fun x _ => Y x) Hh)|];
     split; intros; rewrite <- ?Y; unfold children, live, is_branch in *; rewrite <- ?X in *; try (apply HI; assumption); [apply (i_live _ _ HI x y H0)].
  assert (Hc : In c (children s a)) by (rewrite El; left; reflexivity).
  assert (Hac : a <> c) by (intros ->; apply (i_self _ _ HI c Hc)).
  destruct (rm_eff h s prv a c Hh Hc (i_nd _ _ HI a) Hac (i_live _ _ HI _ _ Hc) (proj2 (i_prv _ _ HI c a) Hc)) as (h1 & E & Eb & _ & Hh1); [congruence|].
  rewrite (Eb Hk), E. cbn [obind fst]. assert (I1 := I_remove s prv a c HI Ha). assert (Em := proj2 (mem_In c (children s a)) Hc). rewrite Em in I1.
  rewrite Hk in *. set (s1 := put s a (Some (true, without c (children s a)))) in *.
  destruct (IH h1 s1 ((setp prv c None)) Hh1 I1) as (h' & E' & Hh' & I').
  - unfold live, s1, put. rewrite Nat.eqb_refl. discriminate.
  - unfold s1. rewrite branch_put, Nat.eqb_refl. reflexivity.
  - unfold s1. rewrite children_put, Nat.eqb_refl, El. assert (N := i_nd _ _ HI a). rewrite El in N. inversion N; subst.
    simpl. rewrite Nat.eqb_refl. simpl. rewrite without_id by assumption. simpl in Hf. lia.
  - exists h'. split; [exact E'|].
    assert (X : forall x, put s1 a (Some (true, [])) x = put s a (Some (true, [])) x) by (intros x; unfold s1, put; destruct (Nat.eqb x a); reflexivity).
    assert (Y : forall x, clear_prv s1 ((setp prv c None)) a x = clear_prv s prv a x).
    { intros x. unfold clear_prv, s1. cbv beta. rewrite children_put, Nat.eqb_refl. destruct (Nat.eqb_spec x c) as [->|Hxc]; [rewrite (proj2 (mem_In c (children s a)) Hc); destruct (mem c (without c (children s a))); reflexivity|].
      replace (mem x (without c (children s a))) with (mem x (children s a)); [reflexivity|]. destruct (mem x (children s a)) eqn:Ex; symmetry.
      - apply mem_In. apply in_without. split; [apply mem_In, Ex|exact Hxc].
      - apply mem_false. intros Z. apply in_without in Z. apply mem_false in Ex. apply Ex, Z. }
    split; [apply (H_ext _ _ _ _ _ X (fun x _ => Y x) Hh')|].
    split; intros; rewrite <- ?Y; unfold children, live, is_branch in *; rewrite <- ?X in *; try (apply I'; assumption); [apply (i_live _ _ I' x y H0)].
Qed.

Lemma branch_disconnect_ok h s prv a : H h s prv -> I s prv -> live s a -> is_branch s a = true ->
  exists h', branch_disconnect h a = Ok h' /\ H h' (s_disconnect s a) (disc_prv s prv a).
Proof.
  intros Hh HI Ha Hk. assert (Ea := H_live h s prv a Hh Ha). unfold branch_disconnect. rewrite (deref_eq _ _ _ Ea), Hk. cbn [obind o_nexts].
  destruct (branch_clear_ok a (length (children s a)) h s prv Hh HI Ha Hk (le_n _)) as (h1 & E & Hh1 & I1). rewrite E. cbn [obind].
  set (s1 := put s a (Some (true, []))) in *. assert (La : live s1 a) by (unfold live, s1, put; rewrite Nat.eqb_refl; discriminate).
  assert (Ea1 := H_live h1 s1 _ a Hh1 La). rewrite (deref_eq _ _ _ Ea1). cbn [obind o_prev].
  destruct (off_parent h1 s1 _ a Hh1 I1 La) as (h2 & E2 & Hh2 & _). rewrite E2. exists h2. split; [reflexivity|].
  refine (H_ext _ _ _ _ _ _ _ Hh2).
  - intros x. unfold s_disconnect, s1, detach, put. destruct (Nat.eqb x a); [rewrite Hk|]; reflexivity.
  - intros x _. unfold clear_prv, disc_prv. reflexivity.
Qed.

Lemma base_disconnect_ok rm h s prv a : H h s prv -> I s prv -> live s a ->
  (is_branch s a = false /\ (forall h b, base_remove h a b = rm h a b \/ remove_next h a b = rm h a b)) \/ children s a = [] ->
  exists h', base_disconnect rm h a = Ok h' /\ H h' (s_disconnect s a) (disc_prv s prv a).
Proof.
  intros Hh HI Ha Hk. assert (Ea := H_live h s prv a Hh Ha). unfold base_disconnect. rewrite (deref_eq _ _ _ Ea). cbn [obind o_prev].
  destruct (off_parent h s prv a Hh HI Ha) as (h1 & E1 & Hh1 & I1). rewrite E1. cbn [obind].
  assert (La := proj2 (live_detach s a a) Ha). assert (Ea1 := H_live h1 _ _ a Hh1 La). rewrite (deref_eq _ _ _ Ea1). cbn [obind o_next].
  assert (Ch : children (detach s a) a = children s a) by (rewrite children_detach; apply without_id, (i_self _ _ HI)).
  assert (Final : forall h' prv', H h' (put (detach s a) a (Some (is_branch s a, []))) prv' -> (forall x, prv' x = disc_prv s prv a x) -> H h' (s_disconnect s a) (disc_prv s prv a)).
  { intros h' prv' Hh' Y. apply (H_ext _ _ _ _ _ (fun _ => eq_refl) (fun x _ => Y x) Hh'). }
  rewrite Ch. destruct (back (children s a)) as [c|] eqn:Eb.
  - destruct Hk as [[Hk Hrm]|Hk]; [|rewrite Hk in Eb; discriminate].
    assert (Hc : In c (children s a)) by (apply back_In, Eb). assert (Hc1 : In c (children (detach s a) a)) by (rewrite Ch; exact Hc).
    assert (Hac : a <> c) by (intros ->; apply (i_self _ _ HI c Hc)).
    assert (El := one_list _ _ (i_one _ _ HI a Hk) Hc).
    destruct (rm_eff h1 _ _ a c Hh1 Hc1 (i_nd _ _ I1 a) Hac (i_live _ _ I1 _ _ Hc1) (proj2 (i_prv _ _ I1 c a) Hc1) (i_one _ _ I1 a)) as (h2 & E2 & _ & Ebr & Hh2).
    rewrite branch_detach in *. assert (X : rm h1 a (Some c) = remove_next h1 a (Some c)).
    { destruct (Hrm h1 (Some c)) as [Y|Y]; rewrite <- Y; [apply Ebr, Hk|reflexivity]. }
    rewrite X, E2. cbn [obind fst]. exists h2. split; [reflexivity|]. rewrite Ch, El in Hh2. simpl in Hh2. rewrite Nat.eqb_refl in Hh2. simpl in Hh2.
    eapply Final; [exact Hh2|]. intros x. unfold disc_prv. rewrite El. simpl. destruct (Nat.eqb_spec x c) as [->|]; [destruct (Nat.eqb c a); reflexivity|reflexivity].
  - assert (En := back_nil_inv _ Eb). exists h1. split; [reflexivity|]. eapply Final.
    + refine (H_ext _ _ _ _ _ _ (fun _ _ => eq_refl) Hh1). intros x. unfold put. destruct (Nat.eqb_spec x a) as [->|]; [|reflexivity].
      rewrite (live_some _ a La), branch_detach, Ch, En. reflexivity.
    + intros x. unfold disc_prv. rewrite En. reflexivity.
Qed.

Lemma disconnect_ok h s a : R h s -> live s a -> exists h', disconnect h a = Ok h' /\ R h' (s_disconnect s a).
Proof.
  intros (prv & Hh & HI) Ha. assert (Ea := H_live h s prv a Hh Ha). unfold disconnect. rewrite (deref_eq _ _ _ Ea). cbn [obind o_branch]. destruct (is_branch s a) eqn:Ek.
  - destruct (branch_disconnect_ok h s prv a Hh HI Ha Ek) as (h' & E & Hh'). exists h'. split; [exact E|]. exists (disc_prv s prv a). split; [exact Hh'|apply I_disc; assumption].
  - destruct (base_disconnect_ok remove_next h s prv a Hh HI Ha (or_introl (conj Ek (fun h b => or_intror eq_refl)))) as (h' & E & Hh').
    exists h'. split; [exact E|]. exists (disc_prv s prv a). split; [exact Hh'|apply I_disc; assumption].
Qed.

Lemma destroy_ok h s a : R h s -> live s a -> exists h', destroy h a = Ok h' /\ R h' (put (s_disconnect s a) a None).
Proof.
  intros (prv & Hh & HI) Ha. assert (Ea := H_live h s prv a Hh Ha). unfold destroy. rewrite (deref_eq _ _ _ Ea). cbn [obind o_branch].
  assert (Fin : forall h2 p2, H h2 (s_disconnect s a) p2 -> I (s_disconnect s a) p2 -> R (hset h2 a None) (put (s_disconnect s a) a None)).
  { intros h2 p2 Hh2 I2. exists p2. split.
    - intros x. unfold hset, cell, put. destruct (Nat.eqb_spec x a) as [->|]; [reflexivity|]. rewrite Hh2. reflexivity.
    - assert (C : forall y, children (put (s_disconnect s a) a None) y = children (s_disconnect s a) y).
      { intros y. unfold children, put. destruct (Nat.eqb_spec y a) as [->|]; [|reflexivity]. unfold s_disconnect, put. rewrite Nat.eqb_refl. reflexivity. }
      split; intros *; rewrite ?C; try apply I2.
      + intros X. unfold live, put. destruct (Nat.eqb_spec x a) as [->|]; [|apply (i_live _ _ I2 _ _ X)]. exfalso.
        unfold s_disconnect in X. rewrite children_put, children_detach in X. destruct (Nat.eqb y a); [destruct X|]. apply in_without in X. destruct X. congruence.
      + unfold is_branch, put. destruct (Nat.eqb_spec y a) as [->|]; [|apply (i_one _ _ I2 y)]. intros _. unfold s_disconnect. rewrite children_put, Nat.eqb_refl. simpl. lia. }
  assert (Id := I_disc s prv a HI Ha).
  destruct (is_branch s a) eqn:Ek.
  - destruct (branch_disconnect_ok h s prv a Hh HI Ha Ek) as (h1 & E1 & Hh1). rewrite E1. cbn [obind].
    assert (La : live (s_disconnect s a) a) by (unfold live, s_disconnect, put; rewrite Nat.eqb_refl; discriminate).
    assert (C0 : children (s_disconnect s a) a = []) by (unfold s_disconnect; rewrite children_put, Nat.eqb_refl; reflexivity).
    destruct (base_disconnect_ok base_remove h1 _ _ a Hh1 Id La (or_intror C0)) as (h2 & E2 & Hh2). rewrite E2. cbn [obind]. eexists. split; [reflexivity|].
    apply (Fin h2 (disc_prv (s_disconnect s a) (disc_prv s prv a) a)).
    + refine (H_ext _ _ _ _ _ _ (fun _ _ => eq_refl) Hh2). intros x. unfold s_disconnect at 1, put, detach. destruct (Nat.eqb_spec x a) as [->|Hx].
      * unfold s_disconnect, put, is_branch. rewrite Nat.eqb_refl. reflexivity.
      * destruct (s_disconnect s a x) as [[k l]|] eqn:E; [|reflexivity]. rewrite without_id; [reflexivity|]. intros Hin.
        unfold s_disconnect, put, detach in E. destruct (Nat.eqb_spec x a); [congruence|]. destruct (s x) as [[k' l']|]; [|discriminate]. inversion E; subst. apply in_without in Hin. destruct Hin; congruence.
    + assert (X : forall x, disc_prv s prv a x = disc_prv (s_disconnect s a) (disc_prv s prv a) a x).
      { intros x. unfold disc_prv at 2. rewrite C0. simpl. destruct (Nat.eqb_spec x a) as [->|]; [unfold disc_prv; rewrite Nat.eqb_refl; reflexivity|reflexivity]. }
      split; intros; rewrite <- ?X; try apply Id; try assumption. apply (i_live _ _ Id _ _ H0).
  - cbn [obind]. destruct (base_disconnect_ok base_remove h s prv a Hh HI Ha (or_introl (conj Ek (fun h b => or_introl eq_refl)))) as (h' & E & Hh').
    rewrite E. cbn [obind]. eexists. split; [reflexivity|]. apply (Fin h' _ Hh' Id).
Qed.

Lemma construct_ok h s x k p c : R h s -> ~ live s x -> match p with Some p => live s p | None => True end -> match c with Some c => live s c | None => True end ->
  exists h', construct h x k p c = Ok h' /\ R h' (fst (s_step s (New x k p c))).
Proof.
  intros (prv & Hh & HI) Hx Hp Hc. unfold construct. cbn [s_step fst].
  assert (Sx : s x = None) by (unfold live in Hx; destruct (s x); [exfalso; apply Hx; discriminate|reflexivity]).
  assert (Cx : children s x = []) by (unfold children; rewrite Sx; reflexivity).
  assert (Nx : forall y, ~ In x (children s y)) by (intros y Hy; apply (Hx (i_live _ _ HI _ _ Hy))).
  assert (R0 : R (hset h x (Some (mkO k None None []))) (put s x (Some (k, [])))).
  { exists ((setp prv x None)). split.
    - intros y. unfold hset, cell, put. destruct (Nat.eqb_spec y x) as [->|Hyx]; [destruct k; reflexivity|]. rewrite Hh. unfold cell.
      destruct (s y) as [[k' l]|]; [|reflexivity]. destruct (Nat.eqb_spec y x); [congruence|reflexivity].
    - split.
      + intros y z. rewrite children_put. destruct (Nat.eqb_spec y x) as [->|].
        * split; [discriminate|]. destruct (Nat.eqb z x); [intros []|]. intros X. exfalso. apply (Nx z X).
        * rewrite (i_prv _ _ HI). destruct (Nat.eqb_spec z x) as [->|]; [rewrite Cx|]; reflexivity.
      + intros y. rewrite children_put. destruct (Nat.eqb y x); [constructor|apply (i_nd _ _ HI)].
      + intros y. rewrite children_put. destruct (Nat.eqb y x); [intros []|apply (i_self _ _ HI)].
      + intros y z. rewrite children_put. destruct (Nat.eqb z x); [intros []|]. intros X. apply live_put, (i_live _ _ HI _ _ X).
      + intros y. rewrite children_put, branch_put. destruct (Nat.eqb y x); [simpl; lia|apply (i_one _ _ HI)]. }
  set (h0 := hset h x (Some (mkO k None None []))) in *. set (s0 := put s x (Some (k, []))) in *.
  assert (Lx : live s0 x) by (unfold live, s0, put; rewrite Nat.eqb_refl; discriminate).
  assert (L0 : forall y, live s y -> live s0 y) by (intros y Hy; apply live_put, Hy).
  assert (St : exists h1, match p with Some p => do r <- add_next h0 p (Some x); Ok (fst r) | None => Ok h0 end = Ok h1 /\ R h1 (match p with Some p => fst (s_add s0 p x) | None => s0 end)).
  { destruct p as [p|]; [|exists h0; split; [reflexivity|exact R0]]. destruct (add_ok h0 s0 p (Some x) R0 (L0 p Hp) Lx) as (h1 & E & R1). rewrite E. exists h1. split; [reflexivity|exact R1]. }
  destruct St as (h1 & E1 & R1). rewrite E1. cbn [obind]. set (s1 := match p with Some p => fst (s_add s0 p x) | None => s0 end) in *.
  assert (A : s1 x = Some (k, []) /\ forall y, live s0 y -> live s1 y).
  { unfold s1. destruct p as [p|]; [|split; [unfold s0, put; rewrite Nat.eqb_refl; reflexivity|auto]].
    assert (Hpx : p <> x) by (intros ->; contradiction). unfold s_add. destruct (Nat.eqb_spec p x); [congruence|].
    assert (Z : forall kk ll, put (detach s0 x) p (Some (kk, ll)) x = Some (k, []) /\ forall y, live s0 y -> live (put (detach s0 x) p (Some (kk, ll))) y).
    { intros kk ll. split; [unfold put at 1; destruct (Nat.eqb_spec x p); [congruence|]; unfold detach, s0, put; rewrite Nat.eqb_refl; reflexivity|].
      intros y Hy. apply live_put, live_detach, Hy. }
    destruct (is_branch s0 p); [|apply Z]. destruct (mem x (children s0 p)); [cbn [fst]; split; [unfold s0, put; rewrite Nat.eqb_refl; reflexivity|auto]|apply Z]. }
  destruct A as [A1 A2]. destruct c as [c|].
  2:{ exists h1. split; [destruct k; reflexivity|exact R1]. }
  assert (Hxc : x <> c) by (intros ->; contradiction).
  destruct R1 as (p1 & H1 & I1). assert (B1 : is_branch s1 x = k) by (unfold is_branch; rewrite A1; reflexivity). assert (C1 : children s1 x = []) by (unfold children; rewrite A1; reflexivity).
  destruct (base_add_ok h1 s1 p1 x c H1 I1 (A2 x Lx) (A2 c (L0 c Hc)) Hxc) as (h2 & E2 & Hh2); [rewrite C1; simpl; lia|right; exact C1|].
  rewrite E2. cbn [obind fst]. assert (X := I_add s1 p1 x c I1 (A2 x Lx) (A2 c (L0 c Hc)) Hxc). rewrite C1, B1 in X. specialize (X (fun _ => fun z => z)).
  unfold s_add. destruct (Nat.eqb_spec x c); [congruence|]. rewrite B1, C1. unfold add_list in X. rewrite C1, B1 in X. cbn [app] in *. destruct k; cbn [mem existsb fst].
  - assert (Ex : h2 x = Some (mkO true (Some c) (add_prv s1 p1 x c x) [])) by (rewrite Hh2, Nat.eqb_refl, B1; reflexivity).
    rewrite (modify_eq _ _ _ _ Ex). eexists. split; [reflexivity|]. exists (add_prv s1 p1 x c). split; [|exact X].
    intros y. unfold hset, cell, put. destruct (Nat.eqb_spec y x) as [->|]; [reflexivity|]. rewrite Hh2. destruct (Nat.eqb_spec y x); [congruence|]. reflexivity.
  - eexists. split; [reflexivity|]. exists (add_prv s1 p1 x c). split; [|exact X].
    intros y. rewrite Hh2. unfold cell, put. destruct (Nat.eqb_spec y x) as [->|]; [rewrite B1|]; reflexivity.
Qed.

Lemma step_ok h s c : R h s -> allowed s c -> exists h', step h c = Ok (h', snd (s_step s c)) /\ R h' (fst (s_step s c)).
Proof.
  intros HR Ha. destruct c as [x k p n|a b|a b|a|a]; cbn [step allowed] in *.
  - destruct Ha as (H1 & H2 & H3). destruct (construct_ok h s x k p n HR H1 H2 H3) as (h' & E & R'). rewrite E. exists h'. split; [reflexivity|exact R'].
  - destruct Ha as (H1 & H2). destruct (add_ok h s a b HR H1 H2) as (h' & E & R'). rewrite E. exists h'. destruct b; (split; [reflexivity|exact R']).
  - destruct Ha as (H1 & H2). destruct (remove_ok h s a b HR H1) as (h' & E & R'). rewrite E. exists h'. destruct b; (split; [reflexivity|exact R']).
  - destruct (disconnect_ok h s a HR Ha) as (h' & E & R'). rewrite E. exists h'. split; [reflexivity|exact R'].
  - destruct (destroy_ok h s a HR Ha) as (h' & E & R'). rewrite E. exists h'. split; [reflexivity|exact R'].
Qed.
Lemma run_ok : forall cs h s, R h s -> all_allowed s cs -> exists h', run h cs = Ok (h', snd (s_run s cs)) /\ R h' (fst (s_run s cs)).
Proof.
  induction cs as [|c cs IH]; intros h s HR Ha; cbn [run s_run].
  - exists h. split; [reflexivity|exact HR].
  - destruct Ha as [H1 H2]. destruct (step_ok h s c HR H1) as (h1 & E & R1). rewrite E. cbn [obind fst snd].
    destruct (IH h1 _ R1 H2) as (h2 & E2 & R2). rewrite E2. cbn [obind fst snd]. exists h2. split; [reflexivity|exact R2].
Qed.
Lemma R_empty : R (fun _ => None) (fun _ => None).
Proof.
  exists (fun _ => None). split; [intros x; reflexivity|].
  split; [intros x y; split; [discriminate|intros []]|intros y; apply NoDup_nil|intros y []|intros x y []|intros y _; apply Nat.le_0_l].
Qed.
