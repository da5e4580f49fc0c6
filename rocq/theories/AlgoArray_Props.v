(** Properties C13, C14: CBAlgoArray::Bool and CPAlgoArray::Priority. *)
From Coq Require Import QArith Qcanon.
From Verif Require Import Base AlgoArray_Model.
Local Open Scope nat_scope.

(** the documented meaning: combine each answer with the result so far, left to right *)
Definition left_to_right (l : list (bool * bool)) : bool :=
  match l with
  | [] => true
  | (_, a) :: rest => fold_left (fun (s : bool) (x : bool * bool) => if fst x : bool then s && snd x else s || snd x) rest a
  end.

(** what it is instead: each answer is combined with the result of everything after it *)
Fixpoint right_to_left (a : bool) (rest : list (bool * bool)) : bool :=
  match rest with
  | [] => a
  | (ask_and, b) :: rest' => if ask_and then a && right_to_left b rest' else a || right_to_left b rest'
  end.

Lemma ba_make_app l a : fold_left (fun a x => ba_add a (fst x) (snd x)) l a =
  mkBA (ba_algos a ++ l) (fold_left (fun (o : option nat) (ix : nat * (bool * bool)) => if fst (snd ix) : bool then Some (fst ix) else o)
     (combine (seq (length (ba_algos a)) (length l)) l) (ba_last_and a)).
Proof.
  revert a. induction l as [|[k b] l IH]; intros a; simpl.
  - rewrite app_nil_r. destruct a; reflexivity.
  - rewrite IH. unfold ba_add. cbn [ba_algos ba_last_and]. rewrite <- app_assoc, app_length. simpl length.
    rewrite Nat.add_1_r. simpl. reflexivity.
Qed.

Definition last_and_of (l : list (bool * bool)) : option nat :=
  fold_left (fun (o : option nat) (ix : nat * (bool * bool)) => if fst (snd ix) : bool then Some (fst ix) else o) (combine (seq 0 (length l)) l) None.

Lemma ba_make_eq l : ba_make l = mkBA l (last_and_of l).
Proof. unfold ba_make. rewrite ba_make_app. reflexivity. Qed.

(** every AND position is not after the last AND position *)
Lemma last_and_max : forall l s o k b i, In (i, (true, b)) (combine (seq s (length l)) l) ->
  fold_left (fun (o : option nat) (ix : nat * (bool * bool)) => if fst (snd ix) : bool then Some (fst ix) else o) (combine (seq s (length l)) l) o = Some k -> i <= k.
Proof.
  induction l as [|[a c] l IH]; intros s o k b i Hin E; simpl in *; [destruct Hin|].
  assert (Mono : forall l s o k, fold_left (fun (o : option nat) (ix : nat * (bool * bool)) => if fst (snd ix) : bool then Some (fst ix) else o) (combine (seq s (length l)) l) o = Some k -> s <= k \/ o = Some k).
  { clear. induction l as [|[a c] l IH]; intros s o k E; simpl in *; [auto|].
    destruct (IH _ _ _ E) as [H|H]; [left; lia|]. destruct a; [inversion H; left; lia|auto]. }
  destruct Hin as [Ein|Hin].
  - inversion Ein; subst. apply Mono in E. destruct E as [E|E]; [lia|]. inversion E; lia.
  - eapply IH; eassumption.
Qed.

Lemma last_and_some : forall l s o b i, In (i, (true, b)) (combine (seq s (length l)) l) ->
  exists k, fold_left (fun (o : option nat) (ix : nat * (bool * bool)) => if fst (snd ix) : bool then Some (fst ix) else o) (combine (seq s (length l)) l) o = Some k.
Proof.
  assert (K : forall l s k, exists k', fold_left (fun (o : option nat) (ix : nat * (bool * bool)) => if fst (snd ix) : bool then Some (fst ix) else o) (combine (seq s (length l)) l) (Some k) = Some k').
  { induction l as [|[a c] l IH]; intros s k; simpl; [eauto|]. destruct a; apply IH. }
  induction l as [|[a c] l IH]; intros s o b i Hin; simpl in *; [destruct Hin|].
  destruct Hin as [E|Hin]; [inversion E; subst; apply K|]. eapply IH, Hin.
Qed.

Lemma nth_error_combine_seq {A} : forall (l : list A) s j x, nth_error l j = Some x ->
  nth_error (combine (seq s (length l)) l) j = Some (s + j, x).
Proof.
  induction l as [|y l IH]; intros s [|j] x H; simpl in *; try discriminate.
  - inversion H. rewrite Nat.add_0_r. reflexivity.
  - rewrite (IH (S s) j x H). do 2 f_equal. lia.
Qed.

Lemma loop_right last : forall l i status asked, 1 <= i ->
  (exists k, last = Some k /\ forall j a b, nth_error l j = Some (a, b) -> a = true -> i + j <= k) ->
  exists n, ba_loop last i l status asked = Ok (right_to_left status l, n).
Proof.
  induction l as [|[ask ans] l IH]; intros i status asked Hi (k & -> & Hk); simpl; [eauto|].
  destruct (Nat.eqb_spec i 0); [lia|].
  assert (IH' : forall st as', exists n, ba_loop (Some k) (S i) l st as' = Ok (right_to_left st l, n)).
  { intros st as'. apply IH; [lia|]. exists k. split; [reflexivity|]. intros j a b Hj Ha.
    specialize (Hk (S j) a b Hj Ha). lia. }
  destruct ask, status; simpl; try (eexists; reflexivity).
  - destruct (Nat.ltb_spec k i); simpl; [specialize (Hk 0 true ans eq_refl eq_refl); lia|]. apply IH'.
  - rewrite andb_false_r. apply IH'.
Qed.

(** C13, what Bool computes, for arrays in which some AddAlgo call asked for AND (the default) *)
Theorem bool_array_is_right_associated :
  forall a0 (rest : list (bool * bool)) first_and,
  (first_and = true \/ exists b, In (true, b) rest) ->
  exists n, ba_bool (ba_make ((first_and, a0) :: rest)) = Ok (right_to_left a0 rest, n).
Proof.
  intros a0 rest fa H. rewrite ba_make_eq. unfold ba_bool. cbn [ba_last_and ba_algos ba_loop Nat.eqb].
  apply loop_right; [lia|].
  assert (E : exists k, last_and_of ((fa, a0) :: rest) = Some k).
  { destruct H as [->|(b & Hb)].
    - eapply (last_and_some ((true, a0) :: rest) 0 None a0 0). left; reflexivity.
    - destruct (In_nth_error _ _ Hb) as (j & Hj).
      eapply (last_and_some ((fa, a0) :: rest) 0 None b (S j)). right.
      apply (nth_error_In _ j). apply (nth_error_combine_seq rest 1 j (true, b) Hj). }
  destruct E as (k & Ek). exists k. split; [exact Ek|]. intros j a b Hj ->.
  eapply (last_and_max ((fa, a0) :: rest) 0 None k b (S j)); [|exact Ek]. right.
  apply (nth_error_In _ j). apply (nth_error_combine_seq rest 1 j (true, b) Hj).
Qed.
Print Assumptions bool_array_is_right_associated.

Lemma left_abs_and : forall rest, (forall x, In x rest -> fst x = true) -> fold_left (fun (s : bool) (x : bool * bool) => if fst x : bool then s && snd x else s || snd x) rest false = false.
Proof. induction rest as [|[k b] r IH]; intros H; [reflexivity|]. simpl. assert (k = true) by apply (H (k, b) (or_introl eq_refl)). subst. apply IH. intros x Hx; apply H; right; exact Hx. Qed.
Lemma left_abs_or : forall rest, (forall x, In x rest -> fst x = false) -> fold_left (fun (s : bool) (x : bool * bool) => if fst x : bool then s && snd x else s || snd x) rest true = true.
Proof. induction rest as [|[k b] r IH]; intros H; [reflexivity|]. simpl. assert (k = false) by apply (H (k, b) (or_introl eq_refl)). subst. apply IH. intros x Hx; apply H; right; exact Hx. Qed.

Lemma homogeneous_agree : forall o rest a, (forall x, In x rest -> fst x = o) ->
  right_to_left a rest = fold_left (fun (s : bool) (x : bool * bool) => if fst x : bool then s && snd x else s || snd x) rest a.
Proof.
  induction rest as [|[k b] rest IH]; intros a H; [reflexivity|].
  assert (k = o) by apply (H (k, b) (or_introl eq_refl)). subst k.
  assert (H' : forall x, In x rest -> fst x = o) by (intros x Hx; apply H; right; exact Hx).
  simpl. rewrite (IH b H'). destruct o, a, b; simpl; try reflexivity;
    rewrite ?(left_abs_and rest H'), ?(left_abs_or rest H'); reflexivity.
Qed.

Lemma right_matches_left_iff_uniform :
  forall (ops : list bool),
  (forall a0 answers, length answers = length ops ->
     right_to_left a0 (combine ops answers) = left_to_right ((true, a0) :: combine ops answers))
  <-> (exists o, forall x, In x ops -> x = o).
Proof.
  intros ops. split.
  - intros H. destruct ops as [|o ops]; [exists true; intros x []|]. exists o.
    (* the first position that differs *)
    intros x [->|Hx]; [reflexivity|].
    destruct (bool_dec x o) as [|N]; [assumption|exfalso].
    assert (Hsplit : exists l1 l2, ops = l1 ++ negb o :: l2 /\ (forall y, In y l1 -> y = o)).
    { clear H. induction ops as [|y ops IH]; [destruct Hx|]. destruct (bool_dec y o) as [->|Ny].
      - destruct Hx as [->|Hx]; [congruence|]. destruct (IH Hx) as (l1 & l2 & E & F). exists (o :: l1), l2. rewrite E. split; [reflexivity|].
        intros z [<-|Hz]; auto.
      - exists [], ops. split; [f_equal; destruct y, o; simpl; congruence|intros z []]. }
    destruct Hsplit as (l1 & l2 & -> & F).
    specialize (H (negb o) (negb o :: repeat (negb o) (length l1) ++ o :: repeat o (length l2))).
    assert (HL : length (negb o :: repeat (negb o) (length l1) ++ o :: repeat o (length l2)) = length (o :: l1 ++ negb o :: l2)).
    { simpl. rewrite !app_length. simpl. rewrite !repeat_length. lia. }
    specialize (H HL).
    assert (Hr : right_to_left (negb o) (combine (o :: l1 ++ negb o :: l2) (negb o :: repeat (negb o) (length l1) ++ o :: repeat o (length l2))) = negb o).
    { simpl. destruct o; reflexivity. }
    rewrite Hr in H. unfold left_to_right in H.
    assert (Hl : fold_left (fun (s : bool) (x : bool * bool) => if fst x : bool then s && snd x else s || snd x)
       (combine (o :: l1 ++ negb o :: l2) (negb o :: repeat (negb o) (length l1) ++ o :: repeat o (length l2))) (negb o) = o).
    { assert (A : forall l1, (forall y, In y l1 -> y = o) -> forall rest ra,
        fold_left (fun (s : bool) (x : bool * bool) => if fst x : bool then s && snd x else s || snd x) (combine (l1 ++ rest) (repeat (negb o) (length l1) ++ ra)) (negb o)
        = fold_left (fun (s : bool) (x : bool * bool) => if fst x : bool then s && snd x else s || snd x) (combine rest ra) (negb o)).
      { clear. induction l1 as [|y l1 IH]; intros F rest ra; [reflexivity|]. simpl. rewrite (F y (or_introl eq_refl)).
        rewrite <- (IH (fun z Hz => F z (or_intror Hz)) rest ra). f_equal. destruct o; reflexivity. }
      assert (B : forall l2, fold_left (fun (s : bool) (x : bool * bool) => if fst x : bool then s && snd x else s || snd x) (combine l2 (repeat o (length l2))) o = o).
      { clear. induction l2 as [|y l2 IH]; [reflexivity|]. simpl. destruct y, o; exact IH. }
      change (o :: l1 ++ negb o :: l2) with ((o :: l1) ++ negb o :: l2).
      change (negb o :: repeat (negb o) (length l1) ++ o :: repeat o (length l2)) with (repeat (negb o) (length (o :: l1)) ++ o :: repeat o (length l2)).
      rewrite A by (intros y [<-|Hy]; auto). cbn [combine fold_left fst snd].
      transitivity (fold_left (fun (s : bool) (x : bool * bool) => if fst x : bool then s && snd x else s || snd x) (combine l2 (repeat o (length l2))) o); [f_equal; destruct o; reflexivity|apply B]. }
    rewrite Hl in H. destruct o; discriminate.
  - intros (o & Ho) a0 answers L. unfold left_to_right. apply (homogeneous_agree o). intros [k b] Hx. apply in_combine_l in Hx. apply Ho, Hx.
Qed.

(** C13, the largest class of configurations for which the documented meaning holds for all
    answers: all algorithms after the first combined by the same operation. *)
Theorem bool_array_matches_documentation_iff_uniform_partial :
  forall (ops : list bool),
  (forall a0 answers, length answers = length ops ->
     exists n, ba_bool (ba_make ((true, a0) :: combine ops answers))
               = Ok (left_to_right ((true, a0) :: combine ops answers), n))
  <-> (exists o, forall x, In x ops -> x = o).
Proof.
  intros ops. rewrite <- right_matches_left_iff_uniform. split; intros H a0 answers L.
  - destruct (H a0 answers L) as (n & E).
    destruct (bool_array_is_right_associated a0 (combine ops answers) true (or_introl eq_refl)) as (n' & E').
    rewrite E in E'. inversion E'. reflexivity.
  - rewrite <- (H a0 answers L). apply bool_array_is_right_associated. left; reflexivity.
Qed.
Print Assumptions bool_array_matches_documentation_iff_uniform_partial.

(** C13 fails: two small arrays on which Bool differs from the documented value *)
Theorem bool_array_mixed_chain_refuted :
  (exists n, ba_bool (ba_make [(true, false); (true, true); (false, true)]) = Ok (false, n) /\
             left_to_right [(true, false); (true, true); (false, true)] = true) /\
  (exists n, ba_bool (ba_make [(true, true); (false, true); (true, false)]) = Ok (true, n) /\
             left_to_right [(true, true); (false, true); (true, false)] = false).
Proof. split; eexists; split; vm_compute; reflexivity. Qed.

(** an array added with OR only reads the uninitialised index as soon as the first says no *)
Theorem bool_array_or_only_undefined :
  forall rest : list bool, rest <> [] -> ba_bool (ba_make (map (fun a => (false, a)) (false :: rest))) = Undef.
Proof.
  intros rest H. rewrite ba_make_eq. unfold ba_bool. cbn [ba_last_and ba_algos map ba_loop Nat.eqb].
  destruct rest as [|a rest]; [congruence|]. cbn [map ba_loop Nat.eqb andb negb].
  assert (E : last_and_of ((false, false) :: (false, a) :: map (fun a => (false, a)) rest) = None).
  { unfold last_and_of. simpl. generalize 2 as s. clear. induction rest as [|b rest IH]; intros s; simpl; auto. }
  rewrite E. reflexivity.
Qed.
Print Assumptions bool_array_or_only_undefined.

Example ex_bool : ba_bool (ba_make [(true, true); (true, true); (true, false); (true, true)]) = Ok (false, 3).
Proof. reflexivity. Qed.

(* ------------------------------------------------------------------ *)
(** C14 *)
Definition sum (l : list Qc) : Qc := fold_right Qcplus 0%Qc l.
(** [s] is the first negative score *)
Definition first_negative (l : list Qc) (s : Qc) : Prop :=
  exists l1 l2, l = l1 ++ s :: l2 /\ (s < 0)%Qc /\ forall x, In x l1 -> (0 <= x)%Qc.

Lemma collect_nonneg m : forall l acc, is_simple m = true \/ (forall x, In x l -> (0 <= x)%Qc) -> pa_collect m l acc = inr (acc ++ l).
Proof.
  induction l as [|s l IH]; intros acc H; simpl; [rewrite app_nil_r; reflexivity|].
  assert (E : negb (is_simple m) && (if Qclt_le_dec s 0 then true else false) = false).
  { destruct H as [->|H]; [reflexivity|]. destruct (Qclt_le_dec s 0) as [L|L]; [|apply andb_false_r].
    exfalso. apply (Qclt_not_le _ _ L). apply H. left; reflexivity. }
  rewrite E, IH by (destruct H as [H|H]; [left; exact H|right; intros x Hx; apply H; right; exact Hx]).
  rewrite <- app_assoc. reflexivity.
Qed.

Lemma collect_neg m l1 s l2 acc : is_simple m = false -> (s < 0)%Qc -> (forall x, In x l1 -> (0 <= x)%Qc) -> pa_collect m (l1 ++ s :: l2) acc = inl s.
Proof.
  intros Hm Hs. revert acc. induction l1 as [|x l1 IH]; intros acc H; simpl; rewrite Hm; simpl.
  - destruct (Qclt_le_dec s 0) as [L|L]; [reflexivity|]. exfalso. apply (Qclt_not_le _ _ Hs L).
  - destruct (Qclt_le_dec x 0) as [L|L]; [exfalso; apply (Qclt_not_le _ _ L), H; left; reflexivity|].
    apply IH. intros y Hy. apply H. right; exact Hy.
Qed.

Lemma fold_sum : forall l a, fold_left Qcplus l a = (a + sum l)%Qc.
Proof. induction l as [|x l IH]; intros a; simpl; [ring|]. rewrite IH. unfold sum. simpl. ring. Qed.

Lemma neg_or_nonneg l : (exists s, first_negative l s) \/ (forall x, In x l -> (0 <= x)%Qc).
Proof.
  induction l as [|x l IH]; [right; intros x []|]. destruct (Qclt_le_dec x 0) as [L|L].
  - left. exists x, [], l. split; [reflexivity|]. split; [exact L|intros y []].
  - destruct IH as [(s & l1 & l2 & -> & Hs & H)|H].
    + left. exists s, (x :: l1), l2. split; [reflexivity|]. split; [exact Hs|]. intros y [<-|Hy]; auto.
    + right. intros y [<-|Hy]; auto.
Qed.

Theorem priority_array_modes_partial :
  forall l : list Qc,
  pa_priority SimpleAddition l = Ok (sum l) /\
  (forall s, first_negative l s ->
     pa_priority PositiveAddition l = Ok s /\ pa_priority Multiplication l = Ok s /\ pa_priority LastAlgo l = Ok s) /\
  ((forall x, In x l -> (0 <= x)%Qc) ->
     pa_priority PositiveAddition l = Ok (sum l) /\
     (forall x, pa_priority LastAlgo (l ++ [x]) = Ok x) /\
     (l = [] -> pa_priority LastAlgo l = Undef)).
Proof.
  intros l. split; [|split].
  - unfold pa_priority. rewrite collect_nonneg by (left; reflexivity). simpl. rewrite fold_sum. f_equal. ring.
  - intros s (l1 & l2 & -> & Hs & H). unfold pa_priority. rewrite !collect_neg by auto. auto.
  - intros H. split; [|split].
    + unfold pa_priority. rewrite collect_nonneg by (right; exact H). simpl. rewrite fold_sum. f_equal. ring.
    + intros x. unfold pa_priority. destruct (Qclt_le_dec x 0) as [L|L].
      * rewrite collect_neg by auto. reflexivity.
      * rewrite collect_nonneg.
        -- cbn [app]. rewrite rev_app_distr. reflexivity.
        -- right. intros y Hy. apply in_app_or in Hy. destruct Hy as [Hy|[<-|[]]]; auto.
    + intros ->. reflexivity.
Qed.
Print Assumptions priority_array_modes_partial.

(** C14 fails for kMultiplication: without a negative score the result is always 0 *)
Theorem priority_array_multiplication_refuted :
  forall l : list Qc, (forall x, In x l -> (0 <= x)%Qc) -> pa_priority Multiplication l = Ok 0%Qc.
Proof.
  intros l H. unfold pa_priority. rewrite collect_nonneg by (right; exact H). simpl. f_equal.
  clear H. induction l as [|x l IH]; [reflexivity|]. simpl. replace (0 * x)%Qc with 0%Qc by ring. exact IH.
Qed.
Print Assumptions priority_array_multiplication_refuted.

Example ex_mult : pa_priority Multiplication [Q2Qc 2; Q2Qc 3] = Ok 0%Qc /\ (Q2Qc 2 * Q2Qc 3 <> 0)%Qc.
Proof. split; [vm_compute; reflexivity|discriminate]. Qed.
Example ex_pos : pa_priority PositiveAddition [Q2Qc 2; Q2Qc (-1); Q2Qc (-3)] = Ok (Q2Qc (-1)).
Proof. vm_compute. reflexivity. Qed.
