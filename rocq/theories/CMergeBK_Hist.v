(** Histories of CMergeBookKeeper calls: preservation of the invariant, answers, observers. *)
From Verif Require Import Base CMergeBK_Model CMergeBK_Spec CMergeBK_Proofs.

Ltac bcase := repeat match goal with
  | |- context [?a =? ?b] => destruct (Nat.eqb_spec a b)
  | |- context [?a <? ?b] => destruct (Nat.ltb_spec a b)
  | |- context [?a <=? ?b] => destruct (Nat.leb_spec a b)
  end.

Lemma linked_other lg e i j :
  (forall a b, e <> (OMerge a b, ADone)) -> (linked (lg ++ [e]) i j <-> linked lg i j).
Proof. apply linked_app_other. Qed.

(** log entries that change nothing *)
Lemma inv_noop n s lg e :
  (forall a b, e <> (OMerge a b, ADone)) -> (forall a b, e <> (OProhibit a b, ADone)) ->
  Inv n s lg -> Inv n s (lg ++ [e]).
Proof.
  intros H1 H2 I. destruct I as [A B C D E F G H J K].
  constructor; try assumption.
  - intros i j Hi Hj. rewrite (linked_app_other lg e) by exact H1. apply G; assumption.
  - intros i j Hl. apply (linked_app_other lg e) in Hl; [|exact H1]. apply H; exact Hl.
  - intros a b Hp. apply (prohibited_app_other lg e) in Hp; [|exact H2]. apply J; exact Hp.
  - intros x y Hx Hy. rewrite (K x y Hx Hy).
    split; intros (p & q & Hp & Hr); exists p, q; (split; [|exact Hr]);
      apply (prohibited_app_other lg e); auto.
Qed.

(** the exact answer of each call *)
Definition bad_args (n i j : nat) : Prop := i = j \/ n <= i \/ n <= j.

Definition rejected (n : nat) (lg : log) (c : op) : Prop :=
  match c with
  | OMerge i j => bad_args n i j \/ blocked lg i j
  | OProhibit i j => bad_args n i j \/ linked lg i j
  | OAllowed i j => bad_args n i j
  end.

Lemma bad_dec n i j : bad_args n i j \/ ~ bad_args n i j.
Proof.
  unfold bad_args.
  destruct (Nat.eq_dec i j); [auto|]. destruct (le_lt_dec n i); [auto|]. destruct (le_lt_dec n j); [auto|].
  right; lia.
Qed.

Lemma check_bad n s lg i j : Inv n s lg -> bad_args n i j -> check_args s i j = Throw UserExn.
Proof.
  intros I Hb. destruct (check_spec n s lg i j I) as [(A & B & C & _)|[_ H]]; [|exact H].
  unfold bad_args in Hb. lia.
Qed.

Lemma step_spec n s lg c : Inv n s lg ->
  let (s', a) := step s c in
  Inv n s' (lg ++ [(c, a)]) /\
  (rejected n lg c -> a = AThrow UserExn /\ s' = s) /\
  (~ rejected n lg c ->
     match c with
     | OMerge _ _ | OProhibit _ _ => a = ADone
     | OAllowed i j => exists b, a = ABool b /\ (b = false <-> blocked lg i j) /\ s' = s
     end) /\
  (rejected n lg c \/ ~ rejected n lg c).
Proof.
  intros I. destruct c as [i j|i j|i j]; unfold step, rejected.
  - destruct (bad_dec n i j) as [Hb|Hb].
    + unfold merge, merge_pre. rewrite (check_bad n s lg i j I Hb). cbn [obind to_answer].
      split; [apply inv_noop; [discriminate|discriminate|exact I]|]. tauto.
    + unfold bad_args in Hb.
      destruct (merge_spec n s lg i j I) as [[Hbl Em]|[Hbl (s' & Em & I')]]; [lia|lia|lia| |].
      * rewrite Em. cbn [to_answer].
        split; [apply inv_noop; [discriminate|discriminate|exact I]|]. tauto.
      * rewrite Em. cbn [to_answer]. split; [exact I'|]. unfold bad_args. tauto.
  - destruct (bad_dec n i j) as [Hb|Hb].
    + unfold prohibit. rewrite (check_bad n s lg i j I Hb). cbn [obind].
      split; [apply inv_noop; [discriminate|discriminate|exact I]|]. tauto.
    + unfold bad_args in Hb.
      destruct (prohibit_spec n s lg i j I) as [[Hbl Em]|[Hbl (s' & Em & I' & _)]]; [lia|lia|lia| |].
      * rewrite Em.
        split; [apply inv_noop; [discriminate|discriminate|exact I]|]. tauto.
      * rewrite Em. split; [exact I'|]. unfold bad_args. tauto.
  - destruct (bad_dec n i j) as [Hb|Hb].
    + unfold merge_allowed. rewrite (check_bad n s lg i j I Hb). cbn [obind].
      split; [apply inv_noop; [discriminate|discriminate|exact I]|]. tauto.
    + unfold bad_args in Hb.
      destruct (merge_allowed_spec n s lg i j I) as (b & Eb & Hbb); [lia|lia|lia|].
      rewrite Eb. split; [apply inv_noop; [discriminate|discriminate|exact I]|].
      split; [unfold bad_args; tauto|]. split; [|unfold bad_args; tauto].
      intros _. exists b. auto.
Qed.

Lemma run_app s l1 l2 :
  run s (l1 ++ l2) = let (s1, g1) := run s l1 in let (s2, g2) := run s1 l2 in (s2, g1 ++ g2).
Proof.
  revert s; induction l1 as [|c l1 IH]; intros s; simpl.
  - destruct (run s l2); reflexivity.
  - destruct (step s c) as [s1 a]. rewrite IH. destruct (run s1 l1) as [s2 g1].
    destruct (run s2 l2) as [s3 g2]. reflexivity.
Qed.

Lemma run_inv_gen n ops : forall s lg s' lg', Inv n s lg -> run s ops = (s', lg') -> Inv n s' (lg ++ lg').
Proof.
  induction ops as [|c ops IH]; intros s lg s' lg' I E; simpl in E.
  - inversion E; subst. rewrite app_nil_r. exact I.
  - pose proof (step_spec n s lg c I) as H. destruct (step s c) as [s1 a].
    destruct (run s1 ops) as [s2 g] eqn:E2. inversion E; subst.
    destruct H as [I1 _].
    replace (lg ++ (c, a) :: g) with ((lg ++ [(c, a)]) ++ g) by (rewrite <- app_assoc; reflexivity).
    eapply IH; eassumption.
Qed.

Lemma run_inv n ops s lg : run (reset n) ops = (s, lg) -> Inv n s lg.
Proof. intros E. exact (run_inv_gen n ops (reset n) [] s lg (inv_init n) E). Qed.

Lemma run_length s ops s' lg : run s ops = (s', lg) -> length lg = length ops.
Proof.
  revert s s' lg; induction ops as [|c ops IH]; intros s s' lg E; simpl in E.
  - inversion E; reflexivity.
  - destruct (step s c) as [s1 a]. destruct (run s1 ops) as [s2 g] eqn:E2. inversion E; subst.
    simpl. f_equal. eapply IH; eassumption.
Qed.

(** a split of the log corresponds to a split of the history *)
Lemma run_split ops : forall s s' lg pre e post, run s ops = (s', lg) -> lg = pre ++ e :: post ->
  exists ops1 c a ops2 s1, ops = ops1 ++ c :: ops2 /\ e = (c, a) /\
    run s ops1 = (s1, pre) /\ snd (step s1 c) = a /\ run (fst (step s1 c)) ops2 = (s', post).
Proof.
  induction ops as [|c ops IH]; intros s s' lg pre e post E EL; simpl in E.
  - inversion E; subst. destruct pre; discriminate.
  - destruct (step s c) as [s1 a] eqn:Es. destruct (run s1 ops) as [s2 g] eqn:E2. inversion E; subst.
    destruct pre as [|e' pre].
    + inversion H1; subst. exists [], c, a, ops, s. rewrite Es. repeat split; auto.
    + inversion H1; subst.
      destruct (IH s1 s' _ pre e post E2 eq_refl) as (ops1 & c' & a' & ops2 & s1' & Ho & He & Hr & Hst & Hr2).
      exists (c :: ops1), c', a', ops2, s1'. rewrite Ho. split; [reflexivity|]. split; [exact He|].
      split; [|auto]. simpl. rewrite Es, Hr. reflexivity.
Qed.

(* ---------------------------------------------------------------- *)
(** ** Observers *)

Lemma is_merged_spec n s lg i j : Inv n s lg ->
  (i < n -> j < n -> exists b, is_merged s i j = Ok b /\ (b = true <-> linked lg i j)) /\
  ((n <= i \/ n <= j) -> is_merged s i j = Throw UserExn).
Proof.
  intros I. unfold is_merged. rewrite (i_len n s lg I). split.
  - intros Hi Hj. bcase; try lia. cbn [orb].
    destruct (reads n s lg i j I Hi Hj) as [-> ->]. cbn [obind].
    eexists; split; [reflexivity|]. rewrite Nat.eqb_eq. apply (i_link n s lg I); assumption.
  - intros H. bcase; cbn [orb]; try reflexivity; lia.
Qed.

Definition class (n : nat) (s : bk) (v : nat) : list nat :=
  filter (fun k => o s k =? v) (seq 0 n).

Lemma filter_snoc {A} (f : A -> bool) l x :
  filter f (l ++ [x]) = filter f l ++ (if f x then [x] else []).
Proof. rewrite filter_app. simpl. destruct (f x); reflexivity. Qed.

Lemma get_merged_set_ok n s lg i : Inv n s lg -> i < n ->
  get_merged_set s i = Ok (class n s (o s i)).
Proof.
  intros I Hi. unfold get_merged_set. rewrite (i_len n s lg I). bcase; [lia|].
  destruct (reads n s lg i i I Hi Hi) as [-> _]. cbn [obind].
  destruct (for_range_inv (fun k acc => acc = filter (fun k => o s k =? o s i) (seq 0 k))
    (fun acc k => do v <- at_ (out s) k; Ok (if v =? o s i then acc ++ [k] else acc)) 0 n []) as (r & -> & ->).
  - lia.
  - reflexivity.
  - intros k acc Hk ->. destruct (reads n s lg k k I ltac:(lia) ltac:(lia)) as [-> _]. cbn [obind].
    eexists; split; [reflexivity|]. rewrite seq_S, filter_snoc. cbn [plus].
    destruct (o s k =? o s i); rewrite ?app_nil_r; reflexivity.
  - reflexivity.
Qed.

Lemma pass_result_ok n s lg : Inv n s lg ->
  pass_result s = Ok (map (class n s) (seq 0 (cnt s))).
Proof.
  intros I. unfold pass_result. rewrite (i_len n s lg I).
  destruct (for_range_inv
    (fun k res => res = map (fun v => filter (fun k => o s k =? v) (seq 0 k)) (seq 0 (cnt s)))
    (fun res k => do v <- at_ (out s) k; do r <- at_ res v; set_at res v (r ++ [k]))
    0 n (repeat [] (cnt s))) as (r & -> & ->).
  - lia.
  - simpl. clear. generalize 0. induction (cnt s) as [|c IH]; intros b; simpl; [reflexivity|].
    f_equal. apply IH.
  - intros k res Hk ->. destruct (reads n s lg k k I ltac:(lia) ltac:(lia)) as [-> _]. cbn [obind].
    pose proof (i_lt n s lg I k ltac:(lia)) as Hv.
    rewrite (at_ok _ _ []) by (rewrite map_length, seq_length; exact Hv). cbn [obind].
    rewrite set_at_ok by (rewrite map_length, seq_length; exact Hv).
    eexists; split; [reflexivity|].
    rewrite nth_map_seq by exact Hv.
    apply (nth_ext_length []).
    + rewrite upd_length, !map_length. reflexivity.
    + rewrite upd_length, map_length, seq_length. intros v Hvc.
      rewrite nth_upd, map_length, seq_length, !nth_map_seq by exact Hvc.
      rewrite seq_S, filter_snoc. cbn [plus].
      destruct (Nat.eqb_spec v (o s k)) as [->|Hne].
      * rewrite Nat.eqb_refl. destruct (Nat.ltb_spec (o s k) (cnt s)); [|lia]. reflexivity.
      * cbn [andb]. destruct (Nat.eqb_spec (o s k) v); [congruence|]. rewrite app_nil_r. reflexivity.
  - reflexivity.
Qed.

Lemma in_class n s v k : In k (class n s v) <-> k < n /\ o s k = v.
Proof. unfold class. rewrite filter_In, in_seq, Nat.eqb_eq. lia. Qed.

Lemma sorted_filter_seq f b n : StronglySorted lt (filter f (seq b n)).
Proof.
  revert b; induction n as [|n IH]; intros b; simpl; [constructor|].
  destruct (f b); [|apply IH]. constructor; [apply IH|].
  apply Forall_forall. intros x Hx. apply filter_In in Hx. destruct Hx as [Hx _].
  apply in_seq in Hx. lia.
Qed.

Lemma class_sorted n s v : StronglySorted lt (class n s v).
Proof. apply sorted_filter_seq. Qed.

Lemma StronglySorted_lt_NoDup l : StronglySorted lt l -> NoDup l.
Proof.
  induction 1 as [|a l H IH HF]; constructor; [|exact IH].
  intros Hin. rewrite Forall_forall in HF. specialize (HF a Hin). lia.
Qed.

Lemma class_NoDup n s v : NoDup (class n s v).
Proof. apply StronglySorted_lt_NoDup, class_sorted. Qed.

(** the classes together are all the indexes, once each *)
Lemma concat_filter_perm (f : nat -> nat) (l : list nat) c :
  (forall k, In k l -> f k < c) ->
  Permutation (concat (map (fun v => filter (fun k => f k =? v) l) (seq 0 c))) l.
Proof.
  induction l as [|x l IH]; intros H.
  - simpl. induction (seq 0 c) as [|v vs IHv]; simpl; auto.
  - assert (Hx : f x < c) by (apply H; left; reflexivity).
    assert (IH' := IH (fun k Hk => H k (or_intror Hk))). clear IH H.
    assert (Hs : seq 0 c = seq 0 (f x) ++ f x :: seq (S (f x)) (c - S (f x))).
    { replace c with (f x + S (c - S (f x))) at 1 by lia. rewrite seq_app. reflexivity. }
    rewrite Hs in *. rewrite map_app, concat_app in *. cbn [map concat] in *.
    assert (Hne : forall vs, ~ In (f x) vs ->
       map (fun v => filter (fun k => f k =? v) (x :: l)) vs = map (fun v => filter (fun k => f k =? v) l) vs).
    { intros vs Hn. apply map_ext_in. intros v Hv. simpl.
      destruct (Nat.eqb_spec (f x) v); [|reflexivity]. subst. contradiction. }
    rewrite (Hne (seq 0 (f x))) by (rewrite in_seq; lia).
    rewrite (Hne (seq (S (f x)) (c - S (f x)))) by (rewrite in_seq; lia).
    simpl. rewrite Nat.eqb_refl. simpl.
    apply Permutation_sym. apply Permutation_cons_app. apply Permutation_sym. exact IH'.
Qed.

Lemma classes_perm n s lg : Inv n s lg ->
  Permutation (concat (map (class n s) (seq 0 (cnt s)))) (seq 0 n).
Proof.
  intros I. apply (concat_filter_perm (o s)). intros k Hk. apply in_seq in Hk.
  apply (i_lt n s lg I). lia.
Qed.

Lemma class_nonempty n s lg v : Inv n s lg -> v < cnt s -> class n s v <> [].
Proof.
  intros I Hv E. destruct (i_surj n s lg I v Hv) as (k & Hk & Ho).
  assert (In k (class n s v)) by (apply in_class; auto). rewrite E in H. destruct H.
Qed.

(** smallest member of a class comes first; classes are ordered by it *)
Lemma sorted_hd_min l x : StronglySorted lt l -> In x l -> hd 0 l <= x.
Proof.
  intros S Hx. destruct S as [|a l S HF]; [destruct Hx|]. simpl.
  destruct Hx as [->|Hx]; [lia|]. rewrite Forall_forall in HF. specialize (HF x Hx). lia.
Qed.

Lemma class_hd_lt n s lg u v : Inv n s lg -> u < v < cnt s ->
  hd 0 (class n s u) < hd 0 (class n s v).
Proof.
  intros I [Huv Hv].
  assert (Hm : In (hd 0 (class n s v)) (class n s v)).
  { pose proof (class_nonempty n s lg v I Hv). destruct (class n s v); [congruence|left; reflexivity]. }
  apply in_class in Hm. destruct Hm as [Hmn Hmo].
  destruct (i_canon n s lg I (hd 0 (class n s v)) u) as (k & Hk & Hko); [exact Hmn|lia|].
  assert (Hin : In k (class n s u)) by (apply in_class; split; [lia|exact Hko]).
  pose proof (sorted_hd_min _ k (class_sorted n s u) Hin). lia.
Qed.

Lemma classes_hd_sorted n s lg : Inv n s lg ->
  StronglySorted lt (map (hd 0) (map (class n s) (seq 0 (cnt s)))).
Proof.
  intros I. rewrite map_map.
  assert (G : forall k b, b + k <= cnt s -> StronglySorted lt (map (fun x => hd 0 (class n s x)) (seq b k))).
  { induction k as [|k IH]; intros b Hb; simpl; constructor; [apply IH; lia|].
    apply Forall_forall. intros y Hy. apply in_map_iff in Hy. destruct Hy as (u & <- & Hu).
    apply in_seq in Hu. apply (class_hd_lt n s lg); [exact I|lia]. }
  apply G. lia.
Qed.
