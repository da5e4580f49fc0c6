(** Properties C01-C05: cmtool::CMergeBookKeeper.
    A history is any list of Merge / ProhibitMerge / MergeAllowed calls (valid or not) on a
    keeper just [reset] to [n] clusters; [lg] is the log of calls with their answers.
    The observers are [pass_result] (GetResult/PassResult), [is_merged], [get_merged_set]. *)
From Verif Require Import Base CMergeBK_Model CMergeBK_Spec CMergeBK_Proofs CMergeBK_Hist CMergeBK_Combine.

(** C01 *)
Theorem book_keeper_result_is_generated_partition :
  forall n ops s lg, run (reset n) ops = (s, lg) ->
  exists res, pass_result s = Ok res /\
    Permutation (concat res) (seq 0 n) /\
    (forall set, In set res -> set <> []) /\
    (forall i j, i < n -> j < n ->
       ((exists set, In set res /\ In i set /\ In j set) <-> linked lg i j)) /\
    (forall i j, i < n -> j < n ->
       exists b, is_merged s i j = Ok b /\ (b = true <-> linked lg i j)) /\
    (forall i, i < n -> exists set, get_merged_set s i = Ok set /\ In set res /\ In i set).
Proof.
  intros n ops s lg E. pose proof (run_inv n ops s lg E) as I.
  exists (map (class n s) (seq 0 (cnt s))).
  split; [apply (pass_result_ok n s lg I)|]. split; [apply (classes_perm n s lg I)|]. split; [|split; [|split]].
  - intros set Hs. apply in_map_iff in Hs. destruct Hs as (v & <- & Hv). apply in_seq in Hv.
    apply (class_nonempty n s lg v I). lia.
  - intros i j Hi Hj. rewrite <- (i_link n s lg I) by assumption. split.
    + intros (set & Hs & Hsi & Hsj). apply in_map_iff in Hs. destruct Hs as (v & <- & _).
      apply in_class in Hsi, Hsj. destruct Hsi, Hsj. congruence.
    + intros H. exists (class n s (o s i)). split.
      * apply in_map, in_seq. pose proof (i_lt n s lg I i Hi). lia.
      * rewrite !in_class. auto.
  - intros i j Hi Hj. destruct (is_merged_spec n s lg i j I) as [H _]. auto.
  - intros i Hi. exists (class n s (o s i)). split; [apply (get_merged_set_ok n s lg); assumption|].
    split; [|apply in_class; auto].
    apply in_map, in_seq. pose proof (i_lt n s lg I i Hi). lia.
Qed.
Print Assumptions book_keeper_result_is_generated_partition.

(** C02 *)
Theorem book_keeper_result_is_canonically_ordered :
  forall n ops s lg, run (reset n) ops = (s, lg) ->
  exists res, pass_result s = Ok res /\
    Forall (StronglySorted lt) res /\
    StronglySorted lt (map (hd 0) res) /\
    (forall i, i < n -> exists p, nth_error (out s) i = Some p /\ p < length res /\
        get_merged_set s i = Ok (nth p res [])).
Proof.
  intros n ops s lg E. pose proof (run_inv n ops s lg E) as I.
  exists (map (class n s) (seq 0 (cnt s))).
  split; [apply (pass_result_ok n s lg I)|]. split; [|split].
  - apply Forall_forall. intros set Hs. apply in_map_iff in Hs. destruct Hs as (v & <- & _). apply class_sorted.
  - apply (classes_hd_sorted n s lg I).
  - intros i Hi. exists (o s i). pose proof (i_lt n s lg I i Hi).
    split; [apply nth_error_nth'; rewrite (i_len n s lg I); exact Hi|].
    split; [rewrite map_length, seq_length; assumption|].
    rewrite nth_map_seq by assumption. apply (get_merged_set_ok n s lg); assumption.
Qed.
Print Assumptions book_keeper_result_is_canonically_ordered.

(** C03 *)
Theorem book_keeper_prohibitions_are_exact :
  forall n ops s lg, run (reset n) ops = (s, lg) ->
  (** the answers recorded at every point of the history *)
  (forall pre post i j a, lg = pre ++ (OAllowed i j, a) :: post -> i <> j -> i < n -> j < n ->
     exists b, a = ABool b /\ (b = false <-> (~ linked pre i j /\ blocked pre i j))) /\
  (forall pre post i j a, lg = pre ++ (OMerge i j, a) :: post -> i <> j -> i < n -> j < n ->
     (a = ADone \/ a = AThrow UserExn) /\ (a = AThrow UserExn <-> blocked pre i j)) /\
  (** no prohibited pair is ever in one set *)
  (forall a b, prohibited lg a b -> ~ linked lg a b).
Proof.
  intros n ops s lg E. pose proof (run_inv n ops s lg E) as I.
  assert (HB : forall n s lg i j, Inv n s lg -> i < n -> j < n -> blocked lg i j -> ~ linked lg i j).
  { clear. intros n s lg i j I Hi Hj (a & b & Hp & Ha & Hb) Hl.
    destruct (i_prange n s lg I a b Hp) as (La & Lb & Hd). apply Hd. apply (i_link n s lg I); try assumption.
    eapply linked_trans; [exact Ha|]. eapply linked_trans; [exact Hl|]. apply linked_sym, Hb. }
  split; [|split].
  - intros pre post i j a EL Hne Hi Hj.
    destruct (run_split ops (reset n) s lg pre _ post E EL) as (ops1 & c & a' & ops2 & s1 & _ & Ec & R & Ea & _).
    injection Ec as <- <-. pose proof (run_inv n ops1 s1 pre R) as I1.
    pose proof (step_spec n s1 pre (OAllowed i j) I1) as H. destruct (step s1 (OAllowed i j)) as [s2 a2]; simpl in Ea; subst a2.
    destruct H as (_ & _ & H & _). destruct H as (b & -> & Hb & _); [unfold rejected, bad_args; lia|].
    exists b. split; [reflexivity|]. rewrite Hb. split; [|tauto]. intros Hbl. split; [|exact Hbl].
    apply (HB n s1); assumption.
  - intros pre post i j a EL Hne Hi Hj.
    destruct (run_split ops (reset n) s lg pre _ post E EL) as (ops1 & c & a' & ops2 & s1 & _ & Ec & R & Ea & _).
    injection Ec as <- <-. pose proof (run_inv n ops1 s1 pre R) as I1.
    pose proof (step_spec n s1 pre (OMerge i j) I1) as H. destruct (step s1 (OMerge i j)) as [s2 a2]; simpl in Ea; subst a2.
    destruct H as (_ & Hr & Ha & Hd). cbv [rejected] in *.
    destruct Hd as [Hd|Hd].
    + destruct (Hr Hd) as [-> _]. split; [auto|]. split; [|auto]. intros _.
      destruct Hd as [Hd|Hd]; [unfold bad_args in Hd; lia|exact Hd].
    + rewrite (Ha Hd). split; [auto|]. split; [discriminate|]. intros Hbl. exfalso; apply Hd; auto.
  - intros a b Hp Hl. destruct (i_prange n s lg I a b Hp) as (La & Lb & Hd).
    apply Hd. apply (i_link n s lg I); assumption.
Qed.
Print Assumptions book_keeper_prohibitions_are_exact.

(** C04: every recorded answer; [bad_args] is "identical or out of range". *)
Theorem book_keeper_errors_are_exact :
  forall n ops s lg, run (reset n) ops = (s, lg) ->
  forall pre post c a, lg = pre ++ (c, a) :: post ->
    a <> AUndef /\ a <> AThrow RangeExn /\ a <> AThrow AbortExn /\
    match c with
    | OMerge i j => a = AThrow UserExn <-> ((i = j \/ n <= i \/ n <= j) \/ blocked pre i j)
    | OProhibit i j => a = AThrow UserExn <-> ((i = j \/ n <= i \/ n <= j) \/ linked pre i j)
    | OAllowed i j => a = AThrow UserExn <-> (i = j \/ n <= i \/ n <= j)
    end.
Proof.
  intros n ops s lg E pre post c a EL.
  destruct (run_split ops (reset n) s lg pre _ post E EL) as (ops1 & c' & a' & ops2 & s1 & _ & Ec & R & Ea & _).
  injection Ec as <- <-. pose proof (run_inv n ops1 s1 pre R) as I1.
  pose proof (step_spec n s1 pre c I1) as H. destruct (step s1 c) as [s2 a2]; simpl in Ea; subst a2.
  destruct H as (_ & Hr & Ha & Hd).
  assert (G : (a <> AUndef /\ a <> AThrow RangeExn /\ a <> AThrow AbortExn) /\ (a = AThrow UserExn <-> rejected n pre c)).
  { destruct Hd as [Hd|Hd].
    - destruct (Hr Hd) as [-> _]. split; [repeat split; discriminate|tauto].
    - specialize (Ha Hd). destruct c; [subst a..|destruct Ha as (b & -> & _)];
        (split; [repeat split; discriminate|]); split; try discriminate; tauto. }
  destruct G as [(G1 & G2 & G3) G]. repeat (split; [assumption|]). destruct c; exact G.
Qed.
Print Assumptions book_keeper_errors_are_exact.

(** C04, second half: a call that throws leaves the whole object (hence every observer) as it was. *)
Theorem book_keeper_throw_leaves_object_unchanged :
  forall n ops s lg, run (reset n) ops = (s, lg) ->
  forall c s' e, step s c = (s', AThrow e) -> s' = s.
Proof.
  intros n ops s lg E c s' e Es. pose proof (run_inv n ops s lg E) as I.
  pose proof (step_spec n s lg c I) as H. rewrite Es in H. destruct H as (_ & Hr & Ha & [Hd|Hd]).
  - apply (Hr Hd).
  - specialize (Ha Hd). destruct c; try discriminate Ha. destruct Ha as (b & Eb & _). discriminate Eb.
Qed.
Print Assumptions book_keeper_throw_leaves_object_unchanged.

(** C05. [A] and [B] are keepers with arbitrary histories; [ra] is A's result before the call. *)
Theorem combine_composes :
  forall nA opsA A lgA nB opsB B lgB ra,
  run (reset nA) opsA = (A, lgA) -> run (reset nB) opsB = (B, lgB) -> pass_result A = Ok ra ->
  (** incompatible sizes, or [B] merged nothing: throws and changes nothing *)
  ((nB <> length ra \/ ~ (exists i j, i < j /\ j < nB /\ linked lgB i j)) ->
     combine A B = (A, Throw UserExn)) /\
  (nB = length ra -> (exists i j, i < j /\ j < nB /\ linked lgB i j) ->
     (** no prohibited pair would be joined: the composition *)
     ((forall a b, prohibited lgA a b -> ~ composed ra lgB a b) ->
        exists A' ms, combine A B = (A', Ok tt) /\
          (forall i j, i < nA -> j < nA -> (is_merged A' i j = Ok true <-> composed ra lgB i j)) /\
          (** A' is a state A reaches by plain Merge calls, so C01-C04 apply to it *)
          run A (map (fun p => OMerge (fst p) (snd p)) ms) = (A', dones ms)) /\
     (** otherwise it throws, leaving only merges that belong to the composition *)
     ((exists a b, prohibited lgA a b /\ composed ra lgB a b) ->
        exists A' ms, combine A B = (A', Throw UserExn) /\
          run A (map (fun p => OMerge (fst p) (snd p)) ms) = (A', dones ms) /\
          (forall p, In p ms -> composed ra lgB (fst p) (snd p)))).
Proof.
  intros nA opsA A lgA nB opsB B lgB ra EA EB Era.
  pose proof (run_inv _ _ _ _ EA) as IA. pose proof (run_inv _ _ _ _ EB) as IB.
  pose proof (pass_result_ok nA A lgA IA) as Er. rewrite Era in Er. inversion Er; subst ra. clear Er.
  assert (Hl : length (map (class nA A) (seq 0 (cnt A))) = cnt A) by (rewrite map_length, seq_length; reflexivity).
  rewrite Hl. split.
  - intros H. unfold combine. rewrite Era. cbn [with_]. rewrite Hl, (i_len _ _ _ IB).
    destruct (Nat.eqb_spec (cnt A) nB) as [E|E]; cbn [negb]; [|reflexivity].
    rewrite (pass_result_ok _ _ _ IB). cbn [with_].
    rewrite map_length, seq_length. destruct (Nat.leb_spec (cnt A) (cnt B)) as [L|L]; [reflexivity|].
    exfalso. rewrite E in L. apply (cnt_lt_iff nB B lgB IB) in L. destruct H as [H|H]; [congruence|contradiction].
  - intros -> Hm. apply (cnt_lt_iff _ B lgB IB) in Hm.
    destruct (combine_spec nA A lgA B lgB IA IB Hm) as
      [[Hp (A' & ms & E & R & Hin)]|[Hp (A' & ms & E & R & Hmg)]].
    + split; [|intros _; exists A', ms; auto]. intros Hno. exfalso.
      destruct Hp as (a & b & Hp & Hc). exact (Hno a b Hp Hc).
    + split; [intros _; exists A', ms; auto|]. intros (a & b & Hp' & Hc). exfalso. exact (Hp a b Hp' Hc).
Qed.
Print Assumptions combine_composes.

(* ---------------------------------------------------------------- *)
(** Non-vacuity: a history with merges, prohibitions, a rejected merge and bad arguments *)
Definition ex_ops : list op :=
  [OProhibit 0 3; OMerge 3 4; OAllowed 0 4; OMerge 0 4; OMerge 1 1; OMerge 5 2; OMerge 9 0;
   OProhibit 2 5; OMerge 2 1; OAllowed 5 0].
Example ex_run : run (reset 6) ex_ops =
  (fst (run (reset 6) ex_ops),
   [(OProhibit 0 3, ADone); (OMerge 3 4, ADone); (OAllowed 0 4, ABool false);
    (OMerge 0 4, AThrow UserExn); (OMerge 1 1, AThrow UserExn); (OMerge 5 2, ADone);
    (OMerge 9 0, AThrow UserExn); (OProhibit 2 5, AThrow UserExn); (OMerge 2 1, ADone);
    (OAllowed 5 0, ABool true)]).
Proof. vm_compute. reflexivity. Qed.
Example ex_result : pass_result (fst (run (reset 6) ex_ops)) = Ok [[0]; [1; 2; 5]; [3; 4]].
Proof. vm_compute. reflexivity. Qed.
(** Combine: succeeding, blocked by a prohibition, and rejected *)
Definition ex_A := fst (run (reset 6) ex_ops).
Example ex_combine_ok :
  exists A', combine ex_A (fst (run (reset 3) [OMerge 0 1])) = (A', Ok tt) /\
             pass_result A' = Ok [[0; 1; 2; 5]; [3; 4]].
Proof. eexists. vm_compute. split; reflexivity. Qed.
Example ex_combine_blocked :
  exists A', combine ex_A (fst (run (reset 3) [OMerge 0 1; OMerge 1 2])) = (A', Throw UserExn) /\
             pass_result A' = Ok [[0; 1; 2; 5]; [3; 4]].
Proof. eexists. vm_compute. split; reflexivity. Qed.
Example ex_combine_rejected :
  combine ex_A (reset 3) = (ex_A, Throw UserExn) /\ combine ex_A (reset 4) = (ex_A, Throw UserExn).
Proof. vm_compute. split; reflexivity. Qed.
