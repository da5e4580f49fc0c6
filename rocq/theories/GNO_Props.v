(** C141, C142: how OrganizeHits arranges the hits of a track. *)
From Coq Require Import QArith Qcanon Lqa.
From Verif Require Import Base QcUtil Solver_Model Solver_Proofs GNO_Model GNO_Spec GNO_Proofs.
Import GNO_Model GNO_Spec.
Local Open Scope nat_scope.

Lemma ss_filter_seq (f : nat -> bool) n : forall k, StronglySorted lt (filter f (seq k n)).
Proof.
  induction n as [|n IH]; intros k; cbn [seq filter]; [constructor|]. destruct (f k); [|apply IH]. constructor; [apply IH|].
  apply Forall_forall. intros x Hx. apply filter_In in Hx. destruct Hx as [Hx _]. apply in_seq in Hx. lia.
Qed.
Lemma perm_members (os : list org) L : Permutation (flat_map members os) L -> NoDup L -> NoDup (flat_map members os).
Proof. intros P N. exact (Permutation_NoDup (Permutation_sym P) N). Qed.
Lemma single_members L : flat_map members (map (fun i => (i, @nil nat)) L) = L.
Proof. induction L as [|x L IH]; cbn; [reflexivity|rewrite IH; reflexivity]. Qed.
Lemma method_dec (e : env) : ((e_method e =? 1) || (e_method e =? 0))%bool = true <-> per_hit e.
Proof. unfold per_hit. rewrite orb_true_iff, !Nat.eqb_eq. tauto. Qed.

(** everything about one plane: a helper for the theorems below *)
Lemma organize_plane e hs t ret p os : organize e hs t = Ok ret -> nth_error ret p = Some os ->
  Permutation (flat_map members os) (filter (lst hs t p) (seq 0 (length hs))) /\
  (per_hit e -> os = map (fun i => (i, [])) (filter (lst hs t p) (seq 0 (length hs)))) /\
  (~ per_hit e -> Forall (good_entry hs) os /\ StronglySorted (apart hs) os).
Proof.
  intros H N. unfold organize in H. destruct ((e_method e =? 1) || (e_method e =? 0))%bool eqn:Em.
  - apply method_dec in Em. destruct (individual_total e hs t (individual_range e hs t ret H)) as (r & Er & Lr & Hr).
    rewrite Er in H. injection H as ->. assert (Hp : p < e_np e) by (rewrite <- Lr; apply nth_error_Some; congruence).
    assert (X : os = map (fun i => (i, [])) (filter (lst hs t p) (seq 0 (length hs)))) by (rewrite <- Hr by exact Hp; symmetry; apply nth_error_nth; exact N).
    split; [rewrite X, single_members; reflexivity|]. split; [intros _; exact X|]. intros NM. contradiction.
  - assert (Hm : ~ per_hit e) by (intros X; apply method_dec in X; congruence). destruct (snippets_total e hs t (snippets_range e hs t ret H)) as (r & Er & Lr & Hr).
    rewrite Er in H. injection H as ->. assert (Hp : p < e_np e) by (rewrite <- Lr; apply nth_error_Some; congruence).
    destruct (Hr p Hp) as (ids & _ & A & B & C). rewrite (nth_error_nth _ _ [] N) in A, B, C.
    split; [exact A|]. split; [intros X; contradiction|]. intros _. auto.
Qed.
Lemma organize_len e hs t ret : organize e hs t = Ok ret -> length ret = e_np e.
Proof.
  intros H. unfold organize in H. destruct ((e_method e =? 1) || (e_method e =? 0))%bool.
  - destruct (individual_total e hs t (individual_range e hs t ret H)) as (r & Er & Lr & Hr). rewrite Er in H. injection H as ->. exact Lr.
  - destruct (snippets_total e hs t (snippets_range e hs t ret H)) as (r & Er & Lr & Hr). rewrite Er in H. injection H as ->. exact Lr.
Qed.

(** C141: the organised hits of a plane are the hits of that plane with a valid point, each once; the entries are the snippets. The call succeeds exactly
    when every hit with a valid point is on a plane of the detector, and is undefined otherwise *)
Theorem C141_partition : forall e hs t,
  ((exists ret, organize e hs t = Ok ret) <-> (forall p i, listed hs t p i -> p < e_np e)) /\
  (~ (forall p i, listed hs t p i -> p < e_np e) -> organize e hs t = Undef) /\
  forall ret, organize e hs t = Ok ret -> length ret = e_np e /\
    forall p os, nth_error ret p = Some os ->
      NoDup (flat_map members os) /\ (forall i, In i (flat_map members os) <-> listed hs t p i) /\
      (per_hit e -> (forall o, In o os -> snd o = []) /\ StronglySorted lt (map fst os)) /\
      (~ per_hit e -> forall k k' o o' i j, nth_error os k = Some o -> nth_error os k' = Some o' -> In i (members o) -> In j (members o') -> (k = k' <-> same_snippet hs i j)).
Proof.
  intros e hs t.
  assert (LL : (forall p i, lst hs t p i = true -> p < e_np e) <-> (forall p i, listed hs t p i -> p < e_np e)).
  { split; intros H p i X; apply (H p i); apply lst_listed; exact X. }
  split; [|split].
  - rewrite <- LL. unfold organize. destruct ((e_method e =? 1) || (e_method e =? 0))%bool; split.
    + intros [r Er]. exact (individual_range _ _ _ _ Er).
    + intros H. destruct (individual_total e hs t H) as (r & Er & _). exists r. exact Er.
    + intros [r Er]. exact (snippets_range _ _ _ _ Er).
    + intros H. destruct (snippets_total e hs t H) as (r & Er & _). exists r. exact Er.
  - rewrite <- LL. intros N. unfold organize. destruct ((e_method e =? 1) || (e_method e =? 0))%bool; [apply individual_undef; exact N|apply snippets_undef; exact N].
  - intros ret H. split; [exact (organize_len _ _ _ _ H)|]. intros p os N. destruct (organize_plane _ _ _ _ _ _ H N) as (P & S1 & S2).
    assert (Nd : NoDup (filter (lst hs t p) (seq 0 (length hs)))) by (apply NoDup_filter, seq_NoDup).
    assert (HIn : forall i, In i (flat_map members os) <-> listed hs t p i).
    { intros i. rewrite <- lst_listed. split.
      - intros X. apply (Permutation_in _ P) in X. apply filter_In in X. tauto.
      - intros X. apply (Permutation_in _ (Permutation_sym P)). apply filter_In. split; [|exact X]. apply in_seq. split; [lia|].
        apply nth_error_Some. unfold lst in X. destruct (nth_error hs i); [discriminate|discriminate X]. }
    split; [exact (perm_members _ _ P Nd)|]. split; [exact HIn|]. split.
    + intros M. rewrite (S1 M). split.
      * intros o Ho. apply in_map_iff in Ho. destruct Ho as (i & <- & _). reflexivity.
      * rewrite map_map. cbn [fst]. rewrite map_id. apply ss_filter_seq.
    + intros M. destruct (S2 M) as [G A]. rewrite Forall_forall in G.
      assert (AP : forall k k' o o', k < k' -> nth_error os k = Some o -> nth_error os k' = Some o' -> apart hs o o').
      { clear -A. induction A as [|x l A IH F]; intros k k' o o' Hk X Y; [destruct k; discriminate X|].
        destruct k' as [|k']; [lia|]. cbn in Y. destruct k as [|k]; cbn in X; [injection X as ->; rewrite Forall_forall in F; apply F; exact (nth_error_In _ _ Y)|apply (IH k k'); auto; lia]. }
      intros k k' o o' i j X Y Hi Hj.
      assert (Li : lst hs t p i = true) by (apply lst_listed, HIn, in_flat_map; exists o; split; [exact (nth_error_In _ _ X)|exact Hi]).
      assert (Lj : lst hs t p j = true) by (apply lst_listed, HIn, in_flat_map; exists o'; split; [exact (nth_error_In _ _ Y)|exact Hj]).
      rewrite <- (hid_same hs t p i j Li Lj).
      destruct (G o (nth_error_In _ _ X) i Hi) as [B1 _]. destruct (G o' (nth_error_In _ _ Y) j Hj) as [B2 _].
      rewrite (ident_eq_left _ _ _ B1), (ident_eq_right _ _ _ B2). destruct (Nat.lt_trichotomy k k') as [D | [D | D] ].
      * destruct (AP k k' o o' D X Y) as [Z _]. rewrite Z. split; [lia|discriminate].
      * subst k'. rewrite X in Y. injection Y as ->. rewrite ident_eq_refl. tauto.
      * destruct (AP k' k o' o D Y X) as [Z _]. rewrite ident_eq_sym, Z. split; [lia|discriminate].
Qed.
Print Assumptions C141_partition.

(** C142: when charge is taken per snippet, the hit that stands for a snippet is the first of those with the largest integral, and the snippets are in the
    order of their first hits *)
Theorem C142_leader : forall e hs t ret p os, ~ per_hit e -> organize e hs t = Ok ret -> nth_error ret p = Some os ->
  (forall i, In i (map fst os) <-> largest hs t p i) /\ NoDup (map fst os) /\
  forall k k' o o', k < k' -> nth_error os k = Some o -> nth_error os k' = Some o' -> exists i, In i (members o) /\ forall j, In j (members o') -> i < j.
Proof.
  intros e hs t ret p os M H N. destruct (organize_plane _ _ _ _ _ _ H N) as (P & _ & S2). destruct (S2 M) as [G A].
  destruct (C141_partition e hs t) as (_ & _ & HC). destruct (HC ret H) as [_ HC']. destruct (HC' p os N) as (Nd & HIn & _ & Hsn). specialize (Hsn M). clear HC HC'.
  rewrite Forall_forall in G.
  split; [|split].
  - intros i. split.
    + intros Hi. apply in_map_iff in Hi. destruct Hi as (o & <- & Ho). assert (Hm : In (fst o) (members o)) by (left; reflexivity).
      assert (L : listed hs t p (fst o)) by (apply HIn, in_flat_map; exists o; auto). split; [exact L|]. intros j Lj Sj.
      apply HIn in Lj. apply in_flat_map in Lj. destruct Lj as (o' & Ho' & Hj). apply In_nth_error in Ho. destruct Ho as [k Hk]. apply In_nth_error in Ho'. destruct Ho' as [k' Hk'].
      assert (k = k') by (apply (Hsn k k' o o' (fst o) j Hk Hk' Hm Hj); exact Sj). subst k'. rewrite Hk in Hk'. injection Hk' as <-.
      destruct (G o (nth_error_In _ _ Hk) j Hj) as [_ B]. exact B.
    + intros [L B]. pose proof L as L'. apply HIn in L. apply in_flat_map in L. destruct L as (o & Ho & Hi).
      assert (Hm : In (fst o) (members o)) by (left; reflexivity).
      assert (Lo : listed hs t p (fst o)) by (apply HIn, in_flat_map; exists o; auto).
      apply In_nth_error in Ho. destruct Ho as [k Hk].
      assert (Sx : same_snippet hs i (fst o)) by (apply (Hsn k k o o i (fst o) Hk Hk Hi Hm); reflexivity).
      apply in_map_iff. exists o. split; [|exact (nth_error_In _ _ Hk)].
      destruct (G o (nth_error_In _ _ Hk) i Hi) as [_ [C | [C1 C2] ] ]; destruct (B (fst o) Lo Sx) as [D | [D1 D2] ].
      * exfalso. exact (Qclt_not_le _ _ C (Qclt_le_weak _ _ D)).
      * exfalso. rewrite D1 in C. exact (Qclt_not_le _ _ C (Qcle_refl _)).
      * exfalso. rewrite C1 in D. exact (Qclt_not_le _ _ D (Qcle_refl _)).
      * lia.
  - clear -Nd. induction os as [|o os IH]; cbn [map]; [constructor|]. cbn [flat_map] in Nd. constructor.
    + intros X. apply in_map_iff in X. destruct X as (o' & E & Ho'). cbn in Nd. apply NoDup_cons_iff in Nd. destruct Nd as [N1 _]. apply N1. apply in_or_app. right. apply in_flat_map. exists o'. split; [exact Ho'|left; exact E].
    + apply IH. clear -Nd. induction (members o) as [|x l IH]; [exact Nd|]. apply IH. cbn in Nd. apply NoDup_cons_iff in Nd. tauto.
  - clear -A. induction A as [|x l A IH F]; intros k k' o o' Hk X Y; [destruct k; discriminate X|].
    destruct k' as [|k']; [lia|]. cbn in Y. destruct k as [|k]; cbn in X; [injection X as ->; rewrite Forall_forall in F; apply F; exact (nth_error_In _ _ Y)|apply (IH k k'); auto; lia].
Qed.
Print Assumptions C142_leader.

(** a concrete case *)
Definition ex_q (n : Z) : Qc := Q2Qc (inject_Z n).
Definition ex_hit (w s t : Z) (p : nat) (q : Z) (k : nat) : hit := Hit s (s + 10) w t p (ex_q q) (ex_q 1) (ex_q 2) (ex_q s) k.
Definition ex_norm (v : vec) : Qc := (qabs (vx v) + qabs (vy v) + qabs (vz v))%Qc.
Definition ex_env (m : nat) : env := Env 3 m false false false false true 0 1%Qc false false (fun _ _ => V 0 0 0)%Qc (fun _ => V 0 0 0)%Qc (fun _ => V 0 0 0)%Qc (fun _ => 1%Z) 1%Qc
  (fun _ => 0%Qc) (fun _ => 1%Qc) (fun _ => ex_q 3) ex_norm Qcdiv (fun x => x) (fun q _ _ _ _ _ => q) (fun q _ _ _ _ _ => q) [] (ex_q (-999)).
Definition ex_track : track := Trk (fun m => negb (m =? 4)%Z) (fun m => V 0 0 (ex_q m))%Qc (fun _ => V 0 0 1)%Qc (V 0 0 0)%Qc (V 0 0 (ex_q 10))%Qc.
Definition ex_hits : hits := [(ex_hit 7 100 0 2 5 40, 1%Z); (ex_hit 7 100 0 2 9 41, 2%Z); (ex_hit 8 100 0 2 4 42, 3%Z); (ex_hit 8 100 0 2 4 43, 4%Z); (ex_hit 7 100 0 2 9 44, 5%Z); (ex_hit 7 100 0 1 3 45, 6%Z); (ex_hit 9 100 0 1 3 46, 2147483647%Z)].
Example C141_case : organize (ex_env 3) ex_hits ex_track = Ok [[]; [(5, [])]; [(1, [0; 4]); (2, [])]].
Proof. vm_compute. reflexivity. Qed.
Example C141_case1 : organize (ex_env 1) ex_hits ex_track = Ok [[]; [(5, [])]; [(0, []); (1, []); (2, []); (4, [])]].
Proof. vm_compute. reflexivity. Qed.
