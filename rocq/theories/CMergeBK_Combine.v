(** CMergeBookKeeper::Combine *)
From Verif Require Import Base CMergeBK_Model CMergeBK_Spec CMergeBK_Proofs CMergeBK_Hist.

Lemma foreach_st_ext {A S} (l : list A) (f g : S -> A -> S * outcome unit) s :
  (forall s a, In a l -> f s a = g s a) -> foreach_st l f s = foreach_st l g s.
Proof.
  revert s; induction l as [|a l IH]; intros s H; simpl; [reflexivity|].
  rewrite (H s a (or_introl eq_refl)). destruct (g s a) as [s' [[]| |]]; auto.
  apply IH. intros; apply H; right; assumption.
Qed.

Lemma foreach_st_app {A S} (l1 l2 : list A) (f : S -> A -> S * outcome unit) s :
  foreach_st (l1 ++ l2) f s =
  match foreach_st l1 f s with (s', Ok _) => foreach_st l2 f s' | r => r end.
Proof.
  revert s; induction l1 as [|a l IH]; intros s; simpl; [reflexivity|].
  destruct (f s a) as [s' [[]| |]]; auto.
Qed.

Lemma foreach_st_flat {A B S} (l : list A) (g : A -> list B) (f : S -> B -> S * outcome unit) s :
  foreach_st l (fun s a => foreach_st (g a) f s) s = foreach_st (flat_map g l) f s.
Proof.
  revert s; induction l as [|a l IH]; intros s; simpl; [reflexivity|].
  rewrite foreach_st_app. destruct (foreach_st (g a) f s) as [s' [[]| |]]; auto.
Qed.

Definition merge_pair (s : bk) (p : nat * nat) : bk * outcome unit := merge s (fst p) (snd p).

Definition dones (L : list (nat * nat)) : log := map (fun p => (OMerge (fst p) (snd p), ADone)) L.

Lemma merges_spec n : forall L s lg, Inv n s lg ->
  (forall p, In p L -> fst p <> snd p /\ fst p < n /\ snd p < n) ->
  (exists s', foreach_st L merge_pair s = (s', Ok tt) /\ Inv n s' (lg ++ dones L) /\
      run s (map (fun p => OMerge (fst p) (snd p)) L) = (s', dones L)) \/
  (exists s' pre p post, L = pre ++ p :: post /\ foreach_st L merge_pair s = (s', Throw UserExn) /\
      Inv n s' (lg ++ dones pre) /\
      run s (map (fun p => OMerge (fst p) (snd p)) pre) = (s', dones pre) /\
      blocked (lg ++ dones pre) (fst p) (snd p)).
Proof.
  induction L as [|p L IH]; intros s lg I HL.
  - left. exists s. simpl. rewrite app_nil_r. auto.
  - destruct (HL p (or_introl eq_refl)) as (H1 & H2 & H3).
    simpl. unfold merge_pair at 1 3.
    destruct (merge_spec n s lg (fst p) (snd p) I H1 H2 H3) as [[Hbl Em]|[Hbl (s1 & Em & I1)]].
    + right. exists s, [], p, L. rewrite Em. simpl. rewrite app_nil_r. auto.
    + rewrite Em.
      destruct (IH s1 _ I1 (fun q Hq => HL q (or_intror Hq))) as
        [(s' & E & I' & R)|(s' & pre & q & post & -> & E & I' & R & B)].
      * left. exists s'. rewrite <- app_assoc in I'. cbn [to_answer]. rewrite R. auto.
      * right. exists s', (p :: pre), q, post. rewrite <- app_assoc in I', B. simpl. rewrite Em.
        cbn [to_answer]. rewrite R. auto.
Qed.

(** the list of Merge calls Combine makes *)
Definition comb_calls (my ar : list (list nat)) : list (nat * nat) :=
  flat_map (fun ares =>
    if length ares =? 1 then []
    else
      let target := nth 0 (nth (nth 0 ares 0) my []) 0 in
      map (fun orig => (target, orig))
        (filter (fun orig => negb (target =? orig)) (flat_map (fun r => nth r my []) ares))) ar.

Lemma inner_filter (l : list nat) t s :
  foreach_st l (fun s orig => if t =? orig then (s, Ok tt) else merge s t orig) s =
  foreach_st (map (fun x => (t, x)) (filter (fun x => negb (t =? x)) l)) merge_pair s.
Proof.
  revert s; induction l as [|x l IH]; intros s; simpl; [reflexivity|].
  destruct (t =? x); simpl; [apply IH|]. unfold merge_pair at 1; simpl.
  destruct (merge s t x) as [s' [[]| |]]; auto.
Qed.

Lemma combine_body my ar s :
  (forall ares, In ares ar -> ares <> [] /\ (forall r, In r ares -> r < length my)) ->
  (forall r, r < length my -> nth r my [] <> []) ->
  foreach_st ar (fun s ares =>
        if length ares =? 1 then (s, Ok tt)
        else
          with_ s (do a0 <- at_ ares 0; do r0 <- at_ my a0; at_ r0 0) (fun target =>
          foreach_st ares (fun s res_index =>
            with_ s (at_ my res_index) (fun origs =>
            foreach_st origs (fun s orig =>
              if target =? orig then (s, Ok tt) else merge s target orig) s)) s)) s
  = foreach_st (comb_calls my ar) merge_pair s.
Proof.
  intros Har Hmy. unfold comb_calls. rewrite <- foreach_st_flat.
  apply foreach_st_ext. clear s. intros s ares Hin. destruct (Har ares Hin) as [Hne Hr].
  destruct (length ares =? 1); [reflexivity|].
  destruct ares as [|a0 rest]; [congruence|]. unfold at_ at 1; simpl nth_error. cbn [obind].
  assert (Ha0 : a0 < length my) by (apply Hr; left; reflexivity).
  rewrite (at_ok my a0 []) by exact Ha0. cbn [obind].
  rewrite (at_ok (nth a0 my []) 0 0); [|specialize (Hmy a0 Ha0); destruct (nth a0 my []); [congruence|simpl; lia]].
  unfold with_ at 1. cbn [nth].
  rewrite <- inner_filter. rewrite <- foreach_st_flat.
  apply foreach_st_ext. clear s. intros s r Hr'. unfold with_.
  rewrite (at_ok my r []) by (apply Hr, Hr'). reflexivity.
Qed.

Lemma composed_iff n s lg lgB i j : Inv n s lg -> (forall p q, linked lgB p q -> p <> q -> p < cnt s /\ q < cnt s) ->
  (composed (map (class n s) (seq 0 (cnt s))) lgB i j <-> i < n /\ j < n /\ linked lgB (o s i) (o s j)).
Proof.
  intros I HB. unfold composed.
  assert (G : forall k p, In k (nth p (map (class n s) (seq 0 (cnt s))) []) <-> k < n /\ o s k = p).
  { intros k p. destruct (Nat.lt_ge_cases p (cnt s)) as [Hp|Hp].
    - rewrite nth_map_seq by exact Hp. apply in_class.
    - rewrite nth_overflow by (rewrite map_length, seq_length; exact Hp). split; [intros []|].
      intros [Hk <-]. pose proof (i_lt n s lg I k Hk). lia. }
  split.
  - intros (p & q & Hi & Hj & Hl). apply G in Hi, Hj. destruct Hi as [? <-], Hj as [? <-]. auto.
  - intros (Hi & Hj & Hl). exists (o s i), (o s j). rewrite !G. auto.
Qed.

Section Combine.
Variables (n : nat) (s : bk) (lg : log) (b : bk) (lgB : log).
Hypothesis IA : Inv n s lg.
Hypothesis IB : Inv (cnt s) b lgB.
Hypothesis Hmerged : cnt b < cnt s.

Let my := map (class n s) (seq 0 (cnt s)).
Let ar := map (class (cnt s) b) (seq 0 (cnt b)).

Lemma comb_in p : In p (comb_calls my ar) ->
  fst p <> snd p /\ fst p < n /\ snd p < n /\ linked lgB (o s (fst p)) (o s (snd p)).
Proof.
  unfold comb_calls. rewrite in_flat_map. intros (ares & Ha & Hp).
  apply in_map_iff in Ha. destruct Ha as (v & <- & Hv). apply in_seq in Hv.
  destruct (length (class (cnt s) b v) =? 1); [destruct Hp|].
  apply in_map_iff in Hp. destruct Hp as (x & <- & Hx). cbn [fst snd].
  apply filter_In in Hx. destruct Hx as [Hx Hne].
  apply negb_true_iff, Nat.eqb_neq in Hne.
  apply in_flat_map in Hx. destruct Hx as (r & Hr & Hx).
  pose proof (class_nonempty _ b lgB v IB ltac:(lia)) as Hcn.
  assert (Hr0 : In (nth 0 (class (cnt s) b v) 0) (class (cnt s) b v)).
  { destruct (class (cnt s) b v); [congruence|left; reflexivity]. }
  set (r0 := nth 0 (class (cnt s) b v) 0) in *.
  apply in_class in Hr, Hr0. destruct Hr as [Hrn Hr], Hr0 as [Hr0n Hr0].
  unfold my in *. rewrite nth_map_seq in * by assumption.
  pose proof (class_nonempty n s lg r0 IA Hr0n) as Hcn0.
  assert (Ht : In (nth 0 (class n s r0) 0) (class n s r0)).
  { destruct (class n s r0); [congruence|left; reflexivity]. }
  apply in_class in Ht, Hx. destruct Ht as [Htn Ht], Hx as [Hxn Hx].
  repeat split; try assumption. rewrite Ht, Hx.
  apply (i_link _ b lgB IB); congruence.
Qed.

Lemma linked_dones_sound L : (forall p, In p L -> In p (comb_calls my ar)) ->
  forall i j, i < n -> j < n -> linked (lg ++ dones L) i j -> linked lgB (o s i) (o s j).
Proof.
  intros HL.
  assert (G : forall i j, linked (lg ++ dones L) i j ->
     (i = j \/ (i < n /\ j < n)) /\ linked lgB (o s i) (o s j)).
  { intros i j H. induction H as [i j H|i|i j _ IH|i j k _ IH1 _ IH2].
    - apply in_app_or in H. destruct H as [H|H].
      + assert (Hl : linked lg i j) by (apply rst_step; exact H).
        destruct (Nat.eq_dec i j) as [->|Hne]; [split; [auto|apply linked_refl]|].
        destruct (i_range n s lg IA i j Hl Hne) as [Hi Hj]. split; [auto|].
        apply (i_link n s lg IA i j Hi Hj) in Hl. rewrite Hl. apply linked_refl.
      + apply in_map_iff in H. destruct H as ((x & y) & Hxy & Hin). inversion Hxy; subst.
        apply HL, comb_in in Hin. cbn [fst snd] in Hin. tauto.
    - split; [auto|apply linked_refl].
    - destruct IH as [IH1 IH2]. split; [intuition|apply linked_sym; exact IH2].
    - destruct IH1 as [A B], IH2 as [C D]. split; [intuition (subst; auto)|].
      eapply linked_trans; eassumption. }
  intros i j _ _ H. apply G, H.
Qed.

Lemma linked_mono_app l1 l2 i j : linked l1 i j -> linked (l1 ++ l2) i j.
Proof. apply rst_mono. intros; apply in_or_app; auto. Qed.

Lemma linked_dones_complete i j : i < n -> j < n -> linked lgB (o s i) (o s j) ->
  linked (lg ++ dones (comb_calls my ar)) i j.
Proof.
  intros Hi Hj H.
  destruct (Nat.eq_dec (o s i) (o s j)) as [E|E].
  { apply linked_mono_app. apply (i_link n s lg IA); assumption. }
  pose proof (i_lt n s lg IA i Hi) as Hpi. pose proof (i_lt n s lg IA j Hj) as Hpj.
  apply (i_link _ b lgB IB) in H; [|assumption..].
  set (v := o b (o s i)) in *.
  assert (Hv : v < cnt b) by (apply (i_lt _ b lgB IB); exact Hpi).
  assert (Hci : In (o s i) (class (cnt s) b v)) by (apply in_class; auto).
  assert (Hcj : In (o s j) (class (cnt s) b v)) by (apply in_class; auto).
  assert (Hlen : (length (class (cnt s) b v) =? 1) = false).
  { apply Nat.eqb_neq. intros Hl. destruct (class (cnt s) b v) as [|x [|y t]]; try discriminate.
    destruct Hci as [E1|[]], Hcj as [E2|[]]. congruence. }
  set (t := nth 0 (nth (nth 0 (class (cnt s) b v) 0) my []) 0).
  assert (G : forall k, k < n -> In (o s k) (class (cnt s) b v) -> linked (lg ++ dones (comb_calls my ar)) t k).
  { intros k Hk Hin. destruct (Nat.eq_dec t k) as [->|Hne]; [apply linked_refl|].
    apply rst_step. apply in_or_app. right. unfold dones. apply in_map_iff.
    exists (t, k). split; [reflexivity|]. unfold comb_calls. apply in_flat_map.
    exists (class (cnt s) b v). split.
    - apply in_map_iff. exists v. split; [reflexivity|]. apply in_seq. lia.
    - rewrite Hlen. apply in_map_iff. exists k. split; [reflexivity|].
      apply filter_In. split.
      + apply in_flat_map. exists (o s k). split; [exact Hin|].
        unfold my. rewrite nth_map_seq by (eapply i_lt; eauto). apply in_class. auto.
      + apply negb_true_iff, Nat.eqb_neq. exact Hne. }
  eapply linked_trans; [apply linked_sym, G|apply G]; assumption.
Qed.

Lemma prohibited_dones l L a c : prohibited (l ++ dones L) a c <-> prohibited l a c.
Proof.
  unfold prohibited. rewrite !in_app_iff.
  assert (H : forall x y, ~ In (OProhibit x y, ADone) (dones L)).
  { intros x y H. apply in_map_iff in H. destruct H as (p & E & _). discriminate. }
  split; [|tauto]. intros [[H'|H']|[H'|H']]; auto; exfalso; eapply H; exact H'.
Qed.

Lemma combine_eq : combine s b = foreach_st (comb_calls my ar) merge_pair s.
Proof.
  unfold combine. rewrite (pass_result_ok n s lg IA). fold my. cbn [with_].
  rewrite (i_len _ b lgB IB).
  assert (Hm : length my = cnt s) by (unfold my; rewrite map_length, seq_length; reflexivity).
  rewrite Hm, Nat.eqb_refl. cbn [negb].
  rewrite (pass_result_ok _ b lgB IB). fold ar. cbn [with_].
  assert (Ha : length ar = cnt b) by (unfold ar; rewrite map_length, seq_length; reflexivity).
  rewrite Ha. destruct (Nat.leb_spec (cnt s) (cnt b)); [lia|].
  apply combine_body.
  - intros ares Hin. apply in_map_iff in Hin. destruct Hin as (v & <- & Hv). apply in_seq in Hv.
    split; [apply (class_nonempty _ b lgB); [exact IB|lia]|].
    intros r Hr. apply in_class in Hr. lia.
  - rewrite Hm. intros r Hr. unfold my. rewrite nth_map_seq by exact Hr.
    apply (class_nonempty n s lg); assumption.
Qed.

Lemma combine_spec :
  ((exists a c, prohibited lg a c /\ composed my lgB a c) /\
     exists s' ms, combine s b = (s', Throw UserExn) /\
        run s (map (fun p => OMerge (fst p) (snd p)) ms) = (s', dones ms) /\
        (forall p, In p ms -> composed my lgB (fst p) (snd p))) \/
  ((forall a c, prohibited lg a c -> ~ composed my lgB a c) /\
     exists s' ms, combine s b = (s', Ok tt) /\
        run s (map (fun p => OMerge (fst p) (snd p)) ms) = (s', dones ms) /\
        (forall i j, i < n -> j < n -> (is_merged s' i j = Ok true <-> composed my lgB i j))).
Proof.
  assert (HB : forall p q, linked lgB p q -> p <> q -> p < cnt s /\ q < cnt s) by (apply IB).
  assert (HC := fun i j => composed_iff n s lg lgB i j IA HB). fold my in HC.
  rewrite combine_eq.
  destruct (merges_spec n (comb_calls my ar) s lg IA) as
    [(s' & E & I' & R)|(s' & pre & p & post & EL & E & I' & R & B)].
  - intros p Hp. apply comb_in in Hp. tauto.
  - right. assert (Hl : forall i j, i < n -> j < n -> (linked (lg ++ dones (comb_calls my ar)) i j <-> composed my lgB i j)).
    { intros i j Hi Hj. rewrite HC. split.
      - intros H. repeat split; try assumption. eapply linked_dones_sound; eauto.
      - intros (_ & _ & H). apply linked_dones_complete; assumption. }
    split.
    + intros a c Hp Hc. pose proof (proj1 (HC a c) Hc) as (Ha & Hcn & _).
      apply Hl in Hc; [|assumption..].
      apply (prohibited_dones lg (comb_calls my ar)) in Hp.
      destruct (i_prange _ _ _ I' a c Hp) as (_ & _ & Hd).
      apply Hd. apply (i_link _ _ _ I'); assumption.
    + exists s', (comb_calls my ar). split; [exact E|]. split; [exact R|].
      intros i j Hi Hj. rewrite <- Hl by assumption.
      destruct (is_merged_spec n s' _ i j I') as [H _]. destruct (H Hi Hj) as (x & -> & Hx).
      rewrite <- Hx. split; congruence.
  - left.
    assert (Hsub : forall q, In q pre -> In q (comb_calls my ar)).
    { intros q Hq. rewrite EL. apply in_or_app; auto. }
    assert (Hp : In p (comb_calls my ar)) by (rewrite EL; apply in_or_app; right; left; reflexivity).
    apply comb_in in Hp. destruct Hp as (_ & Hp1 & Hp2 & Hpl).
    split.
    + destruct B as (a & c & Hpr & Ha & Hc). exists a, c.
      destruct (i_prange _ _ _ I' a c Hpr) as (La & Lc & _).
      apply prohibited_dones in Hpr. split; [exact Hpr|]. apply HC. split; [exact La|]. split; [exact Lc|].
      apply (linked_dones_sound pre Hsub) in Ha; [|assumption..].
      apply (linked_dones_sound pre Hsub) in Hc; [|assumption..].
      eapply linked_trans; [exact Ha|]. eapply linked_trans; [exact Hpl|]. apply linked_sym, Hc.
    + exists s', pre. split; [exact E|]. split; [exact R|].
      intros q Hq. apply HC. apply Hsub, comb_in in Hq. tauto.
Qed.
End Combine.

Lemma pigeonhole_dec (f : nat -> nat) n :
  (exists i j, i < j /\ j < n /\ f i = f j) \/ (forall i j, i < j -> j < n -> f i <> f j).
Proof.
  induction n as [|n [(i & j & A & B & C)|IH]].
  - right. intros; lia.
  - left. exists i, j. repeat split; auto.
  - assert (D : (exists i, i < n /\ f i = f n) \/ (forall i, i < n -> f i <> f n)).
    { clear. induction n as [|m IHm] at 1 3; [right; intros; lia|].
      destruct IHm as [(i & A & B)|IHm]; [left; exists i; auto|].
      destruct (Nat.eq_dec (f m) (f n)) as [E|E]; [left; exists m; auto|].
      right. intros i Hi. destruct (Nat.eq_dec i m) as [->|]; [exact E|]. apply IHm. lia. }
    destruct D as [(i & A & B)|D].
    + left. exists i, n. auto.
    + right. intros i j Hij Hj. destruct (Nat.eq_dec j n) as [->|]; [apply D; exact Hij|]. apply IH; lia.
Qed.

Lemma nodup_map_inj {A B} (f : A -> B) l : NoDup l ->
  (forall x y, In x l -> In y l -> f x = f y -> x = y) -> NoDup (map f l).
Proof.
  induction 1 as [|a l Ha Hn IH]; intros Hf; simpl; constructor.
  - intros Hin. apply in_map_iff in Hin. destruct Hin as (x & E & Hx).
    assert (x = a) by (apply Hf; [right; exact Hx|left; reflexivity|exact E]). subst. contradiction.
  - apply IH. intros x y Hx Hy. apply Hf; right; assumption.
Qed.

(** number of output sets and "something was merged" *)
Lemma cnt_lt_iff n s lg : Inv n s lg ->
  (cnt s < n <-> exists i j, i < j /\ j < n /\ linked lg i j).
Proof.
  intros I. split.
  - intros Hlt.
    (* pigeonhole: the map o from n indexes into cnt values is not injective *)
    destruct (pigeonhole_dec (fun i => o s i) n) as [(i & j & H1 & H2 & H3)|Hinj].
    + exists i, j. split; [exact H1|]. split; [exact H2|]. apply (i_link n s lg I); [lia|lia|exact H3].
    + exfalso.
      assert (Hnd : NoDup (map (o s) (seq 0 n))).
      { apply nodup_map_inj; [apply seq_NoDup|]. intros x y Hx Hy Hxy. apply in_seq in Hx, Hy.
        destruct (Nat.lt_trichotomy x y) as [L|[L|L]]; [|exact L|].
        - exfalso. apply (Hinj x y); [exact L|lia|exact Hxy].
        - exfalso. apply (Hinj y x); [exact L|lia|symmetry; exact Hxy]. }
      assert (Hincl : incl (map (o s) (seq 0 n)) (seq 0 (cnt s))).
      { intros v Hv. apply in_map_iff in Hv. destruct Hv as (k & <- & Hk). apply in_seq in Hk.
        apply in_seq. pose proof (i_lt n s lg I k ltac:(lia)). lia. }
      pose proof (NoDup_incl_length Hnd Hincl) as HL. rewrite map_length, !seq_length in HL. lia.
  - intros (i & j & H1 & H2 & H3). apply (i_link n s lg I) in H3; [|lia|lia].
    pose proof (i_cnt n s lg I) as Hc. destruct (Nat.eq_dec (cnt s) n) as [E|E]; [|lia]. exfalso.
    (* o is then a surjection from n to n, hence its image list has no duplicates *)
    assert (Hincl : incl (seq 0 n) (map (o s) (seq 0 n))).
    { intros v Hv. apply in_seq in Hv. destruct (i_surj n s lg I v) as (k & Hk & <-); [lia|].
      apply in_map. apply in_seq. lia. }
    assert (Hnd : NoDup (map (o s) (seq 0 n))).
    { apply (@NoDup_incl_NoDup nat (seq 0 n)); [apply seq_NoDup| |exact Hincl].
      rewrite map_length, seq_length. lia. }
    assert (HN := proj1 (NoDup_nth (map (o s) (seq 0 n)) 0) Hnd i j).
    rewrite map_length, seq_length in HN. rewrite !nth_map_seq in HN by lia.
    specialize (HN ltac:(lia) ltac:(lia) H3). lia.
Qed.
