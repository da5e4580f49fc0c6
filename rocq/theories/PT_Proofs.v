From Verif Require Import Base Util SortedObj_Model SortedObj_Spec SortedObj_Proofs PT_Model PT_Spec.
Import PT_Spec.

(* ------------------------------------------------------------ reading a well-formed world *)
Section W.
Context (w : world) (Hw : wf w).
Notation h := (w_heap w).

Lemma track_len t T : w_trk w t = Some T -> NoDup (t_nodes T) /\ 2 <= length (t_nodes T) /\ length (t_nodes T) = S (length (t_segs T)).
Proof using Hw. intros E. destruct (wf_track _ Hw _ _ E) as (A & B & C & _). auto. Qed.
Lemma seg_at t T i s : w_trk w t = Some T -> nth_error (t_segs T) i = Some s ->
  w_par w s = t /\ exists a b oa os ob, nth_error (t_nodes T) i = Some a /\ nth_error (t_nodes T) (S i) = Some b /\
      h a = Some oa /\ o_branch oa = true /\ In s (o_nexts oa) /\ h s = Some os /\ o_branch os = false /\ o_next os = Some b /\ h b = Some ob /\ o_branch ob = true /\ o_prev os = Some a /\ o_prev ob = Some s.
Proof using Hw.
  intros E Es. destruct (wf_track _ Hw _ _ E) as (_ & _ & _ & D). destruct (D i s Es) as (P & a & b & oa & os & ob & H1 & H2 & H3 & H4 & H5 & H6 & H7 & H8 & H9 & H10). split; [exact P|].
  exists a, b, oa, os, ob. repeat (split; [assumption|]). split.
  - destruct (l_kids _ (wf_linked _ Hw) a oa s H3) as (o & X & Y & _); [unfold kids; rewrite H4; exact H5|]. congruence.
  - destruct (l_kids _ (wf_linked _ Hw) s os b H6) as (o & X & Y & _); [unfold kids; rewrite H7, H8; left; reflexivity|]. congruence.
Qed.
(** every node of a track is alive *)
Lemma node_live t T i n : w_trk w t = Some T -> nth_error (t_nodes T) i = Some n -> exists o, h n = Some o /\ o_branch o = true.
Proof using Hw.
  intros E En. destruct (track_len t T E) as (_ & L2 & L). assert (Hi : i < length (t_nodes T)) by (apply nth_error_Some; congruence).
  destruct (Nat.eq_dec i 0) as [->|Hn].
  - destruct (nth_error (t_segs T) 0) as [s|] eqn:Es; [|apply nth_error_None in Es; lia]. destruct (seg_at t T 0 s E Es) as (_ & a & b & oa & os & ob & H1 & _ & H3 & H4 & _). exists oa. split; congruence.
  - destruct (nth_error (t_segs T) (i - 1)) as [s|] eqn:Es; [|apply nth_error_None in Es; lia]. destruct (seg_at t T _ s E Es) as (_ & a & b & oa & os & ob & _ & H2 & _ & _ & _ & _ & _ & _ & H9 & H10 & _). replace (S (i - 1)) with i in H2 by lia. exists ob. split; congruence.
Qed.
(** a segment leading on from a node belongs to a track through that node *)
Lemma next_seg n o s : h n = Some o -> o_branch o = true -> In s (o_nexts o) ->
  exists T i, w_trk w (w_par w s) = Some T /\ nth_error (t_segs T) i = Some s /\ nth_error (t_nodes T) i = Some n.
Proof using Hw.
  intros En Hb Hs. destruct (l_kids _ (wf_linked _ Hw) n o s En) as (os & X & Y & Z); [unfold kids; rewrite Hb; exact Hs|]. rewrite Hb in Z. cbn in Z.
  destruct (wf_seg _ Hw s os X Z) as (T & ET & Hin). apply In_nth_error in Hin. destruct Hin as (i & Hi). exists T, i. split; [exact ET|]. split; [exact Hi|].
  destruct (seg_at _ T i s ET Hi) as (_ & a & b & oa & os' & ob & H1 & H2 & H3 & H4 & H5 & H6 & H7 & H8 & H9 & H10 & H11 & H12). assert (os' = os) by congruence. subst os'. rewrite Y in H11. injection H11 as <-. exact H1.
Qed.
Lemma prev_seg t T i n o : w_trk w t = Some T -> nth_error (t_nodes T) (S i) = Some n -> h n = Some o -> exists s, o_prev o = Some s /\ w_par w s = t /\ nth_error (t_segs T) i = Some s.
Proof using Hw.
  intros E En Eo. destruct (track_len t T E) as (_ & L2 & L). assert (S i < length (t_nodes T)) by (apply nth_error_Some; congruence).
  destruct (nth_error (t_segs T) i) as [s|] eqn:Es; [|apply nth_error_None in Es; lia]. destruct (seg_at t T i s E Es) as (P & a & b & oa & os & ob & H1 & H2 & H3 & H4 & H5 & H6 & H7 & H8 & H9 & H10 & H11 & H12).
  exists s. assert (b = n) by congruence. subst b. assert (ob = o) by congruence. subst ob. auto.
Qed.
Lemma prev_none_or n o : h n = Some o -> o_branch o = true -> match o_prev o with Some s => exists T i, w_trk w (w_par w s) = Some T /\ nth_error (t_segs T) i = Some s /\ nth_error (t_nodes T) (S i) = Some n | None => True end.
Proof using Hw.
  intros En Hb. destruct (o_prev o) as [s|] eqn:Ep; [|exact Logic.I]. destruct (l_prev _ (wf_linked _ Hw) n o s En Ep) as (os & Es & Hk). destruct (l_kids _ (wf_linked _ Hw) s os n Es Hk) as (o' & X & Y & Z). assert (o' = o) by congruence. subst o'. rewrite Hb in Z.
  destruct (o_branch os) eqn:Hbs; [discriminate|]. destruct (wf_seg _ Hw s os Es Hbs) as (T & ET & Hin). apply In_nth_error in Hin. destruct Hin as (i & Hi). exists T, i. split; [exact ET|]. split; [exact Hi|].
  destruct (seg_at _ T i s ET Hi) as (_ & a & b & oa & os' & ob & H1 & H2 & H3 & H4 & H5 & H6 & H7 & H8 & H9 & H10 & H11 & H12). assert (os' = os) by congruence. subst os'. unfold kids in Hk. rewrite Hbs, H8 in Hk. destruct Hk as [<-|[]]. exact H2.
Qed.
(** two tracks through the same node: unless they both start there, the second enters it by the same segment *)
Lemma share t T i t' T' i' n : w_trk w t = Some T -> w_trk w t' = Some T' -> nth_error (t_nodes T) (S i) = Some n -> nth_error (t_nodes T') i' = Some n -> t <> t' -> i' = 0.
Proof using Hw.
  intros E E' En En' Hne. destruct i' as [|i']; [reflexivity|]. exfalso. destruct (node_live t T _ n E En) as (o & Eo & _).
  destruct (prev_seg t T i n o E En Eo) as (s & X & Y & _). destruct (prev_seg t' T' i' n o E' En' Eo) as (s' & X' & Y' & _). congruence.
Qed.
Lemma nexts_ok n o : h n = Some o -> nexts w n = Ok (o_nexts o).
Proof. intros E. unfold nexts, deref. rewrite E. reflexivity. Qed.
Lemma prev_ok n o : h n = Some o -> prev w n = Ok (o_prev o).
Proof. intros E. unfold prev, deref. rewrite E. reflexivity. Qed.
Lemma find_ext_in {A} (f : A -> bool) l x : In x l -> f x = true -> (forall y, In y l -> f y = true -> y = x) -> find f l = Some x.
Proof.
  induction l as [|y l IH]; intros Hin Hf Hu; [destruct Hin|]. cbn. destruct (f y) eqn:E; [f_equal; apply Hu; [left; reflexivity|exact E]|]. apply IH; [|exact Hf|intros z Hz; apply Hu; right; exact Hz]. destruct Hin as [->|Hin]; [congruence|exact Hin].
Qed.
Lemma find_none_in {A} (f : A -> bool) l : (forall y, In y l -> f y = false) -> find f l = None.
Proof. induction l as [|y l IH]; intros Hu; cbn; [reflexivity|]. rewrite (Hu y (or_introl eq_refl)). apply IH. intros z Hz. apply Hu. right. exact Hz. Qed.
Lemma next_segment_ok t T i n : w_trk w t = Some T -> nth_error (t_nodes T) i = Some n -> next_segment w t n = Ok (nth_error (t_segs T) i).
Proof using Hw.
  intros E En. destruct (node_live t T i n E En) as (o & Eo & Hb). unfold next_segment. rewrite (nexts_ok n o Eo). cbn [obind]. f_equal. destruct (track_len t T E) as (Nd & _ & L).
  assert (U : forall s, In s (o_nexts o) -> (w_par w s =? t) = true -> nth_error (t_segs T) i = Some s).
  { intros s Hs Hp. apply Nat.eqb_eq in Hp. destruct (next_seg n o s Eo Hb Hs) as (T' & i' & E1 & E2 & E3). rewrite Hp in E1. assert (T' = T) by congruence. subst T'.
    assert (i' = i). { rewrite NoDup_nth_error in Nd. apply Nd; [apply nth_error_Some; congruence|congruence]. } subst i'. exact E2. }
  destruct (nth_error (t_segs T) i) as [s|] eqn:Es.
  - destruct (seg_at t T i s E Es) as (P & a & b & oa & os & ob & H1 & H2 & H3 & H4 & H5 & _). assert (a = n) by congruence. subst a. assert (oa = o) by congruence. subst oa.
    apply find_ext_in; [exact H5|apply Nat.eqb_eq; exact P|]. intros y Hy Hp. apply U in Hp; [congruence|exact Hy].
  - apply find_none_in. intros y Hy. destruct (w_par w y =? t) eqn:Hp; [|reflexivity]. apply U in Hp; [discriminate|exact Hy].
Qed.

(* ------------------------------------------------------------ candidates *)
Definition index_ok (cs : list cand) : Prop := holds w cs.
Lemma cand_index_spec cs t k : cand_index cs (Some t) = Some k -> exists c, nth_error cs k = Some c /\ c_trk c = Some t.
Proof.
  revert k. induction cs as [|c cs IH]; intros k; cbn [cand_index]; [discriminate|]. destruct (c_trk c) as [a|] eqn:E.
  - destruct (Nat.eqb_spec a t) as [->|Hne]; [intros [= <-]; exists c; split; [reflexivity|exact E]|]. destruct (cand_index cs (Some t)) as [k'|]; cbn; [|discriminate]. intros [= <-]. apply IH. reflexivity.
  - destruct (cand_index cs (Some t)) as [k'|]; cbn; [|discriminate]. intros [= <-]. apply IH. reflexivity.
Qed.
Lemma cand_index_some cs t : (exists c, In c cs /\ c_trk c = Some t) -> exists k c, cand_index cs (Some t) = Some k /\ nth_error cs k = Some c /\ c_trk c = Some t.
Proof.
  intros (c & Hin & E). assert (exists k, cand_index cs (Some t) = Some k).
  { revert Hin. induction cs as [|x cs IH]; intros Hin; [destruct Hin|]. cbn [cand_index]. destruct Hin as [->|Hin].
    - rewrite E, Nat.eqb_refl. eauto.
    - destruct (match c_trk x with Some a => a =? t | None => false end); [eauto|]. destruct (IH Hin) as (k & ->). cbn. eauto. }
  destruct H as (k & Hk). destruct (cand_index_spec cs t k Hk) as (c' & A & B). eauto.
Qed.
Lemma cand_index_none cs t : cand_index cs (Some t) = None -> forall c, In c cs -> c_trk c <> Some t.
Proof. intros H c Hin E. destruct (cand_index_some cs t (ex_intro _ c (conj Hin E))) as (k & _ & X & _). congruence. Qed.

(** candidates keep their tracks when relabelled *)
Lemma relabelled_refl (D : nat -> Prop) id cs : (forall t, ~ D t) -> relabelled D id cs cs.
Proof. intros Hd. induction cs as [|c cs IH]; constructor; [|exact IH]. split; [left; reflexivity|]. intros t _ Ht. exfalso. exact (Hd t Ht). Qed.
Lemma F2_trans {A} (P Q R : A -> A -> Prop) : (forall a b c, P a b -> Q b c -> R a c) -> forall l l' l'', Forall2 P l l' -> Forall2 Q l' l'' -> Forall2 R l l''.
Proof. intros Hx l l' l'' H1. revert l''. induction H1; intros l'' H2; inversion H2; subst; constructor; eauto. Qed.
Lemma relabelled_trans (D1 D2 : nat -> Prop) id cs cs1 cs2 : relabelled D1 id cs cs1 -> relabelled D2 id cs1 cs2 -> relabelled (fun t => D1 t \/ D2 t) id cs cs2.
Proof.
  unfold relabelled. apply F2_trans. intros a b c (A1 & A2) (B1 & B2). assert (Ht : c_trk b = c_trk a) by (destruct A1 as [->|[-> _]]; reflexivity). split.
  - destruct B1 as [->|[-> (t & T1 & T2)]].
    + destruct A1 as [->|[-> (t & T1 & T2)]]; [left; reflexivity|right; split; [reflexivity|eauto]].
    + right. split; [destruct A1 as [->|[-> _]]; reflexivity|]. exists t. rewrite <- Ht. auto.
  - intros t T1 [T2|T2].
    + specialize (A2 t T1 T2). subst b. destruct B1 as [->|[-> _]]; reflexivity.
    + rewrite <- Ht in T1. rewrite (B2 t T1 T2). destruct A1 as [->|[-> _]]; reflexivity.
Qed.
Lemma relabelled_ext (D D' : nat -> Prop) id cs cs' : (forall t, D t <-> D' t) -> relabelled D id cs cs' -> relabelled D' id cs cs'.
Proof. intros He Hr. unfold relabelled in *. induction Hr as [|a b l l' (A & B) _ IH]; constructor; [|exact IH]. split; [destruct A as [A|[A (t & T1 & T2)]]; [left; exact A|right; split; [exact A|exists t; split; [exact T1|apply He, T2]]]|]. intros t T1 T2. apply (B t T1), He, T2. Qed.
Lemma relabelled_nth D id cs cs' k c : relabelled D id cs cs' -> nth_error cs k = Some c -> exists c', nth_error cs' k = Some c' /\ c_trk c' = c_trk c /\ (c' = c \/ c' = set_tree c id /\ exists t, c_trk c = Some t /\ D t) /\ (forall t, c_trk c = Some t -> D t -> c' = set_tree c id).
Proof.
  intros Hr. revert k. induction Hr as [|a b l l' (A & B) _ IH]; intros k E; [destruct k; discriminate|]. destruct k as [|k]; [|apply IH; exact E]. injection E as <-. exists b. split; [reflexivity|]. split; [destruct A as [->|[-> _]]; reflexivity|]. auto.
Qed.
Lemma relabelled_len D id cs cs' : relabelled D id cs cs' -> length cs' = length cs.
Proof. intros Hr. induction Hr; cbn; auto. Qed.
Lemma relabelled_trks D id cs cs' : relabelled D id cs cs' -> map c_trk cs' = map c_trk cs.
Proof. intros Hr. induction Hr as [|a b l l' (A & B) _ IH]; cbn; [reflexivity|]. f_equal; [|exact IH]. destruct A as [->|[-> _]]; reflexivity. Qed.
Lemma cand_index_trks cs cs' t : map c_trk cs' = map c_trk cs -> cand_index cs' t = cand_index cs t.
Proof. revert cs'. induction cs as [|c cs IH]; intros [|c' cs'] E; try discriminate; [reflexivity|]. cbn in *. injection E as -> E. rewrite (IH _ E). reflexivity. Qed.
End W.
Lemma holds_trks w cs cs' : map c_trk cs' = map c_trk cs -> holds w cs -> holds w cs'.
Proof.
  intros E (A & B & C). assert (N : forall i c', nth_error cs' i = Some c' -> exists c, nth_error cs i = Some c /\ c_trk c = c_trk c').
  { intros i c' H. assert (X := map_nth_error c_trk i cs' H). rewrite E in X. rewrite nth_error_map in X. destruct (nth_error cs i) as [c|]; [|discriminate]. cbn in X. injection X as X. eauto. }
  split; [|split].
  - intros t T Ht. destruct (A t T Ht) as (c & Hin & Ec). assert (X : In (Some t) (map c_trk cs')) by (rewrite E, <- Ec; apply in_map, Hin). apply in_map_iff in X. destruct X as (c' & X1 & X2). exists c'. split; assumption.
  - intros c' t Hin Ec. apply In_nth_error in Hin. destruct Hin as (i & Hi). destruct (N i c' Hi) as (c & X1 & X2). apply (B c t); [eapply nth_error_In; exact X1|congruence].
  - intros i j ci cj t Hi Hj Ei Ej. destruct (N i ci Hi) as (c & X1 & X2). destruct (N j cj Hj) as (d & Y1 & Y2). apply (C i j c d t); congruence.
Qed.

(* ------------------------------------------------------------ setTreeId *)
Lemma below_step w t t' u : branch_of w t t' -> below w t' u -> below w t u.
Proof. intros H1 H2. eapply rt_trans; [apply rt_step; exact H1|exact H2]. Qed.
Lemma below_inv w t u : below w t u -> u = t \/ exists t', branch_of w t t' /\ below w t' u.
Proof. intros H. apply clos_rt_rt1n in H. destruct H as [|y z Hxy Hyz]; [left; reflexivity|right]. exists y. split; [exact Hxy|apply clos_rt1n_rt; exact Hyz]. Qed.
Lemma removelast_nth {A} (l : list A) n : In n (removelast l) <-> exists i, S i < length l /\ nth_error l i = Some n.
Proof.
  induction l as [|x l IH]; cbn [removelast length]; [split; [intros []|intros (i & Hi & _); lia]|]. destruct l as [|y l].
  - split; [intros []|intros (i & Hi & _); cbn in Hi; lia].
  - change (In n (x :: removelast (y :: l)) <-> exists i, S i < S (length (y :: l)) /\ nth_error (x :: y :: l) i = Some n). cbn [In]. rewrite IH. split.
    + intros [->|(i & Hi & E)]; [exists 0; cbn; split; [lia|reflexivity]|exists (S i); split; [lia|exact E]].
    + intros ([|i] & Hi & E); [left; injection E as ->; reflexivity|right; exists i; split; [lia|exact E]].
Qed.
Lemma tl_nth {A} (l : list A) n : In n (tl l) <-> exists i, nth_error l (S i) = Some n.
Proof. destruct l as [|x l]; cbn; [split; [intros []|intros (i & E); destruct i; discriminate]|]. split; [apply In_nth_error|intros (i & E); eapply nth_error_In; exact E]. Qed.
Lemma hd_nth {A} (l : list A) : hd_error l = nth_error l 0.
Proof. destruct l; reflexivity. Qed.

Section Tree.
Context (w : world) (Hw : wf w) (id : Z).
Notation h := (w_heap w).
Context (depth : nat -> nat) (Hdepth : forall t t', branch_of w t t' -> depth t < depth t').
Context (L M : nat) (HL : forall t T, w_trk w t = Some T -> length (t_nodes T) <= L /\ depth t <= M).

(** the tracks other than [t] leading on from the nodes of [t] from the i-th on, and what is below them *)
Definition off (t : nat) (T : ptrack) (i : nat) (u : nat) : Prop := exists j n t', i <= j /\ nth_error (t_nodes T) j = Some n /\ t' <> t /\ leads_from w t' n /\ below w t' u.
Lemma leads_next n o t' : h n = Some o -> o_branch o = true -> (leads_from w t' n <-> exists s, In s (o_nexts o) /\ w_par w s = t').
Proof using Hw.
  intros En Hb. split.
  - intros (T & ET & Hin). apply removelast_nth in Hin. destruct Hin as (i & Hi & Ei). destruct (track_len w Hw t' T ET) as (_ & _ & Ln).
    destruct (nth_error (t_segs T) i) as [s|] eqn:Es; [|apply nth_error_None in Es; lia]. destruct (seg_at w Hw t' T i s ET Es) as (P & a & b & oa & os & ob & H1 & H2 & H3 & H4 & H5 & _). exists s. split; [|exact P]. assert (a = n) by congruence. subst a. assert (oa = o) by congruence. subst oa. exact H5.
  - intros (s & Hs & P). destruct (next_seg w Hw n o s En Hb Hs) as (T & i & E1 & E2 & E3). rewrite P in E1. exists T. split; [exact E1|]. apply removelast_nth. exists i. split; [|exact E3].
    destruct (track_len w Hw t' T E1) as (_ & _ & Ln). assert (i < length (t_segs T)) by (apply nth_error_Some; congruence). lia.
Qed.
(** from the second node on these are exactly the branches *)
Lemma off_branch t T u : w_trk w t = Some T -> (off t T 1 u <-> exists t', branch_of w t t' /\ below w t' u).
Proof using Hw.
  intros ET. split.
  - intros (j & n & t' & Hj & En & Hne & (T' & ET' & Hin) & Hb). exists t'. split; [|exact Hb]. apply removelast_nth in Hin. destruct Hin as (i & Hi & Ei). destruct j as [|j]; [lia|].
    assert (i = 0) by (exact (share w Hw t T j t' T' i n ET ET' En Ei (not_eq_sym Hne))). subst i.
    split; [apply not_eq_sym; exact Hne|]. exists T, T', n. repeat (split; [assumption|]). split; [apply tl_nth; eauto|rewrite hd_nth; exact Ei].
  - intros (t' & (Hne & T0 & T' & n & E0 & E' & Hin & Hd) & Hb). assert (T0 = T) by congruence. subst T0. apply tl_nth in Hin. destruct Hin as (i & Ei). exists (S i), n, t'. split; [lia|]. split; [exact Ei|]. split; [congruence|]. split; [|exact Hb].
    exists T'. split; [exact E'|]. apply removelast_nth. exists 0. rewrite <- hd_nth. split; [|exact Hd]. destruct (track_len w Hw t' T' E') as (_ & L2 & _). lia.
Qed.

Definition rec_ok (rec : list cand -> nat -> outcome (list cand)) (Q : nat -> Prop) : Prop :=
  forall cs k c t', holds w cs -> nth_error cs k = Some c -> c_trk c = Some t' -> Q t' -> exists cs', rec cs k = Ok cs' /\ relabelled (below w t') id cs cs'.
Lemma inner rec Q t n o sthis : h n = Some o -> o_branch o = true -> rec_ok rec Q ->
  (forall s, In s (o_nexts o) -> same sthis s = false -> Q (w_par w s)) -> (forall s, In s (o_nexts o) -> same sthis s = true <-> w_par w s = t) ->
  forall cs, holds w cs -> exists cs', foreach (o_nexts o) (fun cs s => if same sthis s then Ok cs else match cand_index cs (Some (w_par w s)) with Some k => rec cs k | None => Ok cs end) cs = Ok cs' /\
    relabelled (fun u => exists t', t' <> t /\ leads_from w t' n /\ below w t' u) id cs cs'.
Proof using Hw.
  intros En Hb Hrec Hd Hs. assert (Hin : incl (o_nexts o) (o_nexts o)) by apply incl_refl.
  assert (G : forall l, incl l (o_nexts o) -> forall cs, holds w cs -> exists cs', foreach l (fun cs s => if same sthis s then Ok cs else match cand_index cs (Some (w_par w s)) with Some k => rec cs k | None => Ok cs end) cs = Ok cs' /\
    relabelled (fun u => exists s, In s l /\ w_par w s <> t /\ below w (w_par w s) u) id cs cs').
  { induction l as [|s l IH]; intros Hl cs Hc; cbn [foreach].
    - exists cs. split; [reflexivity|]. apply relabelled_refl. intros u (s & [] & _).
    - assert (Hsi : In s (o_nexts o)) by (apply Hl; left; reflexivity). assert (Hl' : incl l (o_nexts o)) by (intros x Hx; apply Hl; right; exact Hx).
      assert (Step : exists cs1, (if same sthis s then Ok cs else match cand_index cs (Some (w_par w s)) with Some k => rec cs k | None => Ok cs end) = Ok cs1 /\ relabelled (fun u => w_par w s <> t /\ below w (w_par w s) u) id cs cs1).
      { destruct (same sthis s) eqn:Es.
        - exists cs. split; [reflexivity|]. apply relabelled_refl. intros u (X & _). apply Hs in Es; auto.
        - assert (Hne : w_par w s <> t) by (intros X; apply Hs in X; [congruence|exact Hsi]).
          destruct (next_seg w Hw n o s En Hb Hsi) as (T' & i & E1 & _ & _). destruct Hc as (Hc1 & Hc2 & Hc3). destruct (cand_index_some cs _ (Hc1 _ _ E1)) as (k & c & K1 & K2 & K3). rewrite K1.
          destruct (Hrec cs k c _ (conj Hc1 (conj Hc2 Hc3)) K2 K3 (Hd s Hsi Es)) as (cs1 & R1 & R2). exists cs1. split; [exact R1|]. revert R2. apply relabelled_ext. intros u. tauto. }
      destruct Step as (cs1 & E1 & R1). rewrite E1. cbn [obind]. destruct (IH Hl' cs1 (holds_trks w cs cs1 (relabelled_trks _ _ _ _ R1) Hc)) as (cs2 & E2 & R2). exists cs2. split; [exact E2|].
      eapply relabelled_ext; [|exact (relabelled_trans _ _ _ _ _ _ R1 R2)]. intros u. cbn. split.
      + intros [(X & Y)|(s' & X & Y & Z)]; [exists s; auto|exists s'; auto].
      + intros (s' & [<-|X] & Y & Z); [left; auto|right; exists s'; auto]. }
  intros cs Hc. destruct (G (o_nexts o) Hin cs Hc) as (cs' & E & R). exists cs'. split; [exact E|]. revert R. apply relabelled_ext. intros u. split.
  - intros (s & X & Y & Z). exists (w_par w s). split; [exact Y|]. split; [apply (leads_next n o _ En Hb); eauto|exact Z].
  - intros (t' & X & Y & Z). apply (leads_next n o _ En Hb) in Y. destruct Y as (s & Y1 & <-). exists s. auto.
Qed.
Lemma walk_ok rec Q t T : w_trk w t = Some T -> rec_ok rec Q -> forall fuel i n cs, nth_error (t_nodes T) i = Some n -> length (t_nodes T) - i <= fuel -> holds w cs ->
  (forall j m t', i <= j -> nth_error (t_nodes T) j = Some m -> t' <> t -> leads_from w t' m -> Q t') ->
  exists cs', walk rec fuel w t n cs = Ok cs' /\ relabelled (off t T i) id cs cs'.
Proof using Hw.
  intros ET Hrec. induction fuel as [|f IH]; intros i n cs En Hf Hc HQ.
  - assert (i < length (t_nodes T)) by (apply nth_error_Some; congruence). lia.
  - cbn [walk]. rewrite (next_segment_ok w Hw t T i n ET En). cbn [obind]. destruct (node_live w Hw t T i n ET En) as (o & Eo & Hb). rewrite (nexts_ok w n o Eo). cbn [obind].
    assert (Hsame : forall s, In s (o_nexts o) -> same (nth_error (t_segs T) i) s = true <-> w_par w s = t).
    { intros s Hs. split.
      - intros X. destruct (nth_error (t_segs T) i) as [s'|] eqn:Es; [|discriminate]. cbn in X. apply Nat.eqb_eq in X. subst s'. apply (seg_at w Hw t T i s ET Es).
      - intros X. destruct (next_seg w Hw n o s Eo Hb Hs) as (T' & i' & E1 & E2 & E3). rewrite X in E1. assert (T' = T) by congruence. subst T'. destruct (track_len w Hw t T ET) as (Nd & _ & _).
        assert (i' = i). { rewrite NoDup_nth_error in Nd. apply Nd; [apply nth_error_Some; congruence|congruence]. } subst i'. rewrite E2. cbn. apply Nat.eqb_refl. }
    assert (Hd : forall s, In s (o_nexts o) -> same (nth_error (t_segs T) i) s = false -> Q (w_par w s)).
    { intros s Hs X. apply (HQ i n); [lia|exact En|intros Y; apply Hsame in Y; [congruence|exact Hs]|apply (leads_next n o _ Eo Hb); eauto]. }
    destruct (inner rec Q t n o _ Eo Hb Hrec Hd Hsame cs Hc) as (cs1 & E1 & R1). rewrite E1. cbn [obind].
    destruct (nth_error (t_segs T) i) as [s|] eqn:Es.
    + destruct (seg_at w Hw t T i s ET Es) as (P & a & b & oa & os & ob & H1 & H2 & H3 & H4 & H5 & H6 & H7 & H8 & H9 & H10 & H11 & H12). unfold deref. rewrite H6. cbn [obind]. rewrite H8.
      destruct (IH (S i) b cs1 H2 ltac:(lia) (holds_trks w cs cs1 (relabelled_trks _ _ _ _ R1) Hc) ltac:(intros j m t' Hj; apply HQ; lia)) as (cs2 & E2 & R2). exists cs2. split; [exact E2|].
      eapply relabelled_ext; [|exact (relabelled_trans _ _ _ _ _ _ R1 R2)]. intros u. cbn. unfold off. split.
      * intros [(t' & X & Y & Z)|(j & m & t' & X1 & X2 & X3 & X4 & X5)]; [exists i, n, t'; repeat split; auto|exists j, m, t'; repeat split; auto; lia].
      * intros (j & m & t' & X1 & X2 & X3 & X4 & X5). destruct (Nat.eq_dec j i) as [->|Hne]; [left; exists t'; assert (m = n) by congruence; subst; auto|right; exists j, m, t'; repeat split; auto; lia].
    + exists cs1. split; [reflexivity|]. revert R1. apply relabelled_ext. intros u. unfold off. split.
      * intros (t' & X & Y & Z). exists i, n, t'. repeat split; auto.
      * intros (j & m & t' & X1 & X2 & X3 & X4 & X5). exists t'. destruct (track_len w Hw t T ET) as (_ & _ & Ln). apply nth_error_None in Es. assert (j < length (t_nodes T)) by (apply nth_error_Some; congruence). assert (j = i) by (assert (i < length (t_nodes T)) by (apply nth_error_Some; congruence); lia). subst j. assert (m = n) by congruence. subst. auto.
Qed.
Lemma set_label cs k c t : holds w cs -> nth_error cs k = Some c -> c_trk c = Some t -> set_idx cs k (set_tree c id) = Ok (upd cs k (set_tree c id)) /\ relabelled (fun u => u = t) id cs (upd cs k (set_tree c id)).
Proof.
  intros (_ & _ & Hu) Ek Et. assert (Hk : k < length cs) by (apply nth_error_Some; congruence). split; [apply set_idx_ok; exact Hk|].
  assert (Hoth : forall j cj, nth_error cs j = Some cj -> c_trk cj = Some t -> j = k) by (intros j cj X Y; exact (Hu j k cj c t X Ek Y Et)). clear Hu Hk.
  revert k Ek Hoth. induction cs as [|x cs IH]; intros k Ek Hoth; [destruct k; discriminate|]. destruct k as [|k]; cbn [upd].
  - injection Ek as ->. constructor.
    + split; [right; split; [reflexivity|exists t; auto]|]. intros u _ _. reflexivity.
    + assert (G : forall y, In y cs -> c_trk y <> Some t) by (intros y Hy E; apply In_nth_error in Hy; destruct Hy as (j & Hj); specialize (Hoth (S j) y Hj E); discriminate). clear -G.
      induction cs as [|y cs IH]; constructor; [|apply IH; intros z Hz; apply G; right; exact Hz]. split; [left; reflexivity|]. intros u X ->. exfalso. exact (G y (or_introl eq_refl) X).
  - constructor.
    + split; [left; reflexivity|]. intros u X ->. specialize (Hoth 0 x eq_refl X). discriminate.
    + apply IH; [exact Ek|]. intros j cj Hj Ej. specialize (Hoth (S j) cj Hj Ej). lia.
Qed.
Lemma nonroot_ok : forall fuel cs k c t, holds w cs -> nth_error cs k = Some c -> c_trk c = Some t -> S (L + M) - depth t <= fuel -> exists cs', set_tree_id fuel w id cs k false = Ok cs' /\ relabelled (below w t) id cs cs'.
Proof using Hw Hdepth HL.
  induction fuel as [|f IH]; intros cs k c t Hc Ek Et Hf.
  - destruct (w_trk w t) as [T|] eqn:ET; [destruct (HL t T ET); lia|]. exfalso. destruct Hc as (_ & X & _). exact (X c t (nth_error_In _ _ Ek) Et ET).
  - cbn [set_tree_id]. unfold idx at 1. rewrite Ek. cbn [obind]. rewrite Et. unfold deref_t. destruct (w_trk w t) as [T|] eqn:ET; [|exfalso; destruct Hc as (_ & X & _); exact (X c t (nth_error_In _ _ Ek) Et ET)]. cbn [obind].
    destruct (track_len w Hw t T ET) as (Nd & L2 & Ln). destruct (HL t T ET) as [HL1 HL2].
    unfold front, idx at 1. destruct (nth_error (t_nodes T) 0) as [n0|] eqn:E0; [|apply nth_error_None in E0; lia]. cbn [obind]. rewrite (next_segment_ok w Hw t T 0 n0 ET E0). cbn [obind].
    destruct (nth_error (t_segs T) 0) as [s|] eqn:Es; [|apply nth_error_None in Es; lia]. destruct (seg_at w Hw t T 0 s ET Es) as (P & a & b & oa & os & ob & H1 & H2 & H3 & H4 & H5 & H6 & H7 & H8 & _). unfold deref. rewrite H6. cbn [obind]. rewrite H8.
    assert (Hrec : rec_ok (fun cs k => set_tree_id f w id cs k false) (branch_of w t)).
    { intros cs' k' c' t' X1 X2 X3 X4. apply (IH cs' k' c' t' X1 X2 X3). apply Hdepth in X4. lia. }
    destruct (walk_ok _ _ t T ET Hrec f 1 b cs H2 ltac:(lia) Hc) as (cs1 & E1 & R1).
    { intros j m t' Hj Ej Hne Hl. destruct Hl as (T' & ET' & Hin). apply removelast_nth in Hin. destruct Hin as (i & Hi & Ei). destruct j as [|j]; [lia|]. assert (i = 0) by (exact (share w Hw t T j t' T' i m ET ET' Ej Ei (not_eq_sym Hne))). subst i.
      split; [apply not_eq_sym; exact Hne|]. exists T, T', m. repeat (split; [assumption|]). split; [apply tl_nth; eauto|rewrite hd_nth; exact Ei]. }
    rewrite E1. cbn [obind]. destruct (relabelled_nth _ _ _ _ k c R1 Ek) as (c1 & N1 & N2 & _). unfold idx. rewrite N1. cbn [obind]. rewrite Et in N2.
    destruct (set_label cs1 k c1 t (holds_trks w cs cs1 (relabelled_trks _ _ _ _ R1) Hc) N1 N2) as (S1 & S2). exists (upd cs1 k (set_tree c1 id)). split; [exact S1|].
    eapply relabelled_ext; [|exact (relabelled_trans _ _ _ _ _ _ R1 S2)]. intros u. cbn. rewrite (off_branch t T u ET). split.
    + intros [(t' & X & Y)| ->]; [exact (below_step _ _ _ _ X Y)|apply rt_refl].
    + intros X. apply below_inv in X. tauto.
Qed.
Lemma root_ok fuel cs k c t n0 : holds w cs -> nth_error cs k = Some c -> c_trk c = Some t -> S (S (L + M)) <= fuel -> starts_at w t n0 ->
  exists cs', set_tree_id fuel w id cs k true = Ok cs' /\ relabelled (fun u => exists t', leads_from w t' n0 /\ below w t' u) id cs cs'.
Proof using Hw Hdepth HL.
  intros Hc Ek Et Hf (T & ET & E0). rewrite hd_nth in E0. destruct fuel as [|f]; [lia|]. cbn [set_tree_id]. unfold idx at 1. rewrite Ek. cbn [obind]. rewrite Et. unfold deref_t. rewrite ET. cbn [obind].
  unfold front, idx at 1. rewrite E0. cbn [obind]. destruct (track_len w Hw t T ET) as (Nd & L2 & Ln). destruct (HL t T ET) as [HL1 HL2].
  assert (Hrec : rec_ok (fun cs k => set_tree_id f w id cs k false) (fun _ => True)).
  { intros cs' k' c' t' X1 X2 X3 X4. apply (nonroot_ok f cs' k' c' t' X1 X2 X3). lia. }
  destruct (walk_ok _ _ t T ET Hrec f 0 n0 cs E0 ltac:(lia) Hc (fun _ _ _ _ _ _ _ => Logic.I)) as (cs1 & E1 & R1).
  rewrite E1. cbn [obind]. destruct (relabelled_nth _ _ _ _ k c R1 Ek) as (c1 & N1 & N2 & _). unfold idx. rewrite N1. cbn [obind]. rewrite Et in N2.
  destruct (set_label cs1 k c1 t (holds_trks w cs cs1 (relabelled_trks _ _ _ _ R1) Hc) N1 N2) as (S1 & S2). exists (upd cs1 k (set_tree c1 id)). split; [exact S1|].
  assert (Lt : leads_from w t n0). { exists T. split; [exact ET|]. apply removelast_nth. exists 0. split; [lia|exact E0]. }
  eapply relabelled_ext; [|exact (relabelled_trans _ _ _ _ _ _ R1 S2)]. intros u. cbn. split.
  - intros [(j & m & t' & Hj & Ej & Hne & Hl & Hb)| ->]; [|exists t; split; [exact Lt|apply rt_refl]]. destruct j as [|j].
    + exists t'. assert (m = n0) by congruence. subst m. auto.
    + exists t. split; [exact Lt|]. assert (O : off t T 1 u) by (exists (S j), m, t'; repeat split; auto; lia). apply (off_branch t T u ET) in O. destruct O as (t2 & O1 & O2). exact (below_step _ _ _ _ O1 O2).
  - intros (t' & Hl & Hb). destruct (Nat.eq_dec t' t) as [->|Hne].
    + apply below_inv in Hb. destruct Hb as [->|Hb]; [right; reflexivity|left]. apply (off_branch t T u ET) in Hb. destruct Hb as (j & m & t' & Hj & Ej & Hne & Hl' & Hb). exists j, m, t'. repeat split; auto; lia.
    + left. exists 0, n0, t'. repeat split; auto.
Qed.
End Tree.

(** a fuel that suffices *)
Lemma fuel_exists w cs depth : holds w cs -> exists L M, forall t T, w_trk w t = Some T -> length (t_nodes T) <= L /\ depth t <= M.
Proof.
  intros (A & B & _).
  exists (list_max (map (fun c => match c_trk c with Some t => match w_trk w t with Some T => length (t_nodes T) | None => 0 end | None => 0 end) cs)).
  exists (list_max (map (fun c => match c_trk c with Some t => depth t | None => 0 end) cs)).
  intros t T ET. destruct (A t T ET) as (c & Hin & Ec). split.
  - assert (X := proj1 (list_max_le _ _) (le_n (list_max (map (fun c => match c_trk c with Some t => match w_trk w t with Some T => length (t_nodes T) | None => 0 end | None => 0 end) cs)))). rewrite Forall_forall in X. specialize (X (length (t_nodes T))). apply X. apply in_map_iff. exists c. rewrite Ec, ET. auto.
  - assert (X := proj1 (list_max_le _ _) (le_n (list_max (map (fun c => match c_trk c with Some t => depth t | None => 0 end) cs)))). rewrite Forall_forall in X. specialize (X (depth t)). apply X. apply in_map_iff. exists c. rewrite Ec. auto.
Qed.
