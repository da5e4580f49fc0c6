(** Theorems C40 *)
From Verif Require Import Base Util SortedObj_Model SortedObj_Spec SortedObj_Proofs PT_Model PT_Spec PT_Proofs PT_Ids PT_Merge PT_Extend.

(** setTreeId(id, k) on a well-formed forest whose tracks are all in the collection ends, and gives [id] to exactly the
    candidates whose tracks lead on from the node where track k starts, and everything below them; nothing else changes *)
Theorem c40_set_tree_id w cs id k c t n : wf w -> holds w cs -> nth_error cs k = Some c -> c_trk c = Some t -> starts_at w t n ->
  exists f, forall fuel, f <= fuel -> exists cs', set_tree_id fuel w id cs k true = Ok cs' /\ relabelled (fun u => exists t', leads_from w t' n /\ below w t' u) id cs cs'.
Proof.
  intros Hw Hc Ek Et Hs. destruct (wf_tree _ Hw) as (depth & Hd). destruct (fuel_exists w cs depth Hc) as (L & M & HL). exists (S (S (L + M))). intros fuel Hf. exact (root_ok w Hw id depth Hd L M HL fuel cs k c t n Hc Ek Et Hf Hs).
Qed.
(** if track k starts a tree, that is exactly its tree *)
Theorem c40_set_tree_id_root w cs id k c t n : wf w -> holds w cs -> nth_error cs k = Some c -> c_trk c = Some t -> starts_at w t n -> (forall p, ~ branch_of w p t) ->
  exists f, forall fuel, f <= fuel -> exists cs', set_tree_id fuel w id cs k true = Ok cs' /\ relabelled (fun u => origin w u n) id cs cs'.
Proof.
  intros Hw Hc Ek Et Hs Hr. destruct (c40_set_tree_id w cs id k c t n Hw Hc Ek Et Hs) as (f & Hf). exists f. intros fuel Hle. destruct (Hf fuel Hle) as (cs' & E & R'). exists cs'. split; [exact E|]. revert R'. apply relabelled_ext. exact (tree_of_root w Hw t n Hs Hr).
Qed.
(** setTreeIds: numbers 0 .. n-1 for the trees, equal exactly for tracks of the same tree; -1 for candidates without a track;
    nothing else changes *)
Theorem c40_set_tree_ids w cs : wf w -> holds w cs -> exists f, forall fuel, f <= fuel -> exists cs' n, set_tree_ids fuel w cs = Ok (cs', n) /\
  Forall2 (fun c c' => exists z, c' = set_tree c z /\ (c_trk c = None -> z = (-1)%Z) /\ (c_trk c <> None -> (0 <= z < n)%Z)) cs cs' /\
  (forall i j ci cj ti tj oi oj, nth_error cs' i = Some ci -> nth_error cs' j = Some cj -> c_trk ci = Some ti -> c_trk cj = Some tj -> origin w ti oi -> origin w tj oj -> (c_tree ci = c_tree cj <-> oi = oj)) /\
  (forall z, (0 <= z < n)%Z -> exists c t, In c cs' /\ c_trk c = Some t /\ c_tree c = z).
Proof.
  intros Hw Hc. destruct (ids_ok w Hw cs Hc) as (f & Hf). exists f. intros fuel Hle. destruct (Hf fuel Hle) as (cs' & n & E & [V1 V2 V3 V4 V5 V6]). exists cs', n. split; [exact E|]. cbn [fst snd] in *.
  assert (Len : length cs' = length cs) by (clear -V1; induction V1; cbn; auto).
  assert (Lab : forall i c t, nth_error cs' i = Some c -> c_trk c = Some t -> (0 <= c_tree c < n)%Z).
  { intros i c t Ei Et. assert (i < length cs) by (rewrite <- Len; apply nth_error_Some; congruence). assert (X := V5 i c t ltac:(lia) Ei Et). destruct (V2 c t (nth_error_In _ _ Ei) Et); lia. }
  split; [|split; [|exact V4]].
  - clear -V1 Lab. induction V1 as [|c c' l l' (z & -> & Hz) _ IH]; constructor.
    + exists z. split; [reflexivity|]. split; [exact Hz|]. intros X. destruct (c_trk c) as [t|] eqn:Et; [|congruence]. exact (Lab 0 _ t eq_refl Et).
    + apply IH. intros i d t Ei. exact (Lab (S i) d t Ei).
  - intros i j ci cj ti tj oi oj Ei Ej Eti Etj Oi Oj. apply (V3 i j ci cj ti tj oi oj Ei Ej Eti Etj Oi Oj). apply (Lab i ci ti Ei Eti).
Qed.
(** every track is in some tree, and in one only *)
Theorem c40_origin w t T : wf w -> w_trk w t = Some T -> exists n, origin w t n /\ forall n', origin w t n' -> n' = n.
Proof. intros Hw E. destruct (wf_tree _ Hw) as (depth & Hd). destruct (origin_exists w Hw depth Hd t T E) as (n & Hn). exists n. split; [exact Hn|]. intros n' Hn'. exact (origin_unique w Hw t n' n Hn' Hn). Qed.

Lemma clusters_loop i1 l : forall cs c1, nth_error cs i1 = Some c1 -> foreach l (fun cs c => do c1 <- idx cs i1; set_idx cs i1 (set_clus c1 (c_clus c1 ++ [c]))) cs = Ok (upd cs i1 (set_clus c1 (c_clus c1 ++ l))).
Proof.
  induction l as [|x l IH]; intros cs c1 E; cbn [foreach].
  - f_equal. rewrite app_nil_r. destruct c1; unfold set_clus; cbn. revert i1 E. induction cs as [|y cs IHc]; intros [|i1] E; cbn in *; try discriminate; [injection E as ->; reflexivity|]. f_equal. apply IHc. exact E.
  - assert (Hl : i1 < length cs) by (apply nth_error_Some; congruence). unfold idx at 1. rewrite E. cbn [obind]. rewrite set_idx_ok by exact Hl. cbn [obind].
    rewrite (IH _ (set_clus c1 (c_clus c1 ++ [x]))); [|rewrite nth_error_upd, Nat.eqb_refl; destruct (Nat.ltb_spec i1 (length cs)); [reflexivity|lia]]. f_equal. cbn. rewrite <- app_assoc. cbn.
    clear -Hl. revert i1 Hl. induction cs as [|y cs IHc]; intros [|i1] Hl; cbn in *; try lia; [reflexivity|]. f_equal. apply IHc. lia.
Qed.
Lemma erase_nth {A} (l : list A) i j : nth_error (firstn i l ++ skipn (S i) l) j = nth_error l (if j <? i then j else S j) \/ length l <= i.
Proof.
  destruct (Nat.lt_ge_cases i (length l)) as [H|H]; [left|right; exact H]. destruct (Nat.ltb_spec j i) as [Hj|Hj].
  - rewrite nth_error_app1 by (rewrite firstn_length; lia). clear -Hj. revert i j Hj. induction l as [|x l IH]; intros [|i] [|j] Hj; cbn; try lia; try reflexivity. apply IH. lia.
  - rewrite nth_error_app2 by (rewrite firstn_length; lia). rewrite firstn_length, Nat.min_l by lia. clear H. remember (j - i) as d. replace j with (i + d) by lia. clear. revert l. induction i as [|i IH]; intros l; [destruct l; cbn; [destruct d; reflexivity|reflexivity]|]. destruct l as [|x l]; [destruct d; reflexivity|]. exact (IH l).
Qed.
(** the collection after the candidate at i2 was taken into the one at i1 *)
Definition merged (cs : list cand) (i1 i2 : nat) (c1 c2 : cand) : list cand :=
  let cs1 := upd cs i1 (set_clus c1 (c_clus c1 ++ c_clus c2)) in firstn i2 cs1 ++ skipn (S i2) cs1.

(** where a candidate of the merged collection comes from *)
Lemma merged_nth cs i1 i2 c1 c2 (K1 : nth_error cs i1 = Some c1) (K2 : nth_error cs i2 = Some c2) j c : nth_error (merged cs i1 i2 c1 c2) j = Some c -> let k := if j <? i2 then j else S j in k <> i2 /\ exists c0, nth_error cs k = Some c0 /\ c_trk c0 = c_trk c /\ c_tree c0 = c_tree c /\ c = if k =? i1 then set_clus c1 (c_clus c1 ++ c_clus c2) else c0.
Proof.
  intros E. cbv zeta. remember (if j <? i2 then j else S j) as k eqn:Dk. unfold merged in E. assert (Hk : k <> i2) by (subst k; destruct (Nat.ltb_spec j i2); lia). split; [exact Hk|].
  destruct (erase_nth (upd cs i1 (set_clus c1 (c_clus c1 ++ c_clus c2))) i2 j) as [X|X]; [|rewrite upd_length in X; assert (i2 < length cs) by (apply nth_error_Some; congruence); lia]. rewrite X, <- Dk in E. clear Dk X. rewrite nth_error_upd in E. destruct (Nat.eqb_spec k i1) as [e|Hne]; [rewrite e in *|].
  - exists c1. assert (i1 < length cs) by (apply nth_error_Some; congruence). destruct (Nat.ltb_spec i1 (length cs)); [|lia]. cbn [andb] in E. injection E as <-. auto.
  - exists c. auto.
Qed.

Section Merge.
Context (w : world) (cs : list cand) (i1 i2 : nat) (c1 c2 : cand) (t1 t2 : nat) (T1 T2 : ptrack) (n1 n2 : nat) (addrs : list nat).
Context (Hw : wf w) (Hc : holds w cs) (K1 : nth_error cs i1 = Some c1) (K2 : nth_error cs i2 = Some c2) (Et1 : c_trk c1 = Some t1) (Et2 : c_trk c2 = Some t2) (E1 : w_trk w t1 = Some T1) (E2 : w_trk w t2 = Some T2).
Context (O1 : origin w t1 n1) (O2 : origin w t2 n2) (Hn12 : n1 <> n2) (Hroot : forall p, ~ branch_of w p t2).
Context (Hna : NoDup addrs) (Hla : length addrs = length (t_nodes T2)) (Hfree : forall a, In a addrs -> w_heap w a = None \/ In a (t_segs T2)).
Lemma holds_merged (w' : world) : (forall t, w_trk w' t = trk' w t1 t2 T1 T2 addrs t) -> holds w' (merged cs i1 i2 c1 c2).
Proof using Hw Hc K1 K2 Et1 Et2 O1 O2 Hn12 E1 E2.
  clear Hroot Hna Hla Hfree. intros Ht. destruct Hc as (A & B & C). assert (L2 : i2 < length cs) by (apply nth_error_Some; congruence). assert (L1 : i1 < length cs) by (apply nth_error_Some; congruence). split; [|split].
  - intros t T ET. rewrite Ht in ET. assert (H2 : t <> t2) by (intros X; unfold trk' in ET; rewrite X, Nat.eqb_refl in ET; discriminate).
    assert (exists T0, w_trk w t = Some T0) as (T0 & ET0). { unfold trk' in ET. destruct (Nat.eqb_spec t t2); [congruence|]. destruct (Nat.eqb_spec t t1) as [->|]; [eauto|eauto]. }
    destruct (A t T0 ET0) as (c & Hin & Ec). apply In_nth_error in Hin. destruct Hin as (k & Ek). assert (Hk : k <> i2) by (intros ->; congruence).
    set (j := if k <? i2 then k else k - 1). assert (Hj : (if j <? i2 then j else S j) = k) by (unfold j; destruct (Nat.ltb_spec k i2) as [Q|Q]; [destruct (Nat.ltb_spec k i2); lia|destruct (Nat.ltb_spec (k - 1) i2); lia]).
    destruct (erase_nth (upd cs i1 (set_clus c1 (c_clus c1 ++ c_clus c2))) i2 j) as [X|X]; [|rewrite upd_length in X; lia]. rewrite Hj, nth_error_upd in X. unfold merged. destruct (Nat.eqb_spec k i1) as [e|Hne].
    + destruct (Nat.ltb_spec i1 (length cs)); [|lia]. cbn [andb] in X. exists (set_clus c1 (c_clus c1 ++ c_clus c2)). split; [eapply nth_error_In; exact X|]. cbn. rewrite e in Ek. congruence.
    + cbn [andb] in X. rewrite Ek in X. exists c. split; [eapply nth_error_In; exact X|exact Ec].
  - intros c t Hin Ec. apply In_nth_error in Hin. destruct Hin as (j & Ej). destruct (merged_nth cs i1 i2 c1 c2 K1 K2 j c Ej) as (Hk & c0 & X1 & X2 & _). rewrite Ht. rewrite <- X2 in Ec. unfold trk'. destruct (Nat.eqb_spec t t2) as [->|]; [exfalso; apply Hk; exact (C _ _ c0 c2 t2 X1 K2 Ec Et2)|]. destruct (Nat.eqb t t1); [discriminate|]. exact (B c0 t (nth_error_In _ _ X1) Ec).
  - intros i j ci cj t Ei Ej Eci Ecj. destruct (merged_nth cs i1 i2 c1 c2 K1 K2 i ci Ei) as (Hk & c0 & X1 & X2 & _). destruct (merged_nth cs i1 i2 c1 c2 K1 K2 j cj Ej) as (Hk' & c0' & Y1 & Y2 & _). rewrite <- X2 in Eci. rewrite <- Y2 in Ecj. assert (Z := C _ _ c0 c0' t X1 Y1 Eci Ecj). destruct (Nat.ltb_spec i i2), (Nat.ltb_spec j i2); lia.
Qed.

(** C40: merge(i1, i2) with i1 < i2, two tracks of different trees of which the second starts its tree: track 1 gets the nodes of track 2
    appended, candidate 1 the clusters of candidate 2, which is gone; every candidate of the second tree has the tree id of candidate 1, the
    others keep theirs or, in the tree of track 1, have that of candidate 1; the result is again a well-formed forest held by the collection *)
Theorem c40_merge_partial : i1 < i2 -> exists f, forall fuel, f <= fuel -> exists w' cs', merge fuel w cs i1 i2 addrs = Ok (w', cs') /\
  wf w' /\ holds w' cs' /\
  (forall t, w_trk w' t = if Nat.eqb t t2 then None else if Nat.eqb t t1 then Some (mkPT (t_nodes T1 ++ t_nodes T2) (t_segs T1 ++ addrs)) else w_trk w t) /\
  Forall2 (fun c c' => exists z, c' = set_tree c z /\ (c_trk c = None -> z = c_tree c) /\
             forall t n, c_trk c = Some t -> origin w t n -> (n = n2 -> z = c_tree c1) /\ (n <> n2 -> z = c_tree c \/ n = n1 /\ z = c_tree c1)) (merged cs i1 i2 c1 c2) cs'.
Proof using Hw Hc K1 K2 Et1 Et2 O1 O2 Hn12 E1 E2 Hroot Hna Hla Hfree.
  intros Hlt. destruct (extend_ok w Hw t1 t2 T1 T2 E1 E2 n1 n2 O1 O2 Hn12 Hroot addrs Hna Hla Hfree) as (w' & Ee & Ht & s & HR & HF).
  assert (HF' : wfF s (w_par w') (w_trk w')) by (destruct HF as [F1 F2 F3]; split; [exact F1|intros t T X; rewrite Ht in X; exact (F2 t T X)|intros sg X Y; destruct (F3 sg X Y) as (T & Z1 & Z2); exists T; rewrite Ht; auto]).
  assert (Hw' : wf w') by exact (F_wf w' s HR HF' (tree' w Hw t1 t2 T1 T2 E1 E2 n1 n2 O1 O2 Hn12 Hroot addrs Hla w' Ht)).
  assert (L1 : i1 < length cs) by (apply nth_error_Some; congruence). assert (L2 : i2 < length cs) by (apply nth_error_Some; congruence).
  assert (Hm := holds_merged w' Ht). set (m := merged cs i1 i2 c1 c2) in *.
  assert (Em : nth_error m i1 = Some (set_clus c1 (c_clus c1 ++ c_clus c2))).
  { unfold m, merged. destruct (erase_nth (upd cs i1 (set_clus c1 (c_clus c1 ++ c_clus c2))) i2 i1) as [X|X]; [|rewrite upd_length in X; lia]. destruct (Nat.ltb_spec i1 i2); [|lia]. rewrite X, nth_error_upd, Nat.eqb_refl. destruct (Nat.ltb_spec i1 (length cs)); [reflexivity|lia]. }
  destruct (track_len w Hw t1 T1 E1) as (_ & LT & _). destruct (hd_error (t_nodes T1)) as [n0|] eqn:Eh; [|destruct (t_nodes T1); [cbn in LT; lia|discriminate]].
  assert (St : starts_at w t1 n0) by (exists T1; auto). assert (St' := starts' w Hw t1 t2 T1 T2 E1 E2 n1 n2 O1 O2 Hn12 addrs Hla w' Ht n0 St).
  destruct (c40_set_tree_id w' m (c_tree c1) i1 (set_clus c1 (c_clus c1 ++ c_clus c2)) t1 n0 Hw' Hm Em Et1 St') as (f & Hf). exists f. intros fuel Hle. destruct (Hf fuel Hle) as (cs' & Es & RL).
  exists w', cs'. split; [|split; [exact Hw'|split; [exact (holds_trks w' m cs' (relabelled_trks _ _ _ _ RL) Hm)|split; [exact Ht|]]]].
  - unfold merge. unfold idx at 1. rewrite K1. cbn [obind]. unfold idx at 1. rewrite K2. cbn [obind]. rewrite Et1, Et2, Ee. cbn [obind]. rewrite (clusters_loop i1 (c_clus c2) cs c1 K1). cbn [obind]. unfold erase. rewrite upd_length. destruct (Nat.ltb_spec i2 (length cs)); [|lia]. cbn [obind]. change (firstn i2 (upd cs i1 (set_clus c1 (c_clus c1 ++ c_clus c2))) ++ skipn (S i2) (upd cs i1 (set_clus c1 (c_clus c1 ++ c_clus c2)))) with m. unfold idx. rewrite Em. cbn [obind]. change (c_tree (set_clus c1 (c_clus c1 ++ c_clus c2))) with (c_tree c1). rewrite Es. reflexivity.
  - assert (D1 : forall u, u <> t2 -> origin w u n2 -> exists t', leads_from w' t' n0 /\ below w' t' u).
    { intros u Hu Ou. exists t1. split; [exact (leads1 w Hw t1 t2 T1 T2 E1 E2 n1 n2 O1 O2 Hn12 addrs Hla w' Ht n0 St)|]. destruct (taken_below w Hw t1 t2 T1 T2 E1 E2 n1 n2 O1 O2 Hn12 Hroot addrs Hla w' Ht u Ou) as [X|X]; [congruence|exact X]. }
    assert (D2 : forall u, (exists t', leads_from w' t' n0 /\ below w' t' u) -> origin w u n1 \/ origin w u n2).
    { intros u (t' & X & Y). apply (below_two w Hw t1 t2 T1 T2 E1 E2 n1 n2 O1 O2 Hn12 addrs Hla w' Ht t' u Y). left. exact (leads_two w Hw t1 t2 T1 T2 E1 E2 n1 n2 O1 O2 Hn12 addrs Hla w' Ht t' n0 St X). }
    assert (D3 : forall c t, In c m -> c_trk c = Some t -> t <> t2). { intros c t Hin Ec ->. destruct Hm as (_ & X & _). apply (X c t2 Hin Ec). rewrite Ht. unfold trk'. rewrite Nat.eqb_refl. reflexivity. }
    clear -RL D1 D2 D3 Hw. induction RL as [|c c' l l' (A & B) _ IH]; constructor; [|apply IH; intros d t X; apply (D3 d t); right; exact X].
    destruct A as [->|(-> & t & Ec & HD)].
    + exists (c_tree c). split; [destruct c; reflexivity|]. split; [reflexivity|]. intros t n Ec On. split; [|auto]. intros ->. assert (X := B t Ec (D1 t (D3 c t (or_introl eq_refl) Ec) On)). apply (f_equal c_tree) in X. exact X.
    + exists (c_tree c1). split; [reflexivity|]. split; [congruence|]. intros t0 n Ec0 On. assert (t0 = t) by congruence. subst t0. split; [reflexivity|]. intros Hn. right. split; [|reflexivity]. destruct (D2 t HD) as [X|X]; [exact (origin_unique w Hw t n n1 On X)|]. exfalso. exact (Hn (origin_unique w Hw t n n2 On X)).
Qed.
End Merge.
(** in particular, with tree ids that were right (equal within the tree of track 1), they are right after the merge *)
Theorem c40_merge_ids_partial w cs i1 i2 c1 c2 t1 t2 T1 T2 n1 n2 addrs : wf w -> holds w cs -> nth_error cs i1 = Some c1 -> nth_error cs i2 = Some c2 -> c_trk c1 = Some t1 -> c_trk c2 = Some t2 -> w_trk w t1 = Some T1 -> w_trk w t2 = Some T2 ->
  origin w t1 n1 -> origin w t2 n2 -> n1 <> n2 -> (forall p, ~ branch_of w p t2) -> NoDup addrs -> length addrs = length (t_nodes T2) -> (forall a, In a addrs -> w_heap w a = None \/ In a (t_segs T2)) -> i1 < i2 ->
  (forall c t, In c cs -> c_trk c = Some t -> origin w t n1 -> c_tree c = c_tree c1) ->
  exists f, forall fuel, f <= fuel -> exists w' cs', merge fuel w cs i1 i2 addrs = Ok (w', cs') /\
    Forall2 (fun c c' => exists z, c' = set_tree c z /\ forall t n, c_trk c = Some t -> origin w t n -> z = if n =? n2 then c_tree c1 else c_tree c) (merged cs i1 i2 c1 c2) cs'.
Proof.
  intros Hw Hc K1 K2 Et1 Et2 E1 E2 O1 O2 Hn12 Hroot Hna Hla Hfree Hlt Hid. destruct (c40_merge_partial w cs i1 i2 c1 c2 t1 t2 T1 T2 n1 n2 addrs Hw Hc K1 K2 Et1 Et2 E1 E2 O1 O2 Hn12 Hroot Hna Hla Hfree Hlt) as (f & Hf). exists f. intros fuel Hle. destruct (Hf fuel Hle) as (w' & cs' & E & _ & _ & _ & F). exists w', cs'. split; [exact E|].
  assert (Hm : forall c t, In c (merged cs i1 i2 c1 c2) -> c_trk c = Some t -> origin w t n1 -> c_tree c = c_tree c1).
  { intros c t Hin Ec Ot. apply In_nth_error in Hin. destruct Hin as (j & Ej). destruct (merged_nth cs i1 i2 c1 c2 K1 K2 j c Ej) as (_ & c0 & X1 & X2 & X3 & _). rewrite <- X3. apply (Hid c0 t (nth_error_In _ _ X1)); [congruence|exact Ot]. }
  clear -F Hm. induction F as [|c c' l l' (z & -> & _ & A) _ IH]; constructor; [|apply IH; intros d t X; apply (Hm d t); right; exact X]. exists z. split; [reflexivity|]. intros t n Ec On. destruct (A t n Ec On) as (B & C). destruct (Nat.eqb_spec n n2) as [->|Hne]; [exact (B eq_refl)|]. destruct (C Hne) as [X|(-> & X)]; [exact X|]. rewrite X. symmetry. exact (Hm c t (or_introl eq_refl) Ec On).
Qed.
(** a second track that is itself a branch is refused, before anything was changed *)
Theorem c40_merge_refuses w cs i1 i2 c1 c2 t1 t2 p fuel addrs : wf w -> nth_error cs i1 = Some c1 -> nth_error cs i2 = Some c2 -> c_trk c1 = Some t1 -> c_trk c2 = Some t2 -> branch_of w p t2 -> merge fuel w cs i1 i2 addrs = Throw UserExn.
Proof.
  intros Hw K1 K2 Et1 Et2 Hb. unfold merge. unfold idx at 1. rewrite K1. cbn [obind]. unfold idx at 1. rewrite K2. cbn [obind]. rewrite Et1, Et2. unfold extend_with. destruct Hb as (Hne & Tp & T2 & n & E1 & E2 & Hin & Hd). cbn [deref_t]. rewrite E2. cbn [obind]. unfold front, idx. rewrite <- hd_nth, Hd. cbn [obind].
  rewrite hd_nth in Hd. destruct (node_live w Hw t2 T2 0 n E2 Hd) as (o & Eo & _). rewrite (prev_ok w n o Eo). cbn [obind]. assert (P := parent_prev w Hw t2 T2 n o E2 Hd Eo). destruct (o_prev o); [reflexivity|]. exfalso. apply (P p). exact (conj Hne (ex_intro _ Tp (ex_intro _ T2 (ex_intro _ n (conj E1 (conj E2 (conj Hin (eq_trans (hd_nth _) Hd)))))))).
Qed.
Print Assumptions c40_set_tree_id. Print Assumptions c40_set_tree_id_root. Print Assumptions c40_set_tree_ids. Print Assumptions c40_origin. Print Assumptions c40_merge_partial. Print Assumptions c40_merge_ids_partial. Print Assumptions c40_merge_refuses.

(* ------------------------------------------------------------ a concrete forest *)
Fixpoint lookup {A} (l : list (nat * A)) (x : nat) : option A := match l with [] => None | (y, a) :: l' => if Nat.eqb x y then Some a else lookup l' x end.
Lemma lookup_in {A} (l : list (nat * A)) x a : lookup l x = Some a -> In (x, a) l.
Proof. induction l as [|(y, b) l IH]; cbn; [discriminate|]. destruct (Nat.eqb_spec x y) as [->|]; [intros [= ->]; left; reflexivity|intros H; right; apply IH, H]. Qed.
(** track 0: 10-11, track 1: 12-13, track 2: 11-14, a branch of track 0, track 3: 15-16 *)
Definition ex_objs : list (nat * obj) :=
  [(10, mkO true (Some 20) None [20]); (20, mkO false (Some 11) (Some 10) []); (11, mkO true (Some 22) (Some 20) [22]); (22, mkO false (Some 14) (Some 11) []); (14, mkO true None (Some 22) []);
   (12, mkO true (Some 21) None [21]); (21, mkO false (Some 13) (Some 12) []); (13, mkO true None (Some 21) []); (15, mkO true (Some 23) None [23]); (23, mkO false (Some 16) (Some 15) []); (16, mkO true None (Some 23) [])].
Definition ex_trks : list (nat * ptrack) := [(0, mkPT [10; 11] [20]); (1, mkPT [12; 13] [21]); (2, mkPT [11; 14] [22]); (3, mkPT [15; 16] [23])].
Definition ex_w : world := mkW (lookup ex_objs) (fun s => s - 20) (lookup ex_trks).
Ltac cases H := apply lookup_in in H; cbn [In ex_objs ex_trks] in H; repeat (destruct H as [H|H]; [injection H; clear H; intros; subst|]); [..|destruct H].
Lemma ex_branch t t' : branch_of ex_w t t' <-> t = 0 /\ t' = 2.
Proof.
  split.
  - intros (Hne & T & T' & n & E1 & E2 & Hin & Hd). cbn [w_trk ex_w] in E1, E2. cases E1; cases E2; cbn in Hin, Hd; destruct Hin as [<-|[]]; try discriminate; auto.
  - intros [-> ->]. split; [discriminate|]. exists (mkPT [10; 11] [20]), (mkPT [11; 14] [22]), 11. cbn. auto.
Qed.
Lemma ex_wf : wf ex_w.
Proof.
  split; [split|..].
  - intros x o y E Ep. cbn [w_heap ex_w] in *. cases E; cbn in Ep; try discriminate; injection Ep as <-; (eexists; split; [reflexivity|cbn; auto]).
  - intros y oy x E Hin. cbn [w_heap ex_w] in *. cases E; cbn in Hin; try (destruct Hin as [<-|[]]); try (destruct Hin); (eexists; split; [reflexivity|split; reflexivity]).
  - intros y oy E. cbn [w_heap ex_w] in *. cases E; cbn; repeat constructor; intros [].
  - intros y oy E Hb. cbn [w_heap ex_w] in *. cases E; try discriminate; reflexivity.
  - intros y oy E Hb. cbn [w_heap ex_w] in *. cases E; try discriminate; reflexivity.
  - intros t T E. cbn [w_trk ex_w] in E. cases E; (split; [repeat constructor; cbn; intuition discriminate|]; split; [cbn; lia|]; split; [reflexivity|]; intros [|[|i]] s Es; cbn in Es; try discriminate; injection Es as <-; split; [reflexivity|]; do 5 eexists; repeat split; try reflexivity; cbn; auto).
  - intros s o E Hb. cbn [w_heap ex_w] in E. cases E; try discriminate; (eexists; split; [reflexivity|cbn; auto]).
  - exists (fun t => if t =? 2 then 1 else 0). intros t t' H. apply ex_branch in H. destruct H as [-> ->]. cbn. lia.
Qed.
Definition ex_c (t : nat) (tree : Z) : cand := mkC (Some t) 0 tree [t + 100] (-1) [].
Lemma ex_holds cs : Permutation (map c_trk cs) [Some 0; Some 1; Some 2; Some 3] -> holds ex_w cs.
Proof.
  intros P. assert (Nd : NoDup (map c_trk cs)) by (apply (Permutation_NoDup (Permutation_sym P)); repeat constructor; cbn; intuition discriminate). split; [|split].
  - intros t T E. assert (X : In (Some t) (map c_trk cs)) by (apply (Permutation_in _ (Permutation_sym P)); cbn [w_trk ex_w] in E; cases E; cbn; auto). apply in_map_iff in X. destruct X as (c & X1 & X2). eauto.
  - intros c t Hin Ec. assert (X : In (Some t) (map c_trk cs)) by (rewrite <- Ec; apply in_map, Hin). apply (Permutation_in _ P) in X. cbn in X. destruct X as [X|[X|[X|[X|[]]]]]; injection X as <-; discriminate.
  - intros i j ci cj t Ei Ej E1 E2. rewrite NoDup_nth_error in Nd. apply Nd; [rewrite map_length; apply nth_error_Some; congruence|]. rewrite (map_nth_error c_trk i cs Ei), (map_nth_error c_trk j cs Ej). congruence.
Qed.
Lemma ex_origin t n : (t = 0 /\ n = 10) \/ (t = 1 /\ n = 12) \/ (t = 2 /\ n = 10) \/ (t = 3 /\ n = 15) -> origin ex_w t n.
Proof.
  assert (Rt : forall t n, starts_at ex_w t n -> t <> 2 -> origin ex_w t n) by (intros u m Hs Hu; apply origin_root; [exact Hs|]; intros p Hp; apply ex_branch in Hp; tauto).
  intros [[-> ->]|[[-> ->]|[[-> ->]|[-> ->]]]]; try (apply Rt; [eexists; split; reflexivity|discriminate]).
  apply (origin_below ex_w 0 2 10); [apply Rt; [eexists; split; reflexivity|discriminate]|]. apply rt_step, ex_branch. auto.
Qed.
(** c40_set_tree_ids and c40_merge_partial apply: track 1 takes track 0, and track 2 comes along *)
Definition ex_cs : list cand := [ex_c 3 0; ex_c 1 1; ex_c 2 2; ex_c 0 2].
Example c40_nonvacuous_ids : match set_tree_ids 20 ex_w [ex_c 0 7; mkC None 0 5 [] (-1) []; ex_c 2 7; ex_c 1 7; ex_c 3 7] with Ok (cs', n) => map c_tree cs' = [0; -1; 0; 1; 2]%Z /\ n = 3%Z | _ => False end.
Proof. vm_compute. split; reflexivity. Qed.
Example c40_nonvacuous_merge : (exists f, forall fuel, f <= fuel -> exists w' cs', merge fuel ex_w ex_cs 1 3 [20; 30] = Ok (w', cs') /\ wf w' /\ holds w' cs') /\
  match merge 20 ex_w ex_cs 1 3 [20; 30] with Ok (w', cs') => map c_trk cs' = [Some 3; Some 1; Some 2] /\ map c_tree cs' = [0; 1; 1]%Z /\ map c_clus cs' = [[103]; [101; 100]; [102]] /\ w_trk w' 1 = Some (mkPT [12; 13; 10; 11] [21; 20; 30]) | _ => False end.
Proof.
  split; [|vm_compute; repeat split; reflexivity].
  destruct (c40_merge_partial ex_w ex_cs 1 3 (ex_c 1 1) (ex_c 0 2) 1 0 (mkPT [12; 13] [21]) (mkPT [10; 11] [20]) 12 10 [20; 30]) as (f & Hf); try reflexivity.
  - exact ex_wf.
  - apply ex_holds. cbn. apply (Permutation_trans (l' := [Some 0; Some 3; Some 1; Some 2])); [|apply perm_skip; apply (Permutation_cons_append [Some 1; Some 2] (Some 3))]. apply Permutation_sym. apply (Permutation_cons_append [Some 3; Some 1; Some 2] (Some 0)).
  - apply ex_origin. auto.
  - apply ex_origin. auto.
  - discriminate.
  - intros p Hp. apply ex_branch in Hp. destruct Hp as [_ Hp]. discriminate.
  - repeat constructor; cbn; intuition discriminate.
  - intros a [<-|[<-|[]]]; [right; left; reflexivity|left; reflexivity].
  - lia.
  - exists f. intros fuel Hle. destruct (Hf fuel Hle) as (w' & cs' & A & B & C & _). eauto.
Qed.
(** with i2 < i1 the index i1 is stale after the erase.  All other hypotheses of c40_merge_partial hold of (ex_w, ex_bad, 1, 0): candidate 2 of
    the merged tree keeps its old tree id, not that of the merged candidate *)
Definition ex_bad : list cand := [ex_c 0 2; ex_c 1 1; ex_c 3 0; ex_c 2 2].
Theorem c40_merge_stale_index_refuted : wf ex_w /\ holds ex_w ex_bad /\ origin ex_w 1 12 /\ origin ex_w 0 10 /\ origin ex_w 2 10 /\ (forall p, ~ branch_of ex_w p 0) /\
  exists w' cs', (forall fuel, 5 <= fuel -> exists cs'', merge fuel ex_w ex_bad 1 0 [20; 30] = Ok (w', cs'') /\ cs'' = cs') /\ map c_trk cs' = [Some 1; Some 3; Some 2] /\ map c_tree cs' = [1; 0; 2]%Z.
Proof.
  split; [exact ex_wf|]. split; [apply ex_holds; cbn; apply perm_skip, perm_skip, perm_swap|]. split; [apply ex_origin; auto|]. split; [apply ex_origin; auto|]. split; [apply ex_origin; auto|].
  split; [intros p Hp; apply ex_branch in Hp; destruct Hp as [_ Hp]; discriminate|].
  assert (X : exists w' cs', (forall fuel, merge (5 + fuel) ex_w ex_bad 1 0 [20; 30] = Ok (w', cs')) /\ map c_trk cs' = [Some 1; Some 3; Some 2] /\ map c_tree cs' = [1; 0; 2]%Z).
  { eexists. eexists. split; [intros fuel; vm_compute; reflexivity|]. split; reflexivity. }
  destruct X as (w' & cs' & A & B & C). exists w', cs'. split; [|auto]. intros fuel Hle. exists cs'. split; [|reflexivity]. replace fuel with (5 + (fuel - 5)) by lia. apply A.
Qed.
(** and if i1 is the last candidate, the code reads past the end of the vector *)
Theorem c40_merge_past_end_refuted : holds ex_w [ex_c 3 0; ex_c 2 2; ex_c 0 2; ex_c 1 1] /\ forall fuel, merge fuel ex_w [ex_c 3 0; ex_c 2 2; ex_c 0 2; ex_c 1 1] 3 2 [20; 30] = Undef.
Proof.
  split; [|intros fuel; vm_compute; reflexivity]. apply ex_holds. cbn. apply (Permutation_trans (l' := [Some 2; Some 0; Some 1; Some 3])); [apply (Permutation_cons_append [Some 2; Some 0; Some 1] (Some 3))|]. apply (Permutation_trans (l' := [Some 0; Some 2; Some 1; Some 3])); [apply perm_swap|apply perm_skip, perm_swap].
Qed.
Print Assumptions c40_merge_stale_index_refuted. Print Assumptions c40_merge_past_end_refuted.
