(** Properties C96-C101: the book-keeping of hits and clusters of ClusterCrawlerAlg. *)
From Verif Require Import Base SortUtil CCB_Model CCB_Spec CCB_Store CCB_Ops CCB_Split CCB_Merge CCB_Over CCB_Hist CCB_Check CCB_Remove CCB_Out CCB_Crawl.
Local Open Scope nat_scope.

(** ** C96 *)

(** after any sequence of the cluster operations (those of [crawl]), over any hits: the hits are those given,
    inClus and the clusters in use agree, no two clusters in use share a hit, each cluster has two or more
    different hits of one plane, and CheckHitClusterAssociations reports nothing *)
Theorem crawl_consistent hs s : crawl hs s ->
  sound s /\ hits s = hs /\ check s = Ok 0 /\
  (forall j k c d h, live s j c -> live s k d -> In h (ch c) -> In h (ch d) -> j = k).
Proof.
  intros W. destruct (crawl_sound hs s W) as (H & Q). split; [exact H|]. split; [exact Q|]. split; [apply check_iff; [exact (s_id s H)|exact (s_cons s H)]|].
  intros j k c d h Lj Lk. apply (owner_unique s j k c d h H Lj Lk).
Qed.
Print Assumptions crawl_consistent.

(** a state and answer of a computation *)
Definition ok_st (o : outcome st) : st := match o with Ok s => s | _ => start [] end.
Definition ok_of (o : outcome (bool * st)) : st := match o with Ok r => snd r | _ => start [] end.
Lemma ok_st_eq o : (match o with Ok _ => true | _ => false end) = true -> o = Ok (ok_st o). Proof. destruct o; [reflexivity|discriminate|discriminate]. Qed.
Lemma ok_of_eq o b : (match o with Ok r => eqb (fst r) b | _ => false end) = true -> o = Ok (b, ok_of o).
Proof. destruct o as [[x s]| |]; simpl; try discriminate. intros E. apply eqb_prop in E. subst. reflexivity. Qed.
Lemma live_at s k c : nth_error (tcl s) k = Some c -> match nth_error (tcl s) k with Some c => (0 <? cid c)%Z | None => false end = true -> live s k c.
Proof. intros E Q. rewrite E in Q. split; [exact E|apply Z.ltb_lt; exact Q]. Qed.
Lemma dead_at s k c : live s k c -> match nth_error (tcl s) k with Some c => (cid c <=? 0)%Z | None => true end = true -> False.
Proof. intros (E & P) Q. rewrite E in Q. apply Z.leb_le in Q. lia. Qed.
Lemma ch_at s k c l : nth_error (tcl s) k = Some c -> option_map ch (nth_error (tcl s) k) = Some l -> ch c = l.
Proof. intros E Q. rewrite E in Q. injection Q as Q. exact Q. Qed.
Lemma store_step hs s l p : crawl hs s -> match tmp_store s l p true true with Ok r => eqb (fst r) true | _ => false end = true -> crawl hs (ok_of (tmp_store s l p true true)).
Proof. intros W E. eapply w_store; [exact W|apply ok_of_eq; exact E]. Qed.
Definition wires (l : list nat) : list hit := map (fun w => H 0 0 0 w) l.

(** a cluster of wires 0-8, split; another of wires 6-11 that overlaps it *)
Definition hs_o := wires [0; 1; 2; 3; 4; 5; 6; 6; 7; 7; 8; 8; 9; 10; 11].
Definition s_o1 := ok_of (tmp_store (start hs_o) [10; 8; 6; 5; 4; 3; 2; 1; 0] 10 true true).
Definition s_o2 := ok_of (split_cluster s_o1 0 5 7 true true).
Definition s_o3 := ok_of (tmp_store s_o2 [14; 13; 12; 11; 9; 7] 10 true true).
Definition s_o4 := ok_st (overlap_pair s_o3 1 3 (fun _ => 0%Z) 1 true true true).
Lemma crawl_o3 : crawl hs_o s_o3.
Proof.
  apply store_step; [|vm_compute; reflexivity]. eapply w_split; [|apply (ok_of_eq _ true); vm_compute; reflexivity]. apply store_step; [apply w_start|vm_compute; reflexivity].
Qed.
Example crawl_example : crawl hs_o s_o4 /\ map (fun c => (cid c, ch c)) (tcl s_o4) =
  [((-1)%Z, [10; 8; 6; 5; 4; 3; 2; 1; 0]); ((-2)%Z, [10; 8; 6; 5; 4]); (3%Z, [3; 2; 1; 0]); ((-4)%Z, [14; 13; 12; 11; 9; 7]); (5%Z, [14; 13; 12; 11; 9; 7; 5; 4])].
Proof.
  split; [|vm_compute; reflexivity]. destruct (nth_error (tcl s_o3) 1) as [c1|] eqn:E1; [|vm_compute in E1; discriminate]. destruct (nth_error (tcl s_o3) 3) as [c2|] eqn:E2; [|vm_compute in E2; discriminate].
  eapply (w_overlap _ s_o3 1 3 c1 c2); [exact crawl_o3|apply (live_at _ _ _ E1); vm_compute; reflexivity|apply (live_at _ _ _ E2); vm_compute; reflexivity|lia|apply ok_st_eq; vm_compute; reflexivity].
Qed.

(** ** C97 *)

(** TmpStore of hits that exist: it answers true exactly when there are two or more, all different and free,
    of one plane, going upstream (for code numbers under 900), and a cluster number is left; it then appends
    one cluster with these hits and marks them *)
Theorem tmp_store_exact s l p ec bc : sound s -> (forall h, In h l -> h < length (hits s)) -> ((ec = true /\ bc = true) \/ length l <> 2) ->
  exists b s', tmp_store s l p ec bc = Ok (b, s') /\
    (b = true <-> 2 <= length l /\ (ncl s < 32767)%Z /\ NoDup l /\ free s l /\ (exists pl, in_plane (hits s) pl l) /\ ((p < 900)%Z -> upstream (hits s) l)) /\
    (b = true -> sound s' /\ hits s' = hits s /\ vtx s' = vtx s /\ marked (inc s) (inc s') l (ncl s + 1) /\
       exists c, tcl s' = tcl s ++ [c] /\ ch c = l /\ proc c = p /\ cid c = (ncl s + 1)%Z /\ bv c = (-99)%Z /\ ev c = (-99)%Z).
Proof.
  intros H Hl Q. pose proof (s_ncl s H). pose proof (s_max s H). destruct (tmp_store_ok s l p ec bc (q_len s (s_cons s H)) ltac:(lia) Hl Q) as (b & s' & E & B & C1 & _).
  exists b, s'. split; [exact E|]. split; [exact B|]. intros ->. destruct (store_sound s l p ec bc s' H E) as (H' & St & pl & Pl & ->). split; [auto|]. split; [reflexivity|]. split; [reflexivity|].
  split; [apply marked_marks|]. eexists. split; [reflexivity|]. repeat split.
Qed.
Print Assumptions tmp_store_exact.

(** REFUTED: "when TmpStore answers false nothing has changed". The hits before the offending one stay marked
    with the next cluster number: CheckHitClusterAssociations then reads past the clusters, and the next
    cluster made gets that number although it does not contain them *)
Definition hs_l := wires [3; 3; 4; 5; 8; 9].
Definition s_l1 := ok_of (tmp_store (start hs_l) [3; 2; 1; 0] 10 true true).
Definition s_l2 := ok_of (tmp_store s_l1 [5; 4] 10 true true).
Theorem store_refused_refuted : exists hs s l p s', crawl hs s /\ tmp_store s l p true true = Ok (false, s') /\ s' <> s /\ check s' = Undef /\
  exists l2 s2, tmp_store s' l2 p true true = Ok (true, s2) /\ ~ consistent s2 /\ check s2 = Ok 3.
Proof.
  exists hs_l, (start hs_l), [3; 2; 1; 0], 10%Z, s_l1. split; [constructor|]. split; [apply ok_of_eq; vm_compute; reflexivity|].
  split; [intros E; apply (f_equal inc) in E; vm_compute in E; discriminate|]. split; [vm_compute; reflexivity|].
  exists [5; 4], s_l2. split; [apply ok_of_eq; vm_compute; reflexivity|]. split; [|vm_compute; reflexivity].
  intros Cs. destruct (q_back s_l2 Cs 3 1%Z) as (k & c & E & (Ek & _) & I); [vm_compute; reflexivity|lia|].
  destruct k as [|k]; [|lia]. rewrite (ch_at s_l2 0 c [5; 4] Ek) in I by (vm_compute; reflexivity). simpl in I. lia.
Qed.
Print Assumptions store_refused_refuted.
(** what is true: only inClus can differ, on the first hits of the list, which get the next cluster number;
    no cluster containing one of these can be stored from then on. Nothing differs when the hits are too few
    or no cluster number is left *)
Theorem store_refused_partial s l p ec bc s' : sound s -> (forall h, In h l -> h < length (hits s)) -> ((ec = true /\ bc = true) \/ length l <> 2) ->
  tmp_store s l p ec bc = Ok (false, s') ->
  hits s' = hits s /\ tcl s' = tcl s /\ ncl s' = ncl s /\ vtx s' = vtx s /\
  (exists pre post, l = pre ++ post /\ marked (inc s) (inc s') pre (ncl s + 1) /\
     forall h l2 p2 ec2 bc2 s2, In h pre -> In h l2 -> tmp_store s' l2 p2 ec2 bc2 <> Ok (true, s2)) /\
  (length l < 2 \/ ncl s = 32767%Z -> s' = s).
Proof.
  intros H Hl Q E. pose proof (s_ncl s H) as Nc. pose proof (s_max s H) as Mx. pose proof (q_len s (s_cons s H)) as L. destruct (tmp_store_ok s l p ec bc L ltac:(lia) Hl Q) as (b & t & E1 & _ & _ & B).
  rewrite E in E1. injection E1 as <- <-. destruct (B eq_refl) as (pre & post & Ep & ->).
  do 4 (split; [reflexivity|]). split.
  - exists pre, post. split; [exact Ep|]. split; [apply marked_marks|]. intros h l2 p2 ec2 bc2 s2 I I2 T. destruct (tmp_true _ _ _ _ _ _ T) as (A1 & A2).
    assert (Lm : length (inc (set_inc s (marks (inc s) pre (ncl s + 1)))) = length (hits (set_inc s (marks (inc s) pre (ncl s + 1))))) by (cbn [inc hits set_inc]; rewrite marks_len; exact L).
    destruct (tmp_store_ok _ l2 p2 ec2 bc2 Lm ltac:(cbn [ncl set_inc]; lia) A1 A2) as (b & t & T1 & T2 & _). rewrite T in T1. injection T1 as <- <-.
    destruct (proj1 T2 eq_refl) as (_ & _ & _ & F & _). specialize (F h I2). cbn [inc set_inc] in F. rewrite free_marks in F; [injection F as F; lia|rewrite L; apply Hl; rewrite Ep; apply in_or_app; auto|exact I].
  - intros Or. unfold tmp_store in E. destruct (length l <? 2) eqn:B1; [injection E as E; congruence|]. destruct (length (hits s) <? length l) eqn:B2; [injection E as E; congruence|]. destruct (ncl s =? 32767)%Z eqn:B3; [injection E as E; congruence|].
    apply Nat.ltb_ge in B1. apply Z.eqb_neq in B3. destruct Or; [lia|contradiction].
Qed.
Print Assumptions store_refused_partial.
Example store_refused_example : sound (start hs_l) /\ (forall h, In h [3; 2; 1; 0] -> h < length hs_l) /\ tmp_store (start hs_l) [3; 2; 1; 0] 10 true true = Ok (false, s_l1) /\ inc s_l1 = [0; 1; 1; 1; 0; 0]%Z.
Proof. split; [apply start_sound|]. split; [intros h I; vm_compute in I |- *; lia|]. split; vm_compute; reflexivity. Qed.

(** MakeClusterObsolete frees the hits and removes the cluster from those in use; RestoreObsoleteCluster right
    after it brings everything back *)
Theorem obsolete_then_restore s k c : sound s -> live s k c -> exists s', make_obs s k = Ok s' /\ sound s' /\ free s' (ch c) /\
  (forall j d, live s' j d <-> live s j d /\ j <> k) /\ restore s' k = Ok s.
Proof.
  intros H Lv. exists (obsoleted s k c). split; [apply make_obs_ok; auto|]. split; [apply obsoleted_sound; auto|]. split; [apply obs_free; auto|].
  split; [intros j d; apply live_obsoleted; apply Lv|]. destruct (obsolete_restore s k c H Lv) as (s' & A & B). rewrite (make_obs_ok s k c H Lv) in A. injection A as <-. exact B.
Qed.
Print Assumptions obsolete_then_restore.
Lemma sound_o3 : sound s_o3. Proof. apply (crawl_sound _ _ crawl_o3). Qed.
Example obsolete_example : exists c, live s_o3 3 c /\ length (ch c) = 6.
Proof. eexists. split; [split; [vm_compute; reflexivity|vm_compute; reflexivity]|reflexivity]. Qed.

(** ** C98 *)

(** SplitCluster of a cluster of three or more hits answers true; the cluster becomes obsolete; the first
    [pos] hits become a cluster if they are three or more, the others if they are four or more, with the
    vertex between the two; the hits of a piece not made are free *)
Theorem split_exact s k c pos iv ec bc : sound s -> live s k c -> 3 <= length (ch c) -> pos <= length (ch c) -> (ncl s < 32766)%Z ->
  exists s' new, split_cluster s k pos iv ec bc = Ok (true, s') /\ sound s' /\ hits s' = hits s /\ vtx s' = vtx s /\
    tcl s' = upd (tcl s) k (set_cid c (- cid c)) ++ new /\
    map (fun d => (proc d, bv d, ev d, ch d)) new =
      (if 3 <=? pos then [(proc c, bv c, iv, firstn pos (ch c))] else []) ++ (if 4 <=? length (ch c) - pos then [(proc c, iv, ev c, skipn pos (ch c))] else []).
Proof.
  intros H Lv N Hp Hn. destruct (split_ok s k c pos iv ec bc H Lv N Hp Hn) as (s' & A & B & C1 & C2 & new & D1 & D2). exists s', new. do 5 (split; [auto|]). rewrite D2.
  f_equal. assert (E : (pos <? length (ch c) - 3) = (4 <=? length (ch c) - pos)); [|rewrite E; reflexivity].
  destruct (4 <=? length (ch c) - pos) eqn:Q; [apply Nat.leb_le in Q; apply Nat.ltb_lt; lia|apply Nat.leb_gt in Q; apply Nat.ltb_ge; lia].
Qed.
Print Assumptions split_exact.
Example split_example : sound s_o1 /\ exists c, live s_o1 0 c /\ length (ch c) = 9.
Proof. split; [apply (crawl_sound hs_o); apply store_step; [apply w_start|vm_compute; reflexivity]|]. eexists. split; [split; [vm_compute; reflexivity|vm_compute; reflexivity]|reflexivity]. Qed.

(** REFUTED: "when SplitCluster answers true the hits of the cluster are in its pieces". Five hits split at
    the second: no cluster is left *)
Definition hs_5 := wires [0; 1; 2; 3; 4].
Definition s_51 := ok_of (tmp_store (start hs_5) [4; 3; 2; 1; 0] 10 true true).
Definition s_52 := ok_of (split_cluster s_51 0 2 7 true true).
Theorem split_keeps_hits_refuted : exists hs s k c pos s', crawl hs s /\ live s k c /\ length (ch c) = 5 /\ 0 < pos < length (ch c) /\ split_cluster s k pos 7 true true = Ok (true, s') /\
  forall j d, ~ live s' j d.
Proof.
  exists hs_5, s_51, 0. eexists. exists 2, s_52. split; [apply store_step; [apply w_start|vm_compute; reflexivity]|].
  split; [split; [vm_compute; reflexivity|vm_compute; reflexivity]|]. split; [reflexivity|]. split; [simpl; lia|]. split; [apply ok_of_eq; vm_compute; reflexivity|].
  intros j d Lv. apply (dead_at _ _ _ Lv). destruct j as [|j]; [vm_compute; reflexivity|destruct j; vm_compute; reflexivity].
Qed.
Print Assumptions split_keeps_hits_refuted.

(** REFUTED: "when SplitCluster answers false the clusters are as before". A cluster of two hits split at the
    second hit: another cluster, the last one, is made obsolete *)
Definition s_21 := ok_of (tmp_store (start hs_5) [1; 0] 10 true true).
Definition s_22 := ok_of (tmp_store s_21 [4; 3; 2] 10 true true).
Definition s_23 := ok_of (split_cluster s_22 0 1 7 true true).
Theorem split_false_keeps_refuted : exists hs s k pos s' j d, crawl hs s /\ split_cluster s k pos 7 true true = Ok (false, s') /\ j <> k /\ live s j d /\ forall d', ~ live s' j d'.
Proof.
  exists hs_5, s_22, 0, 1, s_23, 1. eexists. split; [apply store_step; [apply store_step; [apply w_start|vm_compute; reflexivity]|vm_compute; reflexivity]|].
  split; [apply ok_of_eq; vm_compute; reflexivity|]. split; [lia|]. split; [split; [vm_compute; reflexivity|vm_compute; reflexivity]|].
  intros d' Lv. apply (dead_at _ _ _ Lv). vm_compute. reflexivity.
Qed.
Print Assumptions split_false_keeps_refuted.
(** what is true of an answer false: nothing changed, or an obsolete cluster was added, or the last cluster
    (not the one to split) became obsolete, the latter only for clusters of two hits or when no cluster
    number is left *)
Theorem split_false_partial s k c pos iv ec bc : sound s -> nth_error (tcl s) k = Some c -> pos <= length (ch c) ->
  (length (ch c) = 2 -> pos = 0 -> ec = true /\ bc = true) ->
  exists b s', split_cluster s k pos iv ec bc = Ok (b, s') /\ sound s' /\ hits s' = hits s /\ vtx s' = vtx s /\
    (b = false -> s' = s \/
       (2 < pos /\ exists d, tcl s' = tcl s ++ [d] /\ cid d = (- (ncl s + 1))%Z /\ ch d = firstn pos (ch c) /\ inc s' = inc s) \/
       (pos <= 2 /\ (length (ch c) = 2 \/ (32766 <= ncl s)%Z) /\ exists m d, S m = length (tcl s) /\ k <> m /\ live s m d /\ make_obs s m = Ok s')).
Proof.
  intros H E Hp Hc. destruct (split_any s k c pos iv ec bc H E Hp Hc) as (b & s' & A & B & C1 & C2 & D). exists b, s'. do 4 (split; [auto|]). intros Qb. destruct (D Qb) as [Q|[Q|(Q & m & d & Q1 & Q2 & Q3 & ->)]]; [auto|auto|].
  right. right. split; [auto|]. split; [|exists m, d; split; [auto|]; split; [auto|]; split; [auto|]; apply make_obs_ok; auto].
  destruct (Nat.eq_dec (length (ch c)) 2) as [|N]; [auto|]. destruct (Z_lt_ge_dec (ncl s) 32766) as [Q4|Q4]; [|right; lia]. exfalso. subst b.
  pose proof (g_two _ _ (s_good s H k c E)) as L2. destruct (cid c <? 0)%Z eqn:Qc.
  - unfold split_cluster in A. rewrite (idx_some _ _ _ E) in A. cbn [obind] in A. rewrite Qc in A. injection A as A. apply (f_equal (fun t => nth_error (tcl t) m)) in A. cbn [tcl obsoleted set_inc set_tcl] in A. destruct Q3 as (Q3 & Q5). rewrite nth_error_upd, Q3 in A.
    rewrite Nat.eqb_refl in A. assert (Bm : (m <? length (tcl s)) = true) by (apply Nat.ltb_lt; lia). rewrite Bm in A. injection A as A. apply (f_equal cid) in A. simpl in A. lia.
  - apply Z.ltb_ge in Qc. assert (Lv : live s k c) by (split; [auto|destruct (s_id s H k c E); lia]). destruct (split_ok s k c pos iv ec bc H Lv ltac:(lia) Hp Q4) as (t & A2 & _). rewrite A in A2. discriminate.
Qed.
Print Assumptions split_false_partial.

(** ** C99 *)

(** DoMerge of two clusters in use of a plane, both going upstream, with three or more hits: nothing without
    a good fit; otherwise both become obsolete and one cluster going upstream has all hits of the first and,
    on the wires the first has none, those of the second; without a cluster number left the hits of both are
    free *)
Theorem do_merge_exact s k1 k2 c1 c2 p np ec bc : sound s -> live s k1 c1 -> live s k2 c2 -> k1 <> k2 -> cctp c1 = cctp c2 ->
  upstream (hits s) (ch c1) -> upstream (hits s) (ch c2) -> 3 <= length (ch c1) -> 3 <= length (ch c2) ->
  let ds := bw c2 <=? bw c1 in
  let d1 := if ds then ev c1 else bv c1 in let d2 := if ds then bv c2 else ev c2 in
  ((0 <= d1)%Z -> d1 = d2 -> Z.to_nat d1 < length (vtx s)) ->
  do_merge s k1 k2 false p np ec bc = Ok s /\
  exists s', do_merge s k1 k2 true p np ec bc = Ok s' /\ sound s' /\ hits s' = hits s /\
    (ncl s = 32767%Z -> tcl s' = upd (upd (tcl s) k1 (set_cid c1 (- cid c1))) k2 (set_cid c2 (- cid c2)) /\ vtx s' = vtx s) /\
    ((ncl s < 32767)%Z -> exists d, tcl s' = upd (upd (tcl s) k1 (set_cid c1 (- cid c1))) k2 (set_cid c2 (- cid c2)) ++ [d] /\
       upstream (hits s) (ch d) /\
       (forall h, In h (ch d) <-> In h (ch c1) \/ (In h (ch c2) /\ forall g, In g (ch c1) -> wire (hits s) g <> wire (hits s) h)) /\
       proc d = np /\ cctp d = cctp c1 /\ bv d = (if ds then bv c1 else bv c2) /\ ev d = (if ds then ev c2 else ev c1) /\
       vtx s' = if (0 <=? d1)%Z && (d1 =? d2)%Z then upd (vtx s) (Z.to_nat d1) 0 else vtx s).
Proof. exact (do_merge_ok s k1 k2 c1 c2 p np ec bc). Qed.
Print Assumptions do_merge_exact.

(** REFUTED: "all hits of both clusters are in the merged one": the hit of the second on a shared wire is not *)
Definition hs_6 := wires [0; 1; 2; 2; 3; 4].
Definition s_61 := ok_of (tmp_store (start hs_6) [2; 1; 0] 10 true true).
Definition s_62 := ok_of (tmp_store s_61 [5; 4; 3] 10 true true).
Definition s_63 := ok_st (do_merge s_62 0 1 true 10 110 true true).
Lemma crawl_62 : crawl hs_6 s_62.
Proof. apply store_step; [apply store_step; [apply w_start|vm_compute; reflexivity]|vm_compute; reflexivity]. Qed.
Theorem merge_keeps_hits_refuted : exists hs s c1 c2 s' h, crawl hs s /\ live s 0 c1 /\ live s 1 c2 /\ cctp c1 = cctp c2 /\ upstream hs (ch c1) /\ upstream hs (ch c2) /\
  do_merge s 0 1 true 10 110 true true = Ok s' /\ In h (ch c2) /\ forall k d, live s' k d -> ~ In h (ch d).
Proof.
  exists hs_6, s_62. eexists. eexists. exists s_63, 3. split; [exact crawl_62|]. split; [split; [vm_compute; reflexivity|vm_compute; reflexivity]|]. split; [split; [vm_compute; reflexivity|vm_compute; reflexivity]|].
  split; [reflexivity|]. split; [repeat constructor|]. split; [repeat constructor|]. split; [apply ok_st_eq; vm_compute; reflexivity|]. split; [right; right; left; reflexivity|].
  intros k d Lv I. destruct k as [|[|[|k] ] ]; [exfalso; apply (dead_at _ _ _ Lv); vm_compute; reflexivity|exfalso; apply (dead_at _ _ _ Lv); vm_compute; reflexivity| |exfalso; apply (dead_at _ _ _ Lv); destruct k; vm_compute; reflexivity].
  rewrite (ch_at s_63 2 d [5; 4; 2; 1; 0] (proj1 Lv)) in I by (vm_compute; reflexivity). simpl in I. lia.
Qed.
Print Assumptions merge_keeps_hits_refuted.
Example do_merge_example : sound s_62 /\ map (fun c => (cid c, ch c)) (tcl s_63) = [((-1)%Z, [2; 1; 0]); ((-2)%Z, [5; 4; 3]); (3%Z, [5; 4; 2; 1; 0])].
Proof. split; [apply (crawl_sound _ _ crawl_62)|vm_compute; reflexivity]. Qed.

(** the pair (icl, jcl) of MergeOverlap, for hits in the order of RunCrawler: nothing changes, or both become
    obsolete and one cluster going upstream has the hits of jcl downstream of the overlap, those of icl
    upstream of it, and on each wire of the overlap the hit nearer to the line (of jcl when equally near), if
    within the limit. A failing TmpStore leaves everything as it was *)
Theorem merge_overlap_exact s k1 k2 c1 c2 d mx fit ec bc : sound s -> by_wire (hits s) -> live s k1 c1 -> live s k2 c2 -> k1 <> k2 -> cctp c1 = cctp c2 ->
  upstream (hits s) (ch c1) -> upstream (hits s) (ch c2) ->
  exists s', overlap_pair s k1 k2 d mx fit ec bc = Ok s' /\ sound s' /\ (s' = s \/
    (fit = true /\ hits s' = hits s /\ vtx s' = vtx s /\
     exists n, tcl s' = upd (upd (tcl s) k1 (set_cid c1 (- cid c1))) k2 (set_cid c2 (- cid c2)) ++ [n] /\ upstream (hits s) (ch n) /\
       (forall h, In h (ch n) <-> (In h (ch c2) /\ bw c1 < wire (hits s) h) \/ (In h (ch c1) /\ wire (hits s) h < ew c2) \/
          (ew c2 <= wire (hits s) h <= bw c1 /\ (d h <= mx)%Z /\
           ((In h (ch c2) /\ forall g, In g (ch c1) -> wire (hits s) g = wire (hits s) h -> (d h <= d g)%Z) \/
            (In h (ch c1) /\ forall g, In g (ch c2) -> wire (hits s) g = wire (hits s) h -> (d h < d g)%Z)))) /\
       proc n = (proc c1 + 500)%Z /\ bv n = bv c2 /\ ev n = bv c1)).
Proof.
  intros H Bw L1 L2 Ne Hct U1 U2. destruct (overlap_pair_ok s k1 k2 c1 c2 d mx fit ec bc H Bw L1 L2 Ne Hct U1 U2) as (s' & A & B & [Q|(Q1 & Q2 & Q3 & n & N1 & N2 & N3 & N4)]); exists s'; (split; [exact A|]; split; [exact B|]); [auto|].
  right. do 3 (split; [auto|]). exists n. do 2 (split; [auto|]). split; [|exact N4]. intros h. rewrite N3. unfold chosen. tauto.
Qed.
Print Assumptions merge_overlap_exact.

(** REFUTED: "the End vertex of the merged cluster is the End vertex of the upstream cluster": it becomes that
    cluster's Begin vertex *)
Theorem overlap_end_vertex_refuted : exists hs s c1 c2 s' n, crawl hs s /\ by_wire hs /\ live s 1 c1 /\ live s 3 c2 /\ (0 <= ev c1)%Z /\
  overlap_pair s 1 3 (fun _ => 0%Z) 1 true true true = Ok s' /\ live s' 4 n /\ last (ch n) 0 = last (ch c1) 0 /\ ev n <> ev c1.
Proof.
  exists hs_o, s_o3. eexists. eexists. exists s_o4. eexists. split; [exact crawl_o3|]. split.
  { intros i j x y L E1 E2 _. assert (Hj : j < 15) by (change 15 with (length hs_o); apply nth_error_Some; congruence).
    assert (F : forallb (fun j => forallb (fun i => match nth_error hs_o i, nth_error hs_o j with Some x, Some y => hw x <=? hw y | _, _ => false end) (seq 0 j)) (seq 0 15) = true) by (vm_compute; reflexivity).
    rewrite forallb_forall in F. specialize (F j ltac:(apply in_seq; lia)). cbv beta in F. rewrite forallb_forall in F. specialize (F i ltac:(apply in_seq; lia)). cbv beta in F. rewrite E1, E2 in F. apply Nat.leb_le in F. exact F. }
  split; [split; [vm_compute; reflexivity|vm_compute; reflexivity]|]. split; [split; [vm_compute; reflexivity|vm_compute; reflexivity]|]. split; [simpl; lia|]. split; [apply ok_st_eq; vm_compute; reflexivity|].
  split; [split; [vm_compute; reflexivity|vm_compute; reflexivity]|]. split; [reflexivity|]. simpl. lia.
Qed.
Print Assumptions overlap_end_vertex_refuted.

(** ChkClusterDS with free hits [ds] of the cluster's plane: the cluster becomes obsolete and one cluster takes
    its place, with the hits of [ds] by falling index before those of the old one, and the old vertices *)
Theorem extend_exact s k c ds ec s' : sound s -> live s k c -> (0 <= proc c)%Z -> NoDup ds -> free s ds -> in_plane (hits s) (cctp c) ds ->
  extend_ds s k ds ec = Ok s' -> sound s' /\ hits s' = hits s /\
    ((ncl s < 32767)%Z -> exists n l, tcl s' = upd (tcl s) k (set_cid c (- cid c)) ++ [n] /\ ch n = l ++ ch c /\ Permutation ds l /\ StronglySorted (fun a b => b < a) l /\ bv n = bv c /\ ev n = ev c).
Proof.
  intros H Lv Hp Nd Fr Pl E. destruct (extend_sound s k c ds ec s' H Lv Hp Nd Fr Pl E) as (A & B & D). split; [auto|]. split; [auto|]. intros Q. destruct (D Q) as (n & D1 & D2 & D3 & D4). exists n, (isort (fun i j => j <? i) ds). do 2 (split; [auto|]).
  split; [apply Permutation_sym, isort_perm|]. split; [|auto].
  assert (SI : StronglySorted (fun x y => (x <? y) = false) (isort (fun i j => j <? i) ds)) by (apply (isort_sorted (fun i j => j <? i)); [intros x y z; rewrite !Nat.ltb_ge; lia|intros x y; rewrite Nat.ltb_lt, Nat.ltb_ge; lia]).
  assert (N : NoDup (isort (fun i j => j <? i) ds)) by (apply (Permutation_NoDup (Permutation_sym (isort_perm _ _)) Nd)). clear -SI N. induction SI as [|x l S1 IH F]; constructor; inversion N; subst; auto.
  rewrite Forall_forall in *. intros y Iy. specialize (F y Iy). apply Nat.ltb_ge in F. destruct (Nat.eq_dec x y) as [-> |]; [contradiction|lia].
Qed.
Print Assumptions extend_exact.
Example extend_example : let s := ok_of (tmp_store (start hs_6) [2; 1; 0] 10 true true) in sound s /\ free s [4; 5] /\
  match extend_ds s 0 [4; 5] true with Ok s' => map (fun c => (cid c, ch c)) (tcl s') = [((-1)%Z, [2; 1; 0]); (2%Z, [5; 4; 2; 1; 0])] | _ => False end.
Proof. cbv zeta. split; [apply (crawl_sound hs_6); apply store_step; [apply w_start|vm_compute; reflexivity]|]. split; [intros h [<- |[<- |[] ] ]; vm_compute; reflexivity|vm_compute; reflexivity]. Qed.

(** VtxClusterSplit dropping the last [n] hits of a cluster: one cluster with the others takes its place, with
    the same Begin vertex and the End vertex [iv]; if fewer than two are left there is none *)
Theorem lop_exact s k c n iv ec bc s' : sound s -> live s k c -> lop s k n iv ec bc = Ok s' -> sound s' /\ hits s' = hits s /\
  (2 + n <= length (ch c) -> (ncl s < 32767)%Z -> exists d dropped, tcl s' = upd (tcl s) k (set_cid c (- cid c)) ++ [d] /\ ch c = ch d ++ dropped /\ length dropped = n /\ bv d = bv c /\ ev d = iv) /\
  (length (ch c) < 2 + n -> tcl s' = upd (tcl s) k (set_cid c (- cid c))).
Proof.
  intros H Lv E. destruct (lop_sound s k c n iv ec bc s' H Lv E) as (A & B & D & F). do 2 (split; [auto|]). split; [|auto]. intros Q1 Q2. destruct (D Q1 Q2) as (d & D1 & D2 & D3 & D4).
  exists d, (skipn (length (ch c) - n) (ch c)). split; [auto|]. split; [rewrite D2; symmetry; apply firstn_skipn|]. split; [rewrite skipn_length; lia|auto].
Qed.
Print Assumptions lop_exact.
Example lop_example : match lop s_o1 0 3 7 true true with Ok s' => map (fun c => (cid c, ch c, ev c)) (tcl s') = [((-1)%Z, [10; 8; 6; 5; 4; 3; 2; 1; 0], (-99)%Z); (2%Z, [10; 8; 6; 5; 4; 3], 7%Z)] | _ => False end.
Proof. vm_compute. reflexivity. Qed.

(** ** C100 *)

(** CheckHitClusterAssociations reports nothing exactly when inClus and the clusters in use agree: one inClus
    entry per hit, every hit of a cluster in use carries its number, every positive number is that of a
    cluster in use containing the hit *)
Theorem check_exact s : (forall k c, nth_error (tcl s) k = Some c -> cid c = Z.of_nat (S k) \/ cid c = (- Z.of_nat (S k))%Z) ->
  check s = Ok 0 <-> consistent s.
Proof. exact (check_iff s). Qed.
Print Assumptions check_exact.
Example check_example : check s_o4 = Ok 0 /\ check s_l2 = Ok 3.
Proof. split; vm_compute; reflexivity. Qed.

(** ** C101 *)

(** RemoveObsoleteHits keeps the hits that are not obsolete, in order, and in the clusters in use replaces
    each by its new place: these still hold the same hits, and inClus agrees with them *)
Theorem remove_hits_exact s : consistent s -> (forall k c, nth_error (tcl s) k = Some c -> cid c = Z.of_nat (S k) \/ cid c = (- Z.of_nat (S k))%Z) ->
  (forall k c, live s k c -> good (hits s) c) ->
  exists s', remove_obsolete s = Ok s' /\ consistent s' /\ (forall h v, nth_error (inc s') h = Some v -> (0 <= v)%Z) /\
    hits s' = flat_map (fun h => match nth_error (inc s) h, nth_error (hits s) h with Some v, Some x => if (0 <=? v)%Z then [x] else [] | _, _ => [] end) (seq 0 (length (hits s))) /\
    (forall k, (exists c, live s k c) <-> (exists c', live s' k c')) /\
    (forall k c c', live s k c -> live s' k c' -> good (hits s') c' /\ cctp c' = cctp c /\ map (nth_error (hits s')) (ch c') = map (nth_error (hits s)) (ch c)).
Proof.
  intros Hc Hid Hg. destruct (remove_ok s Hc (fun k c Lv => g_nodup _ _ (Hg k c Lv))) as (s' & E & R1 & R2 & R3 & R4 & R5). destruct (remove_consistent s s' Hc Hid Hg E) as (A1 & A2 & A3 & A4 & A5).
  exists s'. split; [exact E|]. split; [auto|]. split; [auto|]. split; [|split].
  - rewrite R1. unfold kept. apply flat_map_ext. intros h. unfold keeps. destruct (nth_error (inc s) h) as [v|]; [|reflexivity]. destruct (nth_error (hits s) h), (0 <=? v)%Z; reflexivity.
  - intros k. split; [intros (c & Lv); destruct (A5 k c Lv) as (c' & B & _); eauto|]. intros (c' & Ek & Q). rewrite R5, nth_error_map in Ek. destruct (nth_error (tcl s) k) as [c|] eqn:E0; [|discriminate]. cbn [option_map] in Ek. injection Ek as <-.
    exists c. split; [auto|]. destruct (0 <? cid c)%Z eqn:B; [apply Z.ltb_lt; auto|exact Q].
  - intros k c c' Lv Lv'. destruct (A5 k c Lv) as (d & (B1 & B2) & B3 & B4). destruct Lv' as (B5 & B6). assert (d = c') by congruence. subst d. split; [apply (A4 k c'); split; auto|auto].
Qed.
Print Assumptions remove_hits_exact.

(** ClusterCrawler::produce writes hits and clusters exactly when every cluster not obsolete has hits, all of
    them existing, in its plane and marked with its number; it then writes all hits and all these clusters *)
Theorem produce_exact s out : produce s = Ok (Some out) <->
  (forall c, In c (tcl s) -> (0 <= cid c)%Z -> ch c <> [] /\ forall h, In h (ch c) -> exists x, nth_error (hits s) h = Some x /\ hp x = snd (cctp c) /\ nth_error (inc s) h = Some (cid c)) /\
  out = (hits s, map (fun c => (cctp c, ch c)) (filter (fun c => (0 <=? cid c)%Z) (tcl s))).
Proof. exact (produce_iff s out). Qed.
Print Assumptions produce_exact.

(** after any sequence of operations, RemoveObsoleteHits and produce write the hits and clusters; every
    cluster's hits exist and lie in its plane; no hit is twice in a cluster or in two clusters *)
Theorem crawl_writes hs s : crawl hs s -> exists s' outh outc, remove_obsolete s = Ok s' /\ produce s' = Ok (Some (outh, outc)) /\
  outh = flat_map (fun h => match nth_error (inc s) h, nth_error hs h with Some v, Some x => if (0 <=? v)%Z then [x] else [] | _, _ => [] end) (seq 0 (length hs)) /\
  (forall p l, In (p, l) outc -> 2 <= length l /\ in_plane outh p l) /\
  NoDup (concat (map snd outc)).
Proof.
  intros W. destruct (crawl_sound hs s W) as (H & Qh). destruct (remove_hits_exact s (s_cons s H) (s_id s H) (fun k c Lv => s_good s H k c (proj1 Lv))) as (s' & E & A1 & A2 & A3 & A4 & A5).
  destruct (remove_consistent s s' (s_cons s H) (s_id s H) (fun k c Lv => s_good s H k c (proj1 Lv)) E) as (_ & Hid & _ & Hg & _).
  set (outc := map (fun c => (cctp c, ch c)) (filter (fun c => (0 <=? cid c)%Z) (tcl s'))).
  assert (Lv : forall c, In c (tcl s') -> (0 <= cid c)%Z -> exists k, live s' k c).
  { intros c I Q. apply In_nth_error in I. destruct I as (k & Ek). exists k. split; [auto|]. destruct (Hid k c Ek); lia. }
  exists s', (hits s'), outc. split; [exact E|]. split; [|split; [rewrite A3, Qh; reflexivity|split]].
  - apply produce_exact. split; [|reflexivity]. intros c I Q. destruct (Lv c I Q) as (k & Lk). pose proof (Hg k c Lk) as G. split.
    + intros Z0. destruct G as [G2]. rewrite Z0 in G2. simpl in G2. lia.
    + intros h Ih. destruct (g_plane _ _ G h Ih) as (x & X & Y). exists x. split; [auto|]. split; [rewrite <- Y; reflexivity|]. rewrite (q_own s' A1 k c h Lk Ih). f_equal. destruct Lk as (Ek & P). destruct (Hid k c Ek); lia.
  - intros p l I. unfold outc in I. apply in_map_iff in I. destruct I as (c & [= <- <-] & I). apply filter_In in I. destruct I as (I & Q). apply Z.leb_le in Q. destruct (Lv c I Q) as (k & Lk). pose proof (Hg k c Lk) as G. split; [apply (g_two _ _ G)|apply (g_plane _ _ G)].
  - assert (Nd : forall l k0, (forall j c, nth_error l j = Some c -> nth_error (tcl s') (k0 + j) = Some c) -> NoDup (concat (map snd (map (fun c => (cctp c, ch c)) (filter (fun c => (0 <=? cid c)%Z) l))))).
    { induction l as [|c l IH]; intros k0 F; [constructor|]. assert (F' : forall j d, nth_error l j = Some d -> nth_error (tcl s') (S k0 + j) = Some d) by (intros j d Ej; replace (S k0 + j) with (k0 + S j) by lia; apply F; exact Ej).
      cbn [filter]. destruct (0 <=? cid c)%Z eqn:Q; [|apply (IH (S k0) F')]. apply Z.leb_le in Q. pose proof (F 0 c eq_refl) as E0. rewrite Nat.add_0_r in E0. assert (Lk : live s' k0 c) by (split; [auto|destruct (Hid k0 c E0); lia]).
      cbn [map concat snd]. apply nodup_app; [apply (g_nodup _ _ (Hg k0 c Lk))|apply (IH (S k0) F')|]. intros h I J. apply in_concat in J. destruct J as (l1 & J1 & J2). apply in_map_iff in J1. destruct J1 as ((pp & l2) & <- & J1). cbn [snd] in J2. apply in_map_iff in J1. destruct J1 as (d & [= <- <-] & J1).
      apply filter_In in J1. destruct J1 as (J1 & Qd). apply Z.leb_le in Qd. apply In_nth_error in J1. destruct J1 as (j & Ej). pose proof (F' j d Ej) as Ed. assert (Ld : live s' (S k0 + j) d) by (split; [auto|destruct (Hid _ d Ed); lia]).
      pose proof (q_own s' A1 k0 c h Lk I) as X1. pose proof (q_own s' A1 _ d h Ld J2) as X2. rewrite X1 in X2. injection X2 as X2. lia. }
    apply (Nd (tcl s') 0). intros j c Ej. exact Ej.
Qed.
Print Assumptions crawl_writes.
(** hits 1 and 3 merged away *)
Definition s_m1 := ok_st (merge_marks (start hs_6) 0 4 0).
Definition s_m2 := ok_of (tmp_store s_m1 [5; 4; 0] 10 true true).
Example crawl_writes_example : exists s, crawl hs_6 s /\ exists s', remove_obsolete s = Ok s' /\
  match produce s' with Ok (Some (h, c)) => (map hw h, map snd c) = ([0; 3; 4], [[2; 1; 0]]) | _ => False end.
Proof.
  exists s_m2. split; [apply store_step; [eapply (w_hits _ _ 0 4 0); [apply w_start|apply ok_st_eq; vm_compute; reflexivity]|vm_compute; reflexivity]|].
  exists (ok_st (remove_obsolete s_m2)). split; [apply ok_st_eq; vm_compute; reflexivity|vm_compute; reflexivity].
Qed.
