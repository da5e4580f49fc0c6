(** Filtering and the parallel tasks *)
From Coq Require Import QArith Qround Qcanon Lqa String.
From Verif Require Import Base QcUtil Solver_Model Solver_Proofs SPS_Model Triplet_Spec GHF_Model GHF_Spec GHF_Any.
Local Open Scope nat_scope.

(* ------------------------------------------------------------------ filtering *)
Definition smallb (thr big : Qc) (h : hit) : bool := qc_lt (h_amp h) (Q2Qc (8 # 1)) && qc_lt (h_amp h / big) thr.
Lemma div_lt x b t : (0 < b)%Qc -> (x / b < t)%Qc <-> (x < t * b)%Qc.
Proof.
  intros Hb. assert (N : b <> 0%Qc) by (intros ->; exact (Qclt_not_eq _ _ Hb eq_refl)). set (y := (x / b)%Qc). assert (E : x = (y * b)%Qc) by (unfold y; field; exact N). clearbody y. subst x. split; intros H.
  - apply Qcmult_lt_compat_r; assumption.
  - apply Qcnot_le_lt. intros K. apply (Qcle_not_lt (t * b) (y * b)); [apply Qcmult_le_compat_r; [exact K|apply Qclt_le_weak, Hb]|exact H].
Qed.
Lemma smallb_spec thr top h : (0 < h_amp top)%Qc -> smallb thr (h_amp top) h = false <-> not_small thr top h.
Proof.
  intros Ht. unfold smallb, not_small. rewrite andb_false_iff, !qc_lt_false. split; (intros [H|H]; [left; exact H|right]).
  - apply Qcnot_lt_le. intros K. apply (proj2 (div_lt _ _ _ Ht)) in K. exact (Qcle_not_lt _ _ H K).
  - apply Qcnot_lt_le. intros K. apply (proj1 (div_lt _ _ _ Ht)) in K. exact (Qcle_not_lt _ _ H K).
Qed.
Lemma before_small_filter thr big l : (0 < big)%Qc -> StronglySorted (fun a b => higher b a = false) l -> before_small big thr l = filter (fun h => negb (smallb thr big h)) l.
Proof.
  intros Hb. induction 1 as [|h l Hs IH Hf]; cbn [before_small filter]; [reflexivity|]. fold (smallb thr big h). destruct (smallb thr big h) eqn:E; cbn [negb]; [|rewrite IH; reflexivity].
  symmetry. clear IH Hs. induction l as [|x l IH]; cbn [filter]; [reflexivity|]. inversion Hf as [|? ? Hx Hf']; subst.
  assert (K : smallb thr big x = true). { unfold higher in Hx. apply qc_lt_false in Hx. unfold smallb in *. apply andb_true_iff in E. destruct E as [E1 E2]. apply qc_lt_spec in E1, E2. apply div_lt in E2; [|exact Hb]. apply andb_true_iff. split; apply qc_lt_spec; [|apply div_lt; [exact Hb|]]; eapply Qcle_lt_trans; eassumption. }
  rewrite K. cbn [negb]. apply IH, Hf'.
Qed.
Lemma good_spec minPH minSig h : is_good_hit minPH minSig h = true <-> passes_minima minPH minSig h.
Proof.
  unfold is_good_hit, passes_minima. destruct (nth_error minSig (h_plane h)) as [s|]; destruct (nth_error minPH (h_plane h)) as [a|]; try (split; [intros _; intros; congruence|reflexivity]).
  rewrite andb_true_iff, !qc_lt_spec. split; [intros [H1 H2] a' s' [= <-] [= <-]; auto|intros H; apply H; reflexivity].
Qed.
Lemma sorted_head {A} (R : A -> A -> Prop) x l : (forall a, R a a) -> StronglySorted R (x :: l) -> forall y, In y (x :: l) -> R x y.
Proof. intros Rr H y [<-|Hy]; [apply Rr|]. inversion H as [|? ? _ Hf]; subst. rewrite Forall_forall in Hf. apply Hf, Hy. Qed.
Lemma perm_filter {A} (f : A -> bool) l l' : Permutation l l' -> Permutation (filter f l) (filter f l').
Proof. induction 1; cbn [filter]; [constructor|destruct (f x); [constructor|]; assumption|destruct (f x), (f y); try constructor; try apply Permutation_refl|eapply Permutation_trans; eassumption]. Qed.
Lemma sorted_filter {A} (R : A -> A -> Prop) f l : StronglySorted R l -> StronglySorted R (filter f l).
Proof. induction 1 as [|x l H IH Hf]; cbn [filter]; [constructor|]. destruct (f x); [|exact IH]. constructor; [exact IH|]. rewrite Forall_forall in *. intros y Hy. apply filter_In in Hy. apply Hf, Hy. Qed.
Lemma filter_filter2 {A} (f g : A -> bool) l : filter f (filter g l) = filter (fun x => g x && f x) l.
Proof. induction l as [|x l IH]; cbn [filter]; [reflexivity|]. destruct (g x); cbn [filter andb]; [destruct (f x); rewrite IH; reflexivity|exact IH]. Qed.

Lemma before_in b thr k x : In x (before_small b thr k) -> In x k.
Proof. induction k as [|y k IH]; cbn [before_small]; [intros []|]. destruct (qc_lt (h_amp y) (Q2Qc (8 # 1)) && qc_lt (h_amp y / b) thr); [intros []|]. intros [<-|Hx]; [left; reflexivity|right; apply IH, Hx]. Qed.
Section F.
Context (c : config) (sa st : list hit -> list hit) (Hsa : sorts_by higher sa) (Hst : sorts_by earlier st).
Lemma filter_ok plane hits hc wc thr : hits <> [] -> nth_error (c_height c) plane = Some hc -> nth_error (c_width c) plane = Some wc -> nth_error (c_ratio c) plane = Some thr ->
  (0 < hc)%Qc -> (thr <= 1)%Qc ->
  exists kept top, filter_hits c sa st plane hits = Ok kept /\ In top hits /\ (forall h, In h hits -> (h_amp h <= h_amp top)%Qc) /\
    ((h_amp top < hc)%Qc \/ (h_rms top < wc)%Qc -> kept = []) /\
    (~ ((h_amp top < hc)%Qc \/ (h_rms top < wc)%Qc) -> StronglySorted (fun a b => h_time a <= h_time b)%Qc kept /\
       exists keep, (forall h, keep h = true <-> not_small thr top h /\ passes_minima (c_minPH c) (c_minSig c) h) /\ Permutation kept (filter keep hits)).
Proof.
  intros Hne Eh Ew Er Hh Ht. destruct (Hsa hits) as [P S]. unfold filter_hits. destruct (sa hits) as [|h0 l] eqn:E; [apply Permutation_nil in P; contradiction|].
  assert (Hmax : forall h, In h hits -> (h_amp h <= h_amp h0)%Qc).
  { intros h Hi. apply (Permutation_in _ (Permutation_sym P)) in Hi. apply (sorted_head _ _ _ (fun a => proj2 (qc_lt_false (h_amp a) (h_amp a)) (Qcle_refl _)) S) in Hi. unfold higher in Hi. apply qc_lt_false in Hi. exact Hi. }
  assert (Hin : In h0 hits) by (apply (Permutation_in _ P); left; reflexivity).
  unfold at_. rewrite Eh, Ew, Er. cbn [obind].
  destruct (qc_lt (h_amp h0) hc) eqn:E1.
  { cbn [obind filter]. apply qc_lt_spec in E1. exists [], h0. split; [reflexivity|]. split; [exact Hin|]. split; [exact Hmax|]. split; [reflexivity|]. intros K. exfalso. apply K. left. exact E1. }
  apply qc_lt_false in E1. cbn [obind]. destruct (qc_lt (h_rms h0) wc) eqn:E2.
  { cbn [obind filter]. apply qc_lt_spec in E2. exists [], h0. split; [reflexivity|]. split; [exact Hin|]. split; [exact Hmax|]. split; [reflexivity|]. intros K. exfalso. apply K. right. exact E2. }
  apply qc_lt_false in E2. assert (Hp : (0 < h_amp h0)%Qc) by (eapply Qclt_le_trans; eassumption).
  set (good := is_good_hit (c_minPH c) (c_minSig c)). set (keep := fun h => negb (smallb thr (h_amp h0) h) && good h).
  assert (Hk : forall h, keep h = true <-> not_small thr h0 h /\ passes_minima (c_minPH c) (c_minSig c) h).
  { intros h. unfold keep, good. rewrite andb_true_iff, negb_true_iff, smallb_spec, good_spec by exact Hp. reflexivity. }
  destruct l as [|h1 l].
  - assert (Es : smallb thr (h_amp h0) h0 = false). { apply smallb_spec; [exact Hp|]. right. set (x := h_amp h0) in *. clearbody x. clear - Ht Hp. qcnra. }
    eexists _, h0. split; [reflexivity|]. split; [exact Hin|]. split; [exact Hmax|]. split.
    { intros [K|K]; exfalso; [exact (Qcle_not_lt _ _ E1 K)|exact (Qcle_not_lt _ _ E2 K)]. }
    intros _. split; [cbn [filter]; destruct (good h0); repeat constructor|]. exists keep. split; [exact Hk|].
    assert (X : filter good [h0] = filter keep [h0]) by (unfold keep; cbn [filter]; rewrite Es; reflexivity). fold good; rewrite X. apply perm_filter. exact P.
  - cbn [obind]. rewrite (before_small_filter thr (h_amp h0)) by assumption. set (m := filter (fun h => negb (smallb thr (h_amp h0) h)) (h0 :: h1 :: l)). destruct (Hst m) as [Pm Sm].
    eexists _, h0. split; [reflexivity|]. split; [exact Hin|]. split; [exact Hmax|]. split.
    { intros [K|K]; exfalso; [exact (Qcle_not_lt _ _ E1 K)|exact (Qcle_not_lt _ _ E2 K)]. }
    intros _. split.
    { apply sorted_filter. clear - Sm. induction Sm as [|x k H IH Hf]; constructor; [exact IH|]. rewrite Forall_forall in *. intros y Hy. specialize (Hf y Hy). unfold earlier in Hf. apply qc_lt_false in Hf. exact Hf. }
    exists keep. split; [exact Hk|]. rewrite (perm_filter _ _ _ Pm). unfold m. rewrite filter_filter2. apply perm_filter. exact P.
Qed.
Lemma filter_sub plane hits kept : filter_hits c sa st plane hits = Ok kept -> incl kept hits.
Proof.
  intros H. unfold filter_hits in H. destruct (Hsa hits) as [P _]. destruct (sa hits) as [|h0 l] eqn:E; [injection H as <-; intros x []|].
  apply obind_inv in H. destruct H as (hc & _ & H). apply obind_inv in H. destruct H as (fv & H1 & H). apply obind_inv in H. destruct H as (fv2 & H2 & [= <-]).
  assert (I1 : incl fv hits).
  { destruct (qc_lt (h_amp h0) hc); [injection H1 as <-; intros x []|]. apply obind_inv in H1. destruct H1 as (wc & _ & [= <-]). destruct (qc_lt (h_rms h0) wc); [intros x []|]. intros x Hx. apply (Permutation_in _ P), Hx. }
  assert (I2 : incl fv2 fv).
  { destruct fv as [|f0 [|f1 fv]]; try (injection H2 as <-; apply incl_refl). apply obind_inv in H2. destruct H2 as (thr & _ & [= <-]). intros x Hx. apply (Permutation_in _ (proj1 (Hst _))) in Hx.
    exact (before_in (h_amp f0) thr (f0 :: f1 :: fv) x Hx). }
  intros x Hx. apply filter_In in Hx. apply I1, I2, Hx.
Qed.
End F.

(* ------------------------------------------------------------------ the tasks *)
Definition picks {A} (who : list nat) (res : list A) (k : nat) : list A := map snd (filter (fun x => fst x =? k) (List.combine who res)).
Lemma picks_app {A} who (res : list A) k0 x k : List.length who = List.length res -> picks (who ++ [k0]) (res ++ [x]) k = picks who res k ++ (if k0 =? k then [x] else []).
Proof.
  intros H. unfold picks. assert (E : List.combine (who ++ [k0]) (res ++ [x]) = List.combine who res ++ [(k0, x)]).
  { revert res H. induction who as [|w who IH]; intros [|r res] H; try discriminate H; [reflexivity|]. cbn [app List.combine]. rewrite IH by (cbn in H; lia). reflexivity. }
  rewrite E, filter_app, map_app. cbn [filter fst]. destruct (k0 =? k); reflexivity.
Qed.
Definition tagged (w : nat) (l : list hit) : list (hit * nat) := map (fun h => (h, w)) l.
Lemma tagged_app w a b : tagged w (a ++ b) = tagged w a ++ tagged w b. Proof. apply map_app. Qed.
Lemma all_of_app a b : all_of (a ++ b) = all_of a ++ all_of b. Proof. apply flat_map_app. Qed.
Lemma filt_of_app a b : filt_of (a ++ b) = filt_of a ++ filt_of b. Proof. apply flat_map_app. Qed.

Record pinv (todo : list (nat * list event)) (s : pstate) (wa wf : list nat) : Prop := {
  pi_len : List.length (t_todo s) = List.length todo;
  pi_wa : List.length wa = List.length (t_all s) /\ (forall k, In k wa -> k < List.length todo);
  pi_wf : List.length wf = List.length (t_filt s) /\ (forall k, In k wf -> k < List.length todo);
  pi_task : forall k w evs, nth_error todo k = Some (w, evs) -> exists d r, evs = d ++ r /\ nth_error (t_todo s) k = Some (w, r) /\ picks wa (t_all s) k = tagged w (all_of d) /\ picks wf (t_filt s) k = tagged w (filt_of d) }.
Lemma nth_mid {A} (pre : list A) x post k : nth_error (pre ++ x :: post) k = if k =? List.length pre then Some x else nth_error (pre ++ post) (if k <? List.length pre then k else k - 1).
Proof.
  destruct (Nat.eqb_spec k (List.length pre)) as [->|H]; [rewrite nth_error_app2, Nat.sub_diag by lia; reflexivity|]. destruct (Nat.ltb_spec k (List.length pre)).
  - rewrite !nth_error_app1 by assumption. reflexivity.
  - rewrite !nth_error_app2 by lia. replace (k - List.length pre) with (S (k - 1 - List.length pre)) by lia. reflexivity.
Qed.
Lemma step_inv todo s s' wa wf : pinv todo s wa wf -> pstep s s' -> exists wa' wf', pinv todo s' wa' wf'.
Proof.
  intros [L [A1 A2] [F1 F2] T] St. destruct St as [pre w h r post a f|pre w h r post a f]; cbn [t_todo t_all t_filt] in *.
  - exists (wa ++ [List.length pre]), wf. split; cbn [t_todo t_all t_filt].
    + rewrite <- L, !app_length. reflexivity.
    + split; [rewrite !app_length, A1; reflexivity|]. intros k Hk. apply in_app_or in Hk. destruct Hk as [Hk|[<-|[]]]; [apply A2, Hk|]. rewrite <- L, app_length. cbn [List.length]. lia.
    + auto.
    + intros k w' evs E. destruct (T k w' evs E) as (d & r' & E1 & E2 & E3 & E4). rewrite nth_mid in E2. rewrite nth_mid, picks_app by exact A1. rewrite E3. destruct (Nat.eqb_spec k (List.length pre)) as [->|H].
      * injection E2 as <- <-. exists (d ++ [PushAll h]), r. split; [rewrite <- app_assoc; exact E1|]. split; [reflexivity|]. rewrite Nat.eqb_refl, all_of_app, filt_of_app, !tagged_app. cbn [filt_of flat_map tagged map app]. rewrite app_nil_r. split; [reflexivity|exact E4].
      * exists d, r'. split; [exact E1|]. split; [exact E2|]. destruct (Nat.eqb_spec (List.length pre) k); [congruence|]. rewrite app_nil_r. auto.
  - exists wa, (wf ++ [List.length pre]). split; cbn [t_todo t_all t_filt].
    + rewrite <- L, !app_length. reflexivity.
    + auto.
    + split; [rewrite !app_length, F1; reflexivity|]. intros k Hk. apply in_app_or in Hk. destruct Hk as [Hk|[<-|[]]]; [apply F2, Hk|]. rewrite <- L, app_length. cbn [List.length]. lia.
    + intros k w' evs E. destruct (T k w' evs E) as (d & r' & E1 & E2 & E3 & E4). rewrite nth_mid in E2. rewrite nth_mid, (picks_app wf) by exact F1. rewrite E4. destruct (Nat.eqb_spec k (List.length pre)) as [->|H].
      * injection E2 as <- <-. exists (d ++ [PushFilt h]), r. split; [rewrite <- app_assoc; exact E1|]. split; [reflexivity|]. rewrite Nat.eqb_refl, all_of_app, filt_of_app, !tagged_app. cbn [all_of flat_map tagged map app]. rewrite app_nil_r. split; [exact E3|reflexivity].
      * exists d, r'. split; [exact E1|]. split; [exact E2|]. destruct (Nat.eqb_spec (List.length pre) k); [congruence|]. rewrite app_nil_r. auto.
Qed.
Lemma run_inv todo s : clos_refl_trans _ pstep (mkPs todo [] []) s -> exists wa wf, pinv todo s wa wf.
Proof.
  intros H. apply clos_rt_rtn1 in H. induction H as [|s s' St _ IH].
  - exists [], []. split; cbn [t_todo t_all t_filt]; [reflexivity|split; [reflexivity|intros k []]|split; [reflexivity|intros k []]|]. intros k w evs E. exists [], evs. auto.
  - destruct IH as (wa & wf & Hi). eapply step_inv; eassumption.
Qed.
Lemma run_merge todo s : clos_refl_trans _ pstep (mkPs todo [] []) s -> all_done s ->
  merge_of (map (fun t => tagged (fst t) (all_of (snd t))) todo) (t_all s) /\ merge_of (map (fun t => tagged (fst t) (filt_of (snd t))) todo) (t_filt s).
Proof.
  intros H D. destruct (run_inv _ _ H) as (wa & wf & [L [A1 A2] [F1 F2] T]). split; [exists wa|exists wf]; rewrite map_length; (split; [assumption|]); (split; [assumption|]); intros k l E;
    apply map_nth_error_iff in E || (rewrite nth_error_map in E); destruct (nth_error todo k) as [[w evs]|] eqn:Ek; try discriminate E; cbn [option_map fst snd] in E; injection E as <-;
    destruct (T k w evs Ek) as (d & r & E1 & E2 & E3 & E4); apply nth_error_In in E2; specialize (D _ E2); cbn [snd] in D; subst r; rewrite app_nil_r in E1; subst evs; [exact E3|exact E4].
Qed.
(** a merge is a rearrangement *)
Lemma flat_map_app2 {A B} (f g : A -> list B) l : Permutation (flat_map (fun k => f k ++ g k) l) (flat_map f l ++ flat_map g l).
Proof. induction l as [|x l IH]; cbn [flat_map]; [constructor|]. rewrite IH. rewrite <- !app_assoc. apply Permutation_app_head. rewrite !app_assoc. apply Permutation_app_tail, Permutation_app_comm. Qed.
Lemma one_key {B} (x : nat * B) n s : s <= fst x < s + n -> flat_map (fun k => if fst x =? k then [x] else []) (seq s n) = [x].
Proof.
  revert s. induction n as [|n IH]; intros s H; [lia|]. cbn [seq flat_map]. destruct (Nat.eqb_spec (fst x) s) as [E|E].
  - cbn [app]. f_equal. assert (Hn : forall k, In k (seq (S s) n) -> fst x <> k) by (intros k Hk; apply in_seq in Hk; lia). revert Hn. generalize (seq (S s) n). intros l Hl. induction l as [|y l IHl]; [reflexivity|]. cbn [flat_map]. destruct (Nat.eqb_spec (fst x) y); [exfalso; exact (Hl y (or_introl eq_refl) e)|]. apply IHl. intros k Hk. apply Hl. right. exact Hk.
  - apply IH. lia.
Qed.
Lemma by_key {B} n (l : list (nat * B)) : (forall x, In x l -> fst x < n) -> Permutation (flat_map (fun k => filter (fun x => fst x =? k) l) (seq 0 n)) l.
Proof.
  induction l as [|x l IH]; intros H.
  - cbn [filter]. generalize (seq 0 n). intros k. induction k; [constructor|assumption].
  - assert (E : flat_map (fun k => filter (fun y => fst y =? k) (x :: l)) (seq 0 n) = flat_map (fun k => (if fst x =? k then [x] else []) ++ filter (fun y => fst y =? k) l) (seq 0 n)).
    { apply flat_map_ext. intros k. cbn [filter]. destruct (fst x =? k); reflexivity. }
    rewrite E, flat_map_app2, one_key by (split; [lia|apply H; left; reflexivity]). cbn [app]. constructor. apply IH. intros y Hy. apply H. right. exact Hy.
Qed.
Lemma merge_perm {A} (per : list (list A)) res : merge_of per res -> Permutation res (List.concat per).
Proof.
  intros (who & L & B & E). assert (P := by_key (List.length per) (List.combine who res)). assert (H : forall x, In x (List.combine who res) -> fst x < List.length per) by (intros [k a] Hx; apply in_combine_l in Hx; apply B, Hx).
  specialize (P H). apply (Permutation_map snd) in P. assert (Es : map snd (List.combine who res) = res). { clear -L. revert res L. induction who as [|w who IH]; intros [|r res] L; try discriminate; [reflexivity|]. cbn [List.combine map snd]. rewrite IH by (cbn in L; lia). reflexivity. }
  rewrite Es in P. symmetry in P. rewrite P. clear P Es H. enough (X : map snd (flat_map (fun k => filter (fun x => fst x =? k) (List.combine who res)) (seq 0 (List.length per))) = List.concat per) by (rewrite X; reflexivity).
  rewrite flat_map_concat_map, concat_map, map_map. f_equal. apply nth_ext with (d := []) (d' := []); rewrite map_length, seq_length; [reflexivity|]. intros k Hk.
  rewrite (nth_map_seq (fun k => map snd (filter (fun x => fst x =? k) (List.combine who res)))) by exact Hk. apply E. apply nth_error_nth'. exact Hk.
Qed.
(** every execution can be finished, after as many steps as there are pushes *)
Definition left_over (s : pstate) : nat := list_sum (map (fun t => List.length (snd t)) (t_todo s)).
Lemma step_less s s' : pstep s s' -> left_over s = S (left_over s').
Proof. intros H. destruct H; unfold left_over; cbn [t_todo]; rewrite !map_app; cbn [map fst snd List.length]; rewrite !list_sum_app; cbn [list_sum fold_right]; lia. Qed.
Lemma can_step s : all_done s \/ exists s', pstep s s'.
Proof.
  destruct s as [todo a f]. assert (H : (forall t, In t todo -> snd t = []) \/ exists pre w e r post, todo = pre ++ (w, e :: r) :: post).
  { induction todo as [|[w [|e r]] l IH]; [left; intros t []| |right; exists [], w, e, r, l; reflexivity]. destruct IH as [IH|(pre & w' & e & r & post & ->)]; [left; intros t [<-|Ht]; [reflexivity|apply IH, Ht]|right; exists ((w, []) :: pre), w', e, r, post; reflexivity]. }
  destruct H as [H|(pre & w & e & r & post & ->)]; [left; exact H|right]. destruct e; eexists; constructor.
Qed.
Lemma finish s : exists s', clos_refl_trans _ pstep s s' /\ all_done s'.
Proof.
  remember (left_over s) as n eqn:E. revert s E. induction n as [n IH] using lt_wf_ind. intros s ->. destruct (can_step s) as [D|[s1 St]]; [exists s; split; [apply rt_refl|exact D]|].
  pose proof (step_less _ _ St) as L. destruct (IH (left_over s1) ltac:(lia) s1 eq_refl) as (s2 & H & D). exists s2. split; [eapply rt_trans; [apply rt_step; exact St|exact H]|exact D].
Qed.
