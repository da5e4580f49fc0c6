(** C62: the morphological candidate hit finder *)
From Coq Require Import QArith Qround Qcanon Lqa.
From Verif Require Import Base Util QcUtil Solver_Model Solver_Proofs Solver_Sched CandHit_Model CandHit_Proofs WT_Model WT_Spec WT_Morph WT_Smooth WT_Props CHD_Model CHD_Spec CHD_Proofs CHD_Props CHM_Model CHM_Spec CHM_Proofs.
Local Open Scope nat_scope.

Lemma this_nat n : (this (qc_nat n) == inject_Z (Z.of_nat n))%Q.
Proof. apply this_Q2Qc. Qed.
Lemma floor_le (q : Qc) n : (q < qc_nat n + 1)%Qc -> to_tick q <= n.
Proof.
  intros H. unfold to_tick. assert (X : (Qfloor (this q) < Z.of_nat n + 1)%Z).
  { rewrite Zlt_Qlt. eapply Qle_lt_trans; [apply Qfloor_le|]. rewrite inject_Z_plus. unfold Qclt in H. rewrite this_plus, this_nat in H. exact H. }
  lia.
Qed.
Lemma floor_ge (q : Qc) n : (qc_nat n <= q)%Qc -> n <= to_tick q.
Proof.
  intros H. unfold to_tick. assert (X : (Z.of_nat n <= Qfloor (this q))%Z).
  { rewrite <- (Qfloor_Z (Z.of_nat n)). apply Qfloor_resp_le. unfold Qcle in H. rewrite this_nat in H. exact H. }
  lia.
Qed.
Lemma tick_le (q : Qc) : (0 <= q)%Qc -> (qc_nat (to_tick q) <= q)%Qc /\ (q < qc_nat (to_tick q) + 1)%Qc.
Proof.
  intros H. unfold to_tick. assert (X : (0 <= Qfloor (this q))%Z) by (rewrite <- (Qfloor_Z 0); apply Qfloor_resp_le; exact H). unfold Qcle, Qclt. rewrite this_plus, this_nat, Z2Nat.id by exact X. split; [apply Qfloor_le|]. assert (Y := Qlt_floor (this q)). rewrite inject_Z_plus in Y. exact Y.
Qed.
Definition ctr (c : cand) : Qc := (qc_nat (h_center c) + Q2Qc (1 # 2))%Qc.
Lemma half_lt : (0 < Q2Qc (1 # 2))%Qc /\ (Q2Qc (1 # 2) < 1)%Qc. Proof. split; reflexivity. Qed.
(** limiting keeps the centre between start and stop *)
Lemma limit_ok ns c : (0 <= h_sigma c)%Qc -> h_start c <= h_center c <= h_stop c ->
  h_start c <= h_start (limit ns c) <= h_center c /\ h_center c <= h_stop (limit ns c) <= h_stop c /\
  ((0 < ns)%Qc -> (ctr c - ns * h_sigma c < qc_nat (h_start (limit ns c)) + 1)%Qc /\ (qc_nat (h_stop (limit ns c)) <= ctr c + ns * h_sigma c)%Qc) /\
  h_center (limit ns c) = h_center c /\ sig4 (limit ns c) = sig4 c /\ h_sigma (limit ns c) = h_sigma c /\ ((ns <= 0)%Qc -> limit ns c = c).
Proof.
  intros Hs Hc. unfold limit. destruct (qc_lt 0 ns) eqn:E.
  - apply qc_lt_spec in E. fold (ctr c). assert (Hm : (0 <= ns * h_sigma c)%Qc) by (clear - Hs E; qcnra). destruct half_lt as [H0 H1]. assert (Hn := qc_nat_nonneg (h_center c)).
    assert (A : to_tick (ctr c - ns * h_sigma c)%Qc <= h_center c) by (apply floor_le; unfold ctr; clear - Hm H1; qclra).
    assert (B : h_center c <= to_tick (ctr c + ns * h_sigma c)%Qc) by (apply floor_ge; unfold ctr; clear - Hm H0; qclra).
    assert (B0 : (0 <= ctr c + ns * h_sigma c)%Qc) by (unfold ctr; clear - Hm H0 Hn; qclra).
    cbn [set_ends h_start h_stop h_center h_sigma h_maxT h_minT h_maxD h_minD].
    split; [destruct (qc_lt (ctr c - ns * h_sigma c) 0); lia|]. split; [lia|]. split.
    + intros _. split.
      * destruct (qc_lt (ctr c - ns * h_sigma c) 0) eqn:Ea.
        -- apply qc_lt_spec in Ea. assert (X := qc_nat_nonneg (h_start c)). clear - X Ea. qclra.
        -- apply qc_lt_false in Ea. destruct (tick_le _ Ea) as [_ T]. set (u := to_tick (ctr c - ns * h_sigma c)%Qc) in *. assert (Y : (qc_nat u <= qc_nat (Nat.max (h_start c) u))%Qc).
           { unfold qc_nat, Qcle. rewrite !this_Q2Qc. rewrite <- Zle_Qle. lia. }
           clear - T Y. qclra.
      * destruct (tick_le _ B0) as [T _]. set (u := to_tick (ctr c + ns * h_sigma c)%Qc) in *. assert (Y : (qc_nat (Nat.min (h_stop c) u) <= qc_nat u)%Qc) by (unfold qc_nat, Qcle; rewrite !this_Q2Qc; rewrite <- Zle_Qle; lia). eapply Qcle_trans; eassumption.
    + split; [reflexivity|]. split; [reflexivity|]. split; [reflexivity|]. intros X. exfalso. exact (Qclt_not_le _ _ E X).
  - split; [lia|]. split; [lia|]. split; [|repeat split; reflexivity]. intros X. apply qc_lt_false in E. exfalso. exact (Qclt_not_le _ _ X E).
Qed.
Lemma linked_ss l : linked in_order l -> (forall c, In c l -> h_start c <= h_stop c) -> StronglySorted in_order l.
Proof.
  induction l as [|c l IH]; intros H1 H2; constructor.
  - apply IH; [destruct l; [exact Logic.I|apply H1]|intros; apply H2; right; assumption].
  - revert c H1 H2. clear. induction l as [|d l IH]; intros c H1 H2; constructor; [apply H1|]. destruct H1 as [H1 H3]. assert (Hd := H2 d ltac:(right; left; reflexivity)). specialize (IH d H3 ltac:(intros; apply H2; right; assumption)). rewrite Forall_forall in IH |- *. intros x Hx. specialize (IH x Hx). unfold in_order in *. lia.
Qed.
Lemma linked_map {A B} (R : A -> A -> Prop) (Q : B -> B -> Prop) (f : A -> B) l : (forall x y, In x l -> In y l -> R x y -> Q (f x) (f y)) -> linked R l -> linked Q (map f l).
Proof.
  induction l as [|x l IH]; intros H H1; [exact Logic.I|]. destruct l as [|y l]; [exact Logic.I|]. destruct H1 as [H1 H2]. split; [apply H; [left; reflexivity|right; left; reflexivity|exact H1]|]. apply IH; [intros a b Ha Hb; apply H; right; assumption|exact H2].
Qed.
(** C62: for regions starting at tick 0, a minimum number of ticks of at least 0 and a structuring element of at least 2, with an empty output
    vector: the search ends and reads nothing outside its vectors; each candidate is a pulse of the smoothed derivative, possibly widened
    towards its neighbours ([c0]) and then limited to [ns] sigmas around its centre *)
Theorem c62_morphological_candidates_partial w se mt fP thr fE ns : w <> [] -> (2 <= se)%Z -> (0 <= mt)%Z -> exists der cs,
  smoothed_derivative w der /\ morph_candidates w se mt fP thr fE ns 0 [] = Ok (Some cs) /\
  (forall c, In c cs -> (exists c0, morph_pulse der 0 0 (length w) c0 /\ h_start c0 <= h_start c /\ h_stop c <= h_stop c0 /\ h_center c = h_center c0 /\ h_maxT c = h_maxT c0 /\ h_minT c = h_minT c0 /\ h_maxD c = h_maxD c0 /\ h_minD c = h_minD c0 /\ h_sigma c = h_sigma c0) /\
     h_start c <= h_center c <= h_stop c /\ h_stop c < length w /\ h_height c = nth (h_center c) w 0%Qc /\
     ((0 < ns)%Qc -> (ctr c - ns * h_sigma c < qc_nat (h_start c) + 1)%Qc /\ (qc_nat (h_stop c) <= ctr c + ns * h_sigma c)%Qc)) /\
  StronglySorted in_order cs /\ ((ns <= 0)%Qc -> linked adjacent cs) /\
  (cs <> [] -> (exists c, In c cs /\ (mt <= Z.of_nat (h_minT c - h_maxT c))%Z /\ (fP < h_maxD c - h_minD c)%Qc) /\ exists x, In x w /\ (thr <= x)%Qc).
Proof.
  intros Hw Hse Hmt. destruct (derivative_ok w Hw) as (raw & der & Er & Ed & Ld & Sd). exists der. unfold morph_candidates. rewrite Er. cbn [obind]. rewrite Ed. cbn [obind].
  destruct (c55_erosion_dilation_partial w se Hse) as (ero & dil & ave & dif & Ee & Le & Li & _ & _ & M). rewrite Ee. cbn [obind]. assert (Hl : 0 < length w) by (destruct w; [congruence|cbn; lia]).
  destruct (find_morph_ok der ero dil mt fP Hmt thr fE ltac:(lia) ltac:(lia) 0 0 (length w) (S (length der)) 0 (length der) [] ltac:(lia) ltac:(lia) ltac:(lia) ltac:(lia)) as (acc & ps & E & (F & L) & _ & Sg & X); [split; [constructor|exact Logic.I]|intros c []|]. rewrite Nat.add_0_r in E. rewrite E. cbn [obind]. clear E.
  rewrite Forall_forall in F. assert (Fs : forall c, In c acc -> (0 <= h_sigma c)%Qc /\ h_start c <= h_center c <= h_stop c /\ h_stop c < length w).
  { intros c Hc. destruct (F c Hc) as (f & a & p & b & l & A1 & A2 & A3 & A4 & A5 & A6 & A7 & A8 & A9 & _ & _ & -> & _). split; [apply (share_nonneg _ 2); [lia|apply qc_nat_nonneg]|]. lia. }
  destruct (heights_ok w (map (limit ns) acc)) as (cs & Eh & ->). { intros c Hc. apply in_map_iff in Hc. destruct Hc as (c0 & <- & Hc). destruct (Fs c0 Hc) as (S1 & S2 & S3). destruct (limit_ok ns c0 S1 S2) as (_ & _ & _ & -> & _). lia. }
  rewrite Eh. cbn [obind]. eexists. split; [exact Sd|]. split; [reflexivity|]. rewrite map_map. set (g := fun c => set_height (limit ns c) (nth (h_center (limit ns c)) w 0%Qc)). split; [|split; [|split]].
  - intros c Hc. apply in_map_iff in Hc. destruct Hc as (c0 & <- & Hc). destruct (Fs c0 Hc) as (S1 & S2 & S3). destruct (limit_ok ns c0 S1 S2) as (L1 & L2 & L3 & L4 & L5 & L6 & _). unfold g. cbn [set_height h_start h_stop h_center h_maxT h_minT h_maxD h_minD h_sigma h_height]. unfold sig4 in L5. injection L5 as L5a L5b L5c L5d. split.
    + exists c0. split; [exact (F c0 Hc)|]. rewrite L4, L5a, L5b, L5c, L5d, L6. repeat (split; [lia || reflexivity|]). reflexivity.
    + rewrite L4. split; [lia|]. split; [lia|]. split; [reflexivity|]. intros Hns. specialize (L3 Hns). unfold ctr in *. cbn [set_height h_center h_sigma]. rewrite L4, L6. exact L3.
  - apply linked_ss.
    + revert L. apply linked_map. intros x y Hx Hy (R1 & _). destruct (Fs x Hx) as (S1 & S2 & S3). destruct (limit_ok ns x S1 S2) as (_ & Lx & _). destruct (Fs y Hy) as (T1 & T2 & T3). destruct (limit_ok ns y T1 T2) as (Ly & _). unfold in_order, g. cbn [set_height h_start h_stop]. lia.
    + intros c Hc. apply in_map_iff in Hc. destruct Hc as (c0 & <- & Hc). destruct (Fs c0 Hc) as (S1 & S2 & S3). destruct (limit_ok ns c0 S1 S2) as (L1 & L2 & _). unfold g. cbn [set_height h_start h_stop]. lia.
  - intros Hns. revert L. apply linked_map. intros x y Hx Hy R. destruct (Fs x Hx) as (S1 & S2 & S3). destruct (limit_ok ns x S1 S2) as (_ & _ & _ & _ & _ & _ & Ex). destruct (Fs y Hy) as (T1 & T2 & T3). destruct (limit_ok ns y T1 T2) as (_ & _ & _ & _ & _ & _ & Ey). unfold adjacent, g. cbn [set_height h_start h_stop]. rewrite (Ex Hns), (Ey Hns). exact R.
  - intros Hne. assert (Hps : ps <> []). { intros ->. cbn [map app] in Sg. apply map_eq_nil in Sg. subst acc. contradiction. }
    destruct (X Hps) as (Xm & t & Ht & Htv). split.
    + apply Exists_exists in Xm. destruct Xm as (q & Hq & Mq). assert (Hin : In (sig_of der 0 q) (map sig4 acc)) by (rewrite Sg; cbn [map app]; apply in_map, Hq). apply in_map_iff in Hin. destruct Hin as (c0 & Eq & Hc). exists (g c0). split; [apply in_map, Hc|]. destruct (Fs c0 Hc) as (S1 & S2 & S3). destruct (limit_ok ns c0 S1 S2) as (_ & _ & _ & _ & L5 & _). unfold g. cbn [set_height h_maxT h_minT h_maxD h_minD].
      rewrite Eq in L5. destruct q as [[[f a] b] l]. unfold sig4, sig_of in L5. injection L5 as -> -> -> ->. destruct Mq as [Q1 Q2]. split; [|exact Q2]. replace (0 + b - (0 + a)) with (b - a) by lia. exact Q1.
    + assert (Htw : t < length w) by lia. destruct (nth_error w t) as [x|] eqn:Ex; [|apply nth_error_None in Ex; lia]. destruct (M t x Ex) as (_ & u & y & _ & Edil & _ & _ & _ & ((j & _ & Ej) & _) & _). exists y. split; [eapply nth_error_In; exact Ej|]. unfold sample in Htv. rewrite (nth_error_nth _ _ _ Edil) in Htv. exact Htv.
Qed.
(** without the limit, the candidates of a region are in one group, whatever the number of intervening ticks *)
Theorem c62_one_group w se mt fP thr fE ns cs minH gap : w <> [] -> (2 <= se)%Z -> (0 <= mt)%Z -> (ns <= 0)%Qc -> 1 <= gap -> morph_candidates w se mt fP thr fE ns 0 [] = Ok (Some cs) ->
  cs <> [] -> (forall c, In c cs -> (minH < h_height c)%Qc) -> merge_cands minH gap cs = [cs].
Proof.
  intros Hw Hse Hmt Hns Hg E Hne Hh. destruct (c62_morphological_candidates_partial w se mt fP thr fE ns Hw Hse Hmt) as (der & cs' & _ & E' & _ & _ & A & _). rewrite E' in E. injection E as ->. specialize (A Hns). destruct (c61_merge minH gap cs) as (C1 & C2 & C3).
  assert (Fk : filter (kept minH) cs = cs). { clear - Hh. induction cs as [|c cs IH]; [reflexivity|]. cbn [filter]. unfold kept at 1. destruct (Qclt_le_dec minH (h_height c)) as [X|X]; [|exfalso; exact (Qclt_not_le _ _ (Hh c ltac:(left; reflexivity)) X)]. f_equal. apply IH. intros; apply Hh; right; assumption. }
  rewrite Fk in C1. destruct (merge_cands minH gap cs) as [|g [|g' gs]]; [exfalso; apply Hne; symmetry; exact C1| |].
  - cbn [concat] in C1. rewrite app_nil_r in C1. subst g. reflexivity.
  - exfalso. destruct C3 as [(g0 & c & d & g1 & -> & -> & Fr) _]. cbn [concat] in C1. assert (Ac : adjacent c d).
    { rewrite <- C1 in A. clear - A. rewrite <- app_assoc in A. cbn [app] in A. induction g0 as [|x g0 IH]; cbn [app] in A; [apply A|]. apply IH. destruct (g0 ++ c :: d :: g1 ++ concat gs) eqn:E; [exact Logic.I|apply A]. }
    unfold adjacent in Ac. lia.
Qed.
(** refuted: the output vector is not cleared, so old candidates stay (with new heights) *)
Theorem c62_not_cleared_refuted : exists w c cs, morph_candidates w 20 1 (Q2Qc (1 # 100)) (Q2Qc 4) (Q2Qc (1 # 5)) 0 0 [c] = Ok (Some cs) /\ cs <> [] /\ morph_candidates w 20 1 (Q2Qc (1 # 100)) (Q2Qc 4) (Q2Qc (1 # 5)) 0 0 [] = Ok (Some []).
Proof.
  exists (qs [0; 0; 0]%Z), (mkCand 1 1 1 1 0%Qc 0%Qc 1 0%Qc 0%Qc).
  assert (A : match morph_candidates (qs [0; 0; 0]%Z) 20 1 (Q2Qc (1 # 100)) (Q2Qc 4) (Q2Qc (1 # 5)) 0 0 [mkCand 1 1 1 1 0%Qc 0%Qc 1 0%Qc 0%Qc] with Ok (Some (_ :: _)) => true | _ => false end = true) by (vm_compute; reflexivity).
  destruct (morph_candidates _ _ _ _ _ _ _ _ [_]) as [[[|c cs]|]| |]; try discriminate A. exists (c :: cs). split; [reflexivity|]. split; [discriminate|]. vm_compute. reflexivity.
Qed.
(** refuted: structuring elements below 2 and empty regions *)
Theorem c62_small_element_refuted w se mt fP thr fE ns roi acc : w <> [] -> (se < 2)%Z -> morph_candidates w se mt fP thr fE ns roi acc = Undef.
Proof. intros Hw H. destruct (derivative_ok w Hw) as (raw & der & Er & Ed & _). unfold morph_candidates. rewrite Er. cbn [obind]. rewrite Ed. cbn [obind]. rewrite (c55_small_element_refuted w se Hw H). reflexivity. Qed.
Theorem c62_empty_region_refuted se mt fP thr fE ns roi acc : morph_candidates [] se mt fP thr fE ns roi acc = Throw RangeExn.
Proof. reflexivity. Qed.
(** refuted for a negative minimum number of ticks: on an empty range whose next dilation is above threshold the recursion does not end *)
Theorem c62_negative_ticks_refuted der ero dil mt fP thr fE s roi acc : (mt < 0)%Z -> s < length dil -> (thr <= nth s dil 0)%Qc -> forall fuel, find_morph der ero dil mt fP thr fE fuel s s roi acc = Ok None.
Proof.
  intros Hm Hs Ht. induction fuel as [|fuel IH]; [reflexivity|]. cbn [find_morph]. rewrite Nat.sub_diag. destruct (Z.ltb_spec (Z.of_nat 0) mt); [lia|]. unfold best_elem. rewrite Nat.ltb_irrefl. cbn [obind]. rewrite idx_s by exact Hs. cbn [obind]. destruct (qc_lt (sample dil s) thr) eqn:E; [apply qc_lt_spec in E; exfalso; exact (Qclt_not_le _ _ E Ht)|]. cbn [region_start region_stop obind]. rewrite Nat.sub_diag. destruct (Z.ltb_spec mt (Z.of_nat 0)); [|lia]. cbn [region_start region_stop obind]. rewrite Nat.sub_diag. rewrite IH. destruct (Z.ltb_spec mt (Z.of_nat 0)); [|lia]. reflexivity.
Qed.
Print Assumptions c62_morphological_candidates_partial. Print Assumptions c62_one_group. Print Assumptions c62_not_cleared_refuted. Print Assumptions c62_small_element_refuted. Print Assumptions c62_empty_region_refuted. Print Assumptions c62_negative_ticks_refuted.
(* ------------------------------------------------------------ non-vacuity *)
Example ex_morph_hits : match morph_candidates (qs [0; 0; 0; 2; 6; 9; 6; 2; 0; 0; 0; 0; 0; 3; 8; 10; 7; 3; 0; 0]%Z) 4 1 (Q2Qc (1 # 100)) (Q2Qc 4) (Q2Qc (1 # 5)) 0 0 [] with Ok (Some l) => map (fun c => (show c, this (h_height c))) l | _ => [] end
  = [((2, 3, 5, 7, 9), 9%Q); ((9, 13, 15, 17, 18), 10%Q)].
Proof. vm_compute. reflexivity. Qed.
