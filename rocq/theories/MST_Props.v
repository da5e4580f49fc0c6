(** Theorems C67, C68: Prim's algorithm *)
From Coq Require Import QArith Qcanon Lqa.
From Verif Require Import Base QcUtil Solver_Model Solver_Proofs Triplet_Spec SortUtil KD_Model KD_Spec KD_Proofs KD_Props MST_Model MST_Spec MST_Proofs MST_Loop.
Local Open Scope nat_scope.

Section P.
Context (nb : nat -> list nat) (wt : nat -> nat -> Qc) (sort : list edge -> list edge) (hits : list nat).

(* ================================================================== C67 *)
(** RunPrimsAlgorithm ends after at most as many rounds as there are hits; every hit is in exactly one cluster, no cluster is empty, every hit of a cluster can be reached over neighbours
    from the cluster's first hit, and no hit has a neighbour in a later cluster *)
Theorem c67_clusters : sorts_by lighter sort -> NoDup hits -> (forall h v, In h hits -> In v (nb h) -> In v hits) ->
  exists cs, (forall fuel, length hits <= fuel -> run_prims nb wt sort fuel hits = Some cs) /\ Permutation (all_hits cs) hits /\
    (forall c, In c cs -> exists h r, c_hits c = h :: r /\ forall v, In v (c_hits c) -> reach nb h v) /\
    (forall i j ci cj u v, nth_error cs i = Some ci -> nth_error cs j = Some cj -> In u (c_hits ci) -> In v (c_hits cj) -> In v (nb u) -> j <= i).
Proof.
  intros Hs Hnd Hnb. destruct (run_ok nb wt sort hits Hs Hnb Hnd) as (cs & [P G] & R). exists cs. split; [exact R|]. split; [exact P|]. split.
  - intros c Hc. destruct (d_tree _ _ _ G c Hc) as [T HT]. pose proof (t_len _ _ _ _ _ HT) as L. pose proof (t_reach _ _ _ _ _ HT) as Rc. destruct (c_hits c) as [|h r]; [discriminate|]. exists h, r. split; [reflexivity|exact Rc].
  - intros i j ci cj u v Ei Ej Hu Hv Hn. destruct (le_lt_dec j i) as [H|H]; [exact H|exfalso]. apply nth_error_split in Ei. destruct Ei as (pre & post & E & Li).
    pose proof (d_closed _ _ _ G pre ci post E u v Hu Hn) as X. assert (E2 : cs = (pre ++ [ci]) ++ post) by (rewrite <- app_assoc; exact E).
    assert (Lp : length (pre ++ [ci]) <= j) by (rewrite app_length; cbn [length]; lia).
    rewrite E2, nth_error_app2 in Ej by exact Lp. apply nth_error_In in Ej. assert (Y : In v (all_hits post)) by (apply in_flat_map; exists cj; split; assumption).
    assert (N : NoDup (all_hits (pre ++ [ci]) ++ all_hits post)). { unfold all_hits. rewrite <- flat_map_app, <- E2. eapply Permutation_NoDup; [apply Permutation_sym, P|exact Hnd]. }
    revert X Y N. generalize (all_hits (pre ++ [ci])) (all_hits post). clear. intros A B HA HB. induction A as [|a A IH]; [destruct HA|]. intros N. cbn [app] in N. inversion N as [|? ? M1 M2]; subst. destruct HA as [<-|HA]; [apply M1, in_or_app; right; exact HB|apply IH; assumption].
Qed.

(** two hits that find each other end in the same cluster *)
Theorem c67_together fuel cs u v : sorts_by lighter sort -> NoDup hits -> (forall h v, In h hits -> In v (nb h) -> In v hits) -> length hits <= fuel -> run_prims nb wt sort fuel hits = Some cs ->
  In u hits -> In v (nb u) -> In u (nb v) -> exists c, In c cs /\ In u (c_hits c) /\ In v (c_hits c).
Proof.
  intros Hs Hnd Hnb Hf Er Hu Hv Hv'. destruct (c67_clusters Hs Hnd Hnb) as (cs' & R & P & _ & O). rewrite (R fuel Hf) in Er. injection Er as ->.
  assert (F : forall x, In x hits -> exists i c, nth_error cs i = Some c /\ In x (c_hits c)).
  { intros x Hx. eapply Permutation_in in Hx; [|apply Permutation_sym, P]. apply in_flat_map in Hx. destruct Hx as (c & Hc & Hx). apply In_nth_error in Hc. destruct Hc as [i Hi]. exists i, c. auto. }
  destruct (F u Hu) as (i & c & Hi & Hc). destruct (F v (Hnb u v Hu Hv)) as (j & c' & Hj & Hc').
  pose proof (O i j c c' u v Hi Hj Hc Hc' Hv). pose proof (O j i c' c v u Hj Hi Hc' Hc Hv'). assert (j = i) by lia. subst j. rewrite Hi in Hj. injection Hj as <-.
  exists c. split; [eapply nth_error_In; exact Hi|auto].
Qed.

Lemma components cs c u v : mutual nb -> (forall h v, In h hits -> In v (nb h) -> In v hits) -> Permutation (all_hits cs) hits -> NoDup hits -> good_done nb wt cs -> In c cs -> In u (c_hits c) -> In v (c_hits c) <-> reach nb u v.
Proof.
  intros Hm Hnb P Hnd G Hc Hu. destruct (d_tree _ _ _ G c Hc) as [T HT]. split.
  - intros Hv. eapply reach_trans; [apply reach_sym; [exact Hm|]|]; apply (t_reach _ _ _ _ _ HT); assumption.
  - intros R. revert Hu. induction R as [|y z _ IH Hz]; intros Hu; [exact Hu|]. specialize (IH Hu). apply in_split in Hc. destruct Hc as (pre & post & ->).
    pose proof (d_closed _ _ _ G pre c post eq_refl y z IH Hz) as X. unfold all_hits in X. rewrite flat_map_app in X. cbn [flat_map] in X. rewrite app_nil_r in X.
    apply in_app_or in X. destruct X as [X|X]; [exfalso|exact X].
    assert (Gp : good_done nb wt pre).
    { destruct G as [G1 G2]. split; [intros d Hd; apply G1, in_or_app; left; exact Hd|]. intros p1 d p2 E. apply (G2 p1 d (p2 ++ c :: post)). rewrite E, <- app_assoc. reflexivity. }
    assert (Y : In y (all_hits pre)) by (apply (done_closed _ _ _ Gp z); [exact X|apply Hm, Hz]).
    assert (N : NoDup (all_hits pre ++ all_hits (c :: post))). { unfold all_hits. rewrite <- flat_map_app. eapply Permutation_NoDup; [apply Permutation_sym, P|exact Hnd]. }
    assert (IH' : In y (all_hits (c :: post))) by (unfold all_hits; cbn [flat_map]; apply in_or_app; left; exact IH).
    revert Y IH' N. generalize (all_hits pre) (all_hits (c :: post)). clear. intros A B HA HB. induction A as [|a A IH]; [destruct HA|]. intros N. cbn [app] in N. inversion N as [|? ? M1 M2]; subst. destruct HA as [<-|HA]; [apply M1, in_or_app; right; exact HB|apply IH; assumption].
Qed.

(** with a mutual neighbourhood relation the clusters are exactly the connected components *)
Theorem c67_components fuel cs : sorts_by lighter sort -> NoDup hits -> (forall h v, In h hits -> In v (nb h) -> In v hits) -> mutual nb -> length hits <= fuel -> run_prims nb wt sort fuel hits = Some cs ->
  forall c u v, In c cs -> In u (c_hits c) -> In v (c_hits c) <-> reach nb u v.
Proof.
  intros Hs Hnd Hnb Hm Hf Er c u v Hc Hu. destruct (run_ok nb wt sort hits Hs Hnb Hnd) as (cs' & [P G] & R). rewrite (R fuel Hf) in Er. injection Er as ->. apply (components cs); assumption.
Qed.

(* ================================================================== C68 *)
(** the edge map of every cluster holds a tree [T], each edge once at either end: one edge less than hits, all between neighbours of the cluster and with the right weight, connecting all its hits.
    If neighbourhood and weights are symmetric, no set of edges between neighbours that connects the cluster's hits weighs less (negative weights: no set with as many edges) *)
Theorem c68_spanning_tree fuel cs c : sorts_by lighter sort -> NoDup hits -> (forall h v, In h hits -> In v (nb h) -> In v hits) -> length hits <= fuel -> run_prims nb wt sort fuel hits = Some cs -> In c cs ->
  exists T, (forall h, c_map c h = edges_at T h) /\ S (length T) = length (c_hits c) /\ spans T (c_hits c) /\
    (forall e, In e T -> neighbour_edge nb wt e /\ In (e_src e) (c_hits c) /\ In (e_dst e) (c_hits c)) /\
    (mutual nb -> (forall x y, wt x y = wt y x) -> forall T', (forall e, In e T' -> neighbour_edge nb wt e) -> spans T' (c_hits c) ->
      (length T' <= length T \/ forall e, In e T' -> (0 <= e_w e)%Qc) -> (total T <= total T')%Qc).
Proof.
  intros Hs Hnd Hnb Hf Er Hc. destruct (run_ok nb wt sort hits Hs Hnb Hnd) as (cs' & [P G] & R). rewrite (R fuel Hf) in Er. injection Er as ->.
  destruct (d_tree _ _ _ G c Hc) as [T HT]. exists T. split; [apply (t_map _ _ _ _ _ HT)|]. split; [apply (t_len _ _ _ _ _ HT)|]. split; [apply (t_conn _ _ _ _ _ HT)|]. split; [apply (t_link _ _ _ _ _ HT)|].
  intros Hm Hw T' HL HC Hor. assert (Hh : In (hd 0 (c_hits c)) (c_hits c)). { pose proof (t_len _ _ _ _ _ HT) as L. destruct (c_hits c); [discriminate|left; reflexivity]. }
  destruct (t_min _ _ _ _ _ HT Hm Hw T' HL) as (Rm & RI & RL & RT & RC). { intros v Hv. apply HC; [exact Hh|]. apply (components cs c (hd 0 (c_hits c)) v); assumption. }
  assert (N : (0 <= total Rm)%Qc).
  { destruct Hor as [Hl|Hp]; [|apply qsum_nonneg; intros x Hx; apply Hp, RI, Hx]. assert (Rm = []) by (destruct Rm; [reflexivity|cbn [length] in RL; lia]). subst Rm. apply Qcle_refl. }
  clear -RT N. qc2q; lra.
Qed.
End P.
Print Assumptions c67_clusters. Print Assumptions c67_together. Print Assumptions c67_components. Print Assumptions c68_spanning_tree.

(** with the kd tree of C35/C36 (searched with a distance of at least RefLeafBestDist, as here with 1.5): hits that are close to each other end in the same cluster *)
Definition kd_found (hit : nat -> hit3) (root : Qc -> Qc) (sigmas refdist b : Qc) (t : node) (h : nat) : list nat :=
  match neighbours hit root sigmas refdist h t ([], D b) with Ok (c, _) => map snd c | _ => [] end.
Theorem c67_close hit ksort root sigmas refdist b t wt sort hits fuel cs u v : KD_Spec.sorts hit ksort -> (refdist <= b)%Qc -> build_tree hit ksort hits = Some t -> sorts_by lighter sort -> NoDup hits -> length hits <= fuel ->
  run_prims (kd_found hit root sigmas refdist b t) wt sort fuel hits = Some cs -> In u hits -> In v hits -> close_to hit root sigmas refdist u v -> exists c, In c cs /\ In u (c_hits c) /\ In v (c_hits c).
Proof.
  intros Hk Hb Ht Hs Hnd Hf Er Hu Hv Hc. assert (Hne : hits <> []) by (intros ->; destruct Hu).
  assert (F : forall x y, In x hits -> In y hits -> close_to hit root sigmas refdist x y -> In y (kd_found hit root sigmas refdist b t x)).
  { intros x y Hx Hy Hxy. unfold kd_found. destruct (c36_sound hit ksort root sigmas refdist hits t x [] (D b) Hk Hne Hnd Ht Hb) as (new & best' & En & _ & _). rewrite En.
    pose proof (c36_complete hit ksort root sigmas refdist hits t x [] b _ _ Hk Hne Ht Hb En y Hy Hxy) as X. apply (in_map snd) in X. exact X. }
  apply (c67_together (kd_found hit root sigmas refdist b t) wt sort hits fuel cs u v Hs Hnd); auto.
  - intros x y Hx Hy. unfold kd_found in Hy. destruct (c36_sound hit ksort root sigmas refdist hits t x [] (D b) Hk Hne Hnd Ht Hb) as (new & best' & En & _ & Sd). rewrite En in Hy. cbn [app] in Hy.
    apply in_map_iff in Hy. destruct Hy as ((d & y') & <- & Hy). apply (Sd d y' Hy).
  - apply F; auto. apply close_sym, Hc.
Qed.
Print Assumptions c67_close.

(** the expectation "a hit and the neighbours the search finds for it end in the same cluster" fails: between RefLeafBestDist and 1.5 the kd search is one-sided for hits sharing a coordinate
    (C36); here hit 1 finds hit 0, but hit 0 comes first and does not find hit 1 *)
Lemma isort_lighter : sorts_by lighter (isort lighter).
Proof.
  intros l. split; [apply isort_perm|]. apply isort_sorted; unfold lighter.
  - intros x y z H1 H2. apply qc_lt_false in H1, H2. apply qc_lt_false. eapply Qcle_trans; eauto.
  - intros x y H1. apply qc_lt_spec in H1. apply qc_lt_false, Qclt_le_weak, H1.
Qed.
Theorem c67_components_refuted : ~ (forall hit ksort root sigmas refdist b t wt sort hits fuel cs, KD_Spec.sorts hit ksort -> (refdist <= b)%Qc -> build_tree hit ksort hits = Some t -> sorts_by lighter sort -> NoDup hits -> length hits <= fuel ->
  run_prims (kd_found hit root sigmas refdist b t) wt sort fuel hits = Some cs ->
  forall u v, In u hits -> In v (kd_found hit root sigmas refdist b t u) -> exists c, In c cs /\ In u (c_hits c) /\ In v (c_hits c)).
Proof.
  intros H. set (nb := kd_found ex_hit ex_root (q 3 1) (q 1 1000) (q 3 2) tie_t).
  destruct (run_prims nb (fun _ _ => 0%Qc) (isort lighter) 3 [0; 1; 2]) as [cs|] eqn:E; [|vm_compute in E; discriminate].
  assert (N : NoDup [0; 1; 2]) by (repeat constructor; cbn; intuition discriminate).
  assert (L : (q 1 1000 <= q 3 2)%Qc) by (vm_compute; discriminate).
  assert (B : build_tree ex_hit ex_sort [0; 1; 2] = Some tie_t) by (vm_compute; reflexivity).
  assert (F : nb 1 = [0]) by (vm_compute; reflexivity).
  destruct (H ex_hit ex_sort ex_root (q 3 1) (q 1 1000) (q 3 2) tie_t (fun _ _ => 0%Qc) (isort lighter) [0; 1; 2] 3 cs ex_sorts L B isort_lighter N (le_n _) E 1 0 (or_intror (or_introl eq_refl))) as (c & Hc & H1 & H0); [fold nb; rewrite F; left; reflexivity|].
  assert (Y : match run_prims nb (fun _ _ => 0%Qc) (isort lighter) 3 [0; 1; 2] with Some cs => forallb (fun c => Nat.eqb (length (c_hits c)) 1) cs | None => false end = true) by (vm_compute; reflexivity).
  rewrite E in Y. rewrite forallb_forall in Y. specialize (Y c Hc). apply Nat.eqb_eq in Y. clear -Y H1 H0. destruct (c_hits c) as [|a [|? ?]]; try discriminate Y. destruct H1 as [->|[]]. destruct H0 as [H0|[]]. discriminate H0.
Qed.
Print Assumptions c67_components_refuted.

(* ================================================================== examples *)
(** five hits: a triangle 3, 1, 4 with 0 attached to 4, and 2 alone *)
Definition xs_nb (h : nat) : list nat := match h with 0 => [4] | 1 => [3; 4] | 3 => [4; 1] | 4 => [0; 1; 3] | _ => [] end.
Definition xs_chi (h : nat) : Qc := match h with 0 => Q2Qc (7 # 1) | 1 => Q2Qc (1 # 2) | 3 => Q2Qc (3 # 1) | 4 => Q2Qc (2 # 1) | _ => 1 end.
Definition xs_wt (x y : nat) : Qc := (xs_chi x * xs_chi y)%Qc.
Definition show_c (c : cluster) := (c_hits c, map (fun h => map (fun e => (e_src e, e_dst e, this (e_w e))) (c_map c h)) (c_hits c)).
Example xs_hyps : sorts_by lighter (isort lighter) /\ NoDup [3; 0; 2; 1; 4] /\ (forall h v, In h [3; 0; 2; 1; 4] -> In v (xs_nb h) -> In v [3; 0; 2; 1; 4]) /\ mutual xs_nb /\ (forall x y, xs_wt x y = xs_wt y x).
Proof.
  split; [apply isort_lighter|]. split; [repeat constructor; cbn; intuition discriminate|]. split; [|split].
  - intros h v Hh Hv. cbn in Hh. decompose [or] Hh; try contradiction; subst; cbn in Hv; intuition (subst; cbn; auto 10).
  - intros x y H. destruct x as [|[|[|[|[|x]]]]]; cbn in H; intuition (subst; cbn; auto 10).
  - intros x y. apply Qcmult_comm.
Qed.
Example xs_run : option_map (map show_c) (run_prims xs_nb xs_wt (isort lighter) 5 [3; 0; 2; 1; 4]) =
  Some [([3; 1; 4; 0], [[(3, 1, (3 # 2)%Q)]; [(1, 3, (3 # 2)%Q); (1, 4, 1%Q)]; [(4, 1, 1%Q); (4, 0, 14%Q)]; [(0, 4, 14%Q)]]); ([2], [[]])].
Proof. vm_compute. reflexivity. Qed.
