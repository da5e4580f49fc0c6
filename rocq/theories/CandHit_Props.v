(** C26, C27, C28 *)
From Coq Require Import QArith Qcanon.
From Verif Require Import Base Util QcUtil Solver_Model Solver_Proofs CandHit_Model CandHit_Spec CandHit_Proofs.
Local Open Scope nat_scope.

(** C26: for every waveform, threshold and step the search ends after a recursion no deeper than the waveform is long, never reads outside the waveform,
    and yields candidates in time order, each lying in the waveform with start <= centre <= stop, its height being the waveform value at the centre, above
    threshold, the largest in [start,stop] and its first occurrence there, no edge inside the range (unless the peak is within 2 ticks of that end),
    and each end of the range being an edge of the pulse, an end of the waveform, or the place where a neighbouring candidate takes over *)
Theorem c26_candidates w thr nadc roi : exists cs,
  (forall fuel, length w < fuel -> find_hit_candidates w thr nadc fuel roi = Some (Ok cs)) /\
  StronglySorted before cs /\
  forall c, In c cs ->
    (exists f m l, f <= m <= l /\ l < length w /\ h_start c = roi + f /\ h_stop c = roi + l /\ h_center c = roi + m /\ peak w thr nadc c f m l) /\
    (h_start c = roi \/ (exists d, In d cs /\ h_start c = h_stop d + 1) \/ exists f, h_start c = roi + f /\ left_edge w thr nadc f) /\
    (h_stop c = roi + length w - 1 \/ (exists d, In d cs /\ h_stop c = h_start d) \/ exists l, h_stop c = roi + l /\ right_edge w thr nadc l).
Proof.
  destruct (find_ok w thr nadc (S (length w)) 0 (length w) roi) as (cs & E & G & S & D & _); [lia|lia|]. rewrite Nat.add_0_r in E.
  exists cs. split; [|split; [exact S|]].
  - intros fuel Hf. unfold find_hit_candidates. clear - E Hf.
    assert (Mono : forall fuel fuel' s e r res, fuel <= fuel' -> find_hits w thr nadc fuel s e r = Some res -> find_hits w thr nadc fuel' s e r = Some res).
    { clear. induction fuel as [|fuel IH]; intros fuel' s e r res Hle H; [discriminate|]. destruct fuel' as [|fuel']; [lia|]. assert (Hle' : fuel <= fuel') by lia. cbn [find_hits] in *.
      destruct (Nat.ltb 4 (e - s)); [|exact H]. destruct (max_elem w s (s + 1) (e - s - 1)) as [mx| |]; try exact H. destruct (idx w mx) as [v| |]; try exact H.
      destruct (qc_lt thr v); [|exact H]. destruct (if Nat.ltb 2 (mx - s) then _ else _) as [first| |]; try exact H.
      destruct (find_hits w thr nadc fuel s (first + 1) r) as [x|] eqn:E1; [|discriminate]. rewrite (IH fuel' _ _ _ _ Hle' E1). destruct x as [lft| |]; try exact H.
      destruct (if Nat.ltb 2 (e - mx) then _ else _) as [last| |]; try exact H. destruct (idx w first) as [vf| |]; try exact H. destruct (idx w last) as [vl| |]; try exact H.
      destruct (find_hits w thr nadc fuel (last + 1) e (r + (last + 1 - s))) as [x|] eqn:E2; [|discriminate]. rewrite (IH fuel' _ _ _ _ Hle' E2). exact H. }
    apply (Mono (Datatypes.S (length w))); [lia|exact E].
  - rewrite Forall_forall in G, D. intros c Hc. destruct (D c Hc) as [D1 D2]. rewrite Nat.add_0_r in D1.
    destruct (G c Hc) as (f & m & l & _ & G1 & G2 & G3). split; [exists f, m, l; split; [lia|]; split; [exact G2|]; exact G3|]. split; assumption.
Qed.
Print Assumptions c26_candidates.

(** C27: a stretch of ticks [a,b) of the waveform outside all candidates that holds a sample above threshold has at most 4 ticks *)
Theorem c27_no_large_pulse_missed w thr nadc roi fuel cs a b t :
  length w < fuel -> find_hit_candidates w thr nadc fuel roi = Some (Ok cs) ->
  a <= t < b -> b <= length w -> (thr < nth t w 0)%Qc ->
  (forall u, a <= u < b -> ~ exists c, In c cs /\ h_start c <= roi + u <= h_stop c) -> b - a <= 4.
Proof.
  intros Hf E Ht Hb Hv Hun. destruct (find_ok w thr nadc fuel 0 (length w) roi) as (cs' & E' & _ & _ & _ & C); [lia|lia|]. rewrite Nat.add_0_r in E'.
  unfold find_hit_candidates in E. rewrite E' in E. inversion E; subst. apply (C a b t); [lia|exact Ht|exact Hb|exact Hv|exact Hun].
Qed.
Print Assumptions c27_no_large_pulse_missed.

(** C28: the groups are a split of the candidate list; inside a group the gap between successive candidates is at most 1, between groups more *)
Theorem c28_grouping cs : (forall c, In c cs -> h_start c <= h_stop c) ->
  concat (merge_hits cs) = cs /\ (forall g, In g (merge_hits cs) -> g <> [] /\ chain (fun c d => (gap c d <= 1)%Z) g) /\
  chain (fun g g' => exists g0 c d g1, g = g0 ++ [c] /\ g' = d :: g1 /\ (1 < gap c d)%Z) (merge_hits cs).
Proof.
  intros H. destruct (merge_hits_ok cs) as (H1 & H2 & H3 & H4). { intros c cs' ->. specialize (H c (or_introl eq_refl)). lia. }
  rewrite Forall_forall in H2, H3. split; [exact H1|]. split; [intros g Hg; auto|exact H4].
Qed.
Print Assumptions c28_grouping.

(** the candidates found by the search meet the premise of C28 *)
Theorem c28_after_search w thr nadc roi fuel cs : length w < fuel -> find_hit_candidates w thr nadc fuel roi = Some (Ok cs) ->
  (forall c, In c cs -> h_start c <= h_stop c) /\ concat (merge_hits cs) = cs.
Proof.
  intros Hf E. destruct (c26_candidates w thr nadc roi) as (cs' & E' & _ & H). rewrite (E' fuel Hf) in E. inversion E; subst.
  assert (X : forall c, In c cs -> h_start c <= h_stop c). { intros c Hc. destruct (H c Hc) as ((f & m & l & A & B & -> & -> & _) & _). lia. }
  split; [exact X|]. apply c28_grouping. exact X.
Qed.
Print Assumptions c28_after_search.

(** non-trivial case: two pulses joined by a dip, and one apart; the search finds all three, the grouping joins the first two *)
Definition qz (z : Z) : Qc := Q2Qc (inject_Z z).
Definition wave : list Qc := map qz [0; 6; 20; 9; 7; 8; 30; 12; 3; -9; 0; 0; 0; 1; 9; 40; 8; 0; 0]%Z.
Definition summary (r : option (outcome (list cand))) := match r with Some (Ok cs) => Some (map (fun c => (h_start c, h_center c, h_stop c)) cs, map (@length cand) (merge_hits cs)) | _ => None end.
Example c26_case : summary (find_hit_candidates wave (qz 5) 0%Qc 20 100) = Some ([(100, 102, 104); (104, 106, 109); (112, 115, 117)], [2; 1]).
Proof. vm_compute. reflexivity. Qed.
(** leftover of 4 ticks above threshold is really possible: C27 is sharp *)
Example c27_sharp : summary (find_hit_candidates (map qz [-9; 1; 50; 1; -9; 9; 9; 9; 8]%Z) (qz 5) 0%Qc 20 0) = Some ([(0, 2, 4)], [1]).
Proof. vm_compute. reflexivity. Qed.
(** without start <= stop an empty group comes first *)
Definition bad : cand := mkCand 10 2 0 0 0%Qc 0%Qc 0 0%Qc 0%Qc.
Example c28_needs_order : merge_hits [bad] = [[]; [bad]].
Proof. reflexivity. Qed.
