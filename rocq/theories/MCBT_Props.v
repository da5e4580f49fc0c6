(** Theorems C31-C34, C47, C48 *)
From Coq Require Import QArith Qcanon Lqa.
From Verif Require Import Base Util QcUtil Solver_Model Solver_Proofs Solver_Sched MCBT_Model MCBT_Spec MCBT_Proofs MCBT_Match.
Local Open Scope nat_scope.

Section C31.
Context (nplanes : nat) (plane_of : nat -> nat).

(* ================================================================== C31 *)
(** Reset succeeds on proper input, whatever the object held before; one entry per distinct id plus one *)
Theorem c31_reset old ids chs : proper nplanes plane_of chs -> exists b, reset nplanes plane_of old ids chs = Ok b /\ num_parts b = length (nodup Nat.eq_dec ids).
Proof. intros Hp. destruct (reset_spec nplanes plane_of old ids chs Hp) as (ev & t & sums & E & _). eexists. split; [exact E|]. unfold num_parts. cbn [b_parts]. lia. Qed.
Theorem c31_reset_groups old gs chs : proper nplanes plane_of chs -> NoDup (concat gs) -> exists b, reset_groups nplanes plane_of old gs chs = Ok b /\ num_parts b = length gs.
Proof. intros Hp Hn. destruct (proj1 (reset_groups_spec nplanes plane_of old gs chs Hp) Hn) as (ev & t & sums & E & _). eexists. split; [exact E|]. unfold num_parts. cbn [b_parts]. lia. Qed.

(** MCQSum: entry by entry the charge of the deposits of the plane, and in total all of them *)
Theorem c31_sum b chs p : proper nplanes plane_of chs -> built nplanes plane_of b chs -> p < nplanes ->
  exists r, mcq_sum b p = Ok r /\ length r = num_parts b + 1 /\
    (forall k, k <= num_parts b -> nth k r 0%Qc = charge (fun d => Nat.eqb (plane_of (d_ch d)) p && belongs b k d) (deps chs)) /\
    qsum (fun x => x) r = charge (fun d => Nat.eqb (plane_of (d_ch d)) p) (deps chs).
Proof.
  intros Hp Hb Hlt. destruct (built_sum nplanes plane_of b chs p Hp Hb Hlt) as (r & E & L & N). exists r. split; [exact E|]. split; [rewrite L; symmetry; eapply built_parts; eauto|]. split; [intros k _; apply N|].
  rewrite qsum_nth, L. rewrite (qsum_ext _ (fun k => charge (fun d => Nat.eqb (plane_of (d_ch d)) p && belongs b k d) (deps chs))) by (intros; apply N). eapply charge_split; eauto.
Qed.
(** MCQ over a range and over a list of ranges *)
Theorem c31_mcq b chs ch lo hi : proper nplanes plane_of chs -> built nplanes plane_of b chs -> lo <= hi + 2 ->
  exists r, mcq b ch lo hi = Ok r /\ length r = num_parts b + 1 /\
    (forall k, k <= num_parts b -> nth k r 0%Qc = charge (fun d => within ch lo hi d && belongs b k d) (deps chs)) /\
    qsum (fun x => x) r = charge (within ch lo hi) (deps chs).
Proof.
  intros Hp Hb Hlt. destruct (built_mcq nplanes plane_of b chs ch lo hi Hp Hb Hlt) as (r & E & L & N). exists r. split; [exact E|]. split; [rewrite L; symmetry; eapply built_parts; eauto|]. split; [intros k _; apply N|].
  rewrite qsum_nth, L. rewrite (qsum_ext _ (fun k => charge (fun d => within ch lo hi d && belongs b k d) (deps chs))) by (intros; apply N). eapply charge_split; eauto.
Qed.
Theorem c31_mcq_hits b chs hits : proper nplanes plane_of chs -> built nplanes plane_of b chs -> Forall (fun h => snd (fst h) <= snd h + 2) hits ->
  exists r, mcq_hits b hits = Ok r /\ length r = num_parts b + 1 /\
    (forall k, k <= num_parts b -> nth k r 0%Qc = qsum (fun h => charge (fun d => within (fst (fst h)) (snd (fst h)) (snd h) d && belongs b k d) (deps chs)) hits).
Proof.
  intros Hp Hb Hf. destruct (built_hits nplanes plane_of b chs hits Hp Hb Hf) as (r & E & L & N). exists r. split; [exact E|]. split; [rewrite L; symmetry; eapply built_parts; eauto|]. intros k _; apply N.
Qed.

(* ================================================================== C32 *)
Theorem c32_index old ids chs b : proper nplanes plane_of chs -> reset nplanes plane_of old ids chs = Ok b ->
  forall id, (forall k, index b id = Ok (Some k) <-> position ids id k) /\ (index b id = Ok None <-> ~ In id ids).
Proof.
  intros Hp E id. destruct (reset_spec nplanes plane_of old ids chs Hp) as (ev & t & sums & E' & Ht & _). rewrite E in E'. inversion E'; subst. rewrite index_ok. split.
  - intros k. rewrite <- (Ht id k). split; [intros [= H]; exact H|intros H; rewrite H; reflexivity].
  - split.
    + intros [= H] Hi. destruct (in_position ids id Hi) as (k & Hk). apply Ht in Hk. congruence.
    + intros Hn. destruct (nth id t None) as [k|] eqn:X; [|reflexivity]. exfalso. apply Hn. apply Ht in X. eapply position_in; exact X.
Qed.
Theorem c32_distinct old ids chs b : proper nplanes plane_of chs -> reset nplanes plane_of old ids chs = Ok b ->
  forall id id' k, index b id = Ok (Some k) -> index b id' = Ok (Some k) -> id = id' /\ k < num_parts b.
Proof.
  intros Hp E id id' k H1 H2. destruct (c32_index old ids chs b Hp E id) as [A _]. destruct (c32_index old ids chs b Hp E id') as [A' _]. apply A in H1. apply A' in H2.
  split; [eapply position_inj; eauto|]. destruct (c31_reset old ids chs Hp) as (b' & Eb & En). rewrite E in Eb. inversion Eb; subst. rewrite En. eapply position_lt; exact H1.
Qed.
(** grouped registration: the index is the position of the group; an id in two groups, or twice in one, is an exception *)
Theorem c32_groups old gs chs : proper nplanes plane_of chs ->
  (NoDup (concat gs) -> exists b, reset_groups nplanes plane_of old gs chs = Ok b /\
     forall id, (forall k, index b id = Ok (Some k) <-> exists g, nth_error gs k = Some g /\ In id g) /\ (index b id = Ok None <-> ~ In id (concat gs))) /\
  (~ NoDup (concat gs) -> reset_groups nplanes plane_of old gs chs = Throw UserExn).
Proof.
  intros Hp. destruct (reset_groups_spec nplanes plane_of old gs chs Hp) as [G1 G2]. split; [|exact G2]. intros Hn. destruct (G1 Hn) as (ev & t & sums & E & Ht & _). eexists. split; [exact E|]. intros id. rewrite index_ok. split.
  - intros k. change (exists g, nth_error gs k = Some g /\ In id g) with (in_group gs id k). rewrite <- (Ht id k). split; [intros [= H]; exact H|intros H; rewrite H; reflexivity].
  - split.
    + intros [= H] Hi. apply in_group_in in Hi. destruct Hi as (k & Hk). apply Ht in Hk. congruence.
    + intros Hni. destruct (nth id t None) as [k|] eqn:X; [|reflexivity]. exfalso. apply Hni, in_group_in. exists k. apply Ht, X.
Qed.

(* ================================================================== C47 *)
(** MCQFrac: entries of registered particles are their share of all registered charge in range; the last one is the share of unregistered charge in the total *)
Lemma frac_ok r : r <> [] -> exists f, frac r = Ok f /\ length f = length r /\
  (forall k, k < length r - 1 -> nth k f 0%Qc = (nth k r 0 / (qsum (fun x => x) r - nth (length r - 1) r 0))%Qc) /\ nth (length r - 1) f 0%Qc = (nth (length r - 1) r 0 / qsum (fun x => x) r)%Qc.
Proof.
  intros Hne. assert (Hl : 0 < length r) by (destruct r; [contradiction|cbn [length]; lia]).
  set (s := qsum (fun x => x) r). set (lst := nth (length r - 1) r 0%Qc).
  assert (E : frac r = obind (for_ (range 0 (length r - 1)) (fun res i => do x <- idx res i; set_idx res i (x / (s - lst))%Qc) r) (fun res => set_idx res (length res - 1) (lst / s)%Qc)).
  { unfold frac. destruct r as [|x r']; [contradiction|]. rewrite (idx_ok (x :: r') _ 0%Qc) by lia. cbn [obind]. rewrite fold_left_qsum. unfold s, lst. rewrite Qcplus_0_l. reflexivity. }
  rewrite E. destruct (for_range_inv (fun i l => length l = length r /\ forall k, nth k l 0%Qc = if k <? i then (nth k r 0 / (s - lst))%Qc else nth k r 0%Qc) (fun res i => do x <- idx res i; set_idx res i (x / (s - lst))%Qc) 0 (length r - 1) r) as (f & Ef & Lf & Nf).
  - lia.
  - split; [reflexivity|]. intros k. destruct (Nat.ltb_spec k 0); [lia|reflexivity].
  - intros i l Hi [L N]. rewrite (idx_ok l i 0%Qc) by lia. cbn [obind]. rewrite set_idx_ok by lia. eexists. split; [reflexivity|]. split; [rewrite upd_length; exact L|]. intros k. rewrite nth_upd.
    destruct (Nat.ltb_spec i (length l)); [|lia]. rewrite andb_true_r. destruct (Nat.eqb_spec k i) as [->|].
    + destruct (Nat.ltb_spec i (S i)); [|lia]. rewrite N. destruct (Nat.ltb_spec i i); [lia|reflexivity].
    + rewrite N. destruct (Nat.ltb_spec k i), (Nat.ltb_spec k (S i)); try lia; reflexivity.
  - rewrite Ef. cbn [obind]. rewrite set_idx_ok by lia. eexists. split; [reflexivity|]. rewrite upd_length. split; [exact Lf|]. split.
    + intros k Hk. rewrite nth_upd. destruct (Nat.eqb_spec k (length f - 1)); [lia|]. cbn [andb]. rewrite Nf. destruct (Nat.ltb_spec k (length r - 1)); [reflexivity|lia].
    + rewrite nth_upd. destruct (Nat.ltb_spec (length f - 1) (length f)); [|lia]. destruct (Nat.eqb_spec (length r - 1) (length f - 1)); [reflexivity|lia].
Qed.
Lemma qsum_last (r : list Qc) : r <> [] -> qsum (fun k => nth k r 0%Qc) (seq 0 (length r - 1)) = (qsum (fun x => x) r - nth (length r - 1) r 0)%Qc.
Proof.
  intros Hne. rewrite qsum_nth. assert (Hl : 0 < length r) by (destruct r; [contradiction|cbn [length]; lia]).
  replace (seq 0 (length r)) with (seq 0 (length r - 1) ++ [length r - 1]). 2:{ replace (length r) with (length r - 1 + 1) at 3 by lia. rewrite seq_app. reflexivity. }
  rewrite qsum_app, qsum_cons. unfold qsum at 3. cbn [fold_right]. ring.
Qed.
Theorem c47_frac b chs ch lo hi : proper nplanes plane_of chs -> built nplanes plane_of b chs -> lo <= hi + 2 ->
  exists f, mcq_frac b ch lo hi = Ok f /\ length f = num_parts b + 1 /\
    (charge (fun d => within ch lo hi d && negb (belongs b (num_parts b) d)) (deps chs) <> 0%Qc ->
       (forall k, k < num_parts b -> nth k f 0%Qc = (charge (fun d => within ch lo hi d && belongs b k d) (deps chs) / charge (fun d => within ch lo hi d && negb (belongs b (num_parts b) d)) (deps chs))%Qc) /\
       qsum (fun k => nth k f 0%Qc) (seq 0 (num_parts b)) = 1%Qc) /\
    (charge (within ch lo hi) (deps chs) <> 0%Qc ->
       nth (num_parts b) f 0%Qc = (charge (fun d => within ch lo hi d && belongs b (num_parts b) d) (deps chs) / charge (within ch lo hi) (deps chs))%Qc).
Proof.
  intros Hp Hb Hle. destruct (c31_mcq b chs ch lo hi Hp Hb Hle) as (r & E & L & N & T). unfold mcq_frac. rewrite E. cbn [obind].
  assert (Hne : r <> []) by (intros ->; cbn [length] in L; lia). destruct (frac_ok r Hne) as (f & Ef & Lf & F1 & F2). exists f. split; [exact Ef|]. split; [congruence|].
  rewrite L in F1, F2. replace (num_parts b + 1 - 1) with (num_parts b) in F1, F2 by lia. rewrite T, (N (num_parts b)) in F1, F2 by lia.
  assert (Hc : charge (fun d => within ch lo hi d && negb (belongs b (num_parts b) d)) (deps chs) = (charge (within ch lo hi) (deps chs) - charge (fun d => within ch lo hi d && belongs b (num_parts b) d) (deps chs))%Qc).
  { unfold charge. rewrite <- qsum_minus. apply qsum_ext. intros d _. destruct (within ch lo hi d), (belongs b (num_parts b) d); cbn [andb negb]; ring. }
  split.
  - intros Hnz. rewrite <- Hc in F1. assert (F1' : forall k, k < num_parts b -> nth k f 0%Qc = (charge (fun d => within ch lo hi d && belongs b k d) (deps chs) / charge (fun d => within ch lo hi d && negb (belongs b (num_parts b) d)) (deps chs))%Qc).
    { intros k Hk. rewrite F1 by exact Hk. rewrite N by lia. reflexivity. }
    split; [exact F1'|]. set (D := charge (fun d => within ch lo hi d && negb (belongs b (num_parts b) d)) (deps chs)) in *.
    rewrite (qsum_ext _ (fun k => (/ D * nth k r 0)%Qc)). 2:{ intros k Hk. apply in_seq in Hk. rewrite F1 by lia. unfold Qcdiv. ring. }
    rewrite qsum_scal. pose proof (qsum_last r Hne) as Q. rewrite L in Q. replace (num_parts b + 1 - 1) with (num_parts b) in Q by lia. rewrite Q, T, (N (num_parts b)) by lia. rewrite <- Hc. field. exact Hnz.
  - intros _. exact F2.
Qed.

(* ================================================================== C33 *)
Section Match.
Context (chs : list simch) (b : bt) (cs : list (list rhit)).
Hypotheses (Hp : proper nplanes plane_of chs) (Hb : built nplanes plane_of b chs) (Hcs : Forall (proper_cluster nplanes) cs).
Let Q m c := cluster_charge chs b m (nth c cs []).
Let Pl c := plane_of_cluster (nth c cs []).

Theorem c33_build : exists k, build nplanes b cs = Ok k.
Proof using Hp Hb Hcs. destruct (build_ok nplanes plane_of chs b Hp Hb cs Hcs) as (k & E & _). eauto. Qed.
Lemma get_matched k : build nplanes b cs = Ok k -> matched nplanes chs b cs k.
Proof using Hp Hb Hcs. intros E. destruct (build_ok nplanes plane_of chs b Hp Hb cs Hcs) as (k' & E' & HM). rewrite E in E'. inversion E'; subst. exact HM. Qed.

Theorem c33_best k m : build nplanes b cs = Ok k -> m < num_parts b ->
  exists r, best_clusters k m = Ok r /\ length r = nplanes /\
    forall p, p < nplanes -> first_best (fun c => cluster_charge chs b m (nth c cs [])) (fun c => plane_of_cluster (nth c cs [])) (length cs) p (nth p r 0%Z).
Proof using Hp Hb Hcs.
  intros E Hm. destruct (get_matched k E). unfold best_clusters. rewrite mt_best_len. destruct (Nat.eqb_spec (num_parts b) 0); [lia|]. destruct (Nat.leb_spec (num_parts b) m); [lia|].
  rewrite (idx_ok _ m []) by lia. eexists. split; [reflexivity|]. split; [|intros p Hlt; apply mt_best; assumption]. rewrite Forall_forall in mt_best_lens. apply mt_best_lens, nth_In. lia.
Qed.
(** indices out of range are exceptions *)
Theorem c33_throws k m c : build nplanes b cs = Ok k -> num_parts b <= m -> best_clusters k m = Throw UserExn /\ correctness k c m = Throw UserExn /\ cluster_ep k c m = Throw UserExn.
Proof using Hp Hb Hcs.
  intros E Hm. destruct (get_matched k E). unfold best_clusters, correctness, cluster_ep. rewrite mt_best_len. destruct (Nat.eqb_spec (num_parts b) 0); [auto|]. destruct (Nat.leb_spec (num_parts b) m); [|lia].
  destruct (length (k_mcq k) <=? c); auto.
Qed.

Lemma plane_of_ci k c : build nplanes b cs = Ok k -> c < length cs -> nth c (k_plane k) 0 = plane_of_cluster (nth c cs []) /\ plane_of_cluster (nth c cs []) < nplanes /\ length (k_plane k) = length cs.
Proof using Hp Hb Hcs.
  intros E Hc. destruct (get_matched k E). rewrite mt_plane. split; [change 0 with (plane_of_cluster []); apply map_nth|]. split; [|apply map_length]. apply plane_lt. rewrite Forall_forall in Hcs. apply Hcs, nth_In. exact Hc.
Qed.
Lemma correctness_ok k m c : build nplanes b cs = Ok k -> m < num_parts b -> c < length cs ->
  exists z, first_best (fun c => cluster_charge chs b m (nth c cs [])) (fun c => plane_of_cluster (nth c cs [])) (length cs) (plane_of_cluster (nth c cs [])) z /\
    correctness k c m = Ok (if (z <? 0)%Z then None else Some (cluster_charge chs b m (nth c cs []) / cluster_charge chs b m (nth (Z.to_nat z) cs []))%Qc).
Proof using Hp Hb Hcs.
  intros E Hm Hc. destruct (plane_of_ci k c E Hc) as (E1 & E2 & E3). destruct (get_matched k E). pose proof (built_parts nplanes plane_of b chs Hp Hb) as Hnp. unfold correctness. rewrite mt_best_len. destruct (Nat.eqb_spec (num_parts b) 0); [lia|]. rewrite mt_len.
  destruct (Nat.leb_spec (length cs) c); [lia|]. destruct (Nat.leb_spec (num_parts b) m); [lia|]. rewrite (at_ok _ c 0) by lia. cbn [obind]. rewrite E1. rewrite (at_ok _ m []) by lia. cbn [obind].
  assert (Hrow : length (nth m (k_best k) []) = nplanes). { rewrite Forall_forall in mt_best_lens. apply mt_best_lens, nth_In. lia. }
  rewrite (at_ok _ _ 0%Z) by lia. cbn [obind]. specialize (mt_best m _ Hm E2). set (z := nth (plane_of_cluster (nth c cs [])) (nth m (k_best k) []) 0%Z) in *. exists z. split; [exact mt_best|].
  destruct (Z.ltb_spec z 0); [reflexivity|]. destruct mt_best as [[Hz _]|(c' & Hz & Hc' & _)]; [lia|]. rewrite Hz, Nat2Z.id. rewrite Forall_forall in mt_lens.
  rewrite (at_ok _ c []) by lia. cbn [obind]. rewrite (at_ok _ m 0%Qc). 2:{ rewrite mt_lens; [lia|apply nth_In; lia]. } cbn [obind].
  rewrite (at_ok _ c' []) by lia. cbn [obind]. rewrite (at_ok _ m 0%Qc). 2:{ rewrite mt_lens; [lia|apply nth_In; lia]. } cbn [obind]. rewrite !mt_mcq. reflexivity.
Qed.
(** ClusterCorrectness: the share of the best cluster's charge, -1 when no cluster of the plane has charge from the particle *)
Theorem c33_correctness k m c : build nplanes b cs = Ok k -> m < num_parts b -> c < length cs -> Forall (fun d => 0 <= d_q d)%Qc (deps chs) ->
  (correctness k c m = Ok None /\ forall c', c' < length cs -> Pl c' = Pl c -> (Q m c' <= 0)%Qc) \/
  (exists x best, correctness k c m = Ok (Some x) /\ x = (Q m c / Q m best)%Qc /\ best < length cs /\ Pl best = Pl c /\ (0 < Q m best)%Qc /\
     (forall c', c' < length cs -> Pl c' = Pl c -> (Q m c' <= Q m best)%Qc) /\ (0 <= x <= 1)%Qc /\ correctness k best m = Ok (Some 1%Qc)).
Proof using Hp Hb Hcs.
  intros E Hm Hc Hq. destruct (correctness_ok k m c E Hm Hc) as (z & HF & EC). destruct HF as [[Hz HF]|(best & Hz & Hbl & Hbp & Hpos & Hmax & Hfst)].
  - left. rewrite EC, Hz. split; [reflexivity|]. exact HF.
  - right. rewrite Hz in EC. destruct (Z.ltb_spec (Z.of_nat best) 0); [lia|]. rewrite Nat2Z.id in EC. exists (Q m c / Q m best)%Qc, best. split; [exact EC|]. split; [reflexivity|]. split; [exact Hbl|]. split; [exact Hbp|].
    split; [exact Hpos|]. split; [exact Hmax|].
    assert (H0 : (0 <= Q m c)%Qc). { unfold Q, cluster_charge. apply qsum_nonneg. intros h _. unfold charge. apply qsum_nonneg. intros d Hd. rewrite Forall_forall in Hq. specialize (Hq d Hd). destruct (_ && _); [exact Hq|apply Qcle_refl]. }
    assert (H1 := Hmax c Hc eq_refl). split.
    + unfold Q in *. split.
      * apply Qcmult_lt_0_le_reg_r with (z := cluster_charge chs b m (nth best cs [])); [exact Hpos|]. unfold Qcdiv. rewrite <- Qcmult_assoc, (Qcmult_comm (/ _)), Qcmult_inv_r by (intros X; rewrite X in Hpos; discriminate Hpos). rewrite Qcmult_0_l, Qcmult_1_r. exact H0.
      * apply Qcmult_lt_0_le_reg_r with (z := cluster_charge chs b m (nth best cs [])); [exact Hpos|]. unfold Qcdiv. rewrite <- Qcmult_assoc, (Qcmult_comm (/ _)), Qcmult_inv_r by (intros X; rewrite X in Hpos; discriminate Hpos). rewrite Qcmult_1_l, Qcmult_1_r. exact H1.
    + destruct (correctness_ok k m best E Hm Hbl) as (z' & HF' & EC'). destruct HF' as [[Hz' HF']|(best' & Hz' & Hbl' & Hbp' & Hpos' & Hmax' & Hfst')].
      * exfalso. specialize (HF' best Hbl eq_refl). apply (Qclt_not_le _ _ Hpos HF').
      * rewrite Hz' in EC'. destruct (Z.ltb_spec (Z.of_nat best') 0); [lia|]. rewrite Nat2Z.id in EC'. rewrite EC'. do 2 f_equal.
        replace (cluster_charge chs b m (nth best cs [])) with (cluster_charge chs b m (nth best' cs [])).
        2:{ apply Qcle_antisym; [apply Hmax; [exact Hbl'|rewrite <- Hbp, <- Hbp'; reflexivity]|apply Hmax'; [exact Hbl|reflexivity]]. }
        unfold Qcdiv. apply Qcmult_inv_r. intros X. rewrite X in Hpos'. discriminate Hpos'.
Qed.

(* ================================================================== C34 *)
(** all charge of particle [m] collected by the clusters of plane [p] *)
Definition plane_total m p : Qc := qsum (fun c => if Nat.eqb (plane_of_cluster c) p then cluster_charge chs b m c else 0%Qc) cs.
Lemma total_split c : qsum (fun i => cluster_charge chs b i c) (seq 0 (b_parts b)) = cluster_total chs c.
Proof using Hp Hb. unfold cluster_charge, cluster_total. rewrite qsum_swap. apply qsum_ext. intros h _. eapply charge_split; eauto. Qed.
Lemma ep_ok k m c : build nplanes b cs = Ok k -> m < num_parts b -> c < length cs ->
  cluster_ep k c m = Ok (Q m c / plane_total m (Pl c), Q m c / cluster_total chs (nth c cs []))%Qc.
Proof using Hp Hb Hcs.
  intros E Hm Hc. destruct (plane_of_ci k c E Hc) as (E1 & E2 & E3). destruct (get_matched k E). pose proof (built_parts nplanes plane_of b chs Hp Hb) as Hnp. unfold cluster_ep. rewrite mt_best_len. destruct (Nat.eqb_spec (num_parts b) 0); [lia|]. rewrite mt_len.
  destruct (Nat.leb_spec (length cs) c); [lia|]. destruct (Nat.leb_spec (num_parts b) m); [lia|]. rewrite (idx_ok _ c 0) by lia. cbn [obind]. rewrite E1. rewrite (idx_ok _ c []) by lia. cbn [obind]. rewrite Forall_forall in mt_lens.
  assert (Hl : length (nth c (k_mcq k) []) = b_parts b) by (apply mt_lens, nth_In; lia).
  rewrite (idx_ok _ m 0%Qc) by lia. cbn [obind]. pose proof mt_rect as [Hr _]. rewrite (idx_ok _ m []) by lia. cbn [obind].
  rewrite (idx_ok _ _ 0%Qc). 2:{ rewrite (rect_nth nplanes b (k_sum k)) by (assumption || lia). exact E2. } cbn [obind].
  rewrite mt_mcq, mt_sum, fold_left_qsum, Qcplus_0_l. do 2 f_equal. unfold Q. f_equal.
  rewrite qsum_nth, Hl. rewrite (qsum_ext _ (fun i => cluster_charge chs b i (nth c cs []))) by (intros; apply mt_mcq).
  apply total_split.
Qed.
(** what ClusterEP returns; it returns for every cluster and particle *)
Theorem c34_ep k m c : build nplanes b cs = Ok k -> m < num_parts b -> c < length cs ->
  cluster_ep k c m = Ok (cluster_charge chs b m (nth c cs []) / plane_total m (plane_of_cluster (nth c cs [])), cluster_charge chs b m (nth c cs []) / cluster_total chs (nth c cs []))%Qc.
Proof using Hp Hb Hcs. exact (ep_ok k m c). Qed.

Lemma charge_nonneg P : Forall (fun d => 0 <= d_q d)%Qc (deps chs) -> (0 <= charge P (deps chs))%Qc.
Proof. intros Hq. unfold charge. apply qsum_nonneg. intros d Hd. rewrite Forall_forall in Hq. specialize (Hq d Hd). destruct (P d); [exact Hq|apply Qcle_refl]. Qed.
Lemma cc_nonneg m c : Forall (fun d => 0 <= d_q d)%Qc (deps chs) -> (0 <= cluster_charge chs b m c)%Qc.
Proof. intros Hq. unfold cluster_charge. apply qsum_nonneg. intros h _. apply charge_nonneg, Hq. Qed.
Lemma qsum_ge {A} (f : A -> Qc) l x : (forall y, In y l -> 0 <= f y)%Qc -> In x l -> (f x <= qsum f l)%Qc.
Proof.
  intros H Hx. apply in_split in Hx. destruct Hx as (l1 & l2 & ->). rewrite qsum_app, qsum_cons.
  assert (H1 : (0 <= qsum f l1)%Qc) by (apply qsum_nonneg; intros y Hy; apply H, in_app_iff; left; exact Hy).
  assert (H2 : (0 <= qsum f l2)%Qc) by (apply qsum_nonneg; intros y Hy; apply H, in_app_iff; right; right; exact Hy). qclra.
Qed.
Lemma frac_range x y : (0 < x)%Qc -> (x <= y)%Qc -> (0 < x / y /\ x / y <= 1)%Qc.
Proof.
  intros Hx Hy. assert (Hy0 : (0 < y)%Qc) by (eapply Qclt_le_trans; eauto). assert (Hn : y <> 0%Qc) by (intros X; rewrite X in Hy0; discriminate Hy0).
  assert (E : (x / y * y = x)%Qc) by (field; exact Hn). split.
  - destruct (Qclt_le_dec 0 (x / y)) as [H|H]; [exact H|]. exfalso. assert ((x / y * y <= 0 * y)%Qc) by (apply Qcmult_le_compat_r; [exact H|apply Qclt_le_weak; exact Hy0]). rewrite E, Qcmult_0_l in H0. apply (Qclt_not_le _ _ Hx H0).
  - apply Qcmult_lt_0_le_reg_r with (z := y); [exact Hy0|]. rewrite E, Qcmult_1_l. exact Hy.
Qed.
Theorem c34_fractions k m c : build nplanes b cs = Ok k -> m < num_parts b -> c < length cs -> Forall (fun d => 0 <= d_q d)%Qc (deps chs) ->
  (0 < cluster_charge chs b m (nth c cs []))%Qc -> exists e p, cluster_ep k c m = Ok (e, p) /\ (0 < e /\ e <= 1)%Qc /\ (0 < p /\ p <= 1)%Qc.
Proof using Hp Hb Hcs.
  intros E Hm Hc Hq H0. do 2 eexists. split; [apply ep_ok; assumption|]. split; apply frac_range; try exact H0.
  - unfold plane_total, Pl, Q. assert (Hin : In (nth c cs []) cs) by (apply nth_In; exact Hc).
    pose proof (qsum_ge (fun c0 => if Nat.eqb (plane_of_cluster c0) (plane_of_cluster (nth c cs [])) then cluster_charge chs b m c0 else 0%Qc) cs (nth c cs [])) as G. cbn beta in G. rewrite Nat.eqb_refl in G. apply G; [|exact Hin].
    intros y _. destruct (Nat.eqb _ _); [apply cc_nonneg, Hq|apply Qcle_refl].
  - unfold Q. rewrite <- total_split. apply (qsum_ge (fun i => cluster_charge chs b i (nth c cs []))); [intros; apply cc_nonneg, Hq|]. apply in_seq. pose proof (built_parts nplanes plane_of b chs Hp Hb). lia.
Qed.
(** over all clusters of a plane the efficiencies of a particle sum to 1 *)
Definition eff k m c : Qc := match cluster_ep k c m with Ok (e, _) => e | _ => 0%Qc end.
Definition pur k m c : Qc := match cluster_ep k c m with Ok (_, p) => p | _ => 0%Qc end.
Lemma qsum_seq {A} (f : A -> Qc) (l : list A) d : qsum f l = qsum (fun i => f (nth i l d)) (seq 0 (length l)).
Proof. induction l as [|x l IH]; [reflexivity|]. cbn [length seq]. rewrite !qsum_cons, IH. cbn [nth]. f_equal. rewrite <- seq_shift, qsum_map. reflexivity. Qed.
Lemma qsum_filter {A} (f : A -> Qc) (P : A -> bool) l : qsum f (filter P l) = qsum (fun x => if P x then f x else 0%Qc) l.
Proof. induction l as [|x l IH]; [reflexivity|]. cbn [filter]. rewrite qsum_cons. destruct (P x); [rewrite qsum_cons, IH; reflexivity|rewrite IH; ring]. Qed.
Theorem c34_eff_sum k m p : build nplanes b cs = Ok k -> m < num_parts b -> plane_total m p <> 0%Qc ->
  qsum (eff k m) (filter (fun c => Nat.eqb (plane_of_cluster (nth c cs [])) p) (seq 0 (length cs))) = 1%Qc.
Proof using Hp Hb Hcs.
  intros E Hm Hn. rewrite qsum_filter. transitivity (/ plane_total m p * plane_total m p)%Qc; [|field; exact Hn]. unfold plane_total at 2. rewrite (qsum_seq _ cs []), <- qsum_scal. apply qsum_ext. intros c Hc. apply in_seq in Hc.
  destruct (Nat.eqb_spec (plane_of_cluster (nth c cs [])) p) as [Hpl|]; [|ring]. unfold eff. rewrite ep_ok by (assumption || lia). unfold Pl, Q. rewrite Hpl. unfold Qcdiv. ring.
Qed.
(** purities of a cluster over all particles, plus its unregistered share, sum to 1 *)
Theorem c34_pur_sum k c : build nplanes b cs = Ok k -> c < length cs -> cluster_total chs (nth c cs []) <> 0%Qc ->
  (qsum (fun m => pur k m c) (seq 0 (num_parts b)) + cluster_charge chs b (num_parts b) (nth c cs []) / cluster_total chs (nth c cs []) = 1)%Qc.
Proof using Hp Hb Hcs.
  intros E Hc Hn. set (T := cluster_total chs (nth c cs [])) in *. transitivity (/ T * T)%Qc; [|field; exact Hn].
  rewrite (qsum_ext _ (fun m => (/ T * cluster_charge chs b m (nth c cs []))%Qc)). 2:{ intros m Hm. apply in_seq in Hm. unfold pur. rewrite ep_ok by (assumption || lia). unfold Q. fold T. unfold Qcdiv. ring. }
  rewrite qsum_scal. replace T with (qsum (fun i => cluster_charge chs b i (nth c cs [])) (seq 0 (b_parts b))) at 4.
  2:{ apply total_split. }
  rewrite <- (built_parts nplanes plane_of b chs Hp Hb), seq_app, qsum_app. cbn [seq Nat.add]. rewrite qsum_cons. unfold qsum at 3. cbn [fold_right]. unfold Qcdiv. ring.
Qed.
Theorem c34_best_ep k m p : build nplanes b cs = Ok k -> m < num_parts b -> p < nplanes ->
  exists z, first_best (fun c => cluster_charge chs b m (nth c cs [])) (fun c => plane_of_cluster (nth c cs [])) (length cs) p z /\
    best_cluster_ep k m p = if (z <? 0)%Z then Ok (0%Qc, 0%Qc) else cluster_ep k (Z.to_nat z) m.
Proof using Hp Hb Hcs.
  intros E Hm Hlt. destruct (c33_best k m E Hm) as (r & Er & Lr & Nr). exists (nth p r 0%Z). split; [apply Nr, Hlt|]. unfold best_cluster_ep. rewrite Er. cbn [obind]. destruct (Nat.leb_spec (length r) p); [lia|].
  rewrite (idx_ok r p 0%Z) by lia. reflexivity.
Qed.

(* ================================================================== C48 *)
(** ShowerCorrectness: the product over the clusters of their correctness (a -1 counting as 1), and the last particle with the largest product *)
Definition product (k : matcher) (cis : list nat) (m : nat) : Qc := fold_right (fun c a => (match correctness k c m with Ok (Some x) => x | _ => 1 end * a)%Qc) 1%Qc cis.
Lemma correctness_some k m c : build nplanes b cs = Ok k -> m < num_parts b -> c < length cs -> Forall (fun d => 0 <= d_q d)%Qc (deps chs) ->
  correctness k c m = Ok None \/ exists x, correctness k c m = Ok (Some x) /\ (0 <= x <= 1)%Qc.
Proof using Hp Hb Hcs. intros E Hm Hc Hq. destruct (c33_correctness k m c E Hm Hc Hq) as [[H _]|(x & _ & H & _ & _ & _ & _ & _ & H2 & _)]; [left; exact H|right; eauto]. Qed.
Lemma product_range k cis m : build nplanes b cs = Ok k -> m < num_parts b -> Forall (fun c => c < length cs) cis -> Forall (fun d => 0 <= d_q d)%Qc (deps chs) -> (0 <= product k cis m <= 1)%Qc.
Proof using Hp Hb Hcs.
  intros E Hm Hci Hq. induction cis as [|c cis IH]; [split; discriminate|]. inversion Hci; subst. cbn [product fold_right]. fold (product k cis m). specialize (IH H2). destruct IH as [I1 I2].
  destruct (correctness_some k m c E Hm H1 Hq) as [->|(x & -> & X1 & X2)]; [rewrite Qcmult_1_l; split; assumption|]. split; qcnra.
Qed.
Theorem c48_shower k cis : build nplanes b cs = Ok k -> Forall (fun d => 0 <= d_q d)%Qc (deps chs) -> Forall (fun c => c < length cs) cis -> cis <> [] -> length cis <= length cs -> 0 < num_parts b ->
  exists m e, shower_correctness k cis = Ok (m, e) /\ m < num_parts b /\ e = product k cis m /\ (0 <= e <= 1)%Qc /\
    (forall m', m' < num_parts b -> (product k cis m' <= e)%Qc) /\ (forall m', m < m' < num_parts b -> (product k cis m' < e)%Qc).
Proof using Hp Hb Hcs.
  intros E Hq Hci Hne Hlen Hpos. destruct (get_matched k E). unfold shower_correctness. rewrite mt_best_len, mt_len. destruct (Nat.eqb_spec (num_parts b) 0); [lia|]. destruct (Nat.ltb_spec (length cs) (length cis)); [lia|].
  destruct (Nat.eqb_spec (length cis) 0); [destruct cis; [contradiction|discriminate]|].
  assert (G : forall l effs pre, length effs = num_parts b -> Forall (fun c => c < length cs) l -> (forall m, m < num_parts b -> nth m effs 0%Qc = pre m) ->
    exists effs', foreach l (fun effs ci => for_ (range 0 (num_parts b)) (fun effs mc =>
        do c <- correctness k ci mc;
        match c with
        | Some x => if qc_lt x 0%Qc then Ok effs else do e <- at_ effs mc; set_at effs mc (e * x)%Qc
        | None => Ok effs
        end) effs) effs = Ok effs' /\ length effs' = num_parts b /\ forall m, m < num_parts b -> nth m effs' 0%Qc = (pre m * product k l m)%Qc).
  { induction l as [|c l IH]; intros effs pre Hl Hf Hn; cbn [foreach].
    - exists effs. split; [reflexivity|]. split; [exact Hl|]. intros m Hm. rewrite Hn by exact Hm. cbn [product fold_right]. ring.
    - clear mt_bt. inversion Hf as [|? ? Hc Hf']; subst. set (cf := fun m => match correctness k c m with Ok (Some x) => x | _ => 1%Qc end).
      destruct (for_range_inv (fun i e => length e = num_parts b /\ forall m, m < num_parts b -> nth m e 0%Qc = if m <? i then (pre m * cf m)%Qc else pre m)
        (fun effs mc => do c <- correctness k c mc; match c with Some x => if qc_lt x 0%Qc then Ok effs else do e <- at_ effs mc; set_at effs mc (e * x)%Qc | None => Ok effs end) 0 (num_parts b) effs) as (e1 & E1 & L1 & N1).
      + lia.
      + split; [exact Hl|]. intros m Hm. destruct (Nat.ltb_spec m 0); [lia|apply Hn, Hm].
      + intros i e Hi [L N]. destruct (correctness_some k i c E (proj2 Hi) Hc Hq) as [EC|(x & EC & X0 & X1)]; rewrite EC; cbn [obind].
        * exists e. split; [reflexivity|]. split; [exact L|]. intros m Hm. rewrite N by exact Hm. destruct (Nat.ltb_spec m i), (Nat.ltb_spec m (S i)); try lia; try reflexivity. replace m with i by lia. unfold cf. rewrite EC. ring.
        * destruct (qc_lt x 0%Qc) eqn:Ex; [apply qc_lt_spec in Ex; exfalso; apply (Qclt_not_le _ _ Ex X0)|]. rewrite (at_ok e i 0%Qc) by lia. cbn [obind]. rewrite set_at_ok by lia. eexists. split; [reflexivity|].
          split; [rewrite upd_length; exact L|]. intros m Hm. rewrite nth_upd. destruct (Nat.ltb_spec i (length e)); [|lia]. rewrite andb_true_r. destruct (Nat.eqb_spec m i) as [->|].
          -- rewrite N by exact Hm. destruct (Nat.ltb_spec i i), (Nat.ltb_spec i (S i)); try lia. unfold cf. rewrite EC. reflexivity.
          -- rewrite N by exact Hm. destruct (Nat.ltb_spec m i), (Nat.ltb_spec m (S i)); try lia; reflexivity.
      + rewrite E1. cbn [obind]. destruct (IH e1 (fun m => pre m * cf m)%Qc L1 Hf') as (effs' & E2 & L2 & N2).
        * intros m Hm. rewrite N1 by exact Hm. destruct (Nat.ltb_spec m (num_parts b)); [reflexivity|lia].
        * exists effs'. split; [exact E2|]. split; [exact L2|]. intros m Hm. rewrite N2 by exact Hm. cbn [product fold_right]. fold (product k l m). fold (cf m). ring. }
  destruct (G cis (repeat 1%Qc (num_parts b)) (fun _ => 1%Qc)) as (effs & E1 & L1 & N1); [apply repeat_length|exact Hci|intros m Hm; rewrite (nth_indep _ 0%Qc 1%Qc) by (rewrite repeat_length; exact Hm); apply nth_repeat|].
  rewrite E1. cbn [obind].
  assert (N1' : forall m, m < num_parts b -> nth m effs 0%Qc = product k cis m) by (intros m Hm; rewrite N1 by exact Hm; apply Qcmult_1_l).
  assert (Hr : forall m, m < num_parts b -> (0 <= product k cis m <= 1)%Qc) by (intros; apply product_range; assumption).
  destruct (for_range_inv (fun i (r : nat * Qc) => (i = 0 /\ snd r = (- (1))%Qc) \/ (0 < i /\ fst r < i /\ snd r = product k cis (fst r) /\ (forall m', m' < i -> (product k cis m' <= snd r)%Qc) /\ (forall m', fst r < m' < i -> (product k cis m' < snd r)%Qc)))
    (fun res mc => do e <- at_ effs mc; if qc_lt e (snd res) then Ok res else Ok (mc, e)) 0 (length effs) (0, (- (1))%Qc)) as ([m e] & E2 & HI).
  - lia.
  - left. auto.
  - intros i [m e] Hi HI. rewrite (at_ok effs i 0%Qc) by lia. cbn [obind snd fst] in *. rewrite N1' by lia. destruct (Hr i ltac:(lia)) as [R0 R1].
    destruct (qc_lt (product k cis i) e) eqn:Eq.
    + apply qc_lt_spec in Eq. exists (m, e). split; [reflexivity|]. right. cbn [fst snd]. destruct HI as [[-> Ee]|(H0 & H1 & H2 & H3 & H4)].
      * exfalso. rewrite Ee in Eq. assert (X : (0 < - (1))%Qc) by (eapply Qcle_lt_trans; eauto). discriminate X.
      * split; [lia|]. split; [lia|]. split; [exact H2|]. split; intros m' Hm'.
        -- destruct (Nat.eq_dec m' i) as [->|]; [apply Qclt_le_weak, Eq|apply H3; lia].
        -- destruct (Nat.eq_dec m' i) as [->|]; [exact Eq|apply H4; lia].
    + apply qc_lt_false in Eq. eexists. split; [reflexivity|]. right. cbn [fst snd]. split; [lia|]. split; [lia|]. split; [reflexivity|]. split; intros m' Hm'; [|lia].
      destruct (Nat.eq_dec m' i) as [->|]; [apply Qcle_refl|]. destruct HI as [[-> _]|(H0 & H1 & H2 & H3 & H4)]; [lia|]. eapply Qcle_trans; [apply H3; lia|exact Eq].
  - rewrite L1 in HI. destruct HI as [[H0 _]|(H0 & H1 & H2 & H3 & H4)]; [lia|]. cbn [fst snd] in *. exists m, e. split; [exact E2|]. split; [exact H1|]. split; [exact H2|]. split; [rewrite H2; apply Hr, H1|]. split; assumption.
Qed.
End Match.
End C31.

Print Assumptions c31_reset. Print Assumptions c31_reset_groups. Print Assumptions c31_sum. Print Assumptions c31_mcq. Print Assumptions c31_mcq_hits.
Print Assumptions c32_index. Print Assumptions c32_distinct. Print Assumptions c32_groups. Print Assumptions c47_frac.
Print Assumptions c33_build. Print Assumptions c33_best. Print Assumptions c33_throws. Print Assumptions c33_correctness.
Print Assumptions c34_ep. Print Assumptions c34_fractions. Print Assumptions c34_eff_sum. Print Assumptions c34_pur_sum. Print Assumptions c34_best_ep. Print Assumptions c48_shower.

(* ================================================================== non-vacuity *)
Definition zq (z : Z) : Qc := Q2Qc (inject_Z z).
Definition ex_plane (ch : nat) := ch mod 2.
Definition ex_chs := [mkSim 3 [(10, [(5%Z, zq 7); (9%Z, zq 2)]); (12, [(7%Z, zq 4)])]; mkSim 2 [(11, [(5%Z, zq 1)])]; mkSim 3 [(10, [(5%Z, zq 3)])]].
Definition ex_old := mkBT [[(4, [zq 9])]] [Some 3] [[zq 8]] 2.
Definition ex_bt := match reset 2 ex_plane ex_old [7; 5; 7] ex_chs with Ok b => b | _ => ex_old end.
Definition ex_cs := [[mkHit 3 9 11 1]; [mkHit 3 10 10 1; mkHit 3 12 12 1]; [mkHit 2 0 20 0]].
Definition ex_k := match build 2 ex_bt ex_cs with Ok k => k | _ => mkMatch ex_bt [] [] [] [] end.
Definition show (x : outcome (list Qc)) := match x with Ok l => Ok (map this l) | Throw e => Throw e | Undef => Undef end.
Example ex_proper : proper 2 ex_plane ex_chs.
Proof. split; repeat constructor; vm_compute; discriminate. Qed.
Example ex_built : built 2 ex_plane ex_bt ex_chs.
Proof. left. exists ex_old, [7; 5; 7]. reflexivity. Qed.
Example ex_c31 : show (mcq_sum ex_bt 1) = Ok [4#1; 10#1; 2#1]%Q /\ show (mcq ex_bt 3 10 10) = Ok [0#1; 10#1; 2#1]%Q /\ show (mcq ex_bt 3 10 11) = Ok [4#1; 10#1; 2#1]%Q /\ index ex_bt 5 = Ok (Some 1) /\ index ex_bt 9 = Ok None.
Proof. vm_compute. auto. Qed.
Example ex_clusters : Forall (proper_cluster 2) ex_cs.
Proof. repeat constructor; try discriminate; cbn; lia. Qed.
Example ex_best : best_clusters ex_k 0 = Ok [-1; 0]%Z /\ best_clusters ex_k 1 = Ok [2; 0]%Z /\ build 2 ex_bt ex_cs = Ok ex_k /\ num_parts ex_bt = 2.
Proof. vm_compute. auto. Qed.
Example ex_ep : match cluster_ep ex_k 0 1 with Ok (e, p) => (this e, this p) | _ => (0, 0)%Q end = (1 # 2, 5 # 8)%Q.
Proof. vm_compute. reflexivity. Qed.
Example ex_groups_throw : reset_groups 2 ex_plane ex_old [[3; 4]; [5]; [4]] ex_chs = Throw UserExn /\ (exists b, reset_groups 2 ex_plane ex_old [[7; 9]; [5]] ex_chs = Ok b /\ index b 9 = Ok (Some 0) /\ index b 5 = Ok (Some 1)).
Proof. split; [vm_compute; reflexivity|]. exists (match reset_groups 2 ex_plane ex_old [[7; 9]; [5]] ex_chs with Ok b => b | _ => ex_old end). vm_compute. auto. Qed.
Example ex_frac : show (mcq_frac ex_bt 3 10 11) = Ok [2#7; 5#7; 1#8]%Q.
Proof. vm_compute. reflexivity. Qed.

(* ================================================================== what does not hold *)
(** C31 without the premise on ids: one negative track id (as Geant4 reports for particles dropped below the energy threshold) reads before the table *)
Theorem c31_negative_refuted nplanes plane_of old ids ch t id q : (id < 0)%Z -> plane_of ch < nplanes -> ids <> [] ->
  reset nplanes plane_of old ids [mkSim ch [(t, [(id, q)])]] = Undef.
Proof.
  intros Hid Hpl Hne. unfold reset. destruct (register_spec ids) as (tb & E & Ht). rewrite E. cbn [obind fst snd]. unfold process. cbn [foreach sc_ch sc_map]. unfold process_channel. cbn [fst snd sc_ch sc_map length].
  change (0 <=? ch) with true. cbn iota. rewrite (idx_ok _ ch []) by (rewrite grow_length; cbn [length]; lia). cbn [obind foreach]. unfold process_time. cbn [fst snd].
  rewrite (idx_ok _ _ []) by (rewrite repeat_length; exact Hpl). cbn [obind foreach].
  set (row := nth (plane_of ch) _ []). unfold deposit. cbn [fst snd]. destruct (Z.ltb_spec id (Z.of_nat (length tb))); [|lia]. destruct (Z.ltb_spec id 0); [|lia]. reflexivity.
Qed.
(** the plane check of MCQSum lets the first invalid plane through *)
Theorem c31_plane_refuted nplanes plane_of b chs : proper nplanes plane_of chs -> built nplanes plane_of b chs -> mcq_sum b nplanes = Undef /\ forall p, nplanes < p -> mcq_sum b p = Throw UserExn.
Proof.
  intros Hp Hb. destruct (built_inv nplanes plane_of b chs Hp Hb) as [_ ((R & _) & _)]. cbn [snd] in R. unfold mcq_sum. rewrite R. split.
  - destruct (Nat.ltb_spec nplanes nplanes); [lia|]. unfold idx. rewrite (proj2 (nth_error_None _ _)) by lia. reflexivity.
  - intros p Hlt. destruct (Nat.ltb_spec nplanes p); [reflexivity|lia].
Qed.
(** an inverted range does not give zero: everything after its start is added *)
Example c31_inverted_refuted : show (mcq ex_bt 3 11 5) = Ok [4#1; 0#1; 0#1]%Q.
Proof. vm_compute. reflexivity. Qed.
(** a cluster without hits makes BuildMap write outside its table *)
Theorem c33_no_hits_refuted nplanes plane_of b chs : proper nplanes plane_of chs -> built nplanes plane_of b chs -> build nplanes b [[]] = Undef.
Proof.
  intros Hp Hb. pose proof (built_parts nplanes plane_of b chs Hp Hb) as Hn. unfold build. rewrite Hn. cbn [foreach]. unfold add_cluster. cbn [map]. unfold mcq_hits. cbn [foreach obind cluster_plane fold_left fst snd].
  rewrite repeat_length. unfold range. rewrite Nat.sub_0_r. destruct (b_parts b) as [|n]; [lia|]. cbn [seq for_]. cbn [repeat idx nth_error obind]. unfold add_at, idx. cbn [nth_error obind]. rewrite (proj2 (nth_error_None _ _)) by (unfold cluster_plane; cbn [fold_left]; rewrite repeat_length; lia). reflexivity.
Qed.
(** ShowerCorrectness prefers a particle that left no charge at all *)
Definition ex_bt2 := match reset 2 ex_plane ex_old [5; 7; 8] ex_chs with Ok b => b | _ => ex_old end.
Example c48_absent_refuted :
  exists k, build 2 ex_bt2 ex_cs = Ok k /\ match shower_correctness k [0; 2] with Ok (m, e) => (m, this e) | _ => (0, 0%Q) end = (2, 1%Q) /\ index ex_bt2 8 = Ok (Some 2) /\ charge (fun d => (d_id d =? 8)%Z) (deps ex_chs) = 0%Qc.
Proof. exists (match build 2 ex_bt2 ex_cs with Ok k => k | _ => mkMatch ex_bt2 [] [] [] [] end). vm_compute. auto. Qed.
Print Assumptions c31_negative_refuted. Print Assumptions c31_plane_refuted. Print Assumptions c33_no_hits_refuted.
