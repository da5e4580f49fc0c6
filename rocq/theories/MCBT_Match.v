(** Proofs about MCMatchAlg (C33, C34) *)
From Coq Require Import QArith Qcanon Lqa.
From Verif Require Import Base Util QcUtil Solver_Model Solver_Proofs Solver_Sched MCBT_Model MCBT_Spec MCBT_Proofs.
Local Open Scope nat_scope.

Section Match.
Context (nplanes : nat) (plane_of : nat -> nat) (chs : list simch) (b : bt) (Hp : proper nplanes plane_of chs) (Hb : built nplanes plane_of b chs).

Lemma cluster_plane_ok c : proper_cluster nplanes c -> cluster_plane nplanes c = plane_of_cluster c.
Proof.
  intros [Hne Hf]. destruct c as [|h c]; [contradiction|]. inversion Hf as [|? ? [H1 _] Hf']; subst. unfold cluster_plane. cbn [fold_left plane_of_cluster]. rewrite Nat.eqb_refl.
  assert (G : forall l p, p < nplanes -> fold_left (fun p h => if Nat.eqb p nplanes then h_plane h else p) l p = p).
  { induction l as [|x l IH]; intros p Hlt; cbn [fold_left]; [reflexivity|]. destruct (Nat.eqb_spec p nplanes); [lia|]. apply IH, Hlt. }
  apply G. exact H1.
Qed.
Lemma plane_lt c : proper_cluster nplanes c -> plane_of_cluster c < nplanes.
Proof. intros [Hne Hf]. destruct c as [|h c]; [contradiction|]. inversion Hf as [|? ? [H1 _] Hf']; subst. exact H1. Qed.
Lemma cluster_mcq c : proper_cluster nplanes c ->
  exists q, mcq_hits b (map (fun h => (h_ch h, h_lo h, h_hi h)) c) = Ok q /\ length q = b_parts b /\ forall k, nth k q 0%Qc = cluster_charge chs b k c.
Proof using Hp Hb.
  intros [Hne Hf]. destruct (built_hits nplanes plane_of b chs (map (fun h => (h_ch h, h_lo h, h_hi h)) c) Hp Hb) as (q & E & L & N).
  - apply Forall_forall. intros x Hx. apply in_map_iff in Hx. destruct Hx as (h & <- & Hh). cbn [fst snd]. rewrite Forall_forall in Hf. apply Hf, Hh.
  - exists q. split; [exact E|]. split; [exact L|]. intros k. rewrite N, qsum_map. reflexivity.
Qed.

Definition rect (sums : list (list Qc)) : Prop := length sums = b_parts b /\ Forall (fun r => length r = nplanes) sums.
Lemma rect_nth sums k : rect sums -> k < b_parts b -> length (nth k sums []) = nplanes.
Proof. intros [H1 H2] H. rewrite Forall_forall in H2. apply H2, nth_In. lia. Qed.
Lemma rect_upd sums k r : rect sums -> length r = nplanes -> rect (upd sums k r).
Proof.
  intros [H1 H2] Hr. split; [rewrite upd_length; exact H1|]. rewrite Forall_forall in *. intros x Hx. apply In_nth_error in Hx. destruct Hx as (i & E). rewrite nth_error_upd in E.
  destruct (_ && _); [injection E as <-; exact Hr|apply H2; eapply nth_error_In; exact E].
Qed.
Lemma sum_loop sums q plane : rect sums -> length q = b_parts b -> plane < nplanes ->
  exists sums', for_ (range 0 (length q)) (fun sums i => do row <- idx sums i; do x <- idx q i; do row' <- add_at row plane x; set_idx sums i row') sums = Ok sums' /\ rect sums' /\
    forall k p, nth p (nth k sums' []) 0%Qc = (nth p (nth k sums []) 0 + (if Nat.eqb plane p then nth k q 0 else 0))%Qc.
Proof.
  intros Hr Hq Hpl.
  destruct (for_range_inv (fun i s => rect s /\ forall k p, nth p (nth k s []) 0%Qc = (nth p (nth k sums []) 0 + (if (k <? i) && Nat.eqb plane p then nth k q 0 else 0))%Qc)
     (fun sums i => do row <- idx sums i; do x <- idx q i; do row' <- add_at row plane x; set_idx sums i row') 0 (length q) sums) as (s & E & R & N).
  - lia.
  - split; [exact Hr|]. intros k p. destruct (Nat.ltb_spec k 0); [lia|]. cbn [andb]. ring.
  - intros i s Hi [R N]. assert (Hi' : i < length s) by (destruct R; lia). rewrite (idx_ok s i []) by exact Hi'. cbn [obind]. rewrite (idx_ok q i 0%Qc) by lia. cbn [obind].
    assert (Hl : length (nth i s []) = nplanes) by (apply rect_nth; [exact R|lia]). rewrite add_at_ok by lia. cbn [obind]. rewrite set_idx_ok by exact Hi'. eexists. split; [reflexivity|].
    split; [apply rect_upd; [exact R|rewrite upd_length; exact Hl]|]. intros k p. rewrite nth_upd. destruct (Nat.ltb_spec i (length s)); [|lia]. rewrite andb_true_r. destruct (Nat.eqb_spec k i) as [->|Hne].
    + rewrite nth_upd_add by lia. rewrite N. destruct (Nat.ltb_spec i i), (Nat.ltb_spec i (S i)); try lia. cbn [andb]. destruct (Nat.eqb plane p); ring.
    + rewrite N. destruct (Nat.ltb_spec k i), (Nat.ltb_spec k (S i)); try lia; reflexivity.
  - exists s. split; [exact E|]. split; [exact R|]. intros k p. rewrite N. destruct (Nat.ltb_spec k (length q)); [reflexivity|]. rewrite (nth_overflow q) by lia. cbn [andb]. destruct (Nat.eqb plane p); reflexivity.
Qed.

Definition MInv (done : list (list rhit)) (st : list (list Qc) * list (list Qc) * list nat) : Prop :=
  rect (fst (fst st)) /\ length (snd (fst st)) = length done /\ Forall (fun q => length q = b_parts b) (snd (fst st)) /\ snd st = map plane_of_cluster done /\
  (forall k c, nth k (nth c (snd (fst st)) []) 0%Qc = cluster_charge chs b k (nth c done [])) /\
  (forall k p, nth p (nth k (fst (fst st)) []) 0%Qc = qsum (fun c => if Nat.eqb (plane_of_cluster c) p then cluster_charge chs b k c else 0%Qc) done).
Lemma clusters_ok : forall cs done st, MInv done st -> Forall (proper_cluster nplanes) cs -> exists st', foreach cs (add_cluster nplanes b) st = Ok st' /\ MInv (done ++ cs) st'.
Proof using Hp Hb.
  induction cs as [|c cs IH]; intros done [[sums mcqs] planes] HI Hf; cbn [foreach]; [eexists; split; [reflexivity|]; rewrite app_nil_r; exact HI|].
  inversion Hf as [|? ? Hc Hf']; subst. destruct HI as (R & L & Lf & P & M & S). cbn [fst snd] in *.
  unfold add_cluster at 1. rewrite (cluster_plane_ok c Hc). cbn [fst snd]. destruct (cluster_mcq c Hc) as (q & E & Lq & Nq). rewrite E. cbn [obind].
  destruct (sum_loop sums q (plane_of_cluster c) R Lq (plane_lt c Hc)) as (sums' & E' & R' & S'). rewrite E'. cbn [obind].
  destruct (IH (done ++ [c]) (sums', mcqs ++ [q], planes ++ [plane_of_cluster c])) as (st' & E2 & HI'); [|exact Hf'|].
  - split; [exact R'|]. cbn [fst snd]. split; [rewrite !app_length; cbn [length]; lia|]. split; [apply Forall_app; split; [exact Lf|constructor; [exact Lq|constructor]]|].
    split; [rewrite P, map_app; reflexivity|]. split.
    + intros k i. destruct (Nat.lt_trichotomy i (length done)) as [H|[H|H]].
      * rewrite !app_nth1 by lia. apply M.
      * rewrite !app_nth2 by lia. rewrite L, H, Nat.sub_diag. cbn [nth]. apply Nq.
      * rewrite (nth_overflow (mcqs ++ [q])) by (rewrite app_length; cbn [length]; lia). rewrite (nth_overflow (done ++ [c])) by (rewrite app_length; cbn [length]; lia). rewrite nth_nil. reflexivity.
    + intros k p. rewrite S', S, qsum_app, qsum_cons, Nq. unfold qsum at 3. cbn [fold_right]. ring.
  - exists st'. split; [exact E2|]. rewrite <- app_assoc in HI'. exact HI'.
Qed.

Lemma best_loop cs mcqs mc : mc < b_parts b -> length mcqs = length cs -> Forall (fun q => length q = b_parts b) mcqs -> Forall (proper_cluster nplanes) cs ->
  (forall k c, nth k (nth c mcqs []) 0%Qc = cluster_charge chs b k (nth c cs [])) ->
  exists bq bi, for_ (range 0 (length cs)) (best_step mcqs (map plane_of_cluster cs) mc) (repeat 0%Qc nplanes, repeat (-1)%Z nplanes) = Ok (bq, bi) /\ length bi = nplanes /\
    forall p, p < nplanes -> first_best (fun c => cluster_charge chs b mc (nth c cs [])) (fun c => plane_of_cluster (nth c cs [])) (length cs) p (nth p bi 0%Z).
Proof.
  intros Hmc Hl Hq Hcs HM. set (qf := fun c => cluster_charge chs b mc (nth c cs [])). set (pf := fun c => plane_of_cluster (nth c cs [])).
  destruct (for_range_inv (fun i (st : list Qc * list Z) => length (fst st) = nplanes /\ length (snd st) = nplanes /\ forall p, p < nplanes ->
     first_best qf pf i p (nth p (snd st) 0%Z) /\ nth p (fst st) 0%Qc = if (nth p (snd st) 0 <? 0)%Z then 0%Qc else qf (Z.to_nat (nth p (snd st) 0%Z)))
     (best_step mcqs (map plane_of_cluster cs) mc) 0 (length cs) (repeat 0%Qc nplanes, repeat (-1)%Z nplanes)) as ([bq bi] & E & L1 & L2 & N).
  - lia.
  - cbn [fst snd]. split; [apply repeat_length|]. split; [apply repeat_length|]. intros p Hlt. rewrite !(nth_indep _ 0%Z (-1)%Z) by (rewrite repeat_length; exact Hlt). rewrite !nth_repeat. split; [|reflexivity]. left. split; [reflexivity|]. intros c Hc; lia.
  - intros i [bq bi] Hi (L1 & L2 & N). cbn [fst snd] in *. unfold best_step. cbn [fst snd]. rewrite (at_ok _ i 0) by (rewrite map_length; lia). cbn [obind].
    replace (nth i (map plane_of_cluster cs) 0) with (pf i). 2:{ unfold pf. symmetry. change 0 with (plane_of_cluster []). apply map_nth. }
    assert (Hpi : pf i < nplanes). { apply plane_lt. rewrite Forall_forall in Hcs. apply Hcs, nth_In. lia. }
    rewrite (idx_ok mcqs i []) by lia. cbn [obind]. rewrite (idx_ok _ mc 0%Qc). 2:{ rewrite Forall_forall in Hq. rewrite Hq; [exact Hmc|]. apply nth_In. lia. }
    cbn [obind]. rewrite HM. fold (qf i). rewrite (idx_ok bq (pf i) 0%Qc) by lia. cbn [obind]. destruct (N (pf i) Hpi) as [HF HB].
    destruct (qc_lt (nth (pf i) bq 0%Qc) (qf i)) eqn:Eq.
    + apply qc_lt_spec in Eq. rewrite !set_idx_ok by lia. cbn [obind]. eexists. split; [reflexivity|]. cbn [fst snd]. split; [rewrite upd_length; exact L1|]. split; [rewrite upd_length; exact L2|].
      intros p Hlt. rewrite !nth_upd. rewrite L1, L2. destruct (Nat.ltb_spec (pf i) nplanes); [|lia]. rewrite andb_true_r. destruct (Nat.eqb_spec p (pf i)) as [->|Hne].
      * split; [|destruct (Z.ltb_spec (Z.of_nat i) 0); [lia|]; rewrite Nat2Z.id; reflexivity]. right. exists i. split; [reflexivity|]. split; [lia|]. split; [reflexivity|].
        destruct HF as [[Hz HF]|(c & Hz & Hc & Hpc & Hpos & Hmax & Hfst)].
        -- rewrite Hz in HB. cbn [Z.ltb] in HB. change ((-1 <? 0)%Z) with true in HB. cbn iota in HB. rewrite HB in Eq. split; [exact Eq|]. split; [intros c' Hc' Hp'|intros c' Hc' Hp'].
           ++ destruct (Nat.eq_dec c' i) as [->|]; [apply Qcle_refl|]. eapply Qcle_trans; [apply HF; [lia|exact Hp']|]. apply Qclt_le_weak, Eq.
           ++ eapply Qcle_lt_trans; [apply HF; [lia|exact Hp']|exact Eq].
        -- rewrite Hz in HB. destruct (Z.ltb_spec (Z.of_nat c) 0); [lia|]. rewrite Nat2Z.id in HB. rewrite HB in Eq. split; [eapply Qclt_trans; eauto|]. split; intros c' Hc' Hp'.
           ++ destruct (Nat.eq_dec c' i) as [->|]; [apply Qcle_refl|]. eapply Qcle_trans; [apply Hmax; [lia|exact Hp']|]. apply Qclt_le_weak, Eq.
           ++ eapply Qcle_lt_trans; [apply Hmax; [lia|exact Hp']|exact Eq].
      * destruct (N p Hlt) as [HF' HB']. split; [|exact HB']. destruct HF' as [[Hz HF']|(c & Hz & Hc & Hpc & Hpos & Hmax & Hfst)].
        -- left. split; [exact Hz|]. intros c' Hc' Hp'. apply HF'; [|exact Hp']. destruct (Nat.eq_dec c' i) as [->|]; [congruence|lia].
        -- right. exists c. repeat (split; [assumption || lia|]). split; [|exact Hfst]. intros c' Hc' Hp'. apply Hmax; [|exact Hp']. destruct (Nat.eq_dec c' i) as [->|]; [congruence|lia].
    + assert (Eq' : (qf i <= nth (pf i) bq 0)%Qc). { apply qc_lt_false in Eq. exact Eq. }
      eexists. split; [reflexivity|]. cbn [fst snd]. split; [exact L1|]. split; [exact L2|]. intros p Hlt. destruct (N p Hlt) as [HF' HB']. split; [|exact HB'].
      destruct HF' as [[Hz HF']|(c & Hz & Hc & Hpc & Hpos & Hmax & Hfst)].
      * left. split; [exact Hz|]. intros c' Hc' Hp'. destruct (Nat.eq_dec c' i) as [->|]; [|apply HF'; [lia|exact Hp']]. rewrite Hp', HB', Hz in Eq'. exact Eq'.
      * right. exists c. repeat (split; [assumption || lia|]). split; [|exact Hfst]. intros c' Hc' Hp'. destruct (Nat.eq_dec c' i) as [->|]; [|apply Hmax; [lia|exact Hp']]. rewrite Hp', HB', Hz in Eq'.
        destruct (Z.ltb_spec (Z.of_nat c) 0); [lia|]. rewrite Nat2Z.id in Eq'. exact Eq'.
  - exists bq, bi. cbn [fst snd] in *. split; [exact E|]. split; [exact L2|]. intros p Hlt. apply N, Hlt.
Qed.

(** everything BuildMap leaves behind *)
Record matched (cs : list (list rhit)) (k : matcher) : Prop := {
  mt_bt : k_bt k = b;
  mt_len : length (k_mcq k) = length cs;
  mt_lens : Forall (fun q => length q = b_parts b) (k_mcq k);
  mt_plane : k_plane k = map plane_of_cluster cs;
  mt_mcq : forall m c, nth m (nth c (k_mcq k) []) 0%Qc = cluster_charge chs b m (nth c cs []);
  mt_rect : rect (k_sum k);
  mt_sum : forall m p, nth p (nth m (k_sum k) []) 0%Qc = qsum (fun c => if Nat.eqb (plane_of_cluster c) p then cluster_charge chs b m c else 0%Qc) cs;
  mt_best_len : length (k_best k) = num_parts b;
  mt_best_lens : Forall (fun r => length r = nplanes) (k_best k);
  mt_best : forall m p, m < num_parts b -> p < nplanes ->
    first_best (fun c => cluster_charge chs b m (nth c cs [])) (fun c => plane_of_cluster (nth c cs [])) (length cs) p (nth p (nth m (k_best k) []) 0%Z)
}.
Lemma build_ok cs : Forall (proper_cluster nplanes) cs -> exists k, build nplanes b cs = Ok k /\ matched cs k.
Proof using Hp Hb.
  intros Hcs. unfold build. assert (Hn : num_parts b + 1 = b_parts b) by (eapply built_parts; eauto).
  destruct (clusters_ok cs [] (repeat (repeat 0%Qc nplanes) (num_parts b + 1), [], [])) as ([[sums mcqs] planes] & E & HI); [|exact Hcs|].
  - assert (Hz : forall k p, nth p (nth k (repeat (repeat 0%Qc nplanes) (num_parts b + 1)) []) 0%Qc = 0%Qc).
    { intros k p. destruct (Nat.ltb_spec k (num_parts b + 1)); [|rewrite (nth_overflow _ _ (n := k)) by (rewrite repeat_length; assumption); apply nth_nil].
      rewrite (nth_indep _ [] (repeat 0%Qc nplanes)) by (rewrite repeat_length; assumption). rewrite nth_repeat. destruct (Nat.ltb_spec p nplanes); [apply nth_repeat|apply nth_overflow; rewrite repeat_length; assumption]. }
    split; [split; [cbn [fst]; rewrite repeat_length; exact Hn|apply Forall_forall; intros x Hx; apply repeat_spec in Hx; subst; apply repeat_length]|]. cbn [fst snd length].
    split; [reflexivity|]. split; [constructor|]. split; [reflexivity|]. split; [intros k c; rewrite nth_nil, (nth_nil c), nth_nil; reflexivity|]. intros k p. rewrite Hz. reflexivity.
  - rewrite E. cbn [obind]. destruct HI as (R & L & Lf & P & M & S). cbn [fst snd app] in R, L, Lf, P, M, S. subst planes.
    assert (G : forall mcs acc, Forall (fun m => m < num_parts b) mcs ->
      exists r, foreach mcs (fun acc mc => do r <- for_ (range 0 (length cs)) (best_step mcqs (map plane_of_cluster cs) mc) (repeat 0%Qc nplanes, repeat (-1)%Z nplanes); Ok (acc ++ [snd r])) acc = Ok (acc ++ r) /\
        length r = length mcs /\ Forall (fun x => length x = nplanes) r /\ forall i p, i < length mcs -> p < nplanes ->
          first_best (fun c => cluster_charge chs b (nth i mcs 0) (nth c cs [])) (fun c => plane_of_cluster (nth c cs [])) (length cs) p (nth p (nth i r []) 0%Z)).
    { induction mcs as [|m mcs IH]; intros acc Hm; cbn [foreach].
      - exists []. rewrite app_nil_r. split; [reflexivity|]. split; [reflexivity|]. split; [constructor|]. cbn [length]. intros i p Hi; lia.
      - inversion Hm as [|? ? H0 Hm']; subst. destruct (best_loop cs mcqs m) as (bq & bi & E1 & L1 & N1); [lia|exact L|exact Lf|exact Hcs|exact M|].
        rewrite E1. cbn [obind snd]. destruct (IH (acc ++ [bi]) Hm') as (r & E2 & L2 & F2 & N2). exists (bi :: r). split; [rewrite E2, <- app_assoc; reflexivity|]. split; [cbn [length]; lia|].
        split; [constructor; assumption|]. intros [|i] p Hi Hlt; cbn [nth]; [apply N1, Hlt|apply N2; [cbn [length] in Hi; lia|exact Hlt]]. }
    destruct (G (seq 0 (num_parts b)) []) as (r & E2 & L2 & F2 & N2); [apply Forall_forall; intros m Hm; apply in_seq in Hm; lia|].
    rewrite E2. cbn [obind app]. eexists. split; [reflexivity|]. rewrite seq_length in L2, N2.
    constructor; cbn [k_bt k_mcq k_plane k_sum k_best]; auto. intros m p Hm Hlt. specialize (N2 m p Hm Hlt). rewrite seq_nth in N2 by exact Hm. exact N2.
Qed.
End Match.
