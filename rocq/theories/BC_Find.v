(** The outer loop of FindClusters. *)
From Coq Require Import QArith Qcanon.
From Verif Require Import Base QcUtil RFF_Spec Solver_Model Solver_Proofs SPS_Model BC_Model BC_Spec BC_Cells BC_Grow BC_Prune.
From Coq Require Import Lqa.
Local Open Scope nat_scope.

Lemma concat_snoc {A} (l : list (list A)) x : concat (l ++ [x]) = concat l ++ x.
Proof. rewrite concat_app. simpl. rewrite app_nil_r. reflexivity. Qed.
Lemma firstn_snoc {A} (l : list A) x i : i <= length l -> firstn i (l ++ [x]) = firstn i l.
Proof. intros H. rewrite firstn_app. replace (i - length l) with 0 by lia. apply app_nil_r. Qed.
Lemma nth_error_snoc' {A} (l : list A) x i y : nth_error (l ++ [x]) i = Some y ->
  (i < length l /\ nth_error l i = Some y) \/ (i = length l /\ y = x).
Proof.
  intros H. destruct (Nat.lt_ge_cases i (length l)) as [Hl|Hl].
  - left. rewrite nth_error_app1 in H by exact Hl. auto.
  - right. rewrite nth_error_app2 in H by exact Hl. destruct (i - length l) as [|k] eqn:E; simpl in H.
    + injection H as ->. split; [lia|reflexivity].
    + destruct k; discriminate.
Qed.
Lemma ss_snoc {A} (R : A -> A -> Prop) l x : StronglySorted R l -> (forall y, In y l -> R y x) -> StronglySorted R (l ++ [x]).
Proof.
  induction 1 as [|y l H IH Hf]; intros Hx; simpl; [repeat constructor|]. constructor.
  - apply IH. intros z Hz. apply Hx. right; exact Hz.
  - rewrite Forall_forall in *. intros z Hz. apply in_app_iff in Hz. destruct Hz as [Hz|[<-|[]]]; [apply Hf, Hz|apply Hx; left; reflexivity].
Qed.

Section Find.
Variables (cf : config) (hm : hitmap) (im : image) (nx ny : nat).
Hypothesis Hnx : 0 < nx.
Hypothesis Him : rect nx ny im.
Hypothesis Hhm : rect nx ny hm.
Let El : length im = nx := im_length nx ny im Him.
Let charge := charge_of im nx.

(** what became of a bin that could start a cluster *)
Definition accounted (cs : list (list nat)) (s : nat) : Prop :=
  In s (concat cs) \/
  (exists i c, nth_error cs i = Some c /\ cluster_from cf hm im nx ny (concat (firstn i cs)) s c) \/
  (exists i, i <= length cs /\ too_small cf hm im nx ny (concat (firstn i cs)) s).

Lemma accounted_snoc cs c s : accounted cs s -> accounted (cs ++ [c]) s.
Proof.
  intros [H|[(i & c' & Hi & H)|(i & Hi & H)]].
  - left. rewrite concat_snoc. apply in_app_iff. left; exact H.
  - right; left. exists i, c'. assert (i < length cs) by (apply nth_error_Some; congruence).
    rewrite nth_error_app1, firstn_snoc by lia. auto.
  - right; right. exists i. rewrite app_length, firstn_snoc by exact Hi. split; [lia|exact H].
Qed.

Lemma made_snoc seeds cs s c : made_from cf hm im nx ny seeds cs -> cluster_from cf hm im nx ny (concat cs) s c ->
  (forall s', In s' seeds -> (charge s <= charge s')%Qc) -> made_from cf hm im nx ny (seeds ++ [s]) (cs ++ [c]).
Proof.
  intros (Hl & Hc & Hs) Hn Hle. split; [rewrite !app_length; simpl; lia|]. split; [|apply ss_snoc; assumption].
  intros i s' c' H1 H2. apply nth_error_snoc' in H1, H2. destruct H1 as [[L1 H1]|[L1 H1]], H2 as [[L2 H2]|[L2 H2]]; try lia.
  - rewrite firstn_snoc by lia. apply Hc; assumption.
  - subst s' c' i. rewrite firstn_snoc, L2, firstn_all by lia. exact Hn.
Qed.

Definition falls (p q : Qc * nat) : Prop := (fst q < fst p)%Qc \/ (fst q = fst p /\ snd q <= snd p).

Lemma loop_ok acc : forall vals us cs seeds,
  StronglySorted falls vals ->
  (forall v b, In (v, b) vals -> b < nx * ny /\ v = charge b) ->
  (exists v b, In (v, b) vals /\ (v < minSeed cf)%Qc) ->
  marks nx ny us (concat cs) -> made_from cf hm im nx ny seeds cs ->
  (forall s v b, In s seeds -> In (v, b) vals -> (v <= charge s)%Qc) ->
  (forall s, s < nx * ny -> (minSeed cf <= charge s)%Qc -> In (charge s, s) vals \/ accounted cs s) ->
  exists cs' seeds' us', clusters_from cf hm im ny vals us (acc ++ cs) = Ok (acc ++ cs') /\ marks nx ny us' (concat cs') /\
    made_from cf hm im nx ny seeds' cs' /\
    (forall s, s < nx * ny -> (minSeed cf <= charge s)%Qc -> accounted cs' s).
Proof.
  induction vals as [|[v b] vals IH]; intros us cs seeds Hsort Hval Hlow Hm Hmade Hord Hacc.
  { destruct Hlow as (v & b & [] & _). }
  simpl. inversion_clear Hsort as [|? ? Hs' Hf]. rewrite Forall_forall in Hf.
  destruct (qc_lt v (minSeed cf)) eqn:Ev.
  - apply qc_lt_spec in Ev. exists cs, seeds, us. split; [reflexivity|]. split; [exact Hm|]. split; [exact Hmade|].
    intros s Hs Hch. destruct (Hacc s Hs Hch) as [Hin|H]; [|exact H]. exfalso.
    assert (Hle : (charge s <= v)%Qc).
    { destruct Hin as [[= -> ->]|Hin]; [apply Qcle_refl|]. destruct (Hf _ Hin) as [F|[F _]]; simpl in F; [apply Qclt_le_weak, F|rewrite F; apply Qcle_refl]. }
    apply (Qclt_not_le _ _ Ev). eapply Qcle_trans; eassumption.
  - apply qc_lt_false in Ev. destruct (Hval v b (or_introl eq_refl)) as [Hb Hv].
    assert (Hlow' : exists v b, In (v, b) vals /\ (v < minSeed cf)%Qc).
    { destruct Hlow as (v' & b' & [[= -> ->]|Hin] & Hlt); [exfalso; apply (Qclt_not_le _ _ Hlt Ev)|eauto]. }
    assert (Hval' : forall v b, In (v, b) vals -> b < nx * ny /\ v = charge b) by (intros v' b' Hin; apply Hval; right; exact Hin).
    destruct (marks_idx nx ny Hnx _ _ b Hm Hb) as (u & Eu & Hu). rewrite Eu. cbn [obind]. destruct u.
    + apply (IH us cs seeds); auto.
      * intros s v' b' Hs1 Hin. apply (Hord s v' b' Hs1). right; exact Hin.
      * intros s Hs Hch. destruct (Hacc s Hs Hch) as [[E|Hin]|H]; auto. injection E as E1 E2. subst s. right. left. apply Hu. reflexivity.
    + assert (Hnin : ~ In b (concat cs)) by (rewrite <- Hu; discriminate). subst v.
      destruct (one_cluster_ok cf hm im nx ny (concat cs) Hnx Him Hhm us b Hm Hb Hnin Ev) as (us' & r & Er & Hr).
      rewrite Er. cbn [obind fst snd]. destruct r as [c|]; destruct Hr as [Hm' Hr].
      * rewrite <- app_assoc. apply (IH us' (cs ++ [c]) (seeds ++ [b])); auto.
        -- rewrite concat_snoc. exact Hm'.
        -- apply made_snoc; [exact Hmade|exact Hr|]. intros s' Hs1. apply (Hord s' (charge b) b Hs1). left; reflexivity.
        -- intros s v' b' Hs1 Hin. apply in_app_iff in Hs1. destruct Hs1 as [Hs1|[<-|[]]]; [apply (Hord s v' b' Hs1); right; exact Hin|].
           destruct (Hf _ Hin) as [F|[F _]]; simpl in F; [apply Qclt_le_weak, F|rewrite F; apply Qcle_refl].
        -- intros s Hs Hch. destruct (Hacc s Hs Hch) as [[E|Hin]|H]; auto; right; [|apply accounted_snoc, H].
           injection E as E1 E2. subst s. right; left. exists (length cs), c.
           rewrite nth_error_app2, Nat.sub_diag, firstn_snoc, firstn_all by lia. split; [reflexivity|exact Hr].
      * apply (IH us' cs seeds); auto.
        -- intros s v' b' Hs1 Hin. apply (Hord s v' b' Hs1). right; exact Hin.
        -- intros s Hs Hch. destruct (Hacc s Hs Hch) as [[E|Hin]|H]; auto.
           injection E as E1 E2. subst s. right. right; right. exists (length cs). rewrite firstn_all. split; [lia|exact Hr].
Qed.

(** the loop runs off the end of the list when every bin can start a cluster *)
Lemma loop_overrun : forall vals us prev acc,
  (forall v b, In (v, b) vals -> b < nx * ny /\ v = charge b /\ (minSeed cf <= v)%Qc) ->
  marks nx ny us prev -> clusters_from cf hm im ny vals us acc = Undef.
Proof.
  induction vals as [|[v b] vals IH]; intros us prev acc Hval Hm; [reflexivity|]. simpl.
  destruct (Hval v b (or_introl eq_refl)) as (Hb & Hv & Hle).
  destruct (qc_lt v (minSeed cf)) eqn:Ev; [apply qc_lt_spec in Ev; exfalso; apply (Qclt_not_le _ _ Ev Hle)|].
  assert (Hval' : forall v b, In (v, b) vals -> b < nx * ny /\ v = charge b /\ (minSeed cf <= v)%Qc) by (intros v' b' Hin; apply Hval; right; exact Hin).
  destruct (marks_idx nx ny Hnx _ _ b Hm Hb) as (u & Eu & Hu). rewrite Eu. cbn [obind]. destruct u; [apply (IH us prev); assumption|].
  assert (Hnin : ~ In b prev) by (rewrite <- Hu; discriminate). subst v.
  destruct (one_cluster_ok cf hm im nx ny prev Hnx Him Hhm us b Hm Hb Hnin Hle) as (us' & r & Er & Hr).
  rewrite Er. cbn [obind fst snd]. destruct r as [c|]; destruct Hr as [Hm' Hr].
  - apply (IH us' (prev ++ c)); assumption.
  - apply (IH us' prev); assumption.
Qed.

Lemma collect_ok : exists vals, collect_values im ny = Ok vals /\
  forall v b, In (v, b) vals <-> b < nx * ny /\ v = charge b.
Proof.
  unfold collect_values. rewrite El.
  set (cells := flat_map _ _).
  assert (Hcells : forall x y, In (x, y) cells <-> x < nx /\ y < ny).
  { intros x y. unfold cells. rewrite in_flat_map. split.
    - intros (x' & Hx & Hin). apply in_map_iff in Hin. destruct Hin as (y' & [= -> ->] & Hy). apply in_seq in Hx, Hy. lia.
    - intros [Hx Hy]. exists x. split; [apply in_seq; lia|]. apply in_map, in_seq. lia. }
  match goal with |- exists vals, foreach cells ?body [] = Ok vals /\ _ =>
    destruct (foreach_pre (fun pre vs => forall v b, In (v, b) vs <-> exists x y, In (x, y) pre /\ b = y * nx + x /\ v = charge b) body cells [])
      as (vals & E & Hv) end.
  - intros v b. split; [intros []|intros (x & y & [] & _)].
  - intros pre [x y] post vs Ec Hp. assert (Hin : In (x, y) cells) by (rewrite Ec; apply in_app_iff; right; left; reflexivity).
    apply Hcells in Hin. destruct Hin as [Hx Hy]. cbn [fst snd]. unfold wire_tick_to_bin. rewrite El.
    rewrite (charge_ok nx ny im Hnx Him) by (apply cell_lt; assumption). cbn [obind]. eexists. split; [reflexivity|].
    intros v b. rewrite in_app_iff, Hp. split.
    + intros [(x' & y' & H1 & H2 & H3)|[[= <- <-]|[]]].
      * exists x', y'. split; [apply in_app_iff; left; exact H1|auto].
      * exists x, y. split; [apply in_app_iff; right; left; reflexivity|]. split; reflexivity.
    + intros (x' & y' & H1 & H2 & H3). apply in_app_iff in H1. destruct H1 as [H1|[[= <- <-]|[]]]; [left; eauto|].
      right; left. subst b v. reflexivity.
  - exists vals. split; [exact E|]. intros v b. rewrite Hv. split.
    + intros (x & y & Hin & -> & ->). apply Hcells in Hin. split; [apply cell_lt; apply Hin|reflexivity].
    + intros [Hb ->]. exists (wire_of nx b), (tick_of nx b). split; [|split; [apply cell_eq; exact Hnx|reflexivity]].
      apply Hcells. split; [apply wire_lt; exact Hnx|apply tick_lt; assumption].
Qed.

Lemma fresh_marks : marks nx ny (repeat false (nx * ny)) [].
Proof.
  repeat split; try (intros b []; fail).
  - apply repeat_length.
  - constructor.
  - intros H. exfalso. destruct (Nat.lt_ge_cases b (nx * ny)) as [Hl|Hl].
    + assert (Hin : In true (repeat false (nx * ny))) by (rewrite <- H; apply nth_In; rewrite repeat_length; exact Hl).
      apply repeat_spec in Hin. discriminate.
    + rewrite nth_overflow in H by (rewrite repeat_length; exact Hl). discriminate.
  - intros [].
Qed.

Lemma row0 : exists r, at_ im 0 = Ok r /\ length r = ny.
Proof.
  destruct Him as [E Hr]. destruct im as [|r l]; simpl in E; [lia|]. exists r. split; [reflexivity|]. apply Hr. left; reflexivity.
Qed.

Variable srt : list (Qc * nat) -> list (Qc * nat).
Hypothesis Hsrt : sorts_falling srt.

Lemma find_ok acc : (exists b, b < nx * ny /\ (charge b < minSeed cf)%Qc) ->
  exists cs seeds, find_clusters cf hm im srt acc = Ok (acc ++ cs, length (acc ++ cs)) /\
    NoDup (concat cs) /\ (forall b, In b (concat cs) -> b < nx * ny) /\
    made_from cf hm im nx ny seeds cs /\
    (forall s, s < nx * ny -> (minSeed cf <= charge s)%Qc -> accounted cs s).
Proof.
  intros (b & Hb & Hlt). unfold find_clusters. destruct row0 as (r & Er & Hr). rewrite Er. cbn [obind]. rewrite Hr, El.
  destruct collect_ok as (vals & Ec & Hv). rewrite Ec. cbn [obind]. destruct (Hsrt vals) as [Hp Hs].
  assert (Hin : forall v b, In (v, b) (srt vals) <-> b < nx * ny /\ v = charge b).
  { intros v' b'. rewrite <- Hv. split; apply Permutation_in; [exact Hp|apply Permutation_sym, Hp]. }
  destruct (loop_ok acc (srt vals) (repeat false (nx * ny)) [] []) as (cs & seeds & us' & E & Hm & Hmade & Hacc).
  - exact Hs.
  - intros v' b' H'. apply Hin, H'.
  - exists (charge b), b. split; [apply Hin; auto|exact Hlt].
  - apply fresh_marks.
  - split; [reflexivity|]. split; [|constructor]. intros i s c H. destruct i; discriminate.
  - intros s v' b' [].
  - intros s Hs' _. left. apply Hin. auto.
  - rewrite app_nil_r in E. rewrite E. cbn [obind]. exists cs, seeds. split; [reflexivity|].
    destruct Hm as (_ & H1 & H2 & _). auto.
Qed.

Lemma find_overrun acc : (forall b, b < nx * ny -> (minSeed cf <= charge b)%Qc) -> find_clusters cf hm im srt acc = Undef.
Proof.
  intros Hall. unfold find_clusters. destruct row0 as (r & Er & Hr). rewrite Er. cbn [obind]. rewrite Hr, El.
  destruct collect_ok as (vals & Ec & Hv). rewrite Ec. cbn [obind]. destruct (Hsrt vals) as [Hp Hs].
  rewrite (loop_overrun (srt vals) _ []); [reflexivity| |apply fresh_marks].
  intros v' b' H'. apply (Permutation_in _ Hp), Hv in H'. destruct H' as [H1 H2]. split; [exact H1|]. split; [exact H2|].
  rewrite H2. apply Hall, H1.
Qed.
End Find.
