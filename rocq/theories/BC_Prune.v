(** Filling holes, removing peninsulas, and one whole iteration of the outer loop of FindClusters. *)
From Coq Require Import QArith Qcanon.
From Verif Require Import Base QcUtil RFF_Spec Solver_Model Solver_Proofs SPS_Model BC_Model BC_Spec BC_Cells BC_Grow.
From Coq Require Import Lqa.
Local Open Scope nat_scope.

Lemma ss_refl {A} (l : list A) : subseq l l.
Proof. induction l; constructor; assumption. Qed.
Lemma ss_trans {A} (a b c : list A) : subseq a b -> subseq b c -> subseq a c.
Proof.
  intros H1 H2. revert a H1. induction H2 as [|x l' l H IH|x l' l H IH]; intros a H1; [exact H1| |].
  - inversion H1; subst; [apply ss_keep; auto|apply ss_drop; auto].
  - apply ss_drop. auto.
Qed.
Lemma ss_incl {A} (a b : list A) : subseq a b -> incl a b.
Proof. induction 1; intros y Hy; simpl in *; auto; destruct Hy; auto. Qed.
Lemma ss_del {A} (a b : list A) x : subseq (a ++ b) (a ++ x :: b).
Proof. induction a; simpl; [apply ss_drop, ss_refl|apply ss_keep; assumption]. Qed.
Lemma erase_at {A} (l1 : list A) x l2 : erase (l1 ++ x :: l2) (length l1) = l1 ++ l2.
Proof.
  unfold erase. rewrite firstn_app, firstn_all, Nat.sub_diag. rewrite firstn_O, app_nil_r. f_equal.
  induction l1 as [|a l1 IH]; [reflexivity|exact IH].
Qed.

Section Prune.
Variables (cf : config) (hm : hitmap) (im : image) (nx ny : nat) (prev : list nat).
Hypothesis Hnx : 0 < nx.
Hypothesis Him : rect nx ny im.
Hypothesis Hhm : rect nx ny hm.
Let El : length im = nx := im_length nx ny im Him.
Notation sinv := (sinv hm nx ny prev).

Lemma touching_sym a b : touching nx a b = touching nx b a.
Proof. apply eq_true_iff_eq. rewrite !touching_spec. unfold dist. intuition lia. Qed.

Lemma fill_cell_ok s b d : sinv s -> In b (clus s) -> In d offsets8 ->
  exists s', fill_cell cf hm im ny b s d = Ok s' /\ sinv s' /\
    (s' = s \/ exists n, may_fill cf hm nx ny prev (clus s) n /\ clus s' = clus s ++ [n]).
Proof.
  intros Hi Hb Hd. unfold fill_cell. rewrite El. fold (nbr nx b d).
  destruct (on_border nx ny (nbr nx b d)) eqn:Eo; [exists s; auto|].
  pose proof (border_range nx ny Hnx _ Eo) as Hr. set (n := Z.to_nat (nbr nx b d)).
  assert (En : nbr nx b d = Z.of_nat n) by (unfold n; lia).
  assert (Hn : n < nx * ny) by lia. rewrite En in Eo. rewrite border_edge in Eo by assumption.
  rewrite (time_ok nx ny hm im Hnx Him Hhm n Hn). simpl.
  destruct Hi as [Hm Ht]. destruct (marks_idx nx ny Hnx _ _ n Hm Hn) as (u & Eu & Hu). rewrite Eu. simpl.
  destruct u; [exists s; split; [reflexivity|]; split; [split; assumption|left; reflexivity]|].
  assert (Hnot : ~ In n (prev ++ clus s)) by (rewrite <- Hu; discriminate).
  rewrite (count_ok nx ny Hnx _ _ n Hm Hn Eo). simpl.
  destruct ((nbThreshold cf <? touch_count nx n (prev ++ clus s)) && passes_time_cut cf (times s) (time_of hm nx n)) eqn:E;
    [|exists s; split; [reflexivity|]; split; [split; assumption|left; reflexivity]].
  apply andb_true_iff in E. destruct E as [E1 E2]. apply Nat.ltb_lt in E1. rewrite Ht in E2.
  assert (Hlen : n < length (used s)) by (destruct Hm as [-> _]; exact Hn).
  rewrite (set_idx_ok _ _ true Hlen). simpl. eexists. split; [reflexivity|].
  split; [eapply sinv_push; try eassumption; split; assumption|].
  right. exists n. split; [|reflexivity].
  assert (N1 : ~ In n prev) by (intros F; apply Hnot, in_app_iff; left; exact F).
  assert (N2 : ~ In n (clus s)) by (intros F; apply Hnot, in_app_iff; right; exact F).
  assert (T : touching nx b n = true).
  { rewrite touching_sym. replace b with (Z.to_nat (nbr nx n (- fst d, - snd d)%Z)).
    - apply (nbr_touch nx ny); try assumption. apply off8. apply off8 in Hd. destruct d as [dx dy]; simpl in *.
      destruct Hd as (? & ? & Hne). split; [lia|]. split; [lia|]. intros [= F1 F2]. apply Hne. f_equal; lia.
    - unfold nbr in *. simpl. rewrite <- En. rewrite <- (Nat2Z.id b) at 2. f_equal. ring. }
  refine (conj Hn (conj N1 (conj N2 (conj Eo (conj _ (conj E1 _)))))).
  - exists b. auto.
  - apply cut_match. exact E2.
Qed.

Lemma filled_trans g f c : filled cf hm nx ny prev g f -> filled cf hm nx ny prev f c -> filled cf hm nx ny prev g c.
Proof. intros H1 H2. induction H2 as [|c b H IH Hm]; [exact H1|]. apply f_add; assumption. Qed.

Lemma fill_bin_ok s b : sinv s -> In b (clus s) ->
  exists s', fill_bin cf hm im ny s b = Ok s' /\ sinv s' /\ filled cf hm nx ny prev (clus s) (clus s').
Proof.
  intros Hi Hb. unfold fill_bin.
  destruct (foreach_pre (fun pre s' => sinv s' /\ In b (clus s') /\ filled cf hm nx ny prev (clus s) (clus s')) (fill_cell cf hm im ny b) offsets8 s)
    as (s' & E & Hi' & _ & Hf).
  - split; [exact Hi|]. split; [exact Hb|apply f_start].
  - intros pre d post s1 Eo (Hi1 & Hb1 & Hf1).
    destruct (fill_cell_ok s1 b d Hi1 Hb1) as (s2 & E2 & Hi2 & Hc2); [rewrite Eo; apply in_app_iff; right; left; reflexivity|].
    exists s2. split; [exact E2|]. split; [exact Hi2|]. destruct Hc2 as [->|(n & Hn & Ec)]; [auto|].
    rewrite Ec. split; [apply in_app_iff; left; exact Hb1|]. apply f_add; assumption.
  - exists s'. auto.
Qed.

Lemma fill_ok s : sinv s ->
  exists s', scan (nx * ny) (fill_bin cf hm im ny) 0 s = Ok s' /\ sinv s' /\ filled cf hm nx ny prev (clus s) (clus s').
Proof.
  intros Hi.
  destruct (scan_inv (fun k s' => sinv s' /\ filled cf hm nx ny prev (clus s) (clus s')) (fill_bin cf hm im ny) (nx * ny) (nx * ny) 0 s)
    as (s' & k' & E & (Hi' & Hf) & _).
  - intros k s1 b (Hi1 & Hf1) Hk. apply nth_error_In in Hk.
    destruct (fill_bin_ok s1 b Hi1 Hk) as (s2 & E2 & Hi2 & Hf2). exists s2. split; [exact E2|]. split; [exact Hi2|].
    apply (filled_trans _ _ _ Hf1 Hf2).
  - intros k s1 (Hi1 & _). eapply sinv_length; eassumption.
  - split; [exact Hi|apply f_start].
  - lia.
  - exists s'. auto.
Qed.

(** removing peninsulas *)
Notation supported := (supported cf nx ny prev).

Lemma count_mono b s c : NoDup s -> incl s c -> touch_count nx b (prev ++ s) <= touch_count nx b (prev ++ c).
Proof.
  intros Hs Hi. unfold touch_count. rewrite !filter_app, !app_length. apply Nat.add_le_mono_l.
  apply NoDup_incl_length; [apply NoDup_filter, Hs|]. intros a Ha. apply filter_In in Ha. apply filter_In. split; [apply Hi|]; apply Ha.
Qed.

(** what survives from [f]: the current list is a sub-list holding every supported set *)
Definition keeps (f c : list nat) : Prop :=
  subseq c f /\ forall s, NoDup s -> incl s f -> supported s -> incl s c.

Lemma prune_pass_ok f : forall k us cl rm, marks nx ny us (prev ++ cl) -> keeps f cl -> k <= length cl ->
  exists us' cl' rm', prune_pass cf im ny k (us, cl, rm) = Ok (us', cl', rm') /\ marks nx ny us' (prev ++ cl') /\ keeps f cl' /\
    (rm' = rm /\ cl' = cl /\ (forall j b, j < k -> nth_error cl j = Some b -> edge nx ny b = false -> minNeighbours cf <= touch_count nx b (prev ++ cl))
     \/ rm' = true /\ length cl' < length cl).
Proof.
  induction k as [|k IH]; intros us cl rm Hm Hk Hl; simpl.
  - exists us, cl, rm. split; [reflexivity|]. split; [exact Hm|]. split; [exact Hk|]. left. repeat split; auto. intros; lia.
  - assert (Hlt : k < length cl) by lia. rewrite El.
    destruct (nth_error cl k) as [b|] eqn:Eb; [|apply nth_error_None in Eb; lia].
    assert (Ei : idx cl k = Ok b) by (unfold idx; rewrite Eb; reflexivity). rewrite Ei. simpl.
    assert (Hb : In b cl) by (eapply nth_error_In; exact Eb).
    assert (HbN : b < nx * ny) by (destruct Hm as (_ & _ & H & _); apply H, in_app_iff; right; exact Hb).
    rewrite border_edge by assumption. destruct (edge nx ny b) eqn:Ee.
    + destruct (IH us cl rm Hm Hk ltac:(lia)) as (us' & cl' & rm' & E & H1 & H2 & H3). exists us', cl', rm'.
      split; [exact E|]. split; [exact H1|]. split; [exact H2|].
      destruct H3 as [(-> & -> & H3)|H3]; [left|right; exact H3]. split; [reflexivity|]. split; [reflexivity|].
      intros j b' Hj Hb' He. destruct (Nat.eq_dec j k) as [->|]; [congruence|apply (H3 j b'); [lia| |]; assumption].
    + rewrite (count_ok nx ny Hnx _ _ b Hm HbN Ee). simpl.
      destruct (Nat.ltb_spec (touch_count nx b (prev ++ cl)) (minNeighbours cf)) as [Hc|Hc].
      * assert (Hlen : b < length us) by (destruct Hm as [-> _]; exact HbN).
        rewrite (set_idx_ok _ _ false Hlen). simpl.
        destruct (nth_error_split cl k Eb) as (l1 & l2 & Ecl & El1).
        assert (Eer : erase cl k = l1 ++ l2) by (rewrite Ecl, <- El1; apply erase_at). rewrite Eer.
        assert (Hm' : marks nx ny (upd us b false) (prev ++ l1 ++ l2)).
        { rewrite app_assoc. apply marks_del; [exact Hnx|]. rewrite <- app_assoc, <- Ecl. exact Hm. }
        assert (Hk' : keeps f (l1 ++ l2)).
        { destruct Hk as [Hs1 Hs2]. split.
          - apply (ss_trans _ cl); [rewrite Ecl; apply ss_del|exact Hs1].
          - intros s Hnd Hincl Hsup. specialize (Hs2 s Hnd Hincl Hsup). intros a Ha.
            assert (Hac := Hs2 a Ha). rewrite Ecl in Hac. apply in_app_iff in Hac. apply in_app_iff.
            destruct Hac as [Hac|[Hac|Hac]]; auto. subst a. exfalso.
            specialize (Hsup b Ha Ee). pose proof (count_mono b s cl Hnd Hs2). lia. }
        destruct (IH (upd us b false) (l1 ++ l2) true Hm' Hk') as (us' & cl' & rm' & E & H1 & H2 & H3).
        { rewrite app_length. lia. }
        exists us', cl', rm'. split; [exact E|]. split; [exact H1|]. split; [exact H2|]. right.
        assert (Hll : length cl = S (length (l1 ++ l2))) by (rewrite Ecl, !app_length; simpl; lia).
        destruct H3 as [(-> & -> & _)|[-> H3]]; split; try reflexivity; lia.
      * destruct (IH us cl rm Hm Hk ltac:(lia)) as (us' & cl' & rm' & E & H1 & H2 & H3). exists us', cl', rm'.
        split; [exact E|]. split; [exact H1|]. split; [exact H2|].
        destruct H3 as [(-> & -> & H3)|H3]; [left|right; exact H3]. split; [reflexivity|]. split; [reflexivity|].
        intros j b' Hj Hb' He. destruct (Nat.eq_dec j k) as [->|]; [congruence|apply (H3 j b'); [lia| |]; assumption].
Qed.

Lemma prune_ok f : forall fuel us cl, marks nx ny us (prev ++ cl) -> keeps f cl -> length cl < fuel ->
  exists us' cl', prune cf im fuel ny us cl = Ok (us', cl') /\ marks nx ny us' (prev ++ cl') /\ core_of cf nx ny prev f cl'.
Proof.
  induction fuel as [|n IH]; intros us cl Hm Hk Hf; [lia|]. simpl.
  destruct (prune_pass_ok f (length cl) us cl false Hm Hk (le_n _)) as (us' & cl' & rm & E & H1 & H2 & H3).
  rewrite E. simpl. destruct H3 as [(-> & -> & H3)|[-> H3]].
  - exists us', cl. split; [reflexivity|]. split; [exact H1|]. split; [apply H2|]. split; [|apply H2].
    intros b Hb He. apply In_nth_error in Hb. destruct Hb as (j & Hj). apply (H3 j b); [|exact Hj|exact He].
    apply nth_error_Some. congruence.
  - apply IH; [exact H1|exact H2|lia].
Qed.

Lemma release_ok : forall cl us, marks nx ny us (prev ++ cl) -> exists us', release us cl = Ok us' /\ marks nx ny us' prev.
Proof.
  induction cl as [|b cl IH]; intros us Hm; unfold release; simpl.
  - exists us. rewrite app_nil_r in Hm. auto.
  - assert (HbN : b < length us).
    { destruct Hm as (-> & _ & H & _). apply H, in_app_iff. right; left; reflexivity. }
    rewrite (set_idx_ok _ _ false HbN). simpl. apply IH. apply marks_del; assumption.
Qed.

(** one iteration of the outer loop *)
Lemma one_cluster_ok us seed : marks nx ny us prev -> seed < nx * ny -> ~ In seed prev -> (minSeed cf <= charge_of im nx seed)%Qc ->
  exists us' r, one_cluster cf hm im ny us seed = Ok (us', r) /\
    match r with
    | None => marks nx ny us' prev /\ too_small cf hm im nx ny prev seed
    | Some c => marks nx ny us' (prev ++ c) /\ cluster_from cf hm im nx ny prev seed c
    end.
Proof.
  intros Hm Hs Hn Hc. unfold one_cluster. rewrite El.
  assert (Hlen : seed < length us) by (destruct Hm as [-> _]; exact Hs).
  rewrite (set_idx_ok _ _ true Hlen). cbn [obind]. rewrite (time_ok nx ny hm im Hnx Him Hhm seed Hs). cbn [obind].
  set (s0 := {| used := upd us seed true; clus := [seed]; times := _; added := false |}).
  assert (H0 : sinv s0).
  { split; [apply marks_add; assumption|]. unfold s0, times_of. simpl. destruct (qc_lt (Q2Qc 0) (time_of hm nx seed)); reflexivity. }
  destruct (grow_ok cf hm im nx ny prev Hnx Him Hhm seed (S (nx * ny)) s0 H0) as (s1 & E1 & Hi1 & Hg & Hsat).
  { apply g_seed; assumption. }
  { simpl. lia. }
  rewrite E1. cbn [obind].
  destruct (Nat.ltb_spec (length (clus s1)) (minSize cf)) as [Hsz|Hsz].
  - destruct Hi1 as [Hm1 _]. destruct (release_ok (clus s1) (used s1) Hm1) as (us2 & E2 & Hm2). rewrite E2. simpl.
    exists us2, None. split; [reflexivity|]. split; [exact Hm2|]. exists (clus s1). auto.
  - destruct (fill_ok s1 Hi1) as (s2 & E2 & Hi2 & Hf). rewrite E2. cbn [obind].
    destruct Hi2 as [Hm2 _].
    destruct (prune_ok (clus s2) (S (nx * ny)) (used s2) (clus s2) Hm2) as (us3 & cl & E3 & Hm3 & Hcore).
    { split; [apply ss_refl|auto]. }
    { pose proof (marks_length nx ny Hnx _ _ Hm2) as HL. rewrite app_length in HL. lia. }
    rewrite E3. cbn [obind]. destruct (Nat.ltb_spec (length cl) (minSize cf)) as [Hsz2|Hsz2].
    + destruct (release_ok cl us3 Hm3) as (us4 & E4 & Hm4). rewrite E4. simpl. exists us4, None.
      split; [reflexivity|]. split; [exact Hm4|]. exists (clus s1). split; [exact Hg|]. split; [exact Hsat|]. right. exists (clus s2), cl. auto.
    + exists us3, (Some cl). split; [reflexivity|]. split; [exact Hm3|]. exists (clus s1), (clus s2). auto 10.
Qed.
End Prune.
