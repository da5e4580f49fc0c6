(** When only the charge threshold matters, the clusters are the connected components. *)
From Coq Require Import QArith Qcanon.
From Verif Require Import Base QcUtil RFF_Spec Solver_Model Solver_Proofs SPS_Model BC_Model BC_Spec BC_Cells BC_Grow BC_Prune BC_Find.
Local Open Scope nat_scope.

Lemma ss_length {A} (a b : list A) : subseq a b -> length a <= length b.
Proof. induction 1; simpl; lia. Qed.
Lemma ss_full {A} (a b : list A) : subseq a b -> length b <= length a -> a = b.
Proof.
  induction 1 as [|x l' l H IH|x l' l H IH]; simpl; intros Hl; [reflexivity| |].
  - f_equal. apply IH. lia.
  - apply ss_length in H. lia.
Qed.

Section Comp.
Variables (cf : config) (hm : hitmap) (im : image) (nx ny : nat).
Hypothesis Hnx : 0 < nx.
Let charge := charge_of im nx.
Let time := time_of hm nx.
Notation grown := (grown cf hm im nx ny).
Notation saturated := (saturated cf hm im nx ny).
Notation connected := (connected cf im nx ny).

Lemma grown_facts prev s g : grown prev s g ->
  NoDup g /\ (forall b, In b g -> b < nx * ny /\ ~ In b prev) /\ (exists rest, g = s :: rest) /\ (minSeed cf <= charge s)%Qc.
Proof.
  induction 1 as [Hs Hn Hc|c b H IH Hm].
  - split; [repeat constructor; intros []|]. split; [intros b [<-|[]]; auto|]. split; [exists []; reflexivity|exact Hc].
  - destruct IH as (I1 & I2 & (rest & ->) & I4). destruct Hm as (M1 & M2 & M3 & _). split; [|split; [|split; [|exact I4]]].
    + apply (Permutation_NoDup (l := b :: s :: rest)); [apply Permutation_cons_append|]. constructor; assumption.
    + intros a Ha. apply in_app_iff in Ha. destruct Ha as [Ha|[<-|[]]]; auto.
    + exists (rest ++ [b]). reflexivity.
Qed.

Lemma count_le8 b l : NoDup l -> (forall a, In a l -> a < nx * ny) -> touch_count nx b l <= 8.
Proof.
  intros Hnd Hlt. unfold touch_count.
  replace 8 with (length (map (fun d => Z.to_nat (nbr nx b d)) offsets8)) by reflexivity.
  apply NoDup_incl_length; [apply NoDup_filter, Hnd|]. intros a Ha. apply filter_In in Ha. destruct Ha as [Ha Ht].
  destruct (touch_nbr nx ny Hnx b a (Hlt a Ha) Ht) as (d & Hd & Ed). apply in_map_iff. exists d. rewrite Ed, Nat2Z.id. auto.
Qed.

Lemma no_fill prev g f : 8 <= nbThreshold cf -> NoDup prev -> (forall a, In a prev -> a < nx * ny) ->
  NoDup g -> (forall b, In b g -> b < nx * ny /\ ~ In b prev) -> filled cf hm nx ny prev g f -> f = g.
Proof.
  intros H8 Hp Hplt Hg Hglt Hf. induction Hf as [|c b H IH Hm]; [reflexivity|]. exfalso. subst c.
  destruct Hm as (_ & _ & _ & _ & _ & Hc & _).
  assert (Hle : touch_count nx b (prev ++ g) <= 8); [|lia].
  apply count_le8.
  - clear -Hp Hg Hglt. induction Hp as [|x l Hx Hl IH]; [exact Hg|]. simpl. constructor.
    + rewrite in_app_iff. intros [F|F]; [exact (Hx F)|]. apply (proj2 (Hglt x F)). left; reflexivity.
    + apply IH. intros b Hb. destruct (Hglt b Hb) as [G1 G2]. split; [exact G1|]. intros F. apply G2. right; exact F.
  - intros a Ha. apply in_app_iff in Ha. destruct Ha as [Ha|Ha]; [apply Hplt, Ha|apply Hglt, Ha].
Qed.

Lemma no_prune prev f c : minNeighbours cf = 0 -> NoDup f -> core_of cf nx ny prev f c -> c = f.
Proof.
  intros H0 Hf (Hs & _ & Hmax). apply ss_full; [exact Hs|]. apply NoDup_incl_length; [exact Hf|].
  apply Hmax; [exact Hf|apply incl_refl|]. intros b _ _. rewrite H0. lia.
Qed.

(** the simple regime *)
Hypothesis Hnb : 8 <= nbThreshold cf.
Hypothesis Hmn : minNeighbours cf = 0.
Hypothesis Hseed : (chargeThreshold cf < minSeed cf)%Qc.
Hypothesis Htime : forall a b, a < nx * ny -> b < nx * ny -> (0 < time a)%Qc -> (0 < time b)%Qc -> in_time cf (time a) (time b).

Lemma conn_sym a b : connected a b -> connected b a.
Proof.
  induction 1 as [a b (H1 & H2 & Hne & H3 & H4)|a|a b c _ IH1 _ IH2]; [|apply rt_refl|eapply rt_trans; eassumption].
  apply rt_step. split; [exact H2|]. split; [exact H1|]. unfold near, dist in *. split; [congruence|]. lia.
Qed.

Definition closed (l : list nat) : Prop := forall a b, connected a b -> In a l -> In b l.

Lemma grown_component prev s g : grown prev s g -> saturated prev g -> closed prev -> forall b, In b g <-> connected s b.
Proof.
  intros Hg Hsat Hcl. destruct (grown_facts prev s g Hg) as (Hnd & Hlt & (rest & Erest) & Hsc).
  assert (Hs : In s g) by (rewrite Erest; left; reflexivity).
  assert (Hhot : hot cf im nx ny s) by (split; [apply Hlt, Hs|eapply Qclt_le_trans; [exact Hseed|exact Hsc]]).
  intros b. split.
  - assert (Hall : forall b, In b g -> hot cf im nx ny b /\ connected s b).
    { clear Hsat Hnd Hlt Erest Hs b. revert Hhot. induction Hg as [|c b H IH Hm]; intros Hhot a Ha.
      - destruct Ha as [<-|[]]. split; [exact Hhot|apply rt_refl].
      - apply in_app_iff in Ha. destruct Ha as [Ha|[<-|[]]]; [apply IH; assumption|].
        destruct Hm as (M1 & _ & _ & (p & Hp & Hnear) & Mc & _). destruct (IH Hhot p Hp) as [Ph Pc].
        assert (Bh : hot cf im nx ny b) by (split; assumption). split; [exact Bh|].
        eapply rt_trans; [exact Pc|]. apply rt_step. split; [exact Ph|]. split; [exact Bh|exact Hnear]. }
    intros Hb. apply Hall, Hb.
  - intros Hc. apply clos_rt_rtn1 in Hc. induction Hc as [|p q Hpq Hsp IH]; [exact Hs|].
    destruct (in_dec Nat.eq_dec q g) as [Hq|Hq]; [exact Hq|]. exfalso. apply (Hsat q).
    destruct Hpq as (Hp1 & Hq1 & Hnear).
    assert (Hqp : ~ In q prev).
    { intros F. apply (proj2 (Hlt p IH)). apply (Hcl q p); [|exact F]. apply conn_sym, rt_step. split; [exact Hp1|]. split; [exact Hq1|exact Hnear]. }
    refine (conj (proj1 Hq1) (conj Hqp (conj Hq (conj _ (conj (proj2 Hq1) _))))).
    + exists p. auto.
    + intros Ht (a & Ha & Hta). exists a. split; [exact Ha|]. split; [exact Hta|]. apply Htime; [apply Hq1|apply Hlt, Ha|exact Ht|exact Hta].
Qed.

Lemma cluster_component prev s c : NoDup prev -> (forall a, In a prev -> a < nx * ny) -> closed prev ->
  cluster_from cf hm im nx ny prev s c ->
  (exists rest, c = s :: rest) /\ (minSeed cf <= charge s)%Qc /\ (forall b, In b c <-> connected s b) /\ minSize cf <= length c /\ closed (prev ++ c).
Proof.
  intros Hp Hplt Hcl (g & f & Hg & Hsat & Hsz & Hf & Hcore & Hsz2).
  destruct (grown_facts prev s g Hg) as (Hnd & Hlt & Hrest & Hsc).
  apply no_fill in Hf; auto. subst f. apply no_prune in Hcore; auto. subst c.
  pose proof (grown_component prev s g Hg Hsat Hcl) as Hcomp.
  repeat (split; [assumption|]). intros a b Hab Ha. apply in_app_iff. apply in_app_iff in Ha. destruct Ha as [Ha|Ha].
  - left. apply (Hcl a b Hab Ha).
  - right. apply Hcomp. apply Hcomp in Ha. eapply rt_trans; eassumption.
Qed.

Lemma nodup_firstn {A} (l : list (list A)) i : NoDup (concat l) -> NoDup (concat (firstn i l)).
Proof.
  intros H. rewrite <- (firstn_skipn i l), concat_app in H. revert H. generalize (concat (skipn i l)). induction (concat (firstn i l)) as [|x r IH]; intros t H; [constructor|].
  simpl in H. inversion_clear H as [|? ? H1 H2]. constructor; [|apply (IH t), H2]. intros F. apply H1, in_app_iff. left; exact F.
Qed.

Lemma all_components seeds cs : NoDup (concat cs) -> (forall b, In b (concat cs) -> b < nx * ny) ->
  made_from cf hm im nx ny seeds cs ->
  (forall i, i <= length cs -> closed (concat (firstn i cs))) /\
  forall i s c, nth_error seeds i = Some s -> nth_error cs i = Some c ->
    (exists rest, c = s :: rest) /\ (minSeed cf <= charge s)%Qc /\ (forall b, In b c <-> connected s b) /\ minSize cf <= length c.
Proof.
  intros Hnd Hlt (Hlen & Hmade & _).
  assert (Hpre : forall i, NoDup (concat (firstn i cs)) /\ (forall a, In a (concat (firstn i cs)) -> a < nx * ny)).
  { intros i. split; [apply nodup_firstn, Hnd|]. intros a Ha. apply Hlt. rewrite <- (firstn_skipn i cs), concat_app. apply in_app_iff. left; exact Ha. }
  assert (Hcl : forall i, i <= length cs -> closed (concat (firstn i cs))).
  { induction i as [|i IH]; intros Hi; [intros a b _ []|].
    destruct (nth_error cs i) as [c|] eqn:Ec; [|apply nth_error_None in Ec; lia].
    destruct (nth_error seeds i) as [s|] eqn:Es; [|apply nth_error_None in Es; lia].
    assert (Efs : concat (firstn (S i) cs) = concat (firstn i cs) ++ c).
    { rewrite <- concat_snoc. f_equal. clear -Ec. revert i Ec. induction cs as [|x l IHl]; intros [|i] H; try discriminate.
      - injection H as ->. reflexivity.
      - simpl. f_equal. apply IHl. exact H. }
    rewrite Efs. apply (cluster_component _ s c); [apply Hpre|apply Hpre|apply IH; lia|apply Hmade; assumption]. }
  split; [exact Hcl|]. intros i s c Hs Hc.
  assert (i < length cs) by (apply nth_error_Some; congruence).
  destruct (cluster_component (concat (firstn i cs)) s c) as (H1 & H2 & H3 & H4 & _); [apply Hpre|apply Hpre|apply Hcl; lia|apply Hmade; assumption|].
  auto.
Qed.

Lemma component_found seeds cs s l : NoDup (concat cs) -> (forall b, In b (concat cs) -> b < nx * ny) ->
  made_from cf hm im nx ny seeds cs -> accounted cf hm im nx ny cs s ->
  NoDup l -> (forall b, In b l <-> connected s b) -> minSize cf <= length l -> exists c, In c cs /\ Permutation c l.
Proof.
  intros Hnd Hlt Hmade Hacc Hl Hls Hsz. destruct (all_components seeds cs Hnd Hlt Hmade) as [Hcl Hall].
  assert (Hlen : length seeds = length cs) by apply Hmade.
  assert (Hndc : forall c, In c cs -> NoDup c).
  { intros c Hc. apply in_split in Hc. destruct Hc as (l1 & l2 & ->). rewrite concat_app in Hnd. simpl in Hnd. clear -Hnd.
    induction (concat l1) as [|x r IH]; simpl in Hnd; [|inversion_clear Hnd; auto].
    clear - Hnd. induction c as [|y c IH]; [constructor|]. simpl in Hnd. inversion_clear Hnd as [|? ? H1 H2]. constructor; [|apply IH, H2].
    intros F. apply H1, in_app_iff. left; exact F. }
  assert (Hmatch : forall c s', In c cs -> (forall b, In b c <-> connected s' b) -> connected s' s -> Permutation c l).
  { intros c s' Hin Hc Hss. apply NoDup_Permutation; [apply Hndc, Hin|exact Hl|]. intros b. rewrite Hc, Hls. split; intros H.
    - eapply rt_trans; [apply conn_sym, Hss|exact H].
    - eapply rt_trans; [exact Hss|exact H]. }
  destruct Hacc as [H|[(i & c & Hi & Hc)|(i & Hi & g & Hg & Hsat & Hsmall)]].
  - apply in_concat in H. destruct H as (c & Hin & Hs). exists c. split; [exact Hin|].
    apply In_nth_error in Hin. destruct Hin as (i & Hi). destruct (nth_error seeds i) as [s'|] eqn:Es.
    + destruct (Hall i s' c Es Hi) as (_ & _ & Hc & _). apply (Hmatch c s'); [eapply nth_error_In; exact Hi|exact Hc|apply Hc, Hs].
    + apply nth_error_None in Es. assert (i < length cs) by (apply nth_error_Some; congruence). lia.
  - exists c. assert (Hin : In c cs) by (eapply nth_error_In; exact Hi). split; [exact Hin|].
    destruct (cluster_component (concat (firstn i cs)) s c) as (_ & _ & H3 & _); [apply nodup_firstn, Hnd| |apply Hcl|exact Hc|].
    + intros a Ha. apply Hlt. rewrite <- (firstn_skipn i cs), concat_app. apply in_app_iff. left; exact Ha.
    + apply Nat.lt_le_incl, nth_error_Some. congruence.
    + apply (Hmatch c s Hin H3). apply rt_refl.
  - exfalso. pose proof (grown_component _ s g Hg Hsat (Hcl i Hi)) as Hcomp.
    destruct (grown_facts _ s g Hg) as (Hgnd & Hglt & _).
    assert (Hlg : length g = length l).
    { apply Permutation_length, NoDup_Permutation; [exact Hgnd|exact Hl|]. intros b. rewrite Hcomp, Hls. reflexivity. }
    destruct Hsmall as [Hsmall|(f & c & Hf & Hcore & Hsmall)]; [lia|].
    apply no_fill in Hf; auto; [|apply nodup_firstn, Hnd|].
    + subst f. apply no_prune in Hcore; auto. subst c. lia.
    + intros a Ha. apply Hlt. rewrite <- (firstn_skipn i cs), concat_app. apply in_app_iff. left; exact Ha.
Qed.
End Comp.
