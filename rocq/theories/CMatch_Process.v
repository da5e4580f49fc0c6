From Coq Require Import ZifyNat.
From Verif Require Import Base Util MultiMap CMergeBK_Model CMgr_Model CMgr_Spec CMgr_Proofs
  CMatchBK_Model CMatchBK_Spec CMatchBK_Proofs CMComb_Model CMComb_Spec CMComb_Proofs CMatch_Model CMatch_Spec CMatch_Proofs.

Lemma register_of_fold h : register_of h = fold_left (fun r x => reg_match r (snd x) (fst x)) h [].
Proof.
  unfold register_of, match_run, reg_reset. generalize (@nil (Z * list nat)) as r.
  induction h as [|x h IH]; intros r; simpl; [reflexivity|]. apply IH.
Qed.

Section Run.
Context {hit extra W : Type}.
Variable cfg : config hit extra W.
Variable alg : W -> list (cluster hit extra) -> W * Z.
Variable nplanes : nat.
Hypothesis Hnp : nplanes <= 33.

Lemma iteration_match (m : mmgr hit extra W) :
  (Z.of_nat (length (mm_in m)) < 4294967295)%Z ->
  let prio := snd (prio_vals cfg (mm_w m) (mm_in m)) in
  (forall i, i < length (mm_in m) -> (0 < nth i prio 0)%Z -> (0 <= plane_of (mm_in m) i < Z.of_nat nplanes)%Z) ->
  exists cands, let scores := snd (answers alg (mm_in m) (fst (prio_vals cfg (mm_w m) (mm_in m))) cands) in
    let qs := List.combine cands scores in
    exists w', match_iteration nplanes alg cfg m =
      Ok (mkMM (mm_in m) (fold_left (fun r x => reg_match r (snd x) (fst x)) (positives qs) (mm_reg m)) w', qs) /\
    NoDup cands /\ forall s, In s cands <-> match_candidate (mm_in m) prio s.
Proof.
  intros Hbig prio Hgood. unfold match_iteration.
  destruct (compute_priority_spec cfg (mm_w m) (mm_in m)) as (pr & planes & E & Hpr & Hnd & _ & Hndp & Hpl).
  fold prio in Hpr, Hpl. rewrite E. cbn [obind].
  set (ord := map snd (rev pr)).
  assert (Hin : forall i, In i ord <-> i < length (mm_in m) /\ (0 < nth i prio 0)%Z).
  { intros i. unfold ord. rewrite map_rev, <- in_rev, in_map_iff. split.
    - intros ([p j] & <- & H). apply Hpr in H. cbn [snd]. destruct H as (A & -> & B). auto.
    - intros [A B]. exists (nth i prio 0%Z, i). split; [reflexivity|]. apply Hpr. auto. }
  assert (Hno : NoDup ord).
  { unfold ord. rewrite map_rev. apply (Permutation_NoDup (Permutation_rev _)). exact Hnd. }
  assert (Hord : forall i, In i ord -> i < length (mm_in m) /\ (0 <= plane_of (mm_in m) i < Z.of_nat nplanes)%Z).
  { intros i Hi. apply Hin in Hi. split; [tauto|]. apply Hgood; tauto. }
  assert (Hpl' : forall z, In z planes <-> exists i, In i ord /\ z = plane_of (mm_in m) i).
  { intros z. rewrite Hpl. split.
    - intros (i & c & Hc & Hp & ->). assert (Hi : In i ord) by (apply Hin; split; [apply nth_error_Some; congruence|exact Hp]).
      exists i. split; [exact Hi|]. destruct (Hord i Hi) as [_ B]. unfold plane_of in *. rewrite Hc in *. unfold uchar. apply Z.mod_small. lia.
    - intros (i & Hi & ->). destruct (Hord i Hi) as [L B]. apply Hin in Hi.
      destruct (nth_error (mm_in m) i) as [c|] eqn:Ec; [|apply nth_error_None in Ec; lia].
      exists i, c. split; [exact Ec|]. split; [tauto|]. unfold plane_of in *. rewrite Ec in *. unfold uchar. symmetry. apply Z.mod_small. lia. }
  assert (Hcand : forall s, match_candidate (mm_in m) prio s <-> cand (mm_in m) ord s).
  { intros s. unfold match_candidate, cand. split; intros (A & B & C); (split; [exact A|]; split; [exact B|]);
      intros i Hi; apply Hin, C, Hi. }
  destruct (Nat.ltb_spec (length planes) 2) as [L|L].
  - exists []. eexists. split; [reflexivity|]. split; [constructor|]. intros s. split; [intros []|].
    intros Hs. apply Hcand in Hs. exfalso. destruct Hs as (A & B & C).
    destruct s as [|i [|j s]]; simpl in A; try lia.
    inversion B as [|? ? _ F]; subst. inversion F as [|? ? Hij _]; subst.
    assert (I : incl [plane_of (mm_in m) i; plane_of (mm_in m) j] planes).
    { intros z [<-|[<-|[]]]; apply Hpl'; [exists i|exists j]; split; auto; apply C; simpl; auto. }
    assert (N : NoDup [plane_of (mm_in m) i; plane_of (mm_in m) j]).
    { constructor; [intros [H|[]]; lia|constructor; [intros []|constructor]]. }
    pose proof (NoDup_incl_length N I) as K. simpl in K. lia.
  - assert (Hle : length planes <= nplanes).
    { assert (I : incl planes (map Z.of_nat (seq 0 nplanes))).
      { intros z Hz. apply Hpl' in Hz. destruct Hz as (i & Hi & ->). destruct (Hord i Hi) as [_ B].
        apply in_map_iff. exists (Z.to_nat (plane_of (mm_in m) i)). split; [lia|]. apply in_seq. lia. }
      pose proof (NoDup_incl_length Hndp I) as K. rewrite map_length, seq_length in K. exact K. }
    destruct (Nat.ltb_spec nplanes (length planes)); [lia|].
    destruct (plane_index_ok (mm_in m) nplanes planes ord Hnp Hord) as (pti & Ep & Lp & Hp).
    rewrite Ep. cbn [obind fst snd].
    destruct (fill_ok (mm_in m) nplanes planes ord Hnp Hord Hpl' pti Lp Hp ord [] _ (fun i Hi => Hi) (table_init (mm_in m) nplanes planes))
      as (ca & Ec & T). cbn [app] in T.
    rewrite Ec. cbn [obind].
    pose proof (seed_pos (mm_in m) nplanes planes ord Hnp Hord Hpl' ca T) as Fp.
    pose proof (seed_len (mm_in m) nplanes planes ord Hnp Hord ca T) as Sl.
    destruct (plane_loop_ok (map (@length nat) ca) Fp Sl (length (map (@length nat) ca)) 0 [] ltac:(lia)) as (combs & El & Nc & Hc & _).
    unfold plane_cluster_combinations, range. rewrite Nat.sub_0_r, El. cbn [obind app].
    assert (Hch : forall c, In c combs <-> plane_choice (map (@length nat) ca) c).
    { intros c. rewrite Hc. split; [tauto|]. intros H1. split; [exact H1|]. rewrite Nat.sub_0_r.
      destruct H1 as (_ & S & B).
      assert (ND : NoDup (map fst c)).
      { clear - S. induction (map fst c) as [|x l IH]; [constructor|]. inversion S as [|? ? S1 F]; subst. constructor; [|auto].
        intros Hx. rewrite Forall_forall in F. specialize (F x Hx). lia. }
      assert (I : incl (map fst c) (seq 0 (length (map (@length nat) ca)))).
      { intros p Hp'. apply in_map_iff in Hp'. destruct Hp' as ([q k] & <- & Hq). apply in_seq. simpl. destruct (B q k Hq). lia. }
      pose proof (NoDup_incl_length ND I) as K. rewrite map_length, seq_length in K. exact K. }
    exists (map (map (fun rk => nth (snd rk) (nth (fst rk) ca []) 0)) combs). cbv zeta.
    eexists. split; [|split].
    + rewrite (ask_ok (mm_in m) nplanes planes ord Hnp Hord Hpl' ca T Hbig alg combs _ _ [] (fun c Hcc => proj1 (Hch c) Hcc)).
      cbn [obind app]. reflexivity.
    + apply NoDup_map_inj_in; [|exact Nc]. intros c c' I1 I2.
      apply (cell_inj (mm_in m) nplanes planes ord Hno ca T); apply Hch; assumption.
    + intros s. rewrite Hcand, in_map_iff. split.
      * intros (c & <- & Hi). apply (choice_cand (mm_in m) nplanes planes ord Hnp Hord Hpl' ca T). apply Hch, Hi.
      * intros Hs. destruct (cand_choice (mm_in m) nplanes planes ord Hnp Hord Hpl' ca T s Hs) as (c & A & B).
        exists c. split; [exact B|apply Hch, A].
Qed.
End Run.

Section Bad.
Context {hit extra W : Type}.
Variable cl : list (cluster hit extra).
Variable nplanes : nat.
Variable planes : list Z.
Hypothesis Hnp : nplanes <= 33.
Let present (p : nat) : bool := existsb (Z.eqb (uchar (Z.of_nat p))) planes.
Let bad (i : nat) : Prop := ~ (0 <= plane_of cl i < Z.of_nat nplanes)%Z.

Lemma fill_throws pti : length pti = nplanes -> (forall p, p < nplanes -> present p = true -> nth p pti 0 = rank present p) ->
  forall todo ca, length ca = rank present nplanes ->
  (forall i, In i todo -> i < length cl /\ In (uchar (plane_of cl i)) planes) ->
  (exists i, In i todo /\ bad i) ->
  foreach todo (fill_one cl pti) ca = Throw RangeExn.
Proof.
  intros Lp Hp. induction todo as [|i todo IH]; intros ca L Hin (b & Hb & Bb); [destruct Hb|].
  destruct (Hin i (or_introl eq_refl)) as [Li Pi].
  cbn [foreach]. unfold fill_one at 1.
  destruct (nth_error cl i) as [c|] eqn:Ec; [|apply nth_error_None in Ec; lia].
  assert (Epl : plane_of cl i = cplane c) by (unfold plane_of; rewrite Ec; reflexivity).
  unfold at_ at 1. rewrite Ec. cbn [obind]. unfold at_int. rewrite <- Epl.
  destruct (Z.ltb_spec (plane_of cl i) 0) as [Neg|Pos]; [reflexivity|].
  destruct (Z_lt_ge_dec (plane_of cl i) (Z.of_nat nplanes)) as [Lt|Ge].
  - assert (Hpl : Z.to_nat (plane_of cl i) < nplanes) by lia.
    assert (Hpp : present (Z.to_nat (plane_of cl i)) = true).
    { unfold present. apply existsb_exists. exists (uchar (plane_of cl i)). split; [exact Pi|]. rewrite Z2Nat.id by lia. apply Z.eqb_refl. }
    rewrite (at_ok pti _ 0) by lia. cbn [obind]. rewrite Hp by assumption.
    assert (Rl : rank present (Z.to_nat (plane_of cl i)) < length ca) by (rewrite L; apply rank_lt; assumption).
    rewrite (at_ok ca _ []) by exact Rl. cbn [obind]. rewrite set_at_ok by exact Rl. cbn [obind].
    apply IH; [rewrite upd_length; exact L|intros j Hj; apply Hin; right; exact Hj|].
    destruct Hb as [<-|Hb]; [exfalso; apply Bb; lia|]. exists b. auto.
  - assert (Et : nth_error pti (Z.to_nat (plane_of cl i)) = None) by (apply nth_error_None; lia).
    unfold at_ at 1. rewrite Et. reflexivity.
Qed.
End Bad.

Lemma iteration_bad {hit extra W} (cfg : config hit extra W) alg nplanes (m : mmgr hit extra W) i j :
  nplanes <= 33 ->
  let prio := snd (prio_vals cfg (mm_w m) (mm_in m)) in
  i < length (mm_in m) -> (0 < nth i prio 0)%Z -> ~ (0 <= plane_of (mm_in m) i < Z.of_nat nplanes)%Z ->
  j < length (mm_in m) -> (0 < nth j prio 0)%Z -> uchar (plane_of (mm_in m) i) <> uchar (plane_of (mm_in m) j) ->
  exists e, match_iteration nplanes alg cfg m = Throw e.
Proof.
  intros Hnp prio Hi Pi Bi Hj Pj Nij. unfold match_iteration.
  destruct (compute_priority_spec cfg (mm_w m) (mm_in m)) as (pr & planes & E & Hpr & Hnd & _ & Hndp & Hpl).
  fold prio in Hpr, Hpl. rewrite E. cbn [obind].
  assert (Hpos : forall k, k < length (mm_in m) -> (0 < nth k prio 0)%Z -> In (uchar (plane_of (mm_in m) k)) planes).
  { intros k Hk Pk. apply Hpl. destruct (nth_error (mm_in m) k) as [c|] eqn:Ec; [|apply nth_error_None in Ec; lia].
    exists k, c. unfold plane_of. rewrite Ec. auto. }
  assert (L2 : 2 <= length planes).
  { assert (I : incl [uchar (plane_of (mm_in m) i); uchar (plane_of (mm_in m) j)] planes).
    { intros z [<-|[<-|[]]]; apply Hpos; assumption. }
    assert (N : NoDup [uchar (plane_of (mm_in m) i); uchar (plane_of (mm_in m) j)]).
    { constructor; [intros [H|[]]; congruence|constructor; [intros []|constructor]]. }
    pose proof (NoDup_incl_length N I) as K. simpl in K. exact K. }
  destruct (Nat.ltb_spec (length planes) 2); [lia|].
  destruct (Nat.ltb_spec nplanes (length planes)); [eexists; reflexivity|].
  destruct (plane_index_ok (mm_in m) nplanes planes [] Hnp) as (pti & Ep & Lp & Hp); [intros k []|].
  rewrite Ep. cbn [obind fst snd].
  rewrite (fill_throws (mm_in m) nplanes planes Hnp pti Lp Hp).
  - eexists. reflexivity.
  - apply repeat_length.
  - intros k Hk. rewrite map_rev, <- in_rev, in_map_iff in Hk. destruct Hk as ([p q] & <- & H1). apply Hpr in H1. cbn [snd].
    destruct H1 as (A & -> & B). split; [exact A|]. apply Hpos; assumption.
  - exists i. split; [|exact Bi]. rewrite map_rev, <- in_rev, in_map_iff. exists (nth i prio 0%Z, i). split; [reflexivity|]. apply Hpr. auto.
Qed.

Lemma match_process_ne {hit extra W} nplanes alg (cfg : config hit extra W) (m : mmgr hit extra W) :
  mm_in m <> [] ->
  match_process nplanes (Some alg) cfg m =
  (do r <- match_iteration nplanes alg cfg (mkMM (mm_in m) (mm_reg m) (hook cfg (hook cfg (mm_w m) (mm_in m)) (mm_in m)));
   let (m1, tr) := r in
   Ok (mkMM (mm_in m1) (mm_reg m1) (hook cfg (hook cfg (mm_w m1) []) []), tr)).
Proof. intros H. unfold match_process. destruct (mm_in m); [congruence|reflexivity]. Qed.
