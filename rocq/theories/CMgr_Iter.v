(** One iteration of the merge manager *)
From Coq Require Import ZifyNat.
From Verif Require Import Base MultiMap CMergeBK_Model CMergeBK_Spec CMergeBK_Proofs CMergeBK_Hist CMergeBK_Combine
  CMgr_Model CMgr_Spec CMgr_Proofs.

Lemma no_merges_no_links lg : (forall a b, ~ In (OMerge a b, ADone) lg) -> forall i j, linked lg i j -> i = j.
Proof.
  intros H i j Hl. induction Hl as [a b Hab| | |]; try congruence. exfalso; eapply H; exact Hab.
Qed.

Lemma linked_answered lg (tr : asked) :
  (forall a b, In (OMerge a b, ADone) lg <-> In (a, b, true) tr) ->
  forall i j, linked lg i j <-> answered_yes tr i j.
Proof. intros H i j. unfold linked, answered_yes. split; apply rst_mono; intros a b; apply H. Qed.

Section Iter.
Context {hit extra W : Type}.
Notation cluster := (cluster hit extra).
Notation alg := (W -> cluster -> cluster -> W * bool).

Section Loops.
Variable cl : list cluster.
Let n := length cl.
Hypothesis Hn : n < Z.to_nat 65536.

Lemma at_cl i : i < n -> exists c, nth_error cl i = Some c /\ at_ cl i = Ok c.
Proof.
  intros Hi. destruct (nth_error cl i) as [c|] eqn:E.
  - exists c. split; [reflexivity|]. unfold at_. rewrite E. reflexivity.
  - apply nth_error_None in E. fold n in E. lia.
Qed.

(** ** RunSeparate *)
Definition sep_inv (asked_before : nat -> nat -> Prop) (st : W * bk * asked) : Prop :=
  let '(w, b, tr) := st in
  exists lg, Inv n b lg /\
    (forall x y, ~ In (OMerge x y, ADone) lg) /\
    (forall x y, prohibited lg x y <-> In (x, y, true) tr \/ In (y, x, true) tr) /\
    (forall x y a, In (x, y, a) tr -> x < y < n /\ same_plane cl x y) /\
    (forall x y, asked_before x y -> x < y < n -> same_plane cl x y -> exists a, In (x, y, a) tr).

Lemma sep_pair_step (f : alg) c1 c2 (P : nat -> nat -> Prop) st : c1 < c2 < n -> sep_inv P st ->
  exists st', separate_pair f cl c1 st c2 = Ok st' /\
    sep_inv (fun x y => P x y \/ (x = c1 /\ y = c2)) st'.
Proof.
  intros Hc. destruct st as [[w b] tr]. intros (lg & I & H1 & H2 & H3 & H4).
  unfold separate_pair.
  destruct (at_cl c1) as (k1 & E1 & A1); [lia|]. destruct (at_cl c2) as (k2 & E2 & A2); [lia|].
  rewrite A1, A2. cbn [obind].
  destruct (Z.eqb_spec (uchar (cplane k1)) (uchar (cplane k2))) as [Ep|Ep]; cbn [negb].
  - assert (Hsp : same_plane cl c1 c2) by (exists k1, k2; auto).
    destruct (f w k1 k2) as [w' sep]. rewrite !ushort_small by lia.
    destruct sep.
    + destruct (prohibit_spec n b lg c1 c2 I) as [[Hl _]|[_ (b' & Eb & I' & _)]]; [lia|lia|lia| |].
      { apply (no_merges_no_links lg H1) in Hl. lia. }
      rewrite Eb. cbn [obind]. eexists; split; [reflexivity|].
      exists (lg ++ [(OProhibit c1 c2, ADone)]). split; [exact I'|]. split; [|split; [|split]].
      * intros x y Hin. apply in_app_or in Hin. destruct Hin as [Hin|[Hin|[]]]; [eapply H1; exact Hin|discriminate].
      * intros x y. rewrite prohibited_app_prohibit, H2, !in_app_iff. simpl. split.
        -- intros [[H|H]|[[-> ->]|[-> ->]]]; auto.
        -- intros [[H|[H|[]]]|[H|[H|[]]]]; auto; inversion H; subst; auto.
      * intros x y a Hin. apply in_app_or in Hin. destruct Hin as [Hin|[Hin|[]]]; [eapply H3; exact Hin|].
        inversion Hin; subst. split; [lia|exact Hsp].
      * intros x y [Hp|[-> ->]] Hxy Hs.
        -- destruct (H4 x y Hp Hxy Hs) as (a & Ha). exists a. apply in_or_app; auto.
        -- exists true. apply in_or_app; right; left; reflexivity.
    + cbn [obind]. eexists; split; [reflexivity|].
      exists lg. split; [exact I|]. split; [exact H1|]. split; [|split].
      * intros x y. rewrite H2, !in_app_iff. simpl. split; [tauto|].
        intros [[H|[H|[]]]|[H|[H|[]]]]; auto; discriminate.
      * intros x y a Hin. apply in_app_or in Hin. destruct Hin as [Hin|[Hin|[]]]; [eapply H3; exact Hin|].
        inversion Hin; subst. split; [lia|exact Hsp].
      * intros x y [Hp|[-> ->]] Hxy Hs.
        -- destruct (H4 x y Hp Hxy Hs) as (a & Ha). exists a. apply in_or_app; auto.
        -- exists false. apply in_or_app; right; left; reflexivity.
  - eexists; split; [reflexivity|]. exists lg. split; [exact I|]. split; [exact H1|]. split; [exact H2|].
    split; [exact H3|]. intros x y [Hp|[-> ->]] Hxy Hs; [eauto|].
    exfalso. destruct Hs as (a & b' & Ea & Eb & Hpl). congruence.
Qed.

Lemma sep_inv_mono (P Q : nat -> nat -> Prop) st : (forall x y, x < y < n -> Q x y -> P x y) -> sep_inv P st -> sep_inv Q st.
Proof.
  intros H. destruct st as [[w b] tr]. intros (lg & I & H1 & H2 & H3 & H4).
  exists lg. split; [exact I|]. split; [exact H1|]. split; [exact H2|]. split; [exact H3|].
  intros x y Hq Hxy Hs. apply H4; auto.
Qed.

Lemma run_separate_ok (f : alg) w b : Inv n b [] ->
  exists st, run_separate f cl (w, b, []) = Ok st /\ sep_inv (fun x y => True) st.
Proof.
  intros I. unfold run_separate. fold n.
  destruct (for_range_inv (fun c1 st => sep_inv (fun x y => x < c1) st)
    (fun st c1 => for_ (range (c1 + 1) n) (separate_pair f cl c1) st) 0 n (w, b, [])) as (st & E & H).
  - lia.
  - exists []. split; [exact I|]. split; [intros x y []|]. split.
    + intros x y. split; [intros [[]|[]]|intros [[]|[]]].
    + split; [intros x y a []|]. intros; lia.
  - intros c1 st Hc H.
    destruct (for_range_inv (fun c2 st => sep_inv (fun x y => x < c1 \/ (x = c1 /\ y < c2)) st)
      (separate_pair f cl c1) (c1 + 1) n st) as (st' & E & H').
    + lia.
    + eapply sep_inv_mono; [|exact H]. cbv beta; intros; lia.
    + intros c2 st2 Hc2 H2. destruct (sep_pair_step f c1 c2 _ st2 ltac:(lia) H2) as (st3 & E3 & H3).
      exists st3. split; [exact E3|]. eapply sep_inv_mono; [|exact H3]. cbv beta; intros; lia.
    + exists st'. split; [exact E|]. eapply sep_inv_mono; [|exact H']. cbv beta; intros; lia.
  - exists st. split; [exact E|]. eapply sep_inv_mono; [|exact H]. cbv beta; intros; lia.
Qed.

(** ** RunMerge *)
Variable flags : list bool.
Hypothesis Hflags : length flags = n.
Variable order : list nat.
Hypothesis Horder : forall i, In i order -> i < n.
Hypothesis Hnodup : NoDup order.
Variable proh0 : nat -> nat -> Prop.

Definition both_off (x y : nat) : Prop := nth x flags true = false /\ nth y flags true = false.

Definition mrg_inv (done : nat -> nat -> Prop) (st : W * bk * asked) : Prop :=
  let '(w, b, tr) := st in
  exists lg, Inv n b lg /\
    (forall x y, In (OMerge x y, ADone) lg <-> In (x, y, true) tr) /\
    (forall x y, prohibited lg x y <-> proh0 x y) /\
    (forall x y a, In (x, y, a) tr -> same_plane cl x y /\ earlier order x y) /\
    (forall x y, done x y -> earlier order x y -> same_plane cl x y ->
        (exists a, In (x, y, a) tr) \/ both_off x y \/ blocked lg x y).

Lemma blocked_mono lg e x y :
  blocked lg x y -> blocked (lg ++ [e]) x y.
Proof.
  intros (a & b & Hp & Ha & Hb). exists a, b. split; [|split; apply linked_mono_app; assumption].
  unfold prohibited in *. rewrite !in_app_iff. tauto.
Qed.

Lemma mrg_pair_step (f : alg) c1 c2 (P : nat -> nat -> Prop) st : earlier order c1 c2 -> c1 <> c2 -> mrg_inv P st ->
  exists st', merge_one f cl flags c1 st c2 = Ok st' /\
    mrg_inv (fun x y => P x y \/ (x = c1 /\ y = c2)) st'.
Proof.
  intros Hear Hne. destruct st as [[w b] tr]. intros (lg & I & H1 & H2 & H3 & H4).
  assert (Hc1 : c1 < n).
  { apply Horder. destruct Hear as (l1 & l2 & l3 & ->). apply in_or_app; right; left; reflexivity. }
  assert (Hc2 : c2 < n).
  { apply Horder. destruct Hear as (l1 & l2 & l3 & ->). apply in_or_app; right; right.
    apply in_or_app; right; left; reflexivity. }
  unfold merge_one.
  destruct (at_cl c1 Hc1) as (k1 & E1 & A1). destruct (at_cl c2 Hc2) as (k2 & E2 & A2).
  rewrite A1, A2. cbn [obind].
  (* a pair that is skipped *)
  assert (Hskip : (same_plane cl c1 c2 -> both_off c1 c2 \/ blocked lg c1 c2) ->
     exists st', Ok (w, b, tr) = Ok st' /\ mrg_inv (fun x y => P x y \/ (x = c1 /\ y = c2)) st').
  { intros Hs. eexists; split; [reflexivity|]. exists lg. split; [exact I|]. split; [exact H1|]. split; [exact H2|].
    split; [exact H3|]. intros x y [Hp|[-> ->]] Hxy Hsp; [eauto|]. right. apply Hs, Hsp. }
  destruct (Z.eqb_spec (uchar (cplane k1)) (uchar (cplane k2))) as [Ep|Ep]; cbn [negb].
  2: { apply Hskip. intros (a & b' & Ea & Eb & Hpl). congruence. }
  assert (Hsp : same_plane cl c1 c2) by (exists k1, k2; auto).
  rewrite (at_ok flags c2 true) by lia. cbn [obind].
  assert (Hfl : (if nth c2 flags true then Ok false else do f1 <- at_ flags c1; Ok (negb f1))
    = Ok (negb (nth c2 flags true) && negb (nth c1 flags true))).
  { destruct (nth c2 flags true); cbn [negb andb]; [reflexivity|].
    rewrite (at_ok flags c1 true) by lia. reflexivity. }
  rewrite Hfl. cbn [obind].
  destruct (negb (nth c2 flags true) && negb (nth c1 flags true)) eqn:Eoff.
  { apply Hskip. intros _. left. apply andb_true_iff in Eoff. rewrite !negb_true_iff in Eoff.
    split; tauto. }
  rewrite !ushort_small by lia.
  destruct (merge_allowed_spec n b lg c1 c2 I Hne Hc1 Hc2) as (al & Eal & Hal).
  rewrite Eal. cbn [obind]. destruct al; cbn [negb].
  2: { apply Hskip. intros _. right. apply Hal. reflexivity. }
  destruct (f w k1 k2) as [w' m]. destruct m.
  - destruct (merge_spec n b lg c1 c2 I Hne Hc1 Hc2) as [[Hbl _]|[_ (b' & Em & I')]].
    { apply Hal in Hbl. discriminate. }
    rewrite Em. cbn [obind]. eexists; split; [reflexivity|].
    exists (lg ++ [(OMerge c1 c2, ADone)]). split; [exact I'|]. split; [|split; [|split]].
    + intros x y. rewrite !in_app_iff. simpl. rewrite H1. split.
      * intros [H|[H|[]]]; [auto|]. inversion H; subst; auto.
      * intros [H|[H|[]]]; [auto|]. inversion H; subst; auto.
    + intros x y. rewrite prohibited_app_other by discriminate. apply H2.
    + intros x y a Hin. apply in_app_or in Hin. destruct Hin as [Hin|[Hin|[]]]; [eapply H3; exact Hin|].
      inversion Hin; subst. split; [exact Hsp|exact Hear].
    + intros x y [Hp|[-> ->]] Hxy Hs.
      * destruct (H4 x y Hp Hxy Hs) as [(a & Ha)|[H|H]]; [left; exists a; apply in_or_app; auto|auto|].
        right; right. apply blocked_mono, H.
      * left. exists true. apply in_or_app; right; left; reflexivity.
  - cbn [obind]. eexists; split; [reflexivity|].
    exists lg. split; [exact I|]. split; [|split; [|split]].
    + intros x y. rewrite !in_app_iff. simpl. rewrite H1. split; [auto|].
      intros [H|[H|[]]]; [auto|]. discriminate.
    + exact H2.
    + intros x y a Hin. apply in_app_or in Hin. destruct Hin as [Hin|[Hin|[]]]; [eapply H3; exact Hin|].
      inversion Hin; subst. split; [exact Hsp|exact Hear].
    + intros x y [Hp|[-> ->]] Hxy Hs.
      * destruct (H4 x y Hp Hxy Hs) as [(a & Ha)|H]; [left; exists a; apply in_or_app; auto|auto].
      * left. exists false. apply in_or_app; right; left; reflexivity.
Qed.

Lemma mrg_inv_mono (P Q : nat -> nat -> Prop) st : (forall x y, earlier order x y -> Q x y -> P x y) -> mrg_inv P st -> mrg_inv Q st.
Proof.
  intros H. destruct st as [[w b] tr]. intros (lg & I & H1 & H2 & H3 & H4).
  exists lg. split; [exact I|]. split; [exact H1|]. split; [exact H2|]. split; [exact H3|].
  intros x y Hq Hxy Hs. apply H4; auto.
Qed.

Lemma mrg_row (f : alg) c1 (P : nat -> nat -> Prop) : forall rest pre st,
  (forall c2, In c2 rest -> earlier order c1 c2 /\ c1 <> c2) ->
  mrg_inv (fun x y => P x y \/ (x = c1 /\ In y pre)) st ->
  exists st', for_ rest (merge_one f cl flags c1) st = Ok st' /\
     mrg_inv (fun x y => P x y \/ (x = c1 /\ In y (pre ++ rest))) st'.
Proof.
  induction rest as [|c2 rest IH]; intros pre st He H; simpl.
  - exists st. split; [reflexivity|]. rewrite app_nil_r. exact H.
  - destruct (He c2 (or_introl eq_refl)) as [He2 Hne].
    destruct (mrg_pair_step f c1 c2 _ st He2 Hne H) as (st1 & E1 & H1). rewrite E1. cbn [obind].
    destruct (IH (pre ++ [c2]) st1) as (st' & E & H').
    + intros c Hc; apply He; right; exact Hc.
    + eapply mrg_inv_mono; [|exact H1]. cbv beta. intros x y _ [Hp|[-> Hy]]; auto.
      apply in_app_or in Hy. destruct Hy as [Hy|[<-|[]]]; auto.
    + exists st'. split; [exact E|]. rewrite <- app_assoc in H'. exact H'.
Qed.

Lemma merge_rows_ok (f : alg) : forall rest pre st, order = pre ++ rest ->
  mrg_inv (fun x y => In x pre) st ->
  exists st', merge_rows f cl flags rest st = Ok st' /\ mrg_inv (fun x y => True) st'.
Proof.
  induction rest as [|c1 rest IH]; intros pre st EO H; simpl.
  - exists st. split; [reflexivity|]. eapply mrg_inv_mono; [|exact H]. intros x y Hxy _.
    rewrite app_nil_r in EO. rewrite <- EO. destruct Hxy as (l1 & l2 & l3 & ->).
    apply in_or_app; right; left; reflexivity.
  - assert (Hrest : forall c2, In c2 rest -> earlier order c1 c2 /\ c1 <> c2).
    { intros c2 Hc2. destruct (in_split c2 rest Hc2) as (r1 & r2 & Er). split.
      - exists pre, r1, r2. rewrite EO, Er. reflexivity.
      - intros ->. rewrite EO in Hnodup. apply NoDup_remove_2 in Hnodup.
        apply Hnodup. apply in_or_app; right; exact Hc2. }
    destruct (mrg_row f c1 (fun x y => In x pre) rest [] st Hrest) as (st1 & E1 & H1).
    + eapply mrg_inv_mono; [|exact H]. cbv beta. intros x y _ [Hp|[_ []]]; exact Hp.
    + rewrite E1. cbn [obind]. destruct (IH (pre ++ [c1]) st1) as (st' & E & H').
      * rewrite <- app_assoc. exact EO.
      * eapply mrg_inv_mono; [|exact H1]. cbv beta. simpl. intros x y Hxy Hin.
        apply in_app_or in Hin. destruct Hin as [Hin|[<-|[]]]; [auto|]. right. split; [reflexivity|].
        (* y after c1 in order, c1 occurs once *)
        destruct Hxy as (l1 & l2 & l3 & E2).
        assert (Hy : In y (l2 ++ y :: l3)) by (apply in_or_app; right; left; reflexivity).
        enough (l2 ++ y :: l3 = rest) by congruence.
        rewrite E2 in EO. clear - EO Hnodup E2.
        assert (ND : NoDup (l1 ++ c1 :: l2 ++ y :: l3)) by (rewrite <- E2; exact Hnodup).
        clear E2 Hnodup. revert pre EO; induction l1 as [|a l1 IHl]; intros pre EO; destruct pre as [|p pre]; simpl in *.
        -- inversion EO; reflexivity.
        -- inversion EO; subst. exfalso. inversion ND as [|? ? Hni _]; subst. apply Hni.
           rewrite H1. apply in_or_app; right; left; reflexivity.
        -- inversion EO; subst. exfalso. inversion ND as [|? ? Hni _]; subst. apply Hni.
           apply in_or_app; right; left; reflexivity.
        -- inversion EO; subst. inversion ND; subst. eapply IHl; eauto.
      * exists st'. split; [exact E|exact H'].
Qed.
End Loops.

End Iter.
