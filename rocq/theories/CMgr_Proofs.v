From Coq Require Import ZifyNat.
From Verif Require Import Base MultiMap CMergeBK_Model CMergeBK_Spec CMergeBK_Proofs CMergeBK_Hist CMergeBK_Combine
  CMgr_Model CMgr_Spec.

Lemma ushort_small n : n < Z.to_nat 65536 -> ushort n = n.
Proof. intros H. unfold ushort. rewrite Z.mod_small by lia. lia. Qed.

Lemma sorted_insert {A} (R : A -> A -> Prop) l1 x l2 :
  StronglySorted R (l1 ++ l2) -> Forall (fun y => R y x) l1 -> Forall (R x) l2 ->
  StronglySorted R (l1 ++ x :: l2).
Proof.
  induction l1 as [|a l1 IH]; simpl; intros S F1 F2.
  - constructor; assumption.
  - inversion S as [|? ? S' FA]; subst. inversion F1; subst. constructor.
    + apply IH; assumption.
    + apply Forall_app in FA. destruct FA. apply Forall_app. split; [assumption|]. constructor; assumption.
Qed.

Lemma foreach_app {A S} (l1 l2 : list A) (body : S -> A -> outcome S) s :
  foreach (l1 ++ l2) body s = obind (foreach l1 body s) (foreach l2 body).
Proof.
  revert s; induction l1 as [|a l1 IH]; intros s; simpl; [reflexivity|].
  destruct (body s a); simpl; auto.
Qed.

Section Prio.
Context {hit extra W : Type}.
Notation cluster := (cluster hit extra).
Variable cfg : config hit extra W.

Lemma prio_vals_length w (cl : list cluster) : length (snd (prio_vals cfg w cl)) = length cl.
Proof.
  induction cl as [|c cl IH]; simpl; [reflexivity|].
  destruct (prio_vals cfg w cl) as [w1 ps]. destruct (ask_prio cfg w1 c) as [w2 p].
  simpl in *. congruence.
Qed.

Lemma prio_vals_skipn w (cl : list cluster) k :
  snd (prio_vals cfg w (skipn k cl)) = skipn k (snd (prio_vals cfg w cl)).
Proof.
  revert k; induction cl as [|c cl IH]; intros [|k]; simpl; try reflexivity.
  rewrite IH. destruct (prio_vals cfg w cl) as [w1 ps].
  destruct (ask_prio cfg w1 c) as [w2 p]. reflexivity.
Qed.

Definition pord (a b : Z * nat) : Prop := (fst a > fst b)%Z \/ (fst a = fst b /\ snd a < snd b).

Lemma skipn_cons_nth {A} (l : list A) k d : k < length l -> skipn k l = nth k l d :: skipn (S k) l.
Proof.
  revert k; induction l as [|x l IH]; intros k H; simpl in H; [lia|].
  destruct k; [reflexivity|]. simpl. apply IH. lia.
Qed.

Lemma compute_priority_spec w (cl : list cluster) :
  exists pr planes, compute_priority cfg w cl = Ok (fst (prio_vals cfg w cl), (pr, planes)) /\
    let ps := snd (prio_vals cfg w cl) in
    (forall p i, In (p, i) pr <-> i < length cl /\ p = nth i ps 0%Z /\ (0 < p)%Z) /\
    NoDup (map snd pr) /\
    StronglySorted pord (rev pr) /\
    NoDup planes /\
    (forall z, In z planes <-> exists i c, nth_error cl i = Some c /\ (0 < nth i ps 0%Z)%Z /\ z = uchar (cplane c)).
Proof.
  set (n := length cl). set (ps := snd (prio_vals cfg w cl)).
  destruct (for_range_inv (fun i (st : W * (list (Z * nat) * list Z)) =>
     let '(w', (pr, planes)) := st in
     w' = fst (prio_vals cfg w (skipn (n - i) cl)) /\
     (forall p j, In (p, j) pr <-> n - i <= j < n /\ p = nth j ps 0%Z /\ (0 < p)%Z) /\
     NoDup (map snd pr) /\ mm_sorted pr /\ StronglySorted pord (rev pr) /\ NoDup planes /\
     (forall z, In z planes <-> exists j c, n - i <= j /\ nth_error cl j = Some c /\ (0 < nth j ps 0%Z)%Z /\ z = uchar (cplane c)))
     (prio_step cfg cl) 0 n (w, ([], []))) as ((w' & pr & planes) & E & H1 & H2 & H3 & H4 & H5 & H6 & H7).
  - lia.
  - replace (n - 0) with n by lia. unfold n at 1. rewrite skipn_all. simpl.
    split; [reflexivity|]. split; [intros p j; split; [intros []|lia]|].
    split; [constructor|]. split; [constructor|]. split; [constructor|]. split; [constructor|].
    intros z. split; [intros []|]. intros (j & c & Hj & Hc & _). assert (j < length cl) by (apply nth_error_Some; congruence). unfold n in Hj. lia.
  - intros i (w' & pr & planes) Hi (H1 & H2 & H3 & H4 & H5 & H6 & H7).
    set (k := n - i - 1). assert (Hk : k < n) by (unfold k; lia).
    assert (Hki : n - i = S k) by (unfold k; lia). rewrite Hki in *.
    destruct (nth_error cl k) as [c|] eqn:Ec; [|apply nth_error_None in Ec; fold n in Ec; lia].
    unfold prio_step. fold n. fold k. unfold at_. rewrite Ec. cbn [obind].
    assert (Hsk : skipn k cl = c :: skipn (S k) cl).
    { rewrite (skipn_cons_nth cl k c) by exact Hk. f_equal. apply nth_error_nth. exact Ec. }
    assert (Hn' : n - S i = k) by (unfold k; lia).
    assert (Hval : exists w2 p, ask_prio cfg w' c = (w2, p)
              /\ w2 = fst (prio_vals cfg w (skipn k cl)) /\ p = nth k ps 0%Z).
    { pose proof (prio_vals_skipn w cl k) as Hv. fold ps in Hv.
      rewrite Hsk in Hv |- *. cbn [prio_vals] in *. destruct (prio_vals cfg w (skipn (S k) cl)) as [w1 ps1]. cbn [fst snd] in H1. subst w'.
      destruct (ask_prio cfg w1 c) as [w2 p]. simpl in *.
      exists w2, p. repeat split.
      assert (Hl : length ps = n) by apply prio_vals_length.
      rewrite (skipn_cons_nth ps k 0%Z) in Hv by lia. inversion Hv; reflexivity. }
    destruct Hval as (w2 & p & Ev & Hw2 & Hp). rewrite Ev.
    eexists; split; [reflexivity|]. rewrite Hn'. cbn beta iota.
    assert (Hfresh : forall q j, In (q, j) pr -> k < j) by (intros q j Hj; apply H2 in Hj; lia).
    destruct (Z.ltb_spec 0 p) as [Lp|Lp].
    + split; [exact Hw2|]. split; [|split; [|split; [|split; [|split]]]].
      * intros q j. rewrite mm_insert_in, H2. split.
        -- intros [Hq|Hq]; [inversion Hq; subst; repeat split; try lia; auto|]. repeat split; try lia; tauto.
        -- intros (Hj & Hq & Hq0). destruct (Nat.eq_dec j k) as [->|Hjk]; [left; congruence|right; repeat split; try lia; assumption].
      * eapply Permutation_NoDup; [apply Permutation_map, Permutation_sym, mm_insert_perm|].
        simpl. constructor; [|exact H3]. intros Hin. apply in_map_iff in Hin. destruct Hin as ([q j] & Hj & Hin).
        simpl in Hj; subst j. apply Hfresh in Hin. lia.
      * apply mm_insert_sorted, H4.
      * destruct (mm_insert_split p k pr H4) as (l1 & l2 & E1 & E2 & F1 & F2).
        rewrite E2, rev_app_distr. simpl. rewrite <- app_assoc. simpl.
        rewrite E1, rev_app_distr in H5. apply sorted_insert; [exact H5| |].
        -- apply Forall_rev. eapply Forall_impl; [|exact F2]. cbv beta; intros x Hx. left; simpl; lia.
        -- apply Forall_rev. apply Forall_forall. intros [q j] Hx.
           rewrite Forall_forall in F1. pose proof (F1 _ Hx) as Hle. simpl in Hle.
           assert (k < j) by (apply (Hfresh q j); rewrite E1; apply in_or_app; left; exact Hx).
           unfold pord; simpl. destruct (Z.eq_dec p q); [right; split; lia|left; lia].
      * destruct (existsb _ planes) eqn:Ex; [exact H6|]. constructor; [|exact H6].
        intros Hin. assert (existsb (Z.eqb (uchar (cplane c))) planes = true); [|congruence].
        apply existsb_exists. eexists; split; [exact Hin|apply Z.eqb_refl].
      * intros z. assert (Hz : In z (if existsb (Z.eqb (uchar (cplane c))) planes then planes else uchar (cplane c) :: planes) <-> z = uchar (cplane c) \/ In z planes).
        { destruct (existsb _ planes) eqn:Ex; simpl; [|intuition].
          apply existsb_exists in Ex. destruct Ex as (y & Hy & Ey). apply Z.eqb_eq in Ey. subst y.
          split; [auto|]. intros [->|Hz]; auto. }
        rewrite Hz, H7. split.
        -- intros [->|(j & d & Hj & Hd)]; [exists k, c; repeat split; auto; congruence|exists j, d; repeat split; try lia; tauto].
        -- intros (j & d & Hj & Hd & Hq & ->). destruct (Nat.eq_dec j k) as [->|Hjk].
           ++ left. congruence.
           ++ right. exists j, d. repeat split; try lia; auto.
    + split; [exact Hw2|]. split; [|split; [|split; [|split; [|split]]]]; try assumption.
      * intros q j. rewrite H2. split; intros (Hj & Hq & Hq0); repeat split; try lia; try assumption.
        destruct (Nat.eq_dec j k) as [->|Hjk]; [exfalso; subst; lia|lia].
      * intros z. rewrite H7. split; intros (j & d & Hj & Hd & Hq & ->).
        -- exists j, d. repeat split; try lia; auto.
        -- exists j, d. repeat split; auto. destruct (Nat.eq_dec j k) as [->|Hjk]; [exfalso; rewrite <- Hp in Hq; lia|lia].
  - rewrite Nat.sub_diag in *. simpl skipn in H1. exists pr, planes. unfold compute_priority. fold n. rewrite E, H1.
    split; [reflexivity|]. fold ps. split; [|split; [|split; [|split]]]; try assumption.
    + intros p i. rewrite H2. intuition lia.
    + intros z. rewrite H7. split.
      * intros (j & c & _ & Hc). exists j, c. exact Hc.
      * intros (j & c & Hc). exists j, c. split; [lia|exact Hc].
Qed.
End Prio.
