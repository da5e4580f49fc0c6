From Verif Require CMComb_Proofs.
From Verif Require Import Base Util SortedObj_Model SortedObj_Spec SortedObj_Proofs PT_Model PT_Spec PT_Proofs PT_Ids PT_Merge.
Notation NoDup_app_intro := CMComb_Proofs.NoDup_app_intro.

Section O.
Context (w : world) (Hw : wf w).
Lemma origin_up p t m : branch_of w p t -> origin w t m -> origin w p m.
Proof using Hw.
  intros Hp (r & A & B & C). apply below_last in A. destruct A as [->|(p' & A1 & A2)]; [exfalso; exact (C p Hp)|]. rewrite (parent_unique w Hw p p' t Hp A2). exists r. auto.
Qed.
Lemma origin_root t n : starts_at w t n -> (forall p, ~ branch_of w p t) -> origin w t n.
Proof. intros A B. exists t. split; [apply rt_refl|auto]. Qed.
Lemma branch_at t T t' T' i n : w_trk w t = Some T -> w_trk w t' = Some T' -> nth_error (t_nodes T) (S i) = Some n -> nth_error (t_nodes T') 0 = Some n -> t <> t' -> branch_of w t t'.
Proof. intros E E' En En' Hne. split; [exact Hne|]. exists T, T', n. split; [exact E|]. split; [exact E'|]. split; [apply tl_nth; eauto|rewrite hd_nth; exact En']. Qed.
Lemma same_node t T t' T' n m : w_trk w t = Some T -> w_trk w t' = Some T' -> In n (t_nodes T) -> In n (t_nodes T') -> origin w t m -> origin w t' m.
Proof using Hw.
  intros E E' Hn Hn' Ho. destruct (Nat.eq_dec t t') as [<-|Hne]; [exact Ho|]. apply In_nth_error in Hn, Hn'. destruct Hn as ([|i] & Hi), Hn' as ([|i'] & Hi').
  - destruct (node_live w Hw t T 0 n E Hi) as (o & Eo & Hb). assert (P := parent_prev w Hw t T n o E Hi Eo). assert (P' := parent_prev w Hw t' T' n o E' Hi' Eo). destruct (o_prev o) as [s|].
    + exact (origin_below w _ _ _ (origin_up _ _ _ P Ho) (rt_step _ _ _ _ P')).
    + assert (S1 : starts_at w t n) by (exists T; rewrite hd_nth; auto). assert (S2 : starts_at w t' n) by (exists T'; rewrite hd_nth; auto). rewrite (origin_unique w Hw t m n Ho (origin_root t n S1 P)). exact (origin_root t' n S2 P').
  - assert (B := branch_at t' T' t T i' n E' E Hi' Hi (not_eq_sym Hne)). exact (origin_up _ _ _ B Ho).
  - assert (B := branch_at t T t' T' i n E E' Hi Hi' Hne). exact (origin_below w _ _ _ Ho (rt_step _ _ _ _ B)).
  - assert (X := share w Hw t T i t' T' (S i') n E E' Hi Hi' Hne). discriminate.
Qed.
Lemma origin_eq_of_node t T t' T' n m m' : w_trk w t = Some T -> w_trk w t' = Some T' -> In n (t_nodes T) -> In n (t_nodes T') -> origin w t m -> origin w t' m' -> m = m'.
Proof using Hw. intros E E' Hn Hn' Ho Ho'. exact (origin_unique w Hw t' m m' (same_node t T t' T' n m E E' Hn Hn' Ho) Ho'). Qed.
End O.

Section X.
Context (w : world) (Hw : wf w) (t1 t2 : nat) (T1 T2 : ptrack) (E1 : w_trk w t1 = Some T1) (E2 : w_trk w t2 = Some T2).
Context (n1 n2 : nat) (O1 : origin w t1 n1) (O2 : origin w t2 n2) (Hn12 : n1 <> n2) (Hroot : forall p, ~ branch_of w p t2).
Context (addrs : list nat) (Hna : NoDup addrs) (Hla : length addrs = length (t_nodes T2)) (Hfree : forall a, In a addrs -> w_heap w a = None \/ In a (t_segs T2)).

Lemma t12 : t1 <> t2.
Proof using Hw O1 O2 Hn12. intros e. apply Hn12. apply (origin_unique w Hw t2); [rewrite <- e; exact O1|exact O2]. Qed.
Lemma disj n : In n (t_nodes T1) -> In n (t_nodes T2) -> False.
Proof using Hw E1 E2 O1 O2 Hn12. intros A B. exact (Hn12 (origin_eq_of_node w Hw t1 T1 t2 T2 n n1 n2 E1 E2 A B O1 O2)). Qed.
Lemma start2 : nth_error (t_nodes T2) 0 = Some n2.
Proof using Hw E2 O2 Hroot.
  clear Hla Hn12. destruct (track_len w Hw t2 T2 E2) as (_ & L & _). destruct (nth_error (t_nodes T2) 0) as [n|] eqn:En; [|apply nth_error_None in En; lia]. f_equal. apply (origin_unique w Hw t2 n n2); [|exact O2]. apply origin_root; [exists T2; rewrite hd_nth; auto|exact Hroot].
Qed.
Lemma segs_nodup T t : w_trk w t = Some T -> NoDup (t_segs T).
Proof using Hw.
  clear Hla Hn12. intros E. destruct (track_len w Hw t T E) as (Nd & _ & Ln). rewrite NoDup_nth_error. intros i j Hi Eij. destruct (nth_error (t_segs T) i) as [s|] eqn:Es; [|apply nth_error_None in Es; lia]. symmetry in Eij.
  destruct (seg_at w Hw t T i s E Es) as (_ & a & b & oa & os & ob & H1 & _ & _ & _ & _ & H6 & _ & _ & _ & _ & H11 & _). destruct (seg_at w Hw t T j s E Eij) as (_ & a' & b' & oa' & os' & ob' & H1' & _ & _ & _ & _ & H6' & _ & _ & _ & _ & H11' & _).
  rewrite NoDup_nth_error in Nd. apply Nd; [lia|]. congruence.
Qed.
Definition T' := mkPT (t_nodes T1 ++ t_nodes T2) (t_segs T1 ++ addrs).
Definition trk' (t : nat) : option ptrack := if Nat.eqb t t2 then None else if Nat.eqb t t1 then Some T' else w_trk w t.
Lemma extend_ok : exists w', extend_with w t1 t2 addrs = Ok w' /\ (forall t, w_trk w' t = trk' t) /\ exists s, R (w_heap w') s /\ wfF s (w_par w') trk'.
Proof using Hw E1 E2 O1 O2 Hn12 Hroot Hna Hla Hfree.
  destruct (wf_F w Hw) as (HR & [FK FT FS]). set (s := forest_of (w_heap w)) in *.
  assert (S2 := start2). destruct (track_len w Hw t1 T1 E1) as (Nd1 & L1 & Ln1). destruct (track_len w Hw t2 T2 E2) as (Nd2 & L2 & Ln2).
  unfold extend_with. cbn [deref_t]. rewrite E2. cbn [obind]. unfold front, idx. rewrite S2. cbn [obind]. destruct (node_live w Hw t2 T2 0 n2 E2 S2) as (o2 & Eo2 & Hb2). rewrite (prev_ok w n2 o2 Eo2). cbn [obind].
  assert (P := parent_prev w Hw t2 T2 n2 o2 E2 S2 Eo2). destruct (o_prev o2) as [sg|] eqn:Ep2; [exfalso; exact (Hroot _ P)|]. clear P.
  destruct (FT t1 T1 E1) as (_ & _ & _ & F1n & F1s). destruct (FT t2 T2 E2) as (_ & _ & _ & F2n & F2s).
  destruct (delete_ok (t_segs T2) (w_heap w) s HR (segs_nodup T2 t2 E2)) as (hd & sd & Ed & Rd & Ld & Bd & Cd).
  { intros x Hx. apply In_nth_error in Hx. destruct Hx as (i & Hi). destruct (F2s i x Hi) as (_ & X & _). exact X. }
  rewrite Ed. cbn [obind].
  assert (NotSeg2 : forall n, is_branch s n = true -> ~ In n (t_segs T2)).
  { intros n Bn Hin. apply In_nth_error in Hin. destruct Hin as (i & Hi). destruct (F2s i n Hi) as (_ & _ & X & _). congruence. }
  destruct (exists_last (l := t_nodes T1)) as (N0 & b & EN); [intros X; rewrite X in L1; cbn in L1; lia|].
  assert (Hbin : In b (t_nodes T1)) by (rewrite EN; apply in_or_app; right; left; reflexivity). destruct (F1n b Hbin) as (Lb & Bb).
  destruct (append_ok t1 (t_nodes T2) addrs (mkW hd (w_par w) (w_trk w)) sd T1 b N0 Rd E1 EN) as (w1 & s1 & E' & R1 & L' & B' & B2' & C' & P' & TT').
  - constructor; [intros X; exact (disj b Hbin X)|exact Nd2].
  - apply Ld. split; [exact Lb|exact (NotSeg2 b Bb)].
  - rewrite Bd; [exact Bb|exact (NotSeg2 b Bb)].
  - intros n Hn. destruct (F2n n Hn) as (X & Y). split; [apply Ld; split; [exact X|exact (NotSeg2 n Y)]|]. split; [rewrite Bd; [exact Y|exact (NotSeg2 n Y)]|].
    intros y Hy. apply Cd in Hy. destruct Hy as (Hy & Hy2 & _). apply In_nth_error in Hn. destruct Hn as (i & Hi). unfold s in Hy. rewrite children_of in Hy. destruct (w_heap w y) as [oy|] eqn:Ey; [|destruct Hy].
    destruct (l_kids _ (wf_linked _ Hw) y oy n Ey Hy) as (on & X1 & X2 & _). destruct i as [|i].
    + assert (n = n2) by congruence. subst n. congruence.
    + destruct (prev_seg w Hw t2 T2 i n on E2 Hi X1) as (sg & Z1 & _ & Z3). assert (sg = y) by congruence. subst sg. exact (Hy2 (nth_error_In _ _ Z3)).
  - exact Hna.
  - intros a Ha X. apply Ld in X. destruct X as (X & Y). destruct (Hfree a Ha) as [Z|Z]; [|exact (Y Z)]. unfold live, s, forest_of in X. rewrite Z in X. congruence.
  - exact Hla.
  - rewrite E'. cbn [obind]. eexists. split; [reflexivity|]. cbn [w_heap w_par w_trk].
    assert (Htrk : forall t, (if t =? t2 then None else w_trk w1 t) = trk' t) by (intros t; unfold trk'; rewrite TT'; reflexivity). split; [exact Htrk|]. exists s1. split; [exact R1|].
    (* no old live object that survives is among the new addresses *)
    assert (NA : forall x, live s x -> ~ In x (t_segs T2) -> ~ In x addrs).
    { intros x Lx Sx Hx. destruct (Hfree x Hx) as [Z|Z]; [unfold live, s, forest_of in Lx; rewrite Z in Lx; congruence|exact (Sx Z)]. }
    assert (Pold : forall x, ~ In x addrs -> w_par w1 x = w_par w x). { intros x Hx. rewrite P'. cbn [w_par]. destruct (existsb (Nat.eqb x) addrs) eqn:Ex; [|reflexivity]. apply existsb_exists in Ex. destruct Ex as (y & Y1 & Y2). apply Nat.eqb_eq in Y2. subst y. contradiction. }
    assert (Pnew : forall x, In x addrs -> w_par w1 x = t1). { intros x Hx. rewrite P'. destruct (existsb (Nat.eqb x) addrs) eqn:Ex; [reflexivity|]. exfalso. apply not_true_iff_false in Ex. apply Ex. apply existsb_exists. exists x. split; [exact Hx|apply Nat.eqb_refl]. }
    assert (Brold : forall x, live s x -> ~ In x (t_segs T2) -> is_branch s1 x = is_branch s x). { intros x Lx Sx. rewrite B' by exact (NA x Lx Sx). apply Bd. exact Sx. }
    assert (Nnode : forall n, In n (t_nodes T2) \/ n = b -> live s n /\ is_branch s n = true) by (intros n [Hn| ->]; [exact (F2n n Hn)|split; assumption]).
    split.
    + (* kinds *) intros x y Hy. apply C' in Hy. destruct Hy as [Hy|(i & [(X & Y)|(X & Y)])].
      * apply Cd in Hy. destruct Hy as (Hy & Hx2 & Hy2). assert (Lx : live s x) by exact (child_parent_live _ _ _ Hy). destruct HR as (prv & _ & HI). assert (Ly : live s y) by exact (i_live _ _ HI _ _ Hy). rewrite !Brold by assumption. exact (FK x y Hy).
      * rewrite (B2' y) by (exact (nth_error_In _ _ Y)). assert (Hx : In x (t_nodes T2) \/ x = b) by (apply nth_error_In in X; destruct X as [<-|X]; auto). destruct (Nnode x Hx) as (Lx & Bx). rewrite Brold; [rewrite Bx; reflexivity|exact Lx|exact (NotSeg2 x Bx)].
      * rewrite (B2' x) by (exact (nth_error_In _ _ X)). destruct (F2n y (nth_error_In _ _ Y)) as (Ly & By). rewrite Brold; [rewrite By; reflexivity|exact Ly|exact (NotSeg2 y By)].
    + (* tracks *) intros t T0 Et. unfold trk' in Et. destruct (Nat.eqb_spec t t2) as [->|Ht2]; [discriminate|].
      assert (Nok : forall n, live s n -> is_branch s n = true -> live s1 n /\ is_branch s1 n = true).
      { intros n Ln Bn. split; [apply L'; left; apply Ld; split; [exact Ln|exact (NotSeg2 n Bn)]|rewrite Brold; [exact Bn|exact Ln|exact (NotSeg2 n Bn)]]. }
      assert (Sok : forall t T0 i sg, w_trk w t = Some T0 -> t <> t2 -> nth_error (t_segs T0) i = Some sg -> w_par w1 sg = t /\ live s1 sg /\ is_branch s1 sg = false /\ exists a b, nth_error (t_nodes T0) i = Some a /\ nth_error (t_nodes T0) (S i) = Some b /\ In sg (children s1 a) /\ In b (children s1 sg)).
      { clear t T0 Et Ht2. intros t T0 i sg Et Ht2 Hsg. destruct (FT t T0 Et) as (_ & _ & _ & G1 & G2). destruct (G2 i sg Hsg) as (X1 & X2 & X3 & a & c & X4 & X5 & X6 & X7).
        assert (Ns : ~ In sg (t_segs T2)) by (intros X; apply In_nth_error in X; destruct X as (j & Hj); destruct (F2s j sg Hj) as (Y & _); congruence).
        split; [rewrite Pold by exact (NA sg X2 Ns); exact X1|]. split; [apply L'; left; apply Ld; auto|]. split; [rewrite Brold by assumption; exact X3|]. exists a, c. split; [exact X4|]. split; [exact X5|]. destruct (G1 a (nth_error_In _ _ X4)) as (La & Ba). destruct (G1 c (nth_error_In _ _ X5)) as (Lc & Bc).
        split; apply C'; left; apply Cd; (split; [assumption|]); split; auto; apply NotSeg2; assumption. }
      destruct (Nat.eqb_spec t t1) as [->|Ht1].
      * injection Et as <-. unfold T'. cbn [t_nodes t_segs]. split; [|split; [|split; [|split]]].
        -- apply NoDup_app_intro; auto. intros x X Y. exact (disj x X Y).
        -- rewrite app_length. lia.
        -- rewrite !app_length. lia.
        -- intros n Hn. apply in_app_or in Hn. destruct Hn as [Hn|Hn]; [destruct (F1n n Hn)|destruct (F2n n Hn)]; apply Nok; assumption.
        -- intros i sg Hi. destruct (Nat.lt_ge_cases i (length (t_segs T1))) as [Hlt|Hge].
           ++ rewrite nth_error_app1 in Hi by exact Hlt. destruct (Sok t1 T1 i sg E1 Ht2 Hi) as (X1 & X2 & X3 & a & c & X4 & X5 & X6 & X7). split; [exact X1|]. split; [exact X2|]. split; [exact X3|]. exists a, c. rewrite !nth_error_app1 by lia. auto.
           ++ rewrite nth_error_app2 in Hi by exact Hge. set (j := i - length (t_segs T1)) in *. assert (Hj : j < length addrs) by (apply nth_error_Some; congruence). split; [exact (Pnew sg (nth_error_In _ _ Hi))|]. split; [apply L'; right; exact (nth_error_In _ _ Hi)|]. split; [exact (B2' sg (nth_error_In _ _ Hi))|].
              destruct (nth_error (t_nodes T2) j) as [c|] eqn:Ec; [|apply nth_error_None in Ec; lia].
              destruct (nth_error (b :: t_nodes T2) j) as [a|] eqn:Ea; [|apply nth_error_None in Ea; cbn in Ea; lia].
              exists a, c. split; [|split; [|split]].
              ** rewrite EN, <- app_assoc. assert (LN : length (t_nodes T1) = S (length N0)) by (rewrite EN, app_length; cbn; lia). rewrite nth_error_app2 by lia. replace (i - length N0) with j by lia. exact Ea.
              ** rewrite nth_error_app2 by lia. replace (S i - length (t_nodes T1)) with j by lia. exact Ec.
              ** apply C'. right. exists j. left. split; [exact Ea|exact Hi].
              ** apply C'. right. exists j. right. split; [exact Hi|exact Ec].
      * destruct (FT t T0 Et) as (G1 & G2 & G3 & G4 & _). split; [exact G1|]. split; [exact G2|]. split; [exact G3|]. split; [intros n Hn; destruct (G4 n Hn); apply Nok; assumption|]. intros i sg Hi. exact (Sok t T0 i sg Et Ht2 Hi).
    + (* segments *) intros sg Lsg Bsg. destruct (in_dec Nat.eq_dec sg addrs) as [Hin|Hnin].
      * rewrite (Pnew sg Hin). exists T'. split; [|cbn; apply in_or_app; right; exact Hin]. unfold trk'. assert (X := t12). destruct (Nat.eqb_spec t1 t2); [congruence|]. rewrite Nat.eqb_refl. reflexivity.
      * apply L' in Lsg. destruct Lsg as [Lsg|Lsg]; [|contradiction]. apply Ld in Lsg. destruct Lsg as (Lsg & Ns). rewrite Brold in Bsg by assumption. rewrite Pold by exact Hnin. destruct (FS sg Lsg Bsg) as (T0 & X & Y).
        assert (Hp : w_par w sg <> t2) by (intros Z; rewrite Z in X; assert (T0 = T2) by congruence; subst T0; contradiction). unfold trk'. destruct (Nat.eqb_spec (w_par w sg) t2); [congruence|]. destruct (Nat.eqb_spec (w_par w sg) t1) as [e|]; [|eauto]. exists T'. split; [reflexivity|]. rewrite e in X. assert (T0 = T1) by congruence. subst T0. cbn. apply in_or_app. left. exact Y.
Qed.

(** the tracks of the world after ExtendWith *)
Context (w' : world) (Htrk : forall t, w_trk w' t = trk' t).
Lemma trk'_old t : t <> t1 -> t <> t2 -> trk' t = w_trk w t.
Proof. intros A B. unfold trk'. destruct (Nat.eqb_spec t t2); [congruence|]. destruct (Nat.eqb_spec t t1); [congruence|reflexivity]. Qed.
Lemma trk'_1 : trk' t1 = Some T'.
Proof using Hw E1 E2 O1 O2 Hn12. unfold trk'. assert (X := t12). destruct (Nat.eqb_spec t1 t2); [congruence|]. rewrite Nat.eqb_refl. reflexivity. Qed.
Lemma trk'_2 : trk' t2 = None.
Proof. unfold trk'. rewrite Nat.eqb_refl. reflexivity. Qed.
Lemma hd1 : hd_error (t_nodes T1 ++ t_nodes T2) = hd_error (t_nodes T1).
Proof using Hw E1. clear Hla Hn12. destruct (track_len w Hw t1 T1 E1) as (_ & L & _). destruct (t_nodes T1); [cbn in L; lia|reflexivity]. Qed.
(** what branches off what: t1 takes over the branches of t2, and the other tracks starting where t2 starts *)
Lemma branch_new a b : branch_of w' a b -> b <> t2 /\ a <> t2 /\ (branch_of w a b \/ a = t1 /\ exists Tb n, w_trk w b = Some Tb /\ hd_error (t_nodes Tb) = Some n /\ In n (t_nodes T2)).
Proof using Hw E1 E2 O1 O2 Hn12 Htrk Hla.
  intros (Hne & Ta & Tb & n & EA & EB & Hin & Hd). rewrite Htrk in EA, EB. assert (A2 : a <> t2) by (intros X; rewrite X, trk'_2 in EA; discriminate). assert (B2 : b <> t2) by (intros X; rewrite X, trk'_2 in EB; discriminate). split; [exact B2|]. split; [exact A2|].
  assert (EB' : exists Tb', w_trk w b = Some Tb' /\ hd_error (t_nodes Tb') = Some n).
  { destruct (Nat.eq_dec b t1) as [X|X]; [|rewrite (trk'_old b X B2) in EB; eauto]. rewrite X, trk'_1 in EB. injection EB as <-. unfold T' in Hd. cbn in Hd. rewrite hd1 in Hd. exists T1. rewrite X. auto. }
  destruct EB' as (Tb' & EB1 & EB2).
  destruct (Nat.eq_dec a t1) as [X|X].
  - rewrite X, trk'_1 in EA. injection EA as <-. unfold T' in Hin. cbn in Hin. assert (Hin' : In n (tl (t_nodes T1)) \/ In n (t_nodes T2)). { destruct (t_nodes T1) as [|x l] eqn:En; [right; cbn in Hin; destruct (t_nodes T2); [destruct Hin|right; exact Hin]|]. cbn in *. apply in_app_or. exact Hin. }
    destruct Hin' as [Hin'|Hin']; [left|right; split; [exact X|eauto]]. split; [exact Hne|]. exists T1, Tb', n. rewrite X. auto.
  - left. split; [exact Hne|]. rewrite (trk'_old a X A2) in EA. exists Ta, Tb', n. auto.
Qed.
Lemma branch_old a b : branch_of w a b -> a <> t2 -> branch_of w' a b.
Proof using Hw E1 E2 O1 O2 Hn12 Hroot Htrk Hla.
  intros Hbr A2. assert (B2 : b <> t2) by (intros X; apply (Hroot a); rewrite <- X; exact Hbr). destruct Hbr as (Hne & Ta & Tb & n & EA & EB & Hin & Hd).
  split; [exact Hne|]. exists (match trk' a with Some x => x | None => Ta end), (match trk' b with Some x => x | None => Tb end), n. rewrite !Htrk. split; [|split; [|split]].
  - destruct (Nat.eq_dec a t1) as [X|X]; [rewrite X, trk'_1; reflexivity|rewrite (trk'_old a X A2), EA; reflexivity].
  - destruct (Nat.eq_dec b t1) as [X|X]; [rewrite X, trk'_1; reflexivity|rewrite (trk'_old b X B2), EB; reflexivity].
  - destruct (Nat.eq_dec a t1) as [X|X]; [|rewrite (trk'_old a X A2), EA; exact Hin]. rewrite X, trk'_1. unfold T'. cbn. assert (Ta = T1) by congruence. subst Ta. destruct (t_nodes T1); [destruct Hin|]. cbn in *. apply in_or_app. left. exact Hin.
  - destruct (Nat.eq_dec b t1) as [X|X]; [|rewrite (trk'_old b X B2), EB; exact Hd]. rewrite X, trk'_1. unfold T'. cbn. rewrite hd1. assert (Tb = T1) by congruence. subst Tb. exact Hd.
Qed.
Lemma branch_taken b Tb n : w_trk w b = Some Tb -> b <> t2 -> hd_error (t_nodes Tb) = Some n -> In n (t_nodes T2) -> branch_of w' t1 b.
Proof using Hw E1 E2 O1 O2 Hn12 Htrk Hla.
  intros EB B2 Hd Hin. assert (B1 : b <> t1). { intros X. rewrite X in EB. assert (Tb = T1) by congruence. subst Tb. apply (disj n); [|exact Hin]. rewrite hd_nth in Hd. exact (nth_error_In _ _ Hd). }
  split; [congruence|]. exists T', Tb, n. rewrite !Htrk. split; [apply trk'_1|]. split; [rewrite (trk'_old b B1 B2); exact EB|]. split; [|exact Hd]. unfold T'. cbn. destruct (track_len w Hw t1 T1 E1) as (_ & L & _). destruct (t_nodes T1) as [|x l]; [cbn in L; lia|]. cbn. apply in_or_app. right. exact Hin.
Qed.
(** depth in the new world: the tree of t2 moves below t1 *)
Lemma tree' : exists depth : nat -> nat, forall a b, branch_of w' a b -> depth a < depth b.
Proof using Hw E1 E2 O1 O2 Hn12 Hroot Htrk Hla.
  destruct (wf_tree _ Hw) as (depth & Hd).
  set (in2 := fun u => match get_root (S (depth u)) w u with Ok r => match w_trk w r with Some Rr => match hd_error (t_nodes Rr) with Some n => Nat.eqb n n2 | None => false end | None => false end | _ => false end).
  assert (Hin2 : forall u U, w_trk w u = Some U -> (in2 u = true <-> origin w u n2)).
  { intros u U EU. destruct (get_root_ok w Hw depth Hd (S (depth u)) u U EU (le_n _)) as (r & n & G1 & G2 & (Rr & G3 & G4) & G5). unfold in2. rewrite G1, G3, G4. assert (Ou : origin w u n) by (exists r; split; [exact G2|]; split; [exists Rr; auto|exact G5]). rewrite Nat.eqb_eq. split; [intros <-; exact Ou|intros X; exact (origin_unique w Hw u n n2 Ou X)]. }
  exists (fun u => if in2 u then S (depth t1 + depth u) else depth u). intros a b Hab. destruct (branch_new a b Hab) as (B2 & A2 & [H|(-> & Tb & n & EB & Hdn & Hin)]).
  - assert (D := Hd a b H). destruct H as (Hne & Ta & Tb & n & EA & EB & H). assert (Hbr : branch_of w a b) by (split; [exact Hne|exists Ta, Tb, n; auto]).
    assert (in2 a = in2 b) as ->. { destruct (in2 b) eqn:X.
      - apply (Hin2 a Ta EA). apply (origin_up w Hw a b n2 Hbr). apply (Hin2 b Tb EB). exact X.
      - destruct (in2 a) eqn:Y; [|reflexivity]. apply (Hin2 a Ta EA) in Y. assert (Z := origin_below w a b n2 Y (rt_step _ _ _ _ Hbr)). apply (Hin2 b Tb EB) in Z. congruence. }
    destruct (in2 b); lia.
  - assert (in2 t1 = false) as ->. { destruct (in2 t1) eqn:X; [|reflexivity]. apply (Hin2 t1 T1 E1) in X. exfalso. exact (Hn12 (origin_unique w Hw t1 n1 n2 O1 X)). }
    assert (in2 b = true) as ->. { apply (Hin2 b Tb EB). apply (same_node w Hw t2 T2 b Tb n n2 E2 EB Hin); [|exact O2]. rewrite hd_nth in Hdn. exact (nth_error_In _ _ Hdn). }
    lia.
Qed.
(** everything of the tree of t2 is now below t1 *)
Lemma taken_below u : origin w u n2 -> u = t2 \/ below w' t1 u.
Proof using Hw E1 E2 O1 O2 Hn12 Hroot Htrk Hla.
  intros (r & A & (Rr & ER & Hh) & C). apply clos_rt_rtn1 in A. induction A as [|y z Hyz A IH].
  - destruct (Nat.eq_dec r t2) as [X|X]; [left; exact X|right]. apply rt_step. apply (branch_taken r Rr n2 ER X Hh). exact (nth_error_In _ _ start2).
  - destruct (Nat.eq_dec z t2) as [X|X]; [left; exact X|right]. destruct IH as [->|IH].
    + apply rt_step. destruct Hyz as (Hne & Ta & Tb & n & EA & EB & Hin & Hd). apply (branch_taken z Tb n EB X Hd). assert (Ta = T2) by congruence. subst Ta. destruct (t_nodes T2); [destruct Hin|right; exact Hin].
    + eapply rt_trans; [exact IH|]. apply rt_step. apply branch_old; [exact Hyz|]. intros Y. subst y. apply below_last in IH. destruct IH as [Q|(p & _ & Q)]; [exact (t12 Q)|]. destruct (branch_new p t2 Q) as (Q' & _). congruence.
Qed.
(** and nothing else than the trees of t1 and t2 is below tracks of these *)
Lemma below_two u v : below w' u v -> origin w u n1 \/ origin w u n2 -> origin w v n1 \/ origin w v n2.
Proof using Hw E1 E2 O1 O2 Hn12 Htrk Hla.
  intros H. induction H as [a b Hab| |x y z _ IH1 _ IH2]; intros Ho; [|exact Ho|exact (IH2 (IH1 Ho))].
  destruct (branch_new a b Hab) as (B2 & A2 & [H|(-> & Tb & n & EB & Hdn & Hin)]).
  - destruct Ho as [Ho|Ho]; [left|right]; exact (origin_below w a b _ Ho (rt_step _ _ _ _ H)).
  - right. apply (same_node w Hw t2 T2 b Tb n n2 E2 EB Hin); [|exact O2]. rewrite hd_nth in Hdn. exact (nth_error_In _ _ Hdn).
Qed.
Lemma leads_two u n0 : starts_at w t1 n0 -> leads_from w' u n0 -> origin w u n1.
Proof using Hw E1 E2 O1 O2 Hn12 Htrk Hla.
  intros (T0 & ET0 & Hh) (U & EU & Hin). assert (T0 = T1) by congruence. subst T0. rewrite Htrk in EU. assert (U2 : u <> t2) by (intros X; rewrite X, trk'_2 in EU; discriminate). destruct (Nat.eq_dec u t1) as [X|X]; [rewrite X; exact O1|]. rewrite (trk'_old u X U2) in EU.
  rewrite hd_nth in Hh. apply removelast_nth in Hin. destruct Hin as (i & _ & Hi). exact (same_node w Hw t1 T1 u U n0 n1 E1 EU (nth_error_In _ _ Hh) (nth_error_In _ _ Hi) O1).
Qed.
Lemma starts' n0 : starts_at w t1 n0 -> starts_at w' t1 n0.
Proof using Hw E1 E2 O1 O2 Hn12 Htrk Hla. intros (T0 & ET0 & Hh). assert (T0 = T1) by congruence. subst T0. exists T'. rewrite Htrk, trk'_1. split; [reflexivity|]. unfold T'. cbn. rewrite hd1. exact Hh. Qed.
Lemma leads1 n0 : starts_at w t1 n0 -> leads_from w' t1 n0.
Proof using Hw E1 E2 O1 O2 Hn12 Htrk Hla.
  intros (T0 & ET0 & Hh). assert (T0 = T1) by congruence. subst T0. exists T'. rewrite Htrk, trk'_1. split; [reflexivity|]. apply removelast_nth. exists 0. destruct (track_len w Hw t1 T1 E1) as (_ & L & _). unfold T'. cbn [t_nodes]. rewrite app_length, <- hd_nth, hd1. split; [lia|exact Hh].
Qed.
End X.
