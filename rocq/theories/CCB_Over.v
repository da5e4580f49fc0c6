(** MergeOverlap. *)
From Verif Require Import Base SortUtil CCB_Model CCB_Spec CCB_Store CCB_Ops CCB_Split CCB_Merge.
Local Open Scope nat_scope.

(** after a failed TmpStore of hits of two clusters just made obsolete, restoring both gives everything back *)
Lemma undo_two s k1 k2 c1 c2 pre v : sound s -> live s k1 c1 -> live s k2 c2 -> k1 <> k2 ->
  (forall h, In h pre -> In h (ch c1) \/ In h (ch c2)) ->
  let s2 := obsoleted (obsoleted s k1 c1) k2 c2 in
  (do t <- restore (set_inc s2 (marks (inc s2) pre v)) k1; restore t k2) = Ok s.
Proof.
  intros H L1 L2 Hne Sub s2. pose proof L1 as (E1 & C1). pose proof L2 as (E2 & C2). pose proof (q_len s (s_cons s H)) as L.
  destruct (two_obs s k1 k2 c1 c2 H L1 L2 Hne) as (_ & _ & _ & S2 & _ & _ & _ & T2 & I2). fold s2 in S2, T2, I2.
  assert (Lk1 : k1 < length (tcl s)) by (apply nth_error_Some; congruence).
  set (t := set_inc s2 (marks (inc s2) pre v)).
  assert (Lt : length (inc t) = length (inc s)) by (simpl; rewrite !marks_len; auto).
  assert (It : forall h, h < length (inc s) -> ~ In h (ch c1) -> ~ In h (ch c2) -> nth_error (inc t) h = nth_error (inc s) h).
  { intros h Hh N1 N2. unfold t. cbn [inc set_inc]. rewrite marks_nth by (simpl; rewrite !marks_len; auto). destruct (in_dec Nat.eq_dec h pre) as [I|I]; [destruct (Sub h I); contradiction|]. apply I2; auto. }
  assert (Ek : nth_error (tcl t) k1 = Some (set_cid c1 (- cid c1))).
  { unfold t. cbn [tcl set_inc]. rewrite T2, !nth_error_upd, upd_length. destruct (k1 =? k2) eqn:Q; [apply Nat.eqb_eq in Q; lia|]. cbn [andb]. rewrite Nat.eqb_refl. apply Nat.ltb_lt in Lk1. rewrite Lk1. reflexivity. }
  rewrite (restore_ok t k1 _ Ek); [|simpl; lia|simpl ch; intros h I; rewrite Lt, L; eapply (good_in s k1 c1); eauto]. cbn [obind].
  rewrite (restore_back s k2 c2 (restored t k1 (set_cid c1 (- cid c1))) [] H L2).
  - rewrite app_nil_r. unfold t, s2. cbn [ncl vtx restored obsoleted set_inc set_tcl]. destruct s; reflexivity.
  - reflexivity.
  - cbn [inc restored set_inc]. rewrite marks_len. exact Lt.
  - intros h Hh N. unfold restored. cbn [inc set_inc ch set_cid]. rewrite marks_nth by lia. destruct (in_dec Nat.eq_dec h (ch c1)) as [I|I]; [|apply It; auto].
    cbn [cid set_cid]. rewrite Z.opp_involutive, (live_id s k1 c1 H L1). symmetry. apply (q_own s (s_cons s H) k1 c1 h L1 I).
  - unfold restored. cbn [tcl set_inc set_tcl]. rewrite cid_back. unfold t. cbn [tcl set_inc]. rewrite T2, app_nil_r. rewrite (upd_swap c1) by auto. rewrite upd_upd, (upd_same _ _ _ E1). reflexivity.
Qed.

Lemma filter_all {A} (f : A -> bool) l : (forall a, In a l -> f a = true) -> filter f l = l.
Proof. induction l as [|a l IH]; intros F; simpl; [auto|]. rewrite (F a) by (left; auto). f_equal. apply IH. intros b Ib. apply F. right. auto. Qed.

Section W.
Variable hs : list hit.
Notation wi := (wire hs).

(** walking along a list ordered by wire *)
Lemma while_ok ok : forall l, (forall h, In h l -> h < length hs) -> StronglySorted (fun a b => ok (wi b) = true -> ok (wi a) = true) l ->
  while_wire hs ok l = Ok (filter (fun h => ok (wi h)) l).
Proof.
  induction l as [|h l IH]; intros Hl Hs; [reflexivity|]. inversion Hs as [|? ? Hs' F]; subst. cbn [while_wire filter].
  assert (Hh : h < length hs) by (apply Hl; left; auto). destruct (nth_error hs h) as [x|] eqn:Ex; [|apply nth_error_None in Ex; lia].
  assert (Wx : wi h = hw x) by (unfold wire; rewrite Ex; auto). rewrite (idx_some _ _ _ Ex). cbn [obind]. rewrite Wx. destruct (ok (hw x)) eqn:Q.
  - rewrite IH; [reflexivity|intros a Ia; apply Hl; right; auto|auto].
  - f_equal. symmetry. rewrite Forall_forall in F. clear -F Q Wx. induction l as [|a l IH]; [reflexivity|]. simpl. destruct (ok (wi a)) eqn:Qa; [|apply IH; intros b Ib; apply F; right; auto].
    specialize (F a (or_introl eq_refl) Qa). rewrite Wx in F. congruence.
Qed.
Lemma drop_ok e : forall l, (forall h, In h l -> h < length hs) -> upstream hs l -> drop_to hs e l = Ok (filter (fun h => wi h <? e) l).
Proof.
  induction l as [|h l IH]; intros Hl U; [reflexivity|]. cbn [drop_to filter].
  assert (Hh : h < length hs) by (apply Hl; left; auto). destruct (nth_error hs h) as [x|] eqn:Ex; [|apply nth_error_None in Ex; lia].
  assert (Wx : wi h = hw x) by (unfold wire; rewrite Ex; auto). rewrite (idx_some _ _ _ Ex). cbn [obind]. rewrite Wx. pose proof (up_strong hs _ U) as SU. inversion SU as [|? ? SU' F]; subst. inversion U; subst.
  destruct (e <=? hw x) eqn:Q.
  - rewrite IH by (auto; intros a Ia; apply Hl; right; auto). apply Nat.leb_le in Q. assert (B : (hw x <? e) = false) by (apply Nat.ltb_ge; auto). rewrite B. reflexivity.
  - apply Nat.leb_gt in Q. assert (B : (hw x <? e) = true) by (apply Nat.ltb_lt; auto). rewrite B. f_equal. f_equal. symmetry. rewrite Forall_forall in F. apply filter_all. intros a Ia. apply Nat.ltb_lt. specialize (F a Ia). lia.
Qed.

Variable d : nat -> Z.
Lemma near_ok e : forall l w, (forall h, In h l -> h < length hs /\ e <= wi h < e + length w) ->
  (forall a b, In a l -> In b l -> wi a = wi b -> a = b) -> NoDup l ->
  exists w', near_line hs d e w l = Ok w' /\ length w' = length w /\
    forall j o, nth_error w j = Some o ->
      (exists h, In h l /\ wi h = e + j /\ (d h <= snd o)%Z /\ nth_error w' j = Some (Some h, d h)) \/
      ((forall h, In h l -> wi h = e + j -> (snd o < d h)%Z) /\ nth_error w' j = Some o).
Proof.
  unfold near_line. induction l as [|h l IH]; intros w Hl Inj Nd.
  - exists w. split; [reflexivity|]. split; [auto|]. intros j o E. right. split; [intros h []|auto].
  - destruct (Hl h (or_introl eq_refl)) as (Hh & Hr). cbn [foreach]. destruct (nth_error hs h) as [x|] eqn:Ex; [|apply nth_error_None in Ex; lia].
    assert (Wx : wi h = hw x) by (unfold wire; rewrite Ex; auto). rewrite (idx_some _ _ _ Ex). cbn [obind]. rewrite Wx in Hr. destruct (hw x <? e) eqn:Q; [apply Nat.ltb_lt in Q; lia|]. clear Q.
    inversion Nd as [|? ? Nh Nd']; subst.
    assert (Oth : forall a, In a l -> wi a <> hw x) by (intros a Ia Q; apply Nh; rewrite (Inj h a); [auto|left; auto|right; auto|congruence]).
    destruct (nth_error w (hw x - e)) as [o0|] eqn:Eo; [|apply nth_error_None in Eo; lia]. rewrite (idx_some _ _ _ Eo). cbn [obind].
    destruct (snd o0 <? d h)%Z eqn:Qd; cbn [obind].
    + apply Z.ltb_lt in Qd. destruct (IH w) as (w' & E & L & P); [intros a Ia; apply Hl; right; auto|intros a b Ia Ib; apply Inj; right; auto|auto|]. exists w'. split; [exact E|]. split; [auto|].
      intros j o Ej. destruct (P j o Ej) as [(a & A1 & A2)|(A1 & A2)]; [left; exists a; split; [right; auto|auto]|]. right. split; [|auto]. intros a [<-|Ia] Wa; [|auto].
      replace j with (hw x - e) in Ej by lia. assert (o = o0) by congruence. subst o. auto.
    + apply Z.ltb_ge in Qd. destruct (IH (upd w (hw x - e) (Some h, d h))) as (w' & E & L & P); [intros a Ia; rewrite upd_length; apply Hl; right; auto|intros a b Ia Ib; apply Inj; right; auto|auto|]. rewrite upd_length in L. exists w'. split; [exact E|]. split; [auto|].
      intros j o Ej. destruct (Nat.eq_dec j (hw x - e)) as [-> |Nj].
      * assert (o = o0) by congruence. subst o. left. exists h. split; [left; auto|]. split; [lia|]. split; [auto|].
        destruct (P (hw x - e) (Some h, d h)) as [(a & A1 & A2 & _)|(_ & A2)]; [rewrite nth_error_upd, Nat.eqb_refl; assert (B : (hw x - e <? length w) = true) by (apply Nat.ltb_lt; lia); rewrite B; reflexivity| |exact A2].
        exfalso. apply (Oth a A1). lia.
      * destruct (P j o) as [(a & A1 & A2)|(A1 & A2)]; [rewrite nth_error_upd; destruct (j =? hw x - e) eqn:B; [apply Nat.eqb_eq in B; contradiction|exact Ej]|left; exists a; split; [right; auto|auto]|].
        right. split; [|auto]. intros a [<-|Ia] Wa; [lia|auto].
Qed.

(** the hit of the overlap region chosen on its wire; [l1] the cluster that begins in the region *)
Definition chosen (e b : nat) (mx : Z) (l1 l2 : list nat) (h : nat) : Prop :=
  e <= wi h <= b /\ (d h <= mx)%Z /\
  ((In h l2 /\ forall g, In g l1 -> wi g = wi h -> (d h <= d g)%Z) \/ (In h l1 /\ forall g, In g l2 -> wi g = wi h -> (d h < d g)%Z)).

(** hits in the order of RunCrawler *)
Definition by_wire : Prop := forall i j x y, i < j -> nth_error hs i = Some x -> nth_error hs j = Some y -> wid x = wid y -> hw x <= hw y.

Lemma rev_ss {A} (R : A -> A -> Prop) l : StronglySorted R l -> StronglySorted (fun a b => R b a) (rev l).
Proof.
  induction 1 as [|x l S0 IH F]; simpl; [constructor|]. apply SS_snoc; [auto|]. intros y Iy. rewrite <- in_rev in Iy. rewrite Forall_forall in F. auto.
Qed.
Lemma ss_mono {A} (R S0 : A -> A -> Prop) l : (forall a b, R a b -> S0 a b) -> StronglySorted R l -> StronglySorted S0 l.
Proof. intros M H. induction H as [|x l H IH F]; [constructor|]. constructor; [exact IH|]. apply (Forall_impl _ (M x) F). Qed.
Lemma ss_app {A} (R : A -> A -> Prop) a b : StronglySorted R a -> StronglySorted R b -> (forall x y, In x a -> In y b -> R x y) -> StronglySorted R (a ++ b).
Proof.
  intros Ha Hb Hx. induction Ha as [|x a Ha IH F]; simpl; [auto|]. constructor; [apply IH; intros u y Iu; apply Hx; right; auto|]. apply Forall_app. split; [auto|]. apply Forall_forall. intros y Iy. apply Hx; [left; auto|auto].
Qed.
Lemma ss_filter {A} (R : A -> A -> Prop) f l : StronglySorted R l -> StronglySorted R (filter f l).
Proof. induction 1 as [|x l H IH F]; simpl; [constructor|]. destruct (f x); [|auto]. constructor; [auto|]. rewrite Forall_forall in *. intros y Iy. apply filter_In in Iy. apply F. tauto. Qed.

Lemma overlap_ok c1 c2 mx pl : by_wire -> in_plane hs pl (ch c1) -> in_plane hs pl (ch c2) -> upstream hs (ch c1) -> upstream hs (ch c2) ->
  bw c1 = wi (hd 0 (ch c1)) -> ew c2 = wi (last (ch c2) 0) ->
  exists o l, overlap_hits hs c1 c2 d mx = Ok o /\ overlap_list hs c1 c2 o = Ok l /\ upstream hs l /\
    (forall h, In h o <-> chosen (ew c2) (bw c1) mx (ch c1) (ch c2) h) /\
    (forall h, In h l <-> (In h (ch c2) /\ bw c1 < wi h) \/ chosen (ew c2) (bw c1) mx (ch c1) (ch c2) h \/ (In h (ch c1) /\ wi h < ew c2)) /\
    length o <= length l.
Proof.
  intros Bw P1 P2 U1 U2 B1 B2. set (e := ew c2) in *. set (b := bw c1) in *.
  assert (In1 : forall h, In h (ch c1) -> h < length hs) by (intros h I; destruct (P1 h I) as (x & X & _); apply nth_error_Some; congruence).
  assert (In2 : forall h, In h (ch c2) -> h < length hs) by (intros h I; destruct (P2 h I) as (x & X & _); apply nth_error_Some; congruence).
  assert (Le1 : forall h, In h (ch c1) -> wi h <= b) by (intros h I; rewrite B1; apply up_hd; auto).
  assert (Ge2 : forall h, In h (ch c2) -> e <= wi h) by (intros h I; rewrite B2; apply up_last; auto).
  pose proof (up_strong hs _ U1) as SS1. pose proof (up_strong hs _ U2) as SS2.
  unfold overlap_hits, overlap_list. fold e b. cbv zeta.
  rewrite (while_ok (fun w => e <=? w) (ch c1) In1). 2:{ eapply ss_mono; [|exact SS1]. simpl. intros x y A Q. apply Nat.leb_le in Q. apply Nat.leb_le. lia. }
  rewrite (while_ok (fun w => w <=? b) (rev (ch c2))).
  2:{ intros h I. apply In2. apply in_rev. auto. }
  2:{ eapply ss_mono; [|apply rev_ss; exact SS2]. simpl. intros x y A Q. apply Nat.leb_le in Q. apply Nat.leb_le. lia. }
  rewrite (while_ok (fun w => b <? w) (ch c2) In2). 2:{ eapply ss_mono; [|exact SS2]. simpl. intros x y A Q. apply Nat.ltb_lt in Q. apply Nat.ltb_lt. lia. }
  rewrite (drop_ok e (ch c1) In1 U1). cbn [obind].
  set (l1 := filter (fun h => e <=? wi h) (ch c1)). set (l2 := filter (fun h => wi h <=? b) (rev (ch c2))).
  assert (M1 : forall h, In h l1 <-> In h (ch c1) /\ e <= wi h) by (intros h; unfold l1; rewrite filter_In, Nat.leb_le; tauto).
  assert (M2 : forall h, In h l2 <-> In h (ch c2) /\ wi h <= b) by (intros h; unfold l2; rewrite filter_In, Nat.leb_le, <- in_rev; tauto).
  destruct (near_ok e l1 (repeat (None, mx) (b + 1 - e))) as (w1 & E1 & L1 & Q1).
  { intros h I. apply M1 in I. rewrite repeat_length. destruct I as (I1 & I2). split; [auto|]. specialize (Le1 h I1). lia. }
  { intros x y I J. apply M1 in I. apply M1 in J. apply (up_inj hs (ch c1)); tauto. }
  { apply NoDup_filter, (up_nodup hs _ U1). }
  rewrite repeat_length in L1. rewrite E1. cbn [obind].
  destruct (near_ok e l2 w1) as (w2 & E2 & L2 & Q2).
  { intros h I. apply M2 in I. rewrite L1. destruct I as (I1 & I2). split; [auto|]. specialize (Ge2 h I1). lia. }
  { intros x y I J. apply M2 in I. apply M2 in J. apply (up_inj hs (ch c2)); tauto. }
  { apply NoDup_filter, NoDup_rev, (up_nodup hs _ U2). }
  rewrite E2. cbn [obind]. rewrite L1 in L2.
  assert (R0 : forall j, j < b + 1 - e -> nth_error (repeat (@None nat, mx) (b + 1 - e)) j = Some (None, mx)).
  { intros j Hj. destruct (nth_error (repeat (@None nat, mx) (b + 1 - e)) j) as [x|] eqn:Ex; [apply nth_error_In, repeat_spec in Ex; congruence|apply nth_error_None in Ex; rewrite repeat_length in Ex; lia]. }
  assert (Slot : forall j h, nth_error (map fst w2) j = Some (Some h) -> wi h = e + j /\ chosen e b mx (ch c1) (ch c2) h).
  { intros j h Ej. rewrite nth_error_map in Ej. destruct (nth_error w2 j) as [[o v]|] eqn:Ew; [|discriminate]. simpl in Ej. injection Ej as ->.
    assert (Hj : j < b + 1 - e) by (rewrite <- L2; apply nth_error_Some; congruence).
    pose proof (R0 j Hj) as R. destruct (Q1 j _ R) as [(g & A1 & A2 & A3 & A4)|(A1 & A2)].
    - destruct (Q2 j _ A4) as [(k & K1 & K2 & K3 & K4)|(K1 & K2)]; cbn [snd] in *.
      + rewrite Ew in K4. injection K4 as <- ->. split; [auto|]. split; [lia|]. split; [lia|]. left. apply M2 in K1. split; [tauto|]. intros x Ix Wx. assert (x = g) by (apply (up_inj hs (ch c1)); auto; [apply M1; auto|congruence]). subst x. auto.
      + rewrite Ew in K2. injection K2 as <- ->. split; [auto|]. split; [lia|]. split; [lia|]. right. apply M1 in A1. split; [tauto|]. intros x Ix Wx. apply K1; [apply M2; split; [auto|lia]|congruence].
    - destruct (Q2 j _ A2) as [(k & K1 & K2 & K3 & K4)|(K1 & K2)]; cbn [snd] in *.
      + rewrite Ew in K4. injection K4 as <- ->. split; [auto|]. split; [lia|]. split; [lia|]. left. apply M2 in K1. split; [tauto|]. intros x Ix Wx. assert (I : In x l1) by (apply M1; split; [auto|lia]). specialize (A1 x I ltac:(congruence)). lia.
      + rewrite Ew in K2. discriminate. }
  assert (Slot2 : forall h, chosen e b mx (ch c1) (ch c2) h -> In (Some h) (map fst w2)).
  { intros h (C1 & C2 & C3). set (j := wi h - e). assert (Wj : wi h = e + j) by (unfold j; lia). assert (Hj : j < b + 1 - e) by lia. pose proof (R0 j Hj) as R.
    assert (G : exists v, nth_error w2 j = Some (Some h, v)).
    { destruct C3 as [(C3 & C4)|(C3 & C4)].
      - assert (Ih : In h l2) by (apply M2; split; [auto|lia]). destruct (Q1 j _ R) as [(g & A1 & A2 & A3 & A4)|(A1 & A2)].
        + destruct (Q2 j _ A4) as [(k & K1 & K2 & K3 & K4)|(K1 & K2)]; cbn [snd] in *.
          * assert (k = h) by (apply M2 in K1; apply (up_inj hs (ch c2)); [auto|tauto|auto|congruence]). subst k. eauto.
          * specialize (K1 h Ih Wj). apply M1 in A1. specialize (C4 g (proj1 A1) ltac:(congruence)). lia.
        + destruct (Q2 j _ A2) as [(k & K1 & K2 & K3 & K4)|(K1 & K2)]; cbn [snd] in *.
          * assert (k = h) by (apply M2 in K1; apply (up_inj hs (ch c2)); [auto|tauto|auto|congruence]). subst k. eauto.
          * specialize (K1 h Ih Wj). lia.
      - assert (Ih : In h l1) by (apply M1; split; [auto|lia]). destruct (Q1 j _ R) as [(g & A1 & A2 & A3 & A4)|(A1 & A2)]; cbn [snd] in *.
        + assert (g = h) by (apply M1 in A1; apply (up_inj hs (ch c1)); [auto|tauto|auto|congruence]). subst g.
          destruct (Q2 j _ A4) as [(k & K1 & K2 & K3 & K4)|(K1 & K2)]; cbn [snd] in *; [|eauto].
          apply M2 in K1. specialize (C4 k (proj1 K1) ltac:(congruence)). lia.
        + specialize (A1 h Ih Wj). lia. }
    destruct G as (v & G). apply nth_error_In in G. apply (in_map fst) in G. exact G. }
  set (o := isort (fun i j => j <? i) (somes (map fst w2))).
  assert (Mo : forall h, In h o <-> chosen e b mx (ch c1) (ch c2) h).
  { intros h. unfold o. split.
    - intros I. apply (Permutation_in _ (isort_perm _ _)) in I. apply in_somes, In_nth_error in I. destruct I as (j & Ej). apply (Slot j h Ej).
    - intros Ch. apply (Permutation_in _ (Permutation_sym (isort_perm _ _))). apply in_somes. auto. }
  assert (Uo : StronglySorted (fun x y => wi y < wi x) o).
  { assert (SI : StronglySorted (fun x y => (x <? y) = false) o).
    { apply (isort_sorted (fun i j => j <? i)); [intros x y z; rewrite !Nat.ltb_ge; lia|intros x y; rewrite Nat.ltb_lt, Nat.ltb_ge; lia]. }
    assert (Sw : StronglySorted (fun x y => wi y < wi x) (somes (rev (map fst w2)))) by (apply (slots_down hs _ e); intros j h Ej; apply (Slot j h Ej)).
    assert (Ndo : NoDup o).
    { apply (Permutation_NoDup (Permutation_sym (isort_perm _ _))). assert (N : NoDup (somes (rev (map fst w2)))) by (apply (up_nodup hs), strong_up; auto).
      assert (Er : forall z : list (option nat), somes (rev z) = rev (somes z)).
      { induction z as [|[a|] z IH]; simpl; auto; rewrite somes_app, IH; simpl; rewrite ?app_nil_r; reflexivity. }
      rewrite Er in N. apply NoDup_rev in N. rewrite rev_involutive in N. exact N. }
    assert (Pl : forall h, In h o -> exists x, nth_error hs h = Some x /\ wid x = pl /\ wi h = hw x).
    { intros h I. apply Mo in I. destruct I as (_ & _ & [(I & _)|(I & _)]); [destruct (P2 h I) as (x & X & Y)|destruct (P1 h I) as (x & X & Y)]; exists x; (split; [auto|]; split; [exact Y|unfold wire; rewrite X; auto]). }
    assert (Inj : forall x y, In x o -> In y o -> wi x = wi y -> x = y).
    { intros x y I J. apply (up_inj hs (somes (rev (map fst w2)))); [apply strong_up; auto| |]; apply in_somes; rewrite <- in_rev; apply Slot2, Mo; auto. }
    clearbody o. clear -SI Ndo Pl Inj Bw. induction SI as [|x o SI IH F]; constructor.
    - inversion Ndo; subst. apply IH; [auto|intros h I; apply Pl; right; auto|intros u v I J; apply Inj; right; auto].
    - rewrite Forall_forall in *. intros y Iy. specialize (F y Iy). apply Nat.ltb_ge in F. inversion Ndo as [|? ? N1 N2]; subst.
      assert (Hxy : y < x) by (destruct (Nat.eq_dec x y) as [-> |]; [contradiction|lia]).
      destruct (Pl x (or_introl eq_refl)) as (hx & X1 & X2 & X3). destruct (Pl y (or_intror Iy)) as (hy & Y1 & Y2 & Y3).
      pose proof (Bw y x hy hx Hxy Y1 X1 ltac:(congruence)). destruct (Nat.eq_dec (wi x) (wi y)) as [Q|Q]; [|lia].
      assert (x = y) by (apply Inj; [left; auto|right; auto|auto]). lia. }
  exists o, (filter (fun h => b <? wi h) (ch c2) ++ o ++ filter (fun h => wi h <? e) (ch c1)).
  split; [reflexivity|]. split; [reflexivity|]. split.
  { apply strong_up. apply ss_app; [apply ss_filter; auto|apply ss_app; [auto|apply ss_filter; auto|]|].
    - intros x y I J. apply Mo in I. destruct I as (I & _). apply filter_In in J. destruct J as (_ & J). apply Nat.ltb_lt in J. lia.
    - intros x y I J. apply filter_In in I. destruct I as (_ & I). apply Nat.ltb_lt in I. apply in_app_or in J. destruct J as [J|J]; [apply Mo in J; destruct J as (J & _); lia|].
      apply filter_In in J. destruct J as (J1 & J2). specialize (Le1 y J1). lia. }
  split; [exact Mo|]. split; [|rewrite !app_length; lia]. intros h. rewrite !in_app_iff, !filter_In, Nat.ltb_lt, Nat.ltb_lt, Mo. tauto.
Qed.
End W.

Theorem overlap_pair_ok s k1 k2 c1 c2 d mx fit ec bc : sound s -> by_wire (hits s) -> live s k1 c1 -> live s k2 c2 -> k1 <> k2 -> cctp c1 = cctp c2 ->
  upstream (hits s) (ch c1) -> upstream (hits s) (ch c2) ->
  exists s', overlap_pair s k1 k2 d mx fit ec bc = Ok s' /\ sound s' /\ (s' = s \/
    (fit = true /\ hits s' = hits s /\ vtx s' = vtx s /\
     exists n, tcl s' = upd (upd (tcl s) k1 (set_cid c1 (- cid c1))) k2 (set_cid c2 (- cid c2)) ++ [n] /\ upstream (hits s) (ch n) /\
       (forall h, In h (ch n) <-> (In h (ch c2) /\ bw c1 < wire (hits s) h) \/ chosen (hits s) d (ew c2) (bw c1) mx (ch c1) (ch c2) h \/ (In h (ch c1) /\ wire (hits s) h < ew c2)) /\
       proc n = (proc c1 + 500)%Z /\ bv n = bv c2 /\ ev n = bv c1)).
Proof.
  intros H Bw L1 L2 Hne Hct U1 U2. pose proof L1 as (E1 & Hc1). pose proof L2 as (E2 & Hc2).
  pose proof (s_good s H k1 c1 E1) as G1. pose proof (s_good s H k2 c2 E2) as G2.
  destruct (overlap_ok (hits s) d c1 c2 mx (cctp c1)) as (o & l & A1 & A2 & A3 & A4 & A5 & A6); auto; [apply (g_plane _ _ G1)|rewrite Hct; apply (g_plane _ _ G2)|apply (g_bw _ _ G1)|apply (g_ew _ _ G2)|].
  unfold overlap_pair. rewrite (idx_some _ _ _ E1), (idx_some _ _ _ E2). cbn [obind]. rewrite A1. cbn [obind].
  destruct (negb fit || (length o <? 3)) eqn:Q; [exists s; auto|]. apply orb_false_iff in Q. destruct Q as (Q1 & Q2). apply negb_false_iff in Q1. apply Nat.ltb_ge in Q2. rewrite A2. cbn [obind].
  destruct (two_obs s k1 k2 c1 c2 H L1 L2 Hne) as (M1 & M2 & S1 & S2 & L2' & F1 & F2 & T2 & _). rewrite M1. cbn [obind]. rewrite M2. cbn [obind].
  set (s2 := obsoleted (obsoleted s k1 c1) k2 c2) in *.
  assert (Sub : forall h, In h l -> In h (ch c1) \/ In h (ch c2)).
  { intros h I. apply A5 in I. destruct I as [(I & _)|[(_ & _ & [(I & _)|(I & _)])|(I & _)]]; auto. }
  assert (Pl : in_plane (hits s) (cctp c1) l).
  { intros h I. destruct (Sub h I) as [J|J]; [apply (g_plane _ _ G1 h J)|rewrite Hct; apply (g_plane _ _ G2 h J)]. }
  assert (Hl : forall h, In h l -> h < length (hits s2)) by (intros h I; destruct (Pl h I) as (x & X & _); apply nth_error_Some; simpl; congruence).
  pose proof (s_ncl s H) as Nc. pose proof (s_max s H) as Mx.
  destruct (tmp_store_ok s2 l (proc c1 + 500) ec bc) as (b & s' & B1 & B2 & B3 & B4); [apply (q_len _ (s_cons _ S2))|simpl; lia|auto|right; lia|]. rewrite B1. cbn [obind fst snd].
  destruct b; cbn [negb].
  - destruct (B3 eq_refl) as (pl & P1 & ->). rewrite on_last_stored. eexists. split; [reflexivity|]. split.
    { apply last_touch_sound; [exact S2|apply B2; reflexivity|exact P1|repeat split|]. intros _. exact A3. }
    right. split; [auto|]. split; [reflexivity|]. split; [reflexivity|]. eexists. split; [cbn [tcl set_tcl]; rewrite T2; reflexivity|]. cbn [ch proc cctp bv ev set_ev set_bv set_proc new_clus].
    split; [exact A3|]. split; [exact A5|]. auto.
  - destruct (B4 eq_refl) as (pre & post & P1 & ->). exists s. split; [|auto]. apply (undo_two s k1 k2 c1 c2 pre (ncl s2 + 1) H L1 L2 Hne). intros h I. apply Sub. rewrite P1. apply in_or_app. auto.
Qed.
