(** DoMerge. *)
From Verif Require Import Base CCB_Model CCB_Spec CCB_Store CCB_Ops CCB_Split.
Local Open Scope nat_scope.

Section W.
Variable hs : list hit.
Notation wi := (wire hs).

Lemma up_strong l : upstream hs l -> StronglySorted (fun a b => wi b < wi a) l.
Proof. apply Sorted_StronglySorted. intros a b c. lia. Qed.
Lemma up_inj l a b : upstream hs l -> In a l -> In b l -> wi a = wi b -> a = b.
Proof.
  intros U. apply up_strong in U. induction U as [|x l U IH F]; intros I J W; [destruct I|]. rewrite Forall_forall in F.
  destruct I as [<-|I], J as [<-|J]; auto; [specialize (F b J)|specialize (F a I)]; lia.
Qed.
Lemma up_nodup l : upstream hs l -> NoDup l.
Proof. intros U. apply up_strong in U. induction U as [|x l U IH F]; constructor; auto. intros I. rewrite Forall_forall in F. specialize (F x I). lia. Qed.
Lemma up_hd l a : upstream hs l -> In a l -> wi a <= wi (hd 0 l).
Proof. intros U I. apply up_strong in U. destruct U as [|x l U F]; [destruct I|]. rewrite Forall_forall in F. simpl. destruct I as [<-|I]; [lia|]. specialize (F a I). lia. Qed.
Lemma up_last l a : upstream hs l -> In a l -> wi (last l 0) <= wi a.
Proof.
  intros U. apply up_strong in U. revert a. induction U as [|x l U IH F]; intros a I; [destruct I|]. rewrite Forall_forall in F. destruct l as [|y l]; [destruct I as [<-|[]]; simpl; lia|].
  change (last (x :: y :: l) 0) with (last (y :: l) 0). destruct I as [<-|I]; [|apply IH; auto]. specialize (IH y (or_introl eq_refl)). specialize (F y (or_introl eq_refl)). lia.
Qed.
Lemma strong_up l : StronglySorted (fun a b => wi b < wi a) l -> upstream hs l.
Proof. apply StronglySorted_Sorted. Qed.
Lemma up_unique l l' : upstream hs l -> upstream hs l' -> (forall h, In h l <-> In h l') -> l = l'.
Proof.
  intros U V. apply up_strong in U. apply up_strong in V. revert l' V. induction U as [|x l U IH F]; intros l' V E.
  - destruct l' as [|y l']; [auto|]. destruct (proj2 (E y) (or_introl eq_refl)).
  - rewrite Forall_forall in F. destruct V as [|y l' V G]; [destruct (proj1 (E x) (or_introl eq_refl))|]. rewrite Forall_forall in G.
    assert (x = y). { destruct (proj1 (E x) (or_introl eq_refl)) as [|A]; [auto|]. destruct (proj2 (E y) (or_introl eq_refl)) as [|B]; [auto|]. specialize (F y B). specialize (G x A). lia. }
    subst y. f_equal. apply IH; auto. intros h. split; intros I.
    + destruct (proj1 (E h) (or_intror I)) as [<-|]; [|auto]. specialize (F x I). lia.
    + destruct (proj2 (E h) (or_intror I)) as [<-|]; [|auto]. specialize (G x I). lia.
Qed.

Lemma put_ok lo : forall l w, (forall h, In h l -> h < length hs /\ lo <= wi h < lo + length w) ->
  exists w', put_wires hs lo w l = Ok w' /\ length w' = length w /\
    forall j, j < length w -> (exists h, In h l /\ wi h = lo + j /\ nth_error w' j = Some (Some h)) \/
      ((forall h, In h l -> wi h <> lo + j) /\ nth_error w' j = nth_error w j).
Proof.
  unfold put_wires. induction l as [|h l IH]; intros w Hl.
  - exists w. split; [reflexivity|]. split; [auto|]. intros j Hj. right. split; [intros h []|auto].
  - destruct (Hl h (or_introl eq_refl)) as (Hh & Hr). cbn [foreach]. destruct (nth_error hs h) as [x|] eqn:Ex; [|apply nth_error_None in Ex; lia].
    assert (Wx : wi h = hw x) by (unfold wire; rewrite Ex; auto). rewrite (idx_some _ _ _ Ex). cbn [obind]. rewrite Wx in Hr. destruct (hw x <? lo) eqn:Q; [apply Nat.ltb_lt in Q; lia|].
    rewrite set_idx_ok by lia. cbn [obind]. destruct (IH (upd w (hw x - lo) (Some h))) as (w' & E & L & P); [intros a Ia; rewrite upd_length; apply Hl; right; auto|].
    exists w'. split; [exact E|]. rewrite upd_length in L, P. split; [auto|]. intros j Hj. destruct (P j Hj) as [(a & A1 & A2 & A3)|(A1 & A2)].
    + left. exists a. split; [right; auto|auto].
    + rewrite nth_error_upd in A2. destruct (j =? hw x - lo) eqn:Qj.
      * apply Nat.eqb_eq in Qj. left. exists h. split; [left; auto|]. split; [lia|]. rewrite A2. assert (B : (hw x - lo <? length w) = true) by (apply Nat.ltb_lt; lia). rewrite B. reflexivity.
      * apply Nat.eqb_neq in Qj. right. split; [intros a [<-|Ia]; [lia|auto]|]. rewrite A2. cbn [andb]. reflexivity.
Qed.

(** the wires of the filled slots *)
Definition slots (lo : nat) (w : list (option nat)) : Prop := forall j h, nth_error w j = Some (Some h) -> wi h = lo + j.
Lemma somes_app a b : somes (a ++ b) = somes a ++ somes b. Proof. apply flat_map_app. Qed.
Lemma in_somes w h : In h (somes w) <-> In (Some h) w.
Proof.
  unfold somes. rewrite in_flat_map. split; [intros ([a|] & A & B); simpl in B; [destruct B as [<-|[]]; auto|contradiction]|intros A; exists (Some h); simpl; auto].
Qed.
Lemma SS_snoc {A} (R : A -> A -> Prop) l a : StronglySorted R l -> (forall x, In x l -> R x a) -> StronglySorted R (l ++ [a]).
Proof.
  intros S0 Hx. induction S0 as [|x l S0 IH F]; simpl; [constructor; constructor|]. constructor; [apply IH; intros y Hy; apply Hx; right; auto|].
  apply Forall_app. split; [auto|]. constructor; [apply Hx; left; auto|constructor].
Qed.
Lemma slots_down w : forall lo, slots lo w -> StronglySorted (fun a b => wi b < wi a) (somes (rev w)).
Proof.
  induction w as [|o w IH]; intros lo Hs; [constructor|]. simpl. rewrite somes_app.
  assert (Hs' : slots (S lo) w) by (intros j h E; specialize (Hs (S j) h E); lia). destruct o as [h|]; simpl; [|rewrite app_nil_r; eauto].
  apply SS_snoc; [eauto|]. intros x Hx. apply in_somes in Hx. rewrite <- in_rev in Hx. apply In_nth_error in Hx. destruct Hx as (j & Hj). specialize (Hs' j x Hj). specialize (Hs 0 h eq_refl). lia.
Qed.

(** one hit per wire, those of [l1] first *)
Lemma wires_ok lo n l1 l2 : (forall h, In h l1 \/ In h l2 -> h < length hs /\ lo <= wi h < lo + n) -> upstream hs l1 -> upstream hs l2 ->
  exists w1 w, put_wires hs lo (repeat None n) l2 = Ok w1 /\ put_wires hs lo w1 l1 = Ok w /\ upstream hs (somes (rev w)) /\
    forall h, In h (somes (rev w)) <-> In h l1 \/ (In h l2 /\ forall g, In g l1 -> wi g <> wi h).
Proof.
  intros Hr U1 U2. destruct (put_ok lo l2 (repeat None n)) as (w1 & E1 & L1 & P1); [intros h I; rewrite repeat_length; auto|]. rewrite repeat_length in L1, P1.
  destruct (put_ok lo l1 w1) as (w & E2 & L2 & P2); [intros h I; rewrite L1; auto|]. rewrite L1 in L2, P2. exists w1, w. split; [auto|]. split; [auto|].
  assert (N0 : forall j (h : nat), nth_error (repeat None n) j <> Some (Some h)). { intros j h E. apply nth_error_In, repeat_spec in E. discriminate. }
  assert (Slot : forall j h, nth_error w j = Some (Some h) -> wi h = lo + j /\ (In h l1 \/ (In h l2 /\ forall g, In g l1 -> wi g <> wi h))).
  { intros j h E. assert (Hj : j < n) by (rewrite <- L2; apply nth_error_Some; congruence). destruct (P2 j Hj) as [(g & G1 & G2 & G3)|(G1 & G2)].
    - rewrite E in G3. injection G3 as <-. auto.
    - rewrite E in G2. symmetry in G2. destruct (P1 j Hj) as [(g & K1 & K2 & K3)|(K1 & K2)].
      + rewrite G2 in K3. injection K3 as <-. split; [auto|]. right. split; [auto|]. intros a Ia. rewrite K2. auto.
      + rewrite G2 in K2. symmetry in K2. destruct (N0 j h K2). }
  assert (Sl : slots lo w) by (intros j h E; apply (Slot j h E)).
  split; [apply strong_up, (slots_down w lo Sl)|]. intros h. rewrite in_somes, <- in_rev. split.
  - intros I. apply In_nth_error in I. destruct I as (j & E). apply (Slot j h E).
  - intros D. assert (Hh : lo <= wi h < lo + n) by (apply (Hr h); tauto). set (j := wi h - lo). assert (Wj : wi h = lo + j) by (unfold j; lia). assert (Hj : j < n) by lia.
    destruct (P2 j Hj) as [(g & G1 & G2 & G3)|(G1 & G2)].
    + assert (g = h). { destruct D as [D|(D1 & D2)]; [eapply (up_inj l1); eauto; congruence|]. specialize (D2 g G1). congruence. }
      subst g. eapply nth_error_In; eauto.
    + destruct D as [D|(D1 & D2)]; [specialize (G1 h D); congruence|]. destruct (P1 j Hj) as [(g & K1 & K2 & K3)|(K1 & K2)].
      * assert (g = h) by (eapply (up_inj l2); eauto; congruence). subst g. rewrite K3 in G2. eapply nth_error_In; eauto.
      * specialize (K1 h D1). congruence.
Qed.
End W.

(** two live clusters made obsolete *)
Lemma two_obs s k1 k2 c1 c2 : sound s -> live s k1 c1 -> live s k2 c2 -> k1 <> k2 ->
  let s1 := obsoleted s k1 c1 in let s2 := obsoleted s1 k2 c2 in
  make_obs s k1 = Ok s1 /\ make_obs s1 k2 = Ok s2 /\ sound s1 /\ sound s2 /\ live s1 k2 c2 /\
  free s2 (ch c1) /\ free s2 (ch c2) /\ tcl s2 = upd (upd (tcl s) k1 (set_cid c1 (- cid c1))) k2 (set_cid c2 (- cid c2)) /\
  (forall h, h < length (inc s) -> ~ In h (ch c1) -> ~ In h (ch c2) -> nth_error (inc s2) h = nth_error (inc s) h).
Proof.
  intros H L1 L2 Hne s1 s2. pose proof (obsoleted_sound s k1 c1 H L1) as H1. fold s1 in H1.
  assert (L2' : live s1 k2 c2) by (unfold s1; apply live_obsoleted; [apply L1|apply L1|split; auto]).
  split; [apply make_obs_ok; auto|]. split; [apply make_obs_ok; auto|]. split; [auto|]. split; [apply obsoleted_sound; auto|]. split; [auto|].
  pose proof (q_len s (s_cons s H)) as L.
  assert (In1 : forall h, In h (ch c1) -> h < length (inc s)) by (intros h I; rewrite L; eapply (good_in s k1 c1 H); [apply L1|auto]).
  assert (In2 : forall h, In h (ch c2) -> h < length (inc s)) by (intros h I; rewrite L; eapply (good_in s k2 c2 H); [apply L2|auto]).
  split; [|split; [|split; [reflexivity|]]].
  - intros h I. unfold s2, s1. simpl. rewrite !marks_nth by (rewrite ?marks_len; auto). destruct (in_dec Nat.eq_dec h (ch c2)); [reflexivity|]. destruct (in_dec Nat.eq_dec h (ch c1)); [reflexivity|contradiction].
  - intros h I. unfold s2, s1. simpl. rewrite !marks_nth by (rewrite ?marks_len; auto). destruct (in_dec Nat.eq_dec h (ch c2)); [reflexivity|contradiction].
  - intros h Hh N1 N2. unfold s2, s1. simpl. rewrite !marks_nth by (rewrite ?marks_len; auto). destruct (in_dec Nat.eq_dec h (ch c2)); [contradiction|]. destruct (in_dec Nat.eq_dec h (ch c1)); [contradiction|reflexivity].
Qed.

Theorem do_merge_ok s k1 k2 c1 c2 p np ec bc : sound s -> live s k1 c1 -> live s k2 c2 -> k1 <> k2 -> cctp c1 = cctp c2 ->
  upstream (hits s) (ch c1) -> upstream (hits s) (ch c2) -> 3 <= length (ch c1) -> 3 <= length (ch c2) ->
  let ds := bw c2 <=? bw c1 in
  let d1 := if ds then ev c1 else bv c1 in let d2 := if ds then bv c2 else ev c2 in
  ((0 <= d1)%Z -> d1 = d2 -> Z.to_nat d1 < length (vtx s)) ->
  do_merge s k1 k2 false p np ec bc = Ok s /\
  exists s', do_merge s k1 k2 true p np ec bc = Ok s' /\ sound s' /\ hits s' = hits s /\
    (ncl s = 32767%Z -> tcl s' = upd (upd (tcl s) k1 (set_cid c1 (- cid c1))) k2 (set_cid c2 (- cid c2)) /\ vtx s' = vtx s) /\
    ((ncl s < 32767)%Z -> exists d, tcl s' = upd (upd (tcl s) k1 (set_cid c1 (- cid c1))) k2 (set_cid c2 (- cid c2)) ++ [d] /\
       upstream (hits s) (ch d) /\
       (forall h, In h (ch d) <-> In h (ch c1) \/ (In h (ch c2) /\ forall g, In g (ch c1) -> wire (hits s) g <> wire (hits s) h)) /\
       proc d = np /\ cctp d = cctp c1 /\ bv d = (if ds then bv c1 else bv c2) /\ ev d = (if ds then ev c2 else ev c1) /\
       vtx s' = if (0 <=? d1)%Z && (d1 =? d2)%Z then upd (vtx s) (Z.to_nat d1) 0 else vtx s).
Proof.
  intros H L1 L2 Hne Hct U1 U2 N1 N2 ds d1 d2 Hv. pose proof L1 as (E1 & Hc1). pose proof L2 as (E2 & Hc2).
  pose proof (s_good s H k1 c1 E1) as G1. pose proof (s_good s H k2 c2 E2) as G2.
  unfold do_merge. rewrite (idx_some _ _ _ E1), (idx_some _ _ _ E2). cbn [obind].
  assert (Q1 : (length (ch c1) <? 3) = false) by (apply Nat.ltb_ge; auto). assert (Q2 : (length (ch c2) <? 3) = false) by (apply Nat.ltb_ge; auto). rewrite Q1, Q2. clear Q1 Q2. cbv zeta.
  assert (Eds : negb (bw c1 <? bw c2) = ds) by (unfold ds; rewrite Nat.ltb_antisym, negb_involutive; reflexivity). rewrite Eds.
  set (lo := if ew c2 <? ew c1 then ew c2 else ew c1). set (hi := if ds then bw c1 else bw c2).
  assert (Lo : lo <= ew c1 /\ lo <= ew c2) by (unfold lo; destruct (ew c2 <? ew c1) eqn:Q; [apply Nat.ltb_lt in Q|apply Nat.ltb_ge in Q]; lia).
  assert (Hi : bw c1 <= hi /\ bw c2 <= hi) by (unfold hi, ds; destruct (bw c2 <=? bw c1) eqn:Q; [apply Nat.leb_le in Q|apply Nat.leb_gt in Q]; lia).
  assert (Rg : forall h, In h (ch c1) \/ In h (ch c2) -> h < length (hits s) /\ lo <= wire (hits s) h < lo + (hi + 2 - lo)).
  { intros h [I|I].
    - split; [eapply (good_in s k1 c1); eauto|]. pose proof (up_hd _ _ _ U1 I). pose proof (up_last _ _ _ U1 I). rewrite <- (g_bw _ _ G1) in *. rewrite <- (g_ew _ _ G1) in *. lia.
    - split; [eapply (good_in s k2 c2); eauto|]. pose proof (up_hd _ _ _ U2 I). pose proof (up_last _ _ _ U2 I). rewrite <- (g_bw _ _ G2) in *. rewrite <- (g_ew _ _ G2) in *. lia. }
  assert (Q : (hi + 2 <? lo) = false).
  { apply Nat.ltb_ge. assert (I : In (hd 0 (ch c1)) (ch c1)) by (destruct (ch c1); [simpl in N1; lia|left; auto]). destruct (Rg _ (or_introl I)). lia. }
  rewrite Q. clear Q. destruct (wires_ok (hits s) lo (hi + 2 - lo) (ch c1) (ch c2) Rg U1 U2) as (w1 & w & W1 & W2 & W3 & W4). rewrite W1. cbn [obind]. rewrite W2. cbn [obind negb].
  split; [reflexivity|]. set (l := somes (rev w)) in *.
  destruct (two_obs s k1 k2 c1 c2 H L1 L2 Hne) as (M1 & M2 & S1 & S2 & L2' & F1 & F2 & T2 & _). rewrite M1. cbn [obind]. rewrite M2. cbn [obind].
  set (s2 := obsoleted (obsoleted s k1 c1) k2 c2) in *.
  assert (Pl : in_plane (hits s) (cctp c1) l).
  { intros h I. apply W4 in I. destruct I as [I|(I & _)]; [apply (g_plane _ _ G1 h I)|rewrite Hct; apply (g_plane _ _ G2 h I)]. }
  assert (Nd : NoDup l) by (eapply up_nodup; eauto).
  assert (Ln : 3 <= length l). { etransitivity; [exact N1|]. apply NoDup_incl_length; [apply (g_nodup _ _ G1)|]. intros h I. apply W4. auto. }
  assert (Hl : forall h, In h l -> h < length (hits s2)) by (intros h I; destruct (Pl h I) as (x & X & _); apply nth_error_Some; simpl; congruence).
  pose proof (s_ncl s H) as Nc. pose proof (s_max s H) as Mx.
  destruct (tmp_store_ok s2 l p ec bc) as (b & s' & A1 & A2 & A3 & A4); [apply (q_len _ (s_cons _ S2))|simpl; lia|auto|right; lia|]. rewrite A1. cbn [obind fst snd].
  destruct (Z.eq_dec (ncl s) 32767) as [Z1|Z1].
  - assert (b = false) by (destruct b; auto; destruct (proj1 A2 eq_refl) as (_ & B & _); simpl in B; lia). subst b. cbn [negb].
    assert (s' = s2). { rewrite (store_none s2 l p ec bc) in A1 by (right; exact Z1). injection A1 as <-. reflexivity. }
    subst s'. exists s2. split; [reflexivity|]. split; [auto|]. split; [reflexivity|]. split; [|intros; lia]. intros _. split; [exact T2|reflexivity].
  - assert (St : storable s2 l p).
    { split; [lia|]. split; [simpl; lia|]. split; [auto|]. split; [intros h I; apply W4 in I; destruct I as [I|(I & _)]; auto|]. split; [exists (cctp c1); auto|]. intros _. exact W3. }
    assert (b = true) by (apply A2; auto). subst b. cbn [negb]. destruct (A3 eq_refl) as (pl & P1 & ->).
    assert (pl = cctp c1). { assert (I : In (hd 0 l) l) by (destruct l; [simpl in Ln; lia|left; auto]). destruct (P1 _ I) as (x & X1 & X2). destruct (Pl _ I) as (y & Y1 & Y2). simpl in X1. congruence. }
    subst pl. fold d1 d2.
    assert (Vx : exists v, (if (0 <=? d1)%Z && (d1 =? d2)%Z then do v <- set_idx (vtx (stored s2 l p (cctp c1))) (Z.to_nat d1) 0; Ok (set_vtx (stored s2 l p (cctp c1)) v) else Ok (stored s2 l p (cctp c1))) =
        Ok (stored (set_vtx s2 v) l p (cctp c1)) /\ v = if (0 <=? d1)%Z && (d1 =? d2)%Z then upd (vtx s) (Z.to_nat d1) 0 else vtx s).
    { destruct ((0 <=? d1)%Z && (d1 =? d2)%Z) eqn:Qv.
      - apply andb_true_iff in Qv. destruct Qv as (V1 & V2). apply Z.leb_le in V1. apply Z.eqb_eq in V2. rewrite set_idx_ok by (simpl; apply Hv; auto). cbn [obind]. eexists. split; reflexivity.
      - eexists. split; reflexivity. }
    destruct Vx as (v & V1 & V2). rewrite V1. cbn [obind]. rewrite on_last_stored.
    assert (S3 : sound (set_vtx s2 v)). { destruct S2 as [[? ? ?] ? ? ? ? ?]. constructor; auto. constructor; auto. }
    eexists. split; [reflexivity|]. split.
    { apply last_touch_sound; [exact S3|exact St|exact Pl|repeat split|]. intros _. exact W3. }
    split; [reflexivity|]. split; [intros; lia|]. intros _. eexists. split; [cbn [tcl set_tcl set_vtx]; rewrite T2; reflexivity|]. cbn [ch proc cctp bv ev set_ev set_bv set_proc new_clus].
    split; [exact W3|]. split; [exact W4|]. do 4 (split; [reflexivity|]). exact V2.
Qed.
