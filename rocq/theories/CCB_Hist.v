(** Every sequence of cluster operations keeps hits and clusters consistent. *)
From Verif Require Import Base SortUtil CCB_Model CCB_Spec CCB_Store CCB_Ops CCB_Split CCB_Merge CCB_Over.
Local Open Scope nat_scope.

Lemma nodup_app {A} (a b : list A) : NoDup a -> NoDup b -> (forall x, In x a -> In x b -> False) -> NoDup (a ++ b).
Proof.
  induction a as [|x a IH]; intros Na Nb D; simpl; [auto|]. inversion Na; subst. constructor; [|apply IH; auto; intros y I; apply D; right; auto].
  intros I. apply in_app_or in I. destruct I as [I|I]; [contradiction|apply (D x); [left; auto|auto]].
Qed.

Lemma start_sound hs : sound (start hs).
Proof.
  constructor.
  - constructor; simpl.
    + apply map_length.
    + intros k c h (E & _). destruct k; discriminate.
    + intros h v E. rewrite nth_error_map in E. destruct (nth_error hs h); simpl in E; [injection E as <-|discriminate]. lia.
  - reflexivity.
  - simpl. lia.
  - intros k c E. destruct k; discriminate.
  - intros k c E. destruct k; discriminate.
  - intros k c (E & _). destruct k; discriminate.
Qed.

Lemma ob {A B} (e : outcome A) (f : A -> outcome B) r : obind e f = Ok r -> exists a, e = Ok a /\ f a = Ok r.
Proof. destruct e; simpl; intros E; try discriminate. eauto. Qed.
Lemma idx_get {A} (l : list A) i x : idx l i = Ok x -> nth_error l i = Some x.
Proof. intros E. destruct (nth_error l i) as [y|] eqn:Q; [rewrite (idx_some _ _ _ Q) in E; congruence|]. unfold idx in E. rewrite Q in E. discriminate. Qed.

(** TmpStore that answers at all was given enough hits that exist, as far as it looked *)
Lemma claim_true hs id dec h0 : forall l i last i', claim hs i id dec h0 last l = Ok (true, i') -> forall h, In h l -> h < length hs.
Proof.
  induction l as [|a l IH]; intros i la i' E h [].
  - subst h. cbn [claim] in E. apply ob in E. destruct E as (v & _ & E). destruct (negb (v =? 0)%Z); [discriminate|]. apply ob in E. destruct E as (x & E & _). apply idx_get in E. apply nth_error_Some. congruence.
  - cbn [claim] in E. apply ob in E. destruct E as (v & _ & E). destruct (negb (v =? 0)%Z); [discriminate|]. apply ob in E. destruct E as (x & _ & E). destruct (negb (same_wid x h0)); [discriminate|].
    destruct (dec && _) in E; [discriminate|]. apply ob in E. destruct E as (i2 & _ & E). eapply IH; eauto.
Qed.
Lemma tmp_true s l p ec bc s' : tmp_store s l p ec bc = Ok (true, s') -> (forall h, In h l -> h < length (hits s)) /\ ((ec = true /\ bc = true) \/ length l <> 2).
Proof.
  unfold tmp_store. destruct (length l <? 2) eqn:Q1; [discriminate|]. destruct (length (hits s) <? length l); [discriminate|]. destruct (ncl s =? 32767)%Z; [discriminate|]. intros E.
  apply ob in E. destruct E as (h0 & _ & E). apply ob in E. destruct E as ((b & i) & E1 & E). cbn [fst snd] in E. destruct b; cbn [negb] in E; [|discriminate]. split; [eapply claim_true; eauto|].
  destruct (negb (ec && bc) && (length l <? 3)) eqn:Q; [discriminate|]. apply andb_false_iff in Q. destruct Q as [Q|Q]; [left; apply negb_false_iff, andb_true_iff in Q; auto|right; apply Nat.ltb_ge in Q; lia].
Qed.
(** knowing the charges changes nothing else *)
Lemma tmp_charge s l p ec bc r : tmp_store s l p ec bc = Ok r -> tmp_store s l p true true = Ok r.
Proof.
  unfold tmp_store. destruct (length l <? 2); [auto|]. destruct (length (hits s) <? length l); [auto|]. destruct (ncl s =? 32767)%Z; [auto|]. intros E.
  apply ob in E. destruct E as (h0 & E0 & E). rewrite E0. cbn [obind]. apply ob in E. destruct E as ((b & i) & E1 & E). rewrite E1. cbn [obind fst snd andb negb] in *. destruct b; cbn [negb] in *; [|auto].
  destruct (negb (ec && bc) && (length l <? 3)); [discriminate|exact E].
Qed.
Lemma split_charge s k pos iv ec bc r : split_cluster s k pos iv ec bc = Ok r -> split_cluster s k pos iv true true = Ok r.
Proof.
  unfold split_cluster. intros E. apply ob in E. destruct E as (c & E0 & E). rewrite E0. cbn [obind]. destruct (cid c <? 0)%Z; [auto|].
  apply ob in E. destruct E as (s0 & E1 & E). rewrite E1. cbn [obind]. apply ob in E. destruct E as (r1 & E2 & E). rewrite E2. cbn [obind]. destruct (negb (fst r1)); [auto|]. cbv zeta in *.
  destruct ((length (ch c) <? 3) || (pos <? length (ch c) - 3)); [|auto]. apply ob in E. destruct E as (u & E3 & E). rewrite E3. cbn [obind]. destruct u; [auto|].
  apply ob in E. destruct E as (t & E4 & E). rewrite (tmp_charge _ _ _ _ _ _ E4). exact E.
Qed.

Theorem store_sound s l p ec bc s' : sound s -> tmp_store s l p ec bc = Ok (true, s') -> sound s' /\ storable s l p /\ exists pl, in_plane (hits s) pl l /\ s' = stored s l p pl.
Proof.
  intros H E. destruct (tmp_true _ _ _ _ _ _ E) as (A & B). pose proof (s_ncl s H). pose proof (s_max s H).
  destruct (tmp_store_ok s l p ec bc (q_len s (s_cons s H)) ltac:(lia) A B) as (b & s1 & E1 & C1 & C2 & _). rewrite E in E1. injection E1 as <- <-.
  destruct (C2 eq_refl) as (pl & P1 & ->). assert (St : storable s l p) by (apply C1; auto). split; [apply stored_sound; auto|eauto].
Qed.
(** a list TmpStore can refuse only for want of hits or of cluster numbers: no trace when it does *)
Lemma store_part s l p ec bc b s' : sound s -> tmp_store s l p ec bc = Ok (b, s') ->
  (forall h, In h l -> h < length (hits s)) -> (2 <= length l -> (ncl s < 32767)%Z -> storable s l p) ->
  b = true \/ s' = s.
Proof.
  intros H E Hl St. destruct b; [auto|]. right. unfold tmp_store in E. destruct (length l <? 2) eqn:Q1; [congruence|]. destruct (length (hits s) <? length l); [congruence|]. destruct (ncl s =? 32767)%Z eqn:Q3; [congruence|].
  exfalso. apply Nat.ltb_ge in Q1. apply Z.eqb_neq in Q3. pose proof (s_max s H). pose proof (s_ncl s H). specialize (St Q1 ltac:(lia)).
  apply ob in E. destruct E as (h0 & E0 & E). apply idx_get in E0.
  destruct St as (_ & S2 & S3 & S4 & (pl & S5) & S6).
  assert (I0 : In (hd 0 l) l) by (destruct l; [simpl in Q1; lia|left; auto]). destruct (S5 _ I0) as (x & X1 & X2). assert (x = h0) by congruence. subst x.
  destruct (claim_ok (hits s) (ncl s + 1) (p <? 900)%Z h0 ltac:(lia) l (inc s) None (q_len s (s_cons s H)) Hl) as (b & pre & post & P1 & P2 & P3 & P4).
  rewrite P2 in E. cbn [obind fst snd] in E. assert (Bt : b = true).
  { apply P4. split; [auto|]. split; [auto|]. split; [unfold wid; rewrite X2; exact S5|]. intros Qp. apply Z.ltb_lt in Qp. split; [auto|destruct l; auto]. }
  rewrite Bt in E. cbn [negb] in E. destruct (negb (ec && bc) && (length l <? 3)); [discriminate|]. apply ob in E. destruct E as (hl & _ & E). discriminate.
Qed.

Lemma obs_any s k s' : sound s -> make_obs s k = Ok s' -> sound s' /\ (s' = s \/ exists c, live s k c /\ s' = obsoleted s k c).
Proof.
  intros H E. pose proof E as E'. unfold make_obs in E. apply ob in E. destruct E as (c & E0 & E). apply idx_get in E0. destruct (cid c <=? 0)%Z eqn:Q.
  - injection E as <-. auto.
  - apply Z.leb_gt in Q. assert (Lv : live s k c) by (split; auto). rewrite (make_obs_ok s k c H Lv) in E'. injection E' as <-. split; [apply obsoleted_sound; auto|eauto].
Qed.

Theorem split_sound s k pos iv ec bc b s' : sound s -> split_cluster s k pos iv ec bc = Ok (b, s') -> sound s' /\ hits s' = hits s.
Proof.
  intros H E. pose proof (split_charge _ _ _ _ _ _ _ E) as E'. unfold split_cluster in E. apply ob in E. destruct E as (c & E0 & E). apply idx_get in E0.
  destruct (cid c <? 0)%Z eqn:Q; [injection E as _ <-; auto|]. apply ob in E. destruct E as (s0 & _ & E). pose proof (g_two _ _ (s_good s H k c E0)) as L2.
  assert (Hp : pos <= length (ch c)).
  { destruct (le_lt_dec pos (length (ch c))) as [|Q1]; [auto|]. exfalso. assert (B : (2 <? pos) = true) by (apply Nat.ltb_lt; lia). rewrite B in E. apply Nat.ltb_lt in Q1. rewrite Q1 in E. discriminate. }
  destruct (split_any s k c pos iv true true H E0 Hp ltac:(auto)) as (b2 & s2 & A1 & A2 & A3 & _). rewrite E' in A1. injection A1 as <- <-. auto.
Qed.

(** DoMerge of any two clusters in use of one plane *)
Lemma put_slots hs lo : forall l w w', put_wires hs lo w l = Ok w' -> length w' = length w /\
  forall j h, nth_error w' j = Some (Some h) -> nth_error w j = Some (Some h) \/ (In h l /\ wire hs h = lo + j).
Proof.
  unfold put_wires. induction l as [|a l IH]; intros w w' E; [injection E as <-; auto|]. cbn [foreach] in E. apply ob in E. destruct E as (w1 & E1 & E).
  apply ob in E1. destruct E1 as (x & Ex & E1). apply idx_get in Ex. destruct (hw x <? lo) eqn:Q; [discriminate|]. apply Nat.ltb_ge in Q.
  assert (Hx : hw x - lo < length w /\ w1 = upd w (hw x - lo) (Some a)).
  { unfold set_idx in E1. destruct (hw x - lo <? length w) eqn:B; [|discriminate]. apply Nat.ltb_lt in B. injection E1 as <-. auto. }
  destruct Hx as (Hx & ->). destruct (IH _ _ E) as (L & P). rewrite upd_length in L. split; [auto|]. intros j h Ej. destruct (P j h Ej) as [A|(A & B)]; [|right; split; [right; auto|auto]].
  rewrite nth_error_upd in A. destruct (j =? hw x - lo) eqn:B; [|auto]. apply Nat.eqb_eq in B. apply Nat.ltb_lt in Hx. rewrite Hx in A. cbn [andb] in A. injection A as <-. right. split; [left; auto|]. unfold wire. rewrite Ex. lia.
Qed.
Lemma repeat_none {A} n j (h : A) : nth_error (repeat None n) j = Some (Some h) -> False.
Proof. intros E. apply nth_error_In, repeat_spec in E. discriminate. Qed.

Lemma vtx_sound s v : sound s -> sound (set_vtx s v).
Proof. intros [[]]. repeat (constructor; auto). Qed.

Theorem merge_sound s k1 k2 c1 c2 fit p np ec bc s' : sound s -> live s k1 c1 -> live s k2 c2 -> cctp c1 = cctp c2 ->
  do_merge s k1 k2 fit p np ec bc = Ok s' -> sound s' /\ hits s' = hits s.
Proof.
  intros H L1 L2 Hct E. pose proof L1 as (E1 & Hc1). pose proof L2 as (E2 & Hc2).
  pose proof (s_good s H k1 c1 E1) as G1. pose proof (s_good s H k2 c2 E2) as G2.
  unfold do_merge in E. rewrite (idx_some _ _ _ E1), (idx_some _ _ _ E2) in E. cbn [obind] in E.
  destruct (length (ch c1) <? 3); [injection E as <-; auto|]. destruct (length (ch c2) <? 3); [injection E as <-; auto|]. cbv zeta in E.
  set (lo := if ew c2 <? ew c1 then ew c2 else ew c1) in *. set (hi := if negb (bw c1 <? bw c2) then bw c1 else bw c2) in *.
  destruct (hi + 2 <? lo); [discriminate|]. apply ob in E. destruct E as (w1 & W1 & E). apply ob in E. destruct E as (w2 & W2 & E).
  destruct fit; cbn [negb] in E; [|injection E as <-; auto].
  destruct (put_slots _ _ _ _ _ W1) as (_ & P1). destruct (put_slots _ _ _ _ _ W2) as (_ & P2).
  assert (Sl : forall j h, nth_error w2 j = Some (Some h) -> (In h (ch c1) \/ In h (ch c2)) /\ wire (hits s) h = lo + j).
  { intros j h Ej. destruct (P2 j h Ej) as [A|A]; [|tauto]. destruct (P1 j h A) as [B|B]; [exfalso; eapply repeat_none; eauto|tauto]. }
  set (l := somes (rev w2)) in *.
  assert (Ul : upstream (hits s) l) by (apply strong_up, (slots_down (hits s) _ lo); intros j h Ej; apply (Sl j h Ej)).
  assert (Sub : forall h, In h l -> In h (ch c1) \/ In h (ch c2)).
  { intros h I. apply in_somes in I. rewrite <- in_rev in I. apply In_nth_error in I. destruct I as (j & Ej). apply (Sl j h Ej). }
  apply ob in E. destruct E as (s1 & O1 & E). apply ob in E. destruct E as (s2 & O2 & E). apply ob in E. destruct E as ((b & s3) & T & E). cbn [fst snd] in E.
  destruct (obs_any s k1 s1 H O1) as (H1 & D1). destruct (obs_any s1 k2 s2 H1 O2) as (H2 & D2).
  rewrite (make_obs_ok s k1 c1 H L1) in O1. injection O1 as <-. clear D1.
  assert (F2 : hits s2 = hits s /\ length (inc s2) = length (inc s) /\ free s2 l /\ ncl s2 = ncl s).
  { destruct (Nat.eq_dec k1 k2) as [-> |Nk].
    - assert (c1 = c2) by congruence. subst c2. destruct D2 as [-> |(d & Ld & _)].
      + split; [reflexivity|]. split; [simpl; apply marks_len|]. split; [|reflexivity]. intros h I. apply (obs_free s k2 c1 H L1). destruct (Sub h I); auto.
      + apply (live_obsoleted s k2 c1 k2 d E1 Hc1) in Ld. destruct Ld as (_ & []). reflexivity.
    - destruct (two_obs s k1 k2 c1 c2 H L1 L2 Nk) as (_ & M2 & _ & _ & _ & F1 & F2 & _). rewrite M2 in O2. injection O2 as <-.
      split; [reflexivity|]. split; [simpl; rewrite !marks_len; reflexivity|]. split; [|reflexivity]. intros h I. destruct (Sub h I); [apply F1|apply F2]; auto. }
  destruct F2 as (Hh & Li & Fr & Nc).
  assert (Pl : in_plane (hits s) (cctp c1) l).
  { intros h I. destruct (Sub h I) as [J|J]; [apply (g_plane _ _ G1 h J)|rewrite Hct; apply (g_plane _ _ G2 h J)]. }
  assert (Hl : forall h, In h l -> h < length (hits s2)) by (intros h I; destruct (Pl h I) as (x & X & _); apply nth_error_Some; congruence).
  destruct (store_part s2 l p ec bc b s3 H2 T Hl) as [-> | ->].
  { intros A B. split; [auto|]. split; [auto|]. split; [apply (up_nodup (hits s)); auto|]. split; [auto|]. split; [exists (cctp c1); rewrite Hh; exact Pl|intros _; rewrite Hh; exact Ul]. }
  - cbn [negb] in E. destruct (store_sound s2 l p ec bc s3 H2 T) as (H3 & St & pl & P3 & ->). apply ob in E. destruct E as (s4 & V & E).
    assert (V' : exists v, s4 = set_vtx (stored s2 l p pl) v).
    { match type of V with (if ?c then _ else _) = _ => destruct c end; [apply ob in V; destruct V as (v & _ & V); injection V as <-; eauto|injection V as <-; eexists; reflexivity]. }
    destruct V' as (v & ->). unfold on_last in E. apply ob in E. destruct E as (n & En & E). injection E as <-. apply idx_get in En. cbn [tcl set_vtx stored] in En.
    rewrite app_length in En. simpl in En. replace (length (tcl s2) + 1 - 1) with (length (tcl s2)) in En by lia. rewrite nth_error_app2, Nat.sub_diag in En by lia. injection En as <-.
    split; [|exact Hh]. cbn [tcl set_vtx stored]. rewrite app_length. simpl length. replace (length (tcl s2) + 1 - 1) with (length (tcl s2)) by lia. rewrite upd_last.
    match goal with |- sound (set_tcl _ (_ ++ [?d])) => pose proof (last_touch_sound s2 l p pl d H2 St P3) as Lt end.
    apply (vtx_sound _ v) in Lt; [exact Lt|repeat split|intros _; rewrite Hh; exact Ul].
  - destruct b; cbn [negb] in E; [|injection E as <-; auto].
    destruct (store_sound s2 l p ec bc s2 H2 T) as (_ & _ & pl & _ & Q). exfalso. apply (f_equal (fun t => length (tcl t))) in Q. cbn [tcl stored] in Q. rewrite app_length in Q. simpl in Q. lia.
Qed.

(** MergeOverlap of any two clusters in use *)
Lemma while_sub hs ok : forall l r, while_wire hs ok l = Ok r -> forall h, In h r -> In h l.
Proof.
  induction l as [|a l IH]; intros r E h I; cbn [while_wire] in E; [injection E as <-; destruct I|]. apply ob in E. destruct E as (x & _ & E). destruct (ok (hw x)); [|injection E as <-; destruct I].
  apply ob in E. destruct E as (t & Et & E). injection E as <-. destruct I as [<-|I]; [left; auto|right; eapply IH; eauto].
Qed.
Lemma drop_sub hs e : forall l r, drop_to hs e l = Ok r -> forall h, In h r -> In h l.
Proof.
  induction l as [|a l IH]; intros r E h I; cbn [drop_to] in E; [injection E as <-; destruct I|]. apply ob in E. destruct E as (x & _ & E). destruct (e <=? hw x); [right; eapply IH; eauto|injection E as <-; auto].
Qed.
Lemma near_sub hs d e : forall l w w', near_line hs d e w l = Ok w' -> forall h v, In (Some h, v) w' -> In (Some h, v) w \/ In h l.
Proof.
  unfold near_line. induction l as [|a l IH]; intros w w' E h v I; cbn [foreach] in E; [injection E as <-; auto|]. apply ob in E. destruct E as (w1 & E1 & E).
  destruct (IH _ _ E h v I) as [J|J]; [|right; right; auto]. apply ob in E1. destruct E1 as (x & _ & E1). destruct (hw x <? e); [discriminate|]. apply ob in E1. destruct E1 as (o & _ & E1).
  destruct (snd o <? d a)%Z; injection E1 as <-; [auto|]. apply In_nth_error in J. destruct J as (j & Ej). rewrite nth_error_upd in Ej. destruct ((j =? hw x - e) && (hw x - e <? length w)); [|left; eapply nth_error_In; eauto].
  injection Ej as -> _. right. left. auto.
Qed.
Theorem overlap_sound s k1 k2 c1 c2 d mx fit ec bc s' : sound s -> live s k1 c1 -> live s k2 c2 -> k1 <> k2 ->
  overlap_pair s k1 k2 d mx fit ec bc = Ok s' -> sound s' /\ hits s' = hits s.
Proof.
  intros H L1 L2 Hne E. pose proof L1 as (E1 & Hc1). pose proof L2 as (E2 & Hc2).
  unfold overlap_pair in E. rewrite (idx_some _ _ _ E1), (idx_some _ _ _ E2) in E. cbn [obind] in E.
  apply ob in E. destruct E as (o & Eo & E). destruct (negb fit || (length o <? 3)); [injection E as <-; auto|]. apply ob in E. destruct E as (l & El & E).
  assert (So : forall h, In h o -> In h (ch c1) \/ In h (ch c2)).
  { unfold overlap_hits in Eo. cbv zeta in Eo. apply ob in Eo. destruct Eo as (li & A1 & Eo). apply ob in Eo. destruct Eo as (lj & A2 & Eo). apply ob in Eo. destruct Eo as (w1 & A3 & Eo). apply ob in Eo. destruct Eo as (w2 & A4 & Eo). injection Eo as <-.
    intros h I. apply (Permutation_in _ (isort_perm _ _)) in I. apply in_somes, in_map_iff in I. destruct I as ((o1 & v) & Q & I). simpl in Q. subst o1.
    destruct (near_sub _ _ _ _ _ _ A4 h v I) as [J|J]; [destruct (near_sub _ _ _ _ _ _ A3 h v J) as [K|K]|].
    - apply repeat_spec in K. discriminate.
    - left. eapply while_sub; eauto.
    - right. apply in_rev. eapply while_sub; eauto. }
  assert (Sub : forall h, In h l -> In h (ch c1) \/ In h (ch c2)).
  { unfold overlap_list in El. apply ob in El. destruct El as (a & A1 & El). apply ob in El. destruct El as (z & A2 & El). injection El as <-. intros h I. rewrite !in_app_iff in I. destruct I as [I|[I|I]]; [right; eapply while_sub; eauto|auto|left; eapply drop_sub; eauto]. }
  destruct (two_obs s k1 k2 c1 c2 H L1 L2 Hne) as (M1 & M2 & S1 & S2 & _). rewrite M1 in E. cbn [obind] in E. rewrite M2 in E. cbn [obind] in E.
  apply ob in E. destruct E as ((b & s3) & T & E). cbn [fst snd] in E. destruct b; cbn [negb] in E.
  - destruct (store_sound _ _ _ _ _ _ S2 T) as (H3 & St & pl & P3 & ->). rewrite on_last_stored in E. injection E as <-. split; [|reflexivity].
    apply last_touch_sound; [auto|exact St|auto|repeat split|]. apply St.
  - assert (Hl : forall h, In h l -> h < length (hits s)) by (intros h I; destruct (Sub h I); [eapply (good_in s k1 c1)|eapply (good_in s k2 c2)]; eauto).
    apply tmp_charge in T. pose proof (s_ncl s H). pose proof (s_max s H).
    destruct (tmp_store_ok (obsoleted (obsoleted s k1 c1) k2 c2) l (proc c1 + 500) true true) as (b & s4 & B1 & _ & _ & B4); [apply (q_len _ (s_cons _ S2))|simpl; lia|exact Hl|auto|].
    rewrite T in B1. injection B1 as <- <-. destruct (B4 eq_refl) as (pre & post & P1 & ->).
    rewrite (undo_two s k1 k2 c1 c2 pre _ H L1 L2 Hne) in E; [injection E as <-; auto|]. intros h I. apply Sub. rewrite P1. apply in_or_app. auto.
Qed.

(** a cluster replaced by a variant of itself *)
Lemma marks_twice i a b v : (forall h, In h a -> In h b) -> marks (marks i a v) b v = marks i b v.
Proof.
  intros Sub. apply nth_ext'; [rewrite !marks_len; auto|]. intros h Hh. rewrite !marks_len in Hh. rewrite !marks_nth by (rewrite ?marks_len; auto).
  destruct (in_dec Nat.eq_dec h b) as [I|I]; [auto|]. destruct (in_dec Nat.eq_dec h a) as [J|J]; [destruct (I (Sub h J))|auto].
Qed.
Lemma mark_obs s k c a : sound s -> live s k c -> (forall h, In h a -> In h (ch c)) ->
  (do i <- mark (inc s) a 0; make_obs (set_inc s i) k) = Ok (obsoleted s k c).
Proof.
  intros H Lv Sub. pose proof Lv as (E & Hc). pose proof (q_len s (s_cons s H)) as L.
  assert (In1 : forall h, In h (ch c) -> h < length (inc s)) by (intros h I; rewrite L; eapply good_in; eauto).
  rewrite mark_ok by auto. cbn [obind]. unfold make_obs. cbn [tcl set_inc]. rewrite (idx_some _ _ _ E). cbn [obind]. destruct (cid c <=? 0)%Z eqn:Q; [apply Z.leb_le in Q; lia|].
  cbn [inc set_inc]. rewrite mark_ok by (intros h I; rewrite marks_len; auto). cbn [obind]. rewrite marks_twice by auto. reflexivity.
Qed.

Theorem extend_sound s k c ds ec s' : sound s -> live s k c -> (0 <= proc c)%Z -> NoDup ds -> free s ds -> in_plane (hits s) (cctp c) ds ->
  extend_ds s k ds ec = Ok s' -> sound s' /\ hits s' = hits s /\
    ((ncl s < 32767)%Z -> exists n, tcl s' = upd (tcl s) k (set_cid c (- cid c)) ++ [n] /\ ch n = isort (fun i j => j <? i) ds ++ ch c /\ bv n = bv c /\ ev n = ev c).
Proof.
  intros H Lv Hp Nd Fr Pl E. pose proof Lv as (E0 & Hc). pose proof (s_good s H k c E0) as G. unfold extend_ds in E. rewrite (idx_some _ _ _ E0) in E. cbn [obind] in E. cbv zeta in E. set (l := isort (fun i j => j <? i) ds ++ ch c) in *.
  assert (E' : (do s0 <- (do i <- mark (inc s) (ch c) 0; make_obs (set_inc s i) k); do r <- tmp_store s0 l (proc c + 5000) ec true; if negb (fst r) then Ok (snd r) else on_last (snd r) (fun n => set_ev (set_bv n (bv c)) (ev c))) = Ok s').
  { destruct (mark (inc s) (ch c) 0); simpl in E |- *; auto. }
  clear E. rename E' into E. rewrite (mark_obs s k c (ch c) H Lv) in E by auto. cbn [obind] in E.
  pose proof (obsoleted_sound s k c H Lv) as H0. pose proof (obs_free s k c H Lv) as F0. set (s0 := obsoleted s k c) in *.
  assert (Ml : forall h, In h l <-> In h ds \/ In h (ch c)).
  { intros h. unfold l. rewrite in_app_iff. split; intros [I|I]; auto; left; [apply (Permutation_in _ (isort_perm _ _) I)|apply (Permutation_in _ (Permutation_sym (isort_perm _ _)) I)]. }
  assert (Dj : forall h, In h ds -> ~ In h (ch c)).
  { intros h I J. pose proof (Fr h I) as A. rewrite (q_own s (s_cons s H) k c h Lv J) in A. injection A as A. lia. }
  assert (Pl' : in_plane (hits s) (cctp c) l) by (intros h I; apply Ml in I; destruct I as [I|I]; [apply Pl; auto|apply (g_plane _ _ G h I)]).
  assert (Hl : forall h, In h l -> h < length (hits s0)) by (intros h I; destruct (Pl' h I) as (x & X & _); apply nth_error_Some; simpl; congruence).
  assert (St : (ncl s0 < 32767)%Z -> storable s0 l (proc c + 5000)).
  { intros A. split; [unfold l; rewrite app_length; pose proof (g_two _ _ G); lia|]. split; [auto|]. split.
    - unfold l. apply nodup_app; [apply (Permutation_NoDup (Permutation_sym (isort_perm _ _)) Nd)|apply (g_nodup _ _ G)|]. intros h I J. apply (Dj h); [apply (Permutation_in _ (isort_perm _ _) I)|auto].
    - split; [|split; [exists (cctp c); exact Pl'|lia]]. intros h I. apply Ml in I. destruct I as [I|I]; [|apply F0; auto]. simpl. pose proof (Fr h I) as A2. rewrite marks_nth by (apply nth_error_Some; congruence). destruct (in_dec Nat.eq_dec h (ch c)); auto. }
  apply ob in E. destruct E as ((b & s3) & T & E). cbn [fst snd] in E. destruct (store_part s0 l _ ec true b s3 H0 T Hl) as [-> |Q]; [auto| |].
  - cbn [negb] in E. destruct (store_sound _ _ _ _ _ _ H0 T) as (H3 & St' & pl & P3 & ->). rewrite on_last_stored in E. injection E as <-. split; [|split; [reflexivity|]].
    + apply last_touch_sound; [auto|exact St'|auto|repeat split|]. apply St'.
    + intros _. eexists. split; [reflexivity|]. repeat split.
  - destruct b.
    + exfalso. destruct (store_sound _ _ _ _ _ _ H0 T) as (_ & _ & pl & _ & Q2). rewrite Q in Q2. apply (f_equal (fun t => length (tcl t))) in Q2. cbn [tcl stored] in Q2. rewrite app_length in Q2. simpl in Q2. lia.
    + subst s3. cbn [negb] in E. injection E as <-. split; [auto|]. split; [reflexivity|]. intros A. exfalso.
      pose proof (s_ncl s H). destruct (tmp_store_ok s0 l (proc c + 5000) true true) as (b & s4 & B1 & B2 & _); [apply (q_len _ (s_cons _ H0))|simpl; lia|exact Hl|auto|]. apply tmp_charge in T. rewrite T in B1. injection B1 as <- _. discriminate (proj2 B2 (St A)).
Qed.

Theorem lop_sound s k c n iv ec bc s' : sound s -> live s k c -> lop s k n iv ec bc = Ok s' -> sound s' /\ hits s' = hits s /\
  (2 + n <= length (ch c) -> (ncl s < 32767)%Z -> exists d, tcl s' = upd (tcl s) k (set_cid c (- cid c)) ++ [d] /\ ch d = firstn (length (ch c) - n) (ch c) /\ bv d = bv c /\ ev d = iv) /\
  (length (ch c) < 2 + n -> tcl s' = upd (tcl s) k (set_cid c (- cid c))).
Proof.
  intros H Lv E. pose proof Lv as (E0 & Hc). pose proof (s_good s H k c E0) as G. unfold lop in E. rewrite (idx_some _ _ _ E0) in E. cbn [obind] in E. destruct (length (ch c) <? n) eqn:Qn; [discriminate|]. apply Nat.ltb_ge in Qn.
  set (m := length (ch c) - n) in *.
  assert (E' : (do s0 <- (do i <- mark (inc s) (rev (skipn m (ch c))) 0; make_obs (set_inc s i) k); do r <- tmp_store s0 (firstn m (ch c)) (proc c + 1000) ec bc; if negb (fst r) then Ok (snd r) else on_last (snd r) (fun d => set_ev (set_bv d (bv c)) iv)) = Ok s').
  { destruct (mark (inc s) (rev (skipn m (ch c))) 0); simpl in E |- *; auto. }
  clear E. rename E' into E. rewrite (mark_obs s k c _ H Lv) in E by (intros h I; rewrite <- in_rev in I; eapply in_skipn; eauto). cbn [obind] in E.
  pose proof (obsoleted_sound s k c H Lv) as H0. pose proof (obs_free s k c H Lv) as F0. set (s0 := obsoleted s k c) in *.
  destruct (NoDup_halves m (ch c) (g_nodup _ _ G)) as (Nd & _ & _).
  assert (Lm : length (firstn m (ch c)) = m) by (apply firstn_length_le; lia).
  assert (St : 2 <= length (firstn m (ch c)) -> (ncl s0 < 32767)%Z -> storable s0 (firstn m (ch c)) (proc c + 1000)).
  { intros A B. apply (part_storable s k c s0 (firstn m (ch c)) (proc c + 1000) H Lv); auto; [simpl; apply marks_len|intros h I; eapply in_firstn; eauto|intros h I; apply F0; eapply in_firstn; eauto|].
    intros Q. apply Sorted_firstn. apply (s_up s H k c Lv). lia. }
  assert (Hl : forall h, In h (firstn m (ch c)) -> h < length (hits s0)) by (intros h I; simpl; eapply (good_in s k c); eauto; eapply in_firstn; eauto).
  apply ob in E. destruct E as ((b & s3) & T & E). cbn [fst snd] in E. destruct (store_part s0 _ _ ec bc b s3 H0 T Hl St) as [-> |Q].
  - cbn [negb] in E. destruct (store_sound _ _ _ _ _ _ H0 T) as (H3 & St' & pl & P3 & ->). rewrite on_last_stored in E. injection E as <-. split; [|split; [reflexivity|split]].
    + apply last_touch_sound; [auto|exact St'|auto|repeat split|]. apply St'.
    + intros _ _. eexists. split; [reflexivity|]. repeat split.
    + intros A. destruct St' as (A2 & _). lia.
  - destruct b.
    + exfalso. destruct (store_sound _ _ _ _ _ _ H0 T) as (_ & _ & pl & _ & Q2). rewrite Q in Q2. apply (f_equal (fun t => length (tcl t))) in Q2. cbn [tcl stored] in Q2. rewrite app_length in Q2. simpl in Q2. lia.
    + subst s3. cbn [negb] in E. injection E as <-. split; [auto|]. split; [reflexivity|]. split; [|reflexivity]. intros A B. exfalso.
      pose proof (s_ncl s H). destruct (tmp_store_ok s0 (firstn m (ch c)) (proc c + 1000) true true) as (b & s4 & B1 & B2 & _); [apply (q_len _ (s_cons _ H0))|simpl; lia|exact Hl|auto|]. apply tmp_charge in T. rewrite T in B1. injection B1 as <- _. discriminate (proj2 B2 (St ltac:(lia) B)).
Qed.

Theorem kill_sound : forall l s s', sound s -> kill_all s l = Ok s' -> sound s' /\ hits s' = hits s.
Proof.
  unfold kill_all. induction l as [|k l IH]; intros s s' H E; cbn [foreach] in E; [injection E as <-; auto|]. apply ob in E. destruct E as (s1 & E1 & E).
  assert (H1 : sound s1 /\ hits s1 = hits s); [|destruct H1 as (H1 & Q); rewrite <- Q; apply IH; auto]. clear IH E.
  apply ob in E1. destruct E1 as (c & E0 & E1). apply idx_get in E0. destruct (cid c <? 0)%Z eqn:Q; [injection E1 as <-; auto|]. apply Z.ltb_ge in Q. assert (Hc : (0 < cid c)%Z) by (destruct (s_id s H k c E0); lia). assert (Lv : live s k c) by (split; auto).
  assert (Lk : k < length (tcl s)) by (apply nth_error_Some; congruence).
  assert (R : s1 = set_tcl (obsoleted s k c) (upd (tcl (obsoleted s k c)) k (set_proc (set_cid c (- cid c)) 666))).
  { unfold make_obs in E1. cbn [tcl set_tcl] in E1. rewrite (idx_some _ k (set_proc c 666)) in E1 by (rewrite nth_error_upd, Nat.eqb_refl; apply Nat.ltb_lt in Lk; rewrite Lk; reflexivity). cbn [obind cid set_proc] in E1.
    destruct (cid c <=? 0)%Z eqn:Q2; [apply Z.leb_le in Q2; lia|]. cbn [inc ch] in E1. cbn [set_tcl inc] in E1. rewrite mark_ok in E1 by (intros h I; rewrite (q_len s (s_cons s H)); eapply good_in; eauto). cbn [obind] in E1. injection E1 as <-.
    unfold obsoleted. cbn [tcl set_inc set_tcl]. rewrite !upd_upd. reflexivity. }
  rewrite R. split; [|reflexivity]. eapply touch_sound; [apply obsoleted_sound; auto|cbn [tcl obsoleted set_inc set_tcl]; rewrite nth_error_upd, Nat.eqb_refl; apply Nat.ltb_lt in Lk; rewrite Lk; reflexivity|repeat split|simpl; lia].
Qed.
