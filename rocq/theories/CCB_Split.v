(** SplitCluster in all cases. *)
From Verif Require Import Base CCB_Model CCB_Spec CCB_Store CCB_Ops.
Local Open Scope nat_scope.

Lemma store_none s l p ec bc : length l < 2 \/ ncl s = 32767%Z -> tmp_store s l p ec bc = Ok (false, s).
Proof.
  intros Hd. unfold tmp_store. destruct (length l <? 2) eqn:E; [reflexivity|]. apply Nat.ltb_ge in E. destruct (length (hits s) <? length l); [reflexivity|].
  destruct Hd as [Q|Q]; [lia|]. rewrite Q. reflexivity.
Qed.
(** an obsolete cluster at the end *)
Lemma add_dead s d : sound s -> (ncl s < 32767)%Z -> good (hits s) d -> cid d = (- Z.of_nat (S (length (tcl s))))%Z ->
  sound (ST (hits s) (inc s) (tcl s ++ [d]) (ncl s + 1) (vtx s)).
Proof.
  intros H Hn G Hd. pose proof (s_ncl s H) as N.
  assert (Nth : forall k c, nth_error (tcl s ++ [d]) k = Some c -> nth_error (tcl s) k = Some c \/ (k = length (tcl s) /\ c = d)).
  { intros k c E. destruct (lt_dec k (length (tcl s))) as [Q|Q]; [left; rewrite nth_error_app1 in E; auto|]. right. rewrite nth_error_app2 in E by lia.
    destruct (k - length (tcl s)) as [|m] eqn:Em; simpl in E; [injection E as <-; split; [lia|auto]|destruct m; discriminate]. }
  constructor.
  - constructor.
    + apply (q_len s (s_cons s H)).
    + intros k c h (E & Hc) Hh. destruct (Nth k c E) as [E'|(-> & ->)]; [apply (q_own s (s_cons s H) k c h); [split; auto|auto]|lia].
    + intros h v E Hv. destruct (q_back s (s_cons s H) h v E Hv) as (k & c & A & (B1 & B2) & D). exists k, c. split; [auto|]. split; [|auto]. split; [|auto]. cbn [tcl]. rewrite nth_error_app1; [auto|apply nth_error_Some; congruence].
  - cbn [tcl ncl]. rewrite app_length. simpl. lia.
  - cbn [ncl]. lia.
  - intros k c E. destruct (Nth k c E) as [E'|(-> & ->)]; [apply (s_id s H k c E')|right; auto].
  - intros k c E. destruct (Nth k c E) as [E'|(-> & ->)]; [apply (s_good s H k c E')|auto].
  - intros k c (E & Hc) Hp. destruct (Nth k c E) as [E'|(-> & ->)]; [apply (s_up s H k c); [split; auto|auto]|lia].
Qed.

Lemma upd_swap {A} (a b : A) : forall l k m, k <> m -> upd (upd l k b) m a = upd (upd l m a) k b.
Proof. induction l as [|x l IH]; intros [|k] [|m] Hne; simpl; auto; try congruence. f_equal. apply IH. congruence. Qed.

(** what SplitCluster does after a failure of its second TmpStore, when the first piece was not stored *)
Lemma kill_last s k c : sound s -> live s k c ->
  exists s', (do s1 <- make_obs (obsoleted s k c) (length (tcl (obsoleted s k c)) - 1); restore s1 k) = Ok s' /\ sound s' /\
    hits s' = hits s /\ vtx s' = vtx s /\
    (s' = s \/ exists d, S k < length (tcl s) /\ live s (length (tcl s) - 1) d /\ s' = obsoleted s (length (tcl s) - 1) d).
Proof.
  intros H Lv. pose proof Lv as (E & Hc). assert (Lk : k < length (tcl s)) by (apply nth_error_Some; congruence).
  set (m := length (tcl s) - 1). replace (length (tcl (obsoleted s k c)) - 1) with m by (simpl; rewrite upd_length; reflexivity).
  pose proof (obsoleted_sound s k c H Lv) as H0.
  assert (Back : restore (obsoleted s k c) k = Ok s).
  { destruct (obsolete_restore s k c H Lv) as (s' & A & B). rewrite (make_obs_ok s k c H Lv) in A. injection A as <-. exact B. }
  destruct (nth_error (tcl (obsoleted s k c)) m) as [d|] eqn:Ed; [|apply nth_error_None in Ed; simpl in Ed; rewrite upd_length in Ed; lia].
  destruct (Z_le_gt_dec (cid d) 0) as [Q|Q].
  - exists s. split; [|split; [auto|]; split; [auto|]; split; auto]. unfold make_obs. rewrite (idx_some _ _ _ Ed). cbn [obind]. assert (B : (cid d <=? 0)%Z = true) by (apply Z.leb_le; auto). rewrite B. exact Back.
  - assert (Ld0 : live (obsoleted s k c) m d) by (split; [auto|lia]). assert (Ld : live s m d /\ m <> k) by (apply live_obsoleted in Ld0; auto). destruct Ld as (Ld & Hne).
    rewrite (make_obs_ok _ m d H0 Ld0). cbn [obind]. exists (obsoleted s m d).
    assert (Dj : forall h, In h (ch c) -> In h (ch d) -> False) by (intros h I J; apply Hne; symmetry; eapply (owner_unique s k m c d h); eauto).
    split; [|split; [apply obsoleted_sound; auto|]; split; [reflexivity|]; split; [reflexivity|]; right; exists d; split; [unfold m in *; lia|auto]].
    pose proof (obsoleted_sound s m d H Ld) as Hm.
    assert (Lc : live (obsoleted s m d) k c) by (apply live_obsoleted; [apply Ld|apply Ld|split; auto]).
    rewrite (restore_back (obsoleted s m d) k c _ [] Hm Lc).
    + rewrite app_nil_r. reflexivity.
    + reflexivity.
    + simpl. rewrite !marks_len. reflexivity.
    + intros h Hh N. simpl in *. rewrite marks_len in Hh. rewrite !marks_nth by (rewrite ?marks_len; auto). destruct (in_dec Nat.eq_dec h (ch d)); [reflexivity|]. destruct (in_dec Nat.eq_dec h (ch c)); [contradiction|reflexivity].
    + simpl. rewrite app_nil_r. apply upd_swap. congruence.
Qed.

Theorem split_any s k c pos iv ec bc : sound s -> nth_error (tcl s) k = Some c -> pos <= length (ch c) ->
  (length (ch c) = 2 -> pos = 0 -> ec = true /\ bc = true) ->
  exists b s', split_cluster s k pos iv ec bc = Ok (b, s') /\ sound s' /\ hits s' = hits s /\ vtx s' = vtx s /\
    (b = false -> s' = s \/
       (2 < pos /\ exists d, tcl s' = tcl s ++ [d] /\ cid d = (- (ncl s + 1))%Z /\ ch d = firstn pos (ch c) /\ inc s' = inc s) \/
       (pos <= 2 /\ exists m d, S m = length (tcl s) /\ k <> m /\ live s m d /\ s' = obsoleted s m d)).
Proof.
  intros H E Hpos Hch. pose proof (q_len s (s_cons s H)) as L.
  destruct (cid c <? 0)%Z eqn:Ec.
  { exists false, s. unfold split_cluster. rewrite (idx_some _ _ _ E). cbn [obind]. rewrite Ec. auto 10. }
  apply Z.ltb_ge in Ec. assert (Hc : (0 < cid c)%Z) by (destruct (s_id s H k c E); lia). assert (Lv : live s k c) by (split; auto).
  pose proof (g_two _ _ (s_good s H k c E)) as L2. pose proof (s_max s H) as Mx. pose proof (s_ncl s H) as Nc.
  destruct (Z_lt_ge_dec (ncl s) 32766) as [Q|Q].
  - destruct (le_lt_dec 3 (length (ch c))) as [L3|L3].
    { destruct (split_ok s k c pos iv ec bc H Lv L3 Hpos Q) as (s' & A & B & C1 & C2 & _). exists true, s'. split; [exact A|]. split; [auto|]. split; [auto|]. split; [auto|]. discriminate. }
    assert (Eq2 : length (ch c) = 2) by lia. unfold split_cluster. rewrite (idx_some _ _ _ E). cbn [obind]. assert (B : (cid c <? 0)%Z = false) by (apply Z.ltb_ge; lia). rewrite B. clear B.
    rewrite (make_obs_ok s k c H Lv). cbn [obind]. assert (B : (2 <? pos) = false) by (apply Nat.ltb_ge; lia). rewrite B. clear B. cbn [obind fst snd negb].
    assert (B : (length (ch c) <? 3) = true) by (apply Nat.ltb_lt; lia). rewrite B. clear B. cbn [orb]. cbv zeta.
    pose proof (obs_free s k c H Lv) as F0. pose proof (obsoleted_sound s k c H Lv) as H0.
    assert (Us : foreach (skipn pos (ch c)) (fun (b : bool) h => if b then Ok true else do v <- idx (inc (obsoleted s k c)) h; Ok (negb (v =? 0)%Z)) false = Ok false).
    { assert (F1 : free (obsoleted s k c) (skipn pos (ch c))) by (intros h I; apply F0; eapply in_skipn; eauto). clear -F1. revert F1. unfold free. generalize (inc (obsoleted s k c)). intros ii F1.
      induction (skipn pos (ch c)) as [|h l IH]; [reflexivity|]. cbn [foreach]. rewrite (idx_some _ _ _ (F1 h (or_introl eq_refl))). cbn [obind Z.eqb negb]. apply IH. intros a Ha. apply F1. right. auto. }
    rewrite Us. cbn [obind]. destruct pos as [|pos].
    + cbn [skipn]. destruct (Hch Eq2 eq_refl) as (-> & ->).
      destruct (part_storable s k c (obsoleted s k c) (ch c) (proc c) H Lv eq_refl) as (St & Pl); [simpl; apply marks_len|auto|auto|apply (g_nodup _ _ (s_good s H k c E))|lia|simpl; lia|intros P; apply (s_up s H k c Lv P)|].
      destruct (tmp_store_ok (obsoleted s k c) (ch c) (proc c) true true) as (b & s' & T1 & T2 & T3 & _); [apply (q_len _ (s_cons _ H0))|simpl; lia|intros h I; eapply (good_in s k c H E); eauto|auto|].
      rewrite T1. cbn [obind fst snd]. assert (b = true) by (apply T2; auto). subst b. cbn [negb]. destruct (T3 eq_refl) as (pl & P1 & ->). rewrite on_last_stored. cbn [obind].
      eexists true, _. split; [reflexivity|]. split; [apply last_touch_sound; auto; [repeat split|intros P; apply (s_up s H k c Lv P)]|]. split; [reflexivity|]. split; [reflexivity|discriminate].
    + rewrite store_none by (left; rewrite skipn_length; lia). cbn [obind fst snd negb].
      destruct (kill_last s k c H Lv) as (s' & A & B & C1 & C2 & D). destruct (make_obs _ _) as [t| |] in *; cbn [obind] in *; try discriminate. rewrite A. cbn [obind].
      exists false, s'. split; [reflexivity|]. split; [auto|]. split; [auto|]. split; [auto|]. intros _. destruct D as [-> |(d & D1 & D2 & ->)]; [auto|]. right. right. split; [lia|]. exists (length (tcl s) - 1), d.
      split; [lia|]. split; [lia|]. auto.
  - unfold split_cluster. rewrite (idx_some _ _ _ E). cbn [obind]. assert (B : (cid c <? 0)%Z = false) by (apply Z.ltb_ge; lia). rewrite B. clear B.
    rewrite (make_obs_ok s k c H Lv). cbn [obind]. pose proof (obs_free s k c H Lv) as F0. pose proof (obsoleted_sound s k c H Lv) as H0.
    set (s0 := obsoleted s k c) in *. assert (L0 : length (inc s0) = length (inc s)) by (simpl; apply marks_len).
    assert (Back : restore s0 k = Ok s).
    { destruct (obsolete_restore s k c H Lv) as (s' & A & B). rewrite (make_obs_ok s k c H Lv) in A. injection A as <-. exact B. }
    destruct (NoDup_halves pos (ch c) (g_nodup _ _ (s_good s H k c E))) as (Nd1 & Nd2 & Dj).
    destruct (2 <? pos) eqn:E2.
    + apply Nat.ltb_lt in E2. destruct (length (ch c) <? pos) eqn:E3; [apply Nat.ltb_lt in E3; lia|].
      assert (Lf : length (firstn pos (ch c)) = pos) by (rewrite firstn_length; lia).
      destruct (Z.eq_dec (ncl s) 32767) as [Z1|Z1].
      { rewrite store_none by (right; exact Z1). cbn [obind fst snd negb]. rewrite Back. cbn [obind fst negb]. exists false, s. auto 10. }
      destruct (part_storable s k c s0 (firstn pos (ch c)) (proc c) H Lv eq_refl L0) as (St & Pl); [apply in_firstn|intros h I; apply F0; eapply in_firstn; eauto|auto|lia|simpl; lia|intros P; apply Sorted_firstn, (s_up s H k c Lv P)|].
      destruct (tmp_store_ok s0 (firstn pos (ch c)) (proc c) true true) as (b & s' & T1 & T2 & T3 & _); [apply (q_len s0 (s_cons s0 H0))|simpl; lia|intros h I; eapply (good_in s k c H E); eapply in_firstn; eauto|auto|].
      rewrite T1. cbn [obind fst snd]. assert (b = true) by (apply T2; auto). subst b. cbn [negb]. destruct (T3 eq_refl) as (pl & P1 & ->). rewrite on_last_stored. cbn [obind fst snd negb]. cbv zeta.
      set (d := set_bv (set_ev (new_clus s0 (firstn pos (ch c)) (proc c) pl) iv) (bv c)).
      set (s1 := set_tcl (stored s0 (firstn pos (ch c)) (proc c) pl) (tcl s0 ++ [d])).
      assert (H1 : sound s1) by (apply last_touch_sound; auto; [repeat split|intros P; apply Sorted_firstn, (s_up s H k c Lv P)]).
      destruct ((length (ch c) <? 3) || (pos <? length (ch c) - 3)) eqn:E4.
      * assert (Fr1 : free s1 (skipn pos (ch c))).
        { intros h I. unfold s1. cbn [inc set_tcl stored]. rewrite marks_nth by (rewrite L0, L; eapply (good_in s k c H E); eapply in_skipn; eauto).
          destruct (in_dec Nat.eq_dec h (firstn pos (ch c))) as [J|J]; [exfalso; eapply Dj; eauto|]. apply F0. eapply in_skipn; eauto. }
        assert (Us : foreach (skipn pos (ch c)) (fun (b : bool) h => if b then Ok true else do v <- idx (inc s1) h; Ok (negb (v =? 0)%Z)) false = Ok false).
        { clear -Fr1. revert Fr1. unfold free. generalize (inc s1). intros ii F1. induction (skipn pos (ch c)) as [|h l IH]; [reflexivity|]. cbn [foreach]. rewrite (idx_some _ _ _ (F1 h (or_introl eq_refl))). cbn [obind Z.eqb negb]. apply IH. intros a Ha. apply F1. right. auto. }
        rewrite Us. cbn [obind]. rewrite store_none by (right; simpl; lia). cbn [obind fst snd negb].
        assert (Ll : length (tcl s1) - 1 = length (tcl s0)) by (unfold s1; cbn [tcl set_tcl]; rewrite app_length; simpl; lia). rewrite Ll.
        assert (Ld : live s1 (length (tcl s0)) d) by (split; [unfold s1; cbn [tcl set_tcl]; rewrite nth_error_app2, Nat.sub_diag by lia; reflexivity|simpl; lia]).
        rewrite (make_obs_ok s1 _ d H1 Ld). cbn [obind].
        set (dd := set_cid d (- cid d)).
        rewrite (restore_back s k c (obsoleted s1 (length (tcl s0)) d) [dd] H Lv).
        -- cbn [obind]. exists false, (ST (hits s) (inc s) (tcl s ++ [dd]) (ncl s + 1) (vtx s)). split; [reflexivity|]. split; [|split; [reflexivity|]; split; [reflexivity|]].
           ++ apply add_dead; [auto|lia| |unfold dd; simpl; lia]. unfold dd. apply good_cid. pose proof (s_good s1 H1 (length (tcl s0)) d (proj1 Ld)) as G. exact G.
           ++ intros _. right. left. split; [auto|]. exists dd. split; [reflexivity|]. split; [unfold dd; simpl; lia|]. split; reflexivity.
        -- reflexivity.
        -- simpl. rewrite !marks_len. reflexivity.
        -- intros h Hh N. simpl. rewrite !marks_nth by (rewrite ?marks_len; auto). destruct (in_dec Nat.eq_dec h (firstn pos (ch c))) as [I|I]; [exfalso; apply N; eapply in_firstn; eauto|]. destruct (in_dec Nat.eq_dec h (ch c)); [contradiction|reflexivity].
        -- unfold obsoleted. cbn [tcl set_inc set_tcl]. unfold s1. cbn [tcl set_tcl]. rewrite upd_last. reflexivity.
      * exists true, s1. split; [reflexivity|]. split; [auto|]. split; [reflexivity|]. split; [reflexivity|discriminate].
    + cbn [obind fst snd negb]. cbv zeta. apply Nat.ltb_ge in E2. destruct ((length (ch c) <? 3) || (pos <? length (ch c) - 3)) eqn:E4; [|exists true, s0; split; [reflexivity|]; split; [auto|]; split; [reflexivity|]; split; [reflexivity|discriminate]].
      assert (Us : foreach (skipn pos (ch c)) (fun (b : bool) h => if b then Ok true else do v <- idx (inc s0) h; Ok (negb (v =? 0)%Z)) false = Ok false).
      { assert (F1 : free s0 (skipn pos (ch c))) by (intros h I; apply F0; eapply in_skipn; eauto). clear -F1. revert F1. unfold free. generalize (inc s0). intros ii F1.
        induction (skipn pos (ch c)) as [|h l IH]; [reflexivity|]. cbn [foreach]. rewrite (idx_some _ _ _ (F1 h (or_introl eq_refl))). cbn [obind Z.eqb negb]. apply IH. intros a Ha. apply F1. right. auto. }
      rewrite Us. cbn [obind].
      destruct (Z.eq_dec (ncl s) 32767) as [Z1|Z1]; [|destruct (le_lt_dec 2 (length (skipn pos (ch c)))) as [Q2|Q2]].
      * rewrite store_none by (right; exact Z1). cbn [obind fst snd negb].
        destruct (kill_last s k c H Lv) as (s' & A & B & C1 & C2 & D). fold s0 in A. destruct (make_obs _ _) as [t| |] in *; cbn [obind] in *; try discriminate. rewrite A. cbn [obind].
        exists false, s'. split; [reflexivity|]. split; [auto|]. split; [auto|]. split; [auto|]. intros _. destruct D as [-> |(d & D1 & D2 & ->)]; [auto|]. right. right. split; [lia|]. exists (length (tcl s) - 1), d.
        split; [lia|]. split; [lia|]. auto.
      * rewrite skipn_length in Q2.
        destruct (part_storable s k c s0 (skipn pos (ch c)) (proc c) H Lv eq_refl L0) as (St & Pl); [apply in_skipn|intros h I; apply F0; eapply in_skipn; eauto|auto|rewrite skipn_length; lia|simpl; lia|intros P; apply Sorted_skipn, (s_up s H k c Lv P)|].
        destruct (tmp_store_ok s0 (skipn pos (ch c)) (proc c) ec bc) as (b & s' & T1 & T2 & T3 & _); [apply (q_len s0 (s_cons s0 H0))|simpl; lia|intros h I; eapply (good_in s k c H E); eapply in_skipn; eauto| |].
        { rewrite skipn_length. destruct (Nat.eq_dec (length (ch c) - pos) 2) as [Q3|Q3]; [left|right; auto]. apply orb_true_iff in E4. rewrite !Nat.ltb_lt in E4. apply Hch; lia. }
        rewrite T1. cbn [obind fst snd]. assert (b = true) by (apply T2; auto). subst b. cbn [negb]. destruct (T3 eq_refl) as (pl & P1 & ->). rewrite on_last_stored. cbn [obind].
        eexists true, _. split; [reflexivity|]. split; [apply last_touch_sound; auto; [repeat split|intros P; apply Sorted_skipn, (s_up s H k c Lv P)]|]. split; [reflexivity|]. split; [reflexivity|discriminate].
      * rewrite store_none by (left; auto). cbn [obind fst snd negb].
        destruct (kill_last s k c H Lv) as (s' & A & B & C1 & C2 & D). fold s0 in A. destruct (make_obs _ _) as [t| |] in *; cbn [obind] in *; try discriminate. rewrite A. cbn [obind].
        exists false, s'. split; [reflexivity|]. split; [auto|]. split; [auto|]. split; [auto|]. intros _. destruct D as [-> |(d & D1 & D2 & ->)]; [auto|]. right. right. split; [lia|]. exists (length (tcl s) - 1), d.
        split; [lia|]. split; [lia|]. auto.
Qed.
