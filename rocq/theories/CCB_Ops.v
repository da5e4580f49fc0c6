(** RestoreObsoleteCluster undoes MakeClusterObsolete; SplitCluster. *)
From Verif Require Import Base CCB_Model CCB_Spec CCB_Store.
Local Open Scope nat_scope.

Lemma upd_upd {A} (l : list A) i a b : upd (upd l i a) i b = upd l i b.
Proof. revert i. induction l as [|x l IH]; intros [|i]; simpl; auto. f_equal. apply IH. Qed.
Lemma upd_same {A} (l : list A) i a : nth_error l i = Some a -> upd l i a = l.
Proof. revert i. induction l as [|x l IH]; intros [|i] E; simpl in *; try discriminate; [congruence|f_equal; auto]. Qed.
Lemma upd_app1 {A} (l r : list A) i a : i < length l -> upd (l ++ r) i a = upd l i a ++ r.
Proof. revert i. induction l as [|x l IH]; intros [|i] E; simpl in *; try lia; auto. f_equal. apply IH. lia. Qed.
Lemma upd_last {A} (l : list A) a b : upd (l ++ [a]) (length l) b = l ++ [b].
Proof. induction l as [|x l IH]; simpl; auto. f_equal. auto. Qed.
Lemma st_eta s : ST (hits s) (inc s) (tcl s) (ncl s) (vtx s) = s. Proof. destruct s; reflexivity. Qed.
Lemma cid_back c : set_cid (set_cid c (- cid c)) (- cid (set_cid c (- cid c))) = c.
Proof. destruct c. unfold set_cid. simpl. rewrite Z.opp_involutive. reflexivity. Qed.

(** a state that differs from [s] on the hits of live cluster [k] only, which is obsolete in it: restoring
    the cluster gives the hits back *)
Lemma restore_back s k c t r : sound s -> live s k c -> hits t = hits s -> length (inc t) = length (inc s) ->
  (forall h, h < length (inc s) -> ~ In h (ch c) -> nth_error (inc t) h = nth_error (inc s) h) ->
  tcl t = upd (tcl s) k (set_cid c (- cid c)) ++ r ->
  restore t k = Ok (ST (hits s) (inc s) (tcl s ++ r) (ncl t) (vtx t)).
Proof.
  intros H Lv Hh Li Hi Ht. pose proof Lv as (E & Hc). pose proof (q_len s (s_cons s H)) as L.
  assert (Lk : k < length (tcl s)) by (apply nth_error_Some; congruence).
  assert (Ek : nth_error (tcl t) k = Some (set_cid c (- cid c))).
  { rewrite Ht, nth_error_app1 by (rewrite upd_length; auto). rewrite nth_error_upd, Nat.eqb_refl. assert (Q : (k <? length (tcl s)) = true) by (apply Nat.ltb_lt; auto). rewrite Q. reflexivity. }
  rewrite (restore_ok t k _ Ek); [|simpl; lia|simpl; intros h I; rewrite Li, L; eapply good_in; eauto].
  unfold restored. rewrite cid_back. f_equal. unfold set_inc, set_tcl. cbn [hits inc tcl ncl vtx]. rewrite Hh. f_equal.
  - apply nth_ext'; [rewrite marks_len; auto|]. intros h Q. rewrite marks_len in Q. rewrite marks_nth by auto. cbn [ch set_cid].
    destruct (in_dec Nat.eq_dec h (ch c)) as [I|I].
    + cbn [cid set_cid]. rewrite Z.opp_involutive, (live_id s k c H Lv). symmetry. apply (q_own s (s_cons s H) k c h Lv I).
    + apply Hi; [lia|auto].
  - rewrite Ht, upd_app1 by (rewrite upd_length; auto). rewrite upd_upd, (upd_same _ _ _ E). reflexivity.
Qed.

Theorem obsolete_restore s k c : sound s -> live s k c -> exists s', make_obs s k = Ok s' /\ restore s' k = Ok s.
Proof.
  intros H Lv. exists (obsoleted s k c). split; [apply make_obs_ok; auto|]. rewrite (restore_back s k c (obsoleted s k c) []); auto.
  - simpl. rewrite app_nil_r, st_eta. reflexivity.
  - simpl. apply marks_len.
  - intros h Hh N. simpl. rewrite marks_nth by auto. destruct (in_dec Nat.eq_dec h (ch c)); [contradiction|reflexivity].
  - simpl. rewrite app_nil_r. reflexivity.
Qed.

Lemma restored_sound s k c : sound s -> nth_error (tcl s) k = Some c -> (cid c <= 0)%Z -> free s (ch c) ->
  ((proc c < 900)%Z -> upstream (hits s) (ch c)) -> sound (restored s k c).
Proof.
  intros H E Hc Fr Up. pose proof (q_len s (s_cons s H)) as L.
  assert (Lk : k < length (tcl s)) by (apply nth_error_Some; congruence).
  assert (Id : cid c = (- Z.of_nat (S k))%Z) by (destruct (s_id s H k c E); lia).
  assert (Nth : forall j d, nth_error (tcl (restored s k c)) j = Some d -> (nth_error (tcl s) j = Some d /\ j <> k) \/ (j = k /\ d = set_cid c (- cid c))).
  { intros j d Q. simpl in Q. rewrite nth_error_upd in Q. destruct (j =? k) eqn:B.
    - apply Nat.eqb_eq in B. assert (Z1 : (k <? length (tcl s)) = true) by (apply Nat.ltb_lt; auto). rewrite Z1 in Q. injection Q as <-. auto.
    - apply Nat.eqb_neq in B. auto. }
  constructor.
  - constructor.
    + simpl. rewrite marks_len. exact L.
    + intros j d h (Q & Hd) Hh. destruct (Nth j d Q) as [(Q' & Ne)|(-> & ->)].
      * assert (Lv : live s j d) by (split; auto). pose proof (q_own s (s_cons s H) j d h Lv Hh) as O. simpl. rewrite marks_nth by (apply nth_error_Some; congruence).
        destruct (in_dec Nat.eq_dec h (ch c)) as [I|I]; [|exact O]. specialize (Fr h I). rewrite O in Fr. injection Fr as Fr. lia.
      * simpl in Hh. simpl. rewrite marks_nth by (rewrite L; eapply good_in; eauto). destruct (in_dec Nat.eq_dec h (ch c)); [|contradiction]. f_equal. lia.
    + intros h v Q Hv. simpl in Q. assert (Hh : h < length (inc s)) by (rewrite <- (marks_len (inc s) (ch c) (- cid c)); apply nth_error_Some; congruence).
      rewrite marks_nth in Q by auto. destruct (in_dec Nat.eq_dec h (ch c)) as [I|I].
      * injection Q as <-. exists k, (set_cid c (- cid c)). split; [lia|]. split; [|exact I]. split; [|simpl; lia]. simpl. rewrite nth_error_upd, Nat.eqb_refl. assert (Z1 : (k <? length (tcl s)) = true) by (apply Nat.ltb_lt; auto). rewrite Z1. reflexivity.
      * destruct (q_back s (s_cons s H) h v Q Hv) as (j & d & A & (B1 & B2) & D). exists j, d. split; [auto|]. split; [|auto]. split; [|auto]. simpl. rewrite nth_error_upd. destruct (j =? k) eqn:B; [|auto]. apply Nat.eqb_eq in B. subst j. assert (c = d) by congruence. subst d. lia.
  - simpl. rewrite upd_length. apply (s_ncl s H).
  - exact (s_max s H).
  - intros j d Q. destruct (Nth j d Q) as [(Q' & _)|(-> & ->)]; [apply (s_id s H j d Q')|left; simpl; lia].
  - intros j d Q. destruct (Nth j d Q) as [(Q' & _)|(-> & ->)]; [apply (s_good s H j d Q')|apply good_cid, (s_good s H k c E)].
  - intros j d (Q & Hd) Hp. destruct (Nth j d Q) as [(Q' & _)|(-> & ->)]; [apply (s_up s H j d); [split; auto|auto]|apply Up; exact Hp].
Qed.

(** changes of the vertices and the processor code of the last cluster *)
Definition cosmetic (c d : clus) : Prop := cid d = cid c /\ cctp d = cctp c /\ bw d = bw c /\ ew d = ew c /\ ch d = ch c.
Lemma touch_sound s k c d : sound s -> nth_error (tcl s) k = Some c -> cosmetic c d ->
  ((0 < cid c)%Z -> (proc d < 900)%Z -> upstream (hits s) (ch c)) -> sound (set_tcl s (upd (tcl s) k d)).
Proof.
  intros H E (C1 & C2 & C3 & C4 & C5) Up. assert (Lk : (k <? length (tcl s)) = true) by (apply Nat.ltb_lt, nth_error_Some; congruence).
  assert (Nth : forall j e, nth_error (upd (tcl s) k d) j = Some e -> (nth_error (tcl s) j = Some e /\ j <> k) \/ (j = k /\ e = d)).
  { intros j e Q. rewrite nth_error_upd in Q. destruct (j =? k) eqn:B.
    - apply Nat.eqb_eq in B. rewrite Lk in Q. injection Q as <-. auto.
    - apply Nat.eqb_neq in B. auto. }
  constructor.
  - constructor.
    + apply (q_len s (s_cons s H)).
    + intros j e h (Q & Hd) Hh. destruct (Nth j e Q) as [(Q' & Ne)|(-> & ->)].
      * apply (q_own s (s_cons s H) j e h); [split; auto|auto].
      * apply (q_own s (s_cons s H) k c h); [split; [auto|lia]|congruence].
    + intros h v Q Hv. destruct (q_back s (s_cons s H) h v Q Hv) as (j & e & A & (B1 & B2) & D). destruct (Nat.eq_dec j k) as [-> |Ne].
      * assert (e = c) by congruence. subst e. exists k, d. split; [auto|]. split; [|congruence]. split; [|lia]. cbn [tcl set_tcl]. rewrite nth_error_upd, Nat.eqb_refl, Lk. reflexivity.
      * exists j, e. split; [auto|]. split; [|auto]. split; [|auto]. cbn [tcl set_tcl]. rewrite nth_error_upd. destruct (j =? k) eqn:B; [apply Nat.eqb_eq in B; contradiction|auto].
  - cbn [tcl set_tcl ncl]. rewrite upd_length. apply (s_ncl s H).
  - exact (s_max s H).
  - intros j e Q. destruct (Nth j e Q) as [(Q' & _)|(-> & ->)]; [apply (s_id s H j e Q')|rewrite C1; apply (s_id s H k c E)].
  - intros j e Q. destruct (Nth j e Q) as [(Q' & _)|(-> & ->)]; [apply (s_good s H j e Q')|]. destruct (s_good s H k c E). constructor; rewrite ?C2, ?C3, ?C4, ?C5; auto.
  - intros j e (Q & Hd) Hp. destruct (Nth j e Q) as [(Q' & _)|(-> & ->)]; [apply (s_up s H j e); [split; auto|auto]|]. cbn [hits set_tcl]. rewrite C5. apply Up; [lia|auto].
Qed.

Lemma on_last_stored s l p pl f : on_last (stored s l p pl) f = Ok (set_tcl (stored s l p pl) (tcl s ++ [f (new_clus s l p pl)])).
Proof.
  unfold on_last. simpl. rewrite app_length. simpl. replace (length (tcl s) + 1 - 1) with (length (tcl s)) by lia.
  rewrite (idx_some _ _ (new_clus s l p pl)) by (rewrite nth_error_app2, Nat.sub_diag by lia; reflexivity). cbn [obind]. rewrite upd_last. reflexivity.
Qed.
Lemma last_touch_sound s l p pl d : sound s -> storable s l p -> in_plane (hits s) pl l -> cosmetic (new_clus s l p pl) d ->
  ((proc d < 900)%Z -> upstream (hits s) l) -> sound (set_tcl (stored s l p pl) (tcl s ++ [d])).
Proof.
  intros H St Hp Co Up. pose proof (stored_sound s l p pl H St Hp) as H1. replace (tcl s ++ [d]) with (upd (tcl (stored s l p pl)) (length (tcl s)) d) by (simpl; apply upd_last).
  apply (touch_sound _ _ (new_clus s l p pl)); [exact H1|simpl; rewrite nth_error_app2, Nat.sub_diag by lia; reflexivity|exact Co|]. intros _. exact Up.
Qed.

(** pieces of a list *)
Lemma Sorted_firstn {A} (R : A -> A -> Prop) n : forall l, Sorted R l -> Sorted R (firstn n l).
Proof.
  induction n as [|n IH]; intros l S; [constructor|]. destruct S as [|a l S Hd]; [constructor|]. simpl. constructor; [auto|]. destruct n, l; simpl; constructor. inversion Hd; auto.
Qed.
Lemma Sorted_skipn {A} (R : A -> A -> Prop) n : forall l, Sorted R l -> Sorted R (skipn n l).
Proof. induction n as [|n IH]; intros l S; [auto|]. destruct S as [|a l S Hd]; [constructor|]. simpl. auto. Qed.
Lemma in_firstn {A} n (l : list A) a : In a (firstn n l) -> In a l.
Proof. intros I. rewrite <- (firstn_skipn n l). apply in_or_app. auto. Qed.
Lemma in_skipn {A} n (l : list A) a : In a (skipn n l) -> In a l.
Proof. intros I. rewrite <- (firstn_skipn n l). apply in_or_app. auto. Qed.
Lemma NoDup_halves {A} n (l : list A) : NoDup l -> NoDup (firstn n l) /\ NoDup (skipn n l) /\ forall a, In a (firstn n l) -> In a (skipn n l) -> False.
Proof.
  intros N. rewrite <- (firstn_skipn n l) in N. revert N. generalize (firstn n l) (skipn n l). intros a b. induction a as [|x a IH]; simpl; intros N.
  - split; [constructor|]. split; [auto|]. intros a [].
  - inversion N as [|? ? N1 N2]; subst. destruct (IH N2) as (A1 & A2 & A3). split; [constructor; auto; intros I; apply N1, in_or_app; auto|]. split; [auto|].
    intros y [<-|I] J; [apply N1, in_or_app; auto|eauto].
Qed.

(** a part of the hits of a live cluster can be stored once the cluster is obsolete *)
Lemma part_storable s k c t l p : sound s -> live s k c -> hits t = hits s -> length (inc t) = length (inc s) ->
  (forall h, In h l -> In h (ch c)) -> free t l -> NoDup l -> 2 <= length l -> (ncl t < 32767)%Z ->
  ((p < 900)%Z -> upstream (hits s) l) -> storable t l p /\ in_plane (hits t) (cctp c) l.
Proof.
  intros H (E & Hc) Hh Li Sub Fr N L2 Hn Up. assert (P : in_plane (hits t) (cctp c) l) by (intros h I; rewrite Hh; apply (g_plane _ _ (s_good s H k c E) h); auto).
  split; [|exact P]. split; [auto|]. split; [auto|]. split; [auto|]. split; [auto|]. split; [exists (cctp c); auto|]. rewrite Hh. exact Up.
Qed.

Lemma obs_free s k c : sound s -> live s k c -> free (obsoleted s k c) (ch c).
Proof. intros H (E & _) h Hh. simpl. rewrite marks_nth by (rewrite (q_len s (s_cons s H)); eapply good_in; eauto). destruct (in_dec Nat.eq_dec h (ch c)); [reflexivity|contradiction]. Qed.

(** SplitCluster of a live cluster of three hits or more while there is room for two clusters *)
Theorem split_ok s k c pos iv ec bc : sound s -> live s k c -> 3 <= length (ch c) -> pos <= length (ch c) -> (ncl s < 32766)%Z ->
  let n := length (ch c) in
  exists s', split_cluster s k pos iv ec bc = Ok (true, s') /\ sound s' /\ hits s' = hits s /\ vtx s' = vtx s /\
    exists new, tcl s' = upd (tcl s) k (set_cid c (- cid c)) ++ new /\
      map (fun d => (proc d, bv d, ev d, ch d)) new =
        (if 2 <? pos then [(proc c, bv c, iv, firstn pos (ch c))] else []) ++
        (if pos <? n - 3 then [(proc c, iv, ev c, skipn pos (ch c))] else []).
Proof.
  intros H Lv N3 Hpos Hn n. pose proof Lv as (E & Hc). pose proof (q_len s (s_cons s H)) as L.
  assert (Lk : k < length (tcl s)) by (apply nth_error_Some; congruence).
  destruct (NoDup_halves pos (ch c) (g_nodup _ _ (s_good s H k c E))) as (Nd1 & Nd2 & Dj).
  pose proof (s_ncl s H) as Nc.
  unfold split_cluster. rewrite (idx_some _ _ _ E). cbn [obind]. destruct (cid c <? 0)%Z eqn:Q; [apply Z.ltb_lt in Q; lia|]. clear Q.
  rewrite (make_obs_ok s k c H Lv). cbn [obind]. set (s0 := obsoleted s k c). pose proof (obsoleted_sound s k c H Lv) as H0. fold s0 in H0.
  pose proof (obs_free s k c H Lv) as F0. fold s0 in F0.
  assert (L0 : length (inc s0) = length (inc s)) by (simpl; apply marks_len).
  assert (First : exists s1 new1, (if 2 <? pos then
                if length (ch c) <? pos then Undef
                else do r <- tmp_store s0 (firstn pos (ch c)) (proc c) true true;
                     if negb (fst r) then do s' <- restore (snd r) k; Ok (false, s')
                     else do s' <- on_last (snd r) (fun n => set_bv (set_ev n iv) (bv c)); Ok (true, s')
              else Ok (true, s0)) = Ok (true, s1) /\ sound s1 /\ hits s1 = hits s /\ vtx s1 = vtx s /\ (ncl s1 < 32767)%Z /\
              tcl s1 = tcl s0 ++ new1 /\ map (fun d => (proc d, bv d, ev d, ch d)) new1 = (if 2 <? pos then [(proc c, bv c, iv, firstn pos (ch c))] else []) /\
              length (inc s1) = length (inc s) /\ free s1 (skipn pos (ch c))).
  { destruct (2 <? pos) eqn:E2.
    - apply Nat.ltb_lt in E2. destruct (length (ch c) <? pos) eqn:E3; [apply Nat.ltb_lt in E3; lia|].
      assert (Lf : length (firstn pos (ch c)) = pos) by (rewrite firstn_length; lia).
      destruct (part_storable s k c s0 (firstn pos (ch c)) (proc c) H Lv eq_refl L0) as (St & Pl); [apply in_firstn|intros h I; apply F0; eapply in_firstn; eauto|auto|lia|simpl; lia|intros P; apply Sorted_firstn, (s_up s H k c Lv P)|].
      destruct (tmp_store_ok s0 (firstn pos (ch c)) (proc c) true true) as (b & s' & T1 & T2 & T3 & _); [apply (q_len s0 (s_cons s0 H0))|simpl; lia|intros h I; eapply (good_in s k c H E); eapply in_firstn; eauto|auto|].
      rewrite T1. cbn [obind fst snd]. assert (b = true) by (apply T2; auto). subst b. cbn [negb]. destruct (T3 eq_refl) as (pl & P1 & ->). rewrite on_last_stored. cbn [obind].
      eexists _, _. split; [reflexivity|]. split; [apply last_touch_sound; auto; [repeat split|intros P; apply Sorted_firstn, (s_up s H k c Lv P)]|]. split; [reflexivity|]. split; [reflexivity|].
      split; [simpl; lia|]. split; [reflexivity|]. split; [reflexivity|]. split; [simpl; rewrite !marks_len; reflexivity|].
      intros h I. cbn [inc set_tcl stored]. rewrite marks_nth by (rewrite L0, L; eapply (good_in s k c H E); eapply in_skipn; eauto).
      destruct (in_dec Nat.eq_dec h (firstn pos (ch c))) as [J|J]; [exfalso; eapply Dj; eauto|]. apply F0. eapply in_skipn; eauto.
    - exists s0, []. split; [reflexivity|]. split; [auto|]. split; [reflexivity|]. split; [reflexivity|]. split; [simpl; lia|]. split; [rewrite app_nil_r; reflexivity|]. split; [reflexivity|]. split; [auto|].
      intros h I. apply F0. eapply in_skipn; eauto. }
  destruct First as (s1 & new1 & F1 & H1 & Hh1 & Hv1 & N1 & T1 & M1 & L1 & Fr1). rewrite F1. cbn [obind fst snd negb]. clear F1.
  assert (En : (length (ch c) <? 3) = false) by (apply Nat.ltb_ge; lia). rewrite En. cbn [orb]. unfold n. destruct (pos <? length (ch c) - 3) eqn:E3.
  - apply Nat.ltb_lt in E3. cbv zeta.
    assert (Us : foreach (skipn pos (ch c)) (fun (b : bool) h => if b then Ok true else do v <- idx (inc s1) h; Ok (negb (v =? 0)%Z)) false = Ok false).
    { clear -Fr1. unfold free in Fr1. induction (skipn pos (ch c)) as [|h l IH]; [reflexivity|]. cbn [foreach]. rewrite (idx_some _ _ _ (Fr1 h (or_introl eq_refl))). cbn [obind Z.eqb negb]. apply IH. intros a Ha. apply Fr1. right. auto. }
    rewrite Us. cbn [obind].
    assert (Lf : length (skipn pos (ch c)) = length (ch c) - pos) by apply skipn_length.
    destruct (part_storable s k c s1 (skipn pos (ch c)) (proc c) H Lv Hh1 L1) as (St & Pl); [apply in_skipn|auto|auto|lia|lia|intros P; apply Sorted_skipn, (s_up s H k c Lv P)|].
    destruct (tmp_store_ok s1 (skipn pos (ch c)) (proc c) ec bc) as (b & s' & U1 & U2 & U3 & _); [apply (q_len s1 (s_cons s1 H1))|pose proof (s_ncl s1 H1); lia|rewrite Hh1; intros h I; eapply (good_in s k c H E); eapply in_skipn; eauto|right; lia|].
    rewrite U1. cbn [obind fst snd]. assert (b = true) by (apply U2; auto). subst b. cbn [negb]. destruct (U3 eq_refl) as (pl & P1 & ->). rewrite on_last_stored. cbn [obind].
    eexists. split; [reflexivity|]. split; [apply last_touch_sound; auto; [repeat split|rewrite Hh1; intros P; apply Sorted_skipn, (s_up s H k c Lv P)]|]. split; [exact Hh1|]. split; [exact Hv1|].
    eexists. split; [cbn [tcl set_tcl]; rewrite T1, <- app_assoc; reflexivity|]. rewrite map_app, M1. reflexivity.
  - eexists. split; [reflexivity|]. split; [auto|]. split; [auto|]. split; [auto|]. exists new1. split; [exact T1|]. rewrite M1, app_nil_r. reflexivity.
Qed.
