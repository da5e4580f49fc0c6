(** MakeClusterObsolete, RestoreObsoleteCluster, TmpStore. *)
From Verif Require Import Base CCB_Model CCB_Spec.
Local Open Scope nat_scope.

Lemma idx_some {A} (l : list A) i x : nth_error l i = Some x -> idx l i = Ok x.
Proof. intros E. unfold idx. rewrite E. reflexivity. Qed.
Lemma nth_ext' {A} (l l' : list A) : length l = length l' -> (forall i, i < length l -> nth_error l i = nth_error l' i) -> l = l'.
Proof.
  revert l'. induction l as [|a l IH]; intros [|b l'] L E; simpl in L; try discriminate; auto.
  pose proof (E 0 ltac:(simpl; lia)) as E0. simpl in E0. injection E0 as ->. f_equal. apply IH; [lia|]. intros i Hi. exact (E (S i) ltac:(simpl; lia)).
Qed.

Definition marks (i : list Z) (l : list nat) (v : Z) : list Z := fold_left (fun i h => upd i h v) l i.
Lemma marks_len i l v : length (marks i l v) = length i.
Proof. revert i. induction l as [|h l IH]; intros i; simpl; [auto|]. unfold marks in *. simpl. rewrite IH. apply upd_length. Qed.
Lemma marks_nth l v : forall i h, h < length i -> nth_error (marks i l v) h = if in_dec Nat.eq_dec h l then Some v else nth_error i h.
Proof.
  induction l as [|a l IH]; intros i h Hh; [reflexivity|]. change (marks i (a :: l) v) with (marks (upd i a v) l v). rewrite IH by (rewrite upd_length; auto).
  rewrite nth_error_upd. destruct (in_dec Nat.eq_dec h l) as [I|I]; destruct (in_dec Nat.eq_dec h (a :: l)) as [J|J]; try reflexivity.
  - exfalso. apply J. right. auto.
  - destruct J as [-> |J]; [|contradiction]. rewrite Nat.eqb_refl. assert (E : (h <? length i) = true) by (apply Nat.ltb_lt; auto). rewrite E. reflexivity.
  - destruct (h =? a) eqn:E; [apply Nat.eqb_eq in E; exfalso; apply J; left; auto|reflexivity].
Qed.
Lemma marked_marks i l v : marked i (marks i l v) l v.
Proof. split; [apply marks_len|]. intros h Hh. apply marks_nth. auto. Qed.
Lemma mark_ok i l v : (forall h, In h l -> h < length i) -> mark i l v = Ok (marks i l v).
Proof.
  revert i. unfold mark. induction l as [|h l IH]; intros i Hl; [reflexivity|]. cbn [foreach]. rewrite set_idx_ok by (apply Hl; left; auto). cbn [obind].
  rewrite IH; [reflexivity|]. intros a Ha. rewrite upd_length. apply Hl. right. auto.
Qed.
Lemma marks_app i a b v : marks i (a ++ b) v = marks (marks i a v) b v.
Proof. unfold marks. apply fold_left_app. Qed.

Lemma same_wid_spec x y : same_wid x y = true <-> wid x = wid y.
Proof.
  unfold same_wid, wid. rewrite !andb_true_iff, !Nat.eqb_eq. split; [intros ((-> & ->) & ->); reflexivity|intros [= -> -> ->]; auto].
Qed.

(** what TmpStore requires of the hits *)
Definition ord (hs : list hit) (dec : bool) (last : option nat) (l : list nat) : Prop :=
  dec = true -> upstream hs l /\ match last, l with Some w, h :: _ => wire hs h < w | _, _ => True end.
Lemma claim_ok hs id dec h0 : (0 < id)%Z -> forall l i last, length i = length hs -> (forall h, In h l -> h < length hs) ->
  exists b pre post, l = pre ++ post /\ claim hs i id dec h0 last l = Ok (b, marks i pre id) /\ (b = true -> post = []) /\
    (b = true <-> NoDup l /\ (forall h, In h l -> nth_error i h = Some 0%Z) /\ in_plane hs (wid h0) l /\ ord hs dec last l).
Proof.
  intros Hid. induction l as [|h l IH]; intros i last Li Hl.
  - exists true, [], []. repeat split; auto; try (intros; contradiction). constructor. intros h []. constructor. destruct last; auto.
  - assert (Hh : h < length hs) by (apply Hl; left; auto). cbn [claim].
    destruct (nth_error i h) as [v|] eqn:Ev; [|apply nth_error_None in Ev; lia]. rewrite (idx_some _ _ _ Ev). cbn [obind].
    destruct (nth_error hs h) as [x|] eqn:Ex; [|apply nth_error_None in Ex; lia].
    assert (W : wire hs h = hw x) by (unfold wire; rewrite Ex; reflexivity).
    assert (Stop : ~ (NoDup (h :: l) /\ (forall a, In a (h :: l) -> nth_error i a = Some 0%Z) /\ in_plane hs (wid h0) (h :: l) /\ ord hs dec last (h :: l)) ->
      exists b pre post, h :: l = pre ++ post /\ Ok (false, i) = Ok (b, marks i pre id) /\ (b = true -> post = []) /\
      (b = true <-> NoDup (h :: l) /\ (forall a, In a (h :: l) -> nth_error i a = Some 0%Z) /\ in_plane hs (wid h0) (h :: l) /\ ord hs dec last (h :: l))).
    { intros N. exists false, [], (h :: l). split; [reflexivity|]. split; [reflexivity|]. split; [discriminate|]. split; [discriminate|]. intros F. contradiction. }
    destruct (negb (v =? 0)%Z) eqn:Ez.
    { apply Stop. intros (_ & F & _). specialize (F h (or_introl eq_refl)). rewrite Ev in F. injection F as ->. discriminate Ez. }
    apply negb_false_iff, Z.eqb_eq in Ez. subst v. rewrite (idx_some _ _ _ Ex). cbn [obind].
    destruct (negb (same_wid x h0)) eqn:Ew.
    { apply Stop. intros (_ & _ & F & _). destruct (F h (or_introl eq_refl)) as (y & Y1 & Y2). rewrite Ex in Y1. injection Y1 as <-. apply negb_true_iff in Ew.
      assert (same_wid x h0 = true) by (apply same_wid_spec; exact Y2). congruence. }
    apply negb_false_iff, same_wid_spec in Ew.
    destruct (dec && match last with Some w => w <=? hw x | None => false end) eqn:Ed.
    { apply Stop. intros (_ & _ & _ & F). apply andb_true_iff in Ed. destruct Ed as (D1 & D2). destruct (F D1) as (_ & G). destruct last as [w|]; [|discriminate].
      apply Nat.leb_le in D2. rewrite W in G. lia. }
    rewrite set_idx_ok by lia. cbn [obind].
    destruct (IH (upd i h id) (Some (hw x))) as (b & pre & post & E1 & E2 & E3 & E4); [rewrite upd_length; auto|intros a Ha; apply Hl; right; auto|].
    exists b, (h :: pre), post. split; [rewrite E1; reflexivity|]. split; [exact E2|]. split; [exact E3|]. rewrite E4. clear E2 E3 E4 IH Stop. split.
    + intros (N & F & P & O). assert (Nh : ~ In h l).
      { intros I. specialize (F h I). rewrite nth_error_upd, Nat.eqb_refl in F. assert (E : (h <? length i) = true) by (apply Nat.ltb_lt; lia). rewrite E in F. injection F as F. lia. }
      split; [constructor; auto|]. split; [|split].
      * intros a [<-|Ha]; [exact Ev|]. specialize (F a Ha). rewrite nth_error_upd in F. destruct (a =? h) eqn:E; [apply Nat.eqb_eq in E; subst; contradiction|exact F].
      * intros a [<-|Ha]; [exists x; auto|apply P; auto].
      * intros D. destruct (O D) as (O1 & O2). split; [constructor; [exact O1|]|].
        -- destruct l as [|h' l]; constructor. rewrite W. exact O2.
        -- destruct last as [w|]; [|auto]. rewrite D in Ed. simpl in Ed. apply Nat.leb_gt in Ed. rewrite W. lia.
    + intros (N & F & P & O). inversion N as [|? ? N1 N2]; subst. split; [auto|]. split; [|split].
      * intros a Ha. rewrite nth_error_upd. destruct (a =? h) eqn:E; [apply Nat.eqb_eq in E; subst; contradiction|]. apply F. right. auto.
      * intros a Ha. apply P. right. auto.
      * intros D. destruct (O D) as (O1 & O2). inversion O1 as [|? ? O3 O4]; subst. split; [exact O3|]. destruct (pre ++ post); [auto|]. inversion O4; subst. rewrite <- W. auto.
Qed.

Definition storable (s : st) (l : list nat) (p : Z) : Prop :=
  2 <= length l /\ (ncl s < 32767)%Z /\ NoDup l /\ free s l /\ (exists pl, in_plane (hits s) pl l) /\ ((p < 900)%Z -> upstream (hits s) l).

Lemma storable_len s l p : length (inc s) = length (hits s) -> storable s l p -> length l <= length (hits s).
Proof.
  intros L (_ & _ & N & F & _). rewrite <- (seq_length (length (hits s)) 0). apply NoDup_incl_length; [exact N|]. intros h Hh. apply in_seq. split; [lia|].
  specialize (F h Hh). assert (h < length (inc s)) by (apply nth_error_Some; congruence). lia.
Qed.
Definition new_clus (s : st) (l : list nat) (p : Z) (pl : nat * nat * nat) : clus :=
  C (ncl s + 1) p pl (wire (hits s) (hd 0 l)) (wire (hits s) (last l 0)) (-99) (-99) l.
(** the state after a successful TmpStore *)
Definition stored (s : st) (l : list nat) (p : Z) (pl : nat * nat * nat) : st :=
  ST (hits s) (marks (inc s) l (ncl s + 1)) (tcl s ++ [new_clus s l p pl]) (ncl s + 1) (vtx s).

Lemma last_in {A} (l : list A) d : l <> [] -> In (last l d) l.
Proof. induction l as [|a l IH]; [congruence|]. intros _. destruct l as [|b l]; [left; reflexivity|]. right. apply IH. discriminate. Qed.

Theorem tmp_store_ok s l p ec bc : length (inc s) = length (hits s) -> (0 <= ncl s <= 32767)%Z -> (forall h, In h l -> h < length (hits s)) ->
  ((ec = true /\ bc = true) \/ length l <> 2) ->
  exists b s', tmp_store s l p ec bc = Ok (b, s') /\ (b = true <-> storable s l p) /\
    (b = true -> exists pl, in_plane (hits s) pl l /\ s' = stored s l p pl) /\
    (b = false -> exists pre post, l = pre ++ post /\ s' = set_inc s (marks (inc s) pre (ncl s + 1))).
Proof.
  intros L Hn Hl Hc. unfold tmp_store.
  assert (Fail : ~ storable s l p -> exists b s', Ok (false, s) = Ok (b, s') /\ (b = true <-> storable s l p) /\
    (b = true -> exists pl, in_plane (hits s) pl l /\ s' = stored s l p pl) /\
    (b = false -> exists pre post, l = pre ++ post /\ s' = set_inc s (marks (inc s) pre (ncl s + 1)))).
  { intros N. exists false, s. split; [reflexivity|]. split; [split; [discriminate|intros F; contradiction]|]. split; [discriminate|]. intros _. exists [], l. split; [reflexivity|destruct s; reflexivity]. }
  destruct (length l <? 2) eqn:E2; [apply Nat.ltb_lt in E2; apply Fail; intros (F & _); lia|]. apply Nat.ltb_ge in E2.
  destruct (length (hits s) <? length l) eqn:E3; [apply Nat.ltb_lt in E3; apply Fail; intros F; apply storable_len in F; [lia|auto]|]. apply Nat.ltb_ge in E3.
  destruct (ncl s =? 32767)%Z eqn:E4; [apply Z.eqb_eq in E4; apply Fail; intros (_ & F & _); lia|]. apply Z.eqb_neq in E4.
  assert (Hne : l <> []) by (intros ->; simpl in E2; lia).
  assert (I0 : In (hd 0 l) l) by (destruct l; [congruence|left; reflexivity]). pose proof (last_in l 0 Hne) as Il.
  destruct (nth_error (hits s) (hd 0 l)) as [h0|] eqn:E0; [|apply nth_error_None in E0; specialize (Hl _ I0); lia].
  destruct (nth_error (hits s) (last l 0)) as [hl|] eqn:El; [|apply nth_error_None in El; specialize (Hl _ Il); lia].
  rewrite (idx_some _ _ _ E0), (idx_some _ _ _ El). cbn [obind].
  destruct (claim_ok (hits s) (ncl s + 1) (p <? 900)%Z h0 ltac:(lia) l (inc s) None L Hl) as (b & pre & post & A1 & A2 & A3 & A4).
  assert (A5 : b = true <-> storable s l p).
  { rewrite A4. unfold storable, free. split.
    - intros (B1 & B2 & B3 & B4). split; [auto|]. split; [lia|]. split; [auto|]. split; [auto|]. split; [exists (wid h0); auto|]. intros B. apply Z.ltb_lt in B. apply (B4 B).
    - intros (_ & _ & B1 & B2 & (pl & B3) & B4). split; [auto|]. split; [auto|]. split.
      + destruct (B3 _ I0) as (y & Y1 & Y2). rewrite E0 in Y1. injection Y1 as <-. unfold wid. rewrite Y2. exact B3.
      + intros B. apply Z.ltb_lt in B. split; [auto|exact Logic.I]. }
  rewrite A2. cbn [obind fst snd]. destruct b; cbn [negb].
  - rewrite (A3 eq_refl), app_nil_r in A1. subst pre.
    replace (negb (ec && bc) && (length l <? 3)) with false.
    2:{ symmetry. destruct Hc as [(-> & ->)|Hc]; [reflexivity|]. apply andb_false_iff. right. apply Nat.ltb_ge. lia. }
    eexists true, _. split; [reflexivity|]. split; [exact A5|]. split; [|discriminate]. intros _. exists (wid h0). split; [apply A4; reflexivity|].
    unfold stored, new_clus, wire. rewrite E0, El. reflexivity.
  - eexists false, _. split; [reflexivity|]. split; [exact A5|]. split; [discriminate|]. intros _. exists pre, post. split; [exact A1|reflexivity].
Qed.

(* ------------------------------------------------------------------ sound states *)
Lemma live_id s k c : sound s -> live s k c -> cid c = Z.of_nat (S k).
Proof. intros H (A & B). destruct (s_id s H k c A); lia. Qed.
Lemma good_in s k c : sound s -> nth_error (tcl s) k = Some c -> forall h, In h (ch c) -> h < length (hits s).
Proof. intros H E h Hh. destruct (g_plane _ _ (s_good s H k c E) h Hh) as (x & X & _). apply nth_error_Some. congruence. Qed.
Lemma free_marks s l v h : h < length (inc s) -> In h l -> nth_error (marks (inc s) l v) h = Some v.
Proof. intros Hh Hi. rewrite marks_nth by auto. destruct (in_dec Nat.eq_dec h l); [reflexivity|contradiction]. Qed.

Lemma stored_sound s l p pl : sound s -> storable s l p -> in_plane (hits s) pl l -> sound (stored s l p pl).
Proof.
  intros H St Hp. pose proof (storable_len s l p (q_len s (s_cons s H)) St) as Ln. destruct St as (S1 & S2 & S3 & S4 & _ & S6).
  pose proof (s_ncl s H) as N. pose proof (q_len s (s_cons s H)) as L.
  assert (Nth : forall k c, nth_error (tcl (stored s l p pl)) k = Some c -> nth_error (tcl s) k = Some c \/ (k = length (tcl s) /\ c = new_clus s l p pl)).
  { intros k c E. simpl in E. destruct (lt_dec k (length (tcl s))) as [Q|Q]; [left; rewrite nth_error_app1 in E; auto|]. right. rewrite nth_error_app2 in E by lia.
    destruct (k - length (tcl s)) as [|m] eqn:Em; simpl in E; [injection E as <-; split; [lia|auto]|destruct m; discriminate]. }
  assert (Fr : forall h, In h l -> h < length (inc s)) by (intros h Hh; specialize (S4 h Hh); apply nth_error_Some; congruence).
  assert (G : good (hits s) (new_clus s l p pl)) by (constructor; auto).
  constructor.
  - constructor.
    + simpl. rewrite marks_len. exact L.
    + intros k c h (E & Hc) Hh. destruct (Nth k c E) as [E'|(-> & ->)].
      * assert (Lv : live s k c) by (split; auto). pose proof (q_own s (s_cons s H) k c h Lv Hh) as O. simpl. rewrite marks_nth by (apply nth_error_Some; congruence).
        destruct (in_dec Nat.eq_dec h l) as [I|I]; [|exact O]. specialize (S4 h I). rewrite O in S4. injection S4 as S4. lia.
      * simpl. rewrite (free_marks s l _ h (Fr h Hh) Hh). f_equal. lia.
    + intros h v E Hv. simpl in E. assert (Hh : h < length (inc s)) by (rewrite <- (marks_len (inc s) l (ncl s + 1)); apply nth_error_Some; congruence).
      rewrite marks_nth in E by auto. destruct (in_dec Nat.eq_dec h l) as [I|I].
      * injection E as <-. exists (length (tcl s)), (new_clus s l p pl). split; [lia|]. split; [|exact I]. split; [simpl; rewrite nth_error_app2, Nat.sub_diag by lia; reflexivity|simpl; lia].
      * destruct (q_back s (s_cons s H) h v E Hv) as (k & c & A & (B1 & B2) & D). exists k, c. split; [auto|]. split; [|auto]. split; [|auto]. simpl. rewrite nth_error_app1; [auto|apply nth_error_Some; congruence].
  - simpl. rewrite app_length. simpl. lia.
  - simpl. lia.
  - intros k c E. destruct (Nth k c E) as [E'|(-> & ->)]; [apply (s_id s H k c E')|left; simpl; lia].
  - intros k c E. destruct (Nth k c E) as [E'|(-> & ->)]; [apply (s_good s H k c E')|exact G].
  - intros k c (E & Hc) Hpr. destruct (Nth k c E) as [E'|(-> & ->)]; [apply (s_up s H k c); [split; auto|auto]|apply S6; exact Hpr].
Qed.

(** the state after MakeClusterObsolete of live cluster [k] *)
Definition obsoleted (s : st) (k : nat) (c : clus) : st :=
  set_inc (set_tcl s (upd (tcl s) k (set_cid c (- cid c)))) (marks (inc s) (ch c) 0).
Lemma make_obs_ok s k c : sound s -> live s k c -> make_obs s k = Ok (obsoleted s k c).
Proof.
  intros H (E & Hc). unfold make_obs. rewrite (idx_some _ _ _ E). cbn [obind]. destruct (cid c <=? 0)%Z eqn:Q; [apply Z.leb_le in Q; lia|].
  rewrite mark_ok; [reflexivity|]. intros h Hh. rewrite (q_len s (s_cons s H)). eapply good_in; eauto.
Qed.
Lemma good_cid hs c i : good hs c -> good hs (set_cid c i).
Proof. intros []. constructor; auto. Qed.
Lemma live_obsoleted s k c j d : nth_error (tcl s) k = Some c -> (0 < cid c)%Z -> live (obsoleted s k c) j d <-> live s j d /\ j <> k.
Proof.
  intros E Hc. unfold live. simpl. rewrite nth_error_upd. assert (Lk : (k <? length (tcl s)) = true) by (apply Nat.ltb_lt, nth_error_Some; congruence). rewrite Lk, andb_true_r.
  destruct (j =? k) eqn:Q.
  - apply Nat.eqb_eq in Q. split; [intros (A & B); injection A as <-; simpl in B; lia|intros (_ & B); lia].
  - apply Nat.eqb_neq in Q. tauto.
Qed.
Lemma owner_unique s j k c d h : sound s -> live s j c -> live s k d -> In h (ch c) -> In h (ch d) -> j = k.
Proof.
  intros H A B I J. pose proof (q_own s (s_cons s H) j c h A I). pose proof (q_own s (s_cons s H) k d h B J). assert (Z.of_nat (S j) = Z.of_nat (S k)) by congruence. lia.
Qed.
Lemma obsoleted_sound s k c : sound s -> live s k c -> sound (obsoleted s k c).
Proof.
  intros H Lv. pose proof Lv as (E & Hc). pose proof (q_len s (s_cons s H)) as L. pose proof (live_id s k c H Lv) as Id.
  assert (LO : forall j d, live (obsoleted s k c) j d <-> live s j d /\ j <> k) by (intros; apply live_obsoleted; auto).
  assert (Nth : forall j d, nth_error (tcl (obsoleted s k c)) j = Some d -> nth_error (tcl s) j = Some d \/ (j = k /\ d = set_cid c (- cid c))).
  { intros j d Q. simpl in Q. rewrite nth_error_upd in Q. destruct ((j =? k) && (k <? length (tcl s))) eqn:B; [|auto]. apply andb_true_iff in B. destruct B as (B & _). apply Nat.eqb_eq in B. injection Q as <-. auto. }
  constructor.
  - constructor.
    + simpl. rewrite marks_len. exact L.
    + intros j d h Lj Hh. apply LO in Lj. destruct Lj as (Lj & Hjk). pose proof (q_own s (s_cons s H) j d h Lj Hh) as O. simpl. rewrite marks_nth by (apply nth_error_Some; congruence).
      destruct (in_dec Nat.eq_dec h (ch c)) as [I|I]; [|exact O]. exfalso. apply Hjk. eapply owner_unique; eauto.
    + intros h v Q Hv. simpl in Q. assert (Hh : h < length (inc s)) by (rewrite <- (marks_len (inc s) (ch c) 0); apply nth_error_Some; congruence).
      rewrite marks_nth in Q by auto. destruct (in_dec Nat.eq_dec h (ch c)) as [I|I]; [injection Q as <-; lia|].
      destruct (q_back s (s_cons s H) h v Q Hv) as (j & d & A & B & D). exists j, d. split; [auto|]. split; [|auto]. apply LO. split; [auto|]. intros ->. destruct B as (B & _). assert (c = d) by congruence. subst d. contradiction.
  - simpl. rewrite upd_length. apply (s_ncl s H).
  - exact (s_max s H).
  - intros j d Q. destruct (Nth j d Q) as [Q'|(-> & ->)]; [apply (s_id s H j d Q')|right; simpl; lia].
  - intros j d Q. destruct (Nth j d Q) as [Q'|(-> & ->)]; [apply (s_good s H j d Q')|apply good_cid, (s_good s H k c E)].
  - intros j d Lj Hp. apply LO in Lj. apply (s_up s H j d); tauto.
Qed.

(** the state after RestoreObsoleteCluster of obsolete cluster [k] *)
Definition restored (s : st) (k : nat) (c : clus) : st :=
  set_inc (set_tcl s (upd (tcl s) k (set_cid c (- cid c)))) (marks (inc s) (ch c) (- cid c)).
Lemma restore_ok s k c : nth_error (tcl s) k = Some c -> (cid c <= 0)%Z -> (forall h, In h (ch c) -> h < length (inc s)) -> restore s k = Ok (restored s k c).
Proof.
  intros E Hc Hh. unfold restore. rewrite (idx_some _ _ _ E). cbn [obind]. destruct (0 <? cid c)%Z eqn:Q; [apply Z.ltb_lt in Q; lia|].
  rewrite mark_ok; [reflexivity|exact Hh].
Qed.
