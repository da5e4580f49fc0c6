(** Basic lemmas: used-hit lists, claiming, releasing, end points. *)
From Verif Require Import Base Util TJ_Model TJ_Spec GHF_Any.
Local Open Scope nat_scope.

Definition U (l : list tp) : list nat := flat_map used_pt l.

Lemma U_app l l' : U (l ++ l') = U l ++ U l'.
Proof. apply flat_map_app. Qed.
Lemma in_used_pt p h : In h (used_pt p) <-> In (h, true) (thits p).
Proof.
  unfold used_pt. rewrite in_map_iff. split.
  - intros ([h' u] & E & H). apply filter_In in H. simpl in *. destruct H as [H ->]. subst. exact H.
  - intros H. exists (h, true). split; [reflexivity|]. apply filter_In. auto.
Qed.
Lemma in_U l h : In h (U l) <-> exists p, In p l /\ In (h, true) (thits p).
Proof.
  unfold U. rewrite in_flat_map. split; intros (p & H1 & H2); exists p; (split; [exact H1|]); apply in_used_pt, H2.
Qed.
Lemma uses_U t h : uses t h <-> In h (U (pts t)).
Proof. symmetry. apply in_U. Qed.

(** once <-> NoDup *)
Lemma nodup_used_pt p :
  NoDup (used_pt p) <->
  (forall k k' h, nth_error (thits p) k = Some (h, true) -> nth_error (thits p) k' = Some (h, true) -> k = k').
Proof.
  unfold used_pt. generalize (thits p) as l. clear p. induction l as [|[h u] l IH]; simpl.
  - split; [intros _ k k' h H|constructor]. destruct k; discriminate H.
  - destruct u; simpl.
    + split.
      * intros N k k' h' E E'. apply NoDup_cons_iff in N. destruct N as [N1 N2].
        destruct k as [|k], k' as [|k']; simpl in *; [reflexivity| | |].
        -- injection E as <-. exfalso. apply N1. apply in_map_iff. exists (h, true). split; [reflexivity|].
           apply filter_In. split; [eapply nth_error_In, E'|reflexivity].
        -- injection E' as <-. exfalso. apply N1. apply in_map_iff. exists (h, true). split; [reflexivity|].
           apply filter_In. split; [eapply nth_error_In, E|reflexivity].
        -- f_equal. eapply (proj1 IH N2); eauto.
      * intros H. constructor.
        -- intros K. apply in_map_iff in K. destruct K as ([h' u'] & E & K). simpl in E. subst h'.
           apply filter_In in K. destruct K as [K E]. simpl in E. subst u'. apply In_nth_error in K. destruct K as [k K].
           specialize (H 0 (S k) h eq_refl K). discriminate H.
        -- apply IH. intros k k' h' E E'. specialize (H (S k) (S k') h' E E'). congruence.
    + rewrite IH. split; intros H.
      * intros k k' h' E E'. destruct k as [|k], k' as [|k']; simpl in *; try discriminate; try reflexivity. f_equal. eauto.
      * intros k k' h' E E'. specialize (H (S k) (S k') h' E E'). congruence.
Qed.

Lemma nodup_app_iff {A} (a b : list A) : NoDup (a ++ b) <-> NoDup a /\ NoDup b /\ forall x, In x a -> ~ In x b.
Proof.
  induction a as [|x a IH]; simpl.
  - split; [intros H; repeat split; [constructor|exact H|intros x []]|intros (_ & H & _); exact H].
  - split.
    + intros H. apply NoDup_cons_iff in H. destruct H as [H1 H2]. apply IH in H2. destruct H2 as (H2 & H3 & H4).
      split; [constructor; [intros K; apply H1, in_or_app; auto|exact H2]|]. split; [exact H3|].
      intros y [<-|Hy] K; [apply H1, in_or_app; auto|exact (H4 y Hy K)].
    + intros (H1 & H2 & H3). apply NoDup_cons_iff in H1. destruct H1 as [H1 H1']. constructor.
      * intros K. apply in_app_or in K. destruct K as [K|K]; [exact (H1 K)|exact (H3 x (or_introl eq_refl) K)].
      * apply IH. split; [exact H1'|]. split; [exact H2|]. intros y Hy. apply H3. right. exact Hy.
Qed.

Lemma once_nodup_list l :
  NoDup (U l) <->
  (forall i p k h i' p' k', nth_error l i = Some p -> nth_error (thits p) k = Some (h, true) ->
    nth_error l i' = Some p' -> nth_error (thits p') k' = Some (h, true) -> i = i' /\ k = k').
Proof.
  induction l as [|q l IH].
  - split; [intros _ i p k h i' p' k' H|intros _; constructor]. destruct i; discriminate H.
  - change (U (q :: l)) with (used_pt q ++ U l). rewrite nodup_app_iff. split.
    + intros (N1 & N2 & N3) i p k h i' p' k' E1 E2 E3 E4.
      destruct i as [|i], i' as [|i']; simpl in *.
      * injection E1 as <-. injection E3 as <-. split; [reflexivity|]. eapply (proj1 (nodup_used_pt q) N1); eauto.
      * injection E1 as <-. exfalso. apply (N3 h). { apply in_used_pt. eapply nth_error_In, E2. }
        apply in_U. exists p'. split; [eapply nth_error_In, E3|eapply nth_error_In, E4].
      * injection E3 as <-. exfalso. apply (N3 h). { apply in_used_pt. eapply nth_error_In, E4. }
        apply in_U. exists p. split; [eapply nth_error_In, E1|eapply nth_error_In, E2].
      * assert (X : i = i' /\ k = k') by (eapply (proj1 IH N2); eauto). destruct X; split; congruence.
    + intros H. split; [|split].
      * apply nodup_used_pt. intros k k' h E E'. eapply (H 0 q k h 0 q k'); eauto; reflexivity.
      * apply IH. intros i p k h i' p' k' E1 E2 E3 E4.
        assert (X : S i = S i' /\ k = k') by (eapply (H (S i) p k h (S i') p' k'); eauto). destruct X; split; congruence.
      * intros h H1 H2. apply in_used_pt in H1. apply in_U in H2. destruct H2 as (p & Hp & H2).
        apply In_nth_error in H1. destruct H1 as [k H1]. apply In_nth_error in Hp. destruct Hp as [i Hp].
        apply In_nth_error in H2. destruct H2 as [k' H2].
        assert (X : 0 = S i /\ k = k') by (eapply (H 0 q k h (S i) p k'); eauto). destruct X as [X _]. discriminate X.
Qed.
Lemma once_nodup t : once t <-> NoDup (U (pts t)).
Proof. symmetry. apply once_nodup_list. Qed.

(** claiming *)
Lemma nth_error_upd' {A} (l : list A) i j v : i < length l ->
  nth_error (upd l i v) j = if j =? i then Some v else nth_error l j.
Proof. intros H. rewrite nth_error_upd. apply Nat.ltb_lt in H. rewrite H, andb_true_r. reflexivity. Qed.

Lemma memb_spec h hs : existsb (Nat.eqb h) hs = true <-> In h hs.
Proof.
  rewrite existsb_exists. split; [intros (x & H & E); apply Nat.eqb_eq in E; subst; exact H|intros H; exists h; split; [exact H|apply Nat.eqb_refl]].
Qed.
Lemma memb_false h hs : existsb (Nat.eqb h) hs = false <-> ~ In h hs.
Proof. rewrite <- memb_spec. destruct (existsb (Nat.eqb h) hs); split; intros; congruence. Qed.

Lemma claim_true o id hs o' : (0 < id)%Z -> claim o id hs = Ok (o', true) ->
  length o' = length o /\ NoDup hs /\ (forall h, In h hs -> exists x, nth_error o h = Some x /\ (x <= 0)%Z) /\
  forall h, nth_error o' h = if existsb (Nat.eqb h) hs then Some id else nth_error o h.
Proof.
  intros Hid. revert o o'. induction hs as [|h hs IH]; intros o o' E; simpl in E.
  - injection E as <-. split; [reflexivity|]. split; [constructor|]. split; [intros h []|reflexivity].
  - destruct ((0 <? length o) && (length o - 1 <? h)); [discriminate E|].
    apply obind_inv in E. destruct E as (x & Ex & E). apply idx_inv in Ex. destruct Ex as [Hlt Ex].
    destruct (0 <? x)%Z eqn:Ep; [discriminate E|]. apply Z.ltb_ge in Ep.
    rewrite set_idx_ok in E by exact Hlt. simpl in E. apply IH in E. destruct E as (L & N & F & G).
    rewrite upd_length in L. split; [exact L|].
    assert (Hn : ~ In h hs).
    { intros K. apply F in K. destruct K as (y & K & Hy). rewrite nth_error_upd', Nat.eqb_refl in K by exact Hlt.
      injection K as <-. lia. }
    split; [constructor; assumption|]. split.
    + intros h' [<-|K]; [eauto|]. destruct (F h' K) as (y & Hy & Hle). rewrite nth_error_upd' in Hy by exact Hlt.
      destruct (h' =? h) eqn:Eh; [|eauto]. apply Nat.eqb_eq in Eh. subst. contradiction.
    + intros h'. rewrite G, nth_error_upd' by exact Hlt. simpl. destruct (h' =? h) eqn:Eh; [|reflexivity].
      destruct (existsb (Nat.eqb h') hs); reflexivity.
Qed.

Lemma claim_free o id hs : NoDup hs -> (forall h, In h hs -> exists x, nth_error o h = Some x /\ (x <= 0)%Z) ->
  exists o', claim o id hs = Ok (o', true).
Proof.
  revert o. induction hs as [|h hs IH]; intros o N F; simpl; [eauto|].
  destruct (F h (or_introl eq_refl)) as (x & Hx & Hle).
  assert (Hlt : h < length o) by (apply nth_error_Some; congruence).
  replace ((0 <? length o) && (length o - 1 <? h)) with false
    by (symmetry; apply andb_false_iff; right; apply Nat.ltb_ge; lia).
  unfold idx. rewrite Hx. simpl. replace (0 <? x)%Z with false by (symmetry; apply Z.ltb_ge; lia).
  rewrite set_idx_ok by exact Hlt. simpl. apply NoDup_cons_iff in N. destruct N as [N1 N2].
  apply IH; [exact N2|]. intros h' K. rewrite nth_error_upd' by exact Hlt.
  destruct (h' =? h) eqn:Eh; [apply Nat.eqb_eq in Eh; subst; contradiction|]. apply F. right. exact K.
Qed.

(** releasing *)
Lemma release_loop id hs o o' :
  foreach hs (fun o h => do x <- idx o h; if (x =? id)%Z then set_idx o h 0%Z else Ok o) o = Ok o' ->
  length o' = length o /\
  forall h, nth_error o' h = nth_error o h \/ (nth_error o h = Some id /\ nth_error o' h = Some 0%Z).
Proof.
  revert o. induction hs as [|h hs IH]; intros o E.
  - simpl in E. injection E as <-. auto.
  - simpl in E. apply obind_inv in E. destruct E as (o1 & E1 & E). apply IH in E. destruct E as [L F].
    apply obind_inv in E1. destruct E1 as (x & Ex & E1). apply idx_inv in Ex. destruct Ex as [Hlt Ex].
    destruct (x =? id)%Z eqn:Ei.
    + apply Z.eqb_eq in Ei. subst x. rewrite set_idx_ok in E1 by exact Hlt. injection E1 as <-.
      rewrite upd_length in L. split; [exact L|]. intros k. specialize (F k). rewrite nth_error_upd' in F by exact Hlt.
      destruct (k =? h) eqn:Ek; [|exact F]. apply Nat.eqb_eq in Ek. subst k. right. split; [exact Ex|].
      destruct F as [F|[_ F]]; exact F.
    + injection E1 as <-. split; assumption.
Qed.

(** end points *)
Lemma first_chg_some l i k : first_chg l i = Some k ->
  i <= k /\ (exists p, nth_error l (k - i) = Some p /\ chg p <> 0%Z) /\
  forall j p, nth_error l j = Some p -> chg p <> 0%Z -> k - i <= j.
Proof.
  revert i. induction l as [|q l IH]; intros i E; simpl in E; [discriminate E|].
  destruct (chg q =? 0)%Z eqn:Eq; simpl in E.
  - apply IH in E. destruct E as (H1 & (p & H2 & H3) & H4). split; [lia|]. split.
    + exists p. replace (k - i) with (S (k - S i)) by lia. auto.
    + intros [|j] r Hr Hc; simpl in Hr. { injection Hr as <-. apply Z.eqb_eq in Eq. contradiction. }
      specialize (H4 j r Hr Hc). lia.
  - injection E as <-. split; [lia|]. rewrite Nat.sub_diag. split; [exists q; split; [reflexivity|apply Z.eqb_neq, Eq]|lia].
Qed.
Lemma first_chg_none l i : first_chg l i = None -> forall p, In p l -> chg p = 0%Z.
Proof.
  revert i. induction l as [|q l IH]; intros i E p H; [contradiction|]. simpl in E.
  destruct (chg q =? 0)%Z eqn:Eq; simpl in E; [|discriminate E].
  destruct H as [<-|H]; [apply Z.eqb_eq, Eq|eapply IH; eauto].
Qed.
Lemma last_chg_spec l i b : 
  match last_chg l i b with
  | Some k => (last_chg l i b = b /\ forall p, In p l -> chg p = 0%Z) \/
              (i <= k /\ (exists p, nth_error l (k - i) = Some p /\ chg p <> 0%Z) /\
               forall j p, nth_error l j = Some p -> chg p <> 0%Z -> j <= k - i)
  | None => b = None /\ forall p, In p l -> chg p = 0%Z
  end.
Proof.
  revert i b. induction l as [|q l IH]; intros i b; cbn [last_chg].
  - destruct b; [left; split; [reflexivity|intros p []]|split; [reflexivity|intros p []]].
  - destruct (chg q =? 0)%Z eqn:Eq; cbn [negb].
    + specialize (IH (S i) b). destruct (last_chg l (S i) b) as [k|].
      * destruct IH as [[E Z]|(H1 & (p & H2 & H3) & H4)].
        -- left. split; [exact E|]. intros p [<-|H]; [apply Z.eqb_eq, Eq|apply Z, H].
        -- right. split; [lia|]. split; [exists p; replace (k - i) with (S (k - S i)) by lia; auto|].
           intros [|j] r Hr Hc; [lia|]. specialize (H4 j r Hr Hc). lia.
      * destruct IH as [E Z]. split; [exact E|]. intros p [<-|H]; [apply Z.eqb_eq, Eq|apply Z, H].
    + specialize (IH (S i) (Some i)). destruct (last_chg l (S i) (Some i)) as [k|] eqn:E.
      * destruct IH as [[E' Z]|(H1 & (p & H2 & H3) & H4)].
        -- injection E' as ->. right. split; [lia|]. rewrite Nat.sub_diag.
           split; [exists q; split; [reflexivity|apply Z.eqb_neq, Eq]|].
           intros [|j] r Hr Hc; [lia|]. simpl in Hr. apply nth_error_In in Hr. apply Z in Hr. contradiction.
        -- right. split; [lia|]. split; [exists p; replace (k - i) with (S (k - S i)) by lia; auto|].
           intros [|j] r Hr Hc; [lia|]. specialize (H4 j r Hr Hc). lia.
      * destruct IH as [E' _]. discriminate E'.
Qed.

Lemma sep_pts t : pts (set_end_points t) = pts t.
Proof. unfold set_end_points. destruct (shower t || halo t); reflexivity. Qed.

Lemma set_end_points_spec t : shower t = false -> halo t = false ->
  ends_of (pts t) (ep0 (set_end_points t)) (ep1 (set_end_points t)) \/
  ((forall p, In p (pts t) -> chg p = 0%Z) /\ ep0 (set_end_points t) = 0 /\ ep1 (set_end_points t) = 0).
Proof.
  intros E1 E2. unfold set_end_points. rewrite E1, E2. cbn [orb ep0 ep1 set_ends].
  destruct (first_chg (pts t) 0) as [a|] eqn:Ea.
  - left. apply first_chg_some in Ea. destruct Ea as (_ & Ha & Ha'). rewrite Nat.sub_0_r in *.
    pose proof (last_chg_spec (pts t) 0 None) as H. destruct (last_chg (pts t) 0 None) as [b|].
    + destruct H as [[H _]|(_ & Hb & Hb')]; [discriminate H|]. rewrite Nat.sub_0_r in *. cbn [or0].
      split; [exact Ha|]. split; [exact Hb|]. intros i p Hi Hc. split; [eapply Ha'; eauto|eapply Hb'; eauto].
    + destruct H as [_ H]. exfalso. destruct Ha as (p & Hp & Hc). apply Hc, H. eapply nth_error_In, Hp.
  - right. pose proof (first_chg_none _ _ Ea) as Z. split; [exact Z|]. split; [reflexivity|].
    pose proof (last_chg_spec (pts t) 0 None) as H. destruct (last_chg (pts t) 0 None) as [b|]; [|reflexivity].
    destruct H as [[H _]|(_ & (p & Hp & Hc) & _)]; [discriminate H|]. exfalso. apply Hc, Z. eapply nth_error_In, Hp.
Qed.

Lemma ends_unique l a b a' b' : ends_of l a b -> ends_of l a' b' -> a = a' /\ b = b'.
Proof.
  intros ((p & Hp & Hpc) & (q & Hq & Hqc) & H) ((p' & Hp' & Hpc') & (q' & Hq' & Hqc') & H').
  pose proof (H _ _ Hp' Hpc'). pose proof (H _ _ Hq' Hqc'). pose proof (H' _ _ Hp Hpc). pose proof (H' _ _ Hq Hqc). lia.
Qed.
Lemma ends_lt l a b : ends_of l a b -> a <= b < length l.
Proof.
  intros ((p & Hp & Hpc) & (q & Hq & Hqc) & H). pose proof (H _ _ Hp Hpc). split; [lia|]. apply nth_error_Some. congruence.
Qed.

(** points outside the end points carry no used hit *)
Lemma U_zero l : (forall p h, In p l -> In (h, true) (thits p) -> chg p <> 0%Z) ->
  (forall p, In p l -> chg p = 0%Z) -> U l = [].
Proof.
  intros C Z. destruct (U l) as [|h r] eqn:E; [reflexivity|]. exfalso.
  assert (K : In h (U l)) by (rewrite E; left; reflexivity). apply in_U in K. destruct K as (p & Hp & Hh).
  exact (C p h Hp Hh (Z p Hp)).
Qed.
Lemma In_firstn {A} (l : list A) n x : In x (firstn n l) -> exists i, i < n /\ nth_error l i = Some x.
Proof.
  revert n. induction l as [|y l IH]; intros [|n] H; simpl in H; try contradiction.
  destruct H as [<-|H]; [exists 0; split; [lia|reflexivity]|]. apply IH in H. destruct H as (i & Hi & E). exists (S i). split; [lia|exact E].
Qed.
Lemma In_skipn {A} (l : list A) n x : In x (skipn n l) -> exists i, n <= i /\ nth_error l i = Some x.
Proof.
  revert n. induction l as [|y l IH]; intros [|n] H; simpl in H; try contradiction.
  - destruct H as [<-|H]; [exists 0; split; [lia|reflexivity]|]. apply In_nth_error in H. destruct H as [i H]. exists (S i). split; [lia|exact H].
  - apply IH in H. destruct H as (i & Hi & E). exists (S i). split; [lia|exact E].
Qed.
Lemma skip2 {A} (l : list A) a b : skipn a (skipn b l) = skipn (b + a) l.
Proof. revert b. induction l as [|x l IH]; intros [|b]; simpl; rewrite ?skipn_nil; auto. Qed.
Lemma split3 {A} (l : list A) a b : a <= S b -> l = firstn a l ++ between l a b ++ skipn (S b) l.
Proof.
  intros H. unfold between. rewrite <- (firstn_skipn a l) at 1. f_equal.
  rewrite <- (firstn_skipn (S b - a) (skipn a l)) at 1. f_equal. rewrite skip2. f_equal. lia.
Qed.
Lemma tail_unused l a b : (forall p h, In p l -> In (h, true) (thits p) -> chg p <> 0%Z) ->
  ends_of l a b -> U (skipn (S b) l) = [].
Proof.
  intros C (_ & _ & H). apply U_zero.
  - intros p h Hp. apply C. apply In_skipn in Hp. destruct Hp as (i & _ & Hi). eapply nth_error_In, Hi.
  - intros p Hp. apply In_skipn in Hp. destruct Hp as (i & Hge & Hi). destruct (Z.eq_dec (chg p) 0) as [|N]; [assumption|].
    specialize (H _ _ Hi N). lia.
Qed.
Lemma head_unused l a b : (forall p h, In p l -> In (h, true) (thits p) -> chg p <> 0%Z) ->
  ends_of l a b -> U (firstn a l) = [].
Proof.
  intros C (_ & _ & H). apply U_zero.
  - intros p h Hp. apply C. apply In_firstn in Hp. destruct Hp as (i & _ & Hi). eapply nth_error_In, Hi.
  - intros p Hp. apply In_firstn in Hp. destruct Hp as (i & Hge & Hi). destruct (Z.eq_dec (chg p) 0) as [|N]; [assumption|].
    specialize (H _ _ Hi N). lia.
Qed.
Lemma between_used l a b : (forall p h, In p l -> In (h, true) (thits p) -> chg p <> 0%Z) ->
  ends_of l a b -> U (between l a b) = U l.
Proof.
  intros C E. pose proof (ends_lt _ _ _ E) as L. rewrite (split3 l a b) at 2 by lia.
  rewrite !U_app, (head_unused l a b), (tail_unused l a b) by assumption. rewrite app_nil_r. reflexivity.
Qed.

(** consistency restated with lists *)
Record inv (s : slc) : Prop := {
  i_id : forall i t, nth_error (tjs s) i = Some t -> tid t = Z.of_nat (i + 1);
  i_used : forall i t h, nth_error (tjs s) i = Some t -> killed t = false -> In h (U (pts t)) ->
           nth_error (own s) h = Some (tid t);
  i_own : forall h x, nth_error (own s) h = Some x -> (0 < x)%Z ->
          exists i t, nth_error (tjs s) i = Some t /\ killed t = false /\ tid t = x /\ In h (U (pts t));
  i_ok : forall i t, nth_error (tjs s) i = Some t -> stored_ok t }.

Lemma healthy_inv s : healthy s <-> inv s.
Proof.
  split.
  - intros [[C1 C2 C3 C4] K]. constructor.
    + exact C1.
    + intros i t h Hi Hk Hh. apply (C2 t h); [split; [eapply nth_error_In, Hi|exact Hk]|apply uses_U, Hh].
    + intros h x Hx Hp. destruct (C3 h x Hx Hp) as (t & [Ht Hk] & E & Hu). apply In_nth_error in Ht. destruct Ht as [i Ht].
      exists i, t. repeat split; try assumption. apply uses_U, Hu.
    + intros i t Hi. apply K. eapply nth_error_In, Hi.
  - intros [I1 I2 I3 I4]. split; [constructor|].
    + exact I1.
    + intros t h [Ht Hk] Hu. apply In_nth_error in Ht. destruct Ht as [i Ht]. eapply I2; eauto. apply uses_U, Hu.
    + intros h x Hx Hp. destruct (I3 h x Hx Hp) as (i & t & Hi & Hk & E & Hu). exists t. split; [split; [eapply nth_error_In, Hi|exact Hk]|].
      split; [exact E|apply uses_U, Hu].
    + intros t [Ht _]. apply In_nth_error in Ht. destruct Ht as [i Ht]. apply (I4 i t Ht).
    + intros t Ht. apply In_nth_error in Ht. destruct Ht as [i Ht]. eapply I4, Ht.
Qed.
