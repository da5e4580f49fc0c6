(** ChkVtxAssociations; histories of vertex operations. *)
From Verif Require Import Base QcUtil TV_Model TV_Spec TV_Kill TV_High TV_Ops TV_Kill2 TV_Ops2 TV_Merge TV_FModel TV_Find TV_Spec3 TV_Find3 TV_Store3.
From Coq Require Import QArith Qcanon.
Import TV_Model.
Local Open Scope nat_scope.

Lemma all_o_true {A} (f : A -> outcome bool) l : (forall a, In a l -> f a = Ok true) -> all_o f l = Ok true.
Proof. induction l as [|a l IH]; intros H; cbn [all_o]; [auto|]. rewrite (H a) by (simpl; auto). cbn [obind]. apply IH. intros; apply H; simpl; auto. Qed.
Lemma all_o_inv {A} (f : A -> outcome bool) l : all_o f l = Ok true -> forall a, In a l -> f a = Ok true.
Proof.
  induction l as [|a l IH]; intros H b []; cbn [all_o] in H; destruct (f a) as [[]| |] eqn:E; cbn [obind] in H; try discriminate; subst; auto.
Qed.

Section S.
Variable npl : nat.

Lemma bad_end_ok s t e : sound npl s -> In t (tjs s) -> dead t = false -> bad_end s t e = Ok false.
Proof.
  intros H Ht Hd. unfold bad_end. destruct (vtxid t e =? 0) eqn:E0; [auto|]. apply Nat.eqb_neq in E0.
  destruct (s_t2 npl s H t (vtxid t e) Ht Hd) as (v & (V1 & V2) & _); [split; [auto|destruct e; simpl; auto]|].
  pose proof (nth1_pos _ _ _ V1) as (_ & _ & L). destruct (length (vs s) <? vtxid t e) eqn:E1; [apply Nat.ltb_lt in E1; lia|].
  rewrite (at1_some _ _ _ V1). cbn [obind]. rewrite V2. apply Nat.eqb_neq in E0. rewrite E0. reflexivity.
Qed.

Lemma chk_tjs_ok s l : sound npl s -> incl l (tjs s) -> chk_tjs s l = Ok (true, l).
Proof.
  intros H. induction l as [|t l IH]; intros I; cbn [chk_tjs]; [auto|].
  assert (Ht : In t (tjs s)) by (apply I; simpl; auto). assert (Hl : incl l (tjs s)) by (intros x Hx; apply I; simpl; auto).
  destruct (dead t || halo t) eqn:E; [rewrite IH by auto; reflexivity|]. apply orb_false_iff in E. destruct E as (Ed & _).
  rewrite !bad_end_ok by auto. cbn [obind]. rewrite IH by auto. reflexivity.
Qed.

Theorem chk_passes s ctp : sound npl s -> ctp mod 10 < npl -> chk_assns s ctp = Ok (true, s).
Proof.
  intros H Hp. unfold chk_assns. rewrite all_o_true.
  2:{ intros v Hv. unfold chk2. destruct (negb (vctp v =? ctp)) eqn:Ec; [auto|]. apply negb_false_iff, Nat.eqb_eq in Ec. destruct (vid v =? 0) eqn:E0; [auto|]. apply Nat.eqb_neq in E0.
      destruct (v3 v =? 0) eqn:E3; [auto|]. apply Nat.eqb_neq in E3. pose proof (s_ref npl s H v Hv) as R. destruct (length (ws s) <? v3 v) eqn:E4; [apply Nat.ltb_lt in E4; lia|].
      apply In_nth_error in Hv. destruct Hv as (i & Hv). assert (Hid : vid v = S i) by (destruct (s_vid npl s H i v Hv); [contradiction|auto]).
      destruct (s_23 npl s H (S i) v) as (w & (W1 & W2) & W3); [split; auto|auto|]. rewrite (at1_some _ _ _ W1). cbn [obind].
      destruct (wid w =? 0) eqn:E5; [apply Nat.eqb_eq in E5; lia|]. unfold plane. rewrite <- Ec, (idx_some _ _ _ W3). cbn [obind]. rewrite Hid, Nat.eqb_refl. reflexivity. }
  cbn [obind negb]. rewrite all_o_true.
  2:{ intros w Hw. unfold chk3. destruct (wid w =? 0) eqn:E0; [auto|]. apply Nat.eqb_neq in E0. pose proof (s_len npl s H w Hw) as L.
      destruct (nth_error (w2 w) (plane ctp)) as [x|] eqn:Ex; [|apply nth_error_None in Ex; unfold plane in Ex; lia]. rewrite (idx_some _ _ _ Ex). cbn [obind]. destruct (x =? 0) eqn:E1; [auto|]. apply Nat.eqb_neq in E1.
      apply In_nth_error in Hw. destruct Hw as (k & Hw). assert (Hid : wid w = S k) by (destruct (s_wid npl s H k w Hw); [contradiction|auto]).
      destruct (s_32 npl s H (S k) w (plane ctp) x) as (v & (V1 & V2) & V3 & _); [split; auto|auto|auto|]. pose proof (nth1_pos _ _ _ V1) as (_ & _ & Lx).
      destruct (length (vs s) <? x) eqn:E2; [apply Nat.ltb_lt in E2; lia|]. rewrite (at1_some _ _ _ V1). cbn [obind]. rewrite V3, Hid, Nat.eqb_refl. reflexivity. }
  cbn [obind negb]. rewrite chk_tjs_ok by (auto using incl_refl). cbn [obind fst snd]. destruct s; reflexivity.
Qed.

(** what the check establishes when it passes *)
Lemma chk_tjs_inv s l l' b : chk_tjs s l = Ok (b, l') ->
  (b = true -> l' = l /\ forall t x, In t l -> dead t = false -> halo t = false -> on t x -> exists v, nth1 (vs s) x = Some v /\ vid v <> 0) /\
  (b = false -> exists l1 t e l2, l = l1 ++ t :: l2 /\ l' = l1 ++ set_end t e 0 :: l2 /\ dead t = false /\ halo t = false /\ vtxid t e <> 0 /\
                ~ exists v, nth1 (vs s) (vtxid t e) = Some v /\ vid v <> 0).
Proof.
  assert (Bad : forall t e, bad_end s t e = Ok true -> vtxid t e <> 0 /\ ~ exists v, nth1 (vs s) (vtxid t e) = Some v /\ vid v <> 0).
  { intros t e Q. unfold bad_end in Q. destruct (vtxid t e =? 0) eqn:E0; [discriminate|]. apply Nat.eqb_neq in E0. split; [auto|]. intros (v & V1 & V2).
    pose proof (nth1_pos _ _ _ V1) as (_ & _ & L). destruct (length (vs s) <? vtxid t e) eqn:E1; [apply Nat.ltb_lt in E1; lia|]. rewrite (at1_some _ _ _ V1) in Q. cbn [obind] in Q. injection Q as Q. apply Nat.eqb_eq in Q. contradiction. }
  assert (Good : forall t e, bad_end s t e = Ok false -> vtxid t e <> 0 -> exists v, nth1 (vs s) (vtxid t e) = Some v /\ vid v <> 0).
  { intros t e Q Hn. unfold bad_end in Q. destruct (vtxid t e =? 0) eqn:E0; [apply Nat.eqb_eq in E0; contradiction|]. destruct (length (vs s) <? vtxid t e); [discriminate|].
    destruct (at1 (vs s) (vtxid t e)) as [v| |] eqn:Ev; cbn [obind] in Q; try discriminate. apply at1_ok in Ev. injection Q as Q. apply Nat.eqb_neq in Q. eauto. }
  revert l' b. induction l as [|t l IH]; intros l' b E; cbn [chk_tjs] in E.
  - injection E as <- <-. split; [|discriminate]. intros _. split; [auto|]. intros t x [].
  - destruct (dead t || halo t) eqn:Ed.
    + destruct (chk_tjs s l) as [[b1 l1]| |] eqn:E1; cbn [obind fst snd] in E; try discriminate. injection E as <- <-. destruct (IH l1 b1 eq_refl) as (I1 & I2). split.
      * intros Q. destruct (I1 Q) as (-> & I3). split; [auto|]. intros u x [<-|Hu] D Hh Ho; [rewrite D, Hh in Ed; discriminate|eauto].
      * intros Q. destruct (I2 Q) as (a & u & e & c & -> & -> & R). exists (t :: a), u, e, c. auto.
    + apply orb_false_iff in Ed. destruct Ed as (D & Hh). destruct (bad_end s t false) as [[]| |] eqn:B0; cbn [obind] in E; try discriminate.
      { injection E as <- <-. split; [discriminate|]. intros _. exists [], t, false, l. destruct (Bad t false B0). auto 10. }
      destruct (bad_end s t true) as [[]| |] eqn:B1; cbn [obind] in E; try discriminate.
      { injection E as <- <-. split; [discriminate|]. intros _. exists [], t, true, l. destruct (Bad t true B1). auto 10. }
      destruct (chk_tjs s l) as [[b1 l1]| |] eqn:E1; cbn [obind fst snd] in E; try discriminate. injection E as <- <-. destruct (IH l1 b1 eq_refl) as (I1 & I2). split.
      * intros Q. destruct (I1 Q) as (-> & I3). split; [auto|]. intros u x [<-|Hu] Du Hu' Ho; [|eauto]. destruct Ho as (Hx & [Ho|Ho]); subst x; [apply (Good t false)|apply (Good t true)]; auto.
      * intros Q. destruct (I2 Q) as (a & u & e & c & -> & -> & R). exists (t :: a), u, e, c. auto.
Qed.

Theorem chk_means s ctp b s' : chk_assns s ctp = Ok (b, s') ->
  (b = true -> s' = s /\
     (forall v, In v (vs s) -> vctp v = ctp -> vid v <> 0 -> v3 v <> 0 ->
        exists w, nth1 (ws s) (v3 v) = Some w /\ wid w <> 0 /\ nth_error (w2 w) (ctp mod 10) = Some (vid v)) /\
     (forall w x, In w (ws s) -> wid w <> 0 -> nth_error (w2 w) (ctp mod 10) = Some x -> x <> 0 ->
        exists v, nth1 (vs s) x = Some v /\ v3 v = wid w) /\
     (forall t x, In t (tjs s) -> dead t = false -> halo t = false -> on t x -> exists v, nth1 (vs s) x = Some v /\ vid v <> 0)) /\
  (b = false -> s' = s \/ exists l1 t e l2, tjs s = l1 ++ t :: l2 /\ s' = set_tjs s (l1 ++ set_end t e 0 :: l2) /\
                dead t = false /\ halo t = false /\ vtxid t e <> 0 /\ ~ exists v, nth1 (vs s) (vtxid t e) = Some v /\ vid v <> 0).
Proof.
  unfold chk_assns. intros E. destruct (all_o (chk2 s ctp) (vs s)) as [[]| |] eqn:E2; cbn [obind negb] in E; try discriminate.
  2:{ injection E as <- <-. split; [discriminate|auto]. }
  destruct (all_o (chk3 s ctp) (ws s)) as [[]| |] eqn:E3; cbn [obind negb] in E; try discriminate.
  2:{ injection E as <- <-. split; [discriminate|auto]. }
  destruct (chk_tjs s (tjs s)) as [[b1 l1]| |] eqn:E4; cbn [obind fst snd] in E; try discriminate. injection E as <- <-.
  destruct (chk_tjs_inv s _ _ _ E4) as (I1 & I2). split.
  - intros Q. destruct (I1 Q) as (-> & I3). split; [destruct s; reflexivity|]. split; [|split; [|exact I3]].
    + intros v Hv Hc Hn H3. pose proof (all_o_inv _ _ E2 v Hv) as K. unfold chk2 in K. rewrite Hc, Nat.eqb_refl in K. simpl in K.
      apply Nat.eqb_neq in Hn. rewrite Hn in K. apply Nat.eqb_neq in H3. rewrite H3 in K. destruct (length (ws s) <? v3 v); [discriminate|].
      destruct (at1 (ws s) (v3 v)) as [w| |] eqn:Ew; cbn [obind] in K; try discriminate. apply at1_ok in Ew. destruct (wid w =? 0) eqn:Z; [discriminate|]. apply Nat.eqb_neq in Z.
      destruct (idx (w2 w) (plane ctp)) as [x| |] eqn:Ex; cbn [obind] in K; try discriminate. injection K as K. apply Nat.eqb_eq in K. apply idx_inv in Ex. destruct Ex as (_ & Ex). exists w. split; [auto|]. split; [auto|]. unfold plane in Ex. congruence.
    + intros w x Hw Hn Hx Hx0. pose proof (all_o_inv _ _ E3 w Hw) as K. unfold chk3 in K. apply Nat.eqb_neq in Hn. rewrite Hn in K. unfold plane in K. rewrite (idx_some _ _ _ Hx) in K. cbn [obind] in K.
      apply Nat.eqb_neq in Hx0. rewrite Hx0 in K. destruct (length (vs s) <? x); [discriminate|]. destruct (at1 (vs s) x) as [v| |] eqn:Ev; cbn [obind] in K; try discriminate. apply at1_ok in Ev. injection K as K. apply Nat.eqb_eq in K. eauto.
  - intros Q. right. destruct (I2 Q) as (a & t & e & c & A1 & A2 & R). exists a, t, e, c. split; [auto|]. split; [rewrite A2; reflexivity|exact R].
Qed.

(** it never reads past an end *)
Theorem chk_total s ctp : (forall w, In w (ws s) -> ctp mod 10 < length (w2 w)) -> exists b s', chk_assns s ctp = Ok (b, s').
Proof.
  intros H. assert (A1 : forall {A} (l : list A) x, x <> 0 -> (length l <? x) = false -> exists a, at1 l x = Ok a).
  { intros A l x Hx L. apply Nat.ltb_ge in L. destruct x as [|x]; [contradiction|]. simpl. unfold idx. destruct (nth_error l x) eqn:E; [eauto|]. apply nth_error_None in E. lia. }
  assert (AO : forall {A} (f : A -> outcome bool) l, (forall a, In a l -> exists b, f a = Ok b) -> exists b, all_o f l = Ok b).
  { intros A f l. induction l as [|a l IH]; intros Q; cbn [all_o]; [eauto|]. destruct (Q a) as (b & ->); [simpl; auto|]. cbn [obind]. destruct b; [apply IH; intros; apply Q; simpl; auto|eauto]. }
  assert (BE : forall t e, exists b, bad_end s t e = Ok b).
  { intros t e. unfold bad_end. destruct (vtxid t e =? 0) eqn:E0; [eauto|]. destruct (length (vs s) <? vtxid t e) eqn:L; [eauto|]. apply Nat.eqb_neq in E0. destruct (A1 _ _ _ E0 L) as (v & ->). cbn [obind]. eauto. }
  assert (IX : forall w, In w (ws s) -> exists x, idx (w2 w) (plane ctp) = Ok x).
  { intros w Hw. unfold idx, plane. destruct (nth_error (w2 w) (ctp mod 10)) eqn:E; [eauto|]. apply nth_error_None in E. specialize (H w Hw). lia. }
  unfold chk_assns. destruct (AO _ (chk2 s ctp) (vs s)) as (b2 & ->).
  { intros v _. unfold chk2. destruct (negb (vctp v =? ctp)); [eauto|]. destruct (vid v =? 0); [eauto|]. destruct (v3 v =? 0) eqn:E0; [eauto|]. destruct (length (ws s) <? v3 v) eqn:L; [eauto|].
    apply Nat.eqb_neq in E0. destruct (A1 _ _ _ E0 L) as (w & Ew). rewrite Ew. cbn [obind]. destruct (wid w =? 0); [eauto|]. apply at1_ok in Ew. destruct (v3 v) as [|k]; [contradiction|]. destruct (IX w (nth_error_In _ _ Ew)) as (x & ->). cbn [obind]. eauto. }
  cbn [obind]. destruct b2; cbn [negb]; [|eauto]. destruct (AO _ (chk3 s ctp) (ws s)) as (b3 & ->).
  { intros w Hw. unfold chk3. destruct (wid w =? 0); [eauto|]. destruct (IX w Hw) as (x & ->). cbn [obind]. destruct (x =? 0) eqn:E0; [eauto|]. destruct (length (vs s) <? x) eqn:L; [eauto|].
    apply Nat.eqb_neq in E0. destruct (A1 _ _ _ E0 L) as (v & ->). cbn [obind]. eauto. }
  cbn [obind]. destruct b3; cbn [negb]; [|eauto].
  assert (Q : exists b l, chk_tjs s (tjs s) = Ok (b, l)).
  { generalize (tjs s). intros l. induction l as [|t l (b & l' & IH)]; cbn [chk_tjs]; [eauto|]. rewrite IH. destruct (dead t || halo t); cbn [obind]; [eauto|].
    destruct (BE t false) as (b0 & ->). cbn [obind]. destruct b0; [eauto|]. destruct (BE t true) as (b1 & ->). cbn [obind]. destruct b1; eauto. }
  destruct Q as (b & l & ->). cbn [obind]. eauto.
Qed.

(** ---- histories ---- *)

(** a trajectory before and after some of its free ends are given to the vertex under construction *)
Definition claims (id : nat) (t t' : tj) : Prop :=
  tid t' = tid t /\ tctp t' = tctp t /\ dead t' = dead t /\ halo t' = halo t /\
  ((e0 t' = e0 t /\ e1 t' = e1 t) \/
   (halo t = false /\ (e0 t' = e0 t \/ e0 t = 0 /\ e0 t' = id) /\ (e1 t' = e1 t \/ e1 t = 0 /\ e1 t' = id))).

Lemma claims_but s l id : id <> 0 -> sound npl s -> Forall2 (claims id) (tjs s) l -> sound_but npl id (set_tjs s l).
Proof.
  intros Hid H F. apply (proj2 (but_iff npl s id l Hid (sound_sound_but npl s id Hid H))). split; [|split].
  - intros i t Ht. destruct (F2_nth_r _ _ _ i t F Ht) as (u & U1 & (C1 & _)). rewrite C1. apply (s_tid npl s H i u U1).
  - intros t Ht Hh. apply In_nth_error in Ht. destruct Ht as (i & Ht). destruct (F2_nth_r _ _ _ i t F Ht) as (u & U1 & (C1 & C2 & C3 & C4 & C5)).
    assert (Hu : halo u = true) by congruence. destruct (s_halo npl s H u (nth_error_In _ _ U1) Hu) as (Z0 & Z1). destruct C5 as [(-> & ->)|(Q & _)]; [auto|congruence].
  - intros t x Ht Hd Ho Hx. apply In_nth_error in Ht. destruct Ht as (i & Ht). destruct (F2_nth_r _ _ _ i t F Ht) as (u & U1 & (C1 & C2 & C3 & C4 & C5)).
    rewrite C2. apply (s_t2 npl s H u x); [eapply nth_error_In; eauto|congruence|]. destruct Ho as (X0 & Ho). split; [auto|].
    destruct C5 as [(Q1 & Q2)|(_ & [Q1|(_ & Q1)] & [Q2|(_ & Q2)])]; rewrite Q1, Q2 in Ho; try tauto; destruct Ho as [Ho|Ho]; try (exfalso; apply Hx; congruence); auto.
Qed.

Lemma new_tj_sound s t : sound npl s -> tid t = S (length (tjs s)) -> e0 t = 0 -> e1 t = 0 -> sound npl (set_tjs s (tjs s ++ [t])).
Proof.
  intros H Ht Z0 Z1. apply sound_tjs; [auto| | |].
  - intros i u Hu. destruct (lt_dec i (length (tjs s))) as [L|L]; [rewrite nth_error_app1 in Hu by auto; apply (s_tid npl s H i u Hu)|].
    rewrite nth_error_app2 in Hu by lia. destruct (i - length (tjs s)) as [|n] eqn:E; [simpl in Hu; injection Hu as <-; rewrite Ht; f_equal; lia|destruct n; discriminate].
  - intros u Hu Hh. apply in_app_or in Hu. destruct Hu as [Hu|[<-|[]]]; [apply (s_halo npl s H u Hu Hh)|auto].
  - intros u x Hu Hd Ho. apply in_app_or in Hu. destruct Hu as [Hu|[<-|[]]]; [apply (s_t2 npl s H u x Hu Hd Ho)|]. destruct Ho as (X & [Ho|Ho]); congruence.
Qed.

Lemma kill_tj_sound s i t : sound npl s -> nth_error (tjs s) i = Some t -> sound npl (set_tjs s (upd (tjs s) i (set_dead t true))).
Proof.
  intros H Ht. apply sound_tjs; [auto| | |].
  - intros j u Hu. rewrite nth_error_upd in Hu. destruct ((j =? i) && _) eqn:E; [|apply (s_tid npl s H j u Hu)]. apply andb_true_iff in E. destruct E as (E & _). apply Nat.eqb_eq in E. subst j. injection Hu as <-. apply (s_tid npl s H i t Ht).
  - intros u Hu Hh. apply In_nth_error in Hu. destruct Hu as (j & Hu). rewrite nth_error_upd in Hu. destruct ((j =? i) && _); [injection Hu as <-; apply (s_halo npl s H t (nth_error_In _ _ Ht) Hh)|apply (s_halo npl s H u (nth_error_In _ _ Hu) Hh)].
  - intros u x Hu Hd Ho. apply In_nth_error in Hu. destruct Hu as (j & Hu). rewrite nth_error_upd in Hu. destruct ((j =? i) && _); [injection Hu as <-; discriminate|]. apply (s_t2 npl s H u x (nth_error_In _ _ Hu) Hd Ho).
Qed.

End S.

Section H.
Variable cut : Qc.

(** one call of a public function, or a change of a trajectory that the rest of TrajCluster makes;
    three planes *)
Inductive op (s : slice) : slice -> Prop :=
| op_new_tj t : tid t = S (length (tjs s)) -> e0 t = 0 -> e1 t = 0 -> op s (set_tjs s (tjs s ++ [t]))
| op_kill_tj i t : nth_error (tjs s) i = Some t -> op s (set_tjs s (upd (tjs s) i (set_dead t true)))
| op_pfps l : op s (set_ps s l)
| op_store l v : Forall2 (claims (S (length (vs s)))) (tjs s) l ->
    vid v = S (length (vs s)) -> v3 v = 0 -> vctp v mod 10 < 3 -> op s (snd (store_vertex (set_tjs s l) v))
| op_attach ti vi e g b s' : attach s ti vi e g = Ok (b, s') -> op s s'
| op_attach_any g vi b s' : attach_any g s vi = Ok (b, s') -> op s s'
| op_find2d g ctp s' : (forall s i b j l, incl (order (mgeo g s i b j) l) l) -> ctp mod 10 < 3 -> find2d g ctp s = Ok s' -> op s s'
| op_find3d g s' : sorts3 (srt g) -> (forall x v, is_2V s x v -> v3 v = 0) -> find3d 3 cut g s = Ok s' -> op s s'
| op_score sc s' : score_vertices 3 cut sc s = Ok s' -> op s s'
| op_chk ctp b s' : ctp mod 10 < 3 -> chk_assns s ctp = Ok (b, s') -> op s s'
| op_mvo2 i force b s' : mvo2 3 cut s i force = Ok (b, s') -> op s s'
| op_mvo3 k b s' : mvo3 3 cut s k = Ok (b, s') -> op s s'
| op_kill_poor s' : kill_poor 3 cut s = Ok s' -> op s s'
| op_kill_shower ctp inside s' : kill_in_shower 3 cut ctp inside s = Ok s' -> op s s'.

Inductive history : slice -> Prop :=
| h_start : history (SL [] [] [] [] 0 0)
| h_step s s' : history s -> op s s' -> history s'.

Lemma idx_lt {A} (l : list A) i a : idx l i = Ok a -> i < length l.
Proof. intros E. apply idx_inv in E. apply E. Qed.

Lemma op_sound s s' : sound 3 s -> op s s' -> sound 3 s'.
Proof.
  intros H Ho. destruct Ho as [t A B C|i t A|l|l v A B C D|ti vi e g b s' A|g vi b s' A|g ctp s' A B C|g s' A B C|sc s' A|ctp b s' A B|i force b s' A|k b s' A|s' A|ctp inside s' A].
  - apply new_tj_sound; auto.
  - apply kill_tj_sound; auto.
  - destruct H; constructor; auto.
  - assert (N : S (length (vs s)) <> 0) by lia.
    destruct (store_ok 3 (set_tjs s l) v B C D (claims_but 3 s l _ N H A)) as (_ & _ & _ & _ & _ & K). exact K.
  - unfold attach in A. destruct (idx (tjs s) ti) as [t| |] eqn:E1; cbn [obind] in A; try discriminate. destruct (idx (vs s) vi) as [v| |] eqn:E2; cbn [obind] in A; try discriminate.
    destruct (attach_ok 3 s ti vi e g H (idx_lt _ _ _ E1) (idx_lt _ _ _ E2)) as (b' & s1 & K1 & K2 & _). unfold attach in K1. rewrite E1, E2 in K1. cbn [obind] in K1. rewrite K1 in A. injection A as <- <-. exact K2.
  - destruct (attach_any_ok 3 g s vi H) as (b' & s1 & K1 & K2 & _). rewrite K1 in A. injection A as <- <-. exact K2.
  - destruct (find2d_ok 3 g ctp s A B H) as (s1 & K1 & K2 & _). congruence.
  - destruct (find3d_ok cut g s H B A) as (s1 & M & sel & K1 & K2 & _). congruence.
  - destruct (score_vertices_ok 3 cut sc s H) as (s1 & K1 & K2 & _). assert (s1 = s') by congruence. subst. eapply same_sound; eauto.
  - rewrite (chk_passes 3 s ctp H A) in B. injection B as <- <-. exact H.
  - assert (L : i < length (vs s)).
    { unfold mvo2 in A. destruct (idx (vs s) i) as [v| |] eqn:E1; cbn [obind] in A; try discriminate. eapply idx_lt; eauto. }
    destruct (mvo2_sound 3 cut s i force H L) as (b' & s1 & K1 & K2 & _). rewrite K1 in A. injection A as <- <-. exact K2.
  - unfold mvo3 in A. destruct (idx (ws s) k) as [w| |] eqn:E1; cbn [obind] in A; try discriminate. apply idx_inv in E1. destruct E1 as (_ & E1). destruct (wid w =? 0) eqn:E0; [injection A as _ <-; exact H|]. apply Nat.eqb_neq in E0.
    assert (W1 : is_3V s (S k) w) by (split; [exact E1|]; destruct (s_wid 3 s H k w E1); [contradiction|auto]).
    destruct (mvo3_live 3 cut s k w H W1) as (s1 & K1 & K2 & _). unfold mvo3 in K1. rewrite (idx_some _ _ _ E1) in K1. cbn [obind] in K1. apply Nat.eqb_neq in E0. rewrite E0 in K1. rewrite K1 in A. injection A as <- <-. exact K2.
  - destruct (kill_poor_ok 3 cut s H) as (s1 & K1 & K2 & _). congruence.
  - destruct (kill_in_shower_ok 3 cut ctp inside s H) as (s1 & K1 & K2 & _). congruence.
Qed.

Theorem history_sound s : history s -> sound 3 s.
Proof.
  induction 1; [|eapply op_sound; eauto]. constructor; intros; try (destruct i; discriminate); try (destruct k; discriminate); try contradiction.
  - destruct H as (A & _). destruct x as [|[|x]]; discriminate.
  - destruct H as (A & _). destruct k as [|[|k]]; discriminate.
Qed.

End H.
