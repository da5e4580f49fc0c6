(** MakeVertexObsolete: exact effect, and the associations stay consistent. *)
From Verif Require Import Base Util TV_Model TV_Spec.
From Coq Require Import QArith Qcanon Relations.
Local Open Scope nat_scope.

Lemma at1_some {A} (l : list A) x a : nth1 l x = Some a -> at1 l x = Ok a.
Proof. destruct x; simpl; [discriminate|]. unfold idx. intros ->. reflexivity. Qed.
Lemma at1_ok {A} (l : list A) x a : at1 l x = Ok a -> nth1 l x = Some a.
Proof. destruct x; simpl; [discriminate|]. unfold idx. destruct (nth_error l x); congruence. Qed.
Lemma idx_some {A} (l : list A) x a : nth_error l x = Some a -> idx l x = Ok a.
Proof. unfold idx. intros ->. reflexivity. Qed.
Lemma nth1_pos {A} (l : list A) x a : nth1 l x = Some a -> x <> 0 /\ nth_error l (x - 1) = Some a /\ x <= length l.
Proof.
  destruct x; simpl; [discriminate|]. intros H. rewrite Nat.sub_0_r. repeat split; auto.
  assert (x < length l) by (apply nth_error_Some; congruence). lia.
Qed.
Lemma nth1_in {A} (l : list A) x a : nth1 l x = Some a -> In a l.
Proof. intros H. apply nth1_pos in H. destruct H as (_ & H & _). eapply nth_error_In; eauto. Qed.
Lemma nth1_ex {A} (l : list A) x : x <> 0 -> x <= length l -> exists a, nth1 l x = Some a.
Proof.
  destruct x; [lia|]. intros _ H. simpl. destruct (nth_error l x) eqn:E; eauto. apply nth_error_None in E. lia.
Qed.
Lemma nth1_upd {A} (l : list A) x (a b : A) y : nth1 l x = Some a ->
  nth1 (upd l (x - 1) b) y = if y =? x then Some b else nth1 l y.
Proof.
  intros H. apply nth1_pos in H. destruct H as (H0 & H1 & H2). destruct y; simpl.
  - destruct x; [lia|reflexivity].
  - rewrite nth_error_upd. destruct x; [lia|]. simpl. rewrite Nat.sub_0_r.
    rewrite (Nat.eqb_sym y x). destruct (x =? y) eqn:E; auto.
    apply Nat.eqb_eq in E. subst. destruct (y <? length l) eqn:E2; [reflexivity|]. apply Nat.ltb_ge in E2. lia.
Qed.

Lemma map_o_ok {A B} (f : A -> outcome B) (R : A -> B -> Prop) l :
  (forall a, In a l -> exists b, f a = Ok b /\ R a b) -> exists l', map_o f l = Ok l' /\ Forall2 R l l'.
Proof.
  induction l as [|a l IH]; intros H; simpl; [eauto|].
  destruct (H a (or_introl eq_refl)) as (b & E & HR). rewrite E. cbn [obind].
  destruct IH as (l' & E' & HF); [intros; apply H; right; auto|]. rewrite E'. cbn [obind]. eauto.
Qed.

Lemma F2_nth {A B} (R : A -> B -> Prop) l l' i : Forall2 R l l' ->
  match nth_error l i, nth_error l' i with Some a, Some b => R a b | None, None => True | _, _ => False end.
Proof.
  intros H. revert i. induction H; intros [|i]; simpl; auto. apply IHForall2.
Qed.
Lemma F2_nth_r {A B} (R : A -> B -> Prop) l l' i b : Forall2 R l l' -> nth_error l' i = Some b ->
  exists a, nth_error l i = Some a /\ R a b.
Proof. intros H E. pose proof (F2_nth R l l' i H) as G. rewrite E in G. destruct (nth_error l i); [eauto|tauto]. Qed.
Lemma F2_nth_l {A B} (R : A -> B -> Prop) l l' i a : Forall2 R l l' -> nth_error l i = Some a ->
  exists b, nth_error l' i = Some b /\ R a b.
Proof. intros H E. pose proof (F2_nth R l l' i H) as G. rewrite E in G. destruct (nth_error l' i); [eauto|tauto]. Qed.

Section S.
Variable npl : nat.
Variable cut : Qc.

(** every end of a live trajectory stays within the vertex list *)
Definition in_reach (n : nat) (t : tj) : Prop := dead t = false -> e0 t <= n /\ e1 t <= n.

Lemma sound_reach s t : sound npl s -> In t (tjs s) -> in_reach (length (vs s)) t.
Proof.
  intros H Hin Hd. split; match goal with |- ?a <= _ => destruct (Nat.eq_dec a 0) as [E|E]; [lia|] end.
  - destruct (s_t2 npl s H t (e0 t) Hin Hd) as (v & (Hv & _) & _); [split; auto|]. apply nth1_pos in Hv. lia.
  - destruct (s_t2 npl s H t (e1 t) Hin Hd) as (v & (Hv & _) & _); [split; auto|]. apply nth1_pos in Hv. lia.
Qed.

(** hi of the list after the kill is hi before *)
Lemma mvo_tj_ok s x v t : nth1 (vs s) x = Some v -> in_reach (length (vs s)) t ->
  exists t', mvo_tj (upd (vs s) (x - 1) (set_vid v 0)) x t = Ok t' /\ tj_after s x t t'.
Proof.
  intros Hv Hr. unfold mvo_tj, tj_after, in_reach in *.
  destruct t as [ti tc td th a b hi ph]; cbn [dead halo e0 e1 tid tctp thi pho] in *.
  destruct (td || th) eqn:D; [eauto|]. apply orb_false_iff in D. destruct D as [-> ->]. specialize (Hr eq_refl).
  set (l := upd (vs s) (x - 1) (set_vid v 0)).
  assert (Hhi : forall y, y <> 0 -> y <= length (vs s) -> exists u, at1 l y = Ok u /\ vhi u = hi_of s y).
  { intros y Hy Hy2. destruct (nth1_ex (vs s) y Hy Hy2) as (u & Hu). unfold hi_of. rewrite Hu.
    subst l. destruct (y =? x) eqn:E.
    - exists (set_vid v 0). split.
      + apply at1_some. rewrite (nth1_upd _ _ v) by auto. rewrite E. reflexivity.
      + apply Nat.eqb_eq in E. subst. rewrite Hv in Hu. injection Hu as <-. reflexivity.
    - exists u. split; [|reflexivity]. apply at1_some. rewrite (nth1_upd _ _ v) by auto. rewrite E. exact Hu. }
  apply nth1_pos in Hv. destruct Hv as (Hx & _).
  assert (Ha : (0 <? a) = true -> exists u, at1 l a = Ok u /\ vhi u = hi_of s a)
    by (intros Z; apply Nat.ltb_lt in Z; apply Hhi; lia).
  assert (Hb : (0 <? b) = true -> exists u, at1 l b = Ok u /\ vhi u = hi_of s b)
    by (intros Z; apply Nat.ltb_lt in Z; apply Hhi; lia).
  assert (Xa : (a =? x) = true -> (0 <? a) = true) by (intros Z; apply Nat.eqb_eq in Z; apply Nat.ltb_lt; lia).
  assert (Xb : (b =? x) = true -> (0 <? b) = true) by (intros Z; apply Nat.eqb_eq in Z; apply Nat.ltb_lt; lia).
  assert (X0 : (0 =? x) = false) by (apply Nat.eqb_neq; lia).
  assert (Zl : (0 <? 0) = false) by reflexivity.
  clearbody l. clear Hhi Hr Hx. unfold mvo_end.
  destruct (0 <? a) eqn:Za; [destruct (Ha eq_refl) as (ua & Ea & Hua)|]; clear Ha;
  (destruct (0 <? b) eqn:Zb; [destruct (Hb eq_refl) as (ub & Eb & Hub)|]; clear Hb);
  (destruct (a =? x) eqn:Ax; [try discriminate (Xa eq_refl)|]; clear Xa);
  (destruct (b =? x) eqn:Bx; [try discriminate (Xb eq_refl)|]; clear Xb);
  destruct hi;
  repeat (cbn [vtxid set_end set_pho set_thi negb e0 e1 thi pho dead halo tid tctp obind andb orb];
          rewrite ?Ax, ?Bx, ?Za, ?Zb, ?Zl, ?X0; try rewrite Ea; try rewrite Eb; try rewrite Hua; try rewrite Hub);
  try (destruct (hi_of s a)); try (destruct (hi_of s b));
  repeat (cbn [vtxid set_end set_pho set_thi negb e0 e1 thi pho dead halo tid tctp obind andb orb];
          rewrite ?Ax, ?Bx, ?Za, ?Zb, ?Zl, ?X0; try rewrite Ea; try rewrite Eb; try rewrite Hua; try rewrite Hub);
  (eexists; split; [reflexivity|]); cbn [e0 e1 thi pho dead halo tid tctp]; repeat split; reflexivity.
Qed.

Lemma nth_clear id l p y : nth_error l p = Some y ->
  nth_error (clear_id id l) p = Some (if y =? id then 0 else y).
Proof. intros H. unfold clear_id. rewrite nth_error_map, H. reflexivity. Qed.

(** a live, unprotected 2D vertex *)
Theorem mvo2_live s i v force : sound npl s -> nth_error (vs s) i = Some v -> vid v <> 0 ->
  (force = true \/ v3 v = 0 \/ exists w, nth1 (ws s) (v3 v) = Some w /\ (wsc w < cut)%Qc) ->
  exists s', mvo2 npl cut s i force = Ok (true, s') /\ obsoleted s (vid v) v s'.
Proof.
  intros H Hv Hl Hf.
  assert (Hx : vid v = S i) by (destruct (s_vid npl s H i v Hv); [contradiction|auto]).
  assert (H1 : nth1 (vs s) (vid v) = Some v) by (rewrite Hx; exact Hv).
  unfold mvo2. rewrite (idx_some _ _ _ Hv). cbn [obind].
  assert (Hw : v3 v <> 0 -> exists w, nth1 (ws s) (v3 v) = Some w /\ nth_error (w2 w) (plane (vctp v)) = Some (vid v)).
  { intros Hn. destruct (s_23 npl s H (vid v) v) as (w & (A & B) & C); [split; auto|auto|]. exists w. auto. }
  destruct (0 <? v3 v) eqn:E3.
  - apply Nat.ltb_lt in E3. destruct Hw as (w & Hw & Hp); [lia|].
    assert (Ep : (if true && negb force then do w0 <- at1 (ws s) (v3 v); Ok (qle cut (wsc w0)) else Ok false) = Ok false).
    { destruct force; [reflexivity|]. cbn [negb andb]. rewrite (at1_some _ _ _ Hw). cbn [obind].
      destruct Hf as [?|[?|(w' & Hw' & Hs)]]; [discriminate|lia|]. rewrite Hw in Hw'. injection Hw' as <-.
      unfold qle. destruct (Qclt_le_dec (wsc w) cut) as [?|G]; [reflexivity|]. exfalso. eapply Qclt_not_le; eauto. }
    rewrite Ep. cbn [obind]. rewrite (at1_some _ _ _ Hw). cbn [obind vs tjs ws set_ws set_vs set_tjs].
    destruct (map_o_ok (mvo_tj (upd (vs s) i (set_vid v 0)) (vid v)) (tj_after s (vid v)) (tjs s)) as (ts & Ets & HF).
    { intros t Ht. replace i with (vid v - 1) by lia. apply mvo_tj_ok; auto. eapply sound_reach; eauto. }
    rewrite Ets. cbn [obind ws set_tjs set_vs set_ws negb].
    assert (Hw1 : nth1 (upd (ws s) (v3 v - 1) (set_w2 w (clear_id (vid v) (w2 w)))) (v3 v) = Some (set_w2 w (clear_id (vid v) (w2 w)))).
    { rewrite (nth1_upd _ _ w) by auto. rewrite Nat.eqb_refl. reflexivity. }
    rewrite (at1_some _ _ _ Hw1). cbn [obind set_w2 w2].
    rewrite (idx_some _ _ 0); [|rewrite (nth_clear _ _ _ _ Hp), Nat.eqb_refl; reflexivity].
    cbn [obind]. destruct (0 =? vid v) eqn:E0; [apply Nat.eqb_eq in E0; lia|]. cbn [negb].
    eexists; split; [reflexivity|]. constructor; cbn [tjs vs ws ps g2 g3 set_tjs set_vs set_ws]; auto.
    + apply upd_length.
    + intros y. replace i with (vid v - 1) by lia. rewrite (nth1_upd _ _ v) by auto. reflexivity.
    + apply upd_length.
    + intros k w0 Hw0. rewrite (nth1_upd _ _ w) by auto. destruct (k =? v3 v) eqn:Ek.
      * apply Nat.eqb_eq in Ek. subst k. rewrite Hw in Hw0. injection Hw0 as <-.
        eexists; split; [reflexivity|]. cbn. do 6 (split; [reflexivity|]). split; [apply map_length|].
        intros p y Hy. apply nth_clear. exact Hy.
      * exists w0. do 8 (split; [auto|]). intros p y Hy. cbn. exact Hy.
  - apply Nat.ltb_ge in E3. cbn [andb obind vs tjs set_vs].
    destruct (map_o_ok (mvo_tj (upd (vs s) i (set_vid v 0)) (vid v)) (tj_after s (vid v)) (tjs s)) as (ts & Ets & HF).
    { intros t Ht. replace i with (vid v - 1) by lia. apply mvo_tj_ok; auto. eapply sound_reach; eauto. }
    rewrite Ets. cbn [obind negb].
    eexists; split; [reflexivity|]. constructor; cbn [tjs vs ws ps g2 g3 set_tjs set_vs set_ws]; auto.
    + apply upd_length.
    + intros y. replace i with (vid v - 1) by lia. rewrite (nth1_upd _ _ v) by auto. reflexivity.
    + intros k w0 Hw0. exists w0. do 8 (split; [auto|]). intros p y Hy.
      destruct (k =? v3 v) eqn:E; [|exact Hy]. apply Nat.eqb_eq in E. apply nth1_pos in Hw0. lia.
Qed.

(** a protected one *)
Theorem mvo2_protected s i v w : nth_error (vs s) i = Some v -> nth1 (ws s) (v3 v) = Some w -> (cut <= wsc w)%Qc ->
  mvo2 npl cut s i false = Ok (false, s).
Proof.
  intros Hv Hw Hs. unfold mvo2. rewrite (idx_some _ _ _ Hv). cbn [obind].
  pose proof (nth1_pos _ _ _ Hw) as (Hp & _). assert (E : (0 <? v3 v) = true) by (apply Nat.ltb_lt; lia). rewrite E.
  cbn [andb negb]. rewrite (at1_some _ _ _ Hw). cbn [obind]. unfold qle.
  destruct (Qclt_le_dec (wsc w) cut) as [G|G]; [exfalso; eapply Qclt_not_le; eauto|reflexivity].
Qed.

(** ** Consistency depends only on the associations *)
Lemma same_refl s : same s s. Proof. repeat split. Qed.
Lemma same_sym s s' : same s s' -> same s' s. Proof. intros (A & B & C). repeat split; auto. Qed.
Lemma same_trans a b c : same a b -> same b c -> same a c.
Proof. intros (A & B & C) (D & E & F). repeat split; congruence. Qed.

Lemma map_nth_r {A B} (f : A -> B) l l' i b : map f l = map f l' -> nth_error l' i = Some b ->
  exists a, nth_error l i = Some a /\ f a = f b.
Proof.
  intros E H. assert (G : nth_error (map f l) i = Some (f b)) by (rewrite E, nth_error_map, H; reflexivity).
  rewrite nth_error_map in G. destruct (nth_error l i) as [a|]; [|discriminate]. exists a. split; [reflexivity|].
  simpl in G. congruence.
Qed.
Lemma map_nth1_r {A B} (f : A -> B) l l' i b : map f l = map f l' -> nth1 l' i = Some b ->
  exists a, nth1 l i = Some a /\ f a = f b.
Proof. destruct i; simpl; [discriminate|]. apply map_nth_r. Qed.
Lemma map_in_r {A B} (f : A -> B) l l' b : map f l = map f l' -> In b l' -> exists a, In a l /\ f a = f b.
Proof.
  intros E H. apply In_nth_error in H. destruct H as (i & H). destruct (map_nth_r f l l' i b E H) as (a & Ha & Hf).
  exists a. split; [eapply nth_error_In; eauto|auto].
Qed.

Lemma same_2V s s' x v : same s s' -> is_2V s x v -> exists v', is_2V s' x v' /\ vctp v' = vctp v /\ v3 v' = v3 v.
Proof.
  intros (_ & Hs & _) (A & B). symmetry in Hs. destruct (map_nth1_r vx_shape _ _ x v Hs A) as (v' & C & D).
  injection D as D1 D2 D3. exists v'. repeat split; congruence.
Qed.
Lemma same_3V s s' x w : same s s' -> is_3V s x w -> exists w', is_3V s' x w' /\ w2 w' = w2 w.
Proof.
  intros (_ & _ & Hs) (A & B). symmetry in Hs. destruct (map_nth1_r w_shape _ _ x w Hs A) as (v' & C & D).
  injection D as D1 D2. exists v'. repeat split; congruence.
Qed.

Theorem same_sound s s' : same s s' -> sound npl s -> sound npl s'.
Proof.
  intros Hs H. pose proof Hs as (HT & HV & HW). pose proof (same_sym _ _ Hs) as Hs'. constructor.
  - intros i t Ht. destruct (map_nth_r _ _ _ i t HT Ht) as (a & Ha & E). injection E as E1 _ _ _ _ _.
    rewrite <- E1. eapply (s_tid npl s); eauto.
  - intros i t Ht. destruct (map_nth_r _ _ _ i t HV Ht) as (a & Ha & E). injection E as E1 _ _.
    rewrite <- E1. eapply (s_vid npl s); eauto.
  - intros i t Ht. destruct (map_nth_r _ _ _ i t HW Ht) as (a & Ha & E). injection E as E1 _.
    rewrite <- E1. eapply (s_wid npl s); eauto.
  - intros v Hv. destruct (map_in_r _ _ _ v HV Hv) as (a & Ha & E). injection E as E1 E2 _.
    rewrite <- E2. eapply (s_pl npl s); eauto.
  - intros v Hv. destruct (map_in_r _ _ _ v HW Hv) as (a & Ha & E). injection E as E1 E2.
    rewrite <- E2. eapply (s_len npl s); eauto.
  - intros t Ht Hh. destruct (map_in_r _ _ _ t HT Ht) as (a & Ha & E). injection E as E1 E2 E3 E4 E5 E6.
    rewrite <- E5, <- E6. eapply (s_halo npl s); eauto; congruence.
  - intros t x Ht Hd Ho. destruct (map_in_r _ _ _ t HT Ht) as (a & Ha & E). injection E as E1 E2 E3 E4 E5 E6.
    destruct (s_t2 npl s H a x Ha) as (v & Hv & Hc); [congruence|unfold on in *; rewrite E5, E6; auto|].
    destruct (same_2V _ _ _ _ Hs Hv) as (v' & A & B & C). exists v'. split; [auto|congruence].
  - intros x v Hv Hn. destruct (same_2V _ _ _ _ Hs' Hv) as (v' & A & B & C).
    destruct (s_23 npl s H x v' A) as (w & D & E); [congruence|].
    destruct (same_3V _ _ _ _ Hs D) as (w' & F & G). exists w'. rewrite <- C, <- B, G. auto.
  - intros k w p x Hw Hp Hx. destruct (same_3V _ _ _ _ Hs' Hw) as (w' & F & G).
    destruct (s_32 npl s H k w' p x F) as (v & A & B & C); [congruence|auto|].
    destruct (same_2V _ _ _ _ Hs A) as (v' & D & E & I). exists v'. rewrite I, E. auto.
  - intros v Hv. destruct (map_in_r _ _ _ v HV Hv) as (a & Ha & E). injection E as E1 E2 E3.
    rewrite <- E3. apply (f_equal (@length _)) in HW. rewrite !map_length in HW. rewrite <- HW.
    eapply (s_ref npl s); eauto.
Qed.

(** making a live 2D vertex obsolete keeps the associations consistent *)
Theorem obsoleted_sound s x v s' : sound npl s -> is_2V s x v -> obsoleted s x v s' -> sound npl s'.
Proof.
  intros H (Hv & Hid) O. destruct O as [OT OL2 O2 OL3 O3 OP OG].
  assert (Hx : x <> 0) by (apply nth1_pos in Hv; lia).
  assert (H2 : forall y u, is_2V s' y u <-> is_2V s y u /\ y <> x).
  { intros y u. unfold is_2V. rewrite O2. destruct (y =? x) eqn:E.
    - apply Nat.eqb_eq in E. subst y. split; [|intuition].
      intros [A B]. injection A as <-. simpl in B. lia.
    - apply Nat.eqb_neq in E. intuition. }
  assert (H3 : forall k w', nth1 (ws s') k = Some w' -> exists w, nth1 (ws s) k = Some w /\ wid w' = wid w /\
                length (w2 w') = length (w2 w) /\
                forall p y, nth_error (w2 w) p = Some y -> nth_error (w2 w') p = Some (if (k =? v3 v) && (y =? x) then 0 else y)).
  { intros k w' Hw'. pose proof (nth1_pos _ _ _ Hw') as (A & _ & B). rewrite OL3 in B.
    destruct (nth1_ex (ws s) k A B) as (w & Hw). exists w. destruct (O3 k w Hw) as (w1 & C & D & _ & _ & _ & _ & _ & L & E).
    rewrite Hw' in C. injection C as <-. auto. }
  assert (HT : forall i t', nth_error (tjs s') i = Some t' -> exists t, nth_error (tjs s) i = Some t /\
                tid t' = tid t /\ tctp t' = tctp t /\ dead t' = dead t /\ halo t' = halo t /\
                (forall y, on t' y -> on t y /\ (dead t = false -> halo t = false -> y <> x))).
  { intros i t' Ht'. destruct (F2_nth_r _ _ _ i t' OT Ht') as (t & Ht & R). exists t. split; [auto|].
    unfold tj_after in R. destruct (dead t || halo t) eqn:D.
    - subst t'. do 4 (split; [auto|]). intros y Hy. split; auto. intros D1 D2. rewrite D1, D2 in D. discriminate.
    - destruct R as (R1 & R2 & R3 & R4 & R5 & R6 & _). do 4 (split; [auto|]).
      intros y (Hy & Hon). rewrite R5, R6 in Hon. split.
      + split; [auto|]. destruct Hon as [E|E]; [left|right].
        * destruct (e0 t =? x); lia.
        * destruct (e1 t =? x); lia.
      + intros _ _. destruct Hon as [E|E].
        * destruct (e0 t =? x) eqn:G; [lia|]. apply Nat.eqb_neq in G. lia.
        * destruct (e1 t =? x) eqn:G; [lia|]. apply Nat.eqb_neq in G. lia. }
  constructor.
  - intros i t Ht. destruct (HT i t Ht) as (t0 & A & B & _). rewrite B. eapply (s_tid npl s); eauto.
  - intros i u Hu. specialize (O2 (S i)). simpl nth1 in O2. rewrite Hu in O2.
    destruct (S i =? x); [injection O2 as ->; simpl; auto|]. eapply (s_vid npl s); eauto.
  - intros k w Hw. destruct (H3 (S k) w Hw) as (w0 & A & B & _). rewrite B. eapply (s_wid npl s); eauto.
  - intros u Hu. apply In_nth_error in Hu. destruct Hu as (i & Hu). specialize (O2 (S i)). simpl nth1 in O2. rewrite Hu in O2.
    destruct (S i =? x); [injection O2 as ->; simpl; eapply (s_pl npl s); eauto; eapply nth1_in; eauto|].
    eapply (s_pl npl s); eauto. eapply nth_error_In; eauto.
  - intros w Hw. apply In_nth_error in Hw. destruct Hw as (k & Hw). destruct (H3 (S k) w Hw) as (w0 & A & B & C & _).
    rewrite C. eapply (s_len npl s); eauto. eapply nth1_in; eauto.
  - intros t Ht Hh. apply In_nth_error in Ht. destruct Ht as (i & Ht). destruct (HT i t Ht) as (t0 & A & B & C & D & E & F).
    destruct (s_halo npl s H t0) as (G1 & G2); [eapply nth_error_In; eauto|congruence|].
    split.
    + destruct (Nat.eq_dec (e0 t) 0) as [Z|Z]; [auto|]. destruct (F (e0 t)) as [(_ & Y2) _]; [split; auto|]. lia.
    + destruct (Nat.eq_dec (e1 t) 0) as [Z|Z]; [auto|]. destruct (F (e1 t)) as [(_ & Y2) _]; [split; auto|]. lia.
  - intros t y Ht Hd Ho. apply In_nth_error in Ht. destruct Ht as (i & Ht). destruct (HT i t Ht) as (t0 & A & B & C & D & E & F).
    destruct (F y Ho) as (F1 & F2). destruct (s_t2 npl s H t0 y) as (u & U1 & U2); [eapply nth_error_In; eauto|congruence|auto|].
    exists u. split; [apply H2; split; auto|congruence].
    destruct (halo t0) eqn:Hh.
    + destruct (s_halo npl s H t0) as (G1 & G2); [eapply nth_error_In; eauto|auto|]. destruct F1 as (Y1 & Y2). destruct Y2; lia.
    + apply F2; congruence.
  - intros y u Hu Hn. apply H2 in Hu. destruct Hu as (Hu & Hne). destruct (s_23 npl s H y u Hu Hn) as (w & (W1 & W2) & W3).
    destruct (O3 _ _ W1) as (w' & A & B & _ & _ & _ & _ & _ & _ & C). exists w'. split; [split; [auto|congruence]|].
    rewrite (C _ _ W3). assert (E : (y =? x) = false) by (apply Nat.eqb_neq; auto). rewrite E, andb_false_r. reflexivity.
  - intros k w' p y (Hw & Hk) Hp Hy. destruct (H3 k w' Hw) as (w & A & B & C & D).
    destruct (nth_error (w2 w) p) as [z|] eqn:Ez.
    + pose proof (D p z Ez) as G. rewrite Hp in G. injection G as G.
      assert (W : is_3V s k w) by (split; congruence).
      destruct ((k =? v3 v) && (z =? x)) eqn:E; [lia|]. subst z.
      destruct (s_32 npl s H k w p y W Ez Hy) as (u & U1 & U2 & U3). exists u. split; [|auto].
      apply H2. split; auto. intros ->. destruct U1 as (U1 & _). rewrite Hv in U1. injection U1 as <-.
      rewrite U2, !Nat.eqb_refl in E. discriminate.
    + apply nth_error_None in Ez. assert (p < length (w2 w')) by (apply nth_error_Some; congruence). lia.
  - intros u Hu. rewrite OL3. apply In_nth_error in Hu. destruct Hu as (i & Hu). specialize (O2 (S i)). simpl nth1 in O2. rewrite Hu in O2.
    destruct (S i =? x); [injection O2 as ->; simpl; eapply (s_ref npl s); eauto; eapply nth1_in; eauto|].
    eapply (s_ref npl s); eauto. eapply nth_error_In; eauto.
Qed.

End S.
