(** The exact effect of the operations that kill vertices. *)
From Verif Require Import Base TV_Model TV_Spec TV_Kill TV_High TV_Ops.
From Coq Require Import QArith Qcanon Relations.
Local Open Scope nat_scope.

Section S.
Variable npl : nat.
Variable cut : Qc.

Lemma F2_length {A B} (R : A -> B -> Prop) l l' : Forall2 R l l' -> length l = length l'.
Proof. induction 1; simpl; auto. Qed.

Lemma nth_error_ext' {A} (l l' : list A) : (forall i, nth_error l i = nth_error l' i) -> l = l'.
Proof.
  revert l'. induction l as [|a l IH]; intros [|b l'] H; auto.
  - specialize (H 0). discriminate.
  - specialize (H 0). discriminate.
  - f_equal; [specialize (H 0); simpl in H; congruence|]. apply IH. intros i. apply (H (S i)).
Qed.
Lemma firstn_snoc' {A} (l : list A) p y : nth_error l p = Some y -> firstn (S p) l = firstn p l ++ [y].
Proof.
  revert l. induction p as [|p IH]; intros [|a l] H; simpl in *; try discriminate; [congruence|]. f_equal. apply IH. auto.
Qed.

Definition dec (D : nat -> Prop) : Prop := forall x, D x \/ ~ D x.

Lemma obsoleted_kills s x v s' : sound npl s -> is_2V s x v -> obsoleted s x v s' ->
  kills (fun y => y = x) (fun _ => False) s s'.
Proof.
  intros H (Hv & Hid) O. destruct O as [OT OL2 O2 OL3 O3 OP OG].
  assert (Hx : x <> 0) by (apply nth1_pos in Hv; lia).
  constructor; auto.
  - intros i t Ht. destruct (F2_nth_l _ _ _ i t OT Ht) as (t' & Ht' & R). exists t'. split; [auto|].
    unfold tj_after in R. destruct (dead t || halo t) eqn:E.
    + subst t'. do 4 (split; [auto|]). split; [auto|]. intros D. apply orb_true_iff in E. destruct E as [E|E]; [congruence|].
      destruct (s_halo npl s H t) as (G1 & G2); [eapply nth_error_In; eauto|auto|]. rewrite G1, G2. repeat split; auto.
    + apply orb_false_iff in E. destruct E as (E1 & E2). destruct R as (R1 & R2 & R3 & R4 & R5 & R6 & _).
      do 4 (split; [auto|]). split; [congruence|]. intros _. rewrite R5, R6.
      split; [intros ->; rewrite Nat.eqb_refl; reflexivity|]. split; [intros Q; apply Nat.eqb_neq in Q; rewrite Q; reflexivity|].
      split; [intros ->; rewrite Nat.eqb_refl; reflexivity|]. intros Q; apply Nat.eqb_neq in Q; rewrite Q; reflexivity.
  - symmetry. eapply F2_length; eauto.
  - intros y u Hu. split.
    + intros ->. rewrite O2, Nat.eqb_refl. assert (u = v) by congruence. subst. reflexivity.
    + intros Q. rewrite O2. apply Nat.eqb_neq in Q. rewrite Q. exact Hu.
  - intros k w (Hw & Hk). destruct (O3 k w Hw) as (w' & A1 & A2 & A3 & A4 & A5 & A6 & A7 & A8 & A9). exists w'.
    split; [auto|]. split; [tauto|]. split; [congruence|]. do 6 (split; [auto|]). intros p y Hp. rewrite (A9 p y Hp). split.
    + intros ->. destruct (s_32 npl s H k w p x) as (u & (U1 & U2) & U3 & _); [split; auto|auto|auto|].
      assert (u = v) by congruence. subst u. rewrite U3, !Nat.eqb_refl. reflexivity.
    + intros Q. apply Nat.eqb_neq in Q. rewrite Q, andb_false_r. reflexivity.
  - intros k w Hw Hk. destruct (O3 k w Hw) as (w' & A1 & A2 & A3 & A4 & A5 & A6 & A7 & A8 & A9). rewrite A1. f_equal.
    assert (B : w2 w' = w2 w).
    { apply nth_error_ext'. intros p. destruct (nth_error (w2 w) p) as [y|] eqn:E.
      - rewrite (A9 p y E). f_equal. destruct ((k =? v3 v) && (y =? x)) eqn:G; [|reflexivity]. exfalso.
        apply andb_true_iff in G. destruct G as (G & _). apply Nat.eqb_eq in G.
        destruct (s_23 npl s H x v) as (w0 & (W1 & W2) & _); [split; auto|rewrite <- G; apply nth1_pos in Hw; lia|].
        assert (w0 = w) by congruence. subst. apply nth1_pos in Hw. lia.
      - apply nth_error_None. apply nth_error_None in E. lia. }
    destruct w as [a b c d e f g], w' as [a' b' c' d' e' f' g']; cbn in *; congruence.
Qed.

Lemma kills_refl D2 D3 s : (forall x, ~ D2 x) -> (forall x, ~ D3 x) -> kills D2 D3 s s.
Proof.
  intros H2 H3. constructor; auto.
  - intros i t Ht. exists t. split; [auto|]. do 4 (split; [auto|]). split; [auto|]. intros _. repeat split; intros; auto; exfalso; eapply H2; eauto.
  - intros x v Hv. split; [intros Q; exfalso; eapply H2; eauto|auto].
  - intros k w (Hw & Hk). exists w. split; [auto|]. split; [intros Q; exfalso; eapply H3; eauto|]. split; [auto|]. do 6 (split; [auto|]).
    intros p y Hp. split; [intros Q; exfalso; eapply H2; eauto|auto].
Qed.

Lemma kills_ext D2 D3 E2 E3 s s' : (forall x, D2 x <-> E2 x) -> (forall x, D3 x <-> E3 x) -> kills D2 D3 s s' -> kills E2 E3 s s'.
Proof.
  intros H2 H3 K. destruct K as [K1 K2 K3 K4 K5 K6 K7 K8 K9]. constructor; auto.
  - intros i t Ht. destruct (K1 i t Ht) as (t' & A & B & C & D & E & F & G). exists t'. split; [auto|]. do 4 (split; [auto|]). split; [auto|].
    intros Q. specialize (G Q). rewrite (H2 (e0 t)), (H2 (e1 t)) in G. exact G.
  - intros x v Hv. specialize (K3 x v Hv). rewrite (H2 x) in K3. exact K3.
  - intros k w Hw. destruct (K5 k w Hw) as (w' & A1 & A2 & A3 & A). exists w'. split; [auto|]. rewrite <- (H3 k). split; [auto|]. split; [auto|].
    destruct A as (B1 & B2 & B3 & B4 & B5 & B6 & A). do 6 (split; [auto|]). intros p y Hp. specialize (A p y Hp). rewrite (H2 y) in A. exact A.
Qed.

Lemma kills_trans D2 D3 E2 E3 s s1 s2 : dec D2 -> dec D3 -> dec E2 -> ~ D2 0 -> ~ E2 0 -> (forall k, D3 k -> ~ E3 k) ->
  (forall k w p y, D3 k -> is_3V s k w -> nth_error (w2 w) p = Some y -> y = 0 \/ D2 y) ->
  kills D2 D3 s s1 -> kills E2 E3 s1 s2 ->
  kills (fun x => D2 x \/ E2 x) (fun x => D3 x \/ E3 x) s s2.
Proof.
  intros dD2 dD3 dE2 HD HE Hdis Hcl K L. destruct K as [K1 K2 K3 K4 K5 K6 K7 K8 K9]. destruct L as [L1 L2 L3 L4 L5 L6 L7 L8 L9].
  constructor; try congruence.
  - intros i t Ht. destruct (K1 i t Ht) as (t1 & A1 & A2 & A3 & A4 & A5 & A6 & A7). destruct (L1 i t1 A1) as (t2 & B1 & B2 & B3 & B4 & B5 & B6 & B7).
    exists t2. split; [auto|]. do 4 (split; [congruence|]). split.
    + intros Q. rewrite B6 by congruence. auto.
    + intros Q. specialize (A7 Q). rewrite A4 in B7. specialize (B7 Q). destruct A7 as (C1 & C2 & C3 & C4). destruct B7 as (F1 & F2 & F3 & F4).
      split; [|split; [|split]].
      * intros G. destruct (dD2 (e0 t)) as [Y|Y].
        -- rewrite (C1 Y) in F2. apply F2. auto.
        -- rewrite (C2 Y) in F1. apply F1. tauto.
      * intros G. rewrite (C2 ltac:(tauto)) in F2. rewrite F2 by tauto. reflexivity.
      * intros G. destruct (dD2 (e1 t)) as [Y|Y].
        -- rewrite (C3 Y) in F4. apply F4. auto.
        -- rewrite (C4 Y) in F3. apply F3. tauto.
      * intros G. rewrite (C4 ltac:(tauto)) in F4. rewrite F4 by tauto. reflexivity.
  - intros x v Hv. destruct (K3 x v Hv) as (A & B). destruct (dD2 x) as [Y|Y].
    + specialize (A Y). destruct (L3 x _ A) as (C & D). split; [|tauto]. intros _. destruct (dE2 x) as [Z|Z]; [rewrite (C Z)|rewrite (D Z)]; reflexivity.
    + specialize (B Y). destruct (L3 x _ B) as (C & D). split; [intros G; apply C; tauto|intros G; apply D; tauto].
  - intros k w Hw. destruct (K5 k w Hw) as (w1 & A1 & A2 & A3 & A4 & A5 & A6 & A7 & A8 & A9 & A10). destruct (dD3 k) as [Y|Y].
    + specialize (A2 Y). pose proof (L6 k w1 A1 A2) as B. exists w1. split; [auto|]. split; [auto|]. split; [tauto|]. do 6 (split; [auto|]).
      intros p y Hp. destruct (A10 p y Hp) as (C & D). destruct (Hcl k w p y Y Hw Hp) as [->|G].
      * split; [intros [G|G]; contradiction|]. intros _. apply D. auto.
      * split; [intros _; auto|]. tauto.
    + specialize (A3 Y). destruct (L5 k w1 (conj A1 A3)) as (w2' & B1 & B2 & B3 & B4 & B5 & B6 & B7 & B8 & B9 & B10). exists w2'.
      split; [auto|]. split; [intros [G|G]; [contradiction|auto]|]. split; [tauto|]. do 6 (split; [congruence|]).
      intros p y Hp. destruct (A10 p y Hp) as (C & D). destruct (dD2 y) as [Z|Z].
      * destruct (B10 p 0 (C Z)) as (_ & F). split; [intros _; apply F; auto|tauto].
      * destruct (B10 p y (D Z)) as (F1 & F2). split; [intros G; apply F1; tauto|intros G; apply F2; tauto].
  - intros k w Hw Hk. apply L6; auto.
  - destruct K9, L9. split; congruence.
Qed.

(** killing a 3D vertex that has no 2D vertices left *)
Lemma kill3_sound s k w : sound npl s -> is_3V s k w -> (forall p y, nth_error (w2 w) p = Some y -> y = 0) ->
  let s' := set_ws s (upd (ws s) (k - 1) (set_wid w 0)) in
  sound npl s' /\ kills (fun _ => False) (fun x => x = k) s s'.
Proof.
  intros H (Hw & Hk) Hz s'. pose proof (nth1_pos _ _ _ Hw) as (P1 & P2 & P3).
  assert (Nw : forall j, nth1 (ws s') j = if j =? k then Some (set_wid w 0) else nth1 (ws s) j) by (intros j; apply (nth1_upd _ _ w); auto).
  assert (N3 : forall j u, is_3V s' j u -> is_3V s j u /\ j <> k).
  { intros j u (U1 & U2). rewrite Nw in U1. destruct (j =? k) eqn:E; [injection U1 as <-; apply Nat.eqb_eq in E; simpl in U2; lia|].
    apply Nat.eqb_neq in E. split; [split; auto|auto]. }
  split.
  - constructor; try (apply H).
    + intros j u Hu. specialize (Nw (S j)). change (nth1 (ws s') (S j)) with (nth_error (ws s') j) in Nw. change (nth1 (ws s) (S j)) with (nth_error (ws s) j) in Nw. rewrite Hu in Nw. destruct (S j =? k); [injection Nw as ->; auto|].
      apply (s_wid npl s H j u); auto.
    + intros u Hu. apply In_nth_error in Hu. destruct Hu as (j & Hu). specialize (Nw (S j)).
      change (nth1 (ws s') (S j)) with (nth_error (ws s') j) in Nw. change (nth1 (ws s) (S j)) with (nth_error (ws s) j) in Nw. rewrite Hu in Nw.
      destruct (S j =? k); [injection Nw as ->; simpl|]; apply (s_len npl s H); [eapply nth1_in; eauto|eapply nth_error_In; eauto].
    + intros x v Hv Hn. destruct (s_23 npl s H x v Hv Hn) as (u & (U1 & U2) & U3). exists u. split; [|auto]. split; [|auto]. rewrite Nw.
      destruct (v3 v =? k) eqn:E; [|auto]. exfalso. apply Nat.eqb_eq in E. assert (u = w) by congruence. subst u.
      apply Hz in U3. destruct Hv as (Hv & _). apply nth1_pos in Hv. lia.
    + intros j u p x Hu. apply N3 in Hu. destruct Hu as (Hu & _). apply (s_32 npl s H j u p x Hu).
    + intros v Hv. cbn [ws s' set_ws]. rewrite upd_length. apply (s_ref npl s H v Hv).
  - constructor; auto.
    + intros i t Ht. exists t. split; [exact Ht|]. do 4 (split; [auto|]). split; [auto|]. intros _. repeat split; tauto.
    + intros x v Hv. split; [tauto|intros _; exact Hv].
    + intros j u (U1 & U2). rewrite Nw. destruct (j =? k) eqn:E.
      * apply Nat.eqb_eq in E. subst j. assert (u = w) by congruence. subst u. eexists; split; [reflexivity|]. cbn.
        split; [auto|]. split; [tauto|]. do 6 (split; [auto|]). intros p y Hp. split; [tauto|auto].
      * apply Nat.eqb_neq in E. exists u. split; [auto|]. split; [tauto|]. split; [auto|]. do 6 (split; [auto|]). intros p y Hp. split; [tauto|auto].
    + intros j u U1 U2. rewrite Nw. destruct (j =? k) eqn:E; [|auto]. apply Nat.eqb_eq in E. subst j. assert (u = w) by congruence. subst u. lia.
    + cbn [ws s' set_ws]. apply upd_length.
Qed.

Lemma is_2V_dec s x : (exists v, is_2V s x v) \/ ~ (exists v, is_2V s x v).
Proof.
  unfold is_2V. destruct (nth1 (vs s) x) as [v|]; [|right; intros (v & E & _); discriminate].
  destruct (Nat.eq_dec (vid v) x); [left; eauto|right; intros (u & E & F); congruence].
Qed.

(** MakeVertexObsolete of a live 3D vertex *)
Theorem mvo3_live s k w : sound npl s -> is_3V s (S k) w ->
  exists s', mvo3 npl cut s k = Ok (true, s') /\ sound npl s' /\
    kills (fun x => x <> 0 /\ In x (w2 w)) (fun j => j = S k) s s'.
Proof.
  intros H (Hw & Hk). simpl in Hw. unfold mvo3. rewrite (idx_some _ _ _ Hw). cbn [obind].
  destruct (wid w =? 0) eqn:E0; [apply Nat.eqb_eq in E0; lia|]. clear E0.
  assert (Hl : k < length (ws s)) by (apply nth_error_Some; congruence).
  destruct (length (ws s) <? wid w) eqn:E0; [apply Nat.ltb_lt in E0; lia|]. clear E0.
  match goal with |- context [for_ (seq 0 ?n) ?body s] =>
    destruct (for_seq_inv (fun p t => sound npl t /\ kills (fun x => x <> 0 /\ In x (firstn p (w2 w))) (fun _ => False) s t) body 0 n s) as (s1 & E1 & S1 & K1)
  end.
  - split; [auto|]. apply kills_refl; simpl; tauto.
  - intros p t Hp (St & Kt). destruct (k_3V _ _ _ _ Kt (S k) w) as (wt & A1 & A2 & A3 & A4 & A5 & A6 & A7 & A8 & A9 & A10); [split; auto|].
    simpl in A1. rewrite (idx_some _ _ _ A1). cbn [obind].
    destruct (nth_error (w2 w) p) as [y|] eqn:Ey; [|apply nth_error_None in Ey; lia].
    assert (Hf : firstn (S p) (w2 w) = firstn p (w2 w) ++ [y]) by (eapply firstn_snoc'; eauto).
    assert (dD : y <> 0 /\ In y (firstn p (w2 w)) \/ ~ (y <> 0 /\ In y (firstn p (w2 w)))).
    { destruct (in_dec Nat.eq_dec y (firstn p (w2 w))), (Nat.eq_dec y 0); tauto. }
    destruct (A10 p y Ey) as (B1 & B2). destruct dD as [dD|dD].
    + rewrite (idx_some _ _ _ (B1 dD)). cbn [obind Nat.eqb orb]. exists t. split; [reflexivity|]. split; [auto|].
      eapply kills_ext; [| |exact Kt]; [|tauto]. intros x. rewrite Hf, in_app_iff. simpl. intuition (subst; auto).
    + rewrite (idx_some _ _ _ (B2 dD)). cbn [obind]. destruct (y =? 0) eqn:E0.
      * apply Nat.eqb_eq in E0. subst y. cbn [orb]. exists t. split; [reflexivity|]. split; [auto|].
        eapply kills_ext; [| |exact Kt]; [|tauto]. intros x. rewrite Hf, in_app_iff. simpl. intuition lia.
      * apply Nat.eqb_neq in E0. cbn [orb].
        destruct (s_32 npl t St (S k) wt p y) as (v & (V1 & V2) & V3 & V4); [split; auto|auto|auto|].
        pose proof (nth1_pos _ _ _ V1) as (_ & V5 & V6).
        destruct (length (vs t) <? y) eqn:E2; [apply Nat.ltb_lt in E2; lia|].
        destruct (mvo2_live npl cut t (y - 1) v true St V5) as (t' & M1 & M2); [lia|auto|]. rewrite V2 in M2.
        rewrite M1. cbn [obind snd]. exists t'. split; [reflexivity|]. split; [eapply obsoleted_sound; eauto; split; auto|].
        pose proof (obsoleted_kills t y v t' St (conj V1 V2) M2) as K2.
        eapply kills_ext; [| |eapply kills_trans; [..|exact Kt|exact K2]].
        -- intros x. rewrite Hf, in_app_iff. simpl. split; [intros [G|G]; [tauto|subst; tauto]|]. intuition.
        -- tauto.
        -- intros x. destruct (in_dec Nat.eq_dec x (firstn p (w2 w))), (Nat.eq_dec x 0); tauto.
        -- intros x. tauto.
        -- intros x. destruct (Nat.eq_dec x y); tauto.
        -- tauto.
        -- auto.
        -- tauto.
        -- tauto.
  - rewrite E1. cbn [obind]. rewrite firstn_all2 in K1 by lia.
    destruct (k_3V _ _ _ _ K1 (S k) w) as (w1 & A1 & A2 & A3 & A4 & A5 & A6 & A7 & A8 & A9 & A10); [split; auto|].
    rewrite (idx_some _ _ _ A1). cbn [obind]. eexists; split; [reflexivity|].
    assert (W1 : is_3V s1 (S k) w1) by (split; [exact A1|apply A3; tauto]).
    assert (Hz : forall p y, nth_error (w2 w1) p = Some y -> y = 0).
    { intros p y Hp. assert (p < length (w2 w)) by (rewrite <- A9; apply nth_error_Some; congruence).
      destruct (nth_error (w2 w) p) as [z|] eqn:Ez; [|apply nth_error_None in Ez; lia]. destruct (A10 p z Ez) as (B1 & B2).
      destruct (Nat.eq_dec z 0) as [->|Q]; [rewrite B2 in Hp by tauto; congruence|]. rewrite B1 in Hp; [congruence|].
      split; [auto|eapply nth_error_In; eauto]. }
    pose proof (kill3_sound s1 (S k) w1 S1 W1 Hz) as (S2 & K2). replace (S k - 1) with k in S2, K2 by lia. split; [exact S2|].
    eapply kills_ext; [| |eapply kills_trans; [..|exact K1|exact K2]].
    + intros x. simpl. tauto.
    + intros x. simpl. tauto.
    + intros x. destruct (in_dec Nat.eq_dec x (w2 w)), (Nat.eq_dec x 0); tauto.
    + intros x. tauto.
    + intros x. tauto.
    + tauto.
    + tauto.
    + tauto.
    + intros j u p y F. destruct F.
Qed.

(** ** KillPoorVertices *)
(** a 2D vertex that KillPoorVertices removes *)
Definition poor (s : slice) (x : nat) : Prop :=
  exists v, is_2V s x v /\ (vsc v <= cut)%Qc /\
    (v3 v = 0 \/ exists w, is_3V s (v3 v) w /\ prim w = false /\ (wsc w < cut)%Qc).

Lemma poor_dec s : sound npl s -> dec (poor s).
Proof.
  intros H x. unfold poor. destruct (is_2V_dec s x) as [(v & Hv)|Hn]; [|right; intros (v & A & _); eauto].
  assert (U : forall u, is_2V s x u -> u = v) by (intros u (A & _); destruct Hv; congruence).
  destruct (Qclt_le_dec cut (vsc v)) as [Q|Q].
  { right. intros (u & A & B & _). rewrite (U u A) in B. eapply Qclt_not_le; eauto. }
  destruct (Nat.eq_dec (v3 v) 0) as [Z|Z]; [left; eauto 6|].
  destruct (s_23 npl s H x v Hv Z) as (w & Hw & _).
  assert (U3 : forall u, is_3V s (v3 v) u -> u = w) by (intros u (A & _); destruct Hw; congruence).
  destruct (prim w) eqn:Pr.
  { right. intros (u & A & B & [C|(w' & C & D & _)]); rewrite (U u A) in *; [contradiction|]. rewrite (U3 w' C) in D. congruence. }
  destruct (Qclt_le_dec (wsc w) cut) as [R|R].
  { left. exists v. split; [auto|]. split; [auto|]. right. eauto. }
  right. intros (u & A & B & [C|(w' & C & D & F)]); rewrite (U u A) in *; [contradiction|]. rewrite (U3 w' C) in F. eapply Qclt_not_le; eauto.
Qed.

Theorem kill_poor_ok s : sound npl s ->
  exists s', kill_poor npl cut s = Ok s' /\ sound npl s' /\ kills (poor s) (fun _ => False) s s'.
Proof.
  intros H. pose proof (poor_dec s H) as dp. unfold kill_poor.
  match goal with |- context [for_ (seq 0 ?n) ?body s] =>
    destruct (for_seq_inv (fun i t => sound npl t /\ kills (fun x => x <= i /\ poor s x) (fun _ => False) s t) body 0 n s) as (s1 & E1 & S1 & K1)
  end.
  - split; [auto|]. apply kills_refl; [|tauto]. intros x (A & v & ((B & _) & _)). apply nth1_pos in B. lia.
  - intros i t Hi (St & Kt).
    assert (dD : dec (fun x => x <= i /\ poor s x)) by (intros x; destruct (le_dec x i), (dp x); tauto).
    destruct (nth_error (vs s) i) as [v|] eqn:Ev; [|apply nth_error_None in Ev; lia].
    destruct (k_2V _ _ _ _ Kt (S i) v Ev) as (_ & A). specialize (A ltac:(lia)). simpl in A. rewrite (idx_some _ _ _ A). cbn [obind].
    assert (Skip : ~ poor s (S i) -> sound npl t /\ kills (fun x => x <= S i /\ poor s x) (fun _ => False) s t).
    { intros Hn. split; [auto|]. eapply kills_ext; [| |exact Kt]; [|tauto]. intros x. split; intros (B & C); split; auto.
      destruct (Nat.eq_dec x (S i)) as [->|Q]; [contradiction|lia]. }
    assert (U : forall u, is_2V s (S i) u -> u = v) by (intros u (B & _); simpl in B; congruence).
    destruct (vid v =? 0) eqn:E0.
    { apply Nat.eqb_eq in E0. exists t. split; [reflexivity|]. apply Skip. intros (u & B & _). rewrite (U u B) in B. destruct B. lia. }
    apply Nat.eqb_neq in E0. assert (Hid : vid v = S i) by (destruct (s_vid npl s H i v Ev); [contradiction|auto]).
    assert (V : is_2V s (S i) v) by (split; auto). assert (Vt : is_2V t (S i) v) by (split; auto).
    unfold qlt. destruct (Qclt_le_dec cut (vsc v)) as [Q|Q].
    { exists t. split; [reflexivity|]. apply Skip. intros (u & B & C & _). rewrite (U u B) in C. eapply Qclt_not_le; eauto. }
    assert (Go : (exists w, is_3V t (v3 v) w /\ (wsc w < cut)%Qc) \/ v3 v = 0 -> poor s (S i) ->
                 exists t', (do r <- mvo2 npl cut t i false; Ok (snd r)) = Ok t' /\ sound npl t' /\ kills (fun x => x <= S i /\ poor s x) (fun _ => False) s t').
    { intros G Hp. destruct (mvo2_live npl cut t i v false St A E0) as (t' & M1 & M2).
      { right. destruct G as [(w & (W1 & _) & W2)|G]; [right; eauto|left; auto]. }
      rewrite Hid in M2. rewrite M1. cbn [obind snd]. exists t'. split; [reflexivity|]. split; [eapply obsoleted_sound; eauto|].
      pose proof (obsoleted_kills t (S i) v t' St Vt M2) as K2.
      eapply kills_ext; [| |eapply kills_trans; [..|exact Kt|exact K2]].
      - intros x. simpl. split; [intros [(B & C)|B]; [auto|subst x; auto]|]. intros (B & C). destruct (Nat.eq_dec x (S i)); [auto|left; split; [lia|auto]].
      - tauto.
      - exact dD.
      - intros x. tauto.
      - intros x. destruct (Nat.eq_dec x (S i)); tauto.
      - intros (_ & u & ((B & _) & _)). discriminate.
      - discriminate.
      - tauto.
      - tauto. }
    destruct (0 <? v3 v) eqn:E3.
    + apply Nat.ltb_lt in E3. destruct (s_23 npl s H (S i) v V) as (w & W & _); [lia|].
      destruct (k_3V _ _ _ _ Kt _ w W) as (wt & A1 & A2 & A3 & A4 & A5 & A6 & A7 & _).
      rewrite (at1_some _ _ _ A1). cbn [obind]. rewrite A6, A4.
      assert (U3 : forall u, is_3V s (v3 v) u -> u = w) by (intros u (B & _); destruct W; congruence).
      destruct (prim w) eqn:Pr; cbn [orb].
      { exists t. split; [reflexivity|]. apply Skip. intros (u & B & C & [D|(w' & D & F & _)]); rewrite (U u B) in *; [lia|]. rewrite (U3 w' D) in F. congruence. }
      unfold qle. destruct (Qclt_le_dec (wsc w) cut) as [R|R].
      * apply Go; [left; exists wt; split; [split; [auto|apply A3; tauto]|congruence]|]. exists v. split; [auto|]. split; [auto|]. right. eauto.
      * exists t. split; [reflexivity|]. apply Skip. intros (u & B & C & [D|(w' & D & F & G)]); rewrite (U u B) in *; [lia|]. rewrite (U3 w' D) in G. eapply Qclt_not_le; eauto.
    + apply Nat.ltb_ge in E3. cbn [obind]. apply Go; [right; lia|]. exists v. split; [auto|]. split; [auto|]. left; lia.
  - exists s1. split; [exact E1|]. split; [auto|]. eapply kills_ext; [| |exact K1]; [|tauto]. intros x. split; [tauto|]. intros P. split; [|auto].
    destruct P as (v & (B & _) & _). apply nth1_pos in B. simpl. lia.
Qed.

(** ** KillVerticesInShower *)
(** a 2D vertex in the plane of the shower, inside its envelope, that is not part of the neutrino vertex *)
Definition struck (ctp : nat) (inside : nat -> bool) (s : slice) (x : nat) : Prop :=
  exists v, is_2V s x v /\ vctp v = ctp /\ inside (x - 1) = true /\
    (v3 v = 0 \/ exists w, is_3V s (v3 v) w /\ neu w = false).
(** it goes with everything in its 3D vertex *)
Definition shower_2V ctp inside s (x : nat) : Prop :=
  struck ctp inside s x \/
  exists u vu v, struck ctp inside s u /\ is_2V s u vu /\ is_2V s x v /\ v3 vu <> 0 /\ v3 v = v3 vu.
Definition shower_3V ctp inside s (k : nat) : Prop :=
  exists u vu, struck ctp inside s u /\ is_2V s u vu /\ v3 vu = k /\ k <> 0.


Lemma bounded_dec (P : nat -> Prop) i : (forall u, P u \/ ~ P u) -> (exists u, u <= i /\ P u) \/ ~ (exists u, u <= i /\ P u).
Proof.
  intros H. induction i as [|i [(u & A & B)|IH]].
  - destruct (H 0); [left; eauto|]. right. intros (u & A & B). replace u with 0 in B by lia. contradiction.
  - left. exists u. auto.
  - destruct (H (S i)); [left; eauto|]. right. intros (u & A & B). destruct (Nat.eq_dec u (S i)) as [->|Q]; [contradiction|].
    apply IH. exists u. split; [lia|auto].
Qed.

Lemma struck_dec ctp inside s : sound npl s -> dec (struck ctp inside s).
Proof.
  intros H x. unfold struck. destruct (is_2V_dec s x) as [(v & Hv)|Hn]; [|right; intros (v & A & _); eauto].
  assert (U : forall u, is_2V s x u -> u = v) by (intros u (A & _); destruct Hv; congruence).
  destruct (Nat.eq_dec (vctp v) ctp) as [C|C]; [|right; intros (u & A & B & _); rewrite (U u A) in B; contradiction].
  destruct (inside (x - 1)) eqn:I; [|right; intros (u & A & B & D & _); discriminate].
  destruct (Nat.eq_dec (v3 v) 0) as [Z|Z]; [left; eauto 8|].
  destruct (s_23 npl s H x v Hv Z) as (w & Hw & _).
  destruct (neu w) eqn:N; [|left; exists v; eauto 8].
  right. intros (u & A & B & _ & [D|(w' & D & E)]); rewrite (U u A) in *; [contradiction|]. destruct Hw, D. congruence.
Qed.

Section Shower.
Variable ctp : nat.
Variable inside : nat -> bool.
Variable s : slice.
Hypothesis H : sound npl s.

Definition Dn (i x : nat) : Prop :=
  (x <= i /\ struck ctp inside s x) \/
  exists u, u <= i /\ (struck ctp inside s u /\ exists vu v, is_2V s u vu /\ is_2V s x v /\ v3 vu <> 0 /\ v3 v = v3 vu).
Definition En (i k : nat) : Prop :=
  exists u, u <= i /\ (struck ctp inside s u /\ exists vu, is_2V s u vu /\ v3 vu = k /\ k <> 0).

Lemma is_2V_fun x v u : is_2V s x v -> is_2V s x u -> u = v.
Proof. intros (A & _) (B & _). congruence. Qed.

Lemma Dn_dec i : dec (Dn i).
Proof.
  intros x. unfold Dn. pose proof (struck_dec ctp inside s H) as d.
  assert (A : (x <= i /\ struck ctp inside s x) \/ ~ (x <= i /\ struck ctp inside s x)) by (destruct (le_dec x i), (d x); tauto).
  destruct A as [A|A]; [tauto|]. destruct (bounded_dec (fun u => struck ctp inside s u /\ exists vu v, is_2V s u vu /\ is_2V s x v /\ v3 vu <> 0 /\ v3 v = v3 vu) i) as [B|B].
  - intros u. destruct (d u) as [S1|S1]; [|tauto]. destruct S1 as (vu & V1 & S1).
    destruct (is_2V_dec s x) as [(v & Hv)|Hn]; [|right; intros (_ & a & b & _ & C & _); eauto].
    destruct (Nat.eq_dec (v3 vu) 0) as [Z|Z]; [right; intros (_ & a & b & C1 & C2 & C3 & C4); rewrite (is_2V_fun u vu a V1 C1) in C3; contradiction|].
    destruct (Nat.eq_dec (v3 v) (v3 vu)) as [Y|Y].
    + left. split; [exists vu; auto|]. exists vu, v. auto.
    + right. intros (_ & a & b & C1 & C2 & C3 & C4). rewrite (is_2V_fun u vu a V1 C1), (is_2V_fun x v b Hv C2) in C4. contradiction.
  - tauto.
  - right. intros [Q|Q]; contradiction.
Qed.
Lemma En_dec i : dec (En i).
Proof.
  intros k. unfold En. apply bounded_dec. intros u. destruct (struck_dec ctp inside s H u) as [S1|S1]; [|tauto].
  destruct S1 as (vu & V1 & S1). destruct (Nat.eq_dec (v3 vu) k) as [Y|Y].
  - destruct (Nat.eq_dec k 0) as [Z|Z]; [right; intros (_ & a & _ & _ & C); contradiction|]. left. split; [exists vu; auto|]. exists vu. auto.
  - right. intros (_ & a & C1 & C2 & _). rewrite (is_2V_fun u vu a V1 C1) in C2. contradiction.
Qed.

Lemma Dn_0 i : ~ Dn i 0.
Proof.
  intros [(_ & v & (A & _) & _)|(u & _ & _ & vu & v & _ & (A & _) & _)]; discriminate.
Qed.

(** nothing new *)
Lemma Dn_skip i : (~ struck ctp inside s (S i) \/ Dn i (S i)) ->
  (forall x, Dn i x <-> Dn (S i) x) /\ (forall k, En i k <-> En (S i) k).
Proof.
  intros Hc. split.
  - intros x. split.
    + intros [(A & B)|(u & A & B)]; [left; auto|right; exists u; auto].
    + intros [(A & B)|(u & A & B & vu & v & C1 & C2 & C3 & C4)].
      * destruct (Nat.eq_dec x (S i)) as [->|Q]; [|left; split; [lia|auto]]. destruct Hc; [contradiction|auto].
      * destruct (Nat.eq_dec u (S i)) as [->|Q]; [|right; exists u; split; [lia|]; split; [auto|]; exists vu, v; auto].
        destruct Hc as [Hc|Hc]; [contradiction|]. destruct Hc as [(Z & _)|(u' & A' & B' & vu' & v' & F1 & F2 & F3 & F4)]; [lia|].
        rewrite (is_2V_fun _ _ _ C1 F2) in F4. right. exists u'. split; [auto|]. split; [auto|]. exists vu', v. split; [auto|]. split; [auto|]. split; [auto|congruence].
  - intros k. split.
    + intros (u & A & B). exists u. auto.
    + intros (u & A & B & vu & C1 & C2 & C3). destruct (Nat.eq_dec u (S i)) as [->|Q]; [|exists u; split; [lia|]; split; [auto|]; exists vu; auto].
      destruct Hc as [Hc|Hc]; [contradiction|]. destruct Hc as [(Z & _)|(u' & A' & B' & vu' & v' & F1 & F2 & F3 & F4)]; [lia|].
      rewrite (is_2V_fun _ _ _ C1 F2) in F4. exists u'. split; [auto|]. split; [auto|]. exists vu'. split; [auto|]. split; [congruence|auto].
Qed.

Theorem kill_in_shower_ok :
  exists s', kill_in_shower npl cut ctp inside s = Ok s' /\ sound npl s' /\
    kills (shower_2V ctp inside s) (shower_3V ctp inside s) s s'.
Proof.
  unfold kill_in_shower.
  match goal with |- context [for_ (seq 0 ?n) ?body s] =>
    destruct (for_seq_inv (fun i t => sound npl t /\ kills (Dn i) (En i) s t) body 0 n s) as (s1 & E1 & S1 & K1)
  end.
  - split; [auto|]. apply kills_refl.
    + intros x [(A & v & (B & _) & _)|(u & A & (v & (B & _) & _) & _)]; apply nth1_pos in B; lia.
    + intros x (u & A & (v & (B & _) & _) & _). apply nth1_pos in B. lia.
  - intros i t Hi (St & Kt).
    destruct (nth_error (vs s) i) as [v|] eqn:Ev; [|apply nth_error_None in Ev; lia].
    assert (Skip : (~ struck ctp inside s (S i) \/ Dn i (S i)) -> sound npl t /\ kills (Dn (S i)) (En (S i)) s t).
    { intros Hn. destruct (Dn_skip i Hn) as (Q1 & Q2). split; [auto|]. eapply kills_ext; [exact Q1|exact Q2|exact Kt]. }
    assert (Lt : length (vs t) = length (vs s)) by (apply (k_l2 _ _ _ _ Kt)).
    destruct (k_2V _ _ _ _ Kt (S i) v Ev) as (A0 & A).
    destruct (Dn_dec i (S i)) as [dd|dd].
    { specialize (A0 dd). simpl in A0. rewrite (idx_some _ _ _ A0). cbn [obind vid]. exists t. split; [reflexivity|]. apply Skip. auto. }
    specialize (A dd). simpl in A. rewrite (idx_some _ _ _ A). cbn [obind].
    assert (U : forall u, is_2V s (S i) u -> u = v) by (intros u (B & _); simpl in B; congruence).
    destruct (vid v =? 0) eqn:E0.
    { apply Nat.eqb_eq in E0. exists t. split; [reflexivity|]. apply Skip. left. intros (u & B & _). rewrite (U u B) in B. destruct B. lia. }
    apply Nat.eqb_neq in E0. assert (Hid : vid v = S i) by (destruct (s_vid npl s H i v Ev); [contradiction|auto]).
    assert (V : is_2V s (S i) v) by (split; auto). assert (Vt : is_2V t (S i) v) by (split; auto).
    destruct (vctp v =? ctp) eqn:Ec; cbn [negb].
    2:{ apply Nat.eqb_neq in Ec. exists t. split; [reflexivity|]. apply Skip. left. intros (u & B & C & _). rewrite (U u B) in C. contradiction. }
    apply Nat.eqb_eq in Ec. destruct (0 <? v3 v) eqn:E3.
    + apply Nat.ltb_lt in E3. destruct (s_23 npl s H (S i) v V) as (w & W & _); [lia|].
      destruct (k_3V _ _ _ _ Kt _ w W) as (wt & A1 & A2 & A3 & A4 & A5 & A6 & A7 & _).
      rewrite (at1_some _ _ _ A1). cbn [obind]. rewrite A7. destruct (neu w) eqn:Nu.
      { exists t. split; [reflexivity|]. apply Skip. left. intros (u & B & C & _ & [D|(w' & D & F)]); rewrite (U u B) in *; [lia|].
        destruct W, D. congruence. }
      destruct (inside i) eqn:Ins; cbn [negb].
      2:{ exists t. split; [reflexivity|]. apply Skip. left. intros (u & B & C & D & _). replace (S i - 1) with i in D by lia. congruence. }
      assert (St3 : ~ En i (v3 v)).
      { intros (u & F1 & F2 & vu & F3 & F4 & F5). apply dd. right. exists u. split; [auto|]. split; [auto|]. exists vu, v. repeat split; auto; try apply F3; try apply V; congruence. }
      assert (Sk : struck ctp inside s (S i)).
      { exists v. split; [auto|]. split; [auto|]. split; [replace (S i - 1) with i by lia; auto|]. right. eauto. }
      assert (Wt : is_3V t (S (v3 v - 1)) wt) by (replace (S (v3 v - 1)) with (v3 v) by lia; split; [auto|apply A3; auto]).
      destruct (mvo3_live t (v3 v - 1) wt St Wt) as (t' & M1 & M2 & M3).
      rewrite M1. cbn [obind snd]. exists t'. split; [reflexivity|]. split; [auto|]. replace (S (v3 v - 1)) with (v3 v) in M3, Wt by lia.
      eapply kills_ext; [| |eapply kills_trans; [..|exact Kt|exact M3]].
      * intros x. split.
        -- intros [B|(B & C)].
           ++ destruct B as [(B & C)|(u & B & C)]; [left; auto|right; exists u; auto].
           ++ apply In_nth_error in C. destruct C as (p & C). destruct (s_32 npl t St _ wt p x Wt C B) as (y & (Y1 & Y2) & Y3 & _).
              right. exists (S i). split; [auto|]. split; [auto|]. exists v, y. split; [auto|]. split; [|split; [lia|auto]].
              assert (Xs : exists y0, nth1 (vs s) x = Some y0) by (apply nth1_ex; [auto|]; apply nth1_pos in Y1; lia).
              destruct Xs as (y0 & Y0). destruct (k_2V _ _ _ _ Kt x y0 Y0) as (G1 & G2). destruct (Dn_dec i x) as [Z|Z].
              ** rewrite (G1 Z) in Y1. injection Y1 as <-. simpl in Y2. lia.
              ** rewrite (G2 Z) in Y1. injection Y1 as <-. split; auto.
        -- assert (Sh : forall y, is_2V s x y -> v3 y = v3 v -> Dn i x \/ x <> 0 /\ In x (w2 wt)).
           { intros y (Y1 & Y2) Y3. destruct (Dn_dec i x) as [Z|Z]; [auto|]. right. split; [apply nth1_pos in Y1; lia|].
             destruct (k_2V _ _ _ _ Kt x y Y1) as (_ & G2). destruct (s_23 npl t St x y) as (w' & (W1 & W2) & W3); [split; [apply G2; auto|auto]|lia|].
             rewrite Y3 in W1. assert (w' = wt) by congruence. subst w'. eapply nth_error_In; eauto. }
           intros [(B & C)|(u & B & C & vu & y & F1 & F2 & F3 & F4)].
           ++ destruct (Nat.eq_dec x (S i)) as [->|Q]; [apply (Sh v V eq_refl)|left; left; split; [lia|auto]].
           ++ destruct (Nat.eq_dec u (S i)) as [->|Q]; [|left; right; exists u; split; [lia|]; split; [auto|]; exists vu, y; auto].
              rewrite (is_2V_fun _ _ _ V F1) in F4. apply (Sh y F2 F4).
      * intros k. split.
        -- intros [(u & B & C)|B]; [exists u; auto|]. subst k. exists (S i). split; [auto|]. split; [auto|]. exists v. split; [auto|]. split; [auto|lia].
        -- intros (u & B & C & vu & F1 & F2 & F3). destruct (Nat.eq_dec u (S i)) as [->|Q].
           ++ right. rewrite (is_2V_fun _ _ _ V F1) in F2. auto.
           ++ left. exists u. split; [lia|]. split; [auto|]. exists vu; auto.
      * apply Dn_dec.
      * apply En_dec.
      * intros x. destruct (in_dec Nat.eq_dec x (w2 wt)), (Nat.eq_dec x 0); tauto.
      * apply Dn_0.
      * tauto.
      * intros k B ->. contradiction.
      * intros k w' p y (u & B1 & B2 & vu & F1 & F2 & F3) B3 B4. destruct (Nat.eq_dec y 0) as [Z|Z]; [auto|]. right.
        destruct (s_32 npl s H k w' p y B3 B4 Z) as (vy & Y1 & Y2 & _). right. exists u. split; [auto|]. split; [auto|]. exists vu, vy.
        split; [auto|]. split; [auto|]. split; congruence.
    + apply Nat.ltb_ge in E3. cbn [obind]. destruct (inside i) eqn:Ins; cbn [negb].
      2:{ exists t. split; [reflexivity|]. apply Skip. left. intros (u & B & C & D & _). replace (S i - 1) with i in D by lia. congruence. }
      assert (Sk : struck ctp inside s (S i)).
      { exists v. split; [auto|]. split; [auto|]. split; [replace (S i - 1) with i by lia; auto|]. left. lia. }
      destruct (mvo2_live npl cut t i v true St A E0) as (t' & M1 & M2); [auto|].
      rewrite Hid in M2. rewrite M1. cbn [obind snd]. exists t'. split; [reflexivity|]. split; [eapply obsoleted_sound; eauto|].
      pose proof (obsoleted_kills t (S i) v t' St Vt M2) as K2.
      eapply kills_ext; [| |eapply kills_trans; [..|exact Kt|exact K2]].
      * intros x. split.
        -- intros [[(B & C)|(u & B & C)]|B]; [left; auto|right; exists u; auto|subst x; left; auto].
        -- intros [(B & C)|(u & B & C & vu & y & F1 & F2 & F3 & F4)].
           ++ destruct (Nat.eq_dec x (S i)) as [->|Q]; [right; auto|left; left; split; [lia|auto]].
           ++ destruct (Nat.eq_dec u (S i)) as [->|Q]; [|left; right; exists u; split; [lia|]; split; [auto|]; exists vu, y; auto].
              exfalso. rewrite (is_2V_fun _ _ _ V F1) in F3. lia.
      * intros k. split.
        -- intros [(u & B & C)|B]; [exists u; auto|destruct B].
        -- intros (u & B & C & vu & F1 & F2 & F3). destruct (Nat.eq_dec u (S i)) as [->|Q].
           ++ exfalso. rewrite (is_2V_fun _ _ _ V F1) in F2. lia.
           ++ left. exists u. split; [lia|]. split; [auto|]. exists vu; auto.
      * apply Dn_dec.
      * apply En_dec.
      * intros x. destruct (Nat.eq_dec x (S i)); tauto.
      * apply Dn_0.
      * discriminate.
      * tauto.
      * intros k w' p y (u & B1 & B2 & vu & F1 & F2 & F3) B3 B4. destruct (Nat.eq_dec y 0) as [Z|Z]; [auto|]. right.
        destruct (s_32 npl s H k w' p y B3 B4 Z) as (vy & Y1 & Y2 & _). right. exists u. split; [auto|]. split; [auto|]. exists vu, vy.
        split; [auto|]. split; [auto|]. split; congruence.
  - exists s1. split; [exact E1|]. split; [auto|].
    assert (Le : forall u v, is_2V s u v -> u <= 0 + length (vs s)) by (intros u v (B & _); apply nth1_pos in B; simpl; lia).
    eapply kills_ext; [| |exact K1].
    + intros x. split.
      * intros [(B & C)|(u & B & C & vu & y & F)]; [left; auto|right; exists u, vu, y; tauto].
      * intros [C|(u & vu & y & C & F1 & F2 & F)].
        -- left. split; [|auto]. destruct C as (v & C & _). eapply Le; eauto.
        -- right. exists u. split; [eapply Le; eauto|]. split; [auto|]. exists vu, y. auto.
    + intros k. split.
      * intros (u & B & C & vu & F). exists u, vu. tauto.
      * intros (u & vu & C & F1 & F). exists u. split; [eapply Le; eauto|]. split; [auto|]. exists vu. auto.
Qed.
End Shower.

End S.
