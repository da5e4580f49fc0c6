(** Find3DVertices: storing the selected vertices, scoring, and the whole function. *)
From Verif Require Import Base QcUtil TV_Model TV_Spec TV_Kill TV_High TV_Ops TV_Kill2 TV_Ops2 TV_FModel TV_Spec3 TV_Find3.
From Coq Require Import QArith Qcanon Permutation.
Import TV_Model.
Local Open Scope nat_scope.

(** free: its 2D vertices are in their planes and in no 3D vertex yet *)
Definition fits3 (s : slice) (c : cand) : Prop := length (c2 c) = 3 /\
  forall p x, nth_error (c2 c) p = Some x -> x <> 0 -> exists v, is_2V s x v /\ v3 v = 0 /\ vctp v mod 10 = p.

Definition made (k : nat) (c : cand) (w : vx3) : Prop :=
  w2 w = c2 c /\ wire w = cw c /\ prim w = false /\ neu w = false /\ wid w = S k.

Lemma mem_in x l : existsb (Nat.eqb x) l = true <-> In x l.
Proof.
  rewrite existsb_exists. split; [intros (y & A & B); apply Nat.eqb_eq in B; congruence|intros A; exists x; rewrite Nat.eqb_refl; auto].
Qed.

(** what becomes of the 2D vertices *)
Definition put3 (id : nat) (l : list nat) (y : nat) (v : vx) : vx := if (y =? 0) || negb (existsb (Nat.eqb y) l) then v else set_v3 v id.

Lemma store3_raw s c : length (c2 c) = 3 -> (forall x, In x (c2 c) -> x <> 0 -> x <= length (vs s)) ->
  exists s', store3 3 s c = Ok s' /\ tjs s' = tjs s /\ ps s' = ps s /\ length (vs s') = length (vs s) /\
    ws s' = ws s ++ [W (S (length (ws s))) (c2 c) (csc c) (cw c) false false (S (g3 s))] /\
    forall y, nth1 (vs s') y = option_map (put3 (S (length (ws s))) (c2 c) y) (nth1 (vs s) y).
Proof.
  intros L Hx. unfold store3. replace (length (ws s) + 1) with (S (length (ws s))) by lia. set (id := S (length (ws s))).
  set (s2 := set_ws _ _).
  match goal with |- context [for_ (seq 0 3) ?body s2] =>
    destruct (for_seq_inv (fun p t => tjs t = tjs s /\ ps t = ps s /\ length (vs t) = length (vs s) /\ ws t = ws s2 /\
       forall y, nth1 (vs t) y = option_map (put3 id (firstn p (c2 c)) y) (nth1 (vs s) y)) body 0 3 s2) as (s' & E & A & B & C & D & F) end.
  - do 4 (split; [reflexivity|]). intros y. unfold put3. simpl. rewrite orb_true_r. destruct (nth1 (vs s) y); reflexivity.
  - intros p t Hp (A & B & C & D & F). destruct (nth_error (c2 c) p) as [x|] eqn:Ex; [|apply nth_error_None in Ex; lia]. rewrite (idx_some _ _ _ Ex). cbn [obind].
    rewrite (firstn_snoc' _ _ _ Ex).
    assert (Mem : forall y, existsb (Nat.eqb y) (firstn p (c2 c) ++ [x]) = existsb (Nat.eqb y) (firstn p (c2 c)) || (y =? x)) by (intros; rewrite existsb_app; simpl; rewrite orb_false_r; reflexivity).
    destruct (x =? 0) eqn:E0.
    + apply Nat.eqb_eq in E0. exists t. split; [reflexivity|]. do 4 (split; [auto|]). intros y. rewrite F. destruct (nth1 (vs s) y) as [v|]; [|reflexivity]. simpl. f_equal.
      unfold put3. rewrite Mem. subst x. destruct (y =? 0); simpl; [auto|]. rewrite orb_false_r. reflexivity.
    + apply Nat.eqb_neq in E0. assert (Lx : x <= length (vs s)) by (apply Hx; [eapply nth_error_In; eauto|auto]).
      destruct (nth1_ex (vs t) x E0) as (v & Hv); [lia|]. rewrite (at1_some _ _ _ Hv). cbn [obind]. eexists; split; [reflexivity|]. cbn [tjs ps vs ws set_vs]. rewrite upd_length. do 4 (split; [auto|]).
      intros y. rewrite (nth1_upd _ _ _ _ _ Hv), F. unfold put3. rewrite Mem. destruct (y =? x) eqn:Eyx.
      * apply Nat.eqb_eq in Eyx. subst y. rewrite F in Hv. destruct (nth1 (vs s) x) as [u|]; [|discriminate]. simpl in Hv. injection Hv as <-. simpl. rewrite orb_true_r. apply Nat.eqb_neq in E0. rewrite E0. simpl.
        f_equal. unfold put3. destruct ((x =? 0) || _); destruct u; reflexivity.
      * rewrite orb_false_r. reflexivity.
  - exists s'. split; [exact E|]. split; [auto|]. split; [auto|]. split; [auto|]. split; [rewrite D; reflexivity|]. intros y. rewrite F. rewrite firstn_all2 by lia. reflexivity.
Qed.

Theorem store3_ok s c : sound 3 s -> fits3 s c ->
  exists s', store3 3 s c = Ok s' /\ sound 3 s' /\ tjs s' = tjs s /\ ps s' = ps s /\ length (vs s') = length (vs s) /\
    ws s' = ws s ++ [W (S (length (ws s))) (c2 c) (csc c) (cw c) false false (S (g3 s))] /\
    forall y, nth1 (vs s') y = option_map (put3 (S (length (ws s))) (c2 c) y) (nth1 (vs s) y).
Proof.
  intros H (L & Hf).
  assert (Hx : forall x, In x (c2 c) -> x <> 0 -> exists p v, nth_error (c2 c) p = Some x /\ is_2V s x v /\ v3 v = 0 /\ vctp v mod 10 = p).
  { intros x Hin Hn. apply In_nth_error in Hin. destruct Hin as (p & Hp). destruct (Hf p x Hp Hn) as (v & V). exists p, v. auto. }
  destruct (store3_raw s c L) as (s' & E & A & B & C & D & F).
  { intros x Hin Hn. destruct (Hx x Hin Hn) as (p & v & _ & (V & _) & _). apply nth1_pos in V. lia. }
  exists s'. split; [auto|]. split; [|auto 10].
  set (id := S (length (ws s))) in *.
  assert (P3 : forall y v, vid (put3 id (c2 c) y v) = vid v /\ vctp (put3 id (c2 c) y v) = vctp v) by (intros y v; unfold put3; destruct ((y =? 0) || _); destruct v; auto).
  assert (Fwd : forall y v, nth1 (vs s) y = Some v -> nth1 (vs s') y = Some (put3 id (c2 c) y v)) by (intros y v Hv; rewrite F, Hv; reflexivity).
  assert (Bwd : forall y v', nth1 (vs s') y = Some v' -> exists v, nth1 (vs s) y = Some v /\ v' = put3 id (c2 c) y v).
  { intros y v' Hv. rewrite F in Hv. destruct (nth1 (vs s) y) as [v|]; [|discriminate]. injection Hv as <-. eauto. }
  assert (F2 : forall y v, is_2V s y v -> is_2V s' y (put3 id (c2 c) y v)) by (intros y v (V1 & V2); split; [auto|rewrite (proj1 (P3 y v)); auto]).
  assert (B2 : forall y v', is_2V s' y v' -> exists v, is_2V s y v /\ v' = put3 id (c2 c) y v).
  { intros y v' (V1 & V2). destruct (Bwd y v' V1) as (v & K1 & K2). exists v. split; [|auto]. split; [auto|]. rewrite K2, (proj1 (P3 y v)) in V2. auto. }
  assert (W1 : forall k w, nth1 (ws s) k = Some w -> nth1 (ws s') k = Some w).
  { intros [|k] w Hw; [discriminate|]. change (nth_error (ws s) k = Some w) in Hw. rewrite D. simpl. rewrite nth_error_app1; [auto|]. apply nth_error_Some. congruence. }
  assert (W2 : forall k w, nth1 (ws s') k = Some w -> nth1 (ws s) k = Some w \/ (k = id /\ w = W id (c2 c) (csc c) (cw c) false false (S (g3 s)))).
  { intros [|k] w Hw; [discriminate|]. rewrite D in Hw. simpl in Hw. destruct (lt_dec k (length (ws s))) as [Q|Q].
    - rewrite nth_error_app1 in Hw by auto. auto.
    - rewrite nth_error_app2 in Hw by lia. right. assert (k = length (ws s)).
      { assert (k - length (ws s) < 1) by (apply (nth_error_Some [W id (c2 c) (csc c) (cw c) false false (S (g3 s))]); congruence). lia. }
      subst k. rewrite Nat.sub_diag in Hw. simpl in Hw. injection Hw as <-. auto. }
  assert (Nid : nth1 (ws s') id = Some (W id (c2 c) (csc c) (cw c) false false (S (g3 s)))).
  { rewrite D. unfold id. simpl. rewrite nth_error_app2, Nat.sub_diag by lia. reflexivity. }
  constructor.
  - rewrite A. apply (s_tid 3 s H).
  - intros i v' Hv. destruct (Bwd (S i) v' Hv) as (v & K1 & ->). rewrite (proj1 (P3 (S i) v)). apply (s_vid 3 s H i v K1).
  - intros k w Hw. destruct (W2 (S k) w Hw) as [Q|(Q & ->)]; [apply (s_wid 3 s H k w Q)|right; auto].
  - intros v' Hv. apply In_nth_error in Hv. destruct Hv as (i & Hv). destruct (Bwd (S i) v' Hv) as (v & K1 & ->). rewrite (proj2 (P3 (S i) v)). apply (s_pl 3 s H). eapply nth1_in; eauto.
  - intros w Hw. rewrite D in Hw. apply in_app_or in Hw. destruct Hw as [Hw|[<-|[]]]; [apply (s_len 3 s H w Hw)|exact L].
  - rewrite A. apply (s_halo 3 s H).
  - rewrite A. intros t x T1 T2 T3. destruct (s_t2 3 s H t x T1 T2 T3) as (v & V1 & V2). exists (put3 id (c2 c) x v). split; [apply F2; auto|]. rewrite (proj2 (P3 x v)). auto.
  - intros x v' V Vn. destruct (B2 x v' V) as (v & V1 & ->). rewrite (proj2 (P3 x v)). unfold put3 in *. destruct ((x =? 0) || negb (existsb (Nat.eqb x) (c2 c))) eqn:Q.
    + destruct (s_23 3 s H x v V1 Vn) as (w & (K1 & K2) & K3). exists w. split; [split; auto|auto].
    + apply orb_false_iff in Q. destruct Q as (Q1 & Q2). apply Nat.eqb_neq in Q1. apply negb_false_iff, mem_in in Q2.
      destruct (Hx x Q2 Q1) as (p & u & U1 & U2 & U3 & U4). assert (u = v) by (destruct U2, V1; congruence). subst u.
      eexists. split; [split; [exact Nid|reflexivity]|]. cbn [w2]. rewrite U4. exact U1.
  - intros k w p x (K1 & K2) Hp Hn. destruct (W2 k w K1) as [Q|(Q & ->)].
    + destruct (s_32 3 s H k w p x) as (v & V1 & V2 & V3); [split; auto|auto|auto|]. exists (put3 id (c2 c) x v). split; [apply F2; auto|]. rewrite (proj2 (P3 x v)). split; [|auto].
      unfold put3. destruct ((x =? 0) || negb (existsb (Nat.eqb x) (c2 c))) eqn:R; [auto|]. exfalso.
      apply orb_false_iff in R. destruct R as (_ & R). apply negb_false_iff, mem_in in R. destruct (Hx x R Hn) as (p' & u & _ & U2 & U3 & _).
      assert (u = v) by (destruct U2, V1; congruence). subst u. apply nth1_pos in Q. lia.
    + cbn [w2] in Hp. destruct (Hf p x Hp Hn) as (v & V1 & V2 & V3). exists (put3 id (c2 c) x v). split; [apply F2; auto|]. rewrite (proj2 (P3 x v)). split; [|auto].
      unfold put3. destruct ((x =? 0) || negb (existsb (Nat.eqb x) (c2 c))) eqn:R; [|symmetry; exact Q]. exfalso.
      apply orb_true_iff in R. destruct R as [R|R]; [apply Nat.eqb_eq in R; contradiction|]. apply negb_true_iff in R.
      assert (existsb (Nat.eqb x) (c2 c) = true) by (apply mem_in; eapply nth_error_In; eauto). congruence.
  - intros v' Hv. apply In_nth_error in Hv. destruct Hv as (i & Hv). destruct (Bwd (S i) v' Hv) as (v & K1 & ->). rewrite D, app_length. simpl.
    unfold put3. destruct (_ || _); [|cbn [v3 set_v3]; unfold id; lia]. pose proof (s_ref 3 s H v (nth1_in _ _ _ K1)). lia.
Qed.

Definition no_v3 (v : vx) := set_v3 v 0.

Lemma store_all sel : forall s, sound 3 s -> (forall c, In c sel -> fits3 s c) ->
  (forall i j a b, i < j -> nth_error sel i = Some a -> nth_error sel j = Some b -> ~ shares (c2 a) (c2 b)) ->
  exists s' news, foreach sel (store3 3) s = Ok s' /\ sound 3 s' /\ tjs s' = tjs s /\ ps s' = ps s /\
    map no_v3 (vs s') = map no_v3 (vs s) /\ ws s' = ws s ++ news /\
    (forall i c, nth_error sel i = Some c -> exists w, nth_error news i = Some w /\ made (length (ws s) + i) c w) /\ length news = length sel.
Proof.
  induction sel as [|c sel IH]; intros s H Hf Ha; cbn [foreach].
  - exists s, []. rewrite app_nil_r. do 6 (split; [auto|]). split; [|reflexivity]. intros [|i] c Q; discriminate.
  - destruct (store3_ok s c H (Hf c (or_introl eq_refl))) as (s1 & E & S1 & A & B & C & D & F). rewrite E. cbn [obind].
    assert (Nv : map no_v3 (vs s1) = map no_v3 (vs s)).
    { apply nth_error_ext'. intros i. rewrite !nth_error_map. pose proof (F (S i)) as Fi. simpl in Fi. rewrite Fi. destruct (nth_error (vs s) i) as [v|]; [|reflexivity]. simpl. unfold put3. destruct (_ || _); destruct v; reflexivity. }
    destruct (IH s1 S1) as (s' & news & E2 & S2 & A2 & B2 & C2 & D2 & F2 & L2).
    + intros d Hd. destruct (Hf d (or_intror Hd)) as (Ld & Pd). split; [auto|]. intros p x Hp Hn. destruct (Pd p x Hp Hn) as (v & (V1 & V2) & V3 & V4).
      exists v. split; [|auto]. split; [|auto]. rewrite F, V1. simpl. f_equal. unfold put3. destruct ((x =? 0) || negb (existsb (Nat.eqb x) (c2 c))) eqn:R; [auto|].
      exfalso. apply orb_false_iff in R. destruct R as (_ & R). apply negb_false_iff, mem_in in R. apply In_nth_error in Hd. destruct Hd as (j & Hd).
      apply (Ha 0 (S j) c d); [lia|auto|auto|]. exists x. split; [auto|]. split; [auto|]. eapply nth_error_In; eauto.
    + intros i j a b Hij. apply (Ha (S i) (S j)). lia.
    + exists s', (W (S (length (ws s))) (c2 c) (csc c) (cw c) false false (S (g3 s)) :: news). split; [auto|]. split; [auto|]. split; [congruence|]. split; [congruence|]. split; [congruence|].
      split; [rewrite D2, D, <- app_assoc; reflexivity|]. split; [|simpl; auto].
      intros [|i] d Hd; simpl in Hd.
      * injection Hd as <-. eexists; split; [reflexivity|]. repeat split. rewrite Nat.add_0_r. reflexivity.
      * destruct (F2 i d Hd) as (w & K1 & K2). exists w. split; [auto|]. rewrite D, app_length in K2. simpl in K2. replace (length (ws s) + S i) with (length (ws s) + 1 + i) by lia. exact K2.
Qed.

(** ---- the scores at the end ---- *)
Definition w_meta (w : vx3) := (wire w, prim w, neu w, wuid w).

Lemma score3_loop' cut s0 n : sound 3 s0 -> n = length (ws s0) ->
  exists s', for_ (seq 0 n) (fun s k => do w <- idx (ws s) k; if wid w =? 0 then Ok s else set_vx3_score 3 cut s k) s0 = Ok s' /\
    same s0 s' /\ ps s' = ps s0 /\ map w_meta (ws s') = map w_meta (ws s0) /\
    (forall k w, is_3V s' k w -> wsc w = avg3 s' (w2 w)).
Proof.
  intros H Hn.
  destruct (for_seq_inv (fun k s => same s0 s /\ ps s = ps s0 /\ map w_meta (ws s) = map w_meta (ws s0) /\ (forall i w, nth_error (ws s) i = Some w -> i < k -> wid w <> 0 -> wsc w = avg3 s (w2 w)))
     (fun s k => do w <- idx (ws s) k; if wid w =? 0 then Ok s else set_vx3_score 3 cut s k) 0 n s0) as (s' & E & A & B & C & D).
  - split; [apply same_refl|]. split; [auto|]. split; [auto|]. intros; lia.
  - intros k s Hk (A & B & C & D). assert (Hs : sound 3 s) by (eapply same_sound; eauto).
    assert (Lw : length (ws s) = length (ws s0)) by (apply (f_equal (@length _)) in C; rewrite !map_length in C; exact C).
    destruct (nth_error (ws s) k) as [w|] eqn:Ew; [|apply nth_error_None in Ew; lia]. rewrite (idx_some _ _ _ Ew). cbn [obind]. destruct (wid w =? 0) eqn:E0.
    { exists s. split; [auto|]. split; [auto|]. split; [auto|]. split; [auto|]. intros i w' Hw' Hi Hz. destruct (Nat.eq_dec i k) as [->|Q]; [apply Nat.eqb_eq in E0; congruence|]. apply (D i w'); auto; lia. }
    apply Nat.eqb_neq in E0. unfold set_vx3_score. rewrite (idx_some _ _ _ Ew). cbn [obind]. destruct (wid w =? 0) eqn:E1; [apply Nat.eqb_eq in E1; contradiction|].
    assert (Hid : wid w = S k) by (destruct (s_wid 3 s Hs k w Ew); [contradiction|auto]).
    assert (Hi : forall x, In x (w2 w) -> x <> 0 -> exists v, nth1 (vs s) x = Some v).
    { intros x Hx Hx0. apply In_nth_error in Hx. destruct Hx as (p & Hpp). destruct (s_32 3 s Hs (S k) w p x) as (v & (Hv & _) & _); [split; auto|auto|auto|]. eauto. }
    rewrite (vx3_score_ok 3 s _ Hi). cbn [obind]. rewrite three. replace (clamp (score_sum s (w2 w) / Q2Qc 3)%Qc) with (avg3 s (w2 w)) by (unfold clamp, avg3, qlt; cbv zeta; destruct (Qclt_le_dec _ _); reflexivity).
    set (s1 := set_ws s (upd (ws s) k (set_wsc w (avg3 s (w2 w))))).
    assert (S1 : same s s1).
    { unfold same, s1. cbn [tjs vs ws set_ws]. split; [auto|]. split; [auto|]. symmetry. apply (upd_map_same w_shape _ _ w); [auto|reflexivity]. }
    assert (H1 : sound 3 s1) by (eapply same_sound; eauto).
    assert (Fin : forall s', flags s1 s' -> same s0 s' /\ ps s' = ps s0 /\ map w_meta (ws s') = map w_meta (ws s0) /\ (forall i w, nth_error (ws s') i = Some w -> i < S k -> wid w <> 0 -> wsc w = avg3 s' (w2 w))).
    { intros s' F. pose proof F as (F1 & F2 & F3 & F4 & _). split; [eapply same_trans; [exact A|eapply same_trans; [exact S1|apply flags_same; auto]]|]. split; [rewrite <- F4; exact B|].
      split; [rewrite <- F3; cbn [s1 ws set_ws]; rewrite <- C; apply (upd_map_same w_meta _ _ w); [auto|reflexivity]|].
      intros i w' Hw' Hi' Hz. assert (Q : avg3 s' (w2 w') = avg3 s (w2 w')).
      { unfold avg3. rewrite (score_sum_ext s' s); [reflexivity|]. symmetry. apply (vsc_flags s1 s'); auto. }
      rewrite Q. rewrite <- F3 in Hw'. cbn [s1 ws set_ws] in Hw'. rewrite nth_error_upd in Hw'. destruct (i =? k) eqn:Ei.
      - assert (Lk : (k <? length (ws s)) = true) by (apply Nat.ltb_lt; lia). rewrite Lk in Hw'. simpl in Hw'. injection Hw' as <-. reflexivity.
      - apply Nat.eqb_neq in Ei. simpl in Hw'. apply (D i w'); auto; lia. }
    destruct (qlt cut (avg3 s (w2 w))).
    + destruct (high_bits_total 3 s1 (w2 w) H1 Hi) as (s' & K1 & K2). exists s'. split; [auto|]. apply Fin; auto.
    + exists s1. split; [auto|]. apply Fin. apply flags_refl.
  - exists s'. split; [auto|]. split; [auto|]. split; [auto|]. split; [auto|]. intros [|k] w (K1 & K2); [discriminate|]. apply (D k w K1); [|lia].
    assert (Lw : length (ws s') = length (ws s0)) by (apply (f_equal (@length _)) in C; rewrite !map_length in C; exact C).
    assert (k < length (ws s')) by (apply nth_error_Some; simpl in K1; congruence). lia.
Qed.

Lemma score2_loop sc s : exists s', for_ (seq 0 (length (vs s))) (set_vx2_score sc) s = Ok s' /\ same s s' /\ tjs s' = tjs s /\ ws s' = ws s /\ ps s' = ps s.
Proof.
  destruct (for_seq_inv (fun i t => same s t /\ tjs t = tjs s /\ ws t = ws s /\ ps t = ps s) (set_vx2_score sc) 0 (length (vs s)) s) as (s' & E & P).
  - split; [apply same_refl|auto].
  - intros i t Hi (A & B & C & D). assert (Lv : length (vs t) = length (vs s)).
    { destruct A as (_ & A & _). apply (f_equal (@length _)) in A. rewrite !map_length in A. auto. }
    unfold set_vx2_score. destruct (nth_error (vs t) i) as [v|] eqn:Ev; [|apply nth_error_None in Ev; lia]. rewrite (idx_some _ _ _ Ev). cbn [obind].
    destruct (vid v =? 0); [exists t; auto|]. eexists; split; [reflexivity|]. split; [|auto]. eapply same_trans; [exact A|]. unfold same. cbn [tjs vs ws set_vs]. split; [auto|]. split; [|auto].
    symmetry. apply (upd_map_same vx_shape _ _ v); [auto|reflexivity].
  - exists s'. auto.
Qed.

Lemma tail_ok cut g s : sound 3 s -> exists s', f3_tail 3 cut g s = Ok s' /\ same s s' /\ ps s' = ps s /\
  map w_meta (ws s') = map w_meta (ws s) /\ (forall k w, is_3V s' k w -> wsc w = avg3 s' (w2 w)).
Proof.
  intros H. unfold f3_tail. set (s1 := set_tjs s _).
  assert (S1 : same s s1).
  { unfold same, s1. cbn [tjs vs ws set_tjs]. split; [|auto]. rewrite map_map. apply map_ext. intros t. destruct (dead t || halo t); reflexivity. }
  destruct (score2_loop (sc2 g) s1) as (s2 & E2 & S2 & _ & W2 & P2). rewrite E2. cbn [obind].
  assert (S02 : same s s2) by (eapply same_trans; eauto). assert (H2 : sound 3 s2) by (eapply same_sound; eauto).
  destruct (score3_loop' cut s2 (length (ws s2)) H2 eq_refl) as (s' & E & A & B & C & D). exists s'. split; [auto|]. split; [eapply same_trans; eauto|]. split; [rewrite B, P2; reflexivity|]. split; [rewrite C, W2; reflexivity|exact D].
Qed.

Lemma usable_in cut g s p x : sound 3 s -> usable_2V cut g s p x -> exists i, x = S i /\ In i (vindex s p).
Proof.
  intros H (v & V & P & _). destruct x as [|i]; [destruct V; discriminate|]. exists i. split; [auto|]. apply (in_vindex s p i H). eauto.
Qed.

Lemma no_match cut g s : sound 3 s -> (forall p q x y, p < q -> q < 3 -> usable_2V cut g s p x -> usable_2V cut g s q y -> False) ->
  selection cut g s 0%Qc [].
Proof.
  intros H N. constructor.
  - apply Qcle_refl.
  - intros c (p & q & x & y & z & pe & kw & pe3 & A & B & C & D & _). destruct (N p q x y A B C D).
  - intros c [].
  - intros [|i] j a b _ Q; discriminate.
  - intros c [(p & q & x & y & pe & kw & A & B & C & D & _)|(p & q & x & y & z & pe & kw & pe3 & A & B & C & D & _)]; destruct (N p q x y A B C D).
Qed.

Lemma no_match' cut g s : (forall c, ~ (match2 cut g s c \/ match3 cut g s c)) -> selection cut g s 0%Qc [].
Proof.
  intros N. constructor.
  - apply Qcle_refl.
  - intros c Q. destruct (N c (or_intror Q)).
  - intros c [].
  - intros [|i] j a b _ Q; discriminate.
  - intros c Q. destruct (N c Q).
Qed.

(** ---- Find3DVertices ---- *)
Theorem find3d_ok cut g s : sound 3 s -> (forall x v, is_2V s x v -> v3 v = 0) -> sorts3 (srt g) ->
  exists s' M sel, find3d 3 cut g s = Ok s' /\ sound 3 s' /\ selection cut g s M sel /\
    map tj_shape (tjs s') = map tj_shape (tjs s) /\
    map (fun v => (vid v, vctp v)) (vs s') = map (fun v => (vid v, vctp v)) (vs s) /\ ps s' = ps s /\
    length (ws s') = length (ws s) + length sel /\
    map w_shape (firstn (length (ws s)) (ws s')) = map w_shape (ws s) /\
    (forall i c, nth_error sel i = Some c -> exists w, nth_error (ws s') (length (ws s) + i) = Some w /\
        wid w = S (length (ws s) + i) /\ w2 w = c2 c /\ wire w = cw c /\ prim w = false /\ neu w = false) /\
    (sel <> [] -> forall k w, is_3V s' k w -> wsc w = avg3 s' (w2 w)).
Proof.
  intros H Hv Hs. unfold find3d.
  assert (Stay : selection cut g s 0%Qc [] -> forall s1, flags s s1 -> exists s' M sel, Ok s1 = Ok s' /\ sound 3 s' /\ selection cut g s M sel /\
    map tj_shape (tjs s') = map tj_shape (tjs s) /\ map (fun v => (vid v, vctp v)) (vs s') = map (fun v => (vid v, vctp v)) (vs s) /\ ps s' = ps s /\
    length (ws s') = length (ws s) + length sel /\ map w_shape (firstn (length (ws s)) (ws s')) = map w_shape (ws s) /\
    (forall i c, nth_error sel i = Some c -> exists w, nth_error (ws s') (length (ws s) + i) = Some w /\ wid w = S (length (ws s) + i) /\ w2 w = c2 c /\ wire w = cw c /\ prim w = false /\ neu w = false) /\
    (sel <> [] -> forall k w, is_3V s' k w -> wsc w = avg3 s' (w2 w))).
  { intros Sel s1 F. pose proof (flags_same _ _ F) as (A & B & C). exists s1, 0%Qc, []. split; [auto|]. split; [eapply same_sound; [apply flags_same; exact F|auto]|]. split; [auto|]. split; [auto|].
    split; [symmetry; eapply map_via; [|exact B]; intros a b Q; injection Q; congruence|]. destruct F as (_ & _ & F3 & F4 & _). split; [auto|]. rewrite <- F3. split; [simpl; lia|]. split; [rewrite firstn_all; auto|].
    split; [intros [|i] c Q; discriminate|]. congruence. }
  destruct (length (vs s) <? 2) eqn:E0.
  { apply Nat.ltb_lt in E0. apply Stay; [|apply flags_refl]. apply no_match; [auto|]. intros p q x y A B (v & (V1 & _) & V2 & _) (u & (U1 & _) & U2 & _).
    pose proof (nth1_pos _ _ _ V1). pose proof (nth1_pos _ _ _ U1). assert (x = y) by lia. subst y. assert (u = v) by congruence. subst. lia. }
  assert (Cnt : exists n, for_ (seq 0 3) (fun n p => do l <- idx [vindex s 0; vindex s 1; vindex s 2] p; Ok (match l with [] => n | _ => S n end)) 0 = Ok n /\
     ((n <? 2) = true -> selection cut g s 0%Qc [])).
  { cbn [seq for_ idx nth_error obind]. eexists; split; [reflexivity|]. intros Q. apply Nat.ltb_lt in Q. apply no_match; [auto|]. intros p q x y A B Ux Uy.
    apply (usable_in cut g s p x H) in Ux. apply (usable_in cut g s q y H) in Uy. destruct Ux as (i & _ & Ux), Uy as (j & _ & Uy).
    destruct p as [|[|p]], q as [|[|[|q]]]; try lia; destruct (vindex s 0), (vindex s 1), (vindex s 2); simpl in *; try contradiction; lia. }
  destruct Cnt as (n & En & Hn). rewrite En. cbn [obind]. destruct (n <? 2) eqn:E1; [apply Stay; [auto|apply flags_refl]|]. clear Hn.
  destruct (cands_ok cut g s H) as (st & Ec & F & M0 & cs & Cs & Hc & Hm). rewrite Ec. cbn [obind]. destruct st as [[s1 cs'] M]. cbn [fst snd] in *. simpl in Cs. subst cs'.
  assert (Hc' : forall c, In c cs <-> match2 cut g s c \/ match3 cut g s c) by (intros c; rewrite Hc; apply allM_iff).
  assert (Hm' : forall c, match3 cut g s c -> (csc c <= M)%Qc).
  { intros c Q. apply Hm; [apply Hc'; auto|]. destruct Q as (p & q & x & y & z & pe & kw & pe3 & A & B & Ux & Uy & Uz & _ & _ & (L & X & Y & Z) & _).
    apply (usable_in cut g s p x H) in Ux. apply (usable_in cut g s q y H) in Uy. apply (usable_in cut g s _ z H) in Uz. destruct Ux as (i & -> & _), Uy as (j & -> & _), Uz as (k & -> & _).
    intros Q. apply In_nth_error in Q. destruct Q as (m & Q). assert (m < 3) by (rewrite <- L; apply nth_error_Some; congruence).
    destruct (Nat.eq_dec m p) as [->|N1]; [congruence|]. destruct (Nat.eq_dec m q) as [->|N2]; [congruence|]. replace (3 - p - q) with m in Z by lia. congruence. }
  destruct (select_spec cut g s M cs M0 Hs Hc' Hm') as (sel & Es & Sel).
  destruct cs as [|c0 cs].
  { apply Stay; [|exact F]. apply no_match'. intros c Q. apply Hc' in Q. destruct Q. }
  remember (c0 :: cs) as cs1 eqn:Ecs. assert (Ncs : cs1 <> []) by (subst; discriminate). clear Ecs.
  change (map (fun c => if (0 <=? cw c)%Z then C3 (c2 c) (cw c) (csc c + (M + 1))%Qc else c) cs1) with (map (moved M) cs1). rewrite <- Es.
  assert (H1 : sound 3 s1) by (eapply same_sound; [apply flags_same; exact F|auto]).
  destruct (store_all (map (moved M) sel) s1 H1) as (s2 & news & E2 & S2 & A2 & B2 & C2 & D2 & F2 & L2).
  { intros c Hin. apply in_map_iff in Hin. destruct Hin as (d & <- & Hd). destruct (match_placed cut g s d (sel_in _ _ _ _ _ Sel d Hd)) as ((P1 & P2) & _).
    unfold fits3. destruct (moved_facts M d) as (-> & _). split; [auto|]. intros p x Hp Hx. destruct (P2 p x Hp Hx) as (v & V1 & V2). destruct (same_2V s s1 x v (flags_same _ _ F) V1) as (v' & W1 & W2 & W3).
    exists v'. split; [auto|]. split; [rewrite W3; eapply Hv; eauto|]. congruence. }
  { intros i j a b Hij Ha Hb. rewrite nth_error_map in Ha, Hb. destruct (nth_error sel i) as [a0|] eqn:Ea; [|discriminate]. destruct (nth_error sel j) as [b0|] eqn:Eb; [|discriminate].
    simpl in Ha, Hb. injection Ha as <-. injection Hb as <-. rewrite !(proj1 (moved_facts M _)). apply (sel_apart _ _ _ _ _ Sel i j); auto. }
  rewrite E2. cbn [obind]. destruct (tail_ok cut g s2 S2) as (s' & E3 & S3 & P3 & W3 & K3). rewrite E3.
  pose proof (flags_same _ _ F) as (T1 & V1 & W1). pose proof S3 as (T3 & V3 & W3').
  assert (Lw : length (ws s1) = length (ws s)) by (destruct F as (_ & _ & <- & _); auto).
  assert (Lw' : length (ws s') = length (ws s2)) by (apply (f_equal (@length _)) in W3; rewrite !map_length in W3; auto).
  rewrite map_length in L2.
  exists s', M, sel. split; [auto|]. split; [eapply same_sound; eauto|]. split; [auto|]. split; [rewrite <- T3, A2; auto|]. split.
  { transitivity (map (fun v => (vid v, vctp v)) (vs s2)); [symmetry; eapply map_via; [|exact V3]; intros a b Q; injection Q; congruence|].
    transitivity (map (fun v => (vid v, vctp v)) (vs s1)); [eapply map_via; [|exact C2]; intros [] [] Q; unfold no_v3, set_v3 in Q; cbn in *; congruence|].
    symmetry. eapply map_via; [|exact V1]; intros a b Q; injection Q; congruence. }
  split; [rewrite P3, B2; destruct F as (_ & _ & _ & F4 & _); auto|]. split; [rewrite Lw', D2, app_length, Lw, L2; reflexivity|]. split.
  { rewrite <- firstn_map, <- W3', D2, map_app, firstn_app, map_length, Lw, Nat.sub_diag, <- Lw. simpl. rewrite app_nil_r, <- (map_length w_shape (ws s1)), firstn_all. auto. }
  split; [|intros _; exact K3].
  intros i c Hi. destruct (F2 i (moved M c)) as (w & X1 & X2); [rewrite nth_error_map, Hi; reflexivity|].
  assert (N2 : nth_error (ws s2) (length (ws s) + i) = Some w) by (rewrite D2, <- Lw, nth_error_app2 by lia; replace (length (ws s1) + i - length (ws s1)) with i by lia; auto).
  destruct (map_nth_r w_shape (ws s') (ws s2) _ w (eq_sym W3') N2) as (w' & Y1 & Y2). destruct (map_nth_r w_meta (ws s') (ws s2) _ w W3 N2) as (w'' & Z1 & Z2).
  assert (w'' = w') by congruence. subst w''. exists w'. split; [auto|]. destruct X2 as (Q1 & Q2 & Q3 & Q4 & Q5). destruct (moved_facts M c) as (R1 & R2 & _). injection Y2 as Y2 Y3. injection Z2 as Z2 Z3 Z4 _.
  split; [rewrite Y2, Q5, Lw; auto|]. split; [congruence|]. split; [congruence|]. split; congruence.
Qed.
