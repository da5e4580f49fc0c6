(** The search for 2D vertices keeps the associations consistent and only adds vertices; the clusters
    of close 2D vertices. *)
From Verif Require Import Base TV_Model TV_Spec TV_Kill TV_High TV_Ops TV_Kill2 TV_Ops2 TV_Merge TV_FModel.
From Coq Require Import QArith Qcanon.
Import TV_Model.
Local Open Scope nat_scope.

(** only new 2D vertices of plane [ctp] *)
Definition grown (ctp : nat) (s s' : slice) : Prop :=
  map tj_fixed (tjs s') = map tj_fixed (tjs s) /\ ws s' = ws s /\ ps s' = ps s /\
  exists k, map vx_shape (vs s') = map vx_shape (vs s) ++ map (fun i => (S (length (vs s)) + i, ctp, 0)) (seq 0 k).

Lemma grown_refl c s : grown c s s.
Proof. unfold grown. repeat (split; [reflexivity|]). exists 0. rewrite app_nil_r. reflexivity. Qed.

Lemma shape_len (l l' : list vx) : map vx_shape l = map vx_shape l' -> length l = length l'.
Proof. intros H. apply (f_equal (@length _)) in H. rewrite !map_length in H. exact H. Qed.

Lemma seq_shift_map (f : nat -> nat * nat * nat) a k : map f (seq a k) = map (fun i => f (a + i)) (seq 0 k).
Proof.
  revert a. induction k as [|k IH]; intros a; simpl; [auto|]. rewrite Nat.add_0_r. f_equal. rewrite (IH (S a)), <- seq_shift, map_map.
  apply map_ext. intros i. f_equal. lia.
Qed.

Lemma grown_trans c a b d : grown c a b -> grown c b d -> grown c a d.
Proof.
  intros (A1 & A2 & A3 & k & A4) (B1 & B2 & B3 & m & B4). split; [congruence|]. split; [congruence|]. split; [congruence|].
  exists (k + m). rewrite B4, A4, <- app_assoc. f_equal. rewrite seq_app, map_app. f_equal. simpl. rewrite (seq_shift_map _ k m). apply map_ext. intros i.
  assert (L : length (vs b) = length (vs a) + k).
  { apply (f_equal (@length _)) in A4. rewrite app_length, !map_length, seq_length in A4. exact A4. }
  f_equal. f_equal. lia.
Qed.

Lemma grown_same_vs c s s' : map tj_fixed (tjs s') = map tj_fixed (tjs s) -> map vx_shape (vs s') = map vx_shape (vs s) -> ws s' = ws s -> ps s' = ps s -> grown c s s'.
Proof. intros A B C D. split; [auto|]. split; [auto|]. split; [auto|]. exists 0. rewrite app_nil_r. auto. Qed.

Lemma fixed_nth l l' i t : map tj_fixed l' = map tj_fixed l -> nth_error l i = Some t ->
  exists t', nth_error l' i = Some t' /\ tctp t' = tctp t /\ dead t' = dead t /\ halo t' = halo t.
Proof.
  intros E H. assert (Q : nth_error (map tj_fixed l') i = Some (tj_fixed t)) by (rewrite E, nth_error_map, H; reflexivity).
  rewrite nth_error_map in Q. destruct (nth_error l' i) as [t'|]; [|discriminate]. exists t'. injection Q as E1 E2 E3 E4. auto.
Qed.

Lemma fixed_len l l' : map tj_fixed l' = map tj_fixed l -> length l' = length l.
Proof. intros E. apply (f_equal (@length _)) in E. rewrite !map_length in E. exact E. Qed.

Section S.
Variable npl : nat.

Lemma attach_grown s ti vi e g : sound npl s -> ti < length (tjs s) -> vi < length (vs s) ->
  exists b s', attach s ti vi e g = Ok (b, s') /\ sound npl s' /\
    map tj_fixed (tjs s') = map tj_fixed (tjs s) /\ map vx_shape (vs s') = map vx_shape (vs s) /\ ws s' = ws s /\ ps s' = ps s.
Proof.
  intros H Lt Lv. destruct (attach_ok npl s ti vi e g H Lt Lv) as (b & s' & A1 & A2 & A3 & A4).
  exists b, s'. split; [auto|]. split; [auto|]. destruct b.
  - destruct (A4 eq_refl) as (t & v & T1 & T2 & T3 & T4 & T5 & T6 & T7 & T8 & [(_ & ->)|(ph & sc & _ & U1 & U2 & U3 & U4)]); [auto|].
    split; [|split; [|auto]].
    + rewrite U1. apply (upd_map_same tj_fixed _ _ t); [auto|]. destruct t, e; reflexivity.
    + rewrite U4. apply (upd_map_same vx_shape _ _ v); [auto|]. destruct v; reflexivity.
  - rewrite (A3 eq_refl). auto.
Qed.

Lemma attach_any_ok g s vi : sound npl s ->
  exists b s', attach_any g s vi = Ok (b, s') /\ sound npl s' /\
    map tj_fixed (tjs s') = map tj_fixed (tjs s) /\ map vx_shape (vs s') = map vx_shape (vs s) /\ ws s' = ws s /\ ps s' = ps s.
Proof.
  intros H. unfold attach_any. destruct (length (vs s) <=? vi) eqn:E; [exists false, s; auto 10|]. apply Nat.leb_gt in E.
  destruct (nth_error (vs s) vi) as [v|] eqn:Ev; [|apply nth_error_None in Ev; lia]. rewrite (idx_some _ _ _ Ev). cbn [obind].
  destruct (vid v =? 0); [exists false, s; auto 10|].
  match goal with |- context [for_ (seq 0 ?n) ?body ?z] =>
    destruct (for_seq_inv (fun i (best : option nat * Qc) => forall ti, fst best = Some ti -> ti < length (tjs s)) body 0 n z) as (best & E1 & P1) end.
  - intros ti Q. discriminate.
  - intros i best Hi P. destruct (nth_error (tjs s) i) as [t|] eqn:Et; [|apply nth_error_None in Et; lia]. rewrite (idx_some _ _ _ Et). cbn [obind].
    destruct (dead t || halo t); [eauto|]. destruct (negb (tctp t =? vctp v)); [eauto|]. destruct (far g s i vi); [eauto|].
    destruct (0 <? vtxid t (nearend g s i vi)); [eauto|]. destruct (qlt (snd best) (fom g s i vi)); [eauto|].
    eexists; split; [reflexivity|]. intros ti Q. simpl in Q. injection Q as <-. lia.
  - rewrite E1. cbn [obind]. destruct (fst best) as [ti|] eqn:Eb; [|exists false, s; auto 10].
    apply attach_grown; auto.
Qed.

Lemma vx2_score_grown sc s i : i < length (vs s) -> sound npl s ->
  exists s', set_vx2_score sc s i = Ok s' /\ sound npl s' /\
    map tj_fixed (tjs s') = map tj_fixed (tjs s) /\ map vx_shape (vs s') = map vx_shape (vs s) /\ ws s' = ws s /\ ps s' = ps s.
Proof.
  intros L H. unfold set_vx2_score. destruct (nth_error (vs s) i) as [v|] eqn:Ev; [|apply nth_error_None in Ev; lia]. rewrite (idx_some _ _ _ Ev). cbn [obind].
  destruct (vid v =? 0); [exists s; auto 10|]. eexists; split; [reflexivity|].
  assert (Q : map vx_shape (upd (vs s) i (set_vsc v (sc s i))) = map vx_shape (vs s)) by (apply (upd_map_same vx_shape _ _ v); [auto|destruct v; reflexivity]).
  split; [|auto 10]. apply (same_sound npl s); [|auto]. repeat split. simpl. auto.
Qed.

Lemma f2_pair_ok g ctp i1 b1 s i2 t1 : (forall s i b j l, incl (order (mgeo g s i b j) l) l) -> ctp mod 10 < npl ->
  sound npl s -> nth_error (tjs s) i1 = Some t1 -> dead t1 = false -> halo t1 = false -> tctp t1 = ctp -> i1 < i2 -> i2 < length (tjs s) ->
  exists s', f2_pair g ctp i1 b1 s i2 = Ok s' /\ sound npl s' /\ grown ctp s s'.
Proof.
  intros Ho Hp H N1 D1 H1 C1 Hlt L2. unfold f2_pair. destruct (nth_error (tjs s) i2) as [t2|] eqn:N2; [|apply nth_error_None in N2; lia].
  assert (Stay : exists s', Ok s = Ok s' /\ sound npl s' /\ grown ctp s s') by (exists s; auto using grown_refl).
  rewrite (idx_some _ _ _ N2). cbn [obind]. destruct (dead t2 || halo t2) eqn:Ed; [exact Stay|]. apply orb_false_iff in Ed. destruct Ed as (D2 & H2).
  destruct (shower g i2); [exact Stay|]. destruct (negb (tctp t2 =? ctp)) eqn:Ec; [exact Stay|]. apply negb_false_iff, Nat.eqb_eq in Ec.
  rewrite (idx_some _ _ _ N1). cbn [obind]. destruct (0 <? vtxid t1 b1) eqn:E1; [exact Stay|]. apply Nat.ltb_ge in E1.
  destruct (weak g i1 i2); [exact Stay|]. cbv zeta. destruct (0 <? vtxid t2 _) eqn:E2; [exact Stay|]. apply Nat.ltb_ge in E2.
  destruct (wrong g i2 _); [exact Stay|]. destruct ((0 <? vtxid t1 (negb b1)) && _); [exact Stay|]. destruct (negb (cuts g s i1 b1 i2)); [exact Stay|].
  destruct (try_ok npl s ctp i1 b1 i2 (end_of g s i1 b1 i2) (fits g s i1 b1 i2) (close_to g s i1 b1 i2) (mgeo g s i1 b1 i2) (vpos g s i1 b1 i2) t1 t2)
    as (b & s1 & T1 & T2 & _ & T3 & T4 & T5 & T6 & _); try assumption; try lia; [apply Ho|].
  rewrite T1. cbn [obind fst snd].
  assert (G1 : grown ctp s s1).
  { split; [auto|]. split; [auto|]. split; [auto|]. exists (if b then 1 else 0). rewrite T6. destruct b; simpl; [|reflexivity]. rewrite Nat.add_0_r. reflexivity. }
  destruct b; cbn [negb]; [|exists s1; auto].
  destruct (attach_any_ok g s1 (length (vs s1) - 1) T2) as (b & s2 & A1 & A2 & A3 & A4 & A5 & A6). rewrite A1. cbn [obind fst snd].
  assert (L : length (vs s2) = S (length (vs s))).
  { rewrite (shape_len _ _ A4). apply (f_equal (@length _)) in T6. rewrite app_length, !map_length in T6. simpl in T6. lia. }
  destruct (vx2_score_grown (score2 g) s2 (length (vs s2) - 1)) as (s3 & B1 & B2 & B3 & B4 & B5 & B6); [lia|auto|].
  rewrite B1. exists s3. split; [auto|]. split; [auto|]. eapply grown_trans; [exact G1|]. eapply grown_trans; apply grown_same_vs; [exact A3|exact A4|exact A5|exact A6|exact B3|exact B4|exact B5|exact B6].
Qed.

Theorem find2d_ok g ctp s : (forall s i b j l, incl (order (mgeo g s i b j) l) l) -> ctp mod 10 < npl -> sound npl s ->
  exists s', find2d g ctp s = Ok s' /\ sound npl s' /\ grown ctp s s'.
Proof.
  intros Ho Hp H. unfold find2d. destruct (length (tjs s) <? 2) eqn:E0; [exists s; auto using grown_refl|]. apply Nat.ltb_ge in E0.
  match goal with |- context [for_ (seq 0 ?n) ?body ?z] =>
    destruct (for_seq_inv (fun i t => sound npl t /\ grown ctp s t) body 0 n z) as (s' & E1 & P1 & P2) end.
  - auto using grown_refl.
  - intros i1 t Hi (St & G). pose proof (fixed_len _ _ (proj1 G)) as Lt.
    destruct (nth_error (tjs t) i1) as [t1|] eqn:N1; [|apply nth_error_None in N1; lia]. rewrite (idx_some _ _ _ N1). cbn [obind].
    destruct (dead t1 || halo t1) eqn:Ed; [eauto|]. apply orb_false_iff in Ed. destruct Ed as (D1 & H1). destruct (shower g i1); [eauto|].
    destruct (negb (tctp t1 =? ctp)) eqn:Ec; [eauto|]. apply negb_false_iff, Nat.eqb_eq in Ec.
    set (fe := fun (s : slice) (b1 : bool) => do t1 <- idx (tjs s) i1; if 0 <? vtxid t1 b1 then Ok s else if wrong g i1 b1 then Ok s else for_ (seq (i1 + 1) (length (tjs s) - (i1 + 1))) (f2_pair g ctp i1 b1) s).
    assert (Step : forall u b1, sound npl u -> grown ctp t u -> exists u', fe u b1 = Ok u' /\ sound npl u' /\ grown ctp t u').
    { intros u b1 Su Gu. unfold fe. pose proof (fixed_len _ _ (proj1 Gu)) as Lu. destruct (fixed_nth _ _ i1 t1 (proj1 Gu) N1) as (u1 & M1 & M2 & M3 & M4).
      rewrite (idx_some _ _ _ M1). cbn [obind]. destruct (0 <? vtxid u1 b1); [eauto|]. destruct (wrong g i1 b1); [eauto|].
      destruct (for_seq_inv (fun i w => sound npl w /\ grown ctp t w) (f2_pair g ctp i1 b1) (i1 + 1) (length (tjs u) - (i1 + 1)) u) as (w & W1 & W2); [auto| |eauto].
      intros i2 w Hi2 (Sw & Gw). pose proof (fixed_len _ _ (proj1 Gw)) as Lw. destruct (fixed_nth _ _ i1 t1 (proj1 Gw) N1) as (w1 & K1 & K2 & K3 & K4).
      destruct (f2_pair_ok g ctp i1 b1 w i2 w1) as (w' & F1 & F2 & F3); try assumption; try congruence; try lia.
      exists w'. split; [auto|]. split; [auto|]. eapply grown_trans; eauto. }
    cbn [foreach]. destruct (Step t false St (grown_refl _ _)) as (u & U1 & U2 & U3). rewrite U1. cbn [obind].
    destruct (Step u true U2 U3) as (w & W1 & W2 & W3). rewrite W1. cbn [obind]. exists w. split; [auto|]. split; [auto|]. eapply grown_trans; eauto.
  - exists s'. auto.
Qed.

End S.

From Coq Require Import Relations.
Import TV_Model.

Lemma NoDup_app_intro' {A} (l m : list A) : NoDup l -> NoDup m -> (forall x, In x l -> In x m -> False) -> NoDup (l ++ m).
Proof.
  induction l as [|a l IH]; simpl; intros H1 H2 H3; [auto|]. inversion H1; subst. constructor.
  - intros Q. apply in_app_or in Q. destruct Q; [contradiction|]. apply (H3 a); auto.
  - apply IH; auto. intros x Hx. apply H3. auto.
Qed.

Lemma union_r a b x : In x b -> In x (union a b).
Proof.
  unfold union. revert a. induction b as [|y b IH]; intros a [].
  - subst y. simpl. destruct (existsb (Nat.eqb x) a) eqn:E.
    + apply existsb_exists in E. destruct E as (z & E1 & E2). apply Nat.eqb_eq in E2. subst z. apply (union_l a b). exact E1.
    + apply (union_l (a ++ [x]) b). apply in_or_app. simpl. auto.
  - simpl. apply IH. auto.
Qed.

Section C.
Variable npl : nat.
Variable close : nat -> nat -> bool.
Variable s : slice.
Variable p : nat.

Definition good_cls (c : list nat) : Prop :=
  NoDup c /\ 2 <= length c /\ (forall x, In x c -> in_plane s p x) /\
  (forall x y, In x c -> In y c -> clos_refl_sym_trans nat (near_pair close s p) x y).
Definition has (cl : list (list nat)) (x y : nat) : Prop := exists c, In c cl /\ In x c /\ In y c.

Lemma snoc_good c a b : good_cls c -> In a c -> ~ In b c -> in_plane s p b ->
  clos_refl_sym_trans nat (near_pair close s p) a b -> good_cls (c ++ [b]).
Proof.
  intros (N & L & M & C) Ha Hb Pb R. split; [|split; [|split]].
  - apply NoDup_app_intro'; auto. constructor; [auto|constructor]. intros x Hx [<-|[]]. auto.
  - rewrite app_length. simpl. lia.
  - intros x Hx. apply in_app_or in Hx. destruct Hx as [Hx|[<-|[]]]; auto.
  - intros x y Hx Hy. apply in_app_or in Hx, Hy. destruct Hx as [Hx|[<-|[]]], Hy as [Hy|[<-|[]]]; auto.
    + eapply rst_trans; [apply (C x a); auto|exact R].
    + eapply rst_trans; [apply rst_sym; exact R|apply (C a y); auto].
    + apply rst_refl.
Qed.

Lemma join_ok a b cl : Forall good_cls cl -> near_pair close s p a b ->
  Forall good_cls (join_pair a b cl) /\ has (join_pair a b cl) a b /\ forall x y, has cl x y -> has (join_pair a b cl) x y.
Proof.
  intros F R. pose proof R as (Lt & Pa & Pb & _). induction cl as [|c r IH]; simpl.
  - split; [|split].
    + constructor; [|constructor]. split; [constructor; [simpl; intros [Q|[]]; lia|constructor; [auto|constructor]]|]. split; [simpl; lia|]. split.
      * intros x [<-|[<-|[]]]; auto.
      * intros x y [<-|[<-|[]]] [<-|[<-|[]]]; auto using rst_refl, rst_step, rst_sym.
    + exists [a; b]. simpl. auto.
    + intros x y (c & [] & _).
  - inversion F as [|c' r' Gc Gr]; subst. specialize (IH Gr). destruct IH as (I1 & I2 & I3).
    assert (Da : existsb (Nat.eqb a) c = true <-> In a c).
    { rewrite existsb_exists. split; [intros (x & A & B); apply Nat.eqb_eq in B; congruence|intros A; exists a; rewrite Nat.eqb_refl; auto]. }
    assert (Db : existsb (Nat.eqb b) c = true <-> In b c).
    { rewrite existsb_exists. split; [intros (x & A & B); apply Nat.eqb_eq in B; congruence|intros A; exists b; rewrite Nat.eqb_refl; auto]. }
    assert (Grow : forall z x y, has (c :: r) x y -> has ((c ++ [z]) :: r) x y).
    { intros z x y (d & [<-|Hd] & Hx & Hy); [exists (c ++ [z])|exists d]; simpl; rewrite ?in_app_iff; auto. }
    destruct (existsb (Nat.eqb a) c) eqn:Ea, (existsb (Nat.eqb b) c) eqn:Eb; cbn [andb].
    + split; [auto|]. split; [|auto]. exists c. simpl. tauto.
    + assert (Nb : ~ In b c) by (intros Q; apply Db in Q; discriminate). split; [|split].
      * constructor; [|auto]. apply (snoc_good c a b); try tauto. auto using rst_step.
      * exists (c ++ [b]). simpl. rewrite !in_app_iff. simpl. tauto.
      * apply Grow.
    + assert (Na : ~ In a c) by (intros Q; apply Da in Q; discriminate). split; [|split].
      * constructor; [|auto]. apply (snoc_good c b a); try tauto. auto using rst_step, rst_sym.
      * exists (c ++ [a]). simpl. rewrite !in_app_iff. simpl. tauto.
      * apply Grow.
    + split; [constructor; auto|]. split.
      * destruct I2 as (d & D1 & D2). exists d. simpl. tauto.
      * intros x y (d & [<-|Hd] & Hx & Hy); [exists c; simpl; auto|]. destruct (I3 x y) as (d' & D1 & D2); [exists d; auto|]. exists d'. simpl. tauto.
Qed.

Theorem clusters_ok : sound npl s ->
  exists cl, clusters close s p = Ok cl /\ Forall good_cls cl /\
    forall x y, near_pair close s p x y -> has cl x y.
Proof.
  intros H. unfold clusters.
  assert (Pl : forall i v, nth_error (vs s) i = Some v -> vid v <> 0 -> vctp v mod 10 = p -> vid v = S i /\ in_plane s p (S i)).
  { intros i v Hv Hn Hp. destruct (s_vid npl s H i v Hv) as [Q|Q]; [contradiction|]. split; [auto|]. exists v. split; [split; auto|auto]. }
  match goal with |- context [for_ (seq 0 ?n) ?body ?z] =>
    destruct (for_seq_inv (fun i cl => Forall good_cls cl /\ forall x y, near_pair close s p x y -> x <= i -> has cl x y) body 0 n z) as (cl & E1 & P1 & P2) end.
  - split; [constructor|]. intros x y (_ & (v & (A & _) & _) & _) L. apply nth1_pos in A. lia.
  - intros ii cl Hi (G & P). destruct (nth_error (vs s) ii) as [vi|] eqn:Ei; [|apply nth_error_None in Ei; lia]. rewrite (idx_some _ _ _ Ei). cbn [obind].
    assert (Skip : ~ in_plane s p (S ii) -> exists s', Ok cl = Ok s' /\ Forall good_cls s' /\ forall x y, near_pair close s p x y -> x <= S ii -> has s' x y).
    { intros Q. exists cl. split; [auto|]. split; [auto|]. intros x y R L. destruct (Nat.eq_dec x (S ii)) as [->|D]; [exfalso; apply Q; apply R|apply P; [auto|lia]]. }
    assert (Un : forall v, is_2V s (S ii) v -> v = vi) by (intros v (A & _); simpl in A; congruence).
    destruct (vid vi =? 0) eqn:E0.
    { apply Nat.eqb_eq in E0. apply Skip. intros (v & A & _). rewrite (Un v A) in A. destruct A. lia. }
    apply Nat.eqb_neq in E0. destruct (negb (plane (vctp vi) =? p)) eqn:Ep.
    { apply negb_true_iff, Nat.eqb_neq in Ep. apply Skip. intros (v & A & B). rewrite (Un v A) in B. contradiction. }
    apply negb_false_iff, Nat.eqb_eq in Ep. destruct (Pl ii vi Ei E0 Ep) as (Iv & Ip). clear Skip.
    match goal with |- context [for_ (seq (ii + 1) ?n) ?body ?z] =>
      destruct (for_seq_inv (fun j cl => Forall good_cls cl /\ forall x y, near_pair close s p x y -> (x <= ii \/ x = S ii /\ y <= j) -> has cl x y) body (ii + 1) n z) as (cl' & F1 & F2 & F3) end.
    + split; [auto|]. intros x y R [L|(-> & L)]; [auto|]. destruct R. lia.
    + intros jj c2 Hj (G2 & P2). destruct (nth_error (vs s) jj) as [vj|] eqn:Ej; [|apply nth_error_None in Ej; lia]. rewrite (idx_some _ _ _ Ej). cbn [obind].
      assert (Skip : ~ near_pair close s p (S ii) (S jj) -> exists s', Ok c2 = Ok s' /\ Forall good_cls s' /\ forall x y, near_pair close s p x y -> (x <= ii \/ x = S ii /\ y <= S jj) -> has s' x y).
      { intros Q. exists c2. split; [auto|]. split; [auto|]. intros x y R [L|(-> & L)]; [auto|]. destruct (Nat.eq_dec y (S jj)) as [->|D]; [contradiction|]. apply P2; [auto|right; lia]. }
      assert (Un2 : forall v, is_2V s (S jj) v -> v = vj) by (intros v (A & _); simpl in A; congruence).
      destruct (vid vj =? 0) eqn:F0.
      { apply Nat.eqb_eq in F0. apply Skip. intros (_ & _ & (v & A & _) & _). rewrite (Un2 v A) in A. destruct A. lia. }
      apply Nat.eqb_neq in F0. destruct (negb (plane (vctp vj) =? p)) eqn:Fp.
      { apply negb_true_iff, Nat.eqb_neq in Fp. apply Skip. intros (_ & _ & (v & A & B) & _). rewrite (Un2 v A) in B. contradiction. }
      apply negb_false_iff, Nat.eqb_eq in Fp. destruct (Pl jj vj Ej F0 Fp) as (Jv & Jp).
      destruct (close ii jj) eqn:Ecl; cbn [negb].
      2:{ apply Skip. intros (_ & _ & _ & Q). simpl in Q. rewrite !Nat.sub_0_r in Q. congruence. }
      assert (R : near_pair close s p (S ii) (S jj)).
      { split; [lia|]. split; [auto|]. split; [auto|]. simpl. rewrite !Nat.sub_0_r. auto. }
      rewrite Iv, Jv. destruct (join_ok (S ii) (S jj) c2 G2 R) as (J1 & J2 & J3). eexists; split; [reflexivity|]. split; [auto|].
      intros x y Rx [L|(-> & L)]; [apply J3, P2; auto|]. destruct (Nat.eq_dec y (S jj)) as [->|D]; [auto|]. apply J3, P2; [auto|right; lia].
    + rewrite F1. exists cl'. split; [auto|]. split; [auto|]. intros x y R L. apply F3; [auto|]. destruct (Nat.eq_dec x (S ii)) as [->|D]; [right; split; [auto|]|left; lia].
      destruct R as (_ & _ & (v & (A & _) & _) & _). apply nth1_pos in A. lia.
  - exists cl. split; [auto|]. split; [auto|]. intros x y R. apply P2; [auto|]. pose proof R as (Lt & _ & (v & (A & _) & _) & _). apply nth1_pos in A. lia.
Qed.

Lemma reconcile_undef (cls : list nat) : (forall c, In c cls -> exists v, is_2V s c v) -> 2 <= length cls ->
  (exists a b c, NoDup [a; b; c] /\ forall j, In j [a; b; c] -> exists x t, In x cls /\ is_tj s j t /\ halo t = false /\ on t x) ->
  sound npl s -> reconcile true s cls = Undef.
Proof.
  intros Hc L (a & b & c & Nd & Hj) H. unfold reconcile. destruct (length cls <? 2) eqn:E; [apply Nat.ltb_lt in E; lia|].
  assert (G : forall l acc, (forall x, In x l -> exists v, is_2V s x v) ->
    exists r, foreach l (fun acc id => match acc with None => Ok None | Some l => do v <- at1 (vs s) id; if vid v =? 0 then Ok None else Ok (Some (union l (tjs_of s (vid v)))) end) (Some acc) = Ok (Some r) /\
      forall j, (In j acc \/ exists x, In x l /\ In j (tjs_of s x)) -> In j r).
  { induction l as [|x l IH]; intros acc Hl; cbn [foreach].
    - exists acc. split; [auto|]. intros j [Q|(x & [] & _)]. auto.
    - destruct (Hl x (or_introl eq_refl)) as (v & A & B). rewrite (at1_some _ _ _ A). cbn [obind]. pose proof (nth1_pos _ _ _ A) as (N0 & _). rewrite B.
      destruct (x =? 0) eqn:Ex; [apply Nat.eqb_eq in Ex; lia|]. cbn [obind]. destruct (IH (union acc (tjs_of s x))) as (r & R1 & R2); [intros; apply Hl; right; auto|].
      exists r. split; [exact R1|]. intros j [Q|(y & [<-|Hy] & Q)]; apply R2; [left; apply union_l; auto|left|right; eauto]. apply union_r. auto. }
  destruct (G cls [] Hc) as (r & R1 & R2). rewrite R1. cbn [obind]. destruct (length r <? 3) eqn:E3; [|reflexivity]. exfalso. apply Nat.ltb_lt in E3.
  assert (I : incl [a; b; c] r).
  { intros j Hin. destruct (Hj j Hin) as (x & t & Hx & (T1 & T2) & T3 & T4 & T5). apply R2. right. exists x. split; [auto|]. unfold tjs_of. apply in_flat_map. exists t. split; [eapply nth1_in; eauto|].
    rewrite T2, T3. simpl. assert (Q : (e0 t =? x) || (e1 t =? x) = true) by (apply orb_true_iff; rewrite !Nat.eqb_eq; tauto). rewrite Q. left.
    pose proof (nth1_pos _ _ _ T1) as (U1 & U2 & _). rewrite (s_tid npl s H _ _ U2). lia. }
  pose proof (NoDup_incl_length Nd I). simpl in *. lia.
Qed.

End C.
