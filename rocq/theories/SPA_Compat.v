(** compatible and separation against the specification *)
From Coq Require Import QArith Qcanon Lqa.
From Verif Require Import Base QcUtil Solver_Model Solver_Proofs SPS_Model SPA_Model SPA_Spec.
Import SPA_Model.
Local Open Scope nat_scope.

Lemma two_q : Q2Qc 2 = (1 + 1)%Qc. Proof. apply Qc_is_canon. reflexivity. Qed.
Lemma two_ne : (1 + 1)%Qc <> 0%Qc. Proof. intros H. apply (f_equal this) in H. vm_compute in H. discriminate. Qed.
Lemma pos_ne (x : Qc) : (0 < x)%Qc -> x <> 0%Qc. Proof. intros H ->. qclra. Qed.

Lemma sin_sn w : straight w -> sin_of w = sn w.
Proof.
  intros (L & A & B). unfold sin_of, sn. rewrite two_q in *.
  assert (E : ys w = (yc w * (1 + 1) - ye w)%Qc) by (rewrite A; ring). rewrite E. field. split; [apply pos_ne; exact L|exact two_ne].
Qed.
Lemma cos_cs w : straight w -> cos_of w = cs w.
Proof.
  intros (L & A & B). unfold cos_of, cs. rewrite two_q in *.
  assert (E : zs w = (zc w * (1 + 1) - ze w)%Qc) by (rewrite B; ring). rewrite E. field. split; [apply pos_ne; exact L|exact two_ne].
Qed.
Lemma dist_off w : straight w -> dist_of w = off w.
Proof.
  intros S. unfold dist_of, off, coord. rewrite sin_sn, cos_cs by exact S. destruct S as (L & A & B). unfold sn, cs. rewrite two_q in *.
  assert (E : ys w = (yc w * (1 + 1) - ye w)%Qc) by (rewrite A; ring).
  assert (E2 : zs w = (zc w * (1 + 1) - ze w)%Qc) by (rewrite B; ring).
  rewrite E, E2. field. split; [apply pos_ne; exact L|exact two_ne].
Qed.
Lemma sin0_sn w : sin0 w = sn w. Proof. reflexivity. Qed.
Lemma cos0_cs w : cos0 w = cs w. Proof. reflexivity. Qed.
Lemma dist0_off w : dist0 w = off w. Proof. unfold dist0, off, coord, sin0, cos0, sn, cs. ring. Qed.

Lemma qabs_lt x b : qc_lt (qabs x) b = true <-> within b x.
Proof.
  unfold within, qabs. rewrite qc_lt_spec. destruct (qc_lt x 0) eqn:E.
  - apply qc_lt_spec in E. split; [intros H; split; qclra|intros (H1 & H2); qclra].
  - apply qc_lt_false in E. split; [intros H; split; qclra|intros (H1 & H2); qclra].
Qed.
Lemma qle_spec x y : qle x y = true <-> (x <= y)%Qc.
Proof. unfold qle. destruct (qc_lt y x) eqn:E; simpl. - apply qc_lt_spec in E. split; [discriminate|intros H; qclra]. - apply qc_lt_false in E. tauto. Qed.
Lemma qabs_le x b : qle (qabs x) b = true <-> upto b x.
Proof.
  unfold upto, qabs. rewrite qle_spec. destruct (qc_lt x 0) eqn:E.
  - apply qc_lt_spec in E. split; [intros H; split; qclra|intros (H1 & H2); qclra].
  - apply qc_lt_false in E. split; [intros H; split; qclra|intros (H1 & H2); qclra].
Qed.
Lemma view_eqb_spec a b : view_eqb a b = true <-> a = b.
Proof. destruct a, b; simpl; split; congruence. Qed.

Lemma pair_ok_spec g c a b : pair_ok g c a b = true <-> agree g c a b.
Proof.
  unfold pair_ok, agree. rewrite !andb_true_iff, !Nat.eqb_eq, negb_true_iff, qabs_le.
  change (tick g a) with (tm g a). change (tick g b) with (tm g b).
  destruct (view_eqb (hview a) (hview b)) eqn:E.
  - apply view_eqb_spec in E. split; [intros (((_ & X) & _) & _); discriminate|tauto].
  - assert (hview a <> hview b) by (intros X; apply view_eqb_spec in X; congruence). tauto.
Qed.

Definition straights (g : geo) (hs : list hit) : Prop := forall h, In h hs -> straight (wr g h).
Lemma put_ok g s c d h : straight (wr g h) -> hplane h < 3 -> length s = 3 -> length c = 3 -> length d = 3 ->
  put_wire g (s, c, d) h = Ok (upd s (hplane h) (sn (wr g h)), upd c (hplane h) (cs (wr g h)), upd d (hplane h) (off (wr g h))).
Proof.
  intros W L A B C. unfold put_wire. change (wire_of g h) with (wr g h).
  rewrite !set_idx_ok by lia. cbn [obind]. rewrite sin_sn, cos_cs, dist_off by exact W. reflexivity.
Qed.

Definition pm (x y : Qc) : Prop := x = y \/ x = (- y)%Qc.
Lemma pm_within b x y : pm x y -> (within b x <-> within b y).
Proof. unfold within. intros [E|E]; rewrite E; [tauto|]. split; intros (H1 & H2); split; qclra. Qed.

(** the separation computed by the code for hits in three different planes *)
Lemma s_of_three g a b d : straights g [a; b; d] -> NoDup (map hplane [a; b; d]) -> (forall h, In h [a; b; d] -> hplane h < 3) ->
  exists r, (do x <- put_wire g zero3 a; do x <- put_wire g x b; put_wire g x d) = Ok r /\ pm (s_of r) (sep3 (wr g a) (wr g b) (wr g d)).
Proof.
  intros W N L. unfold zero3.
  assert (La : hplane a < 3) by (apply L; simpl; auto). assert (Lb : hplane b < 3) by (apply L; simpl; auto).
  assert (Ld : hplane d < 3) by (apply L; simpl; auto).
  rewrite put_ok by (try reflexivity; try assumption; apply W; simpl; auto). cbn [obind].
  rewrite put_ok by (rewrite ?upd_length; try reflexivity; try assumption; apply W; simpl; auto). cbn [obind].
  rewrite put_ok by (rewrite ?upd_length; try reflexivity; try assumption; apply W; simpl; auto).
  eexists. split; [reflexivity|]. clear L W.
  cbn [map] in N. apply NoDup_cons_iff in N as (N1 & N2). apply NoDup_cons_iff in N2 as (N2 & _). cbn [In] in N1, N2.
  generalize (wr g a) (wr g b) (wr g d). intros wa wb wd.
  destruct (hplane a) as [|[|[|]]] eqn:Ea; try lia; destruct (hplane b) as [|[|[|]]] eqn:Eb; try (exfalso; tauto); try lia;
    destruct (hplane d) as [|[|[|]]] eqn:Ed; try (exfalso; tauto); try lia; cbn [upd s_of nth]; unfold sep3, pm;
    first [left; ring|right; ring].
Qed.

Definition clean (g : geo) (hs : list hit) : Prop :=
  straights g hs /\ NoDup (map hplane hs) /\ forall h, In h hs -> hplane h < 3.

Lemma compatible_gen g c hs : straights g hs -> (forall h, In h hs -> hplane h < 3) ->
  (ForallOrdPairs (agree g c) hs -> NoDup (map hplane hs)) -> exists b, compatible g c hs = Ok b /\ (b = true <-> fits g c hs).
Proof.
  intros W L N0. unfold compatible.
  destruct hs as [|a [|b [|d [|e r]]]]; cbn [length Nat.leb andb].
  - eexists. split; [reflexivity|]. split; [discriminate|inversion 1].
  - eexists. split; [reflexivity|]. split; [discriminate|inversion 1].
  - cbn [pairs_ok forallb]. rewrite !andb_true_r. cbn [Nat.eqb]. destruct (pair_ok g c a b) eqn:E.
    + apply pair_ok_spec in E. eexists. split; [reflexivity|]. split; [intros _; constructor; exact E|reflexivity].
    + eexists. split; [reflexivity|]. split; [discriminate|]. inversion 1; subst. rewrite (proj2 (pair_ok_spec g c a b)) in E by assumption. discriminate.
  - cbn [pairs_ok forallb]. rewrite !andb_true_r. cbn [Nat.eqb].
    destruct (pair_ok g c a b && pair_ok g c a d && pair_ok g c b d) eqn:E.
    + apply andb_true_iff in E as (E & E3). apply andb_true_iff in E as (E1 & E2). apply pair_ok_spec in E1, E2, E3.
      assert (N : NoDup (map hplane [a; b; d])) by (apply N0; repeat first [assumption|apply FOP_nil|apply Forall_nil|apply FOP_cons|apply Forall_cons]).
      cbn [idx nth_error obind]. unfold idx. cbn [nth_error obind].
      destruct (s_of_three g a b d W N L) as (r & R & P). cbn [foreach].
      assert (T : htpc a = htpc b /\ htpc d = htpc b /\ hcryo a = hcryo b /\ hcryo d = hcryo b)
        by (unfold agree in *; intuition congruence). destruct T as (T1 & T2 & T3 & T4).
      rewrite T1, T2, T3, T4, !Nat.eqb_refl. cbn [negb orb].
      assert (R' : (do s' <- put_wire g zero3 a; do s'0 <- put_wire g s' b; do s'1 <- put_wire g s'0 d; Ok s'1) = Ok r).
      { destruct (put_wire g zero3 a) as [x| |]; cbn [obind] in *; try discriminate.
        destruct (put_wire g x b) as [y| |]; cbn [obind] in *; try discriminate. rewrite R. reflexivity. }
      rewrite R'. cbn [obind]. eexists. split; [reflexivity|]. rewrite qabs_lt, (pm_within _ _ _ P).
      split; [intros X; constructor; assumption|]. inversion 1; assumption.
    + eexists. split; [reflexivity|]. split; [discriminate|]. inversion 1; subst.
      rewrite !(proj2 (pair_ok_spec g c _ _)) in E by assumption. discriminate.
  - eexists. split; [reflexivity|]. split; [discriminate|inversion 1].
Qed.

Lemma compatible_spec g c hs : clean g hs -> exists b, compatible g c hs = Ok b /\ (b = true <-> fits g c hs).
Proof. intros (W & N & L). apply compatible_gen; auto. Qed.

Lemma separation_three g a b d : clean g [a; b; d] -> htpc a = htpc b -> htpc a = htpc d -> hcryo a = hcryo b -> hcryo a = hcryo d ->
  exists s, separation g [a; b; d] = Ok s /\ pm s (sep3 (wr g a) (wr g b) (wr g d)).
Proof.
  intros (W & N & L) T1 T2 T3 T4. destruct (s_of_three g a b d W N L) as (r & R & P). exists (s_of r). split; [|exact P].
  unfold separation. cbn [length Nat.ltb Nat.leb sep_loop existsb].
  cbn [map] in N. apply NoDup_cons_iff in N as (N1 & N2). apply NoDup_cons_iff in N2 as (N2 & _). cbn [In] in N1, N2.
  destruct (put_wire g zero3 a) as [x| |]; cbn [obind] in *; try discriminate. cbn [app existsb].
  rewrite T1, T3, !Nat.eqb_refl. cbn [negb orb].
  destruct (Nat.eqb_spec (hplane a) (hplane b)) as [X|_]; [exfalso; apply N1; left; congruence|]. cbn [orb].
  destruct (put_wire g x b) as [y| |]; cbn [obind] in *; try discriminate. cbn [app existsb].
  replace (htpc d) with (htpc b) by congruence. replace (hcryo d) with (hcryo b) by congruence. rewrite ?T1, ?T3, !Nat.eqb_refl. cbn [negb orb].
  destruct (Nat.eqb_spec (hplane a) (hplane d)) as [X|_]; [exfalso; apply N1; right; left; congruence|].
  destruct (Nat.eqb_spec (hplane b) (hplane d)) as [X|_]; [exfalso; apply N2; left; congruence|]. cbn [orb].
  rewrite R. reflexivity.
Qed.

Lemma agree_sym g c a b : agree g c a b -> agree g c b a.
Proof. intros (A & B & C & D1 & D2). repeat split; auto; qclra. Qed.
Lemma fits_perm g c hs hs' : Permutation hs hs' -> fits g c hs -> fits g c hs'.
Proof.
  assert (S1 : forall a b d, within (maxs c) (sep3 a b d) -> within (maxs c) (sep3 b a d)).
  { intros a b d. apply pm_within. right. unfold sep3. ring. }
  assert (S2 : forall a b d, within (maxs c) (sep3 a b d) -> within (maxs c) (sep3 a d b)).
  { intros a b d. apply pm_within. right. unfold sep3. ring. }
  induction 1 as [|x l l' P IH|x y l|l l' l'' P1 IH1 P2 IH2]; auto.
  - (* x :: l *)
    intros F. inversion F; subst.
    + apply Permutation_length_1_inv in P. subst. constructor; assumption.
    + apply Permutation_length_2_inv in P. destruct P as [-> | ->]; [constructor; assumption|].
      apply fits3; auto using agree_sym.
  - intros F. inversion F; subst; [apply fits2; auto using agree_sym|apply fits3; auto using agree_sym].
Qed.
