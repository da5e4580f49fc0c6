From Coq Require Import QArith Qcanon.
From Verif Require Import Base Util QcUtil Solver_Model Solver_Spec.
Local Open Scope Qc_scope.

(* ---------------------------------------------------------- booleans *)
Lemma qc_lt_spec x y : qc_lt x y = true <-> x < y.
Proof.
  unfold qc_lt. destruct (Qclt_le_dec x y) as [H|H]; split; intros; auto; try discriminate.
  exfalso. apply (Qcle_not_lt _ _ H). assumption.
Qed.
Lemma qc_lt_false x y : qc_lt x y = false <-> y <= x.
Proof.
  unfold qc_lt. destruct (Qclt_le_dec x y) as [H|H]; split; intros; auto; try discriminate.
  exfalso. apply (Qclt_not_le _ _ H). assumption.
Qed.
Lemma qc_eqb_spec x y : qc_eqb x y = true <-> x = y.
Proof. unfold qc_eqb. destruct (Qc_eq_dec x y); split; intros; auto; try discriminate; contradiction. Qed.
Lemma qc_eqb_refl x : qc_eqb x x = true. Proof. apply qc_eqb_spec; reflexivity. Qed.
Lemma opt_eqb_spec a b : opt_eqb a b = true <-> a = b.
Proof.
  destruct a, b; simpl; split; intros H; try discriminate; try reflexivity.
  - apply Nat.eqb_eq in H. congruence.
  - inversion H. apply Nat.eqb_refl.
Qed.

(* ---------------------------------------------------------- QuadExpr *)
Lemma Qcmult_nz x y : x <> 0 -> y <> 0 -> x * y <> 0.
Proof. intros Hx Hy E. destruct (Qcmult_integral _ _ E); contradiction. Qed.

Lemma qmul_eval e f r x : qmul e f = Ok r -> qeval r x = qeval e x * qeval f x.
Proof.
  unfold qmul. set (c := _ || _). destruct c eqn:Ec; [discriminate|]. unfold c in Ec. clear c. intros H. inversion H; subst. clear H.
  unfold qeval. cbn [q_a q_b q_c].
  apply orb_false_iff in Ec. destruct Ec as [Ec E3]. apply orb_false_iff in Ec. destruct Ec as [E1 E2].
  assert (Z1 : q_b e * q_a f = 0).
  { destruct (qc_eqb (q_b e) 0) eqn:A; [apply qc_eqb_spec in A; rewrite A; ring|].
    destruct (qc_eqb (q_a f) 0) eqn:B; [apply qc_eqb_spec in B; rewrite B; ring|]. rewrite ?A, ?B in E1; discriminate. }
  assert (Z2 : q_a e * q_b f = 0).
  { destruct (qc_eqb (q_a e) 0) eqn:A; [apply qc_eqb_spec in A; rewrite A; ring|].
    destruct (qc_eqb (q_b f) 0) eqn:B; [apply qc_eqb_spec in B; rewrite B; ring|]. rewrite ?A, ?B in E2; discriminate. }
  assert (Z3 : q_a e * q_a f = 0).
  { destruct (qc_eqb (q_a e) 0) eqn:A; [apply qc_eqb_spec in A; rewrite A; ring|].
    destruct (qc_eqb (q_a f) 0) eqn:B; [apply qc_eqb_spec in B; rewrite B; ring|]. rewrite ?A, ?B in E3; discriminate. }
  transitivity ((q_c e * q_a f + q_a e * q_c f + q_b e * q_b f) * x * x + (q_c e * q_b f + q_b e * q_c f) * x + q_c e * q_c f
    + (q_a e * q_a f) * (x * x * x * x) + (q_a e * q_b f + q_b e * q_a f) * (x * x * x)); [|ring].
  rewrite Z1, Z2, Z3. ring.
Qed.

Lemma qmul_abort e f : qmul e f = Throw AbortExn <-> (q_a e * q_a f <> 0 \/ q_a e * q_b f + q_b e * q_a f <> 0).
Proof.
  unfold qmul. set (c := _ || _). destruct c eqn:Ec; unfold c in Ec; clear c.
  - split; [intros _|reflexivity].
    destruct (Qc_eq_dec (q_a e) 0) as [A|A]; [|destruct (Qc_eq_dec (q_a f) 0) as [B|B]].
    + right. unfold qc_eqb in Ec. destruct (Qc_eq_dec (q_a e) 0); [|contradiction]. simpl in Ec.
      rewrite !orb_false_r in Ec. apply andb_prop in Ec. destruct Ec as [E1 E2].
      destruct (Qc_eq_dec (q_b e) 0) as [|N1]; [discriminate|]. destruct (Qc_eq_dec (q_a f) 0) as [|N2]; [discriminate|].
      rewrite A. intros E. apply (Qcmult_nz _ _ N1 N2). rewrite <- E. ring.
    + right. unfold qc_eqb in Ec. destruct (Qc_eq_dec (q_a f) 0); [|contradiction]. simpl in Ec.
      rewrite !andb_false_r in Ec. rewrite orb_false_r in Ec. simpl in Ec. apply andb_prop in Ec. destruct Ec as [E1 E2].
      destruct (Qc_eq_dec (q_a e) 0) as [|N1]; [discriminate|]. destruct (Qc_eq_dec (q_b f) 0) as [|N2]; [discriminate|].
      rewrite B. intros E. apply (Qcmult_nz _ _ N1 N2). rewrite <- E. ring.
    + left. apply Qcmult_nz; assumption.
  - split; [discriminate|]. intros H. exfalso.
    apply orb_false_iff in Ec. destruct Ec as [Ec E3]. apply orb_false_iff in Ec. destruct Ec as [E1 E2]. unfold qc_eqb in *.
    destruct (Qc_eq_dec (q_a e) 0) as [A|A], (Qc_eq_dec (q_b e) 0) as [B|B], (Qc_eq_dec (q_a f) 0) as [C|C], (Qc_eq_dec (q_b f) 0) as [D|D];
      simpl in *; try discriminate;
      try (destruct H as [H|H]; apply H; rewrite ?A, ?B, ?C, ?D; ring).
Qed.

Lemma qadd_eval e f x : qeval (qadd e f) x = qeval e x + qeval f x.
Proof. unfold qeval, qadd; cbn. ring. Qed.
Lemma qsub_eval e f x : qeval (qsub e f) x = qeval e x - qeval f x.
Proof. unfold qeval, qsub; cbn. ring. Qed.
Lemma qconst_eval v x : qeval (qconst v) x = v.
Proof. unfold qeval, qconst; cbn. ring. Qed.
Lemma qX_eval x : qeval qX x = x.
Proof. unfold qeval, qX; cbn. ring. Qed.
Lemma qplus_c_eval v e x : qeval (qplus_c v e) x = v + qeval e x.
Proof. unfold qplus_c. rewrite qadd_eval, qconst_eval. ring. Qed.
Lemma qminus_c_eval v e x : qeval (qminus_c v e) x = v - qeval e x.
Proof. unfold qminus_c. rewrite qsub_eval, qconst_eval. ring. Qed.

(** products that cannot abort *)
Lemma qmul_lin e f : q_a e = 0 -> q_a f = 0 -> exists r, qmul e f = Ok r /\ (forall x, qeval r x = qeval e x * qeval f x).
Proof.
  intros He Hf. destruct (qmul e f) as [r|ex|] eqn:E.
  - exists r. split; [reflexivity|]. intros x. apply (qmul_eval _ _ _ _ E).
  - exfalso. unfold qmul in E. rewrite He, Hf, qc_eqb_refl in E. simpl in E. rewrite !andb_false_r in E. discriminate.
  - unfold qmul in E. destruct (_ || _); discriminate.
Qed.
Lemma qmul_const e v : exists r, qmul e (qconst v) = Ok r /\ (forall x, qeval r x = qeval e x * v) /\ q_a r = q_a e * v.
Proof.
  unfold qmul. cbn [qconst q_a q_b q_c]. rewrite qc_eqb_refl. cbn [negb]. rewrite !andb_false_r. cbn [orb].
  eexists. split; [reflexivity|]. split; [intros x; unfold qeval; cbn; ring|cbn; ring].
Qed.
Lemma qscale_ok v e : exists r, qscale v e = Ok r /\ (forall x, qeval r x = v * qeval e x) /\ q_a r = q_a e * v.
Proof. destruct (qmul_const e v) as (r & E & H & A). exists r. split; [exact E|]. split; [intros x; rewrite H; ring|exact A]. Qed.

Definition linear (e : quad) : Prop := q_a e = 0.
Lemma lin_plus p : linear (qplus_c p qX). Proof. unfold linear, qplus_c, qadd; cbn. ring. Qed.
Lemma lin_minus p : linear (qminus_c p qX). Proof. unfold linear, qminus_c, qsub; cbn. ring. Qed.
Lemma lin_minus' q e : linear e -> linear (qminus_c q e). Proof. unfold linear, qminus_c, qsub; cbn. intros ->. ring. Qed.

Lemma metric_q_ok q p : linear p -> exists r, metric_q q p = Ok r /\ (forall x, qeval r x = (q - qeval p x) * (q - qeval p x)).
Proof.
  intros H. unfold metric_q, qsqr. destruct (qmul_lin (qminus_c q p) (qminus_c q p)) as (r & E & Hr); try (apply lin_minus'; exact H).
  exists r. split; [exact E|]. intros x. rewrite Hr, qminus_c_eval. reflexivity.
Qed.

(* ---------------------------------------------------------- metric_view, metric_pair, metric_one evaluated *)
Definition view_val (N : net) (m : mem) (wi wj : option nat) (x : Qc) : Qc :=
  if opt_eqb wi wj then match wi with Some w => sqr (n_q N w - m_wpred m w) | None => 0 end
  else match wi with Some w => sqr (n_q N w - (m_wpred m w + x)) | None => 0 end
     + match wj with Some w => sqr (n_q N w - (m_wpred m w - x)) | None => 0 end.

Lemma metric_view_ok N m wi wj ret : exists r, metric_view N m wi wj ret = Ok r /\
  forall x, qeval r x = qeval ret x + view_val N m wi wj x.
Proof.
  unfold metric_view, view_val. destruct (opt_eqb wi wj) eqn:E.
  - destruct wi as [w|]; eexists; (split; [reflexivity|]); intros x; rewrite ?qadd_eval, ?qconst_eval; unfold sqr; ring.
  - destruct wi as [w|], wj as [v|].
    + destruct (metric_q_ok (n_q N w) (qplus_c (m_wpred m w) qX) (lin_plus _)) as (r1 & E1 & H1).
      destruct (metric_q_ok (n_q N v) (qminus_c (m_wpred m v) qX) (lin_minus _)) as (r2 & E2 & H2).
      rewrite E1. cbn [obind]. rewrite E2. cbn [obind]. eexists. split; [reflexivity|]. intros x.
      rewrite !qadd_eval, H1, H2, qplus_c_eval, qminus_c_eval, qX_eval. unfold sqr. ring.
    + destruct (metric_q_ok (n_q N w) (qplus_c (m_wpred m w) qX) (lin_plus _)) as (r1 & E1 & H1).
      rewrite E1. cbn [obind]. eexists. split; [reflexivity|]. intros x.
      rewrite !qadd_eval, H1, qplus_c_eval, qX_eval. unfold sqr. ring.
    + destruct (metric_q_ok (n_q N v) (qminus_c (m_wpred m v) qX) (lin_minus _)) as (r2 & E2 & H2).
      cbn [obind]. rewrite E2. cbn [obind]. eexists. split; [reflexivity|]. intros x.
      rewrite !qadd_eval, H2, qminus_c_eval, qX_eval. unfold sqr. ring.
    + discriminate.
Qed.

Definition pair_val (N : net) (alpha : Qc) (i j : nat) (m : mem) (x : Qc) : Qc :=
  let pi := m_pred m i in let pj := m_pred m j in
  - alpha * sqr (pi + x) - alpha * sqr (pj - x) - two * alpha * (pi + x) * m_pot m i - two * alpha * (pj - x) * m_pot m j
  + match find_nei j (n_nei N i) with
    | None => 0
    | Some c => two * alpha * c * ((pi + x) * pj + (pj - x) * pi - (pi + x) * (pj - x))
    end
  + view_val N m (n_w1 N i) (n_w1 N j) x + view_val N m (n_w2 N i) (n_w2 N j) x.

Tactic Notation "qstep" constr(H) "as" ident(r) ident(V) :=
  let E := fresh "E" in destruct H as (r & E & V); rewrite E; cbn [obind]; clear E.

Lemma metric_pair_ok N alpha i j m : exists r, metric_pair N alpha i j m = Ok r /\ forall x, qeval r x = pair_val N alpha i j m x.
Proof.
  unfold metric_pair.
  set (pi := m_pred m i). set (pj := m_pred m j).
  set (ret := if qc_eqb alpha 0 then _ else _).
  assert (Hret : exists r, ret = Ok r /\ forall x, qeval r x =
     - alpha * sqr (pi + x) - alpha * sqr (pj - x) - two * alpha * (pi + x) * m_pot m i - two * alpha * (pj - x) * m_pot m j
     + match find_nei j (n_nei N i) with
       | None => 0
       | Some c => two * alpha * c * ((pi + x) * pj + (pj - x) * pi - (pi + x) * (pj - x))
       end).
  { unfold ret. destruct (qc_eqb alpha 0) eqn:Ea.
    { apply qc_eqb_spec in Ea. subst alpha. eexists. split; [reflexivity|]. intros x. rewrite qconst_eval.
      destruct (find_nei _ _); ring. }
    clear ret.
    set (ei := qplus_c pi qX). set (ej := qminus_c pj qX).
    assert (Li : linear ei) by apply lin_plus. assert (Lj : linear ej) by apply lin_minus.
    assert (Vi : forall x, qeval ei x = pi + x) by (intros x; unfold ei; rewrite qplus_c_eval, qX_eval; ring).
    assert (Vj : forall x, qeval ej x = pj - x) by (intros x; unfold ej; rewrite qminus_c_eval, qX_eval; ring).
    clearbody ei ej. unfold qsqr.
    qstep (qmul_lin ei ei Li Li) as r V. qstep (qscale_ok alpha r) as r0 V0. destruct V0 as [V0 _].
    qstep (qmul_lin ej ej Lj Lj) as r1 V1. qstep (qscale_ok alpha r1) as r2 V2. destruct V2 as [V2 _].
    qstep (qscale_ok (two * alpha) ei) as r3 V3. destruct V3 as [V3 A3].
    qstep (qmul_const r3 (m_pot m i)) as r4 V4. destruct V4 as [V4 _].
    qstep (qscale_ok (two * alpha) ej) as r5 V5. destruct V5 as [V5 A5].
    qstep (qmul_const r5 (m_pot m j)) as r6 V6. destruct V6 as [V6 _].
    destruct (find_nei j (n_nei N i)) as [c|].
    - qstep (qmul_const r3 pj) as r7 V7. destruct V7 as [V7 A7]. qstep (qmul_const r7 c) as r8 V8. destruct V8 as [V8 _].
      qstep (qmul_const r5 pi) as r9 V9. destruct V9 as [V9 A9]. qstep (qmul_const r9 c) as r10 V10. destruct V10 as [V10 _].
      assert (L3 : linear r3) by (unfold linear; rewrite A3, Li; ring).
      qstep (qmul_lin r3 ej L3 Lj) as r11 V11. qstep (qmul_const r11 c) as r12 V12. destruct V12 as [V12 _].
      eexists. split; [reflexivity|]. intros x.
      repeat first [rewrite qadd_eval | rewrite qsub_eval | rewrite qconst_eval].
      rewrite V0, V2, V4, V6, V8, V10, V12, V7, V9, V11, V3, V5, V, V1, Vi, Vj. unfold sqr. ring.
    - eexists. split; [reflexivity|]. intros x.
      repeat first [rewrite qadd_eval | rewrite qsub_eval | rewrite qconst_eval].
      rewrite V0, V2, V4, V6, V3, V5, V, V1, Vi, Vj. unfold sqr. ring. }
  clearbody ret. destruct Hret as (r & -> & Hr). cbn [obind].
  qstep (metric_view_ok N m (n_w1 N i) (n_w1 N j) r) as r0 V.
  destruct (metric_view_ok N m (n_w2 N i) (n_w2 N j) r0) as (r1 & E1 & V1).
  exists r1. split; [exact E1|]. intros x. rewrite V1, V, Hr. unfold pair_val. fold pi. fold pj. ring.
Qed.

Definition one_val (N : net) (alpha : Qc) (s : nat) (m : mem) (w1 w2 : nat) (x : Qc) : Qc :=
  - alpha * sqr (m_pred m s + x) - two * alpha * (m_pred m s + x) * m_pot m s
  + sqr (n_q N w1 - (m_wpred m w1 + x)) + sqr (n_q N w2 - (m_wpred m w2 + x)).

Lemma metric_one_ok N alpha s m w1 w2 : n_w1 N s = Some w1 -> n_w2 N s = Some w2 ->
  exists r, metric_one N alpha s m = Ok r /\ forall x, qeval r x = one_val N alpha s m w1 w2 x.
Proof.
  intros H1 H2. unfold metric_one. rewrite H1, H2.
  set (ret := if qc_eqb alpha 0 then _ else _).
  assert (Hret : exists r, ret = Ok r /\ forall x, qeval r x =
     - alpha * sqr (m_pred m s + x) - two * alpha * (m_pred m s + x) * m_pot m s).
  { unfold ret. destruct (qc_eqb alpha 0) eqn:Ea.
    { apply qc_eqb_spec in Ea. subst alpha. eexists. split; [reflexivity|]. intros x. rewrite qconst_eval. ring. }
    clear ret. set (ei := qplus_c (m_pred m s) qX).
    assert (Li : linear ei) by apply lin_plus.
    assert (Vi : forall x, qeval ei x = m_pred m s + x) by (intros x; unfold ei; rewrite qplus_c_eval, qX_eval; ring).
    clearbody ei. unfold qsqr. qstep (qmul_lin ei ei Li Li) as r V. qstep (qscale_ok alpha r) as r0 V0. destruct V0 as [V0 _].
    qstep (qscale_ok (two * alpha) ei) as r1 V1. destruct V1 as [V1 A1]. qstep (qmul_const r1 (m_pot m s)) as r2 V2. destruct V2 as [V2 _].
    eexists. split; [reflexivity|]. intros x. rewrite !qsub_eval, qconst_eval, V0, V2, V1, V, Vi. unfold sqr. ring. }
  clearbody ret. destruct Hret as (r & -> & Hr). cbn [obind].
  qstep (metric_q_ok (n_q N w1) (qplus_c (m_wpred m w1) qX) (lin_plus _)) as r0 V.
  qstep (metric_q_ok (n_q N w2) (qplus_c (m_wpred m w2) qX) (lin_plus _)) as r1 V0.
  eexists. split; [reflexivity|]. intros x. rewrite !qadd_eval, V, V0, Hr, !qplus_c_eval, qX_eval. unfold one_val, sqr. ring.
Qed.
