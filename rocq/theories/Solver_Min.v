(** SolvePair / Iterate: minimisation, conservation, consistency. *)
From Coq Require Import QArith Qcanon Lqa.
From Verif Require Import Base Util QcUtil Solver_Model Solver_Spec Solver_Proofs Solver_Charge.
Local Open Scope Qc_scope.

Lemma two_pos : 0 < two. Proof. reflexivity. Qed.

Lemma vertex_spec e x : vertex e = Fin x -> q_a e <> 0 /\ two * q_a e * x = - q_b e.
Proof.
  unfold vertex. destruct (qc_eqb (q_a e) 0) eqn:E.
  - destruct (qc_lt (q_b e) 0); [discriminate|]. destruct (qc_lt 0 (q_b e)); discriminate.
  - intros H. inversion H; subst. assert (N : q_a e <> 0) by (intros Z; rewrite Z, qc_eqb_refl in E; discriminate).
    split; [exact N|]. assert (N2 : two * q_a e <> 0) by (apply Qcmult_nz; [discriminate|exact N]).
    field. split; [exact N|]. discriminate.
Qed.
Lemma vertex_nonfin e : (forall x, vertex e <> Fin x) -> q_a e = 0.
Proof.
  unfold vertex. destruct (qc_eqb (q_a e) 0) eqn:E; [intros _; apply qc_eqb_spec, E|]. intros H. exfalso. eapply H. reflexivity.
Qed.

Ltac qb :=
  repeat match goal with
  | H : qc_lt _ _ = true |- _ => apply qc_lt_spec in H
  | H : qc_lt _ _ = false |- _ => apply qc_lt_false in H
  end.

Ltac clamp_tac :=
  eexists; split; [reflexivity|]; split; [qclra|]; split; [qclra|]; split;
  [intros y' Hy; first [discriminate Hy | inversion Hy; subst; split; [intros; qclra|split; intros; qclra]]
  |split; intros Hy; first [discriminate Hy | clear Hy; qclra]].

(** the clamped vertex is finite and in range *)
Lemma clamp_fin xmin xmax v : xmin <= xmax -> exists x, ext_max (Fin xmin) (ext_min (Fin xmax) v) = Fin x /\ xmin <= x /\ x <= xmax /\
  (forall y, v = Fin y -> (y < xmin -> x = xmin) /\ (xmin <= y -> y <= xmax -> x = y) /\ (xmax < y -> x = xmax)) /\
  (v = PInf -> x = xmax) /\ (v = MInf -> x = xmin).
Proof.
  intros Hle. unfold ext_min, ext_max.
  destruct v as [y| | |]; cbn [ext_lt].
  - destruct (qc_lt y xmax) eqn:E1; cbn [ext_lt].
    + destruct (qc_lt xmin y) eqn:E2; qb; clamp_tac.
    + destruct (qc_lt xmin xmax) eqn:E2; qb; clamp_tac.
  - destruct (qc_lt xmin xmax) eqn:E2; qb; clamp_tac.
  - clamp_tac.
  - destruct (qc_lt xmin xmax) eqn:E2; qb; clamp_tac.
Qed.

Lemma qc_min_le1 a b : qc_min a b <= a. Proof. unfold qc_min. destruct (qc_lt b a) eqn:E; qb; qclra. Qed.
Lemma qc_min_le2 a b : qc_min a b <= b. Proof. unfold qc_min. destruct (qc_lt b a) eqn:E; qb; qclra. Qed.

(** the quadratic on an interval: for a non-convex one an end is minimal, for a convex one the clamped vertex *)
Lemma quad_interval_nonconvex e lo hi y : q_a e <= 0 -> lo <= y -> y <= hi ->
  qeval e lo <= qeval e y \/ qeval e hi <= qeval e y.
Proof.
  intros Ha H1 H2. destruct (Qclt_le_dec (qeval e y) (qeval e lo)) as [L1|]; [|left; assumption].
  destruct (Qclt_le_dec (qeval e y) (qeval e hi)) as [L2|]; [|right; assumption]. exfalso.
  unfold qeval in *. set (a := q_a e) in *. set (b := q_b e) in *. set (c := q_c e) in *. clearbody a b c.
  assert (A : 0 < (y - lo) * (- (a * (y + lo) + b))).
  { replace ((y - lo) * (- (a * (y + lo) + b))) with ((a * lo * lo + b * lo + c) - (a * y * y + b * y + c)) by ring. qclra. }
  assert (B : 0 < (hi - y) * (a * (hi + y) + b)).
  { replace ((hi - y) * (a * (hi + y) + b)) with ((a * hi * hi + b * hi + c) - (a * y * y + b * y + c)) by ring. qclra. }
  assert (C1 : lo < y).
  { destruct (Qcle_lt_or_eq _ _ H1) as [|E]; [assumption|]. subst. exfalso. replace ((y - y) * (- (a * (y + y) + b))) with (0:Qc) in A by ring. qclra. }
  assert (C2 : y < hi).
  { destruct (Qcle_lt_or_eq _ _ H2) as [|E]; [assumption|]. subst. exfalso. replace ((hi - hi) * (a * (hi + hi) + b)) with (0:Qc) in B by ring. qclra. }
  clear L1 L2 H1 H2 c. qc2q.
  assert (D1 : (this a * (this y + this lo) + this b < 0)%Q) by nra.
  assert (D2 : (0 < this a * (this hi + this y) + this b)%Q) by nra.
  nra.
Qed.

Lemma convex_vertex_min e v y : 0 < q_a e -> two * q_a e * v = - q_b e -> qeval e v <= qeval e y.
Proof.
  intros Ha Hv.
  assert (E : qeval e y - qeval e v = q_a e * (y - v) * (y - v)).
  { unfold qeval. replace (q_b e) with (- (two * q_a e * v)) by (rewrite Hv; ring). unfold two. ring. }
  assert (0 <= q_a e * (y - v) * (y - v)).
  { set (d := y - v). clearbody d. set (a := q_a e) in *. clearbody a. clear - Ha. qc2q. nra. }
  rewrite <- E in H. qclra.
Qed.
Lemma convex_clamp_low e v lo y : 0 < q_a e -> two * q_a e * v = - q_b e -> v <= lo -> lo <= y -> qeval e lo <= qeval e y.
Proof.
  intros Ha Hv H1 H2.
  assert (E : qeval e y - qeval e lo = q_a e * (y - lo) * (y + lo - two * v)).
  { unfold qeval. replace (q_b e) with (- (two * q_a e * v)) by (rewrite Hv; ring). unfold two. ring. }
  assert (P : 0 <= q_a e * (y - lo) * (y + lo - two * v)).
  { set (a := q_a e) in *. clearbody a. clear - Ha H1 H2. unfold two. qc2q.
    assert (0 <= this a * (this y - this lo))%Q by nra. assert (0 <= this y + this lo - (1 + 1) * this v)%Q by lra. nra. }
  rewrite <- E in P. qclra.
Qed.
Lemma convex_clamp_high e v hi y : 0 < q_a e -> two * q_a e * v = - q_b e -> hi <= v -> y <= hi -> qeval e hi <= qeval e y.
Proof.
  intros Ha Hv H1 H2.
  assert (E : qeval e y - qeval e hi = q_a e * (hi - y) * (two * v - hi - y)).
  { unfold qeval. replace (q_b e) with (- (two * q_a e * v)) by (rewrite Hv; ring). unfold two. ring. }
  assert (P : 0 <= q_a e * (hi - y) * (two * v - hi - y)).
  { set (a := q_a e) in *. clearbody a. clear - Ha H1 H2. unfold two. qc2q.
    assert (0 <= this a * (this hi - this y))%Q by nra. assert (0 <= (1 + 1) * this v - this hi - this y)%Q by lra. nra. }
  rewrite <- E in P. qclra.
Qed.

(** SolvePair returns the constrained minimiser and never aborts *)
Lemma solve_pair_ok N alpha i j m : 0 <= m_pred m i -> 0 <= m_pred m j ->
  exists chisq x, metric_pair N alpha i j m = Ok chisq /\ solve_pair N alpha i j m = Ok x /\
    - m_pred m i <= x /\ x <= m_pred m j /\
    forall y, - m_pred m i <= y -> y <= m_pred m j -> qeval chisq x <= qeval chisq y.
Proof.
  intros Hi Hj. destruct (metric_pair_ok N alpha i j m) as (e & Ee & _). unfold solve_pair. rewrite Ee. cbn [obind].
  set (lo := - m_pred m i). set (hi := m_pred m j).
  assert (Hlo : lo <= 0) by (unfold lo; qclra). assert (Hhi : 0 <= hi) by exact Hj.
  assert (Hle : lo <= hi) by qclra. clearbody lo hi.
  destruct (clamp_fin lo hi (vertex e) Hle) as (x & Ex & Hx1 & Hx2 & Hv & _ & _). rewrite Ex. clear Ex.
  (* the minimum over the interval is one of three values *)
  assert (Hmin : forall y, lo <= y -> y <= hi -> qeval e lo <= qeval e y \/ qeval e hi <= qeval e y \/ qeval e x <= qeval e y).
  { intros y Hy1 Hy2. destruct (Qclt_le_dec 0 (q_a e)) as [Ha|Ha].
    - right. right. destruct (vertex e) as [v| | |] eqn:Ev;
        try (assert (Z : q_a e = 0) by (apply vertex_nonfin; intros z; rewrite Ev; discriminate); exfalso; rewrite Z in Ha; qclra).
      destruct (vertex_spec _ _ Ev) as [_ Hv']. destruct (Hv v eq_refl) as (V1 & V2 & V3).
      destruct (Qclt_le_dec v lo) as [L|L].
      + rewrite (V1 L). apply (convex_clamp_low e v); auto. apply Qclt_le_weak, L.
      + destruct (Qclt_le_dec hi v) as [R|R].
        * rewrite (V3 R). apply (convex_clamp_high e v); auto. apply Qclt_le_weak, R.
        * rewrite (V2 L R). apply convex_vertex_min; assumption.
    - destruct (quad_interval_nonconvex e lo hi y Ha Hy1 Hy2); auto. }
  assert (Hnoabort : qc_lt (qeval e 0 + 1) (qc_min (qc_min (qeval e hi) (qeval e lo)) (qeval e x)) = false).
  { apply qc_lt_false. specialize (Hmin 0 Hlo Hhi).
    assert (A := qc_min_le1 (qc_min (qeval e hi) (qeval e lo)) (qeval e x)). assert (B := qc_min_le2 (qc_min (qeval e hi) (qeval e lo)) (qeval e x)).
    assert (C := qc_min_le1 (qeval e hi) (qeval e lo)). assert (D := qc_min_le2 (qeval e hi) (qeval e lo)).
    set (u := qc_min (qc_min _ _) _) in *. set (v := qc_min _ _) in *. clearbody u v.
    destruct Hmin as [H|[H|H]]; qclra. }
  rewrite Hnoabort. clear Hnoabort.
  exists e. destruct (qc_lt (qc_min (qeval e lo) (qeval e hi)) (qeval e x)) eqn:E1; qb.
  - exists (if qc_lt (qeval e lo) (qeval e hi) then lo else hi). split; [reflexivity|]. split; [reflexivity|].
    unfold qc_min in E1.
    destruct (qc_lt (qeval e lo) (qeval e hi)) eqn:E2; destruct (qc_lt (qeval e hi) (qeval e lo)) eqn:E3; qb; repeat split; auto; try apply Qcle_refl;
      intros y Hy1 Hy2; destruct (Hmin y Hy1 Hy2) as [H|[H|H]]; qclra.
  - exists x. split; [reflexivity|]. split; [reflexivity|]. split; [exact Hx1|]. split; [exact Hx2|].
    assert (A := qc_min_le1 (qeval e lo) (qeval e hi)). assert (B := qc_min_le2 (qeval e lo) (qeval e hi)).
    set (u := qc_min _ _) in *. clearbody u.
    intros y Hy1 Hy2; destruct (Hmin y Hy1 Hy2) as [H|[H|H]]; qclra.
Qed.

(** Iterate(sc): with both wires and alpha < 2 *)
Lemma orphan_coeff N alpha s m e w1 w2 : n_w1 N s = Some w1 -> n_w2 N s = Some w2 -> metric_one N alpha s m = Ok e -> q_a e = two - alpha.
Proof.
  intros H1 H2 E. destruct (metric_one_ok N alpha s m w1 w2 H1 H2) as (r & Er & Hr). rewrite E in Er. inversion Er; subst r.
  (* second difference *)
  assert (D : qeval e 1 + qeval e (- (1)) - two * qeval e 0 = two * q_a e) by (unfold qeval, two; ring).
  rewrite !Hr in D.
  assert (D2 : two * q_a e = two * (two - alpha)) by (rewrite <- D; unfold one_val, sqr, two; ring).
  assert (Hc : forall a b, two * a = two * b -> a = b).
  { intros a b Hab. unfold two in Hab. qc2q. lra. }
  apply Hc, D2.
Qed.

Lemma iterate_orphan_ok N alpha s m : 0 <= m_pred m s -> alpha < two -> n_w1 N s <> None -> n_w2 N s <> None ->
  exists chisq x, metric_one N alpha s m = Ok chisq /\ iterate_orphan N alpha s m = Ok (add_charge N s x m) /\
    - m_pred m s <= x /\ forall y, - m_pred m s <= y -> qeval chisq x <= qeval chisq y.
Proof.
  intros Hs Ha H1 H2. destruct (n_w1 N s) as [w1|] eqn:E1; [|congruence]. destruct (n_w2 N s) as [w2|] eqn:E2; [|congruence]. clear H1 H2.
  destruct (metric_one_ok N alpha s m w1 w2 E1 E2) as (e & Ee & _). assert (Hq := orphan_coeff _ _ _ _ _ _ _ E1 E2 Ee).
  assert (Hpos : 0 < q_a e) by (rewrite Hq; qclra). clear Hq Ha.
  unfold iterate_orphan. rewrite Ee. cbn [obind].
  destruct (vertex e) as [v| | |] eqn:Ev;
    try (assert (Z : q_a e = 0) by (apply vertex_nonfin; intros z; rewrite Ev; discriminate); exfalso; rewrite Z in Hpos; qclra).
  destruct (vertex_spec _ _ Ev) as [_ Hv]. set (lo := - m_pred m s). assert (Hlo : lo <= 0) by (unfold lo; qclra). clearbody lo.
  unfold ext_max. cbn [ext_lt]. destruct (qc_lt lo v) eqn:El; qb.
  - exists e, v. split; [reflexivity|]. assert (M := convex_vertex_min e v lo Hpos Hv).
    destruct (qc_lt (qeval e lo) (qeval e v)) eqn:E3; qb; [exfalso; qclra|]. split; [reflexivity|].
    split; [apply Qclt_le_weak, El|]. intros y _. apply convex_vertex_min; assumption.
  - exists e, lo. split; [reflexivity|]. split; [destruct (qc_lt _ _); reflexivity|]. split; [apply Qcle_refl|].
    intros y Hy. apply (convex_clamp_low e v); assumption.
Qed.

(* ------------------------------------------------------------------ loops *)
Section Loop.
Variables (N : net) (scs : list nat) (W : WF N scs).

(** state of affairs preserved by every update: predictions consistent, charges non-negative *)
Definition Good (m : mem) : Prop := Consistent N scs m /\ (forall s, In s scs -> 0 <= m_pred m s).

Lemma pair_step_ok alpha i j m : In i scs -> In j scs -> i <> j -> Good m ->
  exists m', pair_step N alpha m i j = Ok m' /\ Good m' /\
    metric_scs N alpha scs m' <= metric_scs N alpha scs m /\
    (exists x, forall s, m_pred m' s = moved (m_pred m) i j x s).
Proof.
  intros Hi Hj Hij [C P]. destruct (solve_pair_ok N alpha i j m (P i Hi) (P j Hj)) as (e & x & Ee & Ex & X1 & X2 & Hmin).
  unfold pair_step. rewrite Ex. cbn [obind].
  destruct (qc_eqb x 0) eqn:E0.
  - exists m. split; [reflexivity|]. split; [split; assumption|]. split; [apply Qcle_refl|]. exists 0. intros s. unfold moved.
    destruct (Nat.eqb s i); [ring|]. destruct (Nat.eqb s j); ring.
  - exists (move N i j x m). split; [reflexivity|]. split; [split|split].
    + apply move_consistent; assumption.
    + intros s Hs. rewrite move_pred by assumption. unfold moved.
      destruct (Nat.eqb_spec s i) as [->|]; [qclra|]. destruct (Nat.eqb_spec s j) as [->|]; [qclra|]. apply P, Hs.
    + destruct (metric_pair_ok N alpha i j m) as (e' & Ee' & He'). rewrite Ee in Ee'. inversion Ee'; subst e'. clear Ee'.
      assert (D := pair_val_delta N scs alpha i j x m W Hi Hj Hij C). rewrite <- !He' in D.
      assert (M : qeval e x <= qeval e 0) by (apply Hmin; [specialize (P i Hi)|specialize (P j Hj)]; qclra).
      set (a := metric_scs N alpha scs (move N i j x m)) in *. set (b := metric_scs N alpha scs m) in *. clearbody a b.
      set (u := qeval e x) in *. set (v := qeval e 0) in *. clearbody u v. clear - D M. qclra.
    + exists x. intros s. apply move_pred, Hij.
Qed.

Lemma for_inv {S} (I : S -> Prop) (l : list nat) (body : S -> nat -> outcome S) :
  (forall s k, In k l -> I s -> exists s', body s k = Ok s' /\ I s') ->
  forall s, I s -> exists s', for_ l body s = Ok s' /\ I s'.
Proof.
  induction l as [|k l IH]; intros H s Is; simpl; [eauto|].
  destruct (H s k (or_introl eq_refl) Is) as (s' & E & I'). rewrite E. cbn [obind]. apply IH; auto. intros; apply H; auto. right; auto.
Qed.
Lemma foreach_inv {A S} (I : S -> Prop) (l : list A) (body : S -> A -> outcome S) :
  (forall s k, In k l -> I s -> exists s', body s k = Ok s' /\ I s') ->
  forall s, I s -> exists s', foreach l body s = Ok s' /\ I s'.
Proof.
  induction l as [|k l IH]; intros H s Is; simpl; [eauto|].
  destruct (H s k (or_introl eq_refl) Is) as (s' & E & I'). rewrite E. cbn [obind]. apply IH; auto. intros; apply H; auto. right; auto.
Qed.

Lemma qsum_moved l pred i j x : NoDup l -> In i l -> In j l -> i <> j -> qsum (moved pred i j x) l = qsum pred l.
Proof.
  intros ND Hi Hj Hij.
  rewrite (qsum_ext _ (fun s => pred s + ((if Nat.eqb s i then x else 0) + (if Nat.eqb s j then - x else 0)))).
  - rewrite qsum_plus, qsum_plus.
    rewrite (qsum_single (fun s => if Nat.eqb s i then x else 0) i l ND Hi), (qsum_single (fun s => if Nat.eqb s j then - x else 0) j l ND Hj).
    + rewrite !Nat.eqb_refl. ring.
    + intros s _ Hne. destruct (Nat.eqb_spec s j); [congruence|reflexivity].
    + intros s _ Hne. destruct (Nat.eqb_spec s i); [congruence|reflexivity].
  - intros s _. unfold moved. destruct (Nat.eqb_spec s i), (Nat.eqb_spec s j); subst; try congruence; ring.
Qed.
Lemma qsum_moved_out l pred i j x : ~ In i l -> ~ In j l -> qsum (moved pred i j x) l = qsum pred l.
Proof.
  intros Hi Hj. apply qsum_ext. intros s Hs. unfold moved.
  destruct (Nat.eqb_spec s i); [subst; contradiction|]. destruct (Nat.eqb_spec s j); [subst; contradiction|reflexivity].
Qed.

(** one collection wire *)
Lemma iterate_cwire_ok alpha w m : NoDup (cw_cross w) -> (forall s, In s (cw_cross w) -> In s scs) -> Good m ->
  exists m', iterate_cwire N alpha w m = Ok m' /\ Good m' /\
    metric_scs N alpha scs m' <= metric_scs N alpha scs m /\
    qsum (m_pred m') (cw_cross w) = qsum (m_pred m) (cw_cross w) /\
    (forall s, ~ In s (cw_cross w) -> m_pred m' s = m_pred m s).
Proof.
  intros ND Hin Hg. unfold iterate_cwire. set (n := length (cw_cross w)).
  set (I := fun m' => Good m' /\ metric_scs N alpha scs m' <= metric_scs N alpha scs m /\
    qsum (m_pred m') (cw_cross w) = qsum (m_pred m) (cw_cross w) /\
    (forall s, ~ In s (cw_cross w) -> m_pred m' s = m_pred m s)).
  apply (for_inv I); [|unfold I; repeat split; try apply Hg; apply Qcle_refl].
  intros m1 a Ha I1. unfold range in Ha. apply in_seq in Ha.
  unfold idx at 1. destruct (nth_error (cw_cross w) a) as [si|] eqn:Ei; [|apply nth_error_None in Ei; unfold n in *; lia].
  cbn [obind]. apply (for_inv I); [|exact I1].
  intros m2 b Hb (G2 & M2 & S2 & O2). unfold range in Hb. apply in_seq in Hb.
  unfold idx. destruct (nth_error (cw_cross w) b) as [sj|] eqn:Ej; [|apply nth_error_None in Ej; unfold n in *; lia].
  cbn [obind]. assert (Hi := nth_error_In _ _ Ei). assert (Hj := nth_error_In _ _ Ej).
  assert (Hij : si <> sj).
  { intros ->. rewrite NoDup_nth_error in ND. assert (a = b); [|lia]. apply ND; [apply nth_error_Some; congruence|congruence]. }
  destruct (pair_step_ok alpha si sj m2 (Hin _ Hi) (Hin _ Hj) Hij G2) as (m3 & E3 & G3 & M3 & x & X3).
  exists m3. split; [exact E3|]. split; [exact G3|]. split; [eapply Qcle_trans; eassumption|]. split.
  - rewrite (qsum_ext (m_pred m3) (moved (m_pred m2) si sj x)) by (intros; apply X3). rewrite qsum_moved by assumption. exact S2.
  - intros s Hs. rewrite X3. unfold moved. destruct (Nat.eqb_spec s si); [subst; contradiction|].
    destruct (Nat.eqb_spec s sj); [subst; contradiction|]. apply O2, Hs.
Qed.

Lemma iterate_orphan_good alpha s m : In s scs -> alpha < two -> n_w1 N s <> None -> n_w2 N s <> None -> Good m ->
  exists m', iterate_orphan N alpha s m = Ok m' /\ Good m' /\
    metric_scs N alpha scs m' <= metric_scs N alpha scs m /\ (forall t, t <> s -> m_pred m' t = m_pred m t).
Proof.
  intros Hs Ha H1 H2 [C P]. destruct (iterate_orphan_ok N alpha s m (P s Hs) Ha H1 H2) as (e & x & Ee & Ei & X1 & Hmin).
  exists (add_charge N s x m). split; [exact Ei|]. split; [split|split].
  - apply add_charge_consistent; assumption.
  - intros t Ht. rewrite pred_after. unfold added. destruct (Nat.eqb_spec t s) as [->|]; [qclra|apply P, Ht].
  - destruct (n_w1 N s) as [w1|] eqn:E1; [|congruence]. destruct (n_w2 N s) as [w2|] eqn:E2; [|congruence].
    destruct (metric_one_ok N alpha s m w1 w2 E1 E2) as (e' & Ee' & He'). rewrite Ee in Ee'. inversion Ee'; subst e'.
    assert (D := one_val_delta N scs alpha s x m w1 w2 W Hs E1 E2 C). rewrite <- !He' in D.
    assert (M : qeval e x <= qeval e 0) by (apply Hmin; specialize (P s Hs); qclra).
    set (a := metric_scs N alpha scs (add_charge N s x m)) in *. set (b := metric_scs N alpha scs m) in *. clearbody a b.
    set (u := qeval e x) in *. set (v := qeval e 0) in *. clearbody u v. clear - D M. qclra.
  - intros t Ht. rewrite pred_after. unfold added. destruct (Nat.eqb_spec t s); [contradiction|reflexivity].
Qed.
End Loop.
