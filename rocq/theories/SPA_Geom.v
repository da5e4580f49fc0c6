(** the wires tried in the second and third plane *)
From Coq Require Import QArith Qcanon Qround Lqa.
From Verif Require Import Base QcUtil Solver_Model Solver_Proofs SPS_Model SPS_Nei SPA_Model SPA_Spec SPA_Compat SPA_Fit.
Import SPA_Model.
Local Open Scope nat_scope.

Lemma ZQ x y : (x <= y)%Z <-> (inject_Z x <= inject_Z y)%Q. Proof. rewrite Zle_Qle. reflexivity. Qed.
Lemma qzn n : qz (Z.of_nat n) = nat_q n. Proof. reflexivity. Qed.
Lemma nat_q_nonneg n : (0 <= nat_q n)%Qc.
Proof. unfold nat_q. unfold Qcle. rewrite !this_Q2Qc. apply (proj1 (ZQ 0 _)). lia. Qed.
Lemma qz_le a b : (a <= b)%Z <-> (qz a <= qz b)%Qc.
Proof. unfold qz, Qcle. rewrite !this_Q2Qc. apply ZQ. Qed.
Lemma qz_plus1 a : qz (a + 1) = (qz a + 1)%Qc.
Proof. unfold qz. apply Qc_is_canon. rewrite this_plus, !this_Q2Qc. rewrite inject_Z_plus. reflexivity. Qed.

(** whole part against whole numbers *)
Lemma trunc_le q z : (0 <= q)%Qc -> ((trunc q <= z)%Z <-> (q < qz z + 1)%Qc).
Proof.
  intros N. destruct (trunc_nonneg q N) as (A & B). split; intros H.
  - apply qz_le in H. revert A B H. generalize (qz (trunc q)) (qz z). intros. qclra.
  - destruct (Z_le_gt_dec (trunc q) z) as [L|L]; [exact L|]. exfalso. assert (H2 : (z + 1 <= trunc q)%Z) by lia. apply qz_le in H2. rewrite qz_plus1 in H2.
    revert A B H H2. generalize (qz (trunc q)) (qz z). intros. qclra.
Qed.
Lemma trunc_ge q z : (0 <= q)%Qc -> ((z <= trunc q)%Z <-> (qz z <= q)%Qc).
Proof.
  intros N. destruct (trunc_nonneg q N) as (A & B). split; intros H.
  - apply qz_le in H. revert A B H. generalize (qz (trunc q)) (qz z). intros. qclra.
  - destruct (Z_le_gt_dec z (trunc q)) as [L|L]; [exact L|]. exfalso. assert (H2 : (trunc q + 1 <= z)%Z) by lia. apply qz_le in H2. rewrite qz_plus1 in H2.
    revert A B H H2. generalize (qz (trunc q)) (qz z). intros. qclra.
Qed.
Lemma ceil_le (q : Qc) z : (Qceiling q <= z)%Z <-> (q <= qz z)%Qc.
Proof.
  unfold Qcle, qz. rewrite this_Q2Qc. pose proof (Qle_ceiling q) as A. pose proof (Qceiling_lt q) as B. split; intros H.
  - apply ZQ in H. lra.
  - destruct (Z_le_gt_dec (Qceiling q) z) as [L|L]; [exact L|]. exfalso. assert (H2 : (z <= Qceiling q - 1)%Z) by lia. apply ZQ in H2. lra.
Qed.
Lemma floor_ge (q : Qc) z : (z <= Qfloor q)%Z <-> (qz z <= q)%Qc.
Proof.
  unfold Qcle, qz. rewrite this_Q2Qc. pose proof (Qfloor_le q) as A. pose proof (Qlt_floor q) as B. split; intros H.
  - apply ZQ in H. lra.
  - destruct (Z_le_gt_dec z (Qfloor q)) as [L|L]; [exact L|]. exfalso. assert (H2 : (Qfloor q + 1 <= z)%Z) by lia. apply ZQ in H2. lra.
Qed.
Lemma ceil_floor (x y : Qc) : (x <= y)%Qc -> (Qceiling x <= Qfloor y + 1)%Z.
Proof.
  intros L. apply ceil_le. rewrite qz_plus1. unfold Qcle in *. rewrite this_plus. unfold qz. rewrite this_Q2Qc. pose proof (Qlt_floor y) as B. rewrite inject_Z_plus in B.
  change (this 1%Qc) with 1%Q. change (inject_Z 1) with 1%Q in B. lra.
Qed.

Lemma qmx_nonneg x : (0 <= qmx 0 x)%Qc.
Proof. unfold qmx. destruct (qc_lt 0 x) eqn:E; [apply qc_lt_spec in E; qclra|qclra]. Qed.

(** the wires of the second plane *)
Section reach.
Context (g : geo).
Hypothesis R : regular g.
Lemma hl_ne c t p w : hl (g_wire g c t p w) <> 0%Qc.
Proof. apply pos_ne. apply (r_straight g R). Qed.
Definition in_win (r : Z * Z) (h : hit) : bool := (fst r <=? Z.of_nat (hwire h))%Z && (Z.of_nat (hwire h) <=? snd r)%Z.
Lemma in_win_pair a b h : in_win (a, b) h = ((a <=? Z.of_nat (hwire h))%Z && (Z.of_nat (hwire h) <=? b)%Z). Proof. reflexivity. Qed.
Lemma reach_ok w1 c t p2 : exists r, reach w1 (g_wire g c t p2 0) (g_pitch g c t p2) = Ok r /\ (fst r <= snd r + 1)%Z /\
  forall a b, wr g a = w1 -> hcryo b = c -> htpc b = t -> hplane b = p2 -> (in_win r b = true <-> reaches g a b).
Proof.
  unfold reach. destruct (qc_eqb _ 0) eqn:E1; [apply qc_eqb_spec in E1; exfalso; exact (pos_ne _ (r_pitch g R _ _ _) E1)|].
  destruct (qc_eqb (hl _) 0) eqn:E2; [apply qc_eqb_spec in E2; exfalso; exact (hl_ne _ _ _ _ E2)|]. cbn [orb].
  eexists. split; [reflexivity|].
  set (w0 := g_wire g c t p2 0). set (x1 := ((- ys w1 * cos0 w0 + zs w1 * sin0 w0 - dist0 w0) / g_pitch g c t p2)%Qc).
  set (x2 := ((- ye w1 * cos0 w0 + ze w1 * sin0 w0 - dist0 w0) / g_pitch g c t p2)%Qc). cbn [fst snd].
  assert (Mi : forall z, (trunc (qmx 0 (qmin x1 x2)) <= Z.of_nat z)%Z <-> (x1 < nat_q z + 1 \/ x2 < nat_q z + 1)%Qc).
  { intros z. rewrite trunc_le by apply qmx_nonneg. rewrite qzn. pose proof (nat_q_nonneg z) as Nz. clearbody x1 x2. revert Nz. generalize (nat_q z). clear. intros n Nz.
    unfold qmx, qmin. destruct (qc_lt x2 x1) eqn:A; [apply qc_lt_spec in A|apply qc_lt_false in A];
    [destruct (qc_lt 0 x2) eqn:B|destruct (qc_lt 0 x1) eqn:B]; try apply qc_lt_spec in B; try apply qc_lt_false in B;
    (split; [intros H|intros [H|H]]); first [qclra | (left; qclra) | (right; qclra)]. }
  assert (Ma : forall z, (Z.of_nat z <= trunc (qmx 0 (qmx x1 x2 + 1)%Qc))%Z <-> (z = 0%nat \/ (nat_q z <= x1 + 1 \/ nat_q z <= x2 + 1)%Qc)).
  { intros z. rewrite trunc_ge by apply qmx_nonneg. rewrite qzn.
    assert (Z0 : z = 0%nat <-> (nat_q z <= 0)%Qc).
    { split; [intros ->; apply Qcle_refl|]. intros H. unfold nat_q, Qcle in H. rewrite !this_Q2Qc in H. apply (proj2 (ZQ _ 0)) in H. lia. }
    rewrite Z0. clearbody x1 x2. generalize (nat_q z). clear. intros n.
    unfold qmx. destruct (qc_lt x1 x2) eqn:A; [apply qc_lt_spec in A|apply qc_lt_false in A];
    [destruct (qc_lt 0 (x2 + 1)) eqn:B|destruct (qc_lt 0 (x1 + 1)) eqn:B]; try apply qc_lt_spec in B; try apply qc_lt_false in B;
    (split; [intros H|intros [H|[H|H]]]); first [qclra | (left; qclra) | (right; left; qclra) | (right; right; qclra)]. }
  split.
  - assert (T : (qmx 0 (qmin x1 x2) <= qmx 0 (qmx x1 x2 + 1))%Qc).
    { clearbody x1 x2. clear. unfold qmx, qmin. destruct (qc_lt x2 x1) eqn:A, (qc_lt x1 x2) eqn:B; try apply qc_lt_spec in A; try apply qc_lt_false in A; try apply qc_lt_spec in B; try apply qc_lt_false in B;
      [exfalso; qclra| | |]; match goal with |- ((if qc_lt 0 ?u then _ else _) <= (if qc_lt 0 ?v then _ else _))%Qc => destruct (qc_lt 0 u) eqn:E, (qc_lt 0 v) eqn:F end;
      try apply qc_lt_spec in E; try apply qc_lt_false in E; try apply qc_lt_spec in F; try apply qc_lt_false in F; qclra. }
    assert (T2 : (trunc (qmx 0 (qmin x1 x2)) <= trunc (qmx 0 (qmx x1 x2 + 1)%Qc))%Z).
    { apply trunc_ge; [apply qmx_nonneg|]. destruct (trunc_nonneg _ (qmx_nonneg (qmin x1 x2))) as (A & _). eapply Qcle_trans; [exact A|exact T]. }
    lia.
  - intros a b Wa B1 B2 B3. unfold in_win. cbn [fst snd]. rewrite andb_true_iff, !Z.leb_le, Mi, Ma. unfold reaches. rewrite Wa. unfold number. rewrite B1, B2, B3. fold w0.
    replace ((coord w0 (ys w1) (zs w1) - off w0) / g_pitch g c t p2)%Qc with x1;
      [|unfold x1, coord, sin0, cos0; rewrite dist0_off; change (coord w0) with (coord w0); unfold sn, cs, Qcdiv; ring].
    replace ((coord w0 (ye w1) (ze w1) - off w0) / g_pitch g c t p2)%Qc with x2;
      [|unfold x2, coord, sin0, cos0; rewrite dist0_off; change (coord w0) with (coord w0); unfold sn, cs, Qcdiv; ring].
    cbv zeta. tauto.
Qed.

Lemma u_off h : (qc_nat (hwire h) * g_pitch g (hcryo h) (htpc h) (hplane h) + dist0 (g_wire g (hcryo h) (htpc h) (hplane h) 0))%Qc = off (wr g h).
Proof. unfold wr. rewrite (r_spaced g R). rewrite dist0_off. change (qc_nat (hwire h)) with (nat_q (hwire h)). ring. Qed.

(** the third hit is in the window when the three wires are close enough *)
Lemma third_in c cr t p1 p2 p3 h1 h2 h3 : at_plane cr t p1 h1 -> at_plane cr t p2 h2 -> at_plane cr t p3 h3 -> p1 <> p2 ->
  within (maxs c) (sep3 (wr g h1) (wr g h2) (wr g h3)) ->
  let w1 := g_wire g cr t p1 0 in let w2 := g_wire g cr t p2 0 in let w3 := g_wire g cr t p3 0 in
  let s12 := (sin0 w1 * cos0 w2 - sin0 w2 * cos0 w1)%Qc in
  let s23 := (sin0 w2 * cos0 w3 - sin0 w3 * cos0 w2)%Qc in
  let s31 := (sin0 w3 * cos0 w1 - sin0 w1 * cos0 w3)%Qc in
  let u1 := (qc_nat (hwire h1) * g_pitch g cr t p1 + dist0 w1)%Qc in
  let u2 := (qc_nat (hwire h2) * g_pitch g cr t p2 + dist0 w2)%Qc in
  let u3 := (qc_nat (hwire h3) * g_pitch g cr t p3 + dist0 w3)%Qc in
  let pred := (((- u1 * s23 - u2 * s31) / s12 - dist0 w3) / g_pitch g cr t p3)%Qc in
  let delta := qabs (maxs c / (s12 * g_pitch g cr t p3))%Qc in
  upto (maxs c) (s23 * u1 + s31 * u2 + s12 * u3)%Qc /\
  in_win (Z.max 0 (Qceiling (pred - delta)%Qc), Z.max 0 (Qfloor (pred + delta)%Qc)) h3 = true.
Proof.
  intros (A1 & A2 & A3) (B1 & B2 & B3) (C1 & C2 & C3) D W. cbv zeta.
  set (w1 := g_wire g cr t p1 0) in *. set (w2 := g_wire g cr t p2 0) in *. set (w3 := g_wire g cr t p3 0) in *.
  set (s12 := (sin0 w1 * cos0 w2 - sin0 w2 * cos0 w1)%Qc). set (s23 := (sin0 w2 * cos0 w3 - sin0 w3 * cos0 w2)%Qc). set (s31 := (sin0 w3 * cos0 w1 - sin0 w1 * cos0 w3)%Qc).
  set (u1 := (qc_nat (hwire h1) * g_pitch g cr t p1 + dist0 w1)%Qc). set (u2 := (qc_nat (hwire h2) * g_pitch g cr t p2 + dist0 w2)%Qc).
  set (P3 := g_pitch g cr t p3). set (n3 := qc_nat (hwire h3)). set (d3 := dist0 w3).
  assert (E : sep3 (wr g h1) (wr g h2) (wr g h3) = (s23 * u1 + s31 * u2 + s12 * (n3 * P3 + d3))%Qc).
  { assert (E1 : off (wr g h1) = u1) by (rewrite <- u_off; unfold u1, w1; rewrite A1, A2, A3; reflexivity).
    assert (E2 : off (wr g h2) = u2) by (rewrite <- u_off; unfold u2, w2; rewrite B1, B2, B3; reflexivity).
    assert (E3 : off (wr g h3) = (n3 * P3 + d3)%Qc) by (rewrite <- u_off; unfold n3, P3, d3, w3; rewrite C1, C2, C3; reflexivity).
    unfold sep3. rewrite E1, E2, E3. unfold wr. rewrite A1, A2, A3, B1, B2, B3, C1, C2, C3.
    rewrite !(proj1 (r_parallel g R cr t p1 (hwire h1))), !(proj2 (r_parallel g R cr t p1 (hwire h1))).
    rewrite !(proj1 (r_parallel g R cr t p2 (hwire h2))), !(proj2 (r_parallel g R cr t p2 (hwire h2))).
    rewrite !(proj1 (r_parallel g R cr t p3 (hwire h3))), !(proj2 (r_parallel g R cr t p3 (hwire h3))).
    fold w1 w2 w3. unfold s23, s31, s12. change (sin0 w1) with (sn w1). change (sin0 w2) with (sn w2). change (sin0 w3) with (sn w3).
    change (cos0 w1) with (cs w1). change (cos0 w2) with (cs w2). change (cos0 w3) with (cs w3). ring. }
  rewrite E in W. destruct W as (W1 & W2).
  assert (S0 : s12 <> 0%Qc) by (unfold s12; apply (r_cross g R cr t p1 p2 D)).
  assert (PP : (0 < P3)%Qc) by apply (r_pitch g R).
  set (S := (s23 * u1 + s31 * u2 + s12 * (n3 * P3 + d3))%Qc) in *.
  split; [split; apply Qclt_le_weak; assumption|].
  assert (N0 : (s12 * P3)%Qc <> 0%Qc) by (intros X; apply Qcmult_integral in X; destruct X as [X|X]; [contradiction|exact (pos_ne _ PP X)]).
  set (k := (1 / (s12 * P3))%Qc).
  assert (K : (maxs c / (s12 * P3))%Qc = (maxs c * k)%Qc) by (unfold k; field; split; [apply pos_ne; exact PP|exact S0]).
  set (pr := (((- u1 * s23 - u2 * s31) / s12 - d3) / P3)%Qc).
  assert (Kp : n3 = (pr + S * k)%Qc) by (unfold pr, S, k; field; split; [apply pos_ne; exact PP|exact S0]).
  rewrite K. set (de := qabs (maxs c * k)).
  assert (De : (pr - de <= n3)%Qc /\ (n3 <= pr + de)%Qc).
  { rewrite Kp. assert (Sk : (- de <= S * k)%Qc /\ (S * k <= de)%Qc); [|destruct Sk as (Sk1 & Sk2); clearbody de pr; revert Sk1 Sk2; generalize (S * k)%Qc; intros; split; qclra].
    unfold de, qabs. clearbody S k. revert W1 W2. generalize (maxs c). clear. intros m W1 W2. destruct (qc_lt (m * k) 0) eqn:L; [apply qc_lt_spec in L|apply qc_lt_false in L];
    assert (M : (0 < m)%Qc) by qclra.
    - assert (k < 0)%Qc. { destruct (Qclt_le_dec k 0) as [X|X]; [exact X|]. exfalso. apply (Qclt_not_le _ _ L). apply mul_nonneg; [apply Qclt_le_weak; exact M|exact X]. }
      split; qcnra.
    - assert (0 <= k)%Qc. { destruct (Qclt_le_dec k 0) as [X|X]; [|exact X]. exfalso. assert (m * k < 0)%Qc by qcnra. qclra. }
      split; qcnra. }
  destruct De as (De1 & De2). unfold in_win. cbn [fst snd]. rewrite andb_true_iff, !Z.leb_le. split.
  - apply Z.max_lub; [lia|]. apply ceil_le. exact De1.
  - etransitivity; [|apply Z.le_max_r]. apply floor_ge. exact De2.
Qed.
(** the same with names for the window *)
Lemma third_win c cr t p1 p2 p3 h1 h2 h3 pred delta : at_plane cr t p1 h1 -> at_plane cr t p2 h2 -> at_plane cr t p3 h3 -> p1 <> p2 ->
  within (maxs c) (sep3 (wr g h1) (wr g h2) (wr g h3)) ->
  forall w1 w2 w3 s12 s23 s31 u1 u2, w1 = g_wire g cr t p1 0 -> w2 = g_wire g cr t p2 0 -> w3 = g_wire g cr t p3 0 ->
  s12 = (sin0 w1 * cos0 w2 - sin0 w2 * cos0 w1)%Qc ->
  s23 = (sin0 w2 * cos0 w3 - sin0 w3 * cos0 w2)%Qc ->
  s31 = (sin0 w3 * cos0 w1 - sin0 w1 * cos0 w3)%Qc ->
  u1 = (qc_nat (hwire h1) * g_pitch g cr t p1 + dist0 w1)%Qc ->
  u2 = (qc_nat (hwire h2) * g_pitch g cr t p2 + dist0 w2)%Qc ->
  pred = (((- u1 * s23 - u2 * s31) / s12 - dist0 w3) / g_pitch g cr t p3)%Qc ->
  delta = qabs (maxs c / (s12 * g_pitch g cr t p3))%Qc ->
  upto (maxs c) (s23 * u1 + s31 * u2 + s12 * (qc_nat (hwire h3) * g_pitch g cr t p3 + dist0 w3))%Qc /\
  (Z.max 0 (Qceiling (pred - delta)%Qc) <=? Z.of_nat (hwire h3))%Z && (Z.of_nat (hwire h3) <=? Z.max 0 (Qfloor (pred + delta)%Qc))%Z = true.
Proof.
  intros A1 A2 A3 D W w1 w2 w3 s12 s23 s31 u1 u2 -> -> -> -> -> -> -> -> -> ->. pose proof (third_in c cr t p1 p2 p3 h1 h2 h3 A1 A2 A3 D W) as (X & Y). split; [exact X|].
  rewrite in_win_pair in Y. exact Y.
Qed.
End reach.
