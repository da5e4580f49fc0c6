(** Polygon2D::PointInside *)
From Coq Require Import QArith Qcanon Permutation Lqa.
From Verif Require Import Base QcUtil Solver_Model Solver_Proofs POL_Model POL_Spec POL_Area POL_Cross.
Local Open Scope nat_scope.
Definition par (f p : pt) (l : list (pt * pt)) : bool := fold_right (fun s b => xorb (seg_overlap (fst s) (snd s) f p) b) false l.
Lemma inside_par v p : point_inside v p = par far_corner p (sides_of v).
Proof.
  unfold point_inside, crossings, par. rewrite <- sides_points. generalize (range 0 (length v)) as l. set (c := fun i => seg_overlap (point v i) (point v (i + 1)) far_corner p).
  assert (G : forall l n, negb (fold_left (fun n i => if c i then n + 1 else n) l n mod 2 =? 0) = xorb (negb (n mod 2 =? 0)) (fold_right (fun i b => xorb (c i) b) false l)).
  { induction l as [|i l IH]; intros n; cbn [fold_left fold_right]; [rewrite xorb_false_r; reflexivity|]. rewrite IH. destruct (c i); [|rewrite xorb_false_l; reflexivity].
    assert (M : negb ((n + 1) mod 2 =? 0) = negb (negb (n mod 2 =? 0))). { pose proof (Nat.mod_upper_bound n 2 ltac:(lia)). assert (E : (n + 1) mod 2 = (n mod 2 + 1) mod 2) by (rewrite Nat.add_mod_idemp_l by lia; reflexivity). rewrite E. destruct (n mod 2) as [|[|k]]; [reflexivity|reflexivity|lia]. }
    rewrite M. destruct (negb (n mod 2 =? 0)), (fold_right (fun i b => xorb (c i) b) false l); reflexivity. }
  intros l. rewrite G. cbn [negb]. change (negb (0 mod 2 =? 0)) with false. rewrite xorb_false_l. unfold c. induction l as [|i l IH]; [reflexivity|]. cbn [map fold_right fst snd]. rewrite IH. reflexivity.
Qed.
Lemma par_perm f p l l' : Permutation l l' -> par f p l = par f p l'.
Proof. intros P. unfold par. induction P as [|x l l' P IH|x y l|l m k P1 IH1 P2 IH2]; cbn [fold_right]; [reflexivity|rewrite IH; reflexivity| |congruence]. rewrite <- !xorb_assoc, (xorb_comm (seg_overlap (fst y) (snd y) f p)). reflexivity. Qed.
(** signs *)
Section Signs.
Local Open Scope Qc_scope.
Lemma mul_pos x y : 0 < x -> 0 < y -> 0 < x * y. Proof. intros; qcnra. Qed.
Lemma mul_npos x y : 0 <= x -> y <= 0 -> x * y <= 0. Proof. intros; qcnra. Qed.
Lemma mul_nneg x y : 0 <= x -> 0 <= y -> 0 <= x * y. Proof. intros; qcnra. Qed.
Lemma mul_neg x y : x < 0 -> 0 < y -> x * y < 0. Proof. intros; qcnra. Qed.
Lemma mul_nn x y : x <= 0 -> y <= 0 -> 0 <= x * y. Proof. intros; qcnra. Qed.
(** a vector (x, y, z) with positive sum, orthogonal to (X, Y, Z), where X is on one side and Y, Z on the other: if it has a negative component, exactly one of y and z is positive *)
Lemma one_pos x y z X Y Z : 0 < x + y + z -> x * X + y * Y + z * Z = 0 -> (0 < X /\ Y <= 0 /\ Z <= 0) \/ (X <= 0 /\ 0 < Y /\ 0 < Z) -> (x < 0 \/ y < 0 \/ z < 0) -> xorb (qc_lt 0 y) (qc_lt 0 z) = true.
Proof.
  intros Sm E H N. destruct (qc_lt 0 y) eqn:A, (qc_lt 0 z) eqn:B; try reflexivity; exfalso; [apply qc_lt_spec in A, B|apply qc_lt_false in A, B].
  - assert (Lx : x < 0) by (destruct N as [N|[N|N]]; [exact N|exfalso; qclra|exfalso; qclra]). destruct H as [(H1 & H2 & H3)|(H1 & H2 & H3)].
    + pose proof (mul_neg x X Lx H1) as M1. pose proof (mul_npos y Y ltac:(qclra) H2) as M2. pose proof (mul_npos z Z ltac:(qclra) H3) as M3. revert E M1 M2 M3. generalize (x * X) (y * Y) (z * Z). clear. intros; qclra.
    + pose proof (mul_nn x X ltac:(qclra) H1) as M1. pose proof (mul_pos y Y A H2) as M2. pose proof (mul_pos z Z B H3) as M3. revert E M1 M2 M3. generalize (x * X) (y * Y) (z * Z). clear. intros; qclra.
  - assert (Lx : 0 < x) by qclra. assert (K : y < 0 \/ z < 0) by (destruct N as [N|[N|N]]; [exfalso; qclra|auto|auto]). destruct H as [(H1 & H2 & H3)|(H1 & H2 & H3)].
    + pose proof (mul_pos x X Lx H1) as M1. pose proof (mul_nn y Y A H2) as M2. pose proof (mul_nn z Z B H3) as M3. revert E M1 M2 M3. generalize (x * X) (y * Y) (z * Z). clear. intros; qclra.
    + pose proof (mul_npos x X ltac:(qclra) H1) as M1. assert (Py : y * Y <= 0) by (rewrite Qcmult_comm; apply mul_npos; [qclra|exact A]). assert (Pz : z * Z <= 0) by (rewrite Qcmult_comm; apply mul_npos; [qclra|exact B]).
      destruct K as [K|K]; [pose proof (mul_neg y Y K H2) as M|pose proof (mul_neg z Z K H3) as M]; revert E M1 Py Pz M; generalize (x * X) (y * Y) (z * Z); clear; intros; qclra.
Qed.
Definition negc (x y z : Qc) : bool := qc_lt x 0 || qc_lt y 0 || qc_lt z 0.
Definition posc (x y z : Qc) : bool := qc_lt 0 x && qc_lt 0 y && qc_lt 0 z.
(** the three sides of a triangle: (x, y, z) are the coordinates of p, (x', y', z') those of f, which is outside *)
Lemma three x y z x' y' z' X Y Z T : 0 < T -> x + y + z = T -> x' + y' + z' = T -> X = y' * z - z' * y -> Y = z' * x - x' * z -> Z = x' * y - y' * x ->
  negc x' y' z' = true -> negc x y z = true \/ posc x y z = true ->
  xorb (xorb (qc_lt 0 X) (qc_lt 0 Y) && xorb (qc_lt 0 z') (qc_lt 0 z)) (xorb (xorb (qc_lt 0 Y) (qc_lt 0 Z) && xorb (qc_lt 0 x') (qc_lt 0 x)) (xorb (qc_lt 0 Z) (qc_lt 0 X) && xorb (qc_lt 0 y') (qc_lt 0 y))) = posc x y z.
Proof.
  intros HT S1 S2 EX EY EZ Nf Hp.
  assert (O1 : x * X + y * Y + z * Z = 0) by (subst X Y Z; ring). assert (O2 : x' * X + y' * Y + z' * Z = 0) by (subst X Y Z; ring).
  assert (Ng : forall a b c, negc a b c = true -> a < 0 \/ b < 0 \/ c < 0) by (intros a b c H; unfold negc in H; rewrite !orb_true_iff, !qc_lt_spec in H; tauto).
  assert (Pos : forall a b c, posc a b c = true -> 0 < a /\ 0 < b /\ 0 < c) by (intros a b c H; unfold posc in H; rewrite !andb_true_iff, !qc_lt_spec in H; tauto).
  assert (Out : negc x y z = true -> posc x y z = false) by (intros H; destruct (posc x y z) eqn:P; [|reflexivity]; apply Ng in H; apply Pos in P; exfalso; destruct P as (P1 & P2 & P3); destruct H as [H|[H|H]]; qclra).
  (* the component pair of a vector *)
  assert (Key : forall a b c A B C, 0 < a + b + c -> a * A + b * B + c * C = 0 -> negc a b c = true \/ posc a b c = true -> (0 < A /\ B <= 0 /\ C <= 0) \/ (A <= 0 /\ 0 < B /\ 0 < C) -> xorb (qc_lt 0 b) (qc_lt 0 c) = negb (posc a b c)).
  { intros a b c A B C Sm E H K. destruct (posc a b c) eqn:P; [apply Pos in P as (_ & P1 & P2); apply qc_lt_spec in P1, P2; rewrite P1, P2; reflexivity|]. destruct H as [H|H]; [|discriminate]. apply (one_pos a b c A B C Sm E K (Ng _ _ _ H)). }
  assert (Pf : posc x' y' z' = false) by (destruct (posc x' y' z') eqn:P; [|reflexivity]; apply Ng in Nf; apply Pos in P; exfalso; destruct P as (P1 & P2 & P3); destruct Nf as [H|[H|H]]; qclra).
  assert (Ra : forall a b c, negc b c a = negc a b c /\ posc b c a = posc a b c) by (intros a b c; unfold negc, posc; destruct (qc_lt a 0), (qc_lt b 0), (qc_lt c 0), (qc_lt 0 a), (qc_lt 0 b), (qc_lt 0 c); auto).
  assert (Sw : forall a b c d, xorb (xorb a b) (xorb c d) = xorb (xorb a c) (xorb b d)) by (intros [] [] [] []; reflexivity).
  assert (SX : 0 < x + y + z) by (rewrite S1; exact HT). assert (SX' : 0 < x' + y' + z') by (rewrite S2; exact HT).
  assert (G1 : (0 < X /\ Y <= 0 /\ Z <= 0) \/ (X <= 0 /\ 0 < Y /\ 0 < Z) -> xorb (xorb (qc_lt 0 z') (qc_lt 0 z)) (xorb (qc_lt 0 y') (qc_lt 0 y)) = posc x y z).
  { intros K. rewrite Sw, (xorb_comm (qc_lt 0 z')), (xorb_comm (qc_lt 0 z)), (Key x' y' z' X Y Z SX' O2 (or_introl Nf) K), (Key x y z X Y Z SX O1 Hp K), Pf. destruct (posc x y z); reflexivity. }
  assert (G2 : (0 < Y /\ Z <= 0 /\ X <= 0) \/ (Y <= 0 /\ 0 < Z /\ 0 < X) -> xorb (xorb (qc_lt 0 x') (qc_lt 0 x)) (xorb (qc_lt 0 z') (qc_lt 0 z)) = posc x y z).
  { intros K. destruct (Ra x y z) as (R1 & R2). destruct (Ra x' y' z') as (R3 & R4).
    assert (K1 : xorb (qc_lt 0 z) (qc_lt 0 x) = negb (posc y z x)) by (apply (Key y z x Y Z X); [replace (y + z + x) with (x + y + z) by ring; exact SX|rewrite <- O1; ring|rewrite R1, R2; exact Hp|exact K]).
    assert (K2 : xorb (qc_lt 0 z') (qc_lt 0 x') = negb (posc y' z' x')) by (apply (Key y' z' x' Y Z X); [replace (y' + z' + x') with (x' + y' + z') by ring; exact SX'|rewrite <- O2; ring|rewrite R3; auto|exact K]).
    rewrite Sw, (xorb_comm (qc_lt 0 x')), (xorb_comm (qc_lt 0 x)), K1, K2, R2, R4, Pf. destruct (posc x y z); reflexivity. }
  assert (G3 : (0 < Z /\ X <= 0 /\ Y <= 0) \/ (Z <= 0 /\ 0 < X /\ 0 < Y) -> xorb (xorb (qc_lt 0 y') (qc_lt 0 y)) (xorb (qc_lt 0 x') (qc_lt 0 x)) = posc x y z).
  { intros K. destruct (Ra z x y) as (R1 & R2). destruct (Ra z' x' y') as (R3 & R4).
    assert (K1 : xorb (qc_lt 0 x) (qc_lt 0 y) = negb (posc z x y)) by (apply (Key z x y Z X Y); [replace (z + x + y) with (x + y + z) by ring; exact SX|rewrite <- O1; ring|rewrite <- R1, <- R2; exact Hp|exact K]).
    assert (K2 : xorb (qc_lt 0 x') (qc_lt 0 y') = negb (posc z' x' y')) by (apply (Key z' x' y' Z X Y); [replace (z' + x' + y') with (x' + y' + z') by ring; exact SX'|rewrite <- O2; ring|rewrite <- R3; auto|exact K]).
    rewrite Sw, (xorb_comm (qc_lt 0 y')), (xorb_comm (qc_lt 0 y)), K1, K2, <- R2, <- R4, Pf. destruct (posc x y z); reflexivity. }
  destruct (qc_lt 0 X) eqn:AX, (qc_lt 0 Y) eqn:AY, (qc_lt 0 Z) eqn:AZ; cbn [xorb andb];
    repeat match goal with H : qc_lt 0 _ = true |- _ => apply qc_lt_spec in H | H : qc_lt 0 _ = false |- _ => apply qc_lt_false in H end; rewrite ?xorb_false_l, ?xorb_false_r.
  - (* all positive *) destruct Hp as [Hp|Hp]; [rewrite (Out Hp); reflexivity|]. apply Pos in Hp as (P1 & P2 & P3). exfalso. pose proof (mul_pos x X P1 AX). pose proof (mul_pos y Y P2 AY). pose proof (mul_pos z Z P3 AZ). revert O1 H H0 H1. generalize (x * X) (y * Y) (z * Z). clear. intros; qclra.
  - rewrite <- G3 by (right; auto). destruct (xorb (qc_lt 0 x') (qc_lt 0 x)), (xorb (qc_lt 0 y') (qc_lt 0 y)), (xorb (qc_lt 0 z') (qc_lt 0 z)); reflexivity.
  - rewrite <- G2 by (right; auto). destruct (xorb (qc_lt 0 x') (qc_lt 0 x)), (xorb (qc_lt 0 y') (qc_lt 0 y)), (xorb (qc_lt 0 z') (qc_lt 0 z)); reflexivity.
  - rewrite <- G1 by (left; auto). destruct (xorb (qc_lt 0 x') (qc_lt 0 x)), (xorb (qc_lt 0 y') (qc_lt 0 y)), (xorb (qc_lt 0 z') (qc_lt 0 z)); reflexivity.
  - rewrite <- G1 by (right; auto). destruct (xorb (qc_lt 0 x') (qc_lt 0 x)), (xorb (qc_lt 0 y') (qc_lt 0 y)), (xorb (qc_lt 0 z') (qc_lt 0 z)); reflexivity.
  - rewrite <- G2 by (left; auto). destruct (xorb (qc_lt 0 x') (qc_lt 0 x)), (xorb (qc_lt 0 y') (qc_lt 0 y)), (xorb (qc_lt 0 z') (qc_lt 0 z)); reflexivity.
  - rewrite <- G3 by (left; auto). destruct (xorb (qc_lt 0 x') (qc_lt 0 x)), (xorb (qc_lt 0 y') (qc_lt 0 y)), (xorb (qc_lt 0 z') (qc_lt 0 z)); reflexivity.
  - (* none positive *) destruct Hp as [Hp|Hp]; [rewrite (Out Hp); reflexivity|]. apply Pos in Hp as (P1 & P2 & P3). exfalso.
    pose proof (mul_npos x X ltac:(qclra) AX) as M1. pose proof (mul_npos y Y ltac:(qclra) AY) as M2. pose proof (mul_npos z Z ltac:(qclra) AZ) as M3.
    assert (x * X = 0 /\ y * Y = 0 /\ z * Z = 0) as (Z1 & Z2 & Z3) by (revert O1 M1 M2 M3; generalize (x * X) (y * Y) (z * Z); clear; intros; repeat split; qclra).
    apply Qcmult_integral in Z1, Z2, Z3. assert (X = 0) by (destruct Z1; [subst; exfalso; qclra|assumption]). assert (Y = 0) by (destruct Z2; [subst; exfalso; qclra|assumption]). assert (Z = 0) by (destruct Z3; [subst; exfalso; qclra|assumption]).
    rewrite H in EX. rewrite H0 in EY. rewrite H1 in EZ. apply Ng in Nf.
    assert (W : forall a b c d, 0 < a -> 0 < c -> b * c = d * a -> b < 0 -> d < 0) by (clear; intros a b c d A C E B; destruct (Qclt_le_dec d 0) as [L|L]; [exact L|]; exfalso; pose proof (mul_neg b c B C); pose proof (mul_nneg d a L ltac:(qclra)); rewrite E in H; qclra).
    assert (e1 : y' * z = z' * y) by (clear -EX; revert EX; generalize (y' * z) (z' * y); intros; qclra). assert (e2 : z' * x = x' * z) by (clear -EY; revert EY; generalize (z' * x) (x' * z); intros; qclra). assert (e3 : x' * y = y' * x) by (clear -EZ; revert EZ; generalize (x' * y) (y' * x); intros; qclra).
    assert (x' < 0 /\ y' < 0 /\ z' < 0) as (? & ? & ?); [|rewrite <- S2 in HT; clear -HT H2 H3 H4; qclra].
    destruct Nf as [Nf|[Nf|Nf]].
    + split; [exact Nf|]. split; [apply (W x x' y y'); auto|apply (W x x' z z'); auto].
    + split; [apply (W y y' x x'); auto|]. split; [exact Nf|apply (W y y' z z'); auto].
    + split; [apply (W z z' x x'); auto|]. split; [apply (W z z' y y'); auto|exact Nf].
Qed.
End Signs.
Definition so (f p a b : pt) : bool := seg_overlap a b f p.
Lemma so_rev f p a b : turn_of a b f <> 0%Qc -> turn_of a b p <> 0%Qc -> so f p b a = so f p a b.
Proof.
  intros Nf Np. unfold so, seg_overlap. rewrite !clockwise_lt. rewrite (xorb_comm (qc_lt 0 (turn_of b f p))). f_equal.
  assert (R : forall x, turn_of a b x <> 0%Qc -> qc_lt 0 (turn_of b a x) = negb (qc_lt 0 (turn_of a b x))).
  { intros x N. replace (turn_of b a x) with (- turn_of a b x)%Qc by (unfold turn_of; ring). revert N. generalize (turn_of a b x). clear. intros t N. destruct (qc_lt 0 t) eqn:E; cbn [negb]; [apply qc_lt_spec in E; apply qc_lt_false; qclra|apply qc_lt_false in E; apply qc_lt_spec; destruct (Qclt_le_dec 0 (- t)) as [L|L]; [exact L|exfalso; apply N; qclra]]. }
  rewrite (R f Nf), (R p Np). destruct (qc_lt 0 (turn_of a b f)), (qc_lt 0 (turn_of a b p)); reflexivity.
Qed.
Definition tri (f p a b c : pt) : bool := xorb (so f p a b) (xorb (so f p b c) (so f p c a)).
Definition off (a b c x : pt) : Prop := turn_of a b x <> 0%Qc /\ turn_of b c x <> 0%Qc /\ turn_of c a x <> 0%Qc.
Lemma scale T t : (0 < T)%Qc -> qc_lt 0 t = qc_lt 0 (T * t)%Qc.
Proof. intros H. destruct (qc_lt 0 t) eqn:E; symmetry; [apply qc_lt_spec in E; apply qc_lt_spec, mul_pos; assumption|apply qc_lt_false in E; apply qc_lt_false, mul_npos; [qclra|exact E]]. Qed.
Lemma sign_cases x y z : x <> 0%Qc -> y <> 0%Qc -> z <> 0%Qc -> negc x y z = true \/ posc x y z = true.
Proof.
  intros A B C. assert (G : forall t, t <> 0%Qc -> qc_lt t 0 = true \/ qc_lt 0 t = true) by (clear; intros t N; destruct (Qclt_le_dec t 0) as [L|L]; [left; apply qc_lt_spec, L|right; apply qc_lt_spec; destruct (Qclt_le_dec 0 t) as [M|M]; [exact M|exfalso; apply N; qclra]]).
  unfold negc, posc. destruct (G x A) as [->|E1]; [auto|]. destruct (G y B) as [->|E2]; [rewrite orb_true_r; auto|]. destruct (G z C) as [->|E3]; [rewrite !orb_true_r; auto|]. rewrite E1, E2, E3. auto.
Qed.
Lemma tri_ccw f p a b c : (0 < turn_of a b c)%Qc -> off a b c f -> off a b c p -> ~ (0 < turn_of a b f /\ 0 < turn_of b c f /\ 0 < turn_of c a f)%Qc -> tri f p a b c = posc (turn_of b c p) (turn_of c a p) (turn_of a b p).
Proof.
  intros HT (F1 & F2 & F3) (P1 & P2 & P3) Nf. unfold tri, so, seg_overlap. rewrite !clockwise_lt. set (T := turn_of a b c) in *.
  rewrite (scale T (turn_of a f p) HT), (scale T (turn_of b f p) HT), (scale T (turn_of c f p) HT). rewrite <- (three (turn_of b c p) (turn_of c a p) (turn_of a b p) (turn_of b c f) (turn_of c a f) (turn_of a b f) (T * turn_of a f p)%Qc (T * turn_of b f p)%Qc (T * turn_of c f p)%Qc T); [reflexivity|exact HT| | | | | | |]; try (unfold T, turn_of; ring).
  - destruct (sign_cases (turn_of b c f) (turn_of c a f) (turn_of a b f) F2 F3 F1) as [H|H]; [exact H|]. exfalso. apply Nf. unfold posc in H. rewrite !andb_true_iff, !qc_lt_spec in H. tauto.
  - apply sign_cases; assumption.
Qed.
Ltac tq := repeat match goal with H : context[turn_of _ _ _] |- _ => revert H end; repeat match goal with |- context[turn_of ?a ?b ?c] => generalize (turn_of a b c) end; clear; intros; repeat split; qclra.
Lemma tri_exact f p a b c : turn_of a b c <> 0%Qc -> off a b c f -> off a b c p -> ~ in_triangle a b c f -> tri f p a b c = true <-> in_triangle a b c p.
Proof.
  intros N Of Op Nf. destruct (Qclt_le_dec 0 (turn_of a b c)) as [L|L].
  - rewrite (tri_ccw f p a b c L Of Op) by (intros X; apply Nf; left; exact X). unfold posc, in_triangle. rewrite !andb_true_iff, !qc_lt_spec. split; [tauto|]. intros [X|(X & Y & Z)]; [tauto|]. exfalso. assert (E : (turn_of a b p + turn_of b c p + turn_of c a p = turn_of a b c)%Qc) by (unfold turn_of; ring). rewrite <- E in L. clear -L X Y Z. tq.
  - assert (L' : (0 < turn_of a c b)%Qc) by (replace (turn_of a c b) with (- turn_of a b c)%Qc by (unfold turn_of; ring); destruct (Qclt_le_dec (turn_of a b c) 0) as [M|M]; [tq|exfalso; apply N; tq]).
    assert (Ng : forall u w x, turn_of w u x = (- turn_of u w x)%Qc) by (intros; unfold turn_of; ring). assert (Nn : forall t : Qc, t <> 0%Qc -> (- t)%Qc <> 0%Qc) by (intros t H E; apply H; replace t with (- (- t))%Qc by ring; rewrite E; ring).
    destruct Of as (F1 & F2 & F3), Op as (P1 & P2 & P3).
    assert (E : tri f p a b c = tri f p a c b). { unfold tri. rewrite (so_rev f p a b F1 P1), (so_rev f p b c F2 P2), <- (so_rev f p c a F3 P3). destruct (so f p a b), (so f p b c), (so f p a c); reflexivity. }
    rewrite E, (tri_ccw f p a c b L').
    + unfold posc, in_triangle. rewrite !andb_true_iff, !qc_lt_spec. rewrite (Ng b c p), (Ng a b p), (Ng c a p). split; [intros ((X & Y) & Z); right; tq|]. intros [(X & Y & Z)|(X & Y & Z)]; [|tq]. exfalso. assert (E' : (turn_of a b p + turn_of b c p + turn_of c a p = turn_of a b c)%Qc) by (unfold turn_of; ring). rewrite <- E' in L. clear -L X Y Z. tq.
    + unfold off. rewrite (Ng c a f), (Ng b c f), (Ng a b f). auto.
    + unfold off. rewrite (Ng c a p), (Ng b c p), (Ng a b p). auto.
    + intros (X & Y & Z). apply Nf. right. rewrite (Ng c a f) in X. rewrite (Ng b c f) in Y. rewrite (Ng a b f) in Z. tq.
Qed.
Definition xsum {A} (g : A -> bool) (l : list A) : bool := fold_right (fun x b => xorb (g x) b) false l.
Lemma xsum_perm {A} (g : A -> bool) l l' : Permutation l l' -> xsum g l = xsum g l'.
Proof. intros P. unfold xsum. induction P as [|x l l' P IH|x y l|l m k P1 IH1 P2 IH2]; cbn [fold_right]; [reflexivity|rewrite IH; reflexivity| |congruence]. rewrite <- !xorb_assoc, (xorb_comm (g y)). reflexivity. Qed.
Lemma xsum_xor {A} (g h : A -> bool) l : xsum (fun x => xorb (g x) (h x)) l = xorb (xsum g l) (xsum h l).
Proof. unfold xsum. induction l as [|x l IH]; cbn [fold_right]; [reflexivity|]. rewrite IH. destruct (g x), (h x), (fold_right (fun x b => xorb (g x) b) false l), (fold_right (fun x b => xorb (h x) b) false l); reflexivity. Qed.
Lemma xsum_ext {A} (g h : A -> bool) l : (forall x, In x l -> g x = h x) -> xsum g l = xsum h l.
Proof. unfold xsum. induction l as [|x l IH]; intros E; cbn [fold_right]; [reflexivity|]. rewrite E by (left; reflexivity). rewrite IH; [reflexivity|]. intros; apply E; right; assumption. Qed.
Lemma xsum_map {A B} (g : B -> bool) (h : A -> B) l : xsum g (map h l) = xsum (fun x => g (h x)) l.
Proof. unfold xsum. induction l as [|x l IH]; cbn [map fold_right]; [reflexivity|]. rewrite IH. reflexivity. Qed.
Lemma fst_snd_sides v : Permutation (map fst (sides_of v)) (map snd (sides_of v)).
Proof.
  destruct v as [|a r]; [constructor|]. unfold sides_of. assert (G : forall x y : list pt, length x = length y -> map fst (combine x y) = x /\ map snd (combine x y) = y) by (clear; induction x as [|u x IH]; intros [|w y] L; try discriminate; [auto|]; cbn [combine map fst snd]; destruct (IH y) as (A & B); [injection L; auto|]; rewrite A, B; auto).
  destruct (G (a :: r) (r ++ [a])) as (E1 & E2); [rewrite app_length; cbn; lia|]. rewrite E1, E2. apply Permutation_cons_append.
Qed.
(** the parity of a polygon is that of the triangles over its sides *)
Lemma fan v o f p : (forall s, In s (sides_of v) -> turn_of o (fst s) f <> 0%Qc /\ turn_of o (fst s) p <> 0%Qc) -> par f p (sides_of v) = xsum (fun s => tri f p o (fst s) (snd s)) (sides_of v).
Proof.
  intros G. unfold tri. rewrite (xsum_xor (fun s => so f p o (fst s))), (xsum_xor (fun s => so f p (fst s) (snd s))).
  assert (E : xsum (fun s => so f p (snd s) o) (sides_of v) = xsum (fun s => so f p o (fst s)) (sides_of v)).
  { rewrite <- (xsum_map (fun x => so f p x o) snd), <- (xsum_map (fun x => so f p o x) fst). rewrite <- (xsum_perm _ _ _ (fst_snd_sides v)). apply xsum_ext. intros x X. apply in_map_iff in X as (s & <- & I). destruct (G s I) as (A & B). apply so_rev; assumption. }
  rewrite E. change (xsum (fun s => so f p (fst s) (snd s)) (sides_of v)) with (par f p (sides_of v)). destruct (xsum (fun s => so f p o (fst s)) (sides_of v)), (par f p (sides_of v)); reflexivity.
Qed.
Lemma xsum_odd {A} (g : A -> bool) l : xsum g l = true <-> Nat.Odd (length (filter g l)).
Proof.
  rewrite <- Nat.odd_spec. assert (E : xsum g l = Nat.odd (length (filter g l))); [|rewrite E; reflexivity]. unfold xsum. induction l as [|x l IH]; [reflexivity|]. cbn [fold_right filter]. rewrite IH. destruct (g x); cbn [length]; [rewrite Nat.odd_succ, <- Nat.negb_odd; destruct (Nat.odd _); reflexivity|destruct (Nat.odd _); reflexivity].
Qed.
Lemma filter_ext_in' {A} (g h : A -> bool) l : (forall x, In x l -> g x = h x) -> filter g l = filter h l.
Proof. induction l as [|x l IH]; intros E; [reflexivity|]. cbn [filter]. rewrite (E x (or_introl eq_refl)), IH; [reflexivity|]. intros; apply E; right; assumption. Qed.
Lemma sides_next v s : In s (sides_of v) -> exists t, In t (sides_of v) /\ fst t = snd s.
Proof. intros I. assert (X : In (snd s) (map fst (sides_of v))) by (apply (Permutation_in _ (Permutation_sym (fst_snd_sides v))), in_map, I). apply in_map_iff in X as (t & E & It). eauto. Qed.
Lemma far_outside a b c : (fst a < far)%Qc -> (fst b < far)%Qc -> (fst c < far)%Qc -> ~ in_triangle a b c far_corner.
Proof.
  intros A B C H. assert (E : (turn_of b c far_corner * (far - fst a) + turn_of c a far_corner * (far - fst b) + turn_of a b far_corner * (far - fst c) = 0)%Qc) by (unfold turn_of, far_corner; cbn [fst snd]; ring).
  assert (A' : (0 < far - fst a)%Qc) by (clear -A; qclra). assert (B' : (0 < far - fst b)%Qc) by (clear -B; qclra). assert (C' : (0 < far - fst c)%Qc) by (clear -C; qclra). destruct H as [(X & Y & Z)|(X & Y & Z)].
  - pose proof (mul_pos _ _ Y A') as M1. pose proof (mul_pos _ _ Z B') as M2. pose proof (mul_pos _ _ X C') as M3. revert E M1 M2 M3. generalize (turn_of b c far_corner * (far - fst a))%Qc (turn_of c a far_corner * (far - fst b))%Qc (turn_of a b far_corner * (far - fst c))%Qc. clear. intros; qclra.
  - pose proof (mul_neg _ _ Y A') as M1. pose proof (mul_neg _ _ Z B') as M2. pose proof (mul_neg _ _ X C') as M3. revert E M1 M2 M3. generalize (turn_of b c far_corner * (far - fst a))%Qc (turn_of c a far_corner * (far - fst b))%Qc (turn_of a b far_corner * (far - fst c))%Qc. clear. intros; qclra.
Qed.
Lemma sides_in v s : In s (sides_of v) -> In (fst s) v /\ In (snd s) v.
Proof. destruct v as [|a r]; [intros []|]. unfold sides_of. destruct s as [x y]. intros I. cbn [fst snd]. split; [apply (in_combine_l _ _ _ _ I)|]. apply in_combine_r in I. apply in_app_or in I as [I|[<-|[]]]; [right; exact I|left; reflexivity]. Qed.
(** C162: left of the line x = 10000, PointInside is the even-odd rule: drawing from any point o (in general position) the triangles over the sides, the point is inside an odd number of them *)
Theorem point_inside_partial v o p : (forall a, In a (o :: v) -> (fst a < far)%Qc) -> generic v o far_corner p -> point_inside v p = true <-> odd_many (fun s => in_triangle o (fst s) (snd s) p) (sides_of v).
Proof.
  intros Lf G. rewrite inside_par, (fan v o far_corner p).
  2:{ intros s I. destruct (G s I) as (_ & H). split; apply H; auto. }
  assert (T : forall s, In s (sides_of v) -> tri far_corner p o (fst s) (snd s) = true <-> in_triangle o (fst s) (snd s) p).
  { intros s I. destruct (G s I) as (N & H). destruct (sides_next v s I) as (t & It & Et). destruct (G t It) as (_ & Ht). rewrite Et in Ht. destruct (sides_in v s I) as (I1 & I2).
    assert (Of : forall x, x = far_corner \/ x = p -> off o (fst s) (snd s) x) by (intros x X; destruct (H x X); destruct (Ht x X) as (K & _); split; [assumption|]; split; [assumption|]; replace (turn_of (snd s) o x) with (- turn_of o (snd s) x)%Qc by (unfold turn_of; ring); intros E; apply K; replace (turn_of o (snd s) x) with (- (- turn_of o (snd s) x))%Qc by ring; rewrite E; ring).
    apply tri_exact; [exact N|apply Of; auto|apply Of; auto|]. apply far_outside; apply Lf; [left; reflexivity|right; exact I1|right; exact I2]. }
  rewrite xsum_odd. split.
  - intros O. exists (fun s => tri far_corner p o (fst s) (snd s)). split; [exact T|exact O].
  - intros (d & Hd & O). replace (filter (fun s => tri far_corner p o (fst s) (snd s)) (sides_of v)) with (filter d (sides_of v)); [exact O|]. apply filter_ext_in'. intros s I. specialize (T s I). specialize (Hd s I). destruct (d s), (tri far_corner p o (fst s) (snd s)); auto; [symmetry; apply T, Hd; reflexivity|apply Hd, T; reflexivity].
Qed.
(** the start of the list does not matter *)
Theorem point_inside_rotate a v p : point_inside (v ++ [a]) p = point_inside (a :: v) p.
Proof.
  rewrite !inside_par. apply par_perm. destruct v as [|b r]; [reflexivity|]. unfold sides_of. cbn [app].
  assert (C : forall (x y : list pt) (u w : pt), length x = length y -> combine (x ++ [u]) (y ++ [w]) = combine x y ++ [(u, w)]) by (clear; induction x as [|? x IH]; intros [|? y] u w L; try discriminate; [reflexivity|]; cbn [app combine]; f_equal; apply IH; injection L; auto).
  change (b :: r ++ [a]) with ((b :: r) ++ [a]) at 1. rewrite C by (rewrite app_length; cbn; lia). cbn [combine]. apply Permutation_sym, Permutation_cons_append.
Qed.
(** deciding the spec on examples *)
Definition in_tri_b (a b c p : pt) : bool := posc (turn_of a b p) (turn_of b c p) (turn_of c a p) || (qc_lt (turn_of a b p) 0 && qc_lt (turn_of b c p) 0 && qc_lt (turn_of c a p) 0).
Lemma in_tri_b_spec a b c p : in_tri_b a b c p = true <-> in_triangle a b c p.
Proof. unfold in_tri_b, posc, in_triangle. rewrite orb_true_iff, !andb_true_iff, !qc_lt_spec. tauto. Qed.
Definition nz (x : Qc) : bool := negb (Qc_eq_bool x 0%Qc).
Lemma nz_spec x : nz x = true -> x <> 0%Qc.
Proof. unfold nz. rewrite negb_true_iff. intros H ->. vm_compute in H. discriminate. Qed.
Definition generic_b (v : poly) (o f p : pt) : bool := forallb (fun s => nz (turn_of o (fst s) (snd s)) && (nz (turn_of o (fst s) f) && nz (turn_of (fst s) (snd s) f)) && (nz (turn_of o (fst s) p) && nz (turn_of (fst s) (snd s) p))) (sides_of v).
Lemma generic_b_spec v o f p : generic_b v o f p = true -> generic v o f p.
Proof. unfold generic_b. rewrite forallb_forall. intros H s I. specialize (H s I). rewrite !andb_true_iff in H. destruct H as ((A & B & C) & D & E). split; [apply nz_spec, A|]. intros x [->| ->]; split; apply nz_spec; assumption. Qed.
Lemma odd_b v o p : odd_many (fun s => in_triangle o (fst s) (snd s) p) (sides_of v) <-> Nat.odd (length (filter (fun s => in_tri_b o (fst s) (snd s) p) (sides_of v))) = true.
Proof.
  rewrite Nat.odd_spec. split.
  - intros (d & Hd & O). replace (filter (fun s => in_tri_b o (fst s) (snd s) p) (sides_of v)) with (filter d (sides_of v)); [exact O|]. apply filter_ext_in'. intros s I. specialize (Hd s I). rewrite <- in_tri_b_spec in Hd. destruct (d s), (in_tri_b o (fst s) (snd s) p); auto; [symmetry; apply Hd; reflexivity|apply Hd; reflexivity].
  - intros O. exists (fun s => in_tri_b o (fst s) (snd s) p). split; [intros; apply in_tri_b_spec|exact O].
Qed.
(** a point of a triangle that contains the corner (10000, 10000) is said to be outside *)
Definition big : poly := [(q 9000, q 9000); (q 11000, q 9000); (q 10000, q 13000)].
Lemma big_generic : generic_b big (q 10100, q 10300) far_corner (q 9990, q 9500) = true. Proof. vm_compute. reflexivity. Qed.
Lemma big_odd : Nat.odd (length (filter (fun s => in_tri_b (q 10100, q 10300) (fst s) (snd s) (q 9990, q 9500)) (sides_of big))) = true. Proof. vm_compute. reflexivity. Qed.
Lemma big_out : point_inside big (q 9990, q 9500) = false. Proof. vm_compute. reflexivity. Qed.
Theorem point_inside_refuted : ~ (forall v o p, generic v o far_corner p -> point_inside v p = true <-> odd_many (fun s => in_triangle o (fst s) (snd s) p) (sides_of v)).
Proof.
  intros G. pose proof (proj2 (G big (q 10100, q 10300) (q 9990, q 9500) (generic_b_spec _ _ _ _ big_generic)) (proj2 (odd_b _ _ _) big_odd)) as X. rewrite big_out in X. discriminate.
Qed.
(** the hypotheses can be met, with a point inside and one outside of a polygon that is not convex *)
Definition arrow : poly := [(q 0, q 0); (q 8, q 0); (q 3, q 3); (q 0, q 9)].
Example inside_case : (forall a, In a ((q 2, q 1) :: arrow) -> (fst a < far)%Qc) /\ generic arrow (q 2, q 1) far_corner (q 1, q 4) /\ point_inside arrow (q 1, q 4) = true /\ generic arrow (q 2, q 1) far_corner (q 5, q 5) /\ point_inside arrow (q 5, q 5) = false.
Proof.
  split; [intros a I; cbn in I; repeat (destruct I as [<-|I]; [vm_compute; reflexivity|]); destruct I|]. split; [apply generic_b_spec; vm_compute; reflexivity|]. split; [vm_compute; reflexivity|]. split; [apply generic_b_spec; vm_compute; reflexivity|vm_compute; reflexivity].
Qed.
