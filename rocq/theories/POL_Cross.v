(** Polygon2D: crossing of segments, PointInside, overlap, untangling *)
From Coq Require Import QArith Qcanon Permutation Lqa.
From Verif Require Import Base QcUtil Solver_Model Solver_Proofs POL_Model POL_Spec POL_Area.
Local Open Scope nat_scope.
Lemma clockwise_turn a b c : clockwise a b c = true <-> (0 < turn_of a b c)%Qc.
Proof. unfold clockwise. rewrite qc_lt_spec. unfold turn_of. generalize (fst b - fst a)%Qc (snd b - snd a)%Qc (fst c - fst a)%Qc (snd c - snd a)%Qc. clear. intros x y u w. rewrite (Qcmult_comm w x), (Qcmult_comm y u). generalize (x * w)%Qc (u * y)%Qc. intros. split; intros; qclra. Qed.
Lemma clockwise_false a b c : clockwise a b c = false <-> (turn_of a b c <= 0)%Qc.
Proof. destruct (clockwise a b c) eqn:E; split; intros H; try discriminate; try reflexivity; [apply clockwise_turn in E; exfalso; revert E H; generalize (turn_of a b c); intros; qclra|]. destruct (Qclt_le_dec 0 (turn_of a b c)) as [X|X]; [apply clockwise_turn in X; congruence|exact X]. Qed.
Lemma turn_cycle a b c : turn_of a b c = turn_of b c a. Proof. unfold turn_of. ring. Qed.
(** the order of the two segments does not matter *)
Theorem seg_overlap_sym a b c d : seg_overlap a b c d = seg_overlap c d a b.
Proof.
  assert (C : forall x y z, clockwise x y z = clockwise y z x) by (intros x y z; destruct (clockwise y z x) eqn:E; [apply clockwise_turn; rewrite turn_cycle; apply clockwise_turn, E|apply clockwise_false; rewrite turn_cycle; apply clockwise_false, E]).
  unfold seg_overlap. rewrite (C a c d), (C b c d), (C c a b), (C d a b). rewrite andb_comm. f_equal.
Qed.
(** the four turns *)
Lemma turn_diff a b c d : (turn_of a c d - turn_of b c d = turn_of a b d - turn_of a b c)%Qc. Proof. unfold turn_of. ring. Qed.
Lemma frac01 (x y : Qc) : (x <= 0 -> 0 < y -> 0 <= x / (x - y) /\ x / (x - y) <= 1)%Qc.
Proof.
  intros A B. assert (N : (x - y <> 0)%Qc) by (intros E; assert (x = y) by (replace x with (x - y + y)%Qc by ring; rewrite E; ring); subst; qclra). 
  assert (E : (x / (x - y) * (x - y) = x)%Qc) by (field; exact N). revert E. generalize (x / (x - y))%Qc. intros z E. split.
  - destruct (Qclt_le_dec z 0) as [L|L]; [|exact L]. exfalso. assert (0 < z * (x - y))%Qc by (assert (x - y < 0)%Qc by qclra; revert H L; generalize (x - y)%Qc; clear; intros; qcnra). rewrite E in H. qclra.
  - destruct (Qclt_le_dec 1 z) as [L|L]; [|exact L]. exfalso. assert (z * (x - y) < x - y)%Qc by (assert (x - y < 0)%Qc by qclra; revert H L; generalize (x - y)%Qc; clear; intros; qcnra). rewrite E in H. qclra.
Qed.
Lemma frac01' (x y : Qc) : (0 < x -> y <= 0 -> 0 <= x / (x - y) /\ x / (x - y) <= 1)%Qc.
Proof.
  intros A B. assert (N : (x - y <> 0)%Qc) by (intros E; assert (x = y) by (replace x with (x - y + y)%Qc by ring; rewrite E; ring); subst; qclra).
  assert (E : (x / (x - y) * (x - y) = x)%Qc) by (field; exact N). revert E. generalize (x / (x - y))%Qc. intros z E. split.
  - destruct (Qclt_le_dec z 0) as [L|L]; [|exact L]. exfalso. assert (z * (x - y) < 0)%Qc by (assert (0 < x - y)%Qc by qclra; revert H L; generalize (x - y)%Qc; clear; intros; qcnra). rewrite E in H. qclra.
  - destruct (Qclt_le_dec 1 z) as [L|L]; [|exact L]. exfalso. assert (x - y < z * (x - y))%Qc by (assert (0 < x - y)%Qc by qclra; revert H L; generalize (x - y)%Qc; clear; intros; qcnra). rewrite E in H. qclra.
Qed.
Lemma opposite x y : xorb (qc_lt 0 x) (qc_lt 0 y) = true -> (x - y <> 0 /\ 0 <= x / (x - y) /\ x / (x - y) <= 1)%Qc.
Proof.
  intros H. destruct (qc_lt 0 x) eqn:A, (qc_lt 0 y) eqn:B; try discriminate; [apply qc_lt_spec in A; apply qc_lt_false in B; destruct (frac01' x y A B)|apply qc_lt_false in A; apply qc_lt_spec in B; destruct (frac01 x y A B)]; (split; [|auto]); intros E; assert (x = y) by (replace x with (x - y + y)%Qc by ring; rewrite E; ring); subst; qclra.
Qed.
Lemma clockwise_lt a b c : clockwise a b c = qc_lt 0 (turn_of a b c).
Proof. destruct (clockwise a b c) eqn:E; symmetry; [apply qc_lt_spec, clockwise_turn, E|apply qc_lt_false, clockwise_false, E]. Qed.
Lemma overlap_params a b c d : seg_overlap a b c d = true -> exists s t, (0 <= s /\ s <= 1 /\ 0 <= t /\ t <= 1)%Qc /\ along a b s = along c d t /\ (turn_of a c d - turn_of b c d <> 0)%Qc.
Proof.
  unfold seg_overlap. rewrite !clockwise_lt, andb_true_iff. intros [A B]. apply opposite in A as (N & A1 & A2). apply opposite in B as (M & B1 & B2).
  exists (turn_of a c d / (turn_of a c d - turn_of b c d))%Qc, (turn_of a b c / (turn_of a b c - turn_of a b d))%Qc. split; [auto|]. split; [|exact N]. clear A1 A2 B1 B2. pose proof (turn_diff a b c d) as D. assert (M' : (turn_of a b c - turn_of a b d = - (turn_of a c d - turn_of b c d))%Qc) by (rewrite D; ring). rewrite M'. set (w := (turn_of a c d - turn_of b c d)%Qc) in *.
  assert (N' : (- w <> 0)%Qc) by (intros X; apply N; replace w with (- (- w))%Qc by ring; rewrite X; ring). unfold along. f_equal.
  - assert (E : (turn_of a c d * (fst b - fst a) + turn_of a b c * (fst d - fst c) = (fst c - fst a) * w)%Qc) by (unfold w, turn_of; ring). revert E. generalize (turn_of a c d) (turn_of a b c). intros u z E. assert (G : ((fst a + u / w * (fst b - fst a)) - (fst c + z / - w * (fst d - fst c)) = (u * (fst b - fst a) + z * (fst d - fst c) - (fst c - fst a) * w) / w)%Qc) by (field; repeat split; assumption). rewrite E in G.
    replace (fst a + u / w * (fst b - fst a))%Qc with ((fst a + u / w * (fst b - fst a)) - (fst c + z / - w * (fst d - fst c)) + (fst c + z / - w * (fst d - fst c)))%Qc by ring. rewrite G. field; repeat split; assumption.
  - assert (E : (turn_of a c d * (snd b - snd a) + turn_of a b c * (snd d - snd c) = (snd c - snd a) * w)%Qc) by (unfold w, turn_of; ring). revert E. generalize (turn_of a c d) (turn_of a b c). intros u z E. assert (G : ((snd a + u / w * (snd b - snd a)) - (snd c + z / - w * (snd d - snd c)) = (u * (snd b - snd a) + z * (snd d - snd c) - (snd c - snd a) * w) / w)%Qc) by (field; repeat split; assumption). rewrite E in G.
    replace (snd a + u / w * (snd b - snd a))%Qc with ((snd a + u / w * (snd b - snd a)) - (snd c + z / - w * (snd d - snd c)) + (snd c + z / - w * (snd d - snd c)))%Qc by ring. rewrite G. field; repeat split; assumption.
Qed.
(** C161: segments said to overlap have a point in common; the converse when no end is on the line of the other segment *)
Theorem seg_overlap_sound_partial a b c d : seg_overlap a b c d = true -> meet a b c d.
Proof. intros H. destruct (overlap_params a b c d H) as (s & t & (A & B & C & D) & E & _). exists (along a b s). split; [exists s; auto|exists t; auto]. Qed.
Lemma cross_side a b c d s t : along a b s = along c d t -> ((1 - s) * turn_of a c d + s * turn_of b c d = 0)%Qc.
Proof.
  intros E. assert (X := f_equal fst E). assert (Y := f_equal snd E). unfold along in X, Y. cbn [fst snd] in X, Y.
  replace ((1 - s) * turn_of a c d + s * turn_of b c d)%Qc with (((fst c - (fst a + s * (fst b - fst a))) * (snd d - snd c) - (snd c - (snd a + s * (snd b - snd a))) * (fst d - fst c)))%Qc by (unfold turn_of; ring). rewrite X, Y. ring.
Qed.
Lemma sides_opposite (x y s : Qc) : x <> 0%Qc -> y <> 0%Qc -> (0 <= s -> s <= 1 -> (1 - s) * x + s * y = 0 -> xorb (qc_lt 0 x) (qc_lt 0 y) = true)%Qc.
Proof.
  intros Nx Ny A B E. destruct (qc_lt 0 x) eqn:Lx, (qc_lt 0 y) eqn:Ly; try reflexivity; exfalso; [apply qc_lt_spec in Lx, Ly|apply qc_lt_false in Lx, Ly].
  - destruct (Qclt_le_dec 0 s) as [Hs|Hs]; [assert (0 < s * y)%Qc by (revert Hs Ly; clear; intros; qcnra); assert (0 <= (1 - s) * x)%Qc by (assert (0 <= 1 - s)%Qc by qclra; revert H0 Lx; generalize (1 - s)%Qc; clear; intros; qcnra); revert E H H0; generalize ((1 - s) * x)%Qc (s * y)%Qc; clear; intros; qclra|].
    assert (s = 0%Qc) by qclra. subst. replace ((1 - 0) * x + 0 * y)%Qc with x in E by ring. contradiction.
  - assert (Lx' : (x < 0)%Qc) by (destruct (Qclt_le_dec x 0) as [L|L]; [exact L|]; exfalso; apply Nx; qclra). assert (Ly' : (y < 0)%Qc) by (destruct (Qclt_le_dec y 0) as [L|L]; [exact L|]; exfalso; apply Ny; qclra).
    destruct (Qclt_le_dec 0 s) as [Hs|Hs]; [assert (s * y < 0)%Qc by (revert Hs Ly'; clear; intros; qcnra); assert ((1 - s) * x <= 0)%Qc by (assert (0 <= 1 - s)%Qc by qclra; revert H0 Lx'; generalize (1 - s)%Qc; clear; intros; qcnra); revert E H H0; generalize ((1 - s) * x)%Qc (s * y)%Qc; clear; intros; qclra|].
    assert (s = 0%Qc) by qclra. subst. replace ((1 - 0) * x + 0 * y)%Qc with x in E by ring. contradiction.
Qed.
Theorem seg_overlap_exact_partial a b c d : apart a b c d -> seg_overlap a b c d = true <-> meet a b c d.
Proof.
  intros (N1 & N2 & N3 & N4). split; [apply seg_overlap_sound_partial|]. intros (p & (s & S1 & S2 & Es) & (t & T1 & T2 & Et)). unfold seg_overlap. rewrite !clockwise_lt, andb_true_iff. split.
  - apply (sides_opposite _ _ s); [rewrite turn_cycle; exact N3|rewrite turn_cycle; exact N4|exact S1|exact S2|]. apply (cross_side a b c d s t). congruence.
  - rewrite <- (turn_cycle c a b), <- (turn_cycle d a b). apply (sides_opposite _ _ t); [rewrite turn_cycle; exact N1|rewrite turn_cycle; exact N2|exact T1|exact T2|]. apply (cross_side c d a b t s). congruence.
Qed.
(** in general it fails: two segments of one line that overlap *)
Theorem seg_overlap_refuted : ~ (forall a b c d, seg_overlap a b c d = true <-> meet a b c d).
Proof.
  intros G. specialize (G (q 0, q 0) (q 2, q 0) (q 1, q 0) (q 3, q 0)). assert (X : seg_overlap (q 0, q 0) (q 2, q 0) (q 1, q 0) (q 3, q 0) = true); [|vm_compute in X; discriminate]. apply G. exists (q 2, q 0). split; [exists 1%Qc|exists (Q2Qc (1 # 2))]; (split; [vm_compute; discriminate|]; split; [vm_compute; discriminate|]; unfold along; cbn [fst snd]; f_equal; apply Qc_is_canon; vm_compute; reflexivity).
Qed.
(** GetIntersection divides by s2 - s1 where it should divide by s1 - s2: for two segments that overlap, neither vertical, there is exactly one common
    point, and the point returned is on the line of the first segment at minus its abscissa *)
Theorem intersection_partial a b c d : seg_overlap a b c d = true -> fst a <> fst b -> fst c <> fst d ->
  exists p r, on_segment a b p /\ on_segment c d p /\ (forall p', on_segment a b p' -> on_segment c d p' -> p' = p) /\ intersection a b c d = Some r /\ fst r = (- fst p)%Qc /\ turn_of a b r = 0%Qc /\ (r = p <-> fst p = 0%Qc).
Proof.
  intros H Nab Ncd. destruct (overlap_params a b c d H) as (s & t & (A & B & C & D) & E & W).
  assert (Eb : forall x y : Qc, Qc_eq_bool x y = true <-> x = y) by (intros x y; split; [apply Qc_eq_bool_correct|intros ->; unfold Qc_eq_bool; destruct (Qc_eq_dec y y); congruence]).
  assert (Z : forall x y : Qc, x <> y -> Qc_eq_bool (y - x)%Qc 0%Qc = false) by (intros x y N; destruct (Qc_eq_bool (y - x)%Qc 0%Qc) eqn:X; [|reflexivity]; apply Eb in X; exfalso; apply N; replace y with (y - x + x)%Qc by ring; rewrite X; ring).
  assert (M1 : (fst b - fst a <> 0)%Qc) by (intros X; apply Nab; replace (fst b) with (fst b - fst a + fst a)%Qc by ring; rewrite X; ring). assert (M2 : (fst d - fst c <> 0)%Qc) by (intros X; apply Ncd; replace (fst d) with (fst d - fst c + fst c)%Qc by ring; rewrite X; ring).
  unfold intersection, slope. rewrite (Z _ _ Nab), (Z _ _ Ncd).
  set (s1 := ((snd b - snd a) / (fst b - fst a))%Qc). set (s2 := ((snd d - snd c) / (fst d - fst c))%Qc).
  assert (Ws : (turn_of a c d - turn_of b c d = (fst b - fst a) * (fst d - fst c) * (s2 - s1))%Qc) by (unfold s1, s2, turn_of; field; auto).
  assert (Ns : (s2 - s1 <> 0)%Qc) by (intros X; apply W; rewrite Ws, X; ring).
  destruct (Qc_eq_bool (s2 - s1)%Qc 0%Qc) eqn:X; [apply Eb in X; contradiction|]. clear X.
  assert (On : forall p, on_segment a b p -> snd p = (s1 * fst p + (snd b - s1 * fst b))%Qc) by (intros p (u & _ & _ & ->); unfold along, s1; cbn [fst snd]; field; exact M1).
  assert (On' : forall p, on_segment c d p -> snd p = (s2 * fst p + (snd d - s2 * fst d))%Qc) by (intros p (u & _ & _ & ->); unfold along, s2; cbn [fst snd]; field; exact M2).
  assert (Un : forall p, on_segment a b p -> on_segment c d p -> ((snd d - s2 * fst d - (snd b - s1 * fst b)) / (s2 - s1) = - fst p)%Qc).
  { intros p P1 P2. specialize (On p P1). specialize (On' p P2). rewrite On in On'. clearbody s1 s2. clear -On' Ns. assert (K : ((snd d - s2 * fst d - (snd b - s1 * fst b)) = - (s2 - s1) * fst p)%Qc) by (replace (snd d - s2 * fst d - (snd b - s1 * fst b))%Qc with ((s2 * fst p + (snd d - s2 * fst d)) - (s1 * fst p + (snd b - s1 * fst b)) - (s2 - s1) * fst p)%Qc by ring; rewrite <- On'; ring). rewrite K. field. exact Ns. }
  assert (P1 : on_segment a b (along a b s)) by (exists s; auto). assert (P2 : on_segment c d (along a b s)) by (exists t; auto). set (p := along a b s) in *.
  exists p. cbv zeta. eexists. split; [exact P1|]. split; [exact P2|]. split.
  - intros p' Q1 Q2. assert (F : fst p' = fst p) by (pose proof (Un _ Q1 Q2) as U1; rewrite (Un _ P1 P2) in U1; replace (fst p') with (- (- fst p'))%Qc by ring; rewrite <- U1; ring). rewrite (surjective_pairing p'), (surjective_pairing p), (On p' Q1), (On p P1), F. reflexivity.
  - split; [reflexivity|]. cbn [fst]. split; [apply (Un _ P1 P2)|]. rewrite (Un _ P1 P2). split; [unfold turn_of, s1; cbn [fst snd]; field; exact M1|]. split; intros Y.
    + apply (f_equal fst) in Y. cbn [fst] in Y. revert Y. generalize (fst p). clear. intros x Y. qclra.
    + rewrite (surjective_pairing p), (On p P1), Y. f_equal; ring.
Qed.
Theorem intersection_refuted : ~ (forall a b c d p, seg_overlap a b c d = true -> fst a <> fst b -> fst c <> fst d -> intersection a b c d = Some p -> on_segment a b p /\ on_segment c d p).
Proof.
  intros G. specialize (G (q 0, q 0) (q 2, q 2) (q 0, q 2) (q 2, q 0) (q (-1), q (-1))). destruct G as ((s & A & _ & E) & _).
  - vm_compute. reflexivity.
  - intros X. apply (f_equal this) in X. vm_compute in X. discriminate.
  - intros X. apply (f_equal this) in X. vm_compute in X. discriminate.
  - unfold intersection, slope. cbn [fst snd]. destruct (Qc_eq_bool (q 2 - q 0)%Qc 0%Qc) eqn:X; [vm_compute in X; discriminate|]. destruct (Qc_eq_bool _ _) eqn:Y; [vm_compute in Y; discriminate|]. f_equal. f_equal; apply Qc_is_canon; vm_compute; reflexivity.
  - apply (f_equal fst) in E. unfold along in E. cbn [fst] in E. assert (Z : (q 0 + s * (q 2 - q 0) = s + s)%Qc) by (replace (q 2) with (1 + 1)%Qc by (apply Qc_is_canon; vm_compute; reflexivity); replace (q 0) with 0%Qc by (apply Qc_is_canon; vm_compute; reflexivity); ring). rewrite Z in E. assert (Y : q (-1) = (- (1))%Qc) by (apply Qc_is_canon; vm_compute; reflexivity). rewrite Y in E. clear -E A. qclra.
Qed.
