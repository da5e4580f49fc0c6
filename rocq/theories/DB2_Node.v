(** Proofs about the acceptors of the R*-tree queries. *)
From Coq Require Import QArith Qcanon Qround Lqa.
From Verif Require Import Base QcUtil Solver_Model Solver_Proofs SPS_Model DB2_Model DB2_Spec DB2_FN DB2_Sim.
Import DB2_Model DB2_Spec. Local Open Scope nat_scope.

(** with the clamp as it is written, every comparison reads past the end of fBadWireSum *)
Lemma is_near_undef ex eps eps2 pitch bws t b : is_near ex eps eps2 pitch bws t b = Undef.
Proof.
  unfold is_near, bridge. cbv zeta. generalize (wire_of pitch (half (x0 t) (x1 t))). intros w.
  destruct (Nat.ltb_spec w (length bws)); unfold idx; [rewrite (proj2 (nth_error_None _ _)) by lia; reflexivity|]. rewrite (proj2 (nth_error_None _ _)) by lia. reflexivity.
Qed.
Lemma tree_ind' (P : tree -> Prop) : (forall b i, P (Leaf_ b i)) -> (forall b ch, (forall t, In t ch -> P t) -> P (Node_ b ch)) -> forall t, P t.
Proof.
  intros Hl Hn. fix F 1. intros [b i|b ch]; [apply Hl|]. apply Hn. induction ch as [|c r IH]; intros t Ht; [destruct Ht|]. destruct Ht as [<-|Ht]; [apply F|apply IH, Ht].
Qed.
Lemma query_node an al b ch : query an al (Node_ b ch) =
  do ok <- an b;
  if ok then (fix go (l : list tree) : outcome (list nat) :=
                match l with [] => Ok [] | c :: r => do x <- query an al c; do y <- go r; Ok (x ++ y) end) ch
  else Ok [].
Proof. reflexivity. Qed.
Section U.
Variables (an al : box -> outcome bool).
Hypothesis An : forall b, an b = Undef \/ an b = Ok true.
Hypothesis Al : forall b, al b = Undef.
Lemma query_total t : query an al t = Undef \/ exists l, query an al t = Ok l.
Proof.
  induction t as [b i|b ch IH] using tree_ind'; [left; cbn; rewrite Al; reflexivity|]. rewrite query_node. destruct (An b) as [->| ->]; cbn [obind]; [auto|].
  induction ch as [|c r IHr]; [eauto|]. destruct (IH c (or_introl eq_refl)) as [->|[x ->] ]; cbn [obind]; [auto|]. destruct IHr as [E|[y E] ]; [intros t Ht; apply IH; right; exact Ht| |]; rewrite E; cbn [obind]; eauto.
Qed.
Lemma query_undef q i t : (forall bx ch, leaf_of q i (Node_ bx ch) -> good_tree (Node_ bx ch) -> an bx = Ok true) -> good_tree t -> leaf_of q i t -> query an al t = Undef.
Proof.
  intros Hn. revert t. induction t as [b j|b ch IH] using tree_ind'; intros G L; [cbn; rewrite Al; reflexivity|]. rewrite query_node, (Hn b ch L G). cbn [obind].
  inversion L as [|? ? ? ? t Ht Lt]; subst. inversion G as [|? ? Gc _]; subst. clear L G.
  assert (G : forall l, (forall c, In c l -> In c ch) -> In t l -> (fix go (l : list tree) : outcome (list nat) :=
                match l with [] => Ok [] | c :: r => do x <- query an al c; do y <- go r; Ok (x ++ y) end) l = Undef).
  { induction l as [|c r IHr]; intros Sub Hin; [destruct Hin|]. destruct Hin as [->|Hin].
    - rewrite (IH t Ht (Gc t Ht) Lt). reflexivity.
    - destruct (query_total c) as [->|[x ->] ]; cbn [obind]; [reflexivity|]. rewrite IHr; [reflexivity|intros d Hd; apply Sub; right; exact Hd|exact Hin]. }
  apply G; auto.
Qed.
End U.
Lemma absq_nonneg x : (Q2Qc 0 <= absq x)%Qc.
Proof. unfold absq. destruct (Qclt_le_dec x (Q2Qc 0)); [qclra|assumption]. Qed.
Lemma bounds_eq a b : (x0 b = px a /\ x1 b = px a /\ y0 b = py a - absq (pw a / Q2Qc 2) /\ y1 b = py a + absq (pw a / Q2Qc 2))%Qc -> bounds a = b.
Proof. intros (A & B' & C' & D). destruct b as [b0 b1 b2 b3]. cbn in *. unfold bounds. rewrite !absq_eq. congruence. Qed.
Lemma overlaps_in a bx : inside (bounds a) bx -> overlaps (bounds a) bx = true.
Proof.
  intros (A & B' & C' & D). unfold overlaps, bounds in *. cbn [x0 x1 y0 y1] in *. rewrite absq_eq in *. pose proof (absq_nonneg (pw a / Q2Qc 2)) as N. revert N A B' C' D. generalize (absq (pw a / Q2Qc 2)). intros w N A B' C' D.
  rewrite !(proj2 (qc_lt_false _ _)) by qclra. reflexivity.
Qed.
Lemma tree_undef ex eps eps2 pitch maxw bws ps t point a : tree_of ps t -> nth_error ps point = Some a ->
  query (accept_node ex eps eps2 pitch maxw bws (bounds a)) (is_near ex eps eps2 pitch bws (bounds a)) t = Undef.
Proof.
  intros [G Hp] Ha. destruct (Hp point a Ha) as (b & Lb & Eb). apply bounds_eq in Eb. subst b.
  apply query_undef with (q := bounds a) (i := point); [| | |exact G|exact Lb].
  { intros b. unfold accept_node. destruct (overlaps _ b); [right; reflexivity|left; apply is_near_undef]. }
  { intros b. apply is_near_undef. }
  intros bx ch L Gn. unfold accept_node. rewrite overlaps_in; [reflexivity|]. inversion Gn as [|? ? _ X]; subst. apply (X _ _ L).
Qed.
Lemma region_undef ex eps eps2 pitch maxw bws ps t point : tree_of ps t -> point < length ps ->
  region_query ex eps eps2 pitch maxw bws ps t point = Undef /\ region_query_set ex eps eps2 pitch maxw bws ps t point = Undef.
Proof.
  intros T H. unfold region_query, region_query_set. rewrite (idx_ok ps point pt0 H). cbn [obind]. rewrite (tree_undef _ _ _ _ _ _ ps t point _ T (nth_error_nth' _ _ H)). split; reflexivity.
Qed.
Lemma run_fn_undef nb minpts fuel n : 0 < n -> nb 0 = Undef -> run_fn nb minpts fuel n = Undef.
Proof. intros H E. destruct n as [|n]; [lia|]. unfold run_fn. cbn -[fn_loop]. rewrite E. reflexivity. Qed.
Lemma run_paper_undef rq minpts fuel n : 0 < n -> rq 0 = Undef -> run_paper rq minpts fuel n = Undef.
Proof. intros H E. destruct n as [|n]; [lia|]. unfold run_paper, expand. cbn -[expand_loop]. rewrite E. reflexivity. Qed.

(* ---------------------------------------------------------------- nodes without wires to bridge *)

Lemma absq_sq x : (absq x * absq x = x * x)%Qc.
Proof. unfold absq. destruct (Qclt_le_dec x (Q2Qc 0)); ring. Qed.
Definition clamp (v : Qc) : Qc := let v := if qc_lt v (Q2Qc 1) then Q2Qc 1 else v in if qc_lt (Q2Qc (625 # 100)) v then Q2Qc (625 # 100) else v.
Definition factor (ex : Qc -> Qc) (a b : box) : Qc :=
  clamp (ex (Q2Qc (46 # 10) * ((y1 a - y0 a) * (y1 a - y0 a) + (y1 b - y0 b) * (y1 b - y0 b))) * Q2Qc (1 # 10))%Qc.
Lemma clamp_mono u v : (u <= v -> clamp u <= clamp v)%Qc.
Proof. intros H. unfold clamp, qc_lt. cbv zeta. destruct (Qclt_le_dec u (Q2Qc 1)); destruct (Qclt_le_dec v (Q2Qc 1)); repeat match goal with |- context[Qclt_le_dec ?a ?b] => destruct (Qclt_le_dec a b) end; qclra. Qed.
Lemma clamp_pos v : (Q2Qc 0 < clamp v)%Qc.
Proof. unfold clamp, qc_lt. cbv zeta. destruct (Qclt_le_dec v (Q2Qc 1)); repeat match goal with |- context[Qclt_le_dec ?a ?b] => destruct (Qclt_le_dec a b) end; qclra. Qed.
Lemma near0 ex eps eps2 pitch t b : (Q2Qc 0 < eps -> Q2Qc 0 < eps2 ->
  (near_with ex eps eps2 pitch 0 t b = true <->
   let dx := half (x0 t) (x1 t) - half (x0 b) (x1 b) in let dy := half (y0 t) (y1 t) - half (y0 b) (y1 b) in
   dx * dx * (eps2 * eps2 * factor ex t b) + dy * dy * (eps * eps) <= eps * eps * (eps2 * eps2 * factor ex t b)))%Qc.
Proof.
  intros He He2. unfold near_with. cbv zeta. rewrite !absq_eq, !absq_sq. fold (clamp (ex (Q2Qc (46 # 10) * ((y1 t - y0 t) * (y1 t - y0 t) + (y1 b - y0 b) * (y1 b - y0 b))) * Q2Qc (1 # 10))%Qc). fold (factor ex t b).
  set (X := (half (x0 t) (x1 t) - half (x0 b) (x1 b))%Qc). set (Y := (half (y0 t) (y1 t) - half (y0 b) (y1 b))%Qc).
  assert (Z0 : (qc_nat 0 * pitch = Q2Qc 0)%Qc) by exact (Qcmult_0_l pitch). rewrite Z0.
  assert (E1 : ((absq X - Q2Qc 0) * (absq X - Q2Qc 0) = X * X)%Qc) by (rewrite <- (absq_sq X); ring).
  assert (E2 : forall c : bool, (let g := if c then (Q2Qc 0 * absq (Y / X))%Qc else Q2Qc 0 in (absq Y - g) * (absq Y - g) = Y * Y)%Qc) by (intros []; cbv zeta; rewrite <- (absq_sq Y); ring).
  rewrite E1, E2. rewrite Bool.negb_true_iff, qc_lt_false.
  pose proof (clamp_pos (ex (Q2Qc (46 # 10) * ((y1 t - y0 t) * (y1 t - y0 t) + (y1 b - y0 b) * (y1 b - y0 b))) * Q2Qc (1 # 10))%Qc) as W. fold (factor ex t b) in W. generalize dependent (factor ex t b). intros w W.
  generalize (X * X)%Qc (Y * Y)%Qc. clear -He He2 W. intros A B0.
  assert (P1 : (0 < eps * eps)%Qc) by qcnra. assert (P2' : (0 < eps2 * eps2)%Qc) by qcnra. assert (P2 : (0 < eps2 * eps2 * w)%Qc) by (generalize dependent (eps2 * eps2)%Qc; intros; qcnra).
  revert P1 P2. generalize (eps * eps)%Qc (eps2 * eps2 * w)%Qc. clear. intros p q P Q.
  assert (E : (A * q + B0 * p = (A / p + B0 / q) * (p * q))%Qc) by (field; split; intros X; subst; discriminate).
  rewrite E. generalize (A / p + B0 / q)%Qc. intros t. assert (0 < p * q)%Qc by qcnra. generalize dependent (p * q)%Qc. intros. split; intros; qcnra.
Qed.
Lemma half_same x : half x x = x.
Proof. unfold half. assert (T : Q2Qc 2 <> Q2Qc 0) by (intros X; discriminate). replace (x + x)%Qc with (x * Q2Qc 2)%Qc; [field; exact T|]. assert (E : Q2Qc 2 = (1 + 1)%Qc) by (apply Qc_is_canon; reflexivity). rewrite E. ring. Qed.
Lemma half_span x w : half (x - w / Q2Qc 2) (x + w / Q2Qc 2) = x.
Proof. unfold half. replace (x - w / Q2Qc 2 + (x + w / Q2Qc 2))%Qc with (x + x)%Qc by ring. apply half_same. Qed.
Lemma span_w x w : (x + w / Q2Qc 2 - (x - w / Q2Qc 2) = w)%Qc.
Proof. transitivity (half w w); [unfold half, Qcdiv; ring|apply half_same]. Qed.
Lemma sq_le a b : (absq a <= absq b -> a * a <= b * b)%Qc.
Proof. intros H. rewrite <- (absq_sq a), <- (absq_sq b). pose proof (absq_nonneg a). pose proof (absq_nonneg b). generalize dependent (absq a). generalize dependent (absq b). intros. qcnra. Qed.
(** a node that is not entirely on the low-wire side of the point and contains a near point is accepted *)
Lemma node_kept ex eps eps2 pitch maxw t node leaf : (Q2Qc 0 < eps -> Q2Qc 0 < eps2 ->
  (forall u v, Q2Qc 0 <= u -> u <= v -> ex u <= ex v) ->
  x0 leaf = x1 leaf -> y0 leaf <= y1 leaf -> y1 leaf - y0 leaf <= maxw -> inside leaf node ->
  half (x0 t) (x1 t) <= x1 node ->
  near_with ex eps eps2 pitch 0 t leaf = true -> accept_node_with ex eps eps2 pitch maxw 0 t node = true)%Qc.
Proof.
  intros He He2 Mo Lx Ly Lw (I1 & I2 & I3 & I4) Right N. unfold accept_node_with. apply Bool.orb_true_iff. right.
  apply near0 in N; [|assumption|assumption]. apply near0; [assumption|assumption|]. cbv zeta in *.
  unfold nearest_point in *. cbv zeta in *. rewrite (proj2 (qc_lt_false (x1 node) (half (x0 t) (x1 t))) Right).
  set (cx := half (x0 t) (x1 t)) in *. set (cy := half (y0 t) (y1 t)) in *.
  set (nx := if qc_lt cx (x0 node) then x0 node else cx). set (ny := if qc_lt cy (y0 node) then y0 node else cy).
  set (np := B nx nx (ny - maxw / Q2Qc 2) (ny + maxw / Q2Qc 2)).
  assert (Wf : (factor ex t leaf <= factor ex t np)%Qc).
  { unfold factor. apply clamp_mono. unfold np. cbn [y0 y1]. rewrite span_w.
    assert (D : (ex (Q2Qc (46 # 10) * ((y1 t - y0 t) * (y1 t - y0 t) + (y1 leaf - y0 leaf) * (y1 leaf - y0 leaf))) <= ex (Q2Qc (46 # 10) * ((y1 t - y0 t) * (y1 t - y0 t) + maxw * maxw)))%Qc).
    { apply Mo; generalize (y1 t - y0 t)%Qc; intros d; revert Ly Lw; generalize (y0 leaf) (y1 leaf); clear; intros; [assert (0 <= d * d)%Qc by qcnra; assert (0 <= (q0 - q) * (q0 - q))%Qc by qcnra; qclra|]. assert ((q0 - q) * (q0 - q) <= maxw * maxw)%Qc by qcnra. qclra. }
    revert D. generalize (ex (Q2Qc (46 # 10) * ((y1 t - y0 t) * (y1 t - y0 t) + (y1 leaf - y0 leaf) * (y1 leaf - y0 leaf)))%Qc) (ex (Q2Qc (46 # 10) * ((y1 t - y0 t) * (y1 t - y0 t) + maxw * maxw))%Qc). intros. qclra. }
  assert (Hx : half (x0 leaf) (x1 leaf) = x0 leaf) by (rewrite <- Lx; apply half_same).
  assert (Hy : (y0 leaf <= half (y0 leaf) (y1 leaf))%Qc). { unfold half. generalize dependent (y0 leaf). generalize dependent (y1 leaf). intros. clear -Ly. assert (E : q0 = ((q0 + q0) / Q2Qc 2)%Qc) by (symmetry; apply half_same). rewrite E at 1. unfold Qcdiv. assert (0 < / Q2Qc 2)%Qc by reflexivity. generalize dependent (/ Q2Qc 2)%Qc. intros. qcnra. }
  assert (Nx : half (x0 np) (x1 np) = nx) by (unfold np; cbn [x0 x1]; apply half_same).
  assert (Ny : half (y0 np) (y1 np) = ny) by (unfold np; cbn [y0 y1]; apply half_span).
  rewrite Nx, Ny. rewrite Hx in N.
  assert (Sx : ((cx - nx) * (cx - nx) <= (cx - x0 leaf) * (cx - x0 leaf))%Qc).
  { unfold nx. destruct (qc_lt cx (x0 node)) eqn:C; [apply qc_lt_spec in C|]; [|assert (0 <= (cx - x0 leaf) * (cx - x0 leaf))%Qc by (generalize (cx - x0 leaf)%Qc; intros; qcnra); replace ((cx - cx) * (cx - cx))%Qc with (Q2Qc 0) by ring; assumption]. apply sq_le. unfold absq. repeat match goal with |- context[Qclt_le_dec ?a ?b] => destruct (Qclt_le_dec a b) end; qclra. }
  assert (Sy : ((cy - ny) * (cy - ny) <= (cy - half (y0 leaf) (y1 leaf)) * (cy - half (y0 leaf) (y1 leaf)))%Qc).
  { generalize dependent (half (y0 leaf) (y1 leaf)). intros h _ Hy. unfold ny. destruct (qc_lt cy (y0 node)) eqn:C; [apply qc_lt_spec in C|]; [|assert (0 <= (cy - h) * (cy - h))%Qc by (generalize (cy - h)%Qc; intros; qcnra); replace ((cy - cy) * (cy - cy))%Qc with (Q2Qc 0) by ring; assumption]. apply sq_le. unfold absq. repeat match goal with |- context[Qclt_le_dec ?a ?b] => destruct (Qclt_le_dec a b) end; qclra. }
  assert (B0 : (0 <= (cy - ny) * (cy - ny))%Qc) by (generalize (cy - ny)%Qc; clear; intros; qcnra).
  revert B0 N Wf Sx Sy.
  generalize ((cx - nx) * (cx - nx))%Qc ((cx - x0 leaf) * (cx - x0 leaf))%Qc ((cy - ny) * (cy - ny))%Qc ((cy - half (y0 leaf) (y1 leaf)) * (cy - half (y0 leaf) (y1 leaf)))%Qc. 
  assert (W0 : (0 < factor ex t leaf)%Qc) by apply clamp_pos. revert W0. generalize (factor ex t leaf) (factor ex t np).
  assert (P1 : (0 < eps * eps)%Qc) by qcnra. assert (P2 : (0 < eps2 * eps2)%Qc) by qcnra. revert P1 P2. generalize (eps * eps)%Qc (eps2 * eps2)%Qc. clear.
  intros p q P Q w w' W a a' b b' B0 N Wf Sx Sy.
  assert (QW : (0 < q * w)%Qc) by qcnra.
  assert (M : (a * (q * w) + b * p <= p * (q * w))%Qc). { generalize dependent (q * w)%Qc. intros. qcnra. }
  assert (BP : (0 <= b * p)%Qc) by qcnra.
  assert (Pa : (0 <= p - a)%Qc). { clear -M BP QW. generalize dependent (q * w)%Qc. generalize dependent (b * p)%Qc. intros x X y Y M. destruct (Qclt_le_dec (p - a) (Q2Qc 0)); [exfalso; qcnra|assumption]. }
  assert (D : (q * w <= q * w')%Qc) by (clear -Q Wf; qcnra).
  clear -M Pa D. generalize dependent (q * w)%Qc. generalize dependent (q * w')%Qc. generalize dependent (b * p)%Qc. intros x y z M D. qcnra.
Qed.
