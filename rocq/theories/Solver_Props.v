(** Properties C15-C19: QuadExpr and the space point solver. *)
From Coq Require Import QArith Qcanon NArith.
From Verif Require Import Base Util QcUtil Solver_Model Solver_Spec Solver_Proofs Solver_Charge Solver_Min Solver_Sched.
Local Open Scope Qc_scope.

(* ------------------------------------------------------------------ C15 *)
(** an expression and its value at x *)
Inductive expr := EConst (v : Qc) | EX | EAdd (a b : expr) | ESub (a b : expr) | EMul (a b : expr).
Fixpoint value (e : expr) (x : Qc) : Qc :=
  match e with
  | EConst v => v | EX => x
  | EAdd a b => value a x + value b x | ESub a b => value a x - value b x | EMul a b => value a x * value b x
  end.
(** the same expression computed with QuadExpr operators *)
Fixpoint compute (e : expr) : outcome quad :=
  match e with
  | EConst v => Ok (qconst v) | EX => Ok qX
  | EAdd a b => do u <- compute a; do v <- compute b; Ok (qadd u v)
  | ESub a b => do u <- compute a; do v <- compute b; Ok (qsub u v)
  | EMul a b => do u <- compute a; do v <- compute b; qmul u v
  end.

Theorem quadexpr_evaluates_expressions : forall e q, compute e = Ok q -> forall x, qeval q x = value e x.
Proof.
  induction e as [v| |a IHa b IHb|a IHa b IHb|a IHa b IHb]; simpl; intros q H x.
  - inversion H. apply qconst_eval.
  - inversion H. apply qX_eval.
  - destruct (compute a) as [u| |]; try discriminate. destruct (compute b) as [v| |]; try discriminate. inversion H. rewrite qadd_eval, (IHa u), (IHb v); auto.
  - destruct (compute a) as [u| |]; try discriminate. destruct (compute b) as [v| |]; try discriminate. inversion H. rewrite qsub_eval, (IHa u), (IHb v); auto.
  - destruct (compute a) as [u| |]; try discriminate. destruct (compute b) as [v| |]; try discriminate. simpl in H. rewrite (qmul_eval _ _ _ _ H), (IHa u), (IHb v); auto.
Qed.
Print Assumptions quadexpr_evaluates_expressions.

(** operator* aborts exactly if no polynomial of degree two agrees with the product everywhere *)
Theorem quadexpr_product_aborts_iff_not_quadratic : forall e f,
  (qmul e f = Throw AbortExn \/ exists r, qmul e f = Ok r) /\
  (qmul e f = Throw AbortExn <-> ~ exists r, forall x, qeval r x = qeval e x * qeval f x).
Proof.
  intros e f. split; [unfold qmul; destruct (_ || _); eauto|]. split.
  - intros H (r & Hr). apply qmul_abort in H.
    (* a quartic that agrees with a quadratic at -2..2 has no terms of degree 3 and 4 *)
    set (A := q_a e * q_a f) in *. set (B := q_a e * q_b f + q_b e * q_a f) in *.
    assert (F4 : forall g : Qc -> Qc, g = (fun x => qeval e x * qeval f x - qeval r x) ->
       g two + g (- two) - (two * two) * (g 1 + g (- (1))) + (two * two + two) * g 0 = (two * two) * (two * two + two) * A).
    { intros g ->. unfold qeval, A, two. ring. }
    assert (F3 : forall g : Qc -> Qc, g = (fun x => qeval e x * qeval f x - qeval r x) ->
       g two - g (- two) - two * (g 1 - g (- (1))) = (two * two) * (two + 1) * B).
    { intros g ->. unfold qeval, B, two. ring. }
    specialize (F4 _ eq_refl). specialize (F3 _ eq_refl). cbv beta in F3, F4. rewrite !Hr in F3. rewrite !Hr in F4.
    destruct H as [H|H]; apply H; clearbody A B.
    + assert (Z : (two * two) * (two * two + two) * A = 0) by (rewrite <- F4; ring).
      destruct (Qcmult_integral _ _ Z) as [Z'|Z']; [discriminate Z'|exact Z'].
    + assert (Z : (two * two) * (two + 1) * B = 0) by (rewrite <- F3; ring).
      destruct (Qcmult_integral _ _ Z) as [Z'|Z']; [discriminate Z'|exact Z'].
  - intros H. destruct (qmul e f) as [r|ex|] eqn:E.
    + exfalso. apply H. exists r. intros x. apply qmul_eval, E.
    + unfold qmul in E. destruct (_ || _); inversion E; reflexivity.
    + unfold qmul in E. destruct (_ || _); discriminate.
Qed.
Print Assumptions quadexpr_product_aborts_iff_not_quadratic.

Example ex_expr : exists q, compute (EMul (EAdd EX (EConst two)) (ESub (EConst 1) EX)) = Ok q /\ q_a q = - (1).
Proof. eexists. split; vm_compute; reflexivity. Qed.
Example ex_abort : compute (EMul EX (EMul EX EX)) = Throw AbortExn.
Proof. vm_compute. reflexivity. Qed.

(* ------------------------------------------------------------------ C16, C17 *)
(** the system is built without error, and after any schedule of updates whatever, each with its own alpha, the
    predictions are consistent, every collection wire's charge is conserved and no charge is negative *)
Theorem solver_consistent_and_conserving :
  forall N cws orphans, WF N (all_scs cws orphans) -> (forall w, In w cws -> 0 <= cw_q w) ->
  exists m0, build N cws orphans = Ok m0 /\
  forall ops, (forall o, In o ops -> op_ok N cws orphans o) ->
  exists m, foreach ops (run_op N cws) m0 = Ok m /\
    Consistent N (all_scs cws orphans) m /\ Conserved cws orphans m.
Proof.
  intros N cws orphans W Hq. destruct (build_ok N cws orphans W Hq) as (m0 & E & G & K). exists m0. split; [exact E|].
  intros ops Hok. destruct (run_ops_ok N cws orphans W ops m0 Hok G K) as (m & E' & G' & K'). exists m. split; [exact E'|].
  split; [exact (proj1 G')|exact K'].
Qed.
Print Assumptions solver_consistent_and_conserving.

(* ------------------------------------------------------------------ C18 *)
Theorem pair_metric_is_exact_change :
  forall N scs alpha i j m, WF N scs -> In i scs -> In j scs -> i <> j -> Consistent N scs m ->
  exists chisq, metric_pair N alpha i j m = Ok chisq /\
    forall x, qeval chisq x - qeval chisq 0 = energy N alpha scs (moved (m_pred m) i j x) - energy N alpha scs (m_pred m).
Proof.
  intros N scs alpha i j m W Hi Hj Hij C. destruct (metric_pair_ok N alpha i j m) as (e & E & He). exists e. split; [exact E|].
  intros x. rewrite !He, (pair_val_delta N scs) by assumption.
  rewrite !metric_scs_energy by (try apply move_consistent; assumption).
  rewrite (energy_ext N alpha scs _ (moved (m_pred m) i j x)); [reflexivity|]. intros s. apply move_pred, Hij.
Qed.
Print Assumptions pair_metric_is_exact_change.

Theorem solve_pair_minimises :
  forall N scs alpha i j m, WF N scs -> In i scs -> In j scs -> i <> j -> Consistent N scs m ->
  0 <= m_pred m i -> 0 <= m_pred m j ->
  exists x, solve_pair N alpha i j m = Ok x /\ - m_pred m i <= x /\ x <= m_pred m j /\
    forall y, - m_pred m i <= y -> y <= m_pred m j ->
      energy N alpha scs (moved (m_pred m) i j x) <= energy N alpha scs (moved (m_pred m) i j y).
Proof.
  intros N scs alpha i j m W Hi Hj Hij C Pi Pj.
  destruct (solve_pair_ok N alpha i j m Pi Pj) as (e & x & E & Ex & X1 & X2 & Hmin). exists x. split; [exact Ex|]. split; [exact X1|]. split; [exact X2|].
  intros y Y1 Y2. destruct (pair_metric_is_exact_change N scs alpha i j m W Hi Hj Hij C) as (e' & E' & D). rewrite E in E'. inversion E'; subst e'.
  assert (Dx := D x). assert (Dy := D y). specialize (Hmin y Y1 Y2).
  set (a := energy _ _ _ (moved _ _ _ x)) in *. set (b := energy _ _ _ (moved _ _ _ y)) in *. set (c := energy _ _ _ (m_pred m)) in *.
  clearbody a b c. set (u := qeval e x) in *. set (v := qeval e y) in *. set (z := qeval e 0) in *. clearbody u v z. clear - Dx Dy Hmin. qclra.
Qed.
Print Assumptions solve_pair_minimises.

(** one call of Iterate(cwires, orphans, alpha) never makes the energy larger; it ends (fuel = number of wires) *)
Theorem iterate_never_increases_energy :
  forall N cws orphans alpha m, WF N (all_scs cws orphans) ->
  (orphans = [] \/ alpha < two) -> (forall s, In s orphans -> n_w1 N s <> None /\ n_w2 N s <> None) ->
  (N.of_nat (length cws) + 1299827 <= 4294967296)%N ->
  Consistent N (all_scs cws orphans) m -> Conserved cws orphans m ->
  exists m', iterate_all N alpha cws orphans (length cws) m = Ok (Some m') /\
    Consistent N (all_scs cws orphans) m' /\ Conserved cws orphans m' /\
    energy N alpha (all_scs cws orphans) (m_pred m') <= energy N alpha (all_scs cws orphans) (m_pred m) /\
    metric_scs N alpha (all_scs cws orphans) m' = energy N alpha (all_scs cws orphans) (m_pred m').
Proof.
  intros N cws orphans alpha m W Ha Hw Hb C K.
  assert (G : Good N (all_scs cws orphans) m) by (split; [exact C|exact (proj2 K)]).
  rewrite iterate_all_schedule by (auto; exact Hb).
  assert (Hok : forall o, In o (schedule alpha (length cws) orphans) -> op_ok N cws orphans o /\ op_alpha o = alpha).
  { intros o Ho. unfold schedule in Ho. apply in_app_or in Ho. destruct Ho as [Ho|Ho]; apply in_map_iff in Ho; destruct Ho as (k & <- & Hk); simpl; split; auto.
    - destruct cws as [|w cws]; [destruct Hk|]. apply order_in in Hk; simpl in *; lia.
    - split; [exact Hk|]. split; [destruct Ha as [->|Ha]; [destruct Hk|exact Ha]|]. apply Hw, Hk. }
  destruct (run_ops_ok N cws orphans W _ m (fun o Ho => proj1 (Hok o Ho)) G K) as (m' & E & G' & K').
  destruct (run_ops_metric N cws orphans alpha W _ m Hok G K) as (m'' & E' & M). rewrite E in E'. inversion E'; subst m''.
  rewrite E. exists m'. split; [reflexivity|]. split; [exact (proj1 G')|]. split; [exact K'|].
  rewrite !metric_scs_energy in M by (exact C || exact (proj1 G')). split; [exact M|]. apply metric_scs_energy, (proj1 G').
Qed.
Print Assumptions iterate_never_increases_energy.

(* ------------------------------------------------------------------ C19 *)
Theorem iterate_visits_each_wire_once_partial :
  forall N alpha cws orphans m,
  (N.of_nat (length cws) + 1299827 <= 4294967296)%N -> cws <> [] -> ~ N.divide 1299827 (N.of_nat (length cws)) ->
  exists visited, Permutation visited (seq 0 (length cws)) /\
    iterate_all N alpha cws orphans (length cws) m =
    do m' <- foreach (map (OpWire alpha) visited ++ map (OpOrphan alpha) orphans) (run_op N cws) m; Ok (Some m').
Proof.
  intros N alpha cws orphans m Hb Hne Hd. exists (order (length cws)). split.
  - apply order_full; [destruct cws; [congruence|simpl; lia]|exact Hd].
  - apply iterate_all_schedule; [exact Hb|lia].
Qed.
Print Assumptions iterate_visits_each_wire_once_partial.

(** C19 fails when the number of wires is a multiple of the stride: only every 1299827th position is visited *)
Theorem iterate_visits_each_wire_once_refuted :
  forall N alpha cws orphans m,
  N.of_nat (length cws) = 1299827%N ->
  iterate_all N alpha cws orphans (length cws) m =
  do m' <- foreach (OpWire alpha 0 :: map (OpOrphan alpha) orphans) (run_op N cws) m; Ok (Some m').
Proof.
  intros N alpha cws orphans m Hl. rewrite iterate_all_schedule; [|rewrite Hl; vm_compute; discriminate|lia].
  unfold schedule, order. rewrite Hl.
  assert (E : N.to_nat (cycle 1299827) = 1%nat) by (vm_compute; reflexivity). rewrite E. cbn [seq map app].
  assert (E2 : N.to_nat (pos 1299827 0) = 0%nat) by (vm_compute; reflexivity). rewrite E2. reflexivity.
Qed.
Print Assumptions iterate_visits_each_wire_once_refuted.

(* ------------------------------------------------------------------ non-vacuity *)
(** two collection wires, three space charges, one orphan; neighbours 0-2 *)
Definition ex_net : net := mkNet
  (fun s => match s with 0 => Some 0%nat | 1 => Some 0%nat | 2 => Some 1%nat | 3 => Some 1%nat | _ => None end)%nat
  (fun s => match s with 0 => Some 2%nat | 1 => Some 3%nat | 2 => None | 3 => Some 3%nat | _ => None end)%nat
  (fun s => match s with 0 => [(2%nat, Q2Qc (1#2))] | 2 => [(0%nat, Q2Qc (1#2))] | _ => [] end)%nat
  (fun w => match w with 0%nat => two | 1%nat => 1 | 2%nat => 0 | _ => two end).
Definition ex_cws := [mkCW two [0%nat; 1%nat]; mkCW 1 [2%nat]].
Example ex_wf : WF ex_net (all_scs ex_cws [3%nat]).
Proof.
  constructor.
  - simpl. repeat constructor; simpl; intuition discriminate.
  - intros s t c Hs H. simpl in Hs. destruct Hs as [<-|[<-|[<-|[<-|[]]]]]; simpl in *; try tauto; destruct H as [H|[]]; inversion H; auto.
  - intros s t c Hs H. simpl in Hs. destruct Hs as [<-|[<-|[<-|[<-|[]]]]]; simpl in *; try tauto; destruct H as [H|[]]; inversion H; simpl; auto.
  - intros s Hs. simpl in Hs. destruct Hs as [<-|[<-|[<-|[<-|[]]]]]; simpl; repeat constructor; simpl; tauto.
  - intros s c Hs H. simpl in Hs. destruct Hs as [<-|[<-|[<-|[<-|[]]]]]; simpl in *; try tauto; destruct H as [H|[]]; inversion H.
  - intros s t w Hs Ht. simpl in Hs, Ht. destruct Hs as [<-|[<-|[<-|[<-|[]]]]], Ht as [<-|[<-|[<-|[<-|[]]]]]; simpl; congruence.
Qed.
(** an update does change the charges and the energy *)
Example ex_moves : exists m0 x, build ex_net ex_cws [3%nat] = Ok m0 /\
  solve_pair ex_net (Q2Qc (1#20)) 0%nat 1%nat m0 = Ok x /\ x <> 0.
Proof.
  assert (H : match build ex_net ex_cws [3%nat] with
              | Ok m => match solve_pair ex_net (Q2Qc (1#20)) 0%nat 1%nat m with Ok x => negb (qc_eqb x 0) | _ => false end
              | _ => false end = true) by (vm_compute; reflexivity).
  destruct (build ex_net ex_cws [3%nat]) as [m| |]; try discriminate.
  destruct (solve_pair ex_net (Q2Qc (1#20)) 0%nat 1%nat m) as [x| |] eqn:E; try discriminate.
  exists m, x. split; [reflexivity|]. split; [exact E|]. intros ->. discriminate.
Qed.

(** with alpha = 2 an orphan update leaves the finite numbers *)
Example ex_orphan_alpha_two : exists m0, build ex_net ex_cws [3%nat] = Ok m0 /\ iterate_orphan ex_net two 3%nat m0 = Undef.
Proof.
  assert (H : match build ex_net ex_cws [3%nat] with
              | Ok m => match iterate_orphan ex_net two 3%nat m with Undef => true | _ => false end
              | _ => false end = true) by (vm_compute; reflexivity).
  destruct (build ex_net ex_cws [3%nat]) as [m| |]; try discriminate.
  destruct (iterate_orphan ex_net two 3%nat m) eqn:E; try discriminate. exists m. split; [reflexivity|exact E].
Qed.

(* ------------------------------------------------------------------ C45 *)
(** the quantity Minimize() prints and tests is Metric(cwires, alpha) *)
Theorem monitored_metric_never_increases_without_orphans_partial :
  forall N cws alpha m, WF N (all_scs cws []) ->
  (N.of_nat (length cws) + 1299827 <= 4294967296)%N ->
  Consistent N (all_scs cws []) m -> Conserved cws [] m ->
  exists m', iterate_all N alpha cws [] (length cws) m = Ok (Some m') /\
    metric_cwires N alpha cws m' <= metric_cwires N alpha cws m.
Proof.
  intros N cws alpha m W Hb C K.
  destruct (iterate_never_increases_energy N cws [] alpha m W (or_introl eq_refl) (fun s (H : In s []) => match H with end) Hb C K) as (m' & E & C' & K' & M & Em).
  exists m'. split; [exact E|]. unfold metric_cwires. unfold all_scs in *. rewrite app_nil_r in *.
  rewrite Em, (metric_scs_energy N alpha _ m C). exact M.
Qed.
Print Assumptions monitored_metric_never_increases_without_orphans_partial.

(** one collection wire that is fitted perfectly, one orphan sharing an induction wire with it *)
Definition net2 : net := mkNet
  (fun s => match s with 0%nat | 1%nat => Some 0%nat | _ => None end)
  (fun s => match s with 0%nat => Some 1%nat | 1%nat => Some 2%nat | _ => None end)
  (fun _ => [])
  (fun w => match w with 2%nat => two * two | _ => two end).
Theorem monitored_metric_increases_with_orphans_refuted :
  exists N cws orphans m m',
    WF N (all_scs cws orphans) /\ build N cws orphans = Ok m /\
    iterate_all N 0 cws orphans (length cws) m = Ok (Some m') /\
    metric_cwires N 0 cws m < metric_cwires N 0 cws m'.
Proof.
  assert (H : match build net2 [mkCW two [0%nat]] [1%nat] with
              | Ok m => match iterate_all net2 0 [mkCW two [0%nat]] [1%nat] 1 m with
                        | Ok (Some m') => qc_lt (metric_cwires net2 0 [mkCW two [0%nat]] m) (metric_cwires net2 0 [mkCW two [0%nat]] m')
                        | _ => false end
              | _ => false end = true) by (vm_compute; reflexivity).
  destruct (build net2 [mkCW two [0%nat]] [1%nat]) as [m| |] eqn:Eb; try discriminate.
  destruct (iterate_all net2 0 [mkCW two [0%nat]] [1%nat] 1 m) as [[m'|]| |] eqn:Ei; try discriminate.
  exists net2, [mkCW two [0%nat]], [1%nat], m, m'.
  split; [clear|split; [exact Eb|split; [exact Ei|apply qc_lt_spec, H]]].
  constructor; simpl; try (intros; contradiction).
  - repeat constructor; simpl; intuition discriminate.
  - intros; constructor.
  - intros s c _ [].
  - intros s t w Hs Ht. destruct Hs as [<-|[<-|[]]], Ht as [<-|[<-|[]]]; simpl; congruence.
Qed.
Print Assumptions monitored_metric_increases_with_orphans_refuted.
