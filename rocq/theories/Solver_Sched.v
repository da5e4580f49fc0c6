(** Construction of the system, schedules of updates, and the order in which Iterate visits the wires. *)
From Coq Require Import QArith Qcanon NArith Znumtheory Lqa.
From Verif Require Import Base Util QcUtil Solver_Model Solver_Spec Solver_Proofs Solver_Charge Solver_Min.
Local Open Scope Qc_scope.

(* ------------------------------------------------------------------ construction *)
Lemma qc_nat_S n : qc_nat (S n) = 1 + qc_nat n.
Proof. unfold qc_nat. apply Qc_is_canon. rewrite this_plus, !this_Q2Qc. rewrite Nat2Z.inj_succ. unfold Z.succ. rewrite inject_Z_plus. simpl. ring. Qed.
Lemma qc_nat_nonneg n : 0 <= qc_nat n.
Proof. induction n as [|n IH]; [apply Qcle_refl|]. rewrite qc_nat_S. qclra. Qed.
Lemma qc_nat_pos n : (0 < n)%nat -> 0 < qc_nat n.
Proof. destruct n; [lia|]. intros _. rewrite qc_nat_S. assert (H := qc_nat_nonneg n). qclra. Qed.
Lemma qsum_const {A} c (l : list A) : qsum (fun _ => c) l = qc_nat (length l) * c.
Proof. induction l as [|x l IH]; [replace (qc_nat (length (@nil A))) with (0:Qc) by (apply Qc_is_canon; reflexivity); change (qsum (fun _ : A => c) []) with (0:Qc); ring|]. cbn [length]. rewrite qc_nat_S, qsum_cons, IH. ring. Qed.
Lemma share q n : (0 < n)%nat -> qc_nat n * (q / qc_nat n) = q.
Proof.
  intros H. assert (P := qc_nat_pos n H). field. intros E. rewrite E in P. qclra.
Qed.
Lemma share_nonneg q n : (0 < n)%nat -> 0 <= q -> 0 <= q / qc_nat n.
Proof.
  intros H Hq. assert (P := qc_nat_pos n H). assert (E := share q n H). set (c := q / qc_nat n) in *. clearbody c.
  destruct (Qclt_le_dec c 0) as [L|L]; [|exact L]. exfalso. set (k := qc_nat n) in *. clearbody k. subst q. qc2q. nra.
Qed.

Lemma add_all N p : forall l m, NoDup l ->
  let m' := fold_left (fun m s => add_charge N s p m) l m in
  (forall s, In s l -> m_pred m' s = m_pred m s + p) /\ (forall s, ~ In s l -> m_pred m' s = m_pred m s).
Proof.
  induction l as [|k l IH]; intros m ND; simpl; [split; [intros s []|reflexivity]|].
  inversion ND as [|? ? Hni ND']; subst. destruct (IH (add_charge N k p m) ND') as [I1 I2]. split.
  - intros s [<-|Hs].
    + rewrite I2 by assumption. rewrite pred_after'. rewrite Nat.eqb_refl. reflexivity.
    + rewrite I1 by assumption. rewrite pred_after'. destruct (Nat.eqb_spec s k); [subst; contradiction|ring].
  - intros s Hs. rewrite I2 by tauto. rewrite pred_after'. destruct (Nat.eqb_spec s k); [subst; tauto|ring].
Qed.

Lemma add_all_consistent N scs p : WF N scs -> forall l m, (forall s, In s l -> In s scs) -> Consistent N scs m ->
  Consistent N scs (fold_left (fun m s => add_charge N s p m) l m).
Proof.
  intros W. induction l as [|k l IH]; intros m Hin C; simpl; [exact C|].
  apply IH; [intros; apply Hin; right; assumption|]. apply add_charge_consistent; auto. apply Hin. left; reflexivity.
Qed.

Lemma without_WF N scs : WF N scs -> WF (without_neighbours N) scs.
Proof.
  intros W. constructor; simpl.
  - apply (wf_nodup _ _ W).
  - intros s t c _ [].
  - intros s t c _ [].
  - intros s _. constructor.
  - intros s c _ [].
  - apply (wf_views _ _ W).
Qed.

Lemma NoDup_app_l {A} (l1 l2 : list A) : NoDup (l1 ++ l2) -> NoDup l1.
Proof. induction l1 as [|x l1 IH]; intros H; [constructor|]. inversion H; subst. constructor; [intros Hx; apply H2, in_or_app; auto|auto]. Qed.
Lemma NoDup_app_r {A} (l1 l2 : list A) : NoDup (l1 ++ l2) -> NoDup l2.
Proof. induction l1 as [|x l1 IH]; intros H; [exact H|]. inversion H; subst. auto. Qed.
Lemma NoDup_app_disj {A} (l1 l2 : list A) x : NoDup (l1 ++ l2) -> In x l1 -> ~ In x l2.
Proof. induction l1 as [|y l1 IH]; intros H Hx; [destruct Hx|]. inversion H; subst. destruct Hx as [->|Hx]; [intros Hx2; apply H2, in_or_app; auto|auto]. Qed.

Lemma cwires_built N scs : WF N scs -> forall cws m,
  NoDup (flat_map cw_cross cws) -> (forall s, In s (flat_map cw_cross cws) -> In s scs) ->
  (forall w, In w cws -> 0 <= cw_q w) -> Consistent N scs m ->
  exists m', foreach cws (fun m w => new_cwire N w m) m = Ok m' /\ Consistent N scs m' /\
    (forall w s, In w cws -> In s (cw_cross w) -> m_pred m' s = m_pred m s + cw_q w / qc_nat (length (cw_cross w))) /\
    (forall s, ~ In s (flat_map cw_cross cws) -> m_pred m' s = m_pred m s).
Proof.
  intros W. induction cws as [|w cws IH]; intros m ND Hin Hq C; simpl.
  { exists m. repeat split; try apply C; try reflexivity; try contradiction. }
  unfold new_cwire at 1. destruct (qc_lt (cw_q w) 0) eqn:E.
  { apply qc_lt_spec in E. specialize (Hq w (or_introl eq_refl)). exfalso. qclra. }
  cbn [obind]. set (p := cw_q w / qc_nat (length (cw_cross w))).
  simpl in ND, Hin. assert (ND1 := NoDup_app_l _ _ ND). assert (ND2 := NoDup_app_r _ _ ND).
  destruct (add_all N p (cw_cross w) m ND1) as [A1 A2].
  set (m1 := fold_left (fun m s => add_charge N s p m) (cw_cross w) m) in *.
  assert (C1 : Consistent N scs m1).
  { apply add_all_consistent; auto. intros s Hs. apply Hin, in_or_app. auto. }
  assert (Hin2 : forall s, In s (flat_map cw_cross cws) -> In s scs) by (intros s Hs; apply Hin, in_or_app; auto).
  assert (Hq2 : forall v, In v cws -> 0 <= cw_q v) by (intros v Hv; apply Hq; right; exact Hv).
  destruct (IH m1 ND2 Hin2 Hq2 C1) as (m' & E' & C' & P1 & P2).
  exists m'. split; [exact E'|]. split; [exact C'|]. split.
  - intros w' s [<-|Hw] Hs.
    + rewrite P2 by (eapply NoDup_app_disj; eassumption). apply A1, Hs.
    + rewrite (P1 w' s Hw Hs). f_equal. apply A2. intros H1. eapply (NoDup_app_disj _ _ s ND H1). apply in_flat_map. eauto.
  - intros s Hs. rewrite P2 by (intros H; apply Hs, in_or_app; auto). apply A2. intros H; apply Hs, in_or_app; auto.
Qed.

Lemma init_pot_gen N (pred : nat -> Qc) : forall l pot s, NoDup l ->
  fold_left (fun pot s => fold_left (fun pot (nc : nat * Qc) => bump pot s (snd nc * pred (fst nc))) (n_nei N s) pot) l pot s =
  if in_dec Nat.eq_dec s l then pot s + neighbour_charge N pred s else pot s.
Proof.
  assert (Inner : forall k l pot s, fold_left (fun pot (nc : nat * Qc) => bump pot k (snd nc * pred (fst nc))) l pot s =
     pot s + (if Nat.eqb s k then qsum (fun tc => snd tc * pred (fst tc)) l else 0)).
  { intros k. induction l as [|[t c] l IH]; intros pot s; simpl; [destruct (Nat.eqb s k); ring|].
    rewrite IH, bump_val. simpl. destruct (Nat.eqb s k); ring. }
  induction l as [|k l IH]; intros pot s ND; [reflexivity|]. cbn [fold_left]. inversion ND as [|? ? Hni ND']; subst.
  rewrite IH by assumption. rewrite !Inner.
  destruct (in_dec Nat.eq_dec s l) as [H1|H1], (in_dec Nat.eq_dec s (k :: l)) as [H2|H2].
  - destruct (Nat.eqb_spec s k); [subst; contradiction|ring].
  - exfalso. apply H2. right; exact H1.
  - destruct H2 as [->|H2]; [rewrite Nat.eqb_refl; reflexivity|contradiction].
  - destruct (Nat.eqb_spec s k); [subst; exfalso; apply H2; left; reflexivity|ring].
Qed.

Lemma without_charge_on N scs pred w : charge_on (without_neighbours N) scs pred w = charge_on N scs pred w.
Proof. reflexivity. Qed.

Lemma build_ok N cws orphans : WF N (all_scs cws orphans) -> (forall w, In w cws -> 0 <= cw_q w) ->
  exists m, build N cws orphans = Ok m /\ Good N (all_scs cws orphans) m /\ Conserved cws orphans m.
Proof.
  intros W Hq. unfold build. set (scs := all_scs cws orphans) in *.
  assert (NDs := wf_nodup _ _ W). assert (ND : NoDup (flat_map cw_cross cws)) by (eapply NoDup_app_l; exact NDs).
  destruct (cwires_built (without_neighbours N) scs (without_WF _ _ W) cws mem0 ND) as (m & E & C & P1 & P2); auto.
  { intros s Hs. apply in_or_app. auto. }
  { split; [|reflexivity]. intros w. unfold charge_on, mem0. cbn [m_pred m_wpred]. symmetry. apply qsum_zero'. intros s _.
    destruct (opt_eqb _ _), (opt_eqb _ _); ring. }
  rewrite E. cbn [obind]. eexists. split; [reflexivity|].
  assert (Pos : forall s, In s scs -> 0 <= m_pred m s).
  { intros s Hs. destruct (in_dec Nat.eq_dec s (flat_map cw_cross cws)) as [Hi|Hi].
    - apply in_flat_map in Hi. destruct Hi as (w & Hw & Hi). rewrite (P1 w s Hw Hi). unfold mem0. cbn [m_pred].
      assert (L : (0 < length (cw_cross w))%nat) by (destruct (cw_cross w); [destruct Hi|simpl; lia]).
      assert (S := share_nonneg (cw_q w) _ L (Hq w Hw)). qclra.
    - rewrite (P2 s Hi). apply Qcle_refl. }
  destruct C as [Cw Cp]. split; [split; [split|]|split].
  - intros w. unfold init_potentials. cbn [m_pred m_wpred]. apply Cw.
  - intros s Hs. unfold init_potentials. cbn [m_pred m_pot]. rewrite init_pot_gen by exact NDs.
    change (flat_map cw_cross cws ++ orphans) with scs.
    destruct (in_dec Nat.eq_dec s scs) as [_|Hn]; [|contradiction].
    rewrite (Cp s Hs). unfold neighbour_charge at 1. simpl. ring.
  - exact Pos.
  - intros w Hw Hne. unfold init_potentials. cbn [m_pred].
    rewrite (qsum_ext _ (fun _ => cw_q w / qc_nat (length (cw_cross w)))).
    + rewrite qsum_const. apply share. destruct (cw_cross w); [congruence|simpl; lia].
    + intros s Hs. rewrite (P1 w s Hw Hs). unfold mem0. cbn [m_pred]. ring.
  - exact Pos.
Qed.

(* ------------------------------------------------------------------ schedules *)
Lemma cross_nodup cws orphans w : NoDup (all_scs cws orphans) -> In w cws -> NoDup (cw_cross w).
Proof.
  intros ND Hw. unfold all_scs in ND. apply NoDup_app_l in ND. induction cws as [|v cws IH]; [destruct Hw|].
  simpl in ND. destruct Hw as [->|Hw]; [eapply NoDup_app_l, ND|]. apply IH; [eapply NoDup_app_r, ND|exact Hw].
Qed.
Lemma cross_in cws orphans w s : In w cws -> In s (cw_cross w) -> In s (all_scs cws orphans).
Proof. intros Hw Hs. apply in_or_app. left. apply in_flat_map. eauto. Qed.
Lemma cross_disjoint cws orphans w v s : NoDup (all_scs cws orphans) -> In w cws -> In v cws -> In s (cw_cross w) -> In s (cw_cross v) -> w = v.
Proof.
  intros ND. apply NoDup_app_l in ND. induction cws as [|u cws IH]; [intros []|]. simpl in ND.
  intros [<-|Hw] [<-|Hv] Hs1 Hs2; auto.
  - exfalso. eapply (NoDup_app_disj _ _ s ND Hs1). apply in_flat_map. eauto.
  - exfalso. eapply (NoDup_app_disj _ _ s ND Hs2). apply in_flat_map. eauto.
  - apply IH; auto. eapply NoDup_app_r, ND.
Qed.
Lemma orphan_not_cross cws orphans w s : NoDup (all_scs cws orphans) -> In w cws -> In s orphans -> ~ In s (cw_cross w).
Proof. intros ND Hw Ho Hs. apply (NoDup_app_disj _ _ s ND); [apply in_flat_map; eauto|exact Ho]. Qed.

Definition op_alpha (o : op) : Qc := match o with OpWire a _ => a | OpOrphan a _ => a end.

Lemma run_op_ok N cws orphans o m : WF N (all_scs cws orphans) -> op_ok N cws orphans o ->
  Good N (all_scs cws orphans) m -> Conserved cws orphans m ->
  exists m', run_op N cws m o = Ok m' /\ Good N (all_scs cws orphans) m' /\ Conserved cws orphans m' /\
    metric_scs N (op_alpha o) (all_scs cws orphans) m' <= metric_scs N (op_alpha o) (all_scs cws orphans) m.
Proof.
  intros W Hok G [K P]. assert (ND := wf_nodup _ _ W). destruct o as [alpha k|alpha s]; simpl in *.
  - unfold idx. destruct (nth_error cws k) as [w|] eqn:Ew; [|apply nth_error_None in Ew; lia]. cbn [obind].
    assert (Hw := nth_error_In _ _ Ew).
    destruct (iterate_cwire_ok N _ W alpha w m (cross_nodup _ _ _ ND Hw) (fun s => cross_in _ _ w s Hw) G) as (m' & E & G' & M & S & O).
    exists m'. split; [exact E|]. split; [exact G'|]. split; [|exact M]. split; [|exact (proj2 G')].
    intros v Hv Hne. destruct (list_eq_dec Nat.eq_dec (cw_cross v) (cw_cross w)) as [Eq|Neq].
    + rewrite Eq, S, <- Eq. apply K; assumption.
    + rewrite <- (K v Hv Hne). apply qsum_ext. intros s Hs. apply O. intros Hs'.
      rewrite (cross_disjoint cws orphans v w s ND Hv Hw Hs Hs') in Neq. congruence.
  - destruct Hok as (Ho & Ha & H1 & H2).
    destruct (iterate_orphan_good N _ W alpha s m) as (m' & E & G' & M & O); auto.
    { apply in_or_app; auto. }
    exists m'. split; [exact E|]. split; [exact G'|]. split; [|exact M]. split; [|exact (proj2 G')].
    intros w Hw Hne. rewrite <- (K w Hw Hne). apply qsum_ext. intros t Ht. apply O. intros ->.
    exact (orphan_not_cross _ _ _ _ ND Hw Ho Ht).
Qed.

Lemma run_ops_ok N cws orphans : WF N (all_scs cws orphans) -> forall ops m, (forall o, In o ops -> op_ok N cws orphans o) ->
  Good N (all_scs cws orphans) m -> Conserved cws orphans m ->
  exists m', foreach ops (run_op N cws) m = Ok m' /\ Good N (all_scs cws orphans) m' /\ Conserved cws orphans m'.
Proof.
  intros W. induction ops as [|o ops IH]; intros m Hok G K; simpl; [eauto|].
  destruct (run_op_ok N cws orphans o m W (Hok o (or_introl eq_refl)) G K) as (m1 & E & G1 & K1 & _). rewrite E. cbn [obind].
  apply IH; auto. intros; apply Hok; right; assumption.
Qed.

Lemma run_ops_metric N cws orphans alpha : WF N (all_scs cws orphans) -> forall ops m,
  (forall o, In o ops -> op_ok N cws orphans o /\ op_alpha o = alpha) ->
  Good N (all_scs cws orphans) m -> Conserved cws orphans m ->
  exists m', foreach ops (run_op N cws) m = Ok m' /\
    metric_scs N alpha (all_scs cws orphans) m' <= metric_scs N alpha (all_scs cws orphans) m.
Proof.
  intros W. induction ops as [|o ops IH]; intros m Hok G K; simpl; [eexists; split; [reflexivity|apply Qcle_refl]|].
  destruct (Hok o (or_introl eq_refl)) as [Ho Ha].
  destruct (run_op_ok N cws orphans o m W Ho G K) as (m1 & E & G1 & K1 & M1). rewrite E. cbn [obind].
  destruct (IH m1) as (m' & E' & M'); auto. { intros; apply Hok; right; assumption. }
  exists m'. split; [exact E'|]. rewrite Ha in M1. eapply Qcle_trans; eassumption.
Qed.

(* ------------------------------------------------------------------ the visiting order *)
Local Open Scope N_scope.
Local Notation p := step_prime.
Definition pos (n : N) (k : nat) : N := (N.of_nat k * p) mod n.

Lemma next_pos n k : 0 < n -> n + p <= 4294967296 -> next_idx n (pos n k) = pos n (S k).
Proof.
  intros Hn Hb. unfold next_idx, pos. assert (Hlt : (N.of_nat k * p) mod n < n) by (apply N.mod_lt; lia).
  rewrite (N.mod_small (_ + p)) by lia.
  assert (E : ((N.of_nat k * p) mod n + p) mod n = (N.of_nat (S k) * p) mod n).
  { rewrite N.add_mod_idemp_l by lia. f_equal. lia. }
  rewrite E. apply N.mod_small. assert ((N.of_nat (S k) * p) mod n < n) by (apply N.mod_lt; lia). unfold step_prime in *. lia.
Qed.

Definition cycle (n : N) : N := n / N.gcd n p.
Lemma pos_zero n k : 0 < n -> (pos n k = 0 <-> N.divide (cycle n) (N.of_nat k)).
Proof.
  intros Hn. unfold pos, cycle. rewrite N.mod_divide by lia. set (g := N.gcd n p).
  assert (Hg : g <> 0) by (unfold g; intros E; apply N.gcd_eq_0_l in E; lia).
  assert (En : n = n / g * g).
  { symmetry. rewrite N.mul_comm. rewrite <- N.divide_div_mul_exact; [rewrite N.mul_comm; apply N.div_mul; exact Hg|exact Hg|apply N.gcd_divide_l]. }
  assert (Ep : p = p / g * g).
  { symmetry. rewrite N.mul_comm. rewrite <- N.divide_div_mul_exact; [rewrite N.mul_comm; apply N.div_mul; exact Hg|exact Hg|apply N.gcd_divide_r]. }
  assert (Hc : N.gcd (n / g) (p / g) = 1) by (apply N.gcd_div_gcd; [exact Hg|reflexivity]).
  split.
  - intros [q Hq]. apply (N.gauss (n / g) (p / g) (N.of_nat k)); [|exact Hc].
    exists q. apply (N.mul_cancel_r _ _ g Hg).
    transitivity (N.of_nat k * p); [rewrite Ep at 2; ring|]. rewrite Hq. rewrite En at 1. ring.
  - intros [q Hq]. rewrite Hq. exists (q * (p / g)). rewrite En at 2. rewrite Ep at 1. ring.
Qed.

Lemma cycle_pos n : 0 < n -> 0 < cycle n.
Proof.
  intros Hn. unfold cycle. assert (Hg : N.gcd n p <> 0) by (intros E; apply N.gcd_eq_0_l in E; lia).
  apply N.div_str_pos. split; [lia|]. apply N.divide_pos_le; [lia|apply N.gcd_divide_l].
Qed.
Lemma cycle_le n : 0 < n -> cycle n <= n.
Proof. intros Hn. unfold cycle. apply N.div_le_upper_bound; [intros E; apply N.gcd_eq_0_l in E; lia|]. assert (N.gcd n p <> 0) by (intros E; apply N.gcd_eq_0_l in E; lia). nia. Qed.

Lemma mul_small a q c : a = q * c -> a < c -> 0 < a -> False.
Proof. intros -> H1 H2. destruct (N.eq_dec q 0) as [->|Hq]; [lia|]. assert (1 * c <= q * c) by (apply N.mul_le_mono_r; lia). lia. Qed.

Lemma visits_from n : 0 < n -> n + p <= 4294967296 -> forall r k fuel,
  (k + r = N.to_nat (cycle n))%nat -> (0 < r)%nat -> (r <= fuel)%nat ->
  visits fuel n (pos n k) = Some (map (pos n) (seq k r)).
Proof.
  intros Hn Hb. assert (Hc := cycle_pos n Hn). induction r as [|r IH]; intros k fuel Hk Hr Hf; [lia|].
  destruct fuel as [|fuel]; [lia|]. cbn [visits]. rewrite (next_pos n k Hn Hb).
  destruct r as [|r].
  - assert (Z : pos n (S k) = 0).
    { apply pos_zero; [exact Hn|]. exists 1. lia. }
    rewrite Z. reflexivity.
  - assert (Z : pos n (S k) <> 0).
    { intros E. apply pos_zero in E; [|exact Hn]. destruct E as [q Hq].
      assert (N.of_nat (S k) < cycle n) by lia. assert (0 < N.of_nat (S k)) by lia. eapply mul_small; eassumption. }
    apply N.eqb_neq in Z. rewrite Z. rewrite IH by lia. reflexivity.
Qed.

Lemma pos_inj n k1 k2 : 0 < n -> (k1 < k2)%nat -> (k2 < N.to_nat (cycle n))%nat -> pos n k1 <> pos n k2.
Proof.
  intros Hn H1 H2 E.
  assert (Z : pos n (k2 - k1) = 0).
  { unfold pos in *. replace (N.of_nat (k2 - k1)) with (N.of_nat k2 - N.of_nat k1) by lia.
    assert (D1 := N.div_mod (N.of_nat k1 * p) n ltac:(lia)). assert (D2 := N.div_mod (N.of_nat k2 * p) n ltac:(lia)).
    rewrite E in D1. set (r := (N.of_nat k2 * p) mod n) in *. set (a := N.of_nat k1 * p / n) in *. set (b := N.of_nat k2 * p / n) in *.
    replace ((N.of_nat k2 - N.of_nat k1) * p) with ((b - a) * n); [apply N.mod_mul; lia|].
    rewrite !N.mul_sub_distr_r, D1, D2. lia. }
  apply pos_zero in Z; [|exact Hn]. destruct Z as [q Hq]. assert (0 < N.of_nat (k2 - k1)) by lia.
  assert (N.of_nat (k2 - k1) < cycle n) by lia. eapply mul_small; eassumption.
Qed.

Lemma visits_nodup n : 0 < n -> NoDup (map (pos n) (seq 0 (N.to_nat (cycle n)))).
Proof.
  intros Hn. apply NoDup_nth_error. intros i j Hi E. rewrite map_length, seq_length in Hi.
  assert (Hj : (j < N.to_nat (cycle n))%nat).
  { destruct (Nat.lt_ge_cases j (N.to_nat (cycle n))) as [|G]; [assumption|]. exfalso.
    assert (nth_error (map (pos n) (seq 0 (N.to_nat (cycle n)))) j = None) by (apply nth_error_None; rewrite map_length, seq_length; lia).
    rewrite H in E. apply nth_error_None in E. rewrite map_length, seq_length in E. lia. }
  assert (V : forall k, (k < N.to_nat (cycle n))%nat -> nth_error (map (pos n) (seq 0 (N.to_nat (cycle n)))) k = Some (pos n k)).
  { intros k Hk. rewrite nth_error_map. rewrite (nth_error_nth' _ 0%nat) by (rewrite seq_length; exact Hk). rewrite seq_nth by exact Hk. reflexivity. }
  rewrite !V in E by assumption. inversion E as [E'].
  destruct (Nat.lt_trichotomy i j) as [L|[L|L]]; [exfalso; exact (pos_inj n i j Hn L Hj E')|exact L|].
  exfalso; exact (pos_inj n j i Hn L Hi (eq_sym E')).
Qed.

(** 1299827 is prime *)
Lemma step_prime_small_divisors : forallb (fun d => negb (N.eqb (p mod (N.of_nat d)) 0)) (seq 2 1140) = true.
Proof. vm_compute. reflexivity. Qed.
Lemma step_prime_is_prime d : N.divide d p -> d = 1 \/ d = p.
Proof.
  assert (Small : forall e, N.divide e p -> e < 1142 -> e = 1).
  { intros e He Hlt. destruct (N.eq_dec e 0) as [->|H0]; [destruct He as [q Hq]; rewrite N.mul_0_r in Hq; discriminate|].
    destruct (N.eq_dec e 1) as [|H1]; [assumption|]. exfalso. assert (S := step_prime_small_divisors).
    rewrite forallb_forall in S. specialize (S (N.to_nat e)). rewrite N2Nat.id in S.
    assert (I : In (N.to_nat e) (seq 2 1140)) by (apply in_seq; lia). specialize (S I).
    apply N.mod_divide in He; [|lia]. rewrite He in S. discriminate. }
  intros [q Hq]. destruct (N.lt_ge_cases d 1142) as [L|L].
  - left. apply Small; [exists q; exact Hq|exact L].
  - right. assert (q < 1142) by (unfold step_prime in *; nia). assert (q = 1) by (apply Small; [exists d; lia|assumption]).
    subst q. lia.
Qed.

Lemma cycle_full n : 0 < n -> ~ N.divide p n -> cycle n = n.
Proof.
  intros Hn Hd. unfold cycle. destruct (step_prime_is_prime (N.gcd n p) (N.gcd_divide_r _ _)) as [E|E].
  - rewrite E. apply N.div_1_r.
  - exfalso. apply Hd. rewrite <- E. apply N.gcd_divide_l.
Qed.
Lemma cycle_short n : 0 < n -> N.divide p n -> cycle n = n / p.
Proof.
  intros Hn Hd. unfold cycle. f_equal. rewrite N.gcd_comm. apply N.divide_gcd_iff; [lia|exact Hd].
Qed.
Local Close Scope N_scope.
Local Open Scope Qc_scope.

Lemma visits_all (n : nat) fuel : (0 < n)%nat -> (N.of_nat n + step_prime <= 4294967296)%N -> (n <= fuel)%nat ->
  visits fuel (N.of_nat n) 0 = Some (map (pos (N.of_nat n)) (seq 0 (N.to_nat (cycle (N.of_nat n))))).
Proof.
  intros Hn Hb Hf. assert (P : pos (N.of_nat n) 0 = 0%N) by (unfold pos; simpl; apply N.mod_0_l; lia).
  rewrite <- P at 1. assert (C := cycle_pos (N.of_nat n) ltac:(lia)). assert (C' := cycle_le (N.of_nat n) ltac:(lia)).
  apply visits_from; lia.
Qed.

(** the wires visited, as positions in the container *)
Definition order (n : nat) : list nat := map (fun k => N.to_nat (pos (N.of_nat n) k)) (seq 0 (N.to_nat (cycle (N.of_nat n)))).
Lemma order_nodup n : (0 < n)%nat -> NoDup (order n).
Proof.
  intros Hn. unfold order. rewrite <- (map_map (pos (N.of_nat n)) N.to_nat). apply FinFun.Injective_map_NoDup.
  - intros a b H. apply N2Nat.inj, H.
  - apply visits_nodup. lia.
Qed.
Lemma order_in n k : (0 < n)%nat -> In k (order n) -> (k < n)%nat.
Proof.
  intros Hn H. unfold order in H. apply in_map_iff in H. destruct H as (i & <- & _).
  assert (pos (N.of_nat n) i < N.of_nat n)%N by (apply N.mod_lt; lia). lia.
Qed.
Lemma order_length n : length (order n) = N.to_nat (cycle (N.of_nat n)).
Proof. unfold order. rewrite map_length, seq_length. reflexivity. Qed.
Lemma order_full n : (0 < n)%nat -> ~ N.divide step_prime (N.of_nat n) -> Permutation (order n) (seq 0 n).
Proof.
  intros Hn Hd. apply NoDup_Permutation_bis; [apply order_nodup, Hn| |].
  - rewrite order_length, seq_length, cycle_full by (try lia; exact Hd). lia.
  - intros k Hk. apply in_seq. assert (H := order_in n k Hn Hk). lia.
Qed.

Lemma foreach_map {A B S} (g : A -> B) (l : list A) (body : S -> B -> outcome S) s :
  foreach (map g l) body s = foreach l (fun s a => body s (g a)) s.
Proof. revert s. induction l as [|a l IH]; intros s; simpl; [reflexivity|]. destruct (body s (g a)); simpl; auto. Qed.
Lemma foreach_app' {A S} (l1 l2 : list A) (body : S -> A -> outcome S) s :
  foreach (l1 ++ l2) body s = do s' <- foreach l1 body s; foreach l2 body s'.
Proof. revert s. induction l1 as [|a l IH]; intros s; simpl; [reflexivity|]. destruct (body s a); simpl; auto. Qed.
Lemma foreach_ext {A S} (l : list A) (b1 b2 : S -> A -> outcome S) s :
  (forall s a, b1 s a = b2 s a) -> foreach l b1 s = foreach l b2 s.
Proof. intros H. revert s. induction l as [|a l IH]; intros s; simpl; [reflexivity|]. rewrite H. destruct (b2 s a); simpl; auto. Qed.

(** Iterate(cwires, orphans, alpha) is the schedule [order] followed by the orphans *)
Definition schedule (alpha : Qc) (n : nat) (orphans : list nat) : list op :=
  map (OpWire alpha) (order n) ++ map (OpOrphan alpha) orphans.
Lemma iterate_all_schedule N alpha cws orphans fuel m :
  (N.of_nat (length cws) + step_prime <= 4294967296)%N -> (length cws <= fuel)%nat ->
  iterate_all N alpha cws orphans fuel m =
  do m' <- foreach (schedule alpha (length cws) orphans) (run_op N cws) m; Ok (Some m').
Proof.
  intros Hb Hf. unfold iterate_all, schedule. rewrite foreach_app'.
  destruct cws as [|w cws].
  - assert (E : order 0 = []) by reflexivity. cbn [length]. rewrite E. cbn [map foreach obind]. rewrite foreach_map. reflexivity.
  - rewrite (visits_all (length (w :: cws)) fuel) by (auto; simpl; lia).
    rewrite !foreach_map. unfold order. rewrite foreach_map.
    match goal with |- obind (obind ?a _) _ = obind (obind ?b _) _ => change b with a; destruct a end; cbn [obind]; rewrite ?foreach_map; reflexivity.
Qed.
