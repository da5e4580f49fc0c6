(** Effect of AddCharge on predictions and on the energy. *)
From Coq Require Import QArith Qcanon.
From Verif Require Import Base Util QcUtil Solver_Model Solver_Spec Solver_Proofs.
Local Open Scope Qc_scope.

Lemma bump_val f k v s : bump f k v s = f s + (if Nat.eqb s k then v else 0).
Proof. unfold bump. destruct (Nat.eqb s k); ring. Qed.
Lemma bump_opt_val f k v s : bump_opt f k v s = f s + (if opt_eqb k (Some s) then v else 0).
Proof. destruct k as [k|]; simpl; [rewrite bump_val, Nat.eqb_sym; reflexivity|ring]. Qed.

(** coupling from [k] to [s] *)
Definition cpl (N : net) (k s : nat) : Qc := qsum (fun nc => if Nat.eqb (fst nc) s then snd nc else 0) (n_nei N k).

Lemma pot_after_gen dq s : forall l pot,
  fold_left (fun pot (nc : nat * Qc) => bump pot (fst nc) (dq * snd nc)) l pot s =
  pot s + dq * qsum (fun nc => if Nat.eqb (fst nc) s then snd nc else 0) l.
Proof.
  induction l as [|[t c] l IH]; intros pot; simpl; [ring|].
  rewrite IH, bump_val, (Nat.eqb_sym s t). simpl. destruct (Nat.eqb t s); ring.
Qed.
Lemma pot_after N k x m s : m_pot (add_charge N k x m) s = m_pot m s + x * cpl N k s.
Proof. unfold add_charge, cpl. cbn [m_pot]. apply pot_after_gen. Qed.
Lemma pred_after N k x m s : m_pred (add_charge N k x m) s = added (m_pred m) k x s.
Proof. unfold add_charge, added, bump. reflexivity. Qed.
Lemma pred_after' N k x m s : m_pred (add_charge N k x m) s = m_pred m s + (if Nat.eqb s k then x else 0).
Proof. unfold add_charge. cbn [m_pred]. apply bump_val. Qed.
Lemma wpred_after N k x m w : m_wpred (add_charge N k x m) w = m_wpred m w
   + (if opt_eqb (n_w1 N k) (Some w) then x else 0) + (if opt_eqb (n_w2 N k) (Some w) then x else 0).
Proof. unfold add_charge. cbn [m_wpred]. rewrite !bump_opt_val. ring. Qed.

Lemma find_in (l : list (nat * Qc)) j : NoDup (map fst l) ->
  qsum (fun nc => if Nat.eqb (fst nc) j then snd nc else 0) l = match find_nei j l with Some c => c | None => 0 end.
Proof.
  unfold find_nei. induction l as [|[t c] l IH]; intros ND; simpl; [reflexivity|]. inversion ND as [|? ? Hni ND']; subst. simpl in *.
  destruct (Nat.eqb_spec t j) as [->|Hne].
  - simpl. rewrite qsum_zero'; [ring|]. intros [u d] Hu. simpl. destruct (Nat.eqb_spec u j) as [->|]; [|reflexivity].
    exfalso. apply Hni. apply in_map_iff. exists (j, d). auto.
  - rewrite IH by assumption. ring.
Qed.
Lemma find_nei_in (l : list (nat * Qc)) j c : NoDup (map fst l) -> (find_nei j l = Some c <-> In (j, c) l).
Proof.
  unfold find_nei. induction l as [|[t d] l IH]; intros ND; simpl; [split; [discriminate|intros []]|].
  inversion ND as [|? ? Hni ND']; subst. simpl in *. destruct (Nat.eqb_spec t j) as [->|Hne].
  - simpl. split; [intros H; inversion H; left; reflexivity|].
    intros [H|H]; [inversion H; reflexivity|]. exfalso. apply Hni, in_map_iff. exists (j, c). auto.
  - rewrite (IH ND'). split; [auto|intros [H|H]; [inversion H; congruence|exact H]].
Qed.
Lemma cpl_find N scs k s : WF N scs -> In k scs -> cpl N k s = match find_nei s (n_nei N k) with Some c => c | None => 0 end.
Proof. intros W Hk. apply find_in, (wf_once _ _ W), Hk. Qed.

Lemma cpl_sym N scs k s : WF N scs -> In k scs -> In s scs -> cpl N k s = cpl N s k.
Proof.
  intros W Hk Hs. rewrite (cpl_find N scs k s W Hk), (cpl_find N scs s k W Hs).
  destruct (find_nei s (n_nei N k)) as [c|] eqn:E.
  - apply find_nei_in in E; [|apply (wf_once _ _ W), Hk]. apply (wf_sym _ _ W) in E; [|exact Hk].
    apply find_nei_in in E; [|apply (wf_once _ _ W), Hs]. rewrite E. reflexivity.
  - destruct (find_nei k (n_nei N s)) as [c|] eqn:E'; [|reflexivity].
    apply find_nei_in in E'; [|apply (wf_once _ _ W), Hs]. apply (wf_sym _ _ W) in E'; [|exact Hs].
    apply find_nei_in in E'; [|apply (wf_once _ _ W), Hk]. congruence.
Qed.
Lemma cpl_self N scs k : WF N scs -> In k scs -> cpl N k k = 0.
Proof.
  intros W Hk. rewrite (cpl_find N scs k k W Hk). destruct (find_nei k (n_nei N k)) as [c|] eqn:E; [|reflexivity].
  apply find_nei_in in E; [|apply (wf_once _ _ W), Hk]. exfalso. eapply (wf_noself _ _ W); eassumption.
Qed.

Lemma cpl_sum N scs (f : nat -> Qc) k : WF N scs -> In k scs -> qsum (fun s => f s * cpl N k s) scs = neighbour_charge N f k.
Proof.
  intros W Hk. unfold cpl, neighbour_charge.
  transitivity (qsum (fun s => qsum (fun nc => f s * (if Nat.eqb (fst nc) s then snd nc else 0)) (n_nei N k)) scs).
  { apply qsum_ext. intros s _. symmetry. apply qsum_scal. }
  rewrite qsum_swap. apply qsum_ext. intros [t c] Ht. cbn [fst snd].
  rewrite (qsum_single (fun s => f s * (if Nat.eqb t s then c else 0)) t).
  - rewrite Nat.eqb_refl. ring.
  - apply (wf_nodup _ _ W).
  - eapply (wf_in _ _ W); eassumption.
  - intros s _ Hne. destruct (Nat.eqb_spec t s); [congruence|ring].
Qed.

Lemma charge_on_added N scs pred k x w : NoDup scs -> In k scs ->
  charge_on N scs (added pred k x) w = charge_on N scs pred w
   + (if opt_eqb (n_w1 N k) (Some w) then x else 0) + (if opt_eqb (n_w2 N k) (Some w) then x else 0).
Proof.
  intros ND Hk. unfold charge_on.
  set (h := fun s => if Nat.eqb s k then (if opt_eqb (n_w1 N s) (Some w) then x else 0) + (if opt_eqb (n_w2 N s) (Some w) then x else 0) else 0).
  rewrite (qsum_ext _ (fun s => ((if opt_eqb (n_w1 N s) (Some w) then pred s else 0) + (if opt_eqb (n_w2 N s) (Some w) then pred s else 0)) + h s)).
  2:{ intros s _. unfold added, h. destruct (Nat.eqb s k); destruct (opt_eqb (n_w1 N s) (Some w)), (opt_eqb (n_w2 N s) (Some w)); ring. }
  rewrite qsum_plus, (qsum_single h k scs ND Hk).
  - unfold h. rewrite Nat.eqb_refl. ring.
  - intros s _ Hne. unfold h. destruct (Nat.eqb_spec s k); [congruence|reflexivity].
Qed.

Lemma neigh_added N pred k x s : neighbour_charge N (added pred k x) s = neighbour_charge N pred s + x * cpl N s k.
Proof.
  unfold neighbour_charge, cpl. rewrite <- qsum_scal, <- qsum_plus. apply qsum_ext. intros [t c] _. cbn [fst snd].
  unfold added. destruct (Nat.eqb t k); ring.
Qed.

Lemma charge_on_ext N scs f g w : (forall s, f s = g s) -> charge_on N scs f w = charge_on N scs g w.
Proof. intros H. unfold charge_on. apply qsum_ext. intros s _. rewrite H. reflexivity. Qed.
Lemma neigh_ext N f g s : (forall s, f s = g s) -> neighbour_charge N f s = neighbour_charge N g s.
Proof. intros H. unfold neighbour_charge. apply qsum_ext. intros t _. rewrite H. reflexivity. Qed.
Lemma energy_ext N alpha scs f g : (forall s, f s = g s) -> energy N alpha scs f = energy N alpha scs g.
Proof.
  intros H. unfold energy. f_equal.
  - apply qsum_ext. intros w _. rewrite !(charge_on_ext N scs f g w H). reflexivity.
  - f_equal. apply qsum_ext. intros s _. rewrite (neigh_ext N f g s H), H. reflexivity.
Qed.

(** AddCharge keeps the predictions consistent *)
Lemma add_charge_consistent N scs k x m : WF N scs -> In k scs -> Consistent N scs m -> Consistent N scs (add_charge N k x m).
Proof.
  intros W Hk [Hw Hp]. split.
  - intros w. rewrite wpred_after, Hw, (charge_on_ext N scs _ (added (m_pred m) k x) w (fun s => pred_after N k x m s)).
    rewrite charge_on_added by (auto; apply (wf_nodup _ _ W)). ring.
  - intros s Hs. rewrite pot_after, Hp by exact Hs.
    rewrite (neigh_ext N _ (added (m_pred m) k x) s (fun s => pred_after N k x m s)), neigh_added.
    rewrite (cpl_sym N scs k s) by assumption. reflexivity.
Qed.

(** the code's Metric(scs) is the energy of consistent states *)
Lemma metric_scs_sum N alpha scs m : metric_scs N alpha scs m =
  qsum (fun w => sqr (n_q N w - m_wpred m w)) (iwires_of N scs) - alpha * qsum (fun s => sqr (m_pred m s) + m_pred m s * m_pot m s) scs.
Proof.
  unfold metric_scs.
  assert (A : forall l a, fold_left (fun ret w => ret + sqr (n_q N w - m_wpred m w)) l a = a + qsum (fun w => sqr (n_q N w - m_wpred m w)) l).
  { induction l as [|w l IH]; intros a; simpl; [ring|]. rewrite IH. ring. }
  assert (B : forall l a, fold_left (fun ret s => if qc_eqb alpha 0 then ret else ret - alpha * sqr (m_pred m s) - alpha * m_pred m s * m_pot m s) l a
      = a - alpha * qsum (fun s => sqr (m_pred m s) + m_pred m s * m_pot m s) l).
  { induction l as [|s l IH]; intros a; simpl; [ring|]. rewrite IH. destruct (qc_eqb alpha 0) eqn:E; [apply qc_eqb_spec in E; subst|]; ring. }
  rewrite A, B. ring.
Qed.
Lemma metric_scs_energy N alpha scs m : Consistent N scs m -> metric_scs N alpha scs m = energy N alpha scs (m_pred m).
Proof.
  intros [Hw Hp]. rewrite metric_scs_sum. unfold energy, sqr. f_equal.
  - apply qsum_ext. intros w _. rewrite Hw. reflexivity.
  - f_equal. apply qsum_ext. intros s Hs. rewrite Hp by exact Hs. reflexivity.
Qed.

Lemma iwires_in N scs w : In w (iwires_of N scs) <-> exists s, In s scs /\ (n_w1 N s = Some w \/ n_w2 N s = Some w).
Proof.
  unfold iwires_of. rewrite nodup_In, in_flat_map. split; intros (s & Hs & H); exists s; split; auto.
  - apply in_app_or in H. destruct H as [H|H]; [left; destruct (n_w1 N s)|right; destruct (n_w2 N s)]; simpl in H; try destruct H as [->|[]]; tauto.
  - apply in_or_app. destruct H as [-> | ->]; [left|right]; left; reflexivity.
Qed.

Definition wdelta (N : net) (m : mem) (w : option nat) (x : Qc) : Qc :=
  match w with Some w => sqr (n_q N w - (m_wpred m w + x)) - sqr (n_q N w - m_wpred m w) | None => 0 end.

(** change of the code's metric under one AddCharge *)
Lemma add_charge_delta N scs alpha k x m : WF N scs -> In k scs -> Consistent N scs m ->
  metric_scs N alpha scs (add_charge N k x m) - metric_scs N alpha scs m =
  wdelta N m (n_w1 N k) x + wdelta N m (n_w2 N k) x - alpha * (two * m_pred m k * x + x * x + two * x * m_pot m k).
Proof.
  intros W Hk C. rewrite !metric_scs_sum.
  set (S1 := qsum _ (iwires_of N scs)). set (T1 := qsum _ scs). set (S0 := qsum _ (iwires_of N scs)). set (T0 := qsum _ scs).
  assert (HS : S1 - S0 = wdelta N m (n_w1 N k) x + wdelta N m (n_w2 N k) x).
  { unfold S1, S0. rewrite <- qsum_minus.
    assert (ND : NoDup (iwires_of N scs)) by apply NoDup_nodup.
    rewrite (qsum_ext _ (fun w => (if opt_eqb (n_w1 N k) (Some w) then wdelta N m (Some w) x else 0)
                                 + (if opt_eqb (n_w2 N k) (Some w) then wdelta N m (Some w) x else 0))).
    - rewrite qsum_plus.
      assert (One : forall o, (forall w, o = Some w -> In w (iwires_of N scs)) ->
         qsum (fun w => if opt_eqb o (Some w) then wdelta N m (Some w) x else 0) (iwires_of N scs) = wdelta N m o x).
      { intros [w0|] Hin.
        - rewrite (qsum_single (fun w => if opt_eqb (Some w0) (Some w) then wdelta N m (Some w) x else 0) w0 _ ND (Hin w0 eq_refl)).
          + simpl. rewrite Nat.eqb_refl. reflexivity.
          + intros w _ Hne. simpl. destruct (Nat.eqb_spec w0 w); [congruence|reflexivity].
        - simpl. apply qsum_zero. }
      rewrite !One; [reflexivity| |]; intros w Hw; apply iwires_in; exists k; auto.
    - intros w _. rewrite wpred_after. unfold wdelta, sqr.
      destruct (opt_eqb (n_w1 N k) (Some w)) eqn:E1, (opt_eqb (n_w2 N k) (Some w)) eqn:E2; try ring.
      apply opt_eqb_spec in E1, E2. exfalso. exact (wf_views _ _ W k k w Hk Hk E1 E2). }
  assert (HT : T1 - T0 = two * m_pred m k * x + x * x + two * x * m_pot m k).
  { unfold T1, T0. rewrite <- qsum_minus.
    set (h := fun s => if Nat.eqb s k then two * m_pred m s * x + x * x + x * m_pot m s + x * x * cpl N k s else 0).
    rewrite (qsum_ext _ (fun s => x * (m_pred m s * cpl N k s) + h s)).
    - rewrite qsum_plus, qsum_scal, (cpl_sum N scs (m_pred m) k W Hk).
      rewrite (qsum_single h k scs (wf_nodup _ _ W) Hk).
      + unfold h. rewrite Nat.eqb_refl, (cpl_self N scs k W Hk). destruct C as [_ Hp]. rewrite (Hp k Hk). unfold two. ring.
      + intros s _ Hne. unfold h. destruct (Nat.eqb_spec s k); [congruence|reflexivity].
    - intros s _. rewrite pred_after', pot_after. unfold h, sqr, two. destruct (Nat.eqb s k); ring. }
  clearbody S1 S0 T1 T0. rewrite <- HT. transitivity ((S1 - S0) - alpha * (T1 - T0)); [ring|]. rewrite HS. reflexivity.
Qed.

(** moving charge from j to i *)
Definition move (N : net) (i j : nat) (x : Qc) (m : mem) : mem := add_charge N j (- x) (add_charge N i x m).
Lemma move_pred N i j x m s : i <> j -> m_pred (move N i j x m) s = moved (m_pred m) i j x s.
Proof.
  intros Hij. unfold move. rewrite !pred_after'. unfold moved.
  destruct (Nat.eqb_spec s i), (Nat.eqb_spec s j); subst; try congruence; ring.
Qed.
Lemma move_consistent N scs i j x m : WF N scs -> In i scs -> In j scs -> Consistent N scs m -> Consistent N scs (move N i j x m).
Proof. intros W Hi Hj C. apply add_charge_consistent; auto. apply add_charge_consistent; auto. Qed.


Lemma pair_val_delta N scs alpha i j x m : WF N scs -> In i scs -> In j scs -> i <> j -> Consistent N scs m ->
  pair_val N alpha i j m x - pair_val N alpha i j m 0 = metric_scs N alpha scs (move N i j x m) - metric_scs N alpha scs m.
Proof.
  intros W Hi Hj Hij C. unfold move.
  transitivity ((metric_scs N alpha scs (add_charge N j (- x) (add_charge N i x m)) - metric_scs N alpha scs (add_charge N i x m))
               + (metric_scs N alpha scs (add_charge N i x m) - metric_scs N alpha scs m)); [|ring].
  rewrite (add_charge_delta N scs alpha j (- x) (add_charge N i x m)) by (auto; apply add_charge_consistent; auto).
  rewrite (add_charge_delta N scs alpha i x m) by auto.
  rewrite pred_after', pot_after. destruct (Nat.eqb_spec j i); [congruence|].
  unfold pair_val.
  assert (Ec : match find_nei j (n_nei N i) with Some c => c | None => 0 end = cpl N i j) by (symmetry; apply (cpl_find N scs); auto).
  assert (V1 : wdelta N m (n_w1 N i) x + wdelta N (add_charge N i x m) (n_w1 N j) (- x) = view_val N m (n_w1 N i) (n_w1 N j) x - view_val N m (n_w1 N i) (n_w1 N j) 0).
  { unfold view_val, wdelta. destruct (n_w1 N i) as [a|] eqn:Ea, (n_w1 N j) as [b|] eqn:Eb; cbn [opt_eqb]; rewrite ?wpred_after, ?Ea; cbn [opt_eqb];
      try (destruct (opt_eqb (n_w2 N i) (Some b)) eqn:E2; [apply opt_eqb_spec in E2; exfalso; exact (wf_views _ _ W j i b Hj Hi Eb E2)|]).
    - destruct (Nat.eqb_spec a b) as [->|]; unfold sqr; ring.
    - unfold sqr; ring.
    - unfold sqr; ring.
    - ring. }
  assert (V2 : wdelta N m (n_w2 N i) x + wdelta N (add_charge N i x m) (n_w2 N j) (- x) = view_val N m (n_w2 N i) (n_w2 N j) x - view_val N m (n_w2 N i) (n_w2 N j) 0).
  { unfold view_val, wdelta. destruct (n_w2 N i) as [a|] eqn:Ea, (n_w2 N j) as [b|] eqn:Eb; cbn [opt_eqb]; rewrite ?wpred_after, ?Ea; cbn [opt_eqb];
      try (destruct (opt_eqb (n_w1 N i) (Some b)) eqn:E2; [apply opt_eqb_spec in E2; exfalso; exact (wf_views _ _ W i j b Hi Hj E2 Eb)|]).
    - destruct (Nat.eqb_spec a b) as [->|]; unfold sqr; ring.
    - unfold sqr; ring.
    - unfold sqr; ring.
    - ring. }
  transitivity ((view_val N m (n_w1 N i) (n_w1 N j) x - view_val N m (n_w1 N i) (n_w1 N j) 0)
    + (view_val N m (n_w2 N i) (n_w2 N j) x - view_val N m (n_w2 N i) (n_w2 N j) 0)
    - alpha * (two * m_pred m i * x + x * x + two * x * m_pot m i)
    - alpha * (two * m_pred m j * (- x) + x * x - two * x * (m_pot m j + x * cpl N i j))).
  - rewrite <- Ec. destruct (find_nei j (n_nei N i)) as [c|]; unfold sqr, two; ring.
  - rewrite <- V1, <- V2. unfold two. ring.
Qed.

Lemma one_val_delta N scs alpha s x m w1 w2 : WF N scs -> In s scs -> n_w1 N s = Some w1 -> n_w2 N s = Some w2 -> Consistent N scs m ->
  one_val N alpha s m w1 w2 x - one_val N alpha s m w1 w2 0 = metric_scs N alpha scs (add_charge N s x m) - metric_scs N alpha scs m.
Proof.
  intros W Hs H1 H2 C. rewrite (add_charge_delta N scs alpha s x m) by auto. rewrite H1, H2. unfold one_val, wdelta, sqr, two. ring.
Qed.
