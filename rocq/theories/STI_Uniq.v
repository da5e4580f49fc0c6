(** FindHeadsAndTails: no end is given to two heads, or to two tails, when no two ends coincide *)
From Coq Require Import QArith Qcanon Lqa.
From Verif Require Import Base QcUtil Solver_Model Solver_Proofs STI_Model STI_Spec STI_Find.
Import STI_Model.
Local Open Scope nat_scope.

Definition taken (f : list link) (k : nat) (p : tend * nat) : Prop := exists s, nth_error f k = Some (Some (p, s)).
Definition uq (f : list link) : Prop := forall k k' p, taken f k p -> taken f k' p -> k = k'.
Lemma resolve_free b ks : snd b <> 0%Qc -> forall f v f' v', resolve b ks f v = Ok (f', v') -> (forall k, nth_error f' k = nth_error f k \/ nth_error f' k = Some None) /\
  (v' = removelast v \/ (v' = v /\ forall k, In k ks -> ~ taken f' k (fst b))).
Proof.
  destruct b as ((e, j), sep). cbn [fst snd]. intros Nz. induction ks as [|k ks IH]; intros f v f' v' E; cbn [resolve] in E.
  - injection E as <- <-. split; [auto|]. right. split; [reflexivity|intros k []].
  - unfold at_ in E. destruct (nth_error f k) as [l|] eqn:El; [|discriminate]. cbn [obind] in E.
    assert (Q : resolve (e, j, sep) ks f v = Ok (f', v') -> ~ taken f k (e, j) -> (forall k0, nth_error f' k0 = nth_error f k0 \/ nth_error f' k0 = Some None) /\ (v' = removelast v \/ v' = v /\ (forall k0, In k0 (k :: ks) -> ~ taken f' k0 (e, j)))).
    { intros X Y. destruct (IH f v f' v' X) as (A & B). split; [exact A|]. destruct B as [B|(B & B')]; [auto|]. right. split; [exact B|]. intros k0 [<-|I]; [|apply B'; exact I].
      intros (s & Z). destruct (A k) as [W|W]; [apply Y; exists s; congruence|congruence]. }
    destruct l as [((e', j'), sep')|]; [|apply Q; [exact E|intros (s & Z); congruence]].
    destruct (Nat.eqb_spec j' j) as [Ej|Ej]; [|apply Q; [exact E|intros (s & Z); rewrite El in Z; injection Z as _ Z _; contradiction]].
    destruct (tend_eqb e e') eqn:Ee; cbn [andb] in E; [|apply Q; [exact E|intros (s & Z); rewrite El in Z; injection Z as Z _ _; subst; destruct e; discriminate]].
    destruct (qc_eqb sep 0) eqn:Z0; [apply qc_eqb_spec in Z0; contradiction|]. cbn [negb] in E. rewrite andb_true_r in E. destruct (qc_lt sep sep').
    + unfold set_at in E. assert (Lk : k < length f) by (apply nth_error_Some; congruence). rewrite (proj2 (Nat.ltb_lt _ _) Lk) in E. cbn [obind] in E. destruct (IH _ _ _ _ E) as (A & B).
      split; [intros k0; destruct (A k0) as [W|W]; [|auto]; rewrite W, nth_error_upd; destruct ((k0 =? k) && (k <? length f)); auto|].
      destruct B as [B|(B & B')]; [auto|]. right. split; [exact B|]. intros k0 [<-|I]; [|apply B'; exact I]. intros (s & Z). destruct (A k) as [W|W]; [|congruence].
      rewrite W, nth_error_upd, Nat.eqb_refl, (proj2 (Nat.ltb_lt _ _) Lk) in Z. discriminate.
    + injection E as <- <-. split; [auto|]. left. reflexivity.
Qed.
Lemma uq_sub f f' : uq f -> (forall k, nth_error f' k = nth_error f k \/ nth_error f' k = Some None) -> uq f'.
Proof. intros U A k k' p (s & X) (s' & Y). apply (U k k' p); [exists s; destruct (A k); congruence|exists s'; destruct (A k'); congruence]. Qed.

(** one list of candidates through one step *)
Definition cand (f : list link) (v : list entry) : Prop := forall b, In b v -> snd b <> 0%Qc /\ forall k, ~ taken f k (fst b).
Lemma last_removelast {A} (v : list A) b : back v = Some b -> v = removelast v ++ [b].
Proof.
  unfold back. induction v as [|x v IH]; [discriminate|]. cbn [length]. replace (Datatypes.S (length v) - 1) with (length v) by lia. destruct v as [|y v]; [cbn; intros X; injection X as ->; reflexivity|].
  intros X. cbn [length nth_error] in X. cbn [removelast app]. f_equal. apply IH. cbn [length]. replace (Datatypes.S (length v) - 1) with (length v) by lia. exact X.
Qed.
Lemma cand_step ii (f : list link) (v : list entry) (f' : list link) (v' old : list entry) : length f = ii -> cand f old -> (forall b, In b v -> snd b <> 0%Qc) -> (forall b, In b (removelast v) -> In b old) ->
  (v = old \/ True) -> resolve_back ii f v = Ok (f', v') -> uq f -> uq f' /\ cand f' v' /\ length f' = ii.
Proof.
  intros L C Nz Sub _ E U. pose proof (resolve_back_ok ii f v ltac:(lia)) as (f2 & v2 & E2 & L2 & A2 & _). rewrite E in E2. injection E2 as <- <-.
  split; [apply (uq_sub f); assumption|]. split; [|lia]. unfold resolve_back in E. destruct (@back entry v) as [b|] eqn:Eb.
  - destruct (resolve_free b (seq 0 ii) (Nz b (back_in _ _ Eb)) _ _ _ _ E) as (A & B).
    assert (Old : forall x, In x (removelast v) -> snd x <> 0%Qc /\ forall k, ~ taken f' k (fst x)).
    { intros x X. destruct (C x (Sub x X)) as (P & Q). split; [exact P|]. intros k (s & Z). destruct (A k) as [W|W]; [apply (Q k); exists s; congruence|congruence]. }
    destruct B as [B|(B & B')]; subst v'; [exact Old|]. intros x X. rewrite (last_removelast v b Eb) in X. apply in_app_or in X as [X|[<-|[]]]; [apply Old; exact X|].
    split; [apply Nz, back_in; exact Eb|]. intros k K. assert (k < ii) by (destruct K as (s & Z); rewrite <- L, <- L2; apply nth_error_Some; congruence). apply (B' k); [apply in_seq; lia|exact K].
  - injection E as <- <-. destruct v as [|x v]; [intros b []|]. exfalso. unfold back in Eb. apply nth_error_None in Eb. cbn [length] in Eb. lia.
Qed.

Definition no_common_end (ts : list trk) : Prop := forall i j t u e f, i <> j -> nth_error ts i = Some t -> nth_error ts j = Some u -> end_at t e <> end_at u f.
Lemma dist_zero a b : dist2 a b = 0%Qc -> a = b.
Proof.
  unfold dist2. destruct a as [x y z], b as [x' y' z']. cbn [vx vy vz]. intros E.
  assert (Sq : forall q : Qc, (0 <= q * q)%Qc) by (intros q; qcnra).
  pose proof (Sq (x - x')%Qc) as S1. pose proof (Sq (y - y')%Qc) as S2. pose proof (Sq (z - z')%Qc) as S3.
  assert (Z : forall q : Qc, (q * q <= 0)%Qc -> q = 0%Qc) by (intros q Q; destruct (Qc_eq_dec q 0) as [|D]; [assumption|]; exfalso; destruct (Qclt_le_dec 0 q); [revert q0 Q; clear; intros; qcnra|]; assert (q < 0)%Qc by (apply Qcle_lt_or_eq in q0 as [|]; [assumption|contradiction]); revert H Q; clear; intros; qcnra).
  assert (x - x' = 0)%Qc by (apply Z; revert E S1 S2 S3; generalize ((x - x') * (x - x'))%Qc ((y - y') * (y - y'))%Qc ((z - z') * (z - z'))%Qc; intros; qclra).
  assert (y - y' = 0)%Qc by (apply Z; revert E S1 S2 S3; generalize ((x - x') * (x - x'))%Qc ((y - y') * (y - y'))%Qc ((z - z') * (z - z'))%Qc; intros; qclra).
  assert (z - z' = 0)%Qc by (apply Z; revert E S1 S2 S3; generalize ((x - x') * (x - x'))%Qc ((y - y') * (y - y'))%Qc ((z - z') * (z - z'))%Qc; intros; qclra).
  f_equal; qclra.
Qed.
Lemma removelast_snoc {A} (l : list A) x : removelast (l ++ [x]) = l. Proof. apply removelast_last. Qed.

Section Uniq.
Variables (c : cfg) (ts : list trk).
Hypothesis Nc : no_common_end ts.
Definition juq (s : fst_) : Prop := uq (f_h s) /\ uq (f_t s) /\ cand (f_h s) (f_hv s) /\ cand (f_t s) (f_tv s).
Lemma jj_uq ii jj t s s' : nth_error ts ii = Some t -> ii < jj -> length (f_h s) = ii -> length (f_t s) = ii -> juq s -> jj_step c ts ii t s jj = Ok s' -> juq s' /\ length (f_h s') = ii /\ length (f_t s') = ii.
Proof.
  intros Et Lj L1 L2 (U1 & U2 & C1 & C2) E. unfold jj_step, idx in E. destruct (nth_error ts jj) as [u|] eqn:Eu; [|discriminate]. cbn [obind] in E. cbv zeta in E.
  destruct (look_spec c t u jj s) as (K & K1 & K2). set (s1 := look c t u jj s) in *. clearbody s1.
  destruct (resolve_back ii (f_h s1) (f_hv s1)) as [(fh, hv)| |] eqn:E1; [|discriminate|discriminate]. cbn [obind] in E. destruct (resolve_back ii (f_t s1) (f_tv s1)) as [(ft, tv)| |] eqn:E2; [|discriminate|discriminate]. cbn [obind fst snd] in E. injection E as <-.
  rewrite K1 in E1. rewrite K2 in E2.
  assert (Sp : forall e f, sep_of t u e f <> 0%Qc) by (intros e f Z; apply dist_zero in Z; revert Z; apply (Nc ii jj); [lia|exact Et|exact Eu]).
  assert (P : forall old e x b, x <> 0%Qc -> (forall b, In b old -> snd b <> 0%Qc) -> In b (push2 old (e, jj, x)) -> snd b <> 0%Qc) by (intros old e x b X Y I; apply push2_in in I as [I|I]; [apply Y; exact I|subst b; exact X]).
  assert (R : forall old e x b, In b (removelast (push2 old (e, jj, x))) -> In b old).
  { intros old e x b I. unfold push2 in I. rewrite removelast_snoc in I. destruct (1 <? length old); [destruct old; [destruct I|right; exact I]|exact I]. }
  assert (O1 : forall b, In b (f_hv s) -> snd b <> 0%Qc) by (intros b I; apply (C1 b I)). assert (O2 : forall b, In b (f_tv s) -> snd b <> 0%Qc) by (intros b I; apply (C2 b I)).
  assert (A1 : (forall b, In b (f_hv s1) -> snd b <> 0%Qc) /\ (forall b, In b (removelast (f_hv s1)) -> In b (f_hv s))).
  { destruct K as [Y _|e x _ Y _ Xs|e x _ Y _ _]; rewrite Y; [split; [exact O1|apply removelast_in]| |split; [exact O1|apply removelast_in]]. split; [intros b; apply P; [subst x; apply Sp|exact O1]|apply R]. }
  assert (A2 : (forall b, In b (f_tv s1) -> snd b <> 0%Qc) /\ (forall b, In b (removelast (f_tv s1)) -> In b (f_tv s))).
  { destruct K as [_ Z|e x _ _ Z _|e x _ _ Z Xs]; rewrite Z; [split; [exact O2|apply removelast_in]|split; [exact O2|apply removelast_in]|]. split; [intros b; apply P; [subst x; apply Sp|exact O2]|apply R]. }
  destruct (cand_step ii _ _ _ _ (f_hv s) L1 C1 (proj1 A1) (proj2 A1) (or_intror Logic.I) E1 U1) as (V1 & D1 & M1).
  destruct (cand_step ii _ _ _ _ (f_tv s) L2 C2 (proj1 A2) (proj2 A2) (or_intror Logic.I) E2 U2) as (V2 & D2 & M2).
  split; [split; [exact V1|split; [exact V2|split; assumption]]|]. cbn [f_h f_t]. auto.
Qed.
Lemma uq_snoc f v : uq f -> cand f v -> uq (f ++ [back v]).
Proof.
  intros U C. assert (Nw : forall k p, taken (f ++ [back v]) k p -> taken f k p \/ (k = length f /\ exists s, back v = Some (p, s))).
  { intros k p (s & X). destruct (Nat.lt_ge_cases k (length f)) as [L|L]; [rewrite nth_error_app1 in X by exact L; left; exists s; exact X|]. rewrite nth_error_app2 in X by exact L.
    destruct (k - length f) as [|m] eqn:Q; [|destruct m; discriminate]. right. split; [lia|]. exists s. cbn in X. congruence. }
  intros k k' p X Y. apply Nw in X as [X|(X & s & Bx)]; apply Nw in Y as [Y|(Y & s' & By)].
  - apply (U k k' p); assumption.
  - exfalso. exact (proj2 (C _ (back_in _ _ By)) k X).
  - exfalso. exact (proj2 (C _ (back_in _ _ Bx)) k' Y).
  - lia.
Qed.
Theorem find_uq fh ft : find_ht c ts = Ok (fh, ft) -> uq fh /\ uq ft.
Proof.
  unfold find_ht. intros E.
  assert (G : forall k r, for_ (seq 0 k) (ii_step c ts) ([], []) = Ok r -> uq (fst r) /\ uq (snd r) /\ length (fst r) = k /\ length (snd r) = k).
  { induction k as [|k IH]; intros r X.
    - injection X as <-. cbn. repeat split; intros k k' p (s & Z); destruct k; discriminate.
    - rewrite seq_S, for_app in X. destruct (for_ (seq 0 k) (ii_step c ts) ([], [])) as [r0| |] eqn:E0; [|discriminate|discriminate]. destruct (IH r0 eq_refl) as (U1 & U2 & L1 & L2). cbn [obind for_ Nat.add] in X.
      unfold ii_step, idx in X. destruct (nth_error ts k) as [t|] eqn:Et; [|discriminate]. cbn [obind] in X.
      destruct (for_ (range (k + 1) (length ts)) (jj_step c ts k t) (FS (fst r0) (snd r0) [] [] None None false false)) as [q| |] eqn:Eq; [|discriminate|discriminate]. cbn [obind] in X. injection X as <-. cbn [fst snd].
      assert (J : forall l s0 s1, (forall x, In x l -> k < x) -> for_ l (jj_step c ts k t) s0 = Ok s1 -> juq s0 /\ length (f_h s0) = k /\ length (f_t s0) = k -> juq s1 /\ length (f_h s1) = k /\ length (f_t s1) = k).
      { induction l as [|x l IHl]; intros s0 s1 B Z Q; cbn [for_] in Z; [injection Z as <-; exact Q|]. destruct (jj_step c ts k t s0 x) as [s2| |] eqn:E2; [|discriminate|discriminate]. cbn [obind] in Z.
        apply (IHl s2 s1); [intros y I; apply B; right; exact I|exact Z|]. apply (jj_uq k x t s0 s2); [exact Et|apply B; left; reflexivity|apply Q|apply Q|apply Q|exact E2]. }
      assert (Bd : forall x, In x (range (k + 1) (length ts)) -> k < x) by (intros x Ix; unfold range in Ix; apply in_seq in Ix; lia).
      destruct (J _ _ _ Bd Eq) as ((V1 & V2 & D1 & D2) & M1 & M2).
      { split; [|cbn; auto]. cbn. split; [exact U1|]. split; [exact U2|]. split; intros b []. }
      rewrite !app_length, M1, M2. cbn [length]. split; [apply uq_snoc; assumption|]. split; [apply uq_snoc; assumption|]. lia. }
  destruct (G _ _ E) as (A & B & _). split; assumption.
Qed.
End Uniq.
