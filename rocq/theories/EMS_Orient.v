(** Proofs about the orientation search of OrderShowerHits. *)
From Coq Require Import QArith Qround Qcanon Lqa.
From Verif Require Import Base QcUtil Solver_Model Solver_Proofs CMgr_Proofs SPS_Model SPS_Nei CCB_Hist EMS_Model EMS_Map EMS_Spec EMS_Assoc EMS_Planes EMS_Order EMS_Iso EMS_Perm.
Local Open Scope nat_scope.

Lemma trunc_floor q : (0 <= q)%Qc -> trunc q = Qfloor q.
Proof.
  intros H. unfold trunc, Qfloor. destruct (this q) as [n d] eqn:E. cbn [Qnum Qden]. apply Z.quot_div_nonneg; [|lia].
  assert (X : (0 <= n # d)%Q) by (rewrite <- E; exact H). unfold Qle in X. cbn in X. lia.
Qed.
Lemma last_idx (v : list hit) a : v <> [] -> idx v (length v - 1) = Ok (last v a).
Proof.
  intros N. unfold idx. destruct (exists_last N) as (l & x & ->). rewrite app_length. cbn [length]. replace (length l + 1 - 1) with (length l) by lia.
  rewrite nth_error_app2, Nat.sub_diag by lia. cbn. rewrite last_last. reflexivity.
Qed.
Lemma wlen_wires v : v <> [] -> wlen v = Ok (wires v).
Proof.
  intros N. destruct v as [|a r]; [contradiction|]. unfold wlen. rewrite (last_idx (a :: r) a N). cbn [idx nth_error obind]. f_equal. unfold wires. cbv zeta.
  set (d := (hx a - hx (last (a :: r) a))%Qc). destruct (qc_lt d 0) eqn:E; destruct (Qclt_le_dec d (Q2Qc 0)) as [L|L].
  - apply trunc_floor. clearbody d. apply qc_lt_spec in E. qclra.
  - apply qc_lt_spec in E. exfalso. exact (Qclt_not_le _ _ E L).
  - apply qc_lt_false in E. exfalso. exact (Qclt_not_le _ _ L E).
  - apply trunc_floor. exact L.
Qed.
Lemma wires_nonneg v : (0 <= wires v)%Z.
Proof.
  destruct v as [|a r]; [cbn; lia|]. unfold wires. cbv zeta. set (d := (hx a - hx (last (a :: r) a))%Qc). clearbody d.
  assert (F : forall q, (0 <= q)%Qc -> (0 <= Qfloor q)%Z) by (intros q Hq; apply (Qfloor_resp_le 0); exact Hq).
  destruct (Qclt_le_dec d (Q2Qc 0)) as [L|L]; apply F; [|exact L]. qclra.
Qed.
Lemma last_rev (v : list hit) a d : last (rev (a :: v)) d = a. Proof. cbn [rev]. apply last_last. Qed.
Lemma last_any (v : list hit) a b : v <> [] -> last v a = last v b.
Proof. intros N. destruct (exists_last N) as (l & x & ->). rewrite !last_last. reflexivity. Qed.
Lemma wires_rev v : wires (rev v) = wires v.
Proof.
  destruct v as [|a r]; [reflexivity|]. assert (N : rev (a :: r) <> []) by (intros X; apply (f_equal (@length hit)) in X; rewrite rev_length in X; discriminate).
  unfold wires. destruct (rev (a :: r)) as [|b s] eqn:E; [contradiction|].
  replace (last (b :: s) b) with a by (rewrite <- E; symmetry; apply last_rev).
  replace (last (a :: r) a) with b.
  2:{ rewrite <- (rev_involutive (a :: r)), E. symmetry. apply last_rev. }
  cbv zeta. clear E N.
  destruct (Qclt_le_dec (hx b - hx a) (Q2Qc 0)) as [L|L], (Qclt_le_dec (hx a - hx b) (Q2Qc 0)) as [L'|L'].
  - exfalso. generalize dependent (hx a). generalize (hx b). intros x y L L'. change (x - y < 0)%Qc in L. change (y - x < 0)%Qc in L'. qclra.
  - do 2 f_equal. ring.
  - do 2 f_equal. ring.
  - do 2 f_equal. generalize dependent (hx a). generalize (hx b). intros x y L L'. change (0 <= x - y)%Qc in L. change (0 <= y - x)%Qc in L'. apply Qc_eq_this. qc2q. lra.
Qed.

(** the widths of the planes *)
Definition sq (z : Z) : Z := (z * z)%Z.
Definition zsum (l : list Z) : Z := fold_right Z.add 0%Z l.
Lemma quad_zsum (ls : zmap Z) k R : fold_left (fun q p => match mfind p ls with Some w => if (p =? k)%Z then q else (q + w * w)%Z | None => q end) R 0%Z =
  zsum (map (fun p => match mfind p ls with Some w => if (p =? k)%Z then 0%Z else sq w | None => 0%Z end) R).
Proof.
  assert (G : forall R0 q, fold_left (fun q p => match mfind p ls with Some w => if (p =? k)%Z then q else (q + w * w)%Z | None => q end) R0 q =
    (q + zsum (map (fun p => match mfind p ls with Some w => if (p =? k)%Z then 0%Z else sq w | None => 0%Z end) R0))%Z).
  { unfold zsum. induction R0 as [|p R0 IH]; intros q; cbn [fold_left map fold_right]; [lia|]. rewrite IH. unfold sq. destruct (mfind p ls); [|lia]. destruct (p =? k)%Z; lia. }
  rewrite G. lia.
Qed.
Lemma zsum_pick (f : Z -> Z) R a : NoDup R -> In a R -> (forall p, In p R -> p <> a -> f p = 0%Z) -> zsum (map f R) = f a.
Proof.
  intros N. induction N as [|x l H N IH]; intros Hi F; [destruct Hi|]. change (f x + zsum (map f l) = f a)%Z. destruct Hi as [->|Hi].
  - assert (Q : zsum (map f l) = 0%Z); [|lia]. assert (X : forall p, In p l -> f p = 0%Z) by (intros p Hp; apply F; [right; exact Hp|congruence]). clear -X.
    induction l as [|y l IH]; [reflexivity|]. cbn. rewrite (X y (or_introl eq_refl)). apply IH. intros; apply X; right; assumption.
  - rewrite IH; [|exact Hi|intros; apply F; [right; assumption|assumption] ]. rewrite F; [lia|left; reflexivity|]. intros ->. contradiction.
Qed.
Lemma zsum_add (f g : Z -> Z) R : zsum (map (fun p => f p + g p)%Z R) = (zsum (map f R) + zsum (map g R))%Z.
Proof. unfold zsum. induction R as [|x R IH]; cbn; [reflexivity|]. rewrite IH. lia. Qed.
Lemma zsum_ext (f g : Z -> Z) R : (forall p, In p R -> f p = g p) -> zsum (map f R) = zsum (map g R).
Proof. intros E. f_equal. apply map_ext_in. exact E. Qed.
Lemma quad_all (ls : zmap Z) k R : NoDup R -> ordered ls -> (forall p, In p (keys ls) -> In p R) ->
  zsum (map (fun p => match mfind p ls with Some w => if (p =? k)%Z then 0%Z else sq w | None => 0%Z end) R) =
  zsum (map (fun e => sq (snd e)) (filter (fun e => negb (fst e =? k)%Z) ls)).
Proof.
  intros N. induction ls as [|[a w] ls IH]; intros O Hs.
  - cbn. clear. unfold zsum. induction R as [|x R IH]; cbn; [reflexivity|exact IH].
  - inversion O as [|? ? S F]; subst. rewrite (zsum_ext _ (fun p => (if (p =? a)%Z then (if (p =? k)%Z then 0 else sq w) else 0) +
      match mfind p ls with Some w => if (p =? k)%Z then 0 else sq w | None => 0 end)%Z).
    2:{ intros p _. cbn [mfind]. destruct (Z.eqb_spec p a) as [->|]; [|lia]. replace (mfind a ls) with (@None Z); [lia|]. symmetry. apply mfind_none. intros Hi. rewrite Forall_forall in F. specialize (F a Hi). lia. }
    rewrite zsum_add, IH; [|exact S|intros p Hp; apply Hs; right; exact Hp]. rewrite (zsum_pick (fun p => if (p =? a)%Z then if (p =? k)%Z then 0%Z else sq w else 0%Z) R a N); [|apply Hs; left; reflexivity|].
    + rewrite Z.eqb_refl. cbn [filter fst]. destruct (a =? k)%Z; cbn [negb map snd]; unfold zsum; cbn; lia.
    + intros p _ D. destruct (Z.eqb_spec p a); [contradiction|reflexivity].
Qed.

Definition kof (m : hmap) (e : Z * list hit) : option Qc :=
  if (others_sq m (fst e) =? 0)%Z then None else Some (Q2Qc (inject_Z (wires (snd e) * wires (snd e))) / Q2Qc (inject_Z (others_sq m (fst e))))%Qc.
Definition wstep (m : hmap) (ws : list (option Qc * Z)) (e : Z * list hit) : outcome (list (option Qc * Z)) :=
  if (others_sq m (fst e) =? 0)%Z && (wires (snd e) =? 0)%Z then Undef else Ok (wset (kof m e) (fst e) ws).

Lemma foreach_map {A B C} (f : A -> B) (l : list A) (body : C -> B -> outcome C) c : foreach (map f l) body c = foreach l (fun c a => body c (f a)) c.
Proof. revert c. induction l as [|a l IH]; intros c; cbn [map foreach]; [reflexivity|]. destruct (body c (f a)); cbn [obind]; [apply IH|reflexivity|reflexivity]. Qed.
Lemma foreach_ext' {A C} (l : list A) (b1 b2 : C -> A -> outcome C) c : (forall c a, In a l -> b1 c a = b2 c a) -> foreach l b1 c = foreach l b2 c.
Proof. revert c. induction l as [|a l IH]; intros c E; cbn [foreach]; [reflexivity|]. rewrite E by (left; reflexivity). destruct (b2 c a); cbn [obind]; [apply IH; intros; apply E; right; assumption|reflexivity|reflexivity]. Qed.
Definition in_range' (np : nat) (m : hmap) : Prop := forall p, In p (map fst m) -> (0 <= p < Z.of_nat np)%Z.

Lemma wire_widths_eq np m : full m -> in_range' np m -> wire_widths np m = foreach m (wstep m) [].
Proof.
  intros [O N] R. unfold wire_widths.
  assert (E : foreach m (fun (ls : list (Z * Z)) (e : Z * list hit) => do w <- wlen (snd e); Ok (ls ++ [(fst e, w)])) [] = Ok (map (fun e : Z * list hit => (fst e, wires (snd e))) m)).
  { assert (X : forall l acc, (forall p v, In (p, v) l -> v <> []) -> foreach l (fun (ls : list (Z * Z)) (e : Z * list hit) => do w <- wlen (snd e); Ok (ls ++ [(fst e, w)])) acc = Ok (acc ++ map (fun e : Z * list hit => (fst e, wires (snd e))) l)).
    { induction l as [|[p v] l IH]; intros acc Hn; cbn [foreach map]; [rewrite app_nil_r; reflexivity|]. rewrite wlen_wires by (apply (Hn p); left; reflexivity). cbn [obind fst snd].
      rewrite IH by (intros q w Hi; apply (Hn q w); right; exact Hi). rewrite <- app_assoc. reflexivity. }
    apply (X m [] N). }
  rewrite E. cbn [obind]. set (ls := map (fun e : Z * list hit => (fst e, wires (snd e))) m).
  assert (Kl : keys ls = map fst m) by (unfold keys, ls; rewrite map_map; reflexivity).
  unfold ls at 1. rewrite foreach_map. apply foreach_ext'. intros ws e He. cbv zeta. cbn [fst snd]. rewrite quad_zsum, quad_all.
  2:{ apply FinFun.Injective_map_NoDup; [intros a b; apply Nat2Z.inj|apply seq_NoDup]. }
  2:{ unfold ordered. rewrite Kl. exact O. }
  2:{ intros p. rewrite Kl. intros Hp. apply R in Hp. apply in_map_iff. exists (Z.to_nat p). split; [lia|]. apply in_seq. lia. }
  replace (zsum (map (fun e0 : Z * Z => sq (snd e0)) (filter (fun e0 : Z * Z => negb (fst e0 =? fst e)%Z) ls))) with (others_sq m (fst e)).
  - unfold wstep, kof. destruct (others_sq m (fst e) =? 0)%Z; cbn [andb]; reflexivity.
  - unfold others_sq, ls, zsum. f_equal. clear. induction m as [|x m IH]; [reflexivity|]. cbn [filter map fst]. destruct (negb (fst x =? fst e)%Z); cbn [map snd]; [f_equal; exact IH|exact IH].
Qed.

Lemma wset_fresh k v (m : list (option Qc * Z)) : (forall a x, In (a, x) m -> wless k a = true \/ wless a k = true) -> forall x, In x (wset k v m) <-> x = (k, v) \/ In x m.
Proof.
  induction m as [|[a y] m IH]; intros F x; cbn [wset]; [cbn; intuition|]. destruct (wless k a) eqn:E1; [cbn; intuition|].
  destruct (wless a k) eqn:E2.
  - cbn [In]. rewrite IH by (intros; apply (F a0 x0); right; assumption). tauto.
  - destruct (F a y (or_introl eq_refl)); congruence.
Qed.
Lemma wset_fresh_len k v (m : list (option Qc * Z)) : (forall a x, In (a, x) m -> wless k a = true \/ wless a k = true) -> length (wset k v m) = S (length m).
Proof.
  induction m as [|[a y] m IH]; intros F; cbn [wset]; [reflexivity|]. destruct (wless k a) eqn:E1; [reflexivity|].
  destruct (wless a k) eqn:E2; [cbn [length]; rewrite IH; [reflexivity|]; intros; apply (F a0 x); right; assumption|].
  destruct (F a y (or_introl eq_refl)); congruence.
Qed.
Lemma others_ge m p q v : In (q, v) m -> q <> p -> (sq (wires v) <= others_sq m p)%Z.
Proof.
  unfold others_sq. intros Hi D. induction m as [|[a w] m IH]; [destruct Hi|].
  assert (Nn : forall l : hmap, (0 <= fold_right Z.add 0 (map (fun e => wires (snd e) * wires (snd e)) l))%Z).
  { induction l as [|x l IHl]; cbn; [lia|]. pose proof (wires_nonneg (snd x)). nia. }
  cbn [filter fst]. destruct Hi as [E|Hi].
  - injection E as -> ->. destruct (Z.eqb_spec q p); [contradiction|]. cbn [negb map fold_right snd]. specialize (Nn (filter (fun e => negb (fst e =? p)%Z) m)). unfold sq. lia.
  - specialize (IH Hi). destruct (negb (a =? p)%Z); cbn [map fold_right snd]; [|exact IH]. pose proof (wires_nonneg w). nia.
Qed.
Lemma others_tot m p v : full m -> In (p, v) m -> (sq (wires v) + others_sq m p = zsum (map (fun e => sq (wires (snd e))) m))%Z.
Proof.
  intros [O _] Hi. unfold others_sq. revert O. induction m as [|[a w] m IH]; intros O; [destruct Hi|]. inversion O as [|? ? S F]; subst. cbn [filter fst]. destruct Hi as [E|Hi].
  - injection E as -> ->. rewrite Z.eqb_refl. cbn [negb]. cbn [map zsum fold_right snd]. f_equal.
    rewrite (filter_ext_in (fun e : Z * list hit => negb (fst e =? p)%Z) (fun _ => true)); [clear; induction m as [|x m IH]; cbn; [reflexivity|rewrite IH; reflexivity]|].
    intros e He. rewrite Forall_forall in F. specialize (F (fst e) (in_map fst _ _ He)). cbn in F. destruct (Z.eqb_spec (fst e) p); [lia|reflexivity].
  - rewrite Forall_forall in F. pose proof (F p (in_map fst _ _ Hi)) as L. cbn in L. destruct (Z.eqb_spec a p); [lia|]. cbn [negb map fold_right snd zsum].
    specialize (IH Hi S). unfold sq, zsum in *. lia.
Qed.
Lemma qz_pos (n : Z) : (0 < n)%Z -> (Q2Qc 0 < Q2Qc (inject_Z n))%Qc.
Proof. intros H. apply Qclt_this. rewrite !this_Q2Qc. unfold Qlt, inject_Z. cbn. lia. Qed.
Lemma div_lt a b c d : (0 < b)%Z -> (0 < d)%Z -> (a * d < c * b)%Z -> (Q2Qc (inject_Z a) / Q2Qc (inject_Z b) < Q2Qc (inject_Z c) / Q2Qc (inject_Z d))%Qc.
Proof.
  intros Hb Hd L. pose proof (qz_pos b Hb) as Pb. pose proof (qz_pos d Hd) as Pd.
  assert (E : (Q2Qc (inject_Z a) * Q2Qc (inject_Z d) < Q2Qc (inject_Z c) * Q2Qc (inject_Z b))%Qc).
  { apply Qclt_this. rewrite !this_mult, !this_Q2Qc. unfold Qlt, inject_Z, Qmult. cbn. lia. }
  set (A := Q2Qc (inject_Z a)) in *. set (B := Q2Qc (inject_Z b)) in *. set (C := Q2Qc (inject_Z c)) in *. set (D := Q2Qc (inject_Z d)) in *. clearbody A B C D.
  assert (Eb : (A / B * B = A)%Qc) by (field; intros X; subst B; exact (Qclt_not_eq _ _ Pb eq_refl)).
  assert (Ed : (C / D * D = C)%Qc) by (field; intros X; subst D; exact (Qclt_not_eq _ _ Pd eq_refl)).
  set (x := (A / B)%Qc) in *. set (y := (C / D)%Qc) in *. clearbody x y. subst A C. destruct (Qclt_le_dec x y) as [G|G]; [exact G|exfalso].
  assert (X : (y * (B * D) <= x * (B * D))%Qc) by (apply Qcmult_le_compat_r; [exact G|]; change (0 < B)%Qc in Pb; change (0 < D)%Qc in Pd; clear -Pb Pd; apply Qclt_le_weak; replace (Q2Qc 0) with (0 * D)%Qc by ring; apply Qcmult_lt_compat_r; assumption).
  apply (Qclt_not_le _ _ E). replace (y * D * B)%Qc with (y * (B * D))%Qc by ring. replace (x * B * D)%Qc with (x * (B * D))%Qc by ring. exact X.
Qed.
Lemma kof_lt m p q v w : full m -> In (p, v) m -> In (q, w) m -> (wires v < wires w)%Z -> wless (kof m (p, v)) (kof m (q, w)) = true.
Proof.
  intros F Hv Hw L. pose proof (wires_nonneg v) as Nv. assert (D : p <> q).
  { intros ->. destruct F as [O _]. apply (mfind_in _ _ _ O) in Hv. apply (mfind_in _ _ _ O) in Hw. rewrite Hv in Hw. injection Hw as ->. lia. }
  pose proof (others_tot m p v F Hv) as T1. pose proof (others_tot m q w F Hw) as T2. pose proof (others_ge m p q w Hw (fun X => D (eq_sym X))) as G1. pose proof (others_ge m q p v Hv D) as G2.
  unfold kof. cbn [fst snd]. unfold sq in T1, T2, G1, G2. set (a := wires v) in *. set (b := wires w) in *. clearbody a b.
  assert (W : (a * a < b * b)%Z) by (clear -Nv L; nia). assert (A0 : (0 <= a * a)%Z) by (clear; nia). assert (T : (a * a + others_sq m p = b * b + others_sq m q)%Z) by (rewrite T1, T2; reflexivity).
  destruct (Z.eqb_spec (others_sq m p) 0) as [E1|E1]; [lia|]. destruct (Z.eqb_spec (others_sq m q) 0) as [E2|E2]; [reflexivity|].
  cbn [wless]. apply qc_lt_spec. apply div_lt; [lia|lia|]. assert (P1 : (0 < others_sq m q)%Z) by lia. assert (P2 : (others_sq m q < others_sq m p)%Z) by lia.
  clear -W A0 P1 P2. set (x := others_sq m q) in *. set (y := others_sq m p) in *. clearbody x y. nia.
Qed.
Lemma kof_lim m p v : full m -> In (p, v) m -> wless (kof m (p, v)) (Some (Q2Qc 1 / (qn (length m) * qn (length m)))%Qc) = true <-> narrow m p.
Proof.
  intros F Hv. assert (Ln : (0 < Z.of_nat (length m))%Z) by (destruct m; [destruct Hv|cbn [length]; lia]).
  pose proof (wires_nonneg v) as Nv. assert (Ge : (0 <= others_sq m p)%Z).
  { clear. unfold others_sq. generalize (filter (fun e : Z * list hit => negb (fst e =? p)%Z) m). intros l. induction l as [|x l IH]; cbn; [lia|]. pose proof (wires_nonneg (snd x)). nia. }
  replace (Q2Qc 1 / (qn (length m) * qn (length m)))%Qc with (Q2Qc (inject_Z 1) / Q2Qc (inject_Z (Z.of_nat (length m) * Z.of_nat (length m))))%Qc.
  2:{ f_equal. f_equal. unfold qn. apply Qc_eq_this. rewrite this_mult, !this_Q2Qc. rewrite inject_Z_mult. reflexivity. }
  assert (Eq : narrow m p <-> (Z.of_nat (length m) * Z.of_nat (length m) * (wires v * wires v) < others_sq m p)%Z).
  { split; [|intros X; exists v; auto]. intros (v' & Hi & X). destruct F as [O _]. apply (mfind_in _ _ _ O) in Hv. apply (mfind_in _ _ _ O) in Hi. rewrite Hv in Hi. injection Hi as <-. exact X. }
  rewrite Eq. unfold kof. cbn [fst snd]. destruct (Z.eqb_spec (others_sq m p) 0) as [E1|E1]; cbn [wless]; [split; [discriminate|nia]|].
  rewrite qc_lt_spec. split.
  - intros X. destruct (Z_lt_le_dec (Z.of_nat (length m) * Z.of_nat (length m) * (wires v * wires v)) (others_sq m p)) as [Y|Y]; [exact Y|exfalso].
    apply Z.lt_eq_cases in Y. destruct Y as [Y|Y].
    + apply (Qclt_not_le _ _ X), Qclt_le_weak, div_lt; nia.
    + apply (Qclt_not_eq _ _ X). assert (Na : forall n, (0 < n)%Z -> Q2Qc (inject_Z n) <> 0%Qc) by (intros n Hn Z; pose proof (qz_pos n Hn) as W; rewrite Z in W; exact (Qclt_not_eq _ _ W eq_refl)).
      rewrite Y. set (n2 := (Z.of_nat (length m) * Z.of_nat (length m))%Z) in *. assert (Hn2 : (0 < n2)%Z) by nia. assert (Hw : (0 < wires v * wires v)%Z) by nia.
      assert (Em : Q2Qc (inject_Z (n2 * (wires v * wires v))) = (Q2Qc (inject_Z n2) * Q2Qc (inject_Z (wires v * wires v)))%Qc).
      { apply Qc_eq_this. rewrite this_mult, !this_Q2Qc. rewrite inject_Z_mult. reflexivity. }
      rewrite Em. pose proof (Na _ Hn2). pose proof (Na _ Hw). change (Q2Qc (inject_Z 1)) with 1%Qc. field. auto.
  - intros X. apply div_lt; nia.
Qed.
