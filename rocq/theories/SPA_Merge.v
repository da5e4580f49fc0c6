(** Merge: one point for all the combinations with the same last hit *)
From Coq Require Import QArith Qcanon Lqa.
From Verif Require Import Base QcUtil SortUtil Solver_Model Solver_Proofs SPS_Model SPA_Model SPA_Spec SPA_Fit SPA_Runs SPA_Hits SPA_Loop SPA_Ids SPA_Make SPA_Out SPA_Filter.
Import SPA_Model SPA_Ids.
Local Open Scope nat_scope.

(* ---------------------------------------------------------------- sort and unique *)
Lemma unique_in l : (forall a b, In a l -> In b l -> hid a = hid b -> a = b) -> forall h, In h (unique l) <-> In h l.
Proof.
  induction l as [|x l IH]; intros J h; [reflexivity|]. destruct l as [|k r]; [reflexivity|].
  assert (IH' : forall h, In h (unique (k :: r)) <-> In h (k :: r)) by (apply IH; intros a b A B; apply J; right; assumption).
  cbn [unique]. destruct (Nat.eqb_spec (hid x) (hid k)) as [E|N].
  - change (match r with [] => [k] | k0 :: _ => if hid k =? hid k0 then unique r else k :: unique r end) with (unique (k :: r)). rewrite IH'.
    assert (x = k) by (apply J; [left; reflexivity|right; left; reflexivity|exact E]). subst. cbn. tauto.
  - change (match r with [] => [k] | k0 :: _ => if hid k =? hid k0 then unique r else k :: unique r end) with (unique (k :: r)). cbn [In] in *. rewrite IH'. tauto.
Qed.
Lemma unique_sub l h : In h (unique l) -> In h l.
Proof.
  induction l as [|x l IH]; [intros []|]. destruct l as [|k r]; [auto|]. cbn [unique]. destruct (hid x =? hid k); [intros H; right; apply IH; exact H|intros [<-|H]; [left; reflexivity|right; apply IH; exact H]].
Qed.
Lemma unique_sorted l : StronglySorted (fun a b => hid a <= hid b) l -> StronglySorted (fun a b => hid a < hid b) (unique l).
Proof.
  induction 1 as [|x l S IH F]; [constructor|]. destruct l as [|k r]; [repeat constructor|]. cbn [unique]. destruct (Nat.eqb_spec (hid x) (hid k)) as [E|N]; [exact IH|].
  constructor; [exact IH|]. apply Forall_forall. intros y Y. apply (unique_sub (k :: r)) in Y. inversion F as [|? ? Fk Fr]; subst. inversion S as [|? ? S' F']; subst. rewrite Forall_forall in F'. destruct Y as [<-|Y]; [lia|]. specialize (F' y Y). lia.
Qed.
Lemma ptr_sorted l : StronglySorted (fun a b => hid a <= hid b) (isort ptr_lt l).
Proof.
  assert (S : StronglySorted (fun a b => ptr_lt b a = false) (isort ptr_lt l)).
  { apply isort_sorted; unfold ptr_lt; [intros a b c H1 H2; apply Nat.ltb_ge in H1, H2; apply Nat.ltb_ge; lia|intros a b H; apply Nat.ltb_lt in H; apply Nat.ltb_ge; lia]. }
  induction S as [|x m S IH F]; constructor; [exact IH|]. eapply Forall_impl; [|exact F]. intros y Y. unfold ptr_lt in Y. apply Nat.ltb_ge in Y. exact Y.
Qed.
Lemma merged_union l : (forall a b, In a l -> In b l -> hid a = hid b -> a = b) -> StronglySorted (fun a b => hid a < hid b) (unique (isort ptr_lt l)) /\ forall h, In h (unique (isort ptr_lt l)) <-> In h l.
Proof.
  intros J. assert (Pm : forall h, In h (isort ptr_lt l) <-> In h l) by (intros h; split; apply Permutation_in; [|apply Permutation_sym]; apply isort_perm).
  split; [apply unique_sorted, ptr_sorted|]. intros h. rewrite unique_in; [apply Pm|]. intros a b A B. apply J; apply Pm; assumption.
Qed.

(* ---------------------------------------------------------------- the merged point *)
Definition complex_point (g : geo) (hs : list hit) (id : Z) : sp := point g (plane_weight hs) (fun sumw sumt2w drift => (sumt2w / sumw - drift * drift)%Qc) hs id.
Lemma complex_ok g hs out id m : 2 <= length hs -> ~ In id (map fst m) -> fill_complex g hs out id m = Ok (out ++ [complex_point g hs id], (id, hs) :: m).
Proof.
  intros L N. unfold fill_complex. destruct (mfind id m) eqn:E; [rewrite (proj2 (mfind_none id m) N) in E; discriminate|]. rewrite (proj2 (Nat.leb_le _ _) L). reflexivity.
Qed.
Lemma complex_throw g hs out id m : In id (map fst m) -> fill_complex g hs out id m = Throw UserExn.
Proof. intros I. unfold fill_complex. destruct (mfind id m) eqn:E; [reflexivity|]. apply mfind_none in E. contradiction. Qed.

Lemma weight_spec hs h n : counts (fun k => hplane k = hplane h) hs n -> plane_weight hs h = (1 / (nat_q n * nat_q n * nat_q n))%Qc.
Proof.
  intros C. unfold plane_weight. rewrite <- (counts_filter _ (fun k => hplane k =? hplane h) hs n (fun k => Nat.eqb_eq _ _) C). reflexivity.
Qed.
Lemma nat_q_pos n : (0 < n)%nat -> (0 < nat_q n)%Qc.
Proof. intros L. unfold nat_q, Qclt. change (this 0%Qc) with (inject_Z 0). rewrite this_Q2Qc, <- Zlt_Qlt. lia. Qed.
Lemma weight_pos hs h : In h hs -> (0 < plane_weight hs h)%Qc.
Proof.
  intros I. unfold plane_weight. change qc_nat with nat_q.
  assert (L : 0 < length (filter (fun k => hplane k =? hplane h) hs)).
  { assert (X : In h (filter (fun k => hplane k =? hplane h) hs)) by (apply filter_In; split; [exact I|apply Nat.eqb_refl]). destruct (filter _ hs); [destruct X|cbn; lia]. }
  apply nat_q_pos in L. apply div_pos; [reflexivity|]. apply mul_pos; [apply mul_pos|]; exact L.
Qed.
Lemma complex_fitted g hits hs id : regular g -> (forall h, In h hits -> (0 < hsig h)%Qc) -> incl hs hits -> hs <> [] -> fitted g (plane_weight hs) hs (complex_point g hs id).
Proof.
  intros R P I N. apply point_fitted; [|exact N|intros h H; apply weight_pos; exact H]. intros h H. split; [apply P, I, H|]. split; [apply (r_straight g R)|apply (r_pitch g R)].
Qed.

(* ---------------------------------------------------------------- collecting the hits of one key *)
Definition grab (m : hmap) (acc : list hit) (e : nat * sp) : outcome (list hit) := do l <- assoc_hits m (snd e); Ok (acc ++ l).
Lemma grab_ok g m : NoDup (map fst m) -> forall es acc, (forall e, In e es -> In (fst e) m) ->
  foreach (map (fun e : (Z * list hit) * nat => (snd e, simple_point g (snd (fst e)) (fst (fst e)))) es) (grab m) acc = Ok (acc ++ flat_map (fun e => snd (fst e)) es).
Proof.
  intros S. induction es as [|[[id hs] k] es IH]; intros acc I; cbn [map foreach flat_map]; [rewrite app_nil_r; reflexivity|].
  unfold grab at 1. cbn [fst snd]. unfold assoc_hits. change (sp_id (simple_point g hs id)) with id. rewrite (proj2 (mfind_some id m hs S)) by (apply (I (id, hs, k)); left; reflexivity). cbn [obind].
  rewrite IH by (intros e E; apply I; right; exact E). rewrite <- app_assoc. reflexivity.
Qed.
Lemma entries_map g m0 es : (forall e, In e es -> In e (map (entry g) m0)) -> exists es', es = map (fun e : (Z * list hit) * nat => (snd e, simple_point g (snd (fst e)) (fst (fst e)))) es' /\ forall e, In e es' -> In (fst e) m0 /\ snd e = last_id (snd (fst e)).
Proof.
  induction es as [|e es IH]; intros I; [exists []; split; [reflexivity|intros e []]|]. destruct IH as (es' & E & H); [intros x X; apply I; right; exact X|].
  specialize (I e (or_introl eq_refl)). apply in_map_iff in I as ((id & hs) & X & I). exists ((id, hs, last_id hs) :: es'). split; [cbn [map fst snd]; rewrite <- X, E; reflexivity|].
  intros y [<-|Y]; [cbn; auto|apply H; exact Y].
Qed.

(** the state between merges: the points made come first in the map, the merged points get identifiers above *)
Record minv (g : geo) (m0 : hmap) (s : st) : Prop := {
  mi_mm : Permutation (s_mm s) (map (entry g) m0);
  mi_in : forall e, In e m0 -> In e (s_map s);
  mi_single : NoDup (map fst (s_map s));
  mi_ids : forall i, In i (map fst (s_map s)) -> (i < Z.of_nat (length (s_mm s)) + Z.of_nat (length (s_out s)) - 1)%Z }.

Lemma grab_key g m0 s k : minv g m0 s -> exists H, foreach (filter (fun e => fst e =? k) (s_mm s)) (grab (s_map s)) [] = Ok H /\
  forall h, In h H <-> exists id hs, In (id, hs) m0 /\ last_id hs = k /\ In h hs.
Proof.
  intros I. destruct (entries_map g m0 (filter (fun e => fst e =? k) (s_mm s))) as (es & E & X).
  { intros e J. apply filter_In in J as (J & _). apply (Permutation_in _ (mi_mm _ _ _ I)). exact J. }
  rewrite E, (grab_ok g (s_map s) (mi_single _ _ _ I) es []); [|intros e J; apply (mi_in _ _ _ I), (X e J)]. eexists. split; [reflexivity|]. cbn [app]. intros h. rewrite in_flat_map. split.
  - intros ([[id hs] k'] & J & Hh). destruct (X _ J) as (X1 & X2). cbn [fst snd] in *. exists id, hs. split; [exact X1|]. split; [|exact Hh].
    assert (Y : In (k', simple_point g hs id) (filter (fun e => fst e =? k) (s_mm s))) by (rewrite E; apply in_map_iff; exists (id, hs, k'); auto). apply filter_In in Y as (_ & Y). cbn in Y. apply Nat.eqb_eq in Y. congruence.
  - intros (id & hs & J & K & Hh). assert (Y : In (entry g (id, hs)) (filter (fun e => fst e =? k) (s_mm s))).
    { apply filter_In. split; [apply (Permutation_in _ (Permutation_sym (mi_mm _ _ _ I))), in_map; exact J|]. unfold entry. cbn. apply Nat.eqb_eq. exact K. }
    rewrite E in Y. apply in_map_iff in Y as ([[id' hs'] k'] & Y & Z). exists (id', hs', k'). split; [exact Z|]. cbn [fst snd] in *. unfold entry in Y. cbn [fst snd] in Y.
    assert (id' = id) by exact (f_equal (fun e => sp_id (snd e)) Y). subst id'.
    destruct (X _ Z) as (Z1 & _). cbn in Z1. pose proof (mi_in _ _ _ I _ Z1) as A. pose proof (mi_in _ _ _ I _ J) as B.
    apply mfind_some in A; [|apply (mi_single _ _ _ I)]. apply mfind_some in B; [|apply (mi_single _ _ _ I)]. assert (hs' = hs) by congruence. subst. exact Hh.
Qed.

Lemma merge_round g hits m0 s ks : regular g -> placed g hits -> (forall h, In h hits -> (0 < hsig h)%Qc) ->
  (forall e, In e m0 -> incl (snd e) hits /\ exists a b, In a (snd e) /\ In b (snd e) /\ a <> b) -> minv g m0 s ->
  (forall d, In d ks -> In d hits /\ exists id pre, In (id, pre ++ [d]) m0) ->
  exists s' r, foreach (map hid ks) (merge_key g) s = Ok s' /\ minv g m0 s' /\ s_mm s' = s_mm s /\ s_keys s' = s_keys s /\ s_out s' = s_out s ++ r /\ (exists m1, s_map s' = m1 ++ s_map s) /\
    Forall2 (merged g (s_map s') (map snd m0)) ks r.
Proof.
  intros R Pl Po Hm. revert s. induction ks as [|d ks IH]; intros s I Hk; cbn [map foreach].
  - exists s, []. rewrite app_nil_r. split; [reflexivity|]. split; [exact I|]. split; [reflexivity|]. split; [reflexivity|]. split; [reflexivity|]. split; [exists []; reflexivity|constructor].
  - destruct (grab_key g m0 s (hid d) I) as (H & EH & InH). destruct (Hk d (or_introl eq_refl)) as (Hd & id0 & pre0 & J0).
    assert (Hh : incl H hits) by (intros h X; apply InH in X as (id & hs & X & _ & Y); apply (Hm _ X); exact Y).
    destruct (merged_union H) as (U1 & U2); [intros a b A B; apply (hid_inj g hits); [exact Pl|apply Hh; exact A|apply Hh; exact B]|].
    set (hs := unique (isort ptr_lt H)) in *.
    assert (L2 : 2 <= length hs).
    { destruct (Hm _ J0) as (_ & a & b & A & B & N). cbn [snd] in A, B. assert (In a hs) by (apply U2, InH; exists id0, (pre0 ++ [d]); rewrite last_id_snoc; auto). assert (In b hs) by (apply U2, InH; exists id0, (pre0 ++ [d]); rewrite last_id_snoc; auto).
      destruct hs as [|x [|y r]]; [destruct H0| |cbn; lia]. destruct H0 as [<-|[]], H1 as [<-|[]]. congruence. }
    set (id := (Z.of_nat (length (s_mm s)) + Z.of_nat (length (s_out s)) - 1)%Z).
    assert (Fr : ~ In id (map fst (s_map s))) by (intros X; apply (mi_ids _ _ _ I) in X; unfold id in X; lia).
    assert (Em : merge_key g s (hid d) = Ok (St ((id, hs) :: s_map s) (s_mm s) (s_keys s) (s_out s ++ [complex_point g hs id]))).
    { unfold merge_key. unfold grab in EH. rewrite EH. cbn [obind]. fold hs. fold id. rewrite complex_ok by assumption. reflexivity. }
    rewrite Em. cbn [obind]. set (s1 := St _ _ _ _).
    assert (I1 : minv g m0 s1).
    { constructor; cbn [s1 s_map s_mm s_out]; [exact (mi_mm _ _ _ I)|intros e E; right; apply (mi_in _ _ _ I); exact E|cbn [map fst]; constructor; [exact Fr|exact (mi_single _ _ _ I)]|].
      intros i [<-|X]; rewrite app_length; cbn [length fst]; [unfold id; lia|]. apply (mi_ids _ _ _ I) in X. lia. }
    destruct (IH s1 I1) as (s' & r & E' & I' & M' & K' & O' & (m1 & G') & F'); [intros d' D'; apply Hk; right; exact D'|].
    exists s', (complex_point g hs id :: r). split; [exact E'|]. split; [exact I'|]. split; [exact M'|]. split; [exact K'|]. split; [rewrite O'; cbn [s1 s_out]; rewrite <- app_assoc; reflexivity|].
    split; [exists (m1 ++ [(id, hs)]); rewrite G'; cbn [s1 s_map]; rewrite <- app_assoc; reflexivity|]. constructor; [|exact F'].
    exists hs, (plane_weight hs). split; [unfold hits_of; change (sp_id (complex_point g hs id)) with id; rewrite G'; apply in_or_app; right; left; reflexivity|].
    split; [|split; [intros h n _ C; apply weight_spec; exact C|apply (complex_fitted g hits); [exact R|exact Po|intros h X; apply Hh, U2; exact X|intros X; rewrite X in L2; cbn in L2; lia]]].
    split; [exact U1|]. intros h. rewrite U2, InH. split.
    + intros (i & hs0 & X & Y & Z). assert (Nz : hs0 <> []) by (intros ->; destruct Z). destruct (snoc_of hs0 Nz) as (pre & d' & ->). rewrite last_id_snoc in Y.
      assert (d' = d). { apply (hid_inj g hits); [exact Pl| |exact Hd|exact Y]. apply (Hm _ X). cbn. apply in_or_app; right; left; reflexivity. } subst d'.
      exists pre. split; [apply (in_map snd) in X; exact X|exact Z].
    + intros (pre & X & Y). apply in_map_iff in X as ((i & hs0) & X & Z). cbn in X. subst hs0. exists i, (pre ++ [d]). split; [exact Z|]. split; [apply last_id_snoc|exact Y].
Qed.

(* ---------------------------------------------------------------- only one TPC makes points, all triplets *)
Lemma F2_impl' {A B} (P Q : A -> B -> Prop) l l' : (forall x y, P x y -> Q x y) -> Forall2 P l l' -> Forall2 Q l l'.
Proof. intros H. induction 1; constructor; auto. Qed.
Lemma merged_mono g m1 m C d p : merged g m C d p -> merged g (m1 ++ m) C d p.
Proof. intros (hs & wt & A & B). exists hs, wt. split; [apply in_or_app; right; exact A|exact B]. Qed.
Lemma F2_merged_mono g m1 m C ks r : Forall2 (merged g m C) ks r -> Forall2 (merged g (m1 ++ m) C) ks r.
Proof. induction 1; constructor; [apply merged_mono; assumption|assumption]. Qed.
Lemma step_empty g c s w : filt c = false -> merge c = true -> both w = [] -> step g c s w = foreach (s_keys s) (merge_key g) s.
Proof. intros F M B. apply app_eq_nil in B as (B1 & B2). unfold step. rewrite B1, B2. cbn [foreach obind]. unfold finish. rewrite F, M. reflexivity. Qed.
Lemma empty_first g c : filt c = false -> merge c = true -> forall L, (forall w, In w L -> both w = []) -> foreach L (step g c) s0 = Ok s0.
Proof.
  intros F M. induction L as [|w L IH]; intros H; cbn [foreach]; [reflexivity|]. rewrite step_empty by (auto; apply H; left; reflexivity). cbn [s0 s_keys foreach obind]. apply IH. intros x X; apply H; right; exact X.
Qed.
Lemma rounds g c hits m0 ks : filt c = false -> merge c = true -> regular g -> placed g hits -> (forall h, In h hits -> (0 < hsig h)%Qc) ->
  (forall e, In e m0 -> incl (snd e) hits /\ exists a b, In a (snd e) /\ In b (snd e) /\ a <> b) -> (forall d, In d ks -> In d hits /\ exists id pre, In (id, pre ++ [d]) m0) ->
  forall L s, (forall w, In w L -> both w = []) -> minv g m0 s -> s_keys s = map hid ks ->
  exists s' rs, foreach L (step g c) s = Ok s' /\ minv g m0 s' /\ length rs = length L /\ s_out s' = s_out s ++ concat rs /\ (exists m1, s_map s' = m1 ++ s_map s) /\
    forall r, In r rs -> Forall2 (merged g (s_map s') (map snd m0)) ks r.
Proof.
  intros Fc Mc R Pl Po Hm Hk. induction L as [|w L IH]; intros s Em I Ks; cbn [foreach].
  - exists s, []. cbn. rewrite app_nil_r. split; [reflexivity|]. split; [exact I|]. split; [reflexivity|]. split; [reflexivity|]. split; [exists []; reflexivity|intros r []].
  - rewrite step_empty by (auto; apply Em; left; reflexivity). rewrite Ks.
    destruct (merge_round g hits m0 s ks R Pl Po Hm I Hk) as (s1 & r & E1 & I1 & M1 & K1 & O1 & (m1 & G1) & F1). rewrite E1. cbn [obind].
    destruct (IH s1 (fun x X => Em x (or_intror X)) I1 ltac:(congruence)) as (s' & rs & E' & I' & Ln & O' & (m2 & G2) & F2). exists s', (r :: rs).
    split; [exact E'|]. split; [exact I'|]. split; [cbn; congruence|]. split; [rewrite O', O1; cbn [concat]; rewrite app_assoc; reflexivity|]. split; [exists (m2 ++ m1); rewrite G2, G1, app_assoc; reflexivity|].
    intros r' [<-|X]; [rewrite G2; apply F2_merged_mono; exact F1|apply F2; exact X].
Qed.
Lemma combo_two g c hits v w hs : does g c hits v w -> In hs (both w) -> exists a b, In a hs /\ In b hs /\ a <> b.
Proof.
  intros D I. destruct (d_ord _ _ _ _ _ D) as (Pm & _). assert (N : NoDup (w_ord w)) by (apply (Permutation_NoDup (Permutation_sym Pm)), seq_NoDup). rewrite NoDup_nth_error in N.
  apply in_app_or in I as [I|I].
  - apply (d_two _ _ _ _ _ D) in I as (_ & _ & i & j & p & q & a & b & L & Ip & Iq & -> & Ha & (_ & _ & _ & A) & Hb & (_ & _ & _ & B) & _). exists a, b. split; [left; reflexivity|]. split; [right; left; reflexivity|].
    intros ->. assert (i = j) by (apply N; [apply nth_error_Some; congruence|congruence]). lia.
  - apply (d_three _ _ _ _ _ D) in I as (_ & _ & p & q & r & a & b & d & Ip & Iq & Ir & -> & Ha & (_ & _ & _ & A) & Hb & (_ & _ & _ & B) & _). exists a, b. split; [left; reflexivity|]. split; [right; left; reflexivity|].
    intros ->. assert (0 = 1) by (apply N; [apply nth_error_Some; congruence|congruence]). lia.
Qed.
Lemma keys_hits (D : list (list hit)) : (forall hs, In hs D -> hs <> []) -> forall ks, (forall k, In k ks -> In k (map last_id D)) -> exists ds, map hid ds = ks /\ forall d, In d ds -> exists pre, In (pre ++ [d]) D.
Proof.
  intros Ne. induction ks as [|k ks IH]; intros H; [exists []; split; [reflexivity|intros d []]|]. destruct IH as (ds & E & Hd); [intros x X; apply H; right; exact X|].
  specialize (H k (or_introl eq_refl)). apply in_map_iff in H as (hs & X & I). destruct (snoc_of hs (Ne hs I)) as (pre & d & ->). rewrite last_id_snoc in X. exists (d :: ds). split; [cbn; congruence|].
  intros y [<-|Y]; [exists pre; exact I|apply Hd; exact Y].
Qed.

Section merging.
Context (g : geo) (c : cfg) (hits : list hit) (vis : list (nat * nat * nat)) (L : list work).
Hypothesis Fc : filt c = false.
Hypothesis Mc : merge c = true.
Hypothesis F : Forall2 (does g c hits) vis L.

Lemma L_sane : forall w, In w L -> sane w.
Proof. intros w W; destruct (does_all _ _ _ _ _ F w W) as (v & _ & D); exact (does_sane _ _ _ _ _ D). Qed.
Lemma L_hits : forall w hs, In w L -> In hs (both w) -> incl hs hits /\ hs <> [].
Proof.
  intros w hs W I. destruct (does_all _ _ _ _ _ F w W) as (v & _ & D). split; [intros h H; apply (does_at _ _ _ _ _ hs h D I H)|]. intros ->. pose proof (no_hit_two w (L_sane w W) [] I) as X. cbn in X. lia.
Qed.

Lemma merge_single k w : regular g -> placed g hits -> (forall h, In h hits -> (0 < hsig h)%Qc) -> nth_error L k = Some w -> w2 w = [] -> (forall j w', nth_error L j = Some w' -> j <> k -> both w' = []) ->
  exists s' ds rs, foreach L (step g c) s0 = Ok s' /\ NoDup (map fst (s_map s')) /\ NoDup ds /\ (forall d, In d ds <-> exists pre, In (pre ++ [d]) (both w)) /\
    s_out s' = concat rs /\ length rs = length L - k /\ forall r, In r rs -> Forall2 (merged g (s_map s') (both w)) ds r.
Proof.
  intros R Pl Po Hk W2 Em. destruct (nth_error_split L k Hk) as (L1 & L2 & EL & Lk).
  assert (Iw : In w L) by (eapply nth_error_In; exact Hk).
  assert (E1 : forall w', In w' L1 -> both w' = []).
  { intros w' X. apply In_nth_error in X as (j & X). assert (j < k) by (rewrite <- Lk; apply nth_error_Some; congruence). apply (Em j); [rewrite EL, nth_error_app1 by lia; exact X|lia]. }
  assert (E2 : forall w', In w' L2 -> both w' = []).
  { intros w' X. apply In_nth_error in X as (j & X). apply (Em (length L1 + S j)); [rewrite EL, nth_error_app2 by lia; replace (length L1 + S j - length L1) with (S j) by lia; exact X|lia]. }
  destruct (adds3 g (w3 w) [] s0 (inv0 g) ids0) as (s1 & A1 & I1 & O1 & B1); [intros hs X; apply (L_sane w Iw); apply in_or_app; right; exact X|]. cbn [app] in I1.
  assert (Bw : both w = w3 w) by (unfold both; rewrite W2; reflexivity).
  destruct (keys_hits (w3 w)) with (ks := s_keys s1) as (ds & Ed & Hd); [intros hs X; apply (L_hits w hs Iw); rewrite Bw; exact X|intros x X; apply (i_keys_in _ _ _ I1); exact X|].
  assert (Dh : forall d, In d ds -> In d hits) by (intros d X; destruct (Hd d X) as (pre & Y); rewrite <- Bw in Y; apply (L_hits w _ Iw Y), in_or_app; right; left; reflexivity).
  assert (Mp : forall hs, In hs (map snd (s_map s1)) <-> In hs (w3 w)) by (intros hs; rewrite (i_hits _ _ _ I1); symmetry; apply in_rev).
  assert (Mi : minv g (s_map s1) s1).
  { constructor; [exact (i_mm _ _ _ I1)|auto|exact (i_single _ _ _ I1)|]. intros i X. specialize (B1 i X). cbv zeta in B1. rewrite O1. cbn. lia. }
  assert (Hm : forall e, In e (s_map s1) -> incl (snd e) hits /\ exists a b, In a (snd e) /\ In b (snd e) /\ a <> b).
  { intros e X. apply (in_map snd) in X. apply Mp in X. rewrite <- Bw in X. split; [apply (L_hits w _ Iw X)|]. destruct (does_all _ _ _ _ _ F w Iw) as (v & _ & D). apply (combo_two _ _ _ _ _ _ D X). }
  assert (Hk' : forall d, In d ds -> In d hits /\ exists id pre, In (id, pre ++ [d]) (s_map s1)).
  { intros d X. split; [apply Dh; exact X|]. destruct (Hd d X) as (pre & Y). apply Mp in Y. apply in_map_iff in Y as ((id & hs) & Z & Y). cbn in Z. subst hs. eauto. }
  destruct (merge_round g hits (s_map s1) s1 ds R Pl Po Hm Mi Hk') as (s2 & r & A2 & I2 & M2 & K2 & O2 & (m1 & G2) & F2).
  destruct (rounds g c hits (s_map s1) ds Fc Mc R Pl Po Hm Hk' L2 s2 E2 I2 ltac:(congruence)) as (s' & rs & A3 & I3 & Ln & O3 & (m2 & G3) & F3).
  assert (Chg : forall d p m, merged g m (map snd (s_map s1)) d p -> merged g m (both w) d p).
  { intros d p m (hs & wt & X1 & (X2 & X3) & X4). exists hs, wt. split; [exact X1|]. split; [|exact X4]. split; [exact X2|]. intros h. rewrite X3. split; intros (pre & Y & Z); exists pre; (split; [|exact Z]); [rewrite Bw; apply Mp; exact Y|apply Mp; rewrite <- Bw; exact Y]. }
  exists s', ds, (r :: rs). split; [|split; [exact (mi_single _ _ _ I3)|split; [|split; [|split; [|split]]]]].
  - rewrite EL, CMgr_Proofs.foreach_app, (empty_first g c Fc Mc L1 E1). cbn [obind foreach]. unfold step at 1. rewrite W2. cbn [foreach obind]. rewrite A1. cbn [obind]. unfold finish. rewrite Fc, Mc. unfold do_merge. rewrite <- Ed, A2. cbn [obind]. exact A3.
  - apply NoDup_map_inv with (f := hid). rewrite Ed. apply sorted_nodup, (i_keys _ _ _ I1).
  - intros d. rewrite Bw. split; [apply Hd|]. intros (pre & X). assert (K : In (hid d) (map hid ds)) by (rewrite Ed; apply (i_keys_in _ _ _ I1), in_map_iff; exists (pre ++ [d]); split; [apply last_id_snoc|exact X]).
    apply in_map_iff in K as (d' & Y & Z). replace d with d'; [exact Z|]. apply (hid_inj g hits); [exact Pl|apply Dh; exact Z| |exact Y]. rewrite <- Bw in X. apply (L_hits w _ Iw X), in_or_app; right; left; reflexivity.
  - rewrite O3, O2, O1. reflexivity.
  - cbn [length]. rewrite Ln, EL, app_length. cbn [length]. lia.
  - intros r' [<-|X].
    + rewrite G3. apply F2_merged_mono. eapply F2_impl'; [|exact F2]. intros; apply Chg; assumption.
    + eapply F2_impl'; [|exact (F3 r' X)]. intros; apply Chg; assumption.
Qed.

(* ---------------------------------------------------------------- the exceptions *)
Lemma merge_pairs_throw k w : nth_error L k = Some w -> w2 w <> [] -> (forall j w', nth_error L j = Some w' -> j < k -> both w' = []) -> foreach L (step g c) s0 = Throw UserExn.
Proof.
  intros Hk W2 Em. destruct (nth_error_split L k Hk) as (L1 & L2 & EL & Lk). assert (Iw : In w L) by (eapply nth_error_In; exact Hk).
  assert (E1 : forall w', In w' L1 -> both w' = []).
  { intros w' X. apply In_nth_error in X as (j & X). assert (j < k) by (rewrite <- Lk; apply nth_error_Some; congruence). apply (Em j); [rewrite EL, nth_error_app1 by lia; exact X|lia]. }
  rewrite EL, CMgr_Proofs.foreach_app, (empty_first g c Fc Mc L1 E1). cbn [obind foreach]. unfold step at 1.
  destruct (L_sane w Iw) as (S1 & [S2|S2]); [contradiction|].
  destruct (adds2 g (w2 w) [] s0 false (inv0 g) ids0) as (s1 & A1 & I1 & O1 & B1); [intros hs X; apply S1; apply in_or_app; left; exact X|]. rewrite A1, S2. cbn [obind foreach]. unfold finish. rewrite Fc, Mc. unfold do_merge.
  destruct (w2 w) as [|hs r] eqn:Ew; [congruence|]. cbn [app] in I1. cbn [length Nat.eqb negb orb] in B1. destruct B1 as (B1 & B2).
  destruct (s_keys s1) as [|x ks] eqn:Ek.
  { exfalso. assert (X : In (last_id hs) (s_keys s1)) by (apply (i_keys_in _ _ _ I1), in_map; left; reflexivity). rewrite Ek in X. destruct X. }
  cbn [foreach]. unfold merge_key at 1.
  assert (G : exists H, foreach (filter (fun e => fst e =? x) (s_mm s1)) (grab (s_map s1)) [] = Ok H).
  { destruct (entries_map g (s_map s1) (filter (fun e => fst e =? x) (s_mm s1))) as (es & E & X).
    { intros e J. apply filter_In in J as (J & _). apply (Permutation_in _ (i_mm _ _ _ I1)). exact J. }
    rewrite E, (grab_ok g (s_map s1) (i_single _ _ _ I1) es []); [eexists; reflexivity|intros e J; apply (X e J)]. }
  destruct G as (H & EH). unfold grab in EH. rewrite EH. cbn [obind]. rewrite complex_throw; [reflexivity|]. rewrite O1. cbn [s0 s_out length]. rewrite Z.add_0_r. exact B2.
Qed.

Definition ready (s : st) : Prop := forall e, In e (s_mm s) -> In (sp_id (snd e)) (map fst (s_map s)).
Definition top (s : st) : Prop := In (Z.of_nat (length (s_mm s)) - 1)%Z (map fst (s_map s)).
Definition keep (s : st) : Prop := ready s /\ (s_out s = [] \/ top s).
Definition may (P : st -> Prop) (o : outcome st) : Prop := o = Throw UserExn \/ exists s', o = Ok s' /\ P s'.
Lemma may_bind (P Q : st -> Prop) o f : may P o -> (forall s, P s -> may Q (f s)) -> may Q (obind o f).
Proof. intros [->|(s' & -> & H)] G; [left; reflexivity|cbn [obind]; apply G; exact H]. Qed.
Lemma may_fe {A} (P : st -> Prop) (f : st -> A -> outcome st) l : (forall s x, In x l -> P s -> may P (f s x)) -> forall s, P s -> may P (foreach l f s).
Proof.
  induction l as [|x l IH]; intros H s Ps; cbn [foreach]; [right; eauto|]. apply (may_bind P); [apply H; [left; reflexivity|exact Ps]|]. apply IH. intros s' y Y. apply H. right; exact Y.
Qed.
Lemma may_impl (P Q : st -> Prop) o : (forall s, P s -> Q s) -> may P o -> may Q o.
Proof. intros H [->|(s & -> & X)]; [left; reflexivity|right; eauto]. Qed.

Lemma add_ready k s hs : 2 <= length hs -> ready s -> may (fun s' => ready s' /\ s_out s' = s_out s /\ length (s_mm s') = S (length (s_mm s)) /\ s_map s' = ((Z.of_nat (length (s_mm s)) + k)%Z, hs) :: s_map s) (addk g k s hs).
Proof.
  intros L2 Rd. destruct (in_dec Z.eq_dec (Z.of_nat (length (s_mm s)) + k)%Z (map fst (s_map s))) as [I|I]; [left; apply addk_throw; exact I|]. right. rewrite addk_ok by assumption. eexists. split; [reflexivity|]. cbn [s_map s_mm s_out].
  split; [|split; [reflexivity|split; [rewrite (Permutation_length (insk_perm _ _ _)); reflexivity|reflexivity]]].
  intros e E. cbn [s_map s_mm map fst] in *. apply (Permutation_in _ (insk_perm _ _ _)) in E as [<-|E]; [left; reflexivity|right; apply Rd; exact E].
Qed.
Lemma grab_any m : forall es acc, (forall e, In e es -> In (sp_id (snd e)) (map fst m)) -> exists H, foreach es (grab m) acc = Ok H.
Proof.
  induction es as [|e es IH]; intros acc I; cbn [foreach]; [eauto|]. unfold grab at 1. unfold assoc_hits. destruct (mfind (sp_id (snd e)) m) as [l|] eqn:E; [|apply mfind_none in E; exfalso; apply E, I; left; reflexivity].
  cbn [obind]. apply IH. intros x X. apply I. right; exact X.
Qed.
Lemma merge_ready s x : ready s -> may (fun s' => ready s' /\ s_mm s' = s_mm s /\ s_keys s' = s_keys s /\ exists hs, s_map s' = ((Z.of_nat (length (s_mm s)) + Z.of_nat (length (s_out s)) - 1)%Z, hs) :: s_map s) (merge_key g s x).
Proof.
  intros Rd. unfold merge_key. destruct (grab_any (s_map s) (filter (fun e => fst e =? x) (s_mm s)) []) as (H & EH); [intros e E; apply filter_In in E as (E & _); apply Rd; exact E|].
  unfold grab in EH. rewrite EH. cbn [obind]. unfold fill_complex. destruct (mfind _ _); [left; reflexivity|]. right. destruct (2 <=? _); cbn [obind fst snd]; (eexists; split; [reflexivity|]); cbn [s_map s_mm s_keys];
    (split; [intros e E; cbn [s_map s_mm map] in *; right; apply Rd; exact E|]); (split; [reflexivity|]); (split; [reflexivity|]); eexists; reflexivity.
Qed.
Lemma merge_keep s x : keep s -> may (fun s' => keep s' /\ top s' /\ s_keys s' = s_keys s) (merge_key g s x).
Proof.
  intros (Rd & O). eapply may_impl; [|apply merge_ready; exact Rd]. cbv beta. intros s' (R' & M' & K' & hs & G'). assert (T : top s'); [|split; [split; [exact R'|right; exact T]|split; [exact T|exact K']]].
  unfold top. rewrite M', G'. cbn [map fst]. destruct O as [O|O]; [left; rewrite O; cbn [length]; lia|right; exact O].
Qed.
Lemma finish_keep s : keep s -> may (fun s' => keep s' /\ (s_keys s <> [] \/ top s -> top s')) (finish g c s).
Proof.
  intros K. unfold finish. rewrite Fc, Mc. unfold do_merge. destruct (s_keys s) as [|x ks]; cbn [foreach].
  - right. exists s. split; [reflexivity|]. split; [exact K|]. intros [X|X]; [congruence|exact X].
  - apply (may_bind (fun s' => keep s' /\ top s')); [eapply may_impl; [|apply merge_keep; exact K]; cbv beta; tauto|]. intros s1 (K1 & T1).
    eapply may_impl; [|apply (may_fe (fun s' => keep s' /\ top s')); [|split; [exact K1|exact T1]]]; [cbv beta; tauto|]. cbv beta. intros s2 y _ (K2 & _). eapply may_impl; [|apply merge_keep; exact K2]. cbv beta. tauto.
Qed.
Lemma addk_keys k s hs s' : addk g k s hs = Ok s' -> s_keys s' <> [].
Proof.
  unfold addk, add_point. intros E. destruct (fill _ _ _ _ _) as [[l m]| |]; cbn [obind] in E; try discriminate. destruct (idx _ _); cbn [obind] in E; try discriminate. injection E as <-. cbn [s_keys].
  destruct (s_keys s) as [|y ys]; cbn [inss]; [discriminate|]. destruct (hid _ <? y); [discriminate|]. destruct (_ =? _); discriminate.
Qed.
(** one step keeps everything; a step with triplets ends with [top], and throws if it starts with it *)
Lemma step_keep s w : In w L -> keep s -> may (fun s' => keep s' /\ (w3 w <> [] \/ top s -> top s')) (step g c s w).
Proof.
  intros W K. destruct (L_sane w W) as (S1 & S2). unfold step.
  apply (may_bind (fun s' => keep s' /\ (top s -> top s') /\ (s_out s = [] -> s_out s' = []))).
  - assert (G : forall l, (forall hs, In hs l -> 2 <= length hs) -> forall s, keep s -> may (fun s' => keep s' /\ (top s -> top s') /\ (s_out s = [] -> s_out s' = [])) (foreach l (addk g 0) s)).
    { induction l as [|hs l IH]; intros Hl s1 K1; cbn [foreach]; [right; eauto|]. destruct K1 as (R1 & O1).
      apply (may_bind (fun s' => keep s' /\ top s' /\ s_out s' = s_out s1)).
      - eapply may_impl; [|apply (add_ready 0 s1 hs); [apply Hl; left; reflexivity|exact R1]]. cbv beta. intros s2 (R2 & O2 & L2 & G2).
        assert (T : top s2) by (unfold top; rewrite L2, G2; left; cbn [fst]; lia). split; [split; [exact R2|right; exact T]|]. split; [exact T|exact O2].
      - intros s2 (K2 & T2 & O2). eapply may_impl; [|apply IH; [intros x X; apply Hl; right; exact X|exact K2]]. cbv beta. intros s3 (K3 & T3 & O3). split; [exact K3|]. split; [intros _; apply T3; exact T2|]. intros X. apply O3. congruence. }
    apply G; [|exact K]. intros hs X. apply S1, in_or_app. left; exact X.
  - intros s1 (K1 & T1 & O1). destruct (w3 w) as [|hs r] eqn:E3.
    + cbn [foreach obind]. eapply may_impl; [|apply finish_keep; exact K1]. cbv beta. intros s' (K' & T'). split; [exact K'|]. intros [X|X]; [congruence|apply T'; right; apply T1; exact X].
    + destruct S2 as [S2|S2]; [|congruence].
      destruct (in_dec Z.eq_dec (Z.of_nat (length (s_mm s1)) + -1)%Z (map fst (s_map s1))) as [I|I]; [left; cbn [foreach]; rewrite addk_throw by exact I; reflexivity|].
      assert (Oe : s_out s1 = []) by (destruct K1 as (_ & [X|X]); [exact X|contradiction]).
      apply (may_bind (fun s' => ready s' /\ s_out s' = [] /\ s_keys s' <> [])).
      * assert (G : forall l s1, l <> [] -> (forall x, In x l -> 2 <= length x) -> ready s1 -> s_out s1 = [] -> may (fun s' => ready s' /\ s_out s' = [] /\ s_keys s' <> []) (foreach l (addk g (-1)) s1)).
        { clear. intros l s1 Nl Hl R1 O1. destruct l as [|hs l]; [congruence|]. cbn [foreach].
          assert (A : forall s x, 2 <= length x -> ready s -> s_out s = [] -> may (fun s' => ready s' /\ s_out s' = [] /\ s_keys s' <> []) (addk g (-1) s x)).
          { intros s x Lx Rs Os. destruct (add_ready (-1) s x Lx Rs) as [X|(s' & X & R' & O' & _)]; [left; exact X|]. right. exists s'. split; [exact X|]. split; [exact R'|]. split; [congruence|exact (addk_keys _ _ _ _ X)]. }
          apply (may_bind (fun s' => ready s' /\ s_out s' = [] /\ s_keys s' <> [])); [apply A; [apply Hl; left; reflexivity|exact R1|exact O1]|]. intros s2 P2. apply may_fe; [|exact P2]. cbv beta. intros s x X (Rs & Os & _). apply A; [apply Hl; right; exact X|exact Rs|exact Os]. }
        apply G; [discriminate| |exact (proj1 K1)|exact Oe]. intros x X. apply S1. rewrite S2. cbn [app]. exact X.
      * intros s2 (R2 & O2 & K2). eapply may_impl; [|apply finish_keep; split; [exact R2|left; exact O2]]. cbv beta. intros s' (K' & T'). split; [exact K'|]. intros _. apply T'. left; exact K2.
Qed.
Lemma merge_two_throw i j wi wj : i < j -> nth_error L i = Some wi -> nth_error L j = Some wj -> w3 wi <> [] -> w3 wj <> [] -> foreach L (step g c) s0 = Throw UserExn.
Proof.
  intros Lij Hi Hj Wi Wj. destruct (nth_error_split L i Hi) as (L1 & L2 & EL & Li).
  assert (Hj2 : nth_error L2 (j - S i) = Some wj). { rewrite EL in Hj. rewrite nth_error_app2 in Hj by lia. replace (j - length L1) with (S (j - S i)) in Hj by lia. exact Hj. }
  destruct (nth_error_split L2 _ Hj2) as (L3 & L4 & EL2 & _). subst L2.
  assert (Ii : In wi L) by (eapply nth_error_In; exact Hi). assert (Ij : In wj L) by (eapply nth_error_In; exact Hj).
  assert (I1 : incl L1 L) by (intros x X; rewrite EL; apply in_or_app; left; exact X).
  assert (I3 : incl L3 L) by (intros x X; rewrite EL; apply in_or_app; right; right; apply in_or_app; left; exact X).
  rewrite EL, CMgr_Proofs.foreach_app.
  assert (A1 : may keep (foreach L1 (step g c) s0)).
  { apply may_fe; [|split; [intros e []|left; reflexivity]]. intros s w W K. eapply may_impl; [|apply step_keep; [apply I1; exact W|exact K]]. cbv beta. tauto. }
  destruct A1 as [->|(s1 & -> & K1)]; [reflexivity|]. cbn [obind foreach].
  destruct (step_keep s1 wi Ii K1) as [->|(s2 & -> & K2 & T2)]; [reflexivity|]. cbn [obind]. rewrite CMgr_Proofs.foreach_app.
  assert (A3 : may (fun s => keep s /\ top s) (foreach L3 (step g c) s2)).
  { apply (may_fe (fun s => keep s /\ top s)); [|split; [exact K2|apply T2; left; exact Wi]]. intros s w W (K & T). eapply may_impl; [|apply step_keep; [apply I3; exact W|exact K]]. cbv beta. intros s' (K' & T'). split; [exact K'|]. apply T'. right; exact T. }
  destruct A3 as [->|(s3 & -> & K3 & T3)]; [reflexivity|]. cbn [obind foreach]. unfold step at 1. destruct (L_sane wj Ij) as (_ & [S2|S2]); [|contradiction]. rewrite S2. cbn [foreach obind].
  destruct (w3 wj) as [|hs r]; [congruence|]. cbn [foreach]. rewrite addk_throw; [reflexivity|exact T3].
Qed.
End merging.

Theorem make_merged g c hits vis : regular g -> placed g hits -> (forall h, In h hits -> (0 < hsig h)%Qc) -> visited (g_shape g) 0 vis -> filt c = false -> merge c = true ->
  exists Cs, Forall2 (combinations g c hits) vis Cs /\
    (* the first TPC that makes points makes pairs *)
    (forall k C hs, nth_error Cs k = Some C -> In hs C -> length hs = 2 -> (forall j C', nth_error Cs j = Some C' -> j < k -> C' = []) -> make g c hits = Throw UserExn) /\
    (* two TPCs make triplets *)
    (forall i j C C' hs hs', i < j -> nth_error Cs i = Some C -> nth_error Cs j = Some C' -> In hs C -> In hs' C' -> length hs = 3 -> length hs' = 3 -> make g c hits = Throw UserExn) /\
    (* one TPC makes points, all of three hits *)
    (forall k C, nth_error Cs k = Some C -> (forall hs, In hs C -> length hs = 3) -> (forall j C', nth_error Cs j = Some C' -> j <> k -> C' = []) ->
      exists out m ds rs, make g c hits = Ok (out, m) /\ single m /\ NoDup ds /\ (forall d, In d ds <-> exists pre, In (pre ++ [d]) C) /\
        out = concat rs /\ length rs = length vis - k /\ forall r, In r rs -> Forall2 (merged g m C) ds r).
Proof.
  intros R Pl Po V Fc Mc. destruct (make_eq g c hits vis R Pl V) as (L & F & E). exists (map both L). split; [apply F2_combos; exact F|].
  assert (Len : length vis = length L) by (clear -F; induction F; cbn; congruence).
  assert (Nb : forall k C, nth_error (map both L) k = Some C -> exists w v, nth_error L k = Some w /\ C = both w /\ does g c hits v w).
  { intros k C H. rewrite nth_error_map in H. destruct (nth_error L k) as [w|] eqn:Ek; [|discriminate]. injection H as <-. destruct (F2_nth _ _ _ F _ _ Ek) as (v & _ & D). eauto. }
  assert (Emp : forall (P : nat -> Prop), (forall j C', nth_error (map both L) j = Some C' -> P j -> C' = []) -> forall j w', nth_error L j = Some w' -> P j -> both w' = []).
  { intros P H j w' Hj Pj. apply (H j); [rewrite nth_error_map, Hj; reflexivity|exact Pj]. }
  split; [|split].
  - intros k C hs Hk I L2 Em. destruct (Nb k C Hk) as (w & v & Hw & -> & D). apply (len_two _ _ _ _ _ _ D I) in L2.
    rewrite E, (merge_pairs_throw g c hits vis L Fc Mc F k w Hw); [reflexivity|intros X; rewrite X in L2; destruct L2|exact (Emp (fun j => j < k) Em)].
  - intros i j C C' hs hs' Lij Hi Hj I I' L3 L3'. destruct (Nb i C Hi) as (w & v & Hw & -> & D). destruct (Nb j C' Hj) as (w' & v' & Hw' & -> & D').
    apply (len_two _ _ _ _ _ _ D I) in L3. apply (len_two _ _ _ _ _ _ D' I') in L3'.
    rewrite E, (merge_two_throw g c hits vis L Fc Mc F i j w w' Lij Hw Hw'); [reflexivity|intros X; rewrite X in L3; destruct L3|intros X; rewrite X in L3'; destruct L3'].
  - intros k C Hk L3 Em. destruct (Nb k C Hk) as (w & v & Hw & -> & D).
    assert (W2 : w2 w = []). { destruct (w2 w) as [|hs r] eqn:X; [reflexivity|]. exfalso. assert (I : In hs (both w)) by (apply in_or_app; left; rewrite X; left; reflexivity).
      pose proof (proj2 (proj1 (len_two _ _ _ _ _ _ D I)) ltac:(rewrite X; left; reflexivity)). specialize (L3 hs I). lia. }
    destruct (merge_single g c hits vis L Fc Mc F k w R Pl Po Hw W2 (Emp (fun j => j <> k) Em)) as (s' & ds & rs & Es & Sg & Nds & Hds & Out & Lr & Hr).
    exists (s_out s'), (s_map s'), ds, rs. split; [rewrite E, Es; reflexivity|]. rewrite Len. auto 10.
Qed.
