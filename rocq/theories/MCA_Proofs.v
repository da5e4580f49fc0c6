(** Proofs about cluster merging. *)
From Coq Require Import QArith Qcanon.
From Verif Require Import Base QcUtil Solver_Model Solver_Proofs BC_Model BC_Cells MCA_Model MCA_Spec.
From Coq Require Import Lqa.
Local Open Scope nat_scope.

Section Min.
Variable mc : mergecfg.
Lemma inner_min r h1 : forall c2 m,
  (fold_left (fun m h2 => let d := hit_dist2 mc h1 h2 in if qc_lt d m then d else m) c2 m <= r)%Qc <->
  (m <= r)%Qc \/ exists b, In b c2 /\ (hit_dist2 mc h1 b <= r)%Qc.
Proof.
  induction c2 as [|b c2 IH]; intros m; cbn [fold_left].
  - split; [intros H; left; exact H|intros [H|(b & [] & _)]; exact H].
  - rewrite IH. clear IH. cbn zeta. destruct (qc_lt (hit_dist2 mc h1 b) m) eqn:E.
    + apply qc_lt_spec in E. split.
      * intros [H|(b' & H1 & H2)]; [right; exists b; split; [left; reflexivity|exact H]|right; exists b'; split; [right; exact H1|exact H2]].
      * intros [H|(b' & [<-|H1] & H2)]; [left|left; exact H2|right; eauto].
        apply Qclt_le_weak in E. eapply Qcle_trans; eassumption.
    + apply qc_lt_false in E. split.
      * intros [H|(b' & H1 & H2)]; [left; exact H|right; exists b'; split; [right; exact H1|exact H2]].
      * intros [H|(b' & [<-|H1] & H2)]; [left; exact H|left; eapply Qcle_trans; eassumption|right; eauto].
Qed.

Lemma min_le r c2 : forall c1 m,
  (fold_left (fun m h1 => fold_left (fun m h2 => let d := hit_dist2 mc h1 h2 in if qc_lt d m then d else m) c2 m) c1 m <= r)%Qc <->
  (m <= r)%Qc \/ exists a b, In a c1 /\ In b c2 /\ (hit_dist2 mc a b <= r)%Qc.
Proof.
  induction c1 as [|a c1 IH]; intros m; cbn [fold_left].
  - split; [intros H; left; exact H|intros [H|(a & b & [] & _)]; exact H].
  - rewrite IH, inner_min. clear IH. split.
    + intros [[H|(b & H1 & H2)]|(a' & b & H1 & H2)]; [left; exact H|right; exists a, b; split; [left; reflexivity|auto]|].
      right. exists a', b. split; [right; exact H1|exact H2].
    + intros [H|(a' & b & [<-|H1] & H2 & H3)]; [left; left; exact H|left; right; eauto|right; exists a', b; auto].
Qed.

Lemma joinable_dec c1 c2 : joinable mc c1 c2 <-> too_far mc c1 c2 = false /\ pass_cuts mc c1 c2 = true.
Proof.
  unfold joinable, too_far. destruct (qc_lt (maxSep mc) (Q2Qc 0)) eqn:E.
  - apply qc_lt_spec in E. split; [intros (H & _)|intros [H _]; discriminate]. exfalso. apply (Qclt_not_le _ _ E H).
  - apply qc_lt_false in E. rewrite qc_lt_false. unfold min_sep2. rewrite min_le.
    assert (Hs : (Q2Qc (99999 * 99999 # 1) <= maxSep mc * maxSep mc)%Qc <-> (Q2Qc (99999 # 1) <= maxSep mc)%Qc).
    { generalize dependent (maxSep mc). intros r Hr.
      assert (E0 : Q2Qc (99999 * 99999 # 1) = (Q2Qc (99999 # 1) * Q2Qc (99999 # 1))%Qc) by (apply Qc_is_canon; vm_compute; reflexivity).
      rewrite E0. assert (Hc : (0 <= Q2Qc (99999 # 1))%Qc) by (vm_compute; discriminate). revert Hc. generalize (Q2Qc (99999 # 1)). intros k Hk.
      split; intros H.
      - apply Qcnot_lt_le. intros F. apply (Qcle_not_lt _ _ H). clear H. qcnra.
      - qcnra. }
    rewrite Hs. unfold hits_within. split.
    + intros (_ & [(a & b & H)|H] & Hp); (split; [|exact Hp]); [right; exists a, b; exact H|left; exact H].
    + intros ([H|(a & b & H)] & Hp); (split; [exact E|]; split; [|exact Hp]); [right; exact H|left; exists a, b; exact H].
Qed.
End Min.

Section Loops.
Variables (mc : mergecfg) (old : list (list bhit)).
Let n := length old.
Definition skips (m : list nat) (i : nat) : bool := (length (nth i old []) <? minMerge mc) || existsb (Nat.eqb i) m.
Definition left_idx (m : list nat) : list nat := filter (fun i => negb (skips m i)) (seq 0 n).
Definition left_cl (m : list nat) : list (list bhit) := map (fun i => nth i old []) (left_idx m).

Lemma skipped_ok m i : i < n -> skipped mc old m i = Ok (skips m i).
Proof. intros H. unfold skipped. rewrite (at_ok old i []) by exact H. reflexivity. Qed.

Lemma skips_snoc m i j : skips (m ++ [i]) j = skips m j || (j =? i).
Proof. unfold skips. rewrite existsb_app. simpl. rewrite orb_false_r, orb_assoc. reflexivity. Qed.

Lemma filter_drop {A} (p q : A -> bool) (i : A) (l : list A) : NoDup l -> In i l -> p i = true ->
  (forall j, In j l -> q j = true <-> p j = true /\ j <> i) ->
  exists l1 l2, filter p l = l1 ++ i :: l2 /\ filter q l = l1 ++ l2.
Proof.
  intros Hnd. induction Hnd as [|x l Hx Hnd IH]; intros Hin Hp Hq; [destruct Hin|]. simpl.
  assert (Hrest : (forall j, In j l -> j <> i) -> filter q l = filter p l).
  { intros Hne. apply filter_ext_in. intros j Hj. specialize (Hq j (or_intror Hj)). destruct (q j), (p j); try reflexivity.
    - exfalso. destruct (proj1 Hq eq_refl) as [F _]. discriminate.
    - exfalso. assert (F : false = true); [apply Hq; split; [reflexivity|apply Hne, Hj]|discriminate]. }
  destruct Hin as [->|Hin].
  - rewrite Hp. assert (Hqi : q i = false).
    { destruct (q i) eqn:E; [|reflexivity]. exfalso. apply (proj2 (proj1 (Hq i (or_introl eq_refl)) E)); reflexivity. }
    rewrite Hqi. exists [], (filter p l). split; [reflexivity|]. simpl. apply Hrest. intros j Hj ->. contradiction.
  - destruct IH as (l1 & l2 & E1 & E2); [exact Hin|exact Hp|intros j Hj; apply Hq; right; exact Hj|].
    assert (Hxi : x <> i) by (intros ->; contradiction). specialize (Hq x (or_introl eq_refl)).
    destruct (p x) eqn:Ep.
    + assert (Eq : q x = true) by (apply Hq; auto). rewrite Eq. exists (x :: l1), l2. rewrite E1, E2. split; reflexivity.
    + destruct (q x) eqn:Eq; [destruct (proj1 Hq eq_refl) as [F _]; discriminate|]. exists l1, l2. split; assumption.
Qed.

Lemma left_drop m i : i < n -> skips m i = false -> exists l1 l2, left_idx m = l1 ++ i :: l2 /\ left_idx (m ++ [i]) = l1 ++ l2.
Proof.
  intros Hi Hs. unfold left_idx. apply filter_drop; [apply seq_NoDup|apply in_seq; lia|rewrite Hs; reflexivity|].
  intros j _. rewrite skips_snoc. destruct (skips m j); simpl; [split; [discriminate|intros [F _]; discriminate]|].
  destruct (Nat.eqb_spec j i) as [->|Hne]; simpl; [split; [discriminate|intros [_ F]; congruence]|split; auto].
Qed.

Lemma left_cl_drop m i : i < n -> skips m i = false ->
  exists l1 l2, left_cl m = l1 ++ nth i old [] :: l2 /\ left_cl (m ++ [i]) = l1 ++ l2.
Proof.
  intros Hi Hs. destruct (left_drop m i Hi Hs) as (l1 & l2 & E1 & E2). exists (map (fun i => nth i old []) l1), (map (fun i => nth i old []) l2).
  unfold left_cl. rewrite E1, E2, !map_app. split; reflexivity.
Qed.

(** picking the next cluster *)
Lemma pick_ok m : forall k s, n = s + k ->
  (forall i, i < s -> skips m i = true) ->
  (left_idx m = [] /\ pick mc old (seq s k) m = Ok ([], m)) \/
  (exists i, i < n /\ skips m i = false /\ (forall j, j < i -> skips m j = true) /\ pick mc old (seq s k) m = Ok (nth i old [], m ++ [i])).
Proof.
  induction k as [|k IH]; intros s En Hs; cbn [seq pick].
  - left. split; [|reflexivity]. unfold left_idx.
    assert (H : forall l, (forall i, In i l -> skips m i = true) -> filter (fun i => negb (skips m i)) l = []).
    { induction l as [|i l IHl]; intros Hl; [reflexivity|]. simpl. rewrite (Hl i (or_introl eq_refl)). apply IHl. intros j Hj. apply Hl. right; exact Hj. }
    apply H. intros i Hi. apply in_seq in Hi. apply Hs. lia.
  - rewrite skipped_ok by lia. cbn [obind]. destruct (skips m s) eqn:E.
    + apply IH; [lia|]. intros i Hi. destruct (Nat.eq_dec i s) as [->|]; [exact E|apply Hs; lia].
    + right. exists s. split; [lia|]. split; [exact E|]. split; [exact Hs|]. rewrite (at_ok old s []) by (fold n; lia). reflexivity.
Qed.

Lemma left_head m i : i < n -> skips m i = false -> (forall j, j < i -> skips m j = true) ->
  left_cl m = nth i old [] :: left_cl (m ++ [i]).
Proof.
  intros Hi Hs Hj. destruct (left_drop m i Hi Hs) as (l1 & l2 & E1 & E2). unfold left_cl. rewrite E2.
  assert (l1 = []).
  { destruct l1 as [|a l1]; [reflexivity|]. exfalso.
    assert (Hso : StronglySorted lt (left_idx m)).
    { unfold left_idx. clear. generalize 0. induction n as [|k IH]; intros s; simpl; [constructor|]. specialize (IH (S s)).
      destruct (negb (skips m s)); [|exact IH]. constructor; [exact IH|]. apply Forall_forall. intros x Hx. apply filter_In in Hx.
      destruct Hx as [Hx _]. apply in_seq in Hx. lia. }
    assert (Ha : In a (left_idx m)) by (rewrite E1; left; reflexivity). unfold left_idx in Ha. apply filter_In in Ha. destruct Ha as [_ Ha].
    rewrite E1 in Hso. inversion_clear Hso as [|? ? _ Hf]. rewrite Forall_forall in Hf. specialize (Hf i ltac:(apply in_or_app; right; left; reflexivity)).
    rewrite (Hj a Hf) in Ha. discriminate. }
  subst l1. rewrite E1. reflexivity.
Qed.

(** one pass *)
Lemma pass_ok c m : exists c' m' k, merge_pass mc old (c, m) = Ok (c', m', k) /\
  clos_refl_trans _ (absorbs mc) (c, left_cl m) (c', left_cl m') /\
  (length m' + length (left_cl m') = length m + length (left_cl m)) /\ length (left_cl m') + k = length (left_cl m) /\
  (k = 0 -> c' = c /\ m' = m /\ forall x, In x (left_cl m) -> ~ joinable mc c x).
Proof.
  unfold merge_pass.
  match goal with |- context [foreach ?l ?b ?s0] =>
  destruct (foreach_pre (fun pre (s : list bhit * list nat * nat) => let '(c', m', k) := s in
    clos_refl_trans _ (absorbs mc) (c, left_cl m) (c', left_cl m') /\
    (length m' + length (left_cl m') = length m + length (left_cl m)) /\ length (left_cl m') + k = length (left_cl m) /\
    (k = 0 -> c' = c /\ m' = m /\ forall i, In i pre -> skips m i = false -> ~ joinable mc c (nth i old []))) b l s0)
    as (r & Er & Hr) end.
  - cbn [fst snd]. split; [apply rt_refl|]. split; [reflexivity|]. split; [lia|]. intros _. split; [reflexivity|]. split; [reflexivity|]. intros i [].
  - intros pre i post [[c' m'] k] El (H1 & H2 & H3 & H4).
    assert (Hi : i < n) by (assert (F : In i (seq 0 n)) by (unfold n; rewrite El; apply in_or_app; right; left; reflexivity); apply in_seq in F; lia).
    rewrite skipped_ok by exact Hi. cbn [obind]. destruct (skips m' i) eqn:Es.
    { eexists. split; [reflexivity|]. cbn beta iota. split; [exact H1|]. split; [exact H2|]. split; [exact H3|]. intros Hk.
      destruct (H4 Hk) as (-> & -> & H5). split; [reflexivity|]. split; [reflexivity|]. intros j Hj Hsj. apply in_app_iff in Hj.
      destruct Hj as [Hj|[<-|[]]]; [apply H5; assumption|congruence]. }
    rewrite (at_ok old i []) by exact Hi. cbn [obind].
    assert (Hno : ~ joinable mc c' (nth i old []) -> exists s', Ok (c', m', k) = Ok s' /\ let '(c', m', k) := s' in
        clos_refl_trans _ (absorbs mc) (c, left_cl m) (c', left_cl m') /\
        (length m' + length (left_cl m') = length m + length (left_cl m)) /\ length (left_cl m') + k = length (left_cl m) /\
        (k = 0 -> c' = c /\ m' = m /\ forall j, In j (pre ++ [i]) -> skips m j = false -> ~ joinable mc c (nth j old []))).
    { intros Hn. eexists. split; [reflexivity|]. cbn beta iota. split; [exact H1|]. split; [exact H2|]. split; [exact H3|]. intros Hk.
      destruct (H4 Hk) as (-> & -> & H5). split; [reflexivity|]. split; [reflexivity|]. intros j Hj Hsj. apply in_app_iff in Hj.
      destruct Hj as [Hj|[<-|[]]]; [apply H5; assumption|exact Hn]. }
    destruct (too_far mc c' (nth i old [])) eqn:Ef.
    { apply Hno. intros F. apply joinable_dec in F. destruct F; congruence. }
    destruct (pass_cuts mc c' (nth i old [])) eqn:Ep.
    + clear Hno. eexists. split; [reflexivity|]. cbn beta iota. destruct (left_cl_drop m' i Hi Es) as (l1 & l2 & E1 & E2).
      assert (Hl : length (left_cl m') = S (length (left_cl (m' ++ [i])))) by (rewrite E1, E2, !app_length; simpl; lia).
      split; [|split; [rewrite app_length; simpl; lia|split; [lia|intros; lia]]].
      eapply rt_trans; [exact H1|]. rewrite E1, E2. apply rt_step. constructor. apply joinable_dec. split; assumption.
    + apply Hno. intros F. apply joinable_dec in F. destruct F; congruence.
  - destruct r as [[c' m'] k]. exists c', m', k. split; [exact Er|]. destruct Hr as (H1 & H2 & H3 & H4).
    split; [exact H1|]. split; [exact H2|]. split; [exact H3|]. intros Hk. destruct (H4 Hk) as (-> & -> & H5). split; [reflexivity|]. split; [reflexivity|].
    intros x Hx. unfold left_cl in Hx. apply in_map_iff in Hx. destruct Hx as (i & <- & Hi). unfold left_idx in Hi. apply filter_In in Hi.
    destruct Hi as [Hi Hs]. apply negb_true_iff in Hs. apply H5; [exact Hi|exact Hs].
Qed.

Lemma absorb_ok : forall fuel c m, length (left_cl m) < fuel ->
  exists c' m', absorb mc fuel old (c, m) = Ok (c', m') /\
  clos_refl_trans _ (absorbs mc) (c, left_cl m) (c', left_cl m') /\
  (length m' + length (left_cl m') = length m + length (left_cl m)) /\ length (left_cl m') <= length (left_cl m) /\
  forall x, In x (left_cl m') -> ~ joinable mc c' x.
Proof.
  induction fuel as [|f IH]; intros c m Hf; [lia|]. cbn [absorb].
  destruct (pass_ok c m) as (c1 & m1 & k & E & H1 & H2 & H3 & H4). rewrite E. cbn [obind].
  destruct (Nat.eqb_spec k 0) as [Hk|Hk].
  - destruct (H4 Hk) as (-> & -> & H5). exists c, m. split; [reflexivity|]. split; [exact H1|]. split; [exact H2|]. split; [lia|exact H5].
  - destruct (IH c1 m1) as (c2 & m2 & E2 & G1 & G2 & G3 & G4); [lia|]. exists c2, m2. split; [exact E2|].
    split; [eapply rt_trans; eassumption|]. split; [lia|]. split; [lia|exact G4].
Qed.

Lemma left_le m : length (left_cl m) <= n.
Proof.
  unfold left_cl, left_idx. rewrite map_length. rewrite <- (seq_length n 0) at 2. generalize (seq 0 n). intros l.
  induction l as [|i l IH]; simpl; [lia|]. destruct (negb _); simpl; lia.
Qed.

Lemma merge_all_ok nclusters : forall fuel m acc, left_cl m <> [] -> length (left_cl m) < fuel -> length m + length (left_cl m) = nclusters ->
  exists out, merge_all mc fuel old nclusters m acc = Ok (acc ++ out) /\ merges mc (left_cl m) out.
Proof.
  induction fuel as [|f IH]; intros m acc Hne Hf Hn; [lia|]. cbn [merge_all].
  destruct (pick_ok m n 0 eq_refl) as [[E _]|(i & Hi & Hs & Hj & E)]; [intros j F; lia|exfalso; apply Hne; unfold left_cl; rewrite E; reflexivity|].
  fold n. rewrite E. cbn [obind]. pose proof (left_head m i Hi Hs Hj) as Eh.
  assert (Hl : length (left_cl m) = S (length (left_cl (m ++ [i])))) by (rewrite Eh; reflexivity).
  destruct (absorb_ok (S n) (nth i old []) (m ++ [i])) as (c & m' & Ea & H1 & H2 & H3 & H4); [pose proof (left_le (m ++ [i])); lia|].
  rewrite Ea. cbn [obind fst snd]. rewrite app_length in H2. simpl in H2.
  destruct (left_cl m') as [|y rest] eqn:El.
  - simpl in H2. destruct (Nat.eqb_spec (length m') nclusters); [|lia]. exists [c]. split; [reflexivity|]. rewrite Eh.
    apply m_group with (rest := []); [exact H1|exact H4|constructor].
  - simpl in H2, H3. destruct (Nat.eqb_spec (length m') nclusters); [lia|].
    destruct (IH m' (acc ++ [c])) as (out & Eo & Hm); [rewrite El; discriminate|rewrite El; simpl; lia|rewrite El; simpl; lia|].
    exists (c :: out). rewrite Eo, <- app_assoc. split; [reflexivity|]. rewrite Eh. rewrite El in Hm. apply m_group with (rest := y :: rest); assumption.
Qed.

Lemma left_nil : left_cl [] = filter (fun c => minMerge mc <=? length c) old.
Proof.
  unfold left_cl, left_idx.
  assert (H : forall p (q : list bhit -> bool) (o : list (list bhit)), (forall i, i < length o -> p i = q (nth i o [])) ->
    forall s (P : nat -> bool), (forall i, P (s + i) = p i) -> forall f : nat -> list bhit, (forall i, f (s + i) = nth i o []) ->
    map f (filter P (seq s (length o))) = filter q o).
  { clear. intros p q o. revert p. induction o as [|c o IH]; intros p Hp s P HP f Hf; [reflexivity|]. simpl.
    specialize (IH (fun i => p (S i))). assert (E1 : P s = q c).
    { rewrite <- (Nat.add_0_r s), HP. apply (Hp 0). simpl. lia. }
    assert (E2 : f s = c) by (rewrite <- (Nat.add_0_r s), Hf; reflexivity).
    assert (E3 : map f (filter P (seq (S s) (length o))) = filter q o).
    { apply IH; [intros i Hi; apply (Hp (S i)); simpl; lia| |]; intros i.
      - replace (S s + i) with (s + S i) by lia. apply HP.
      - replace (S s + i) with (s + S i) by lia. apply Hf. }
    rewrite E1. destruct (q c); simpl; rewrite E3; [rewrite E2|]; reflexivity. }
  apply (H (fun i => negb (skips [] i)) (fun c => minMerge mc <=? length c) old); [|intros i; reflexivity|intros i; reflexivity].
  intros i Hi. unfold skips. simpl. rewrite orb_false_r. rewrite Nat.leb_antisym. reflexivity.
Qed.
End Loops.

Theorem merge_clusters_exact mc srt pl acc :
  let big := filter (fun c => minMerge mc <=? length c) (srt pl) in
  exists out, merge_clusters mc srt pl acc = Ok (acc ++ out, length (acc ++ out)) /\
    (big = [] -> out = [[]]) /\ (big <> [] -> merges mc big out).
Proof.
  cbn zeta. unfold merge_clusters. rewrite <- left_nil. set (old := srt pl).
  destruct (left_cl mc old []) as [|c l] eqn:E.
  - exists [[]]. split; [|split; [reflexivity|congruence]]. cbn [merge_all].
    destruct (pick_ok mc old [] (length old) 0 eq_refl) as [[E1 E2]|(i & Hi & Hs & _)]; [intros j F; lia| |].
    + rewrite E2. cbn [obind]. destruct (absorb_ok mc old (S (length old)) [] []) as (c & m' & Ea & H1 & H2 & H3 & _); [rewrite E; simpl; lia|].
      rewrite Ea. cbn [obind fst snd]. rewrite E in H1, H2, H3. simpl in H2, H3.
      assert (length m' = 0) by lia. assert (E3 : left_cl mc old m' = []) by (destruct (left_cl mc old m'); [reflexivity|simpl in *; lia]).
      rewrite E3 in H1. assert (c = []).
      { clear -H1. apply clos_rt_rt1n_iff in H1. remember ([], []) as a eqn:Ea. remember (c, []) as b eqn:Eb. destruct H1 as [|y z F _]; [congruence|].
        exfalso. destruct F as [c0 l1 x l2 _]. injection Ea as _ El. destruct l1; discriminate. }
      subst c. rewrite H. cbn [Nat.eqb length obind]. reflexivity.
    + exfalso. unfold left_cl in E. apply map_eq_nil in E. assert (F : In i (left_idx mc old [])); [|rewrite E in F; destruct F].
      unfold left_idx. apply filter_In. split; [apply in_seq; lia|]. rewrite Hs. reflexivity.
  - destruct (merge_all_ok mc old (length (left_cl mc old [])) (S (length old)) [] acc) as (out & Eo & Hm).
    + rewrite E. discriminate.
    + pose proof (left_le mc old []). lia.
    + reflexivity.
    + rewrite <- E. rewrite Eo. cbn [obind]. exists out. split; [reflexivity|]. split; [rewrite E; discriminate|intros _; exact Hm].
Qed.
