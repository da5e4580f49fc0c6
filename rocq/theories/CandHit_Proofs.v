From Coq Require Import QArith Qcanon.
From Verif Require Import Base Util QcUtil Solver_Model Solver_Proofs CandHit_Model CandHit_Spec.
Local Open Scope nat_scope.

Section Wave.
Variables (w : list Qc) (thr nadc : Qc).
Notation wv i := (nth i w 0%Qc).

Lemma idxw i : i < length w -> idx w i = Ok (wv i).
Proof. apply idx_ok. Qed.

Lemma max_elem_ok s : forall n best i, s <= best < i -> i + n <= length w ->
  (forall j, s <= j < i -> (wv j <= wv best)%Qc) -> (forall j, s <= j < best -> (wv j < wv best)%Qc) ->
  exists m, max_elem w best i n = Ok m /\ s <= m < i + n /\ (forall j, s <= j < i + n -> (wv j <= wv m)%Qc) /\ (forall j, s <= j < m -> (wv j < wv m)%Qc).
Proof.
  induction n as [|n IH]; intros best i Hb Hn Hall Hfst; cbn [max_elem].
  - exists best. rewrite Nat.add_0_r. repeat split; auto; lia.
  - rewrite !idxw by lia. cbn [obind]. destruct (qc_lt (wv best) (wv i)) eqn:E; [apply qc_lt_spec in E|apply qc_lt_false in E].
    + destruct (IH i (S i)) as (m & Em & H1 & H2 & H3); [lia|lia| | |].
      * intros j Hj. destruct (Nat.eq_dec j i) as [->|]; [apply Qcle_refl|]. apply Qclt_le_weak. eapply Qcle_lt_trans; [apply Hall; lia|exact E].
      * intros j Hj. eapply Qcle_lt_trans; [apply Hall; lia|exact E].
      * exists m. replace (i + S n) with (S i + n) by lia. split; [exact Em|]. split; [lia|]. split; assumption.
    + destruct (IH best (S i)) as (m & Em & H1 & H2 & H3); [lia|lia| |exact Hfst|].
      * intros j Hj. destruct (Nat.eq_dec j i) as [->|]; [exact E|]. apply Hall; lia.
      * exists m. replace (i + S n) with (S i + n) by lia. split; [exact Em|]. split; [lia|]. split; assumption.
Qed.

Lemma back_scan_ok s : forall k, s + k + 1 < length w ->
  exists f, back_scan w thr nadc s k = Ok f /\ s <= f <= s + k /\ (f = s \/ left_edge w thr nadc f) /\ (forall j, f < j <= s + k -> ~ left_edge w thr nadc j).
Proof.
  induction k as [|k IH]; intros Hk; cbn [back_scan]; [exists s; split; [reflexivity|]; split; [lia|]; split; [left; reflexivity|intros; lia]|].
  rewrite idxw by lia. cbn [obind].
  assert (Stop : left_edge w thr nadc (s + S k) -> exists f, Ok (s + S k) = Ok f /\ s <= f <= s + S k /\ (f = s \/ left_edge w thr nadc f) /\ (forall j, f < j <= s + S k -> ~ left_edge w thr nadc j)).
  { intros H. exists (s + S k). split; [reflexivity|]. split; [lia|]. split; [right; exact H|intros; lia]. }
  destruct (qc_lt (wv (s + S k)) (- thr)%Qc) eqn:E1; [apply Stop; left; apply qc_lt_spec; exact E1|].
  rewrite idxw by lia. cbn [obind]. apply qc_lt_false in E1.
  assert (Go : ~ left_edge w thr nadc (s + S k) -> exists f, back_scan w thr nadc s k = Ok f /\ s <= f <= s + S k /\ (f = s \/ left_edge w thr nadc f) /\ (forall j, f < j <= s + S k -> ~ left_edge w thr nadc j)).
  { intros H. destruct IH as (f & E & Hf & Hb & Hn); [lia|]. exists f. split; [exact E|]. split; [lia|]. split; [exact Hb|].
    intros j Hj. destruct (Nat.eq_dec j (s + S k)) as [->|]; [exact H|apply Hn; lia]. }
  destruct (qc_lt (wv (s + S k)) (wv (s + S k + 1))) eqn:E2.
  - apply qc_lt_spec in E2. rewrite idxw by lia. cbn [obind]. destruct (qc_lt (wv (s + k) - wv (s + S k))%Qc nadc) eqn:E3; cbn [negb].
    + apply qc_lt_spec in E3. apply Go. intros [H|[H1 H2]]; [exact (Qclt_not_le _ _ H E1)|]. replace (s + S k - 1) with (s + k) in H2 by lia. exact (Qclt_not_le _ _ E3 H2).
    + apply qc_lt_false in E3. apply Stop. right. split; [exact E2|]. replace (s + S k - 1) with (s + k) by lia. exact E3.
  - apply qc_lt_false in E2. cbn [obind]. apply Go. intros [H|[H1 H2]]; [exact (Qclt_not_le _ _ H E1)|exact (Qclt_not_le _ _ H1 E2)].
Qed.
Lemma fwd_scan_ok : forall d i, 0 < i -> i + d < length w ->
  exists l, fwd_scan w thr nadc i d = Ok l /\ i <= l <= i + d /\ (l = i + d \/ right_edge w thr nadc l) /\ (forall j, i <= j < l -> ~ right_edge w thr nadc j).
Proof.
  induction d as [|d IH]; intros i Hi Hd; cbn [fwd_scan]; [exists i; split; [reflexivity|]; split; [lia|]; split; [left; lia|intros; lia]|].
  rewrite idxw by lia. cbn [obind].
  assert (Stop : right_edge w thr nadc i -> exists l, Ok i = Ok l /\ i <= l <= i + S d /\ (l = i + S d \/ right_edge w thr nadc l) /\ (forall j, i <= j < l -> ~ right_edge w thr nadc j)).
  { intros H. exists i. split; [reflexivity|]. split; [lia|]. split; [right; exact H|intros; lia]. }
  destruct (qc_lt (wv i) (- thr)%Qc) eqn:E1; [apply Stop; left; apply qc_lt_spec; exact E1|].
  rewrite idxw by lia. cbn [obind]. apply qc_lt_false in E1.
  assert (Go : ~ right_edge w thr nadc i -> exists l, fwd_scan w thr nadc (i + 1) d = Ok l /\ i <= l <= i + S d /\ (l = i + S d \/ right_edge w thr nadc l) /\ (forall j, i <= j < l -> ~ right_edge w thr nadc j)).
  { intros H. destruct (IH (i + 1)) as (l & E & Hl & Hb & Hn); [lia|lia|]. exists l. split; [exact E|]. split; [lia|]. split; [destruct Hb; [left; lia|right; assumption]|].
    intros j Hj. destruct (Nat.eq_dec j i) as [->|]; [exact H|apply Hn; lia]. }
  destruct (qc_lt (wv (i + 1) - wv i)%Qc nadc) eqn:E2; cbn [negb].
  - apply qc_lt_spec in E2. cbn [obind]. apply Go. intros [H|[H1 H2]]; [exact (Qclt_not_le _ _ H E1)|exact (Qclt_not_le _ _ E2 H2)].
  - apply qc_lt_false in E2. rewrite idxw by lia. cbn [obind]. destruct (qc_lt (wv i) (wv (i - 1))) eqn:E3.
    + apply qc_lt_spec in E3. apply Stop. right. split; assumption.
    + apply qc_lt_false in E3. apply Go. intros [H|[H1 H2]]; [exact (Qclt_not_le _ _ H E1)|exact (Qclt_not_le _ _ H1 E3)].
Qed.

(** a candidate made of indices first <= centre <= last *)
Definition good (off s e : nat) (c : cand) : Prop :=
  exists f m l, s <= f /\ f <= m <= l /\ l < e /\ h_start c = off + f /\ h_stop c = off + l /\ h_center c = off + m /\ peak w thr nadc c f m l.
Definition covered (off : nat) (cs : list cand) (t : nat) : Prop := exists c, In c cs /\ h_start c <= off + t <= h_stop c.
Definition edges (off s e : nat) (cs : list cand) (c : cand) : Prop :=
  (h_start c = off + s \/ (exists d, In d cs /\ h_start c = h_stop d + 1) \/ exists f, h_start c = off + f /\ left_edge w thr nadc f) /\
  (h_stop c = off + e - 1 \/ (exists d, In d cs /\ h_stop c = h_start d) \/ exists l, h_stop c = off + l /\ right_edge w thr nadc l).

Lemma good_mono off s e s' e' c : s' <= s -> e <= e' -> good off s e c -> good off s' e' c.
Proof. intros H1 H2 (f & m & l & A & B & D & R). exists f, m, l. split; [lia|]. split; [exact B|]. split; [lia|exact R]. Qed.
Lemma ss_app {A} (R : A -> A -> Prop) l1 x l2 : StronglySorted R l1 -> StronglySorted R l2 -> (forall a, In a l1 -> R a x) -> (forall b, In b l2 -> R x b) ->
  (forall a b, In a l1 -> In b l2 -> R a b) -> StronglySorted R (l1 ++ x :: l2).
Proof.
  intros S1 S2 H1 H2 H12. induction S1 as [|a l1 S1 IH Hf]; simpl; constructor; auto.
  - apply Forall_forall. exact H2.
  - apply IH; intros; [apply H1|apply H12]; try right; auto.
  - apply Forall_app. split; [exact Hf|]. constructor; [apply H1; left; reflexivity|]. apply Forall_forall. intros b Hb. apply H12; [left; reflexivity|exact Hb].
Qed.

Lemma find_short fuel s e roi : e - s <= 4 -> 0 < fuel -> find_hits w thr nadc fuel s e roi = Some (Ok []).
Proof. intros H Hf. destruct fuel; [lia|]. cbn [find_hits]. destruct (Nat.ltb_spec 4 (e - s)); [lia|reflexivity]. Qed.

Lemma find_ok : forall fuel s e off, e - s < fuel -> e <= length w ->
  exists cs, find_hits w thr nadc fuel s e (off + s) = Some (Ok cs) /\ Forall (good off s e) cs /\ StronglySorted before cs /\ Forall (edges off s e cs) cs /\
    (forall a b t, s <= a -> a <= t < b -> b <= e -> (thr < wv t)%Qc -> (forall u, a <= u < b -> ~ covered off cs u) -> b - a <= 4).
Proof.
  induction fuel as [|fuel IH]; intros s e off Hf He; [lia|]. cbn [find_hits].
  destruct (Nat.ltb_spec 4 (e - s)) as [Hlen|Hlen].
  2:{ exists []. split; [reflexivity|]. split; [constructor|]. split; [constructor|]. split; [constructor|]. intros; lia. }
  destruct (max_elem_ok s (e - s - 1) s (s + 1)) as (mx & Emx & Hmx & Hmax & Hfst); [lia|lia| | |].
  { intros j Hj. replace j with s by lia. apply Qcle_refl. }
  { intros; lia. }
  replace (s + 1 + (e - s - 1)) with e in * by lia. rewrite Emx, idxw by lia.
  destruct (qc_lt thr (wv mx)) eqn:Ethr.
  2:{ apply qc_lt_false in Ethr. exists []. split; [reflexivity|]. split; [constructor|]. split; [constructor|]. split; [constructor|]. intros a b t H1 H2 H3 H4 _. exfalso.
      apply (Qclt_not_le _ _ H4). eapply Qcle_trans; [apply Hmax; lia|exact Ethr]. }
  apply qc_lt_spec in Ethr.
  assert (F : exists first, (if Nat.ltb 2 (mx - s) then back_scan w thr nadc s (mx - 1 - s) else Ok s) = Ok first /\ s <= first <= mx /\ (first < mx \/ first = s) /\ (first = s \/ left_edge w thr nadc first) /\ (2 < mx - first -> forall j, first < j < mx -> ~ left_edge w thr nadc j)).
  { destruct (Nat.ltb_spec 2 (mx - s)); [|exists s; split; [reflexivity|]; split; [lia|]; split; [lia|]; split; [left; reflexivity|intros; lia]]. destruct (back_scan_ok s (mx - 1 - s)) as (f & E & Hff & Hb & Hn); [lia|]. exists f. split; [exact E|]. split; [lia|]. split; [lia|]. split; [exact Hb|]. intros _ j Hj. apply Hn. lia. }
  destruct F as (first & -> & Hfirst & Hfirst2 & Hfe & Hfi).
  destruct (IH s (first + 1) off) as (lft & El & Gl & Sl & Dl & Cl); [lia|lia|]. rewrite El.
  assert (La : exists last, (if Nat.ltb 2 (e - mx) then fwd_scan w thr nadc (mx + 1) (e - 1 - (mx + 1)) else Ok (e - 1)) = Ok last /\ mx <= last < e /\ (last = e - 1 \/ right_edge w thr nadc last) /\ (2 < last - mx -> forall j, mx < j < last -> ~ right_edge w thr nadc j)).
  { destruct (Nat.ltb_spec 2 (e - mx)); [|exists (e - 1); split; [reflexivity|]; split; [lia|]; split; [left; reflexivity|intros; lia]]. destruct (fwd_scan_ok (e - 1 - (mx + 1)) (mx + 1)) as (l & E & Hll & Hb & Hn); [lia|lia|]. exists l. split; [exact E|]. split; [lia|]. split; [destruct Hb; [left; lia|right; assumption]|]. intros _ j Hj. apply Hn. lia. }
  destruct La as (last & -> & Hlast & Hle & Hli). rewrite !idxw by lia.
  replace (off + s + (last + 1 - s)) with (off + (last + 1)) by lia.
  destruct (IH (last + 1) e off) as (rgt & Er & Gr & Sr & Dr & Cr); [lia|lia|]. rewrite Er.
  replace (off + s + (first - s)) with (off + first) by lia. replace (off + s + (last - s)) with (off + last) by lia. replace (off + s + (mx - s)) with (off + mx) by lia.
  set (c := mkCand _ _ _ _ _ _ _ _ _). eexists. split; [reflexivity|].
  rewrite Forall_forall in Gl, Gr, Dl, Dr.
  assert (Gc : good off s e c).
  { exists first, mx, last. unfold c, peak. cbn. repeat (split; [lia||reflexivity||assumption|]). split; [intros j Hj; apply Hmax; lia|]. split; [intros j Hj; apply Hfst; lia|]. split; [reflexivity|]. split; assumption. }
  assert (Hlc : forall a, In a lft -> h_stop a <= off + first /\ h_center a < off + mx).
  { intros a Ha. destruct (Gl a Ha) as (f & m & l & A1 & A2 & A3 & A4 & A5 & A6 & _). 
    destruct Hfirst2 as [Hlt|Heq]; [split; lia|]. exfalso. (* the left part is a single tick *) subst first.
    rewrite find_short in El by lia. inversion El; subst. destruct Ha. }
  split; [|split; [|split]].
  - apply Forall_app. split; [apply Forall_forall; intros a Ha; apply (good_mono off s (first + 1)); [lia|lia|apply Gl, Ha]|].
    constructor; [exact Gc|]. apply Forall_forall. intros a Ha. apply (good_mono off (last + 1) e); [lia|lia|apply Gr, Ha].
  - apply ss_app; [exact Sl|exact Sr| | |].
    + intros a Ha. destruct (Hlc a Ha). unfold before, c; cbn; lia.
    + intros b Hb. destruct (Gr b Hb) as (f & m & l & A1 & A2 & A3 & A4 & A5 & A6 & _). unfold before, c; cbn; lia.
    + intros a b Ha Hb. destruct (Hlc a Ha). destruct (Gr b Hb) as (f & m & l & A1 & A2 & A3 & A4 & A5 & A6 & _). split; lia.
  - apply Forall_forall. intros a Ha. apply in_app_or in Ha. destruct Ha as [Ha|[<-|Ha]].
    + destruct (Dl a Ha) as [D1 D2]. split.
      * destruct D1 as [X|[(d & Hd & X)|X]]; [left; exact X|right; left; exists d; split; [apply in_or_app; left; exact Hd|exact X]|right; right; exact X].
      * destruct D2 as [X|[(d & Hd & X)|X]]; [right; left; exists c; split; [apply in_or_app; right; left; reflexivity|unfold c; cbn; lia]|right; left; exists d; split; [apply in_or_app; left; exact Hd|exact X]|right; right; exact X].
    + split; unfold c; cbn [h_start h_stop].
      * destruct Hfe as [->|X]; [left; reflexivity|right; right; exists first; split; [reflexivity|exact X]].
      * destruct Hle as [->|X]; [left; lia|right; right; exists last; split; [reflexivity|exact X]].
    + destruct (Dr a Ha) as [D1 D2]. split.
      * destruct D1 as [X|[(d & Hd & X)|X]]; [right; left; exists c; split; [apply in_or_app; right; left; reflexivity|unfold c; cbn; lia]|right; left; exists d; split; [apply in_or_app; right; right; exact Hd|exact X]|right; right; exact X].
      * destruct D2 as [X|[(d & Hd & X)|X]]; [left; exact X|right; left; exists d; split; [apply in_or_app; right; right; exact Hd|exact X]|right; right; exact X].
  - intros a b t Ha Ht Hb Hv Hun.
    assert (Hc : forall u, a <= u < b -> ~ (first <= u <= last)).
    { intros u Hu Hin. apply (Hun u Hu). exists c. split; [apply in_or_app; right; left; reflexivity|]. unfold c; cbn. lia. }
    assert (Hd : b <= first \/ last < a). { destruct (le_lt_dec b first); [left; assumption|]. destruct (le_lt_dec a last); [|right; assumption]. exfalso.
      destruct (le_lt_dec first a); [apply (Hc a); lia|apply (Hc first); lia]. }
    destruct Hd as [Hd|Hd].
    + apply (Cl a b t); try lia; try assumption. intros u Hu (d & Hd1 & Hd2). apply (Hun u Hu). exists d. split; [apply in_or_app; left; exact Hd1|exact Hd2].
    + apply (Cr a b t); try lia; try assumption. intros u Hu (d & Hd1 & Hd2). apply (Hun u Hu). exists d. split; [apply in_or_app; right; right; exact Hd1|exact Hd2].
Qed.
End Wave.

Lemma chain_snoc {A} (R : A -> A -> Prop) l c d : chain R (l ++ [c]) -> R c d -> chain R ((l ++ [c]) ++ [d]).
Proof.
  induction l as [|a l IH]; intros H HR; [simpl; auto|]. destruct l as [|b l]; [simpl in *; tauto|].
  destruct H as [H1 H2]. split; [exact H1|]. apply IH; assumption.
Qed.
Definition far (g g' : list cand) : Prop := exists g0 c d g1, g = g0 ++ [c] /\ g' = d :: g1 /\ (1 < gap c d)%Z.
Lemma merge_loop_ok : forall cs g0 c, chain (fun a b => (gap a b <= 1)%Z) (g0 ++ [c]) ->
  exists g' gs, merge_loop cs (Z.of_nat (h_stop c)) (g0 ++ [c]) = ((g0 ++ [c]) ++ g') :: gs /\
    concat (merge_loop cs (Z.of_nat (h_stop c)) (g0 ++ [c])) = (g0 ++ [c]) ++ cs /\
    Forall (fun g => g <> []) (merge_loop cs (Z.of_nat (h_stop c)) (g0 ++ [c])) /\
    Forall (chain (fun a b => (gap a b <= 1)%Z)) (merge_loop cs (Z.of_nat (h_stop c)) (g0 ++ [c])) /\
    chain far (merge_loop cs (Z.of_nat (h_stop c)) (g0 ++ [c])).
Proof.
  induction cs as [|d cs IH]; intros g0 c Hg.
  - assert (E : merge_loop [] (Z.of_nat (h_stop c)) (g0 ++ [c]) = [g0 ++ [c]]) by (cbn [merge_loop]; destruct (g0 ++ [c]) eqn:E; [destruct g0; discriminate|reflexivity]).
    rewrite E. exists [], []. rewrite !app_nil_r. split; [reflexivity|]. split; [simpl; rewrite app_nil_r; reflexivity|].
    split; [constructor; [destruct g0; discriminate|constructor]|]. split; [constructor; [exact Hg|constructor]|exact I].
  - cbn [merge_loop]. destruct (Z.ltb_spec 1 (Z.of_nat (h_start d) - Z.of_nat (h_stop c))) as [Hgap|Hgap].
    + destruct (IH [] d I) as (g' & gs & E & H1 & H2 & H3 & H4). simpl app in *. exists [], (merge_loop cs (Z.of_nat (h_stop d)) [d]). rewrite app_nil_r.
      split; [reflexivity|]. split; [simpl; rewrite H1, <- app_assoc; reflexivity|]. split; [constructor; [destruct g0; discriminate|exact H2]|]. split; [constructor; assumption|].
      rewrite E in *. split; [exists g0, c, d, g'; split; [reflexivity|]; split; [reflexivity|exact Hgap]|exact H4].
    + destruct (IH (g0 ++ [c]) d) as (g' & gs & E & H1 & H2 & H3 & H4); [apply chain_snoc; assumption|].
      exists (d :: g'), gs. rewrite E in *. split; [rewrite <- !app_assoc; reflexivity|]. split; [rewrite H1, <- !app_assoc; reflexivity|]. auto.
Qed.
Lemma merge_hits_ok cs : (forall c cs', cs = c :: cs' -> h_start c <= h_stop c + 1) ->
  concat (merge_hits cs) = cs /\ Forall (fun g => g <> []) (merge_hits cs) /\ Forall (chain (fun a b => (gap a b <= 1)%Z)) (merge_hits cs) /\ chain far (merge_hits cs).
Proof.
  intros H. destruct cs as [|c cs]; [cbn; repeat split; constructor|]. cbn [merge_hits merge_loop].
  specialize (H c cs eq_refl). destruct (Z.ltb_spec 1 (Z.of_nat (h_start c) - Z.of_nat (h_stop c))); [lia|].
  destruct (merge_loop_ok cs [] c I) as (g' & gs & E & H1 & H2 & H3 & H4). simpl app in *. auto.
Qed.
