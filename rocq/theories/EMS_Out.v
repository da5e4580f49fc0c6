(** EMShower::produce. *)
From Coq Require Import QArith Qcanon.
From Verif Require Import Base CMgr_Proofs Solver_Model CCB_Hist EMS_Model EMS_Map EMS_Spec EMS_Assoc EMS_Find EMS_Orient.
Local Open Scope nat_scope.

Lemma nat_nodup (ts : list Z) : NoDup ts -> (forall t, In t ts -> exists t', t = Z.of_nat t') -> NoDup (map Z.to_nat ts).
Proof.
  induction 1 as [|x l H N IH]; intros I; cbn [map]; constructor; [|apply IH; intros; apply I; right; assumption].
  intros X. apply in_map_iff in X. destruct X as (y & Ey & Hy). destruct (I x (or_introl eq_refl)) as (x' & ->). destruct (I y (or_intror Hy)) as (y' & ->). rewrite !Nat2Z.id in Ey. subst y'. contradiction.
Qed.

Section W.
Variables (fmh : list (list nat)) (ncl ntr : nat) (points : list nat -> list (list nat)) (complete : list nat -> bool) (save_all : bool).
Variables (lk : nat -> nat -> Prop) (c2t : zmap (list Z)).
(** clusterToTracks lists the tracks linked to a cluster *)
Hypothesis HC : forall c l, mfind c c2t = Some l -> forall t, In t l <-> exists t', t = Z.of_nat t' /\ lk (Z.to_nat c) t'.
Notation hits_in := (hits_in fmh).
Notation saved := (saved fmh complete save_all).
Notation base := (base fmh points).
Notation written := (written fmh lk points complete save_all).

Lemma dedup_ok (t : list Z) : forall ts, NoDup ts -> let r := fold_left (fun ts x => if zmem x ts then ts else ts ++ [x]) t ts in NoDup r /\ forall x, In x r <-> In x ts \/ In x t.
Proof.
  induction t as [|x t IH]; intros ts N; cbv zeta; cbn [fold_left]; [split; [exact N|cbn; tauto]|]. destruct (zmem x ts) eqn:M.
  - apply zmem_spec in M. destruct (IH ts N) as [A B]. cbv zeta in A, B. split; [exact A|]. intros y. rewrite B. cbn. intuition. subst. auto.
  - apply zmem_false in M. destruct (IH (ts ++ [x]) (ndsnoc ts x N M)) as [A B]. cbv zeta in A, B. split; [exact A|]. intros y. rewrite B, in_app_iff. cbn. intuition.
Qed.
Lemma gather_ok sh cs hs ts : gather fmh ncl c2t sh = Ok (cs, hs, ts) -> cs = map Z.to_nat sh /\ hs = hits_in sh /\ NoDup ts /\ forall t, In t ts <-> exists c t', t = Z.of_nat t' /\ In c sh /\ lk (Z.to_nat c) t'.
Proof.
  unfold gather. assert (G : forall l pre a b d a' b' d', a = map Z.to_nat pre -> b = hits_in pre -> NoDup d -> (forall t, In t d <-> exists c t', t = Z.of_nat t' /\ In c pre /\ lk (Z.to_nat c) t') ->
    foreach l (fun (s : list nat * list nat * list Z) c =>
    match s with (cs, hs, ts) =>
      let k := Z.to_nat c in
      if ncl <=? k then Throw RangeExn
      else do h <- at_ fmh k; do t <- mat c c2t;
           Ok (cs ++ [k], hs ++ h, fold_left (fun ts x => if zmem x ts then ts else ts ++ [x]) t ts)
    end) (a, b, d) = Ok (a', b', d') -> a' = map Z.to_nat (pre ++ l) /\ b' = hits_in (pre ++ l) /\ NoDup d' /\ forall t, In t d' <-> exists c t', t = Z.of_nat t' /\ In c (pre ++ l) /\ lk (Z.to_nat c) t').
  { induction l as [|c l IH]; intros pre a b d a' b' d' Ea Eb Nd Id E; cbn [foreach] in E; [injection E as <- <- <-; rewrite app_nil_r; auto|].
    apply ob in E. destruct E as (s1 & E1 & E2). cbv zeta in E1. destruct (ncl <=? Z.to_nat c); [discriminate|]. apply ob in E1. destruct E1 as (h & Eh & E1). apply ob in E1. destruct E1 as (t & Et & E1). injection E1 as <-.
    unfold at_ in Eh. destruct (nth_error fmh (Z.to_nat c)) as [h'|] eqn:En; [|discriminate]. injection Eh as ->. unfold mat in Et. destruct (mfind c c2t) as [t'|] eqn:Em; [|discriminate]. injection Et as ->.
    destruct (dedup_ok t d Nd) as [D1 D2]. cbv zeta in D1, D2. replace (pre ++ c :: l) with ((pre ++ [c]) ++ l) by (rewrite <- app_assoc; reflexivity).
    apply (IH (pre ++ [c]) (a ++ [Z.to_nat c]) (b ++ h) (fold_left (fun ts x => if zmem x ts then ts else ts ++ [x]) t d) a' b' d'); [rewrite Ea, map_app; reflexivity|rewrite Eb; unfold EMS_Spec.hits_in; rewrite flat_map_app; cbn [flat_map]; rewrite app_nil_r, (nth_error_nth _ _ [] En); reflexivity|exact D1| |exact E2].
    intros x. rewrite D2, Id, (HC c t Em). split.
    - intros [(c0 & t' & -> & Hc & L)|(t' & -> & L)]; [exists c0, t'|exists c, t']; rewrite in_app_iff; cbn; auto.
    - intros (c0 & t' & -> & Hc & L). apply in_app_iff in Hc. destruct Hc as [Hc|[<-|[] ] ]; [left; exists c0, t'; auto|right; exists t'; auto]. }
  intros E. apply (G sh [] [] [] [] cs hs ts); [reflexivity|reflexivity|constructor| |exact E]. intros t. split; [intros []|intros (c & t' & _ & [] & _)].
Qed.
Lemma tracks_ok (ts : list Z) tk : foreach ts (fun l t => if ntr <=? Z.to_nat t then Throw RangeExn else Ok (l ++ [Z.to_nat t])) [] = Ok tk -> tk = map Z.to_nat ts.
Proof.
  assert (G : forall ts acc tk, foreach ts (fun l t => if ntr <=? Z.to_nat t then Throw RangeExn else Ok (l ++ [Z.to_nat t])) acc = Ok tk -> tk = acc ++ map Z.to_nat ts).
  { induction ts0 as [|t l IH]; intros acc r E; cbn [foreach] in E; [injection E as <-; rewrite app_nil_r; reflexivity|]. destruct (ntr <=? Z.to_nat t); cbn [obind] in E; [discriminate|]. apply IH in E. rewrite E, <- app_assoc. reflexivity. }
  intros E. apply G in E. exact E.
Qed.
Lemma ph_ok (ps : list (list nat)) n0 ph : foreach (seq 0 (length ps)) (fun l i => do a <- at_ ps 0; Ok (l ++ map (fun h => (n0 + i, h)) a)) [] = Ok ph ->
  forall k h, In (k, h) ph <-> n0 <= k < n0 + length ps /\ exists pt, nth_error ps 0 = Some pt /\ In h pt.
Proof.
  assert (G : forall l acc ph, foreach l (fun l i => do a <- at_ ps 0; Ok (l ++ map (fun h => (n0 + i, h)) a)) acc = Ok ph -> forall k h, In (k, h) ph <-> In (k, h) acc \/ exists i pt, In i l /\ k = n0 + i /\ nth_error ps 0 = Some pt /\ In h pt).
  { induction l as [|i l IH]; intros acc r E k h; cbn [foreach] in E; [injection E as <-; split; [auto|intros [X|(j & _ & [] & _)]; exact X]|].
    unfold at_ at 1 in E. destruct (nth_error ps 0) as [pt|] eqn:E0; cbn [obind] in E; [|discriminate]. rewrite (IH _ _ E), in_app_iff, in_map_iff. split.
    - intros [ [X|(h' & Q & Hh)]|(j & p & Hj & -> & Ep & Hh)]; [auto|injection Q as <- <-; right; exists i, pt; cbn; auto|right; exists j, p; cbn; auto].
    - intros [X|(j & p & [<-|Hj] & -> & Ep & Hh)]; [auto|left; right; injection Ep as <-; exists h; auto|right; exists j, p; auto]. }
  intros E k h. rewrite (G _ _ _ E). split.
  - intros [ []|(i & pt & Hi & -> & Ep & Hh)]. apply in_seq in Hi. split; [lia|eauto].
  - intros (L & pt & Ep & Hh). right. exists (k - n0), pt. rewrite in_seq. repeat split; auto; lia.
Qed.
Lemma numbered_snoc {A} (l : list A) x : numbered (l ++ [x]) = numbered l ++ [(length l, x)].
Proof. unfold numbered. rewrite app_length, Nat.add_1_r, seq_S. cbn [plus]. generalize (seq_length (length l) 0). generalize (seq 0 (length l)) as s. generalize (length l) at 2 3 as n. revert l. induction l as [|y l IH]; intros n s E; destruct s as [|z s]; try discriminate; cbn; [reflexivity|]. f_equal. apply IH. cbn in E. lia. Qed.
Lemma base_snoc shs sh j : j <= length shs -> base (shs ++ [sh]) j = base shs j.
Proof. intros L. unfold EMS_Spec.base. rewrite firstn_app. replace (j - length shs) with 0 by lia. cbn [firstn]. rewrite app_nil_r. reflexivity. Qed.
Lemma base_last shs sh : base (shs ++ [sh]) (S (length shs)) = base shs (length shs) + length (points (hits_in sh)).
Proof. unfold EMS_Spec.base. rewrite firstn_all, firstn_all2 by (rewrite app_length; cbn; lia). rewrite flat_map_app, app_length. cbn [flat_map]. rewrite app_nil_r. reflexivity. Qed.
Lemma nth_snoc' {A} (l : list A) x i y : nth_error (l ++ [x]) i = Some y <-> (i < length l /\ nth_error l i = Some y) \/ (i = length l /\ y = x).
Proof.
  split.
  - intros E. destruct (nth_snoc _ _ _ _ E) as [H|H]; [left; split; [apply nth_error_Some; congruence|exact H]|right; exact H].
  - intros [ [L E]|[-> ->] ]; [rewrite nth_error_app1 by exact L; exact E|rewrite nth_error_app2, Nat.sub_diag by lia; reflexivity].
Qed.
Lemma firstn_pre {A} (l : list A) x j : j <= length l -> firstn j (l ++ [x]) = firstn j l.
Proof. intros L. rewrite firstn_app. replace (j - length l) with 0 by lia. cbn [firstn]. apply app_nil_r. Qed.

Lemma one_written want num o sh num' o' pre : num = 0%Z -> (want = -1 \/ want = 0)%Z -> written pre o -> one_shower fmh ncl ntr points complete want save_all c2t num o sh = Ok (num', o') -> num' = 0%Z /\ written (pre ++ [sh]) o'.
Proof.
  intros -> Hw (W1 & W2 & W3 & (W4 & W4') & W5 & W6 & W7) E. unfold one_shower in E.
  replace (negb (0 =? want)%Z && negb (want =? -1)%Z) with false in E by (destruct Hw as [-> | ->]; reflexivity).
  apply ob in E. destruct E as ([ [cs hs] ts] & Eg & E). apply gather_ok in Eg. destruct Eg as (-> & -> & Nt & It). apply ob in E. destruct E as (tk & Et & E). apply tracks_ok in Et. subst tk.
  cbv zeta in E. apply ob in E. destruct E as (ph & Ep & E). pose proof (ph_ok _ _ _ Ep) as Ip. clear Ep.
  rewrite W5 in *. set (n0 := base pre (length pre)) in *.
  assert (Bl : base (pre ++ [sh]) (S (length pre)) = n0 + length (points (hits_in sh))) by apply base_last.
  assert (P7 : forall k h, In (k, h) (o_ph o ++ ph) <-> exists j sh0 pt, nth_error (pre ++ [sh]) j = Some sh0 /\ base (pre ++ [sh]) j <= k < base (pre ++ [sh]) (S j) /\ nth_error (points (hits_in sh0)) 0 = Some pt /\ In h pt).
  { intros k h. rewrite in_app_iff, W7, Ip. split.
    - intros [(j & s0 & pt & Ej & Lb & Q)|(Lb & pt & Q)].
      + assert (Lj : j < length pre) by (apply nth_error_Some; congruence). exists j, s0, pt. rewrite !base_snoc by lia. split; [apply nth_snoc'; auto|auto].
      + exists (length pre), sh, pt. rewrite Bl, base_snoc by lia. split; [apply nth_snoc'; auto|]. split; [exact Lb|exact Q].
    - intros (j & s0 & pt & Ej & Lb & Q). apply nth_snoc' in Ej. destruct Ej as [ [Lj Ej]|[-> ->] ].
      + left. rewrite !base_snoc in Lb by lia. exists j, s0, pt. auto.
      + right. rewrite Bl, base_snoc in Lb by lia. split; [exact Lb|]. exists pt. exact Q. }
  assert (Lp : S (length pre) = length (pre ++ [sh])) by (rewrite app_length; cbn; lia). rewrite Lp in Bl.
  change (save_all || complete (hits_in sh)) with (saved sh) in E.
  assert (Fl : filter saved (pre ++ [sh]) = if saved sh then filter saved pre ++ [sh] else filter saved pre) by (rewrite filter_app; cbn [filter]; destruct (saved sh); [reflexivity|apply app_nil_r]).
  assert (Lk : length (o_ids o) = length (filter saved pre)) by (rewrite W1, map_length; reflexivity).
  destruct (saved sh) eqn:Es; injection E as <- <-; (split; [reflexivity|]); unfold EMS_Spec.written; cbv zeta; rewrite Fl; cbn [o_ids o_c o_h o_t o_np o_sp o_ph].
  - rewrite Lk. split; [rewrite W1, map_app; reflexivity|]. split; [rewrite W2, numbered_snoc, flat_map_app; cbn [flat_map fst snd]; rewrite app_nil_r; reflexivity|].
    split; [rewrite W3, numbered_snoc, flat_map_app; cbn [flat_map fst snd]; rewrite app_nil_r; reflexivity|]. split; [|split; [rewrite Bl; reflexivity|split; [|exact P7] ] ].
    + assert (Hn : forall t, In t ts -> exists t', t = Z.of_nat t') by (intros t Ht; apply It in Ht; destruct Ht as (_ & t' & -> & _); eauto).
      assert (Nk : NoDup (map (pair (length (filter saved pre))) (map Z.to_nat ts))) by (apply FinFun.Injective_map_NoDup; [intros x y Q; injection Q as ->; reflexivity|apply nat_nodup; assumption]).
      assert (Ik : forall i t, In (i, t) (map (pair (length (filter saved pre))) (map Z.to_nat ts)) <-> i = length (filter saved pre) /\ exists c, In c sh /\ lk (Z.to_nat c) t).
      { intros i t. rewrite in_map_iff. split.
        - intros (t' & Q & Ht). injection Q as <- <-. split; [reflexivity|]. apply in_map_iff in Ht. destruct Ht as (z & <- & Hz). apply It in Hz. destruct Hz as (c & t2 & -> & Hc & L). rewrite Nat2Z.id. eauto.
        - intros (-> & c & Hc & L). exists t. split; [reflexivity|]. apply in_map_iff. exists (Z.of_nat t). split; [apply Nat2Z.id|]. apply It. eauto. }
      split.
      * apply CMComb_Proofs.NoDup_app_intro; [exact W4|exact Nk|]. intros [i t] H1 H2. apply Ik in H2. destruct H2 as [-> _]. apply W4' in H1. destruct H1 as (s0 & _ & E0 & _). apply (nth_error_Some (filter saved pre) (length (filter saved pre))); [congruence|reflexivity] || (assert (X : length (filter saved pre) < length (filter saved pre)) by (apply nth_error_Some; congruence); lia).
      * intros i t. rewrite in_app_iff, W4', Ik. split.
        -- intros [(s0 & c & E0 & Hc & L)|(-> & c & Hc & L)]; [exists s0, c|exists sh, c]; (split; [apply nth_snoc'; auto|auto]). left. split; [apply nth_error_Some; congruence|exact E0].
        -- intros (s0 & c & E0 & Hc & L). apply nth_snoc' in E0. destruct E0 as [ [_ E0]|[-> ->] ]; [left; eauto|right; eauto].
    + intros i k. rewrite in_app_iff, W6, in_map_iff. split.
      * intros [(j & s0 & Ej & Ss & -> & Lb)|(x & Q & Hx)].
        -- assert (Lj : j < length pre) by (apply nth_error_Some; congruence). exists j, s0. rewrite !base_snoc by lia. rewrite firstn_pre by lia. split; [apply nth_snoc'; auto|auto].
        -- injection Q as <- <-. apply in_seq in Hx. exists (length pre), sh. rewrite Lp, Bl, base_snoc by lia. rewrite firstn_pre, firstn_all by lia. split; [apply nth_snoc'; auto|]. fold n0. repeat split; auto; lia.
      * intros (j & s0 & Ej & Ss & -> & Lb). apply nth_snoc' in Ej. destruct Ej as [ [Lj Ej]|[-> ->] ].
        -- left. rewrite !base_snoc in Lb by lia. rewrite firstn_pre by lia. exists j, s0. auto.
        -- right. rewrite Lp, Bl, base_snoc in Lb by lia. fold n0 in Lb. rewrite firstn_pre, firstn_all by lia. exists (k - n0). split; [f_equal; lia|]. apply in_seq. lia.
  - split; [exact W1|]. split; [exact W2|]. split; [exact W3|]. split; [split; [exact W4|exact W4']|]. split; [rewrite Bl; reflexivity|]. split; [|exact P7].
    intros i k. rewrite W6. split.
    + intros (j & s0 & Ej & Ss & -> & Lb). assert (Lj : j < length pre) by (apply nth_error_Some; congruence). exists j, s0. rewrite !base_snoc by lia. rewrite firstn_pre by lia. split; [apply nth_snoc'; auto|auto].
    + intros (j & s0 & Ej & Ss & -> & Lb). apply nth_snoc' in Ej. destruct Ej as [ [Lj Ej]|[-> ->] ]; [|congruence]. rewrite !base_snoc in Lb by lia. rewrite firstn_pre by lia. exists j, s0. auto.
Qed.
Lemma loop_written want shs pre o r : (want = -1 \/ want = 0)%Z -> written pre o ->
  foreach shs (fun (s : Z * out) sh => one_shower fmh ncl ntr points complete want save_all c2t (fst s) (snd s) sh) (0%Z, o) = Ok r -> written (pre ++ shs) (snd r).
Proof.
  intros Hw. revert pre o. induction shs as [|sh shs IH]; intros pre o W E; cbn [foreach] in E; [injection E as <-; rewrite app_nil_r; exact W|].
  apply ob in E. destruct E as ([n1 o1] & E1 & E2). cbn [fst snd] in E1. destruct (one_written want 0%Z o sh n1 o1 pre eq_refl Hw W E1) as [-> W1].
  replace (pre ++ sh :: shs) with ((pre ++ [sh]) ++ shs) by (rewrite <- app_assoc; reflexivity). apply (IH _ o1 W1 E2).
Qed.
Lemma written0 : written [] (O [] [] [] [] [] [] 0).
Proof.
  unfold EMS_Spec.written. cbn. split; [reflexivity|]. split; [reflexivity|]. split; [reflexivity|]. split; [split; [constructor|]|].
  - intros i t. split; [intros []|intros (sh & c & E & _); destruct i; discriminate].
  - split; [reflexivity|]. split; [intros i k; split; [intros []|intros (j & sh & E & _); destruct j; discriminate]|]. intros k h. split; [intros []|intros (j & sh & pt & E & _); destruct j; discriminate].
Qed.
Lemma loop_skip want shs o : (want <> -1)%Z -> (want <> 0)%Z ->
  foreach shs (fun (s : Z * out) sh => one_shower fmh ncl ntr points complete want save_all c2t (fst s) (snd s) sh) (0%Z, o) = Ok (0%Z, o).
Proof.
  intros N1 N2. induction shs as [|sh shs IH]; [reflexivity|]. cbn [foreach fst snd]. unfold one_shower at 1.
  replace (negb (0 =? want)%Z && negb (want =? -1)%Z) with true; [cbn [obind]; exact IH|]. symmetry. rewrite andb_true_iff, !negb_true_iff, !Z.eqb_neq. lia.
Qed.
(** nothing fails when the maps are complete *)
Hypothesis HK : forall c, (exists t, lk c t) -> c < ncl /\ c < length fmh /\ exists l, mfind (Z.of_nat c) c2t = Some l.
Hypothesis HT : forall c t, lk c t -> t < ntr.
Lemma one_ok want num o sh : (forall c, In c sh -> exists c', c = Z.of_nat c' /\ exists t, lk c' t) -> exists r, one_shower fmh ncl ntr points complete want save_all c2t num o sh = Ok r.
Proof.
  intros Hs. unfold one_shower. match goal with |- context [if ?c then _ else _] => destruct c; [eauto|] end.
  assert (Eg : exists cs hs ts, gather fmh ncl c2t sh = Ok (cs, hs, ts)).
  { unfold gather. assert (G : forall l (a b : list nat) (d : list Z), (forall c, In c l -> exists c', c = Z.of_nat c' /\ exists t, lk c' t) -> exists cs hs ts, foreach l (fun (s : list nat * list nat * list Z) c =>
    match s with (cs, hs, ts) =>
      let k := Z.to_nat c in
      if ncl <=? k then Throw RangeExn
      else do h <- at_ fmh k; do t <- mat c c2t;
           Ok (cs ++ [k], hs ++ h, fold_left (fun ts x => if zmem x ts then ts else ts ++ [x]) t ts)
    end) (a, b, d) = Ok (cs, hs, ts)).
    { induction l as [|c l IH]; intros a b d Hl; cbn [foreach]; [eauto|].
      destruct (Hl c (or_introl eq_refl)) as (c' & -> & Hk). destruct (HK c' Hk) as (L1 & L2 & lst & El). cbv zeta. rewrite Nat2Z.id. destruct (Nat.leb_spec ncl c'); [lia|].
      unfold at_ at 1. destruct (nth_error fmh c') as [h|] eqn:En; [|apply nth_error_None in En; lia]. cbn [obind]. unfold mat at 1. rewrite El. cbn [obind]. apply IH. intros x Hx. apply Hl. right; exact Hx. }
    apply G, Hs. }
  destruct Eg as (cs & hs & ts & Eg). rewrite Eg. cbn [obind]. apply gather_ok in Eg. destruct Eg as (_ & _ & _ & It).
  assert (Et : exists tk, foreach ts (fun l t => if ntr <=? Z.to_nat t then Throw RangeExn else Ok (l ++ [Z.to_nat t])) [] = Ok tk).
  { assert (Hn : forall t, In t ts -> Z.to_nat t < ntr) by (intros t Ht; apply It in Ht; destruct Ht as (c & t' & -> & _ & L); rewrite Nat2Z.id; apply (HT _ _ L)).
    clear It. assert (G : forall ts acc, (forall t, In t ts -> Z.to_nat t < ntr) -> exists tk, foreach ts (fun l t => if ntr <=? Z.to_nat t then Throw RangeExn else Ok (l ++ [Z.to_nat t])) acc = Ok tk); [|apply G, Hn].
    clear. induction ts as [|t ts IH]; intros acc Hn; cbn [foreach]; [eauto|]. destruct (Nat.leb_spec ntr (Z.to_nat t)); [specialize (Hn t (or_introl eq_refl)); lia|]. cbn [obind]. apply IH. intros; apply Hn; right; assumption. }
  destruct Et as (tk & Et). rewrite Et. cbn [obind]. cbv zeta.
  assert (Ep : exists ph, foreach (seq 0 (length (points hs))) (fun l i => do a <- at_ (points hs) 0; Ok (l ++ map (fun h => (o_np o + i, h)) a)) [] = Ok ph).
  { destruct (points hs) as [|p ps]; [eexists; reflexivity|]. 
    assert (G : forall l acc, exists ph, foreach l (fun l i => do a <- at_ (p :: ps) 0; Ok (l ++ map (fun h => (o_np o + i, h)) a)) acc = Ok ph); [|apply G].
    induction l as [|i l IH]; intros acc; cbn [foreach]; [eauto|]. cbn [at_ nth_error obind]. apply IH. }
  destruct Ep as (ph & ->). cbn [obind]. destruct (save_all || complete hs); eauto.
Qed.
Lemma loop_total want shs s : (forall sh c, In sh shs -> In c sh -> exists c', c = Z.of_nat c' /\ exists t, lk c' t) ->
  exists r, foreach shs (fun (s : Z * out) sh => one_shower fmh ncl ntr points complete want save_all c2t (fst s) (snd s) sh) s = Ok r.
Proof.
  revert s. induction shs as [|sh shs IH]; intros s H; cbn [foreach]; [eauto|]. destruct (one_ok want (fst s) (snd s) sh (fun c => H sh c (or_introl eq_refl))) as (r & ->). cbn [obind]. apply IH. intros x c Hx. apply H. right; exact Hx.
Qed.
End W.

Section PR.
Variables (fmh fmt : list (list nat)) (ncl ntr : nat) (len : nat -> Qc) (minlen : Qc).
Variables (points : list nat -> list (list nat)) (complete : list nat -> bool) (save_all find_bad : bool) (cpl : list Z) (hpls : list (list Z)) (want : Z).
Notation run := (produce fmh ncl ntr points complete fmt len minlen find_bad cpl hpls want save_all).

Lemma assoc_facts ign m : associate (seq 0 ncl) fmh fmt len minlen ign ([], []) = Ok m ->
  let lk c t := c < ncl /\ linked fmh fmt len minlen ign c t in
  (forall c l, mfind c (fst m) = Some l -> forall t, In t l <-> exists t', t = Z.of_nat t' /\ lk (Z.to_nat c) t') /\
  (forall c, (exists t, lk c t) -> c < ncl /\ c < length fmh /\ exists l, mfind (Z.of_nat c) (fst m) = Some l) /\
  (forall sh c, In sh (find_showers (snd m)) -> In c sh -> exists c', c = Z.of_nat c' /\ exists t, lk c' t).
Proof.
  intros E. cbv zeta. pose proof (associate_valid _ _ _ _ _ _ _ _ E) as V. destruct (associate_ok fmh fmt len minlen ign (seq 0 ncl) V [] ([], []) inv0) as (m' & E' & I & _).
  rewrite E in E'. injection E' as <-. cbn [app] in I. destruct I as (_ & _ & R1 & R2 & O1 & O2 & N1 & N2).
  assert (Lk : forall c t, In (c, t) (links fmh fmt len minlen ign (seq 0 ncl)) <-> c < ncl /\ linked fmh fmt len minlen ign c t).
  { intros c t. rewrite in_links by exact V. rewrite in_seq. intuition lia. }
  split; [|split].
  - intros c l El t. pose proof R1 as R1'. specialize (R1 c t). unfold mvec in R1. rewrite El in R1. rewrite R1. split.
    + intros (c' & t' & -> & -> & H). exists t'. rewrite Nat2Z.id. split; [reflexivity|]. apply Lk, H.
    + intros (t' & -> & H). assert (Hc : exists c', c = Z.of_nat c').
      { destruct l as [|z l]; [destruct (N1 c [] El eq_refl)|]. specialize (R1' c z). unfold mvec in R1'. rewrite El in R1'. destruct (proj1 R1' (or_introl eq_refl)) as (c' & _ & -> & _). eauto. }
      destruct Hc as (c' & ->). rewrite Nat2Z.id in H. exists c', t'. repeat split; auto. apply Lk, H.
  - intros c (t & H). split; [apply H|]. split.
    + destruct H as (_ & _ & hs & h & En & _). apply nth_error_Some. congruence.
    + specialize (R1 (Z.of_nat c) (Z.of_nat t)). destruct R1 as [_ R1]. specialize (R1 (ex_intro _ c (ex_intro _ t (conj eq_refl (conj eq_refl (proj2 (Lk c t) H)))))).
      unfold mvec in R1. destruct (mfind (Z.of_nat c) (fst m)) as [l|]; [eauto|destruct R1].
  - intros sh c Hs Hc. rewrite find_fs in Hs. destruct (fs_sound _ sh c Hs Hc) as (l & Hl & Hcl). apply in_map_iff in Hl. destruct Hl as ([t l'] & <- & Hi). cbn [snd] in Hcl.
    apply (mfind_in _ _ _ O2) in Hi. specialize (R2 t c). unfold mvec in R2. rewrite Hi in R2. apply R2 in Hcl. destruct Hcl as (c' & t' & -> & -> & H). exists c'. split; [reflexivity|]. exists t'. apply Lk, H.
Qed.

(** the showers written: those of the maps made with some list of ignored clusters *)
Lemma produce_split o : run = Ok o -> exists ign m r, associate (seq 0 ncl) fmh fmt len minlen ign ([], []) = Ok m /\
  ((ign = [(-999)%Z] /\ (find_bad = true -> exists m0, associate_all (seq 0 ncl) fmh fmt len minlen ([], []) = Ok m0 /\ check_planes cpl hpls (find_showers (snd m0)) = Ok [])) \/
   find_bad = true /\ ign <> [] /\ exists m0, associate_all (seq 0 ncl) fmh fmt len minlen ([], []) = Ok m0 /\ check_planes cpl hpls (find_showers (snd m0)) = Ok ign) /\
  foreach (find_showers (snd m)) (fun (s : Z * out) sh => one_shower fmh ncl ntr points complete want save_all (fst m) (fst s) (snd s) sh) (0%Z, O [] [] [] [] [] [] 0) = Ok r /\ o = snd r.
Proof.
  unfold produce. intros E. apply ob in E. destruct E as (m & Em & E). cbv zeta in E. apply ob in E. destruct E as (ign & Ei & E). apply ob in E. destruct E as (ms & Ems & E). apply ob in E. destruct E as (r & Er & E). injection E as <-.
  destruct ign as [|z zs].
  - injection Ems as <-. exists [(-999)%Z], m, r. split; [exact Em|]. split; [left; split; [reflexivity|]|split; [exact Er|reflexivity] ]. intros ->. exists m. auto.
  - apply ob in Ems. destruct Ems as (m' & Em' & Ems). injection Ems as <-. exists (z :: zs), m', r. split; [exact Em'|]. split; [right|split; [exact Er|reflexivity] ].
    destruct find_bad; [|discriminate]. split; [reflexivity|]. split; [discriminate|]. exists m. auto.
Qed.
Lemma produce_written o : (want = -1 \/ want = 0)%Z -> run = Ok o -> exists ign m, associate (seq 0 ncl) fmh fmt len minlen ign ([], []) = Ok m /\
  ((ign = [(-999)%Z] /\ (find_bad = true -> exists m0, associate_all (seq 0 ncl) fmh fmt len minlen ([], []) = Ok m0 /\ check_planes cpl hpls (find_showers (snd m0)) = Ok [])) \/
   find_bad = true /\ ign <> [] /\ exists m0, associate_all (seq 0 ncl) fmh fmt len minlen ([], []) = Ok m0 /\ check_planes cpl hpls (find_showers (snd m0)) = Ok ign) /\
  written fmh (fun c t => c < ncl /\ linked fmh fmt len minlen ign c t) points complete save_all (find_showers (snd m)) o.
Proof.
  intros Hw E. destruct (produce_split o E) as (ign & m & r & Em & Hi & Er & ->). exists ign, m. split; [exact Em|]. split; [exact Hi|].
  destruct (assoc_facts ign m Em) as (A & _ & _). apply (loop_written fmh ncl ntr points complete save_all _ (fst m) A want _ [] _ r Hw (written0 _ _ _ _ _) Er).
Qed.
Lemma produce_skip o : (want <> -1)%Z -> (want <> 0)%Z -> run = Ok o -> o = O [] [] [] [] [] [] 0.
Proof. intros N1 N2 E. destruct (produce_split o E) as (ign & m & r & Em & _ & Er & ->). rewrite (loop_skip fmh ncl ntr points complete save_all (fun c t => c < ncl /\ linked fmh fmt len minlen ign c t) (fst m) (proj1 (assoc_facts ign m Em)) want) in Er by assumption. injection Er as <-. reflexivity. Qed.
Lemma produce_total : find_bad = false -> valid_assns (seq 0 ncl) fmh fmt -> (forall h t, nth_error fmt h = Some [t] -> t < ntr) -> exists o, run = Ok o.
Proof.
  intros Hf V T. unfold produce, associate_all. destruct (associate_ok fmh fmt len minlen [(-999)%Z] (seq 0 ncl) V [] ([], []) inv0) as (m & Em & _). rewrite Em. cbn [obind]. cbv zeta. rewrite Hf. cbn [obind fst snd].
  destruct (assoc_facts _ m Em) as (A & B & C).
  destruct (loop_total fmh ncl ntr points complete save_all _ (fst m) A B (fun c t L => match proj2 (proj2 L) with ex_intro _ _ (ex_intro _ h (conj _ (conj _ (conj Eh _)))) => T h t Eh end) want (find_showers (snd m)) (0%Z, O [] [] [] [] [] [] 0) C) as (r & ->).
  cbn [obind]. eauto.
Qed.
End PR.
