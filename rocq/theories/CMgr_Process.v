(** IterationProcess, the iteration loop, EventEnd *)
From Coq Require Import ZifyNat.
From Verif Require Import Base MultiMap CMergeBK_Model CMergeBK_Spec CMergeBK_Proofs CMergeBK_Hist CMergeBK_Combine
  CMgr_Model CMgr_Spec CMgr_Proofs CMgr_Iter.

(** two canonical labellings of one partition are equal *)
Lemma canon_unique n (f g : nat -> nat) :
  (forall i v, i < n -> v < f i -> exists i', i' < i /\ f i' = v) ->
  (forall i v, i < n -> v < g i -> exists i', i' < i /\ g i' = v) ->
  (forall i j, i < n -> j < n -> (f i = f j <-> g i = g j)) ->
  forall i, i < n -> f i = g i.
Proof.
  intros Hf Hg Hfg i. induction i as [i IH] using lt_wf_ind. intros Hi.
  destruct (Nat.lt_trichotomy (f i) (g i)) as [L|[L|L]]; [|exact L|].
  - destruct (Hg i (f i) Hi L) as (i' & Hi' & E).
    assert (f i' = g i') by (apply IH; lia).
    assert (f i' = f i) by congruence. apply Hfg in H0; [|lia|lia]. lia.
  - destruct (Hf i (g i) Hi L) as (i' & Hi' & E).
    assert (f i' = g i') by (apply IH; lia).
    assert (g i' = g i) by congruence. apply Hfg in H0; [|lia|lia]. lia.
Qed.

Lemma last_default {A} (x : A) l d d' : last (x :: l) d = last (x :: l) d'.
Proof. revert x; induction l as [|y l IH]; intros x; [reflexivity|]. apply (IH y). Qed.

Definition no_prohibitions (lg : log) := forall a b, ~ prohibited lg a b.

Lemma combine_labels n A lgA B lgB :
  Inv n A lgA -> no_prohibitions lgA -> Inv (cnt A) B lgB -> cnt B < cnt A ->
  exists A' lg', combine A B = (A', Ok tt) /\ Inv n A' lg' /\ no_prohibitions lg' /\
    (forall i, i < n -> o A' i = o B (o A i)) /\ cnt A' = cnt B.
Proof.
  intros IA Hno IB Hlt.
  assert (HB : forall p q, linked lgB p q -> p <> q -> p < cnt A /\ q < cnt A) by (apply IB).
  destruct (combine_spec n A lgA B lgB IA IB Hlt) as [[(a & c & Hp & _) _]|[_ (A' & ms & E & R & Hm)]].
  { exfalso; eapply Hno; exact Hp. }
  assert (I' : Inv n A' (lgA ++ dones ms)) by (eapply run_inv_gen; eassumption).
  exists A', (lgA ++ dones ms). split; [exact E|]. split; [exact I'|]. split.
  { intros a b Hp. apply (prohibited_dones lgA ms a b) in Hp. exact (Hno a b Hp). }
  assert (Ho : forall i, i < n -> o A' i = o B (o A i)).
  { apply (canon_unique n (o A') (fun i => o B (o A i))).
    - apply (i_canon _ _ _ I').
    - intros i v Hi Hv. destruct (i_canon _ _ _ IB (o A i) v) as (p & Hp & Ep); [apply (i_lt _ _ _ IA); exact Hi|exact Hv|].
      destruct (i_canon _ _ _ IA i p Hi Hp) as (i' & Hi' & Ei'). exists i'. split; [exact Hi'|]. congruence.
    - intros i j Hi Hj. specialize (Hm i j Hi Hj).
      rewrite (composed_iff n A lgA lgB i j IA HB) in Hm.
      destruct (is_merged_spec n A' _ i j I') as [H _]. destruct (H Hi Hj) as (x & Ex & Hx). rewrite Ex in Hm.
      rewrite <- (i_link _ _ _ I' i j Hi Hj) in Hx.
      rewrite (i_link _ _ _ IB (o A i) (o A j)) by (apply (i_lt _ _ _ IA); assumption).
      rewrite <- Hx. split.
      + intros ->. apply Hm. reflexivity.
      + intros Hl. assert (Ok x = Ok true) by (apply Hm; auto). congruence. }
  split; [exact Ho|].
  destruct (Nat.lt_trichotomy (cnt A') (cnt B)) as [L|[L|L]]; [|exact L|].
  - destruct (i_surj _ _ _ IB (cnt A') L) as (p & Hp & Ep). destruct (i_surj _ _ _ IA p Hp) as (i & Hi & Ei).
    pose proof (i_lt _ _ _ I' i Hi) as Hc. rewrite Ho, Ei, Ep in Hc by exact Hi. lia.
  - destruct (i_surj _ _ _ I' (cnt B) L) as (i & Hi & Ei). rewrite Ho in Ei by exact Hi.
    pose proof (i_lt _ _ _ IB (o A i) (i_lt _ _ _ IA i Hi)). lia.
Qed.

Lemma full_count_identity n b lg : Inv n b lg -> cnt b = n -> forall i, i < n -> o b i = i.
Proof.
  intros I Hc. apply (canon_unique n (o b) (fun i => i)).
  - apply (i_canon _ _ _ I).
  - intros i v Hi Hv. exists v. auto.
  - intros i j Hi Hj. split; [|congruence]. intros E.
    destruct (Nat.lt_trichotomy i j) as [L|[L|L]]; [exfalso| exact L|exfalso].
    + assert (cnt b < n); [|lia]. apply (cnt_lt_iff n b lg I). exists i, j. split; [exact L|]. split; [exact Hj|].
      apply (i_link _ _ _ I); assumption.
    + assert (cnt b < n); [|lia]. apply (cnt_lt_iff n b lg I). exists j, i. split; [exact L|]. split; [exact Hi|].
      apply (i_link _ _ _ I); auto.
Qed.

Lemma class_identity n b v : (forall i, i < n -> o b i = i) -> v < n -> class n b v = [v].
Proof.
  intros H Hv. unfold class.
  rewrite (filter_ext_in _ (fun k => k =? v)).
  2: { intros k Hk. apply in_seq in Hk. rewrite H by lia. reflexivity. }
  replace n with (v + S (n - S v)) by lia. rewrite seq_app, filter_app. simpl. rewrite Nat.eqb_refl.
  assert (G : forall a k, (forall x, a <= x < a + k -> x <> v) -> filter (fun k => k =? v) (seq a k) = []).
  { intros a k; revert a; induction k as [|k IH]; intros a Ha; simpl; [reflexivity|].
    destruct (Nat.eqb_spec a v); [exfalso; apply (Ha a); lia|]. apply IH. intros; apply Ha; lia. }
  rewrite (G 0 v), (G (S v)) by (intros; lia). reflexivity.
Qed.

(** union of classes *)
Lemma concat_classes (f : nat -> nat) (L ks : list nat) : NoDup ks ->
  Permutation (concat (map (fun k => filter (fun i => f i =? k) L) ks))
              (filter (fun i => existsb (Nat.eqb (f i)) ks) L).
Proof.
  intros Hk. induction L as [|x L IH].
  - simpl. induction ks; simpl; auto. apply IHks. inversion Hk; assumption.
  - simpl filter at 2. destruct (existsb (Nat.eqb (f x)) ks) eqn:Ex.
    + apply existsb_exists in Ex. destruct Ex as (k & Hin & Ek). apply Nat.eqb_eq in Ek. subst k.
      destruct (in_split _ _ Hin) as (k1 & k2 & ->).
      rewrite map_app, concat_app in *. cbn [map concat] in *.
      assert (Hne : forall vs, ~ In (f x) vs ->
       map (fun k => filter (fun i => f i =? k) (x :: L)) vs = map (fun k => filter (fun i => f i =? k) L) vs).
      { intros vs Hni. apply map_ext_in. intros v Hv. simpl.
        destruct (Nat.eqb_spec (f x) v); [|reflexivity]. subst. contradiction. }
      apply NoDup_remove_2 in Hk.
      rewrite (Hne k1), (Hne k2) by (intros Hc; apply Hk; apply in_or_app; auto).
      simpl. rewrite Nat.eqb_refl. simpl.
      apply Permutation_sym, Permutation_cons_app, Permutation_sym. exact IH.
    + assert (Hni : ~ In (f x) ks).
      { intros Hc. assert (existsb (Nat.eqb (f x)) ks = true); [|congruence].
        apply existsb_exists. exists (f x). split; [exact Hc|apply Nat.eqb_refl]. }
      erewrite map_ext_in; [exact IH|]. intros v Hv. simpl.
      destruct (Nat.eqb_spec (f x) v); [|reflexivity]. subst. contradiction.
Qed.

Section Process.
Context {hit : Type} (hit_plane : hit -> Z) {extra : Type} (extra0 : extra) (fill_in fill_out : list hit -> extra) {W : Type}.
Notation cluster := (cluster hit extra).
Notation mgr := (mgr hit extra W).

Lemma hits_of_app (cl : list cluster) s1 s2 : hits_of cl (s1 ++ s2) = hits_of cl s1 ++ hits_of cl s2.
Proof. unfold hits_of. rewrite map_app, concat_app. reflexivity. Qed.

Lemma hits_of_perm (cl : list cluster) s1 s2 : Permutation s1 s2 -> Permutation (hits_of cl s1) (hits_of cl s2).
Proof. intros H. unfold hits_of. rewrite <- !flat_map_concat_map. apply Permutation_flat_map, H. Qed.

Lemma set_hits_ok min (hs : list hit) : hs <> [] -> exists c r, set_hits hit_plane extra0 min hs = Ok (c, r) /\ chits c = hs.
Proof. destruct hs as [|h hs]; [congruence|]. intros _. simpl. eexists _, _. split; [reflexivity|reflexivity]. Qed.

Lemma build_out_ok (cl : list cluster) s :
  s <> [] -> (forall i, In i s -> i < length cl) -> (forall c, In c cl -> chits c <> []) ->
  exists c, build_out hit_plane extra0 fill_out cl s = Ok c /\ chits c = hits_of cl s /\ chits c <> [].
Proof.
  intros Hs Hr Hh. unfold build_out.
  assert (Hat : forall i, In i s -> exists c, nth_error cl i = Some c /\ at_ cl i = Ok c /\ chits c <> []).
  { intros i Hi. specialize (Hr i Hi). destruct (nth_error cl i) as [c|] eqn:E.
    - exists c. unfold at_. rewrite E. repeat split; auto. apply Hh. eapply nth_error_In; exact E.
    - apply nth_error_None in E. lia. }
  destruct (Nat.eqb_spec (length s) 1) as [L|L].
  - destruct s as [|i [|]]; try discriminate. destruct (Hat i (or_introl eq_refl)) as (c & E & A & Hc).
    unfold at_ at 1. simpl. rewrite A. exists c. repeat split; auto.
    unfold hits_of. simpl. rewrite E, app_nil_r. reflexivity.
  - assert (Hf : forall acc, foreach s (fun acc i => do c <- at_ cl i; Ok (acc ++ chits c)) acc = Ok (acc ++ hits_of cl s)).
    { clear L Hs Hr. induction s as [|i s IH]; intros acc; simpl.
      - unfold hits_of; simpl. rewrite app_nil_r. reflexivity.
      - destruct (Hat i (or_introl eq_refl)) as (c & E & A & Hc). rewrite A. cbn [obind].
        rewrite IH by (intros; apply Hat; right; assumption). unfold hits_of. simpl. rewrite E, app_assoc. reflexivity. }
    rewrite Hf. cbn [obind app].
    assert (Hne : hits_of cl s <> []).
    { destruct s as [|i s]; [congruence|]. destruct (Hat i (or_introl eq_refl)) as (c & E & _ & Hc).
      unfold hits_of; simpl. rewrite E. destruct (chits c); [congruence|discriminate]. }
    destruct (set_hits_ok 10 _ Hne) as (c & r & -> & Ec). cbn [obind].
    eexists; split; [reflexivity|]. destruct (r <? 1)%Z; simpl; rewrite Ec; auto.
Qed.

Lemma build_all_ok (cl : list cluster) sets :
  (forall s, In s sets -> s <> [] /\ forall i, In i s -> i < length cl) -> (forall c, In c cl -> chits c <> []) ->
  forall acc, exists outs, foreach sets (fun acc v => do c <- build_out hit_plane extra0 fill_out cl v; Ok (acc ++ [c])) acc = Ok (acc ++ outs) /\
    length outs = length sets /\ (forall c, In c outs -> chits c <> []) /\
    (forall k c, nth_error outs k = Some c -> chits c = hits_of cl (nth k sets [])).
Proof.
  induction sets as [|s sets IH]; intros Hs Hh acc; simpl.
  - exists []. rewrite app_nil_r. repeat split; auto. intros [|k] c; discriminate.
  - destruct (Hs s (or_introl eq_refl)) as [Hne Hr].
    destruct (build_out_ok cl s Hne Hr Hh) as (c & -> & Ec & Hc). cbn [obind].
    destruct (IH (fun t Ht => Hs t (or_intror Ht)) Hh (acc ++ [c])) as (outs & E & L & Ho & Hk).
    exists (c :: outs). rewrite E, <- app_assoc. simpl. repeat split.
    + congruence.
    + intros d [<-|Hd]; auto.
    + intros [|k] d Hd; simpl in *; [inversion Hd; subst; auto|auto].
Qed.

Lemma merge_switch_ok n (idxs : list (list nat)) : length idxs <= n ->
  exists sw, merge_switch n idxs = Ok sw /\ length sw = n /\
    forall k, nth k sw true = false -> length (nth k idxs []) = 1.
Proof.
  intros Hl. unfold merge_switch.
  destruct (for_range_inv (fun i sw => length sw = n /\ forall k, nth k sw true = false -> length (nth k idxs []) = 1)
    (fun sw i => do v <- at_ idxs i; if length v =? 1 then set_at sw i false else Ok sw) 0 (length idxs) (repeat true n))
    as (sw & E & H).
  - lia.
  - split; [apply repeat_length|]. intros k Hk. exfalso.
    destruct (Nat.lt_ge_cases k n); [rewrite nth_repeat in Hk; discriminate|].
    rewrite nth_overflow in Hk by (rewrite repeat_length; lia). discriminate.
  - intros i sw Hi (H1 & H2). rewrite (at_ok idxs i []) by lia. cbn [obind].
    destruct (Nat.eqb_spec (length (nth i idxs [])) 1) as [L|L].
    + rewrite set_at_ok by lia. eexists; split; [reflexivity|]. rewrite upd_length. split; [exact H1|].
      intros k. rewrite nth_upd. destruct (Nat.eqb_spec k i) as [->|]; [auto|]. cbn [andb]. apply H2.
    + eexists; split; [reflexivity|]. auto.
  - exists sw. split; [exact E|exact H].
Qed.

Variable cfg : config hit extra W.
Variable alg : W -> cluster -> cluster -> W * bool.
Hypothesis Halg : merge_alg cfg = Some alg.

Definition cur (m : mgr) : list cluster := if iter m =? 0 then in_cl m else out_cl m.

Lemma iteration_ok (m : mgr) (U : nat -> Prop) :
  let cl := cur m in
  let n := length cl in
  n < Z.to_nat 65536 -> (forall c, In c cl -> chits c <> []) ->
  length (tmp_idx m) <= n ->
  (forall k, length (nth k (tmp_idx m) []) = 1 -> U k) ->
  exists m' going it b lg,
    iteration_process hit_plane extra0 fill_out cfg m = Ok (m', going, it) /\
    Inv n b lg /\ it_in it = cl /\ it_sets it = map (class n b) (seq 0 (cnt b)) /\
    iteration_correct U it /\
    out_cl m' = it_out it /\ tmp_idx m' = it_sets it /\ length (it_out it) = cnt b /\
    bkv m' = bkv m ++ (if cnt b =? n then [] else [b]) /\
    in_cl m' = in_cl m /\ book m' = book m /\ iter m' = iter m /\
    (forall c, In c (it_out it) -> chits c <> []) /\
    (going = true -> cnt b < n) /\
    (forall k c, nth_error (it_out it) k = Some c -> chits c = hits_of cl (class n b k)).
Proof.
  intros cl n Hn Hh Hidx HU. unfold iteration_process. fold (cur m). fold cl. fold n.
  rewrite ushort_small by exact Hn.
  destruct (merge_switch_ok n (tmp_idx m) Hidx) as (sw & Esw & Lsw & Hsw). rewrite Esw. cbn [obind].
  destruct (compute_priority_spec cfg (mw m) cl) as (pr & planes & Epr & Hpr & Hnd & Hsorted & Hpl). rewrite Epr. cbn [obind].
  set (w1 := fst (prio_vals cfg (mw m) cl)).
  assert (Hsep : exists w2 b1 trs, (match sep_alg cfg with Some a => run_separate a cl (w1, reset n, []) | None => Ok (w1, reset n, []) end) = Ok (w2, b1, trs)
     /\ sep_inv cl (fun x y => sep_alg cfg <> None) (w2, b1, trs)).
  { destruct (sep_alg cfg) as [sa|].
    - destruct (run_separate_ok cl Hn sa w1 (reset n) (inv_init n)) as ([[w2 b1] trs] & E & H).
      exists w2, b1, trs. split; [exact E|]. eapply sep_inv_mono; [|exact H]. cbv beta. intros. exact I.
    - exists w1, (reset n), []. split; [reflexivity|]. exists []. split; [apply inv_init|].
      split; [intros x y []|]. split; [|split].
      + intros x y. split; [intros [[]|[]]|intros [[]|[]]].
      + intros x y a [].
      + intros x y Hc; congruence. }
  destruct Hsep as (w2 & b1 & trs & Esep & (lg1 & I1 & M1 & P1 & T1 & _)). rewrite Esep. cbn [obind].
  rewrite Halg. unfold run_merge. fold n. rewrite Lsw. fold n. rewrite Nat.eqb_refl. cbn [negb].
  set (order := map snd (rev pr)).
  assert (Horder : forall i, In i order -> i < n).
  { intros i Hi. unfold order in Hi. rewrite map_rev in Hi. apply in_rev in Hi. apply in_map_iff in Hi.
    destruct Hi as ([p j] & Ej & Hin). simpl in Ej; subst j. apply Hpr in Hin. apply Hin. }
  assert (Hndo : NoDup order).
  { unfold order. rewrite map_rev. apply NoDup_rev. exact Hnd. }
  destruct (merge_rows_ok cl Hn sw Lsw order Horder Hndo (prohibited lg1) alg order [] (w2, b1, []) eq_refl) as ([[w3 b2] trm] & Em & Hm).
  { exists lg1. split; [exact I1|]. split; [|split; [|split]].
    - intros x y. split; [intros H; exfalso; eapply M1; exact H|intros []].
    - intros x y; reflexivity.
    - intros x y a [].
    - intros x y []. }
  destruct Hm as (lg2 & I2 & M2 & P2 & T2 & C2).
  rewrite Em. cbn [obind]. rewrite (pass_result_ok n b2 lg2 I2). cbn [obind].
  set (sets := map (class n b2) (seq 0 (cnt b2))).
  assert (Lsets : length sets = cnt b2) by (unfold sets; rewrite map_length, seq_length; reflexivity).
  rewrite (i_len _ _ _ I2), Lsets.
  assert (Hsets : forall s, In s sets -> s <> [] /\ forall i, In i s -> i < n).
  { intros s Hs. apply in_map_iff in Hs. destruct Hs as (v & <- & Hv). apply in_seq in Hv. split.
    - apply (class_nonempty n b2 lg2); [exact I2|lia].
    - intros i Hi. apply in_class in Hi. lia. }
  assert (Hout : exists outs bv, (if n =? cnt b2 then Ok (cl, bkv m)
      else do o <- foreach sets (fun acc v => do c <- build_out hit_plane extra0 fill_out cl v; Ok (acc ++ [c])) []; Ok (o, bkv m ++ [b2])) = Ok (outs, bv)
      /\ length outs = cnt b2 /\ bv = bkv m ++ (if cnt b2 =? n then [] else [b2]) /\
      (forall c, In c outs -> chits c <> []) /\
      (forall k c, nth_error outs k = Some c -> chits c = hits_of cl (nth k sets []))).
  { destruct (Nat.eqb_spec n (cnt b2)) as [E|E].
    - exists cl, (bkv m). rewrite <- E, Nat.eqb_refl, app_nil_r. split; [reflexivity|]. split; [reflexivity|].
      split; [reflexivity|]. split; [exact Hh|]. intros k c Hk.
      assert (Hkn : k < n) by (apply nth_error_Some; congruence).
      unfold sets. rewrite nth_map_seq by lia.
      rewrite (class_identity n b2 k) by (try apply (full_count_identity n b2 lg2 I2); auto).
      unfold hits_of; simpl. rewrite Hk, app_nil_r. reflexivity.
    - destruct (build_all_ok cl sets Hsets Hh []) as (outs & Eo & Lo & Ho & Hk). rewrite Eo. cbn [obind app].
      exists outs, (bkv m ++ [b2]). destruct (Nat.eqb_spec (cnt b2) n); [congruence|].
      repeat split; auto. congruence. }
  destruct Hout as (outs & bv & Eo & Lo & Ebv & Hoh & Hok). fold n. rewrite Eo. cbn [obind].
  eexists _, _, (mkIt cl pr trs trm sets outs), b2, lg2. split; [reflexivity|].
  cbn [it_in it_sets it_out out_cl tmp_idx bkv in_cl book iter].
  assert (Hlink : forall i j, linked lg2 i j <-> answered_yes trm i j) by (apply linked_answered; exact M2).
  assert (Htog : forall i j, i < n -> j < n -> (together sets i j <-> linked lg2 i j)).
  { intros i j Hi Hj. rewrite <- (i_link _ _ _ I2) by assumption. split.
    - intros (s & Hs & Hsi & Hsj). apply in_map_iff in Hs. destruct Hs as (v & <- & _).
      apply in_class in Hsi, Hsj. destruct Hsi, Hsj; congruence.
    - intros E. exists (class n b2 (o b2 i)). split.
      + apply in_map, in_seq. pose proof (i_lt _ _ _ I2 i Hi). lia.
      + rewrite !in_class. auto. }
  assert (Hear : forall i j, earlier order i j -> i < n /\ j < n).
  { intros i j (l1 & l2 & l3 & E). split; apply Horder; rewrite E; apply in_or_app; right; simpl; auto.
    right. apply in_or_app; right; left; reflexivity. }
  repeat (split; [first [exact I2 | reflexivity | exact Lo | exact Ebv | exact Hoh] | ]).
  split; [|repeat (split; [first [exact I2 | reflexivity | exact Lo | exact Ebv | exact Hoh] | ])].
  - constructor; cbn [it_in it_prio it_sep it_merge it_sets it_out].
    + apply (classes_perm n b2 lg2 I2).
    + intros s Hs. apply Hsets, Hs.
    + intros i j Hi Hj. rewrite Htog by assumption. apply Hlink.
    + intros i j a Hin. destruct (T2 i j a Hin) as [Hs He]. split; [exact Hs|]. split; [exact He|].
      intros p k Hp. apply Hpr in Hp. tauto.
    + intros i j Hin Ht. destruct (T1 i j true Hin) as [Hij _].
      apply Htog in Ht; [|fold n in Hij; lia|fold n in Hij; lia].
      assert (Hp : prohibited lg2 i j) by (apply P2, P1; auto).
      destruct (i_prange _ _ _ I2 i j Hp) as (Hi & Hj & Hd). apply Hd. apply (i_link _ _ _ I2); assumption.
    + intros i j He Hs. destruct (C2 i j I He Hs) as [H|[[Ho1 Ho2]|(a & b & Hp & Ha & Hb)]]; [auto| |].
      * right; left. split; apply HU, Hsw; assumption.
      * right; right. exists a, b. destruct (Hear i j He) as [Hi Hj].
        destruct (i_prange _ _ _ I2 a b Hp) as (La & Lb & _).
        split; [apply P1, P2; exact Hp|]. split; apply Htog; assumption.
    + split; [lia|]. intros k c Hk. rewrite (Hok k c Hk). reflexivity.
  - split.
    + intros Hg. apply andb_true_iff in Hg. destruct Hg as [Hg _]. apply negb_true_iff, Nat.eqb_neq in Hg.
      pose proof (i_cnt _ _ _ I2). rewrite Lo in Hg. lia.
    + intros k c Hk. assert (k < cnt b2) by (rewrite <- Lo; apply nth_error_Some; congruence).
      rewrite (Hok k c Hk). unfold sets. rewrite nth_map_seq by assumption. reflexivity.
Qed.

(** ** the loop *)
Definition comb_all (bv : list bk) (b : bk) : outcome bk :=
  foreach bv (fun b x => let (b', r) := combine b x in do _ <- r; Ok b') b.

(** [N] input clusters [cin]; [f] maps each input cluster to its current cluster *)
Definition loop_inv (cin : list cluster) (m : mgr) : Prop :=
  let N := length cin in
  in_cl m = cin /\
  length (cur m) <= N /\ (N > 0 -> length (cur m) > 0) /\
  (forall c, In c (cur m) -> chits c <> []) /\
  length (tmp_idx m) <= length (cur m) /\
  exists b lg, comb_all (bkv m) (book m) = Ok b /\ Inv N b lg /\ no_prohibitions lg /\ cnt b = length (cur m) /\
    (forall k c, nth_error (cur m) k = Some c -> Permutation (chits c) (hits_of cin (class N b k))).

Definition with_hook (m : mgr) (w : W) : mgr :=
  mkMgr (in_cl m) (out_cl m) (book m) (bkv m) (tmp_cl m) (tmp_idx m) (iter m) w.

Lemma iterate_ok cin : length cin < Z.to_nat 65536 -> length cin > 0 -> forall fuel m its (U : nat -> Prop),
  loop_inv cin m -> length (cur m) <= fuel ->
  (forall k, length (nth k (tmp_idx m) []) = 1 -> U k) ->
  exists m' its', iterate hit_plane extra0 fill_out fuel cfg m its = Some (Ok (m', its ++ its')) /\
    loop_inv cin m' /\ iter m' <> 0 /\ chained (cur m) U its' /\ its' <> [] /\
    length its' <= length (cur m) /\ last_out (cur m) its' = out_cl m'.
Proof.
  intros HN HN0. induction fuel as [|fuel IH]; intros m its U Hinv Hfuel HU.
  { destruct Hinv as (_ & _ & Hpos & _). specialize (Hpos HN0). lia. }
  cbn [iterate]. set (m0 := mkMgr _ _ _ _ _ _ _ _).
  assert (Hcur0 : cur m0 = cur m) by reflexivity.
  destruct Hinv as (Hin & Hlen & Hpos & Hh & Hidx & b & lg & Eb & Ib & Nb & Cb & Pb).
  destruct (iteration_ok m0 U) as (m1 & going & it & b2 & lg2 & E & I2 & Ein & Esets & Hic & Eout & Etmp & Lout & Ebv & Ein1 & Ebook & Eiter & Hh1 & Hg & Hhits);
    try rewrite Hcur0; try assumption; try lia.
  rewrite Hcur0 in *. change (tmp_idx m0) with (tmp_idx m) in *. change (bkv m0) with (bkv m) in *.
  change (in_cl m0) with (in_cl m) in *. change (book m0) with (book m) in *.
  rewrite E. set (m2 := mkMgr _ _ _ _ _ _ (S _) _).
  assert (Hcur2 : cur m2 = it_out it) by (unfold cur; simpl; exact Eout).
  specialize (Hpos HN0).
  assert (Hc2 : cnt b2 <= length (cur m)) by apply (i_cnt _ _ _ I2).
  assert (Hc2pos : cnt b2 > 0).
  { pose proof (i_lt _ _ _ I2 0 Hpos). lia. }
  assert (Hinv2 : loop_inv cin m2).
  { split; [simpl; congruence|]. rewrite Hcur2, Lout. split; [lia|]. split; [lia|]. split; [exact Hh1|].
    split; [simpl; rewrite Etmp, Esets, map_length, seq_length; lia|].
    simpl. rewrite Ebv, Ebook. unfold comb_all. rewrite foreach_app. fold (comb_all (bkv m) (book m)). rewrite Eb. cbn [obind].
    rewrite <- Cb in I2, Hhits.
    destruct (Nat.eqb_spec (cnt b2) (length (cur m))) as [Ec|Ec].
    - (* nothing merged in this iteration *)
      exists b, lg. split; [reflexivity|]. split; [exact Ib|]. split; [exact Nb|]. split; [congruence|].
      intros k c Hk. rewrite (Hhits k c Hk).
      assert (Hkn : k < cnt b2) by (rewrite <- Lout; apply nth_error_Some; congruence).
      rewrite (class_identity (cnt b) b2 k); [|apply (full_count_identity _ _ lg2 I2); congruence|lia].
      unfold hits_of at 1. simpl. rewrite app_nil_r.
      destruct (nth_error (cur m) k) as [d|] eqn:Ed; [|apply nth_error_None in Ed; lia].
      apply Pb. exact Ed.
    - destruct (combine_labels (length cin) b lg b2 lg2 Ib Nb I2 ltac:(lia)) as (b' & lg' & Ecomb & I' & N' & Ho & Hcnt).
      simpl. rewrite Ecomb. cbn [obind].
      exists b', lg'. split; [reflexivity|]. split; [exact I'|]. split; [exact N'|]. split; [exact Hcnt|].
      intros k c Hk. rewrite (Hhits k c Hk).
      (* replace each current cluster's hits by those of its inputs *)
      assert (G : forall ks, (forall x, In x ks -> x < cnt b) ->
        Permutation (hits_of (cur m) ks) (hits_of cin (concat (map (class (length cin) b) ks)))).
      { induction ks as [|x ks IHk]; intros Hks; [reflexivity|].
        simpl. rewrite hits_of_app. change (x :: ks) with ([x] ++ ks). rewrite hits_of_app.
        apply Permutation_app; [|apply IHk; intros; apply Hks; right; assumption].
        unfold hits_of at 1; simpl. rewrite app_nil_r.
        assert (x < cnt b) by (apply Hks; left; reflexivity).
        destruct (nth_error (cur m) x) as [d|] eqn:Ed; [|apply nth_error_None in Ed; lia].
        apply Pb; exact Ed. }
      rewrite G by (intros x Hx; apply in_class in Hx; lia).
      apply hits_of_perm.
      replace (class (length cin) b' k) with
        (filter (fun i => existsb (Nat.eqb (o b i)) (class (cnt b) b2 k)) (seq 0 (length cin)));
        [apply (concat_classes (o b)), class_NoDup|].
      unfold class at 2. apply filter_ext_in. intros i Hi. apply in_seq in Hi. cbv beta. rewrite Ho by lia.
      assert (Hoi : o b i < cnt b) by (apply (i_lt _ _ _ Ib); lia).
      destruct (existsb (Nat.eqb (o b i)) (class (cnt b) b2 k)) eqn:Ex.
      + apply existsb_exists in Ex. destruct Ex as (y & Hy & Ey). apply Nat.eqb_eq in Ey. subst y.
        apply in_class in Hy. symmetry. apply Nat.eqb_eq. tauto.
      + symmetry. apply Nat.eqb_neq. intros Heq. assert (existsb (Nat.eqb (o b i)) (class (cnt b) b2 k) = true); [|congruence].
        apply existsb_exists. exists (o b i). split; [apply in_class; auto|apply Nat.eqb_refl]. }
  assert (Hch : forall rest, chained (it_out it) (fun k => length (nth k (it_sets it) []) = 1) rest -> chained (cur m) U (it :: rest)).
  { intros rest Hr. simpl. auto. }
  destruct (negb (till_converge cfg) || negb going) eqn:Est.
  - exists m2, [it]. split; [reflexivity|]. split; [exact Hinv2|]. split; [simpl; lia|].
    split; [apply Hch; exact I|]. split; [discriminate|]. split; [simpl; lia|].
    unfold last_out; simpl. symmetry. exact Eout.
  - apply orb_false_iff in Est. destruct Est as [_ Hgo]. apply negb_false_iff in Hgo.
    specialize (Hg Hgo).
    destruct (IH m2 (its ++ [it]) (fun k => length (nth k (it_sets it) []) = 1) Hinv2) as (m' & its' & E' & Hinv' & Hit' & Hch' & Hne & Hl' & Hlast).
    + rewrite Hcur2, Lout. lia.
    + intros k Hk. simpl in Hk. rewrite Etmp in Hk. exact Hk.
    + exists m', (it :: its'). rewrite E', <- app_assoc. split; [reflexivity|]. split; [exact Hinv'|]. split; [exact Hit'|].
      rewrite Hcur2 in *. split; [apply Hch; exact Hch'|]. split; [discriminate|].
      split; [simpl; rewrite Lout in Hl'; lia|].
      destruct its' as [|it' its']; [congruence|]. rewrite <- Hlast. unfold last_out. cbn [map].
      change (last (it_out it :: it_out it' :: map it_out its') (cur m)) with (last (it_out it' :: map it_out its') (cur m)).
      apply last_default.
Qed.

Lemma process_ok (m : mgr) fuel :
  in_cl m <> [] -> length (in_cl m) < Z.to_nat 65536 -> (forall c, In c (in_cl m) -> chits c <> []) ->
  length (in_cl m) <= fuel ->
  exists m' its, process hit_plane extra0 fill_out fuel cfg m = Some (Ok (m', its)) /\
    in_cl m' = in_cl m /\
    its <> [] /\ length its <= length (in_cl m) /\
    chained (in_cl m) (fun _ => False) its /\ last_out (in_cl m) its = out_cl m' /\
    exists lg, Inv (length (in_cl m)) (book m') lg /\ no_prohibitions lg /\ cnt (book m') = length (out_cl m') /\
      (forall k c, nth_error (out_cl m') k = Some c -> Permutation (chits c) (hits_of (in_cl m) (class (length (in_cl m)) (book m') k))).
Proof.
  intros Hne Hlt Hh Hfuel. unfold process.
  destruct (in_cl m) as [|c0 cs] eqn:Ein; [congruence|]. rewrite <- Ein in *.
  unfold event_begin. rewrite Halg. rewrite ushort_small by exact Hlt.
  set (m1 := mkMgr _ _ _ _ _ _ _ _).
  assert (Hcur : cur m1 = in_cl m) by reflexivity.
  assert (Hpos : length (in_cl m) > 0) by (rewrite Ein; simpl; lia).
  destruct (iterate_ok (in_cl m) Hlt Hpos fuel m1 [] (fun _ => False)) as (m' & its & E & Hinv & Hit & Hch & Hni & Hl & Hlast).
  - split; [reflexivity|]. rewrite Hcur. split; [lia|]. split; [auto|]. split; [exact Hh|]. split; [simpl; lia|].
    exists (reset (length (in_cl m))), []. split; [reflexivity|]. split; [apply inv_init|].
    split; [intros a b [[]|[]]|]. split; [reflexivity|].
    intros k c Hk. assert (k < length (in_cl m)) by (apply nth_error_Some; congruence).
    rewrite class_identity by (auto; intros; unfold o; simpl; rewrite seq_nth by assumption; reflexivity).
    unfold hits_of; simpl. rewrite Hk, app_nil_r. reflexivity.
  - rewrite Hcur. exact Hfuel.
  - intros k Hk. simpl in Hk. destruct k; discriminate.
  - rewrite E. simpl app in *. destruct Hinv as (Hin & Hlen & _ & _ & _ & b & lg & Eb & Ib & Nb & Cb & Pb).
    unfold event_end. fold (comb_all (bkv m') (book m')). rewrite Eb. cbn [obind].
    assert (Hco : cur m' = out_cl m').
    { unfold cur. destruct (Nat.eqb_spec (iter m') 0); [contradiction|reflexivity]. }
    rewrite Hcur, Hco in *.
    eexists _, its. split; [reflexivity|]. cbn [in_cl out_cl book].
    split; [exact Hin|]. split; [exact Hni|]. split; [exact Hl|]. split; [exact Hch|]. split; [exact Hlast|].
    exists lg. auto.
Qed.
End Process.
