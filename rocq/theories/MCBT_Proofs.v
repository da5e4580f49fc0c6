From Coq Require Import QArith Qcanon Lqa.
From Verif Require Import Base Util QcUtil Solver_Model Solver_Proofs Solver_Sched MCBT_Model MCBT_Spec.
Local Open Scope nat_scope.

(* ------------------------------------------------------------------ registration *)
Lemma grow_length {A} (v : A) n l : length l <= n -> length (grow v n l) = n.
Proof. intros H. unfold grow. rewrite app_length, repeat_length. lia. Qed.
Lemma grow_nth {A} (v : A) n l i : nth i (grow v n l) v = nth i l v.
Proof.
  unfold grow. destruct (Nat.ltb_spec i (length l)); [apply app_nth1; exact H|]. rewrite app_nth2 by exact H. rewrite (nth_overflow l) by exact H.
  destruct (Nat.ltb_spec (i - length l) (n - length l)) as [H1|H1]; [apply nth_repeat|apply nth_overflow; rewrite repeat_length; exact H1].
Qed.
Lemma nodup_snoc pre x : length (nodup Nat.eq_dec (pre ++ [x])) = length (nodup Nat.eq_dec pre) + (if in_dec Nat.eq_dec x pre then 0 else 1).
Proof.
  destruct (in_dec Nat.eq_dec x pre) as [Hi|Hi].
  - rewrite Nat.add_0_r. apply Nat.le_antisymm; apply NoDup_incl_length; try apply NoDup_nodup; intros y Hy; apply nodup_In; apply nodup_In in Hy.
    + apply in_app_iff in Hy. destruct Hy as [Hy|[<-|[]]]; assumption.
    + apply in_app_iff. left; exact Hy.
  - assert (N : NoDup (x :: nodup Nat.eq_dec pre)) by (constructor; [rewrite nodup_In; exact Hi|apply NoDup_nodup]).
    replace (length (nodup Nat.eq_dec pre) + 1) with (length (x :: nodup Nat.eq_dec pre)) by (simpl; lia).
    apply Nat.le_antisymm; apply NoDup_incl_length; try exact N; try apply NoDup_nodup; intros y Hy.
    + apply nodup_In, in_app_iff in Hy. destruct Hy as [Hy|[->|[]]]; [right; apply nodup_In; exact Hy|left; reflexivity].
    + apply nodup_In, in_app_iff. destruct Hy as [->|Hy]; [right; left; reflexivity|left; apply nodup_In in Hy; exact Hy].
Qed.
Lemma position_snoc pre x id k : position (pre ++ [x]) id k <-> position pre id k \/ (id = x /\ ~ In x pre /\ k = length (nodup Nat.eq_dec pre)).
Proof.
  split.
  - intros (p & q & E & Hn & Hk). destruct q as [|z q] using rev_ind.
    + apply app_inj_tail in E. destruct E as [-> ->]. right. auto.
    + clear IHq. rewrite app_comm_cons, app_assoc in E. apply app_inj_tail in E. destruct E as [-> ->]. left. exists p, q. auto.
  - intros [(p & q & -> & Hn & Hk)|(-> & Hn & Hk)]; [exists p, (q ++ [x])|exists pre, []]; [rewrite <- app_assoc|]; auto.
Qed.
Lemma position_in ids id k : position ids id k -> In id ids.
Proof. intros (p & q & -> & _). apply in_app_iff. right; left; reflexivity. Qed.
Lemma in_position ids id : In id ids -> exists k, position ids id k.
Proof.
  induction ids as [|x ids IH] using rev_ind; [intros []|]. intros H. destruct (in_dec Nat.eq_dec id ids) as [Hi|Hi].
  - destruct (IH Hi) as (k & Hk). exists k. apply position_snoc. left. exact Hk.
  - apply in_app_iff in H. destruct H as [H|[->|[]]]; [contradiction|]. eexists. apply position_snoc. right. split; [reflexivity|]. split; [exact Hi|reflexivity].
Qed.
Lemma position_lt ids id k : position ids id k -> k < length (nodup Nat.eq_dec ids).
Proof.
  induction ids as [|x ids IH] using rev_ind; intros H; [destruct H as (p & q & E & _); destruct p; discriminate|].
  rewrite nodup_snoc. apply position_snoc in H. destruct H as [H|(-> & Hn & ->)]; [specialize (IH H); lia|]. destruct (in_dec Nat.eq_dec x ids); [contradiction|lia].
Qed.
Lemma position_fun ids id k k' : position ids id k -> position ids id k' -> k = k'.
Proof.
  induction ids as [|x ids IH] using rev_ind; intros H H'; [destruct H as (p & q & E & _); destruct p; discriminate|].
  apply position_snoc in H, H'. destruct H as [H|(-> & Hn & ->)], H' as [H'|(E & Hn' & ->)]; subst; auto; exfalso; eauto using position_in.
Qed.
Lemma position_inj ids id id' k : position ids id k -> position ids id' k -> id = id'.
Proof.
  induction ids as [|x ids IH] using rev_ind; intros H H'; [destruct H as (p & q & E & _); destruct p; discriminate|].
  apply position_snoc in H, H'. destruct H as [H|(-> & Hn & ->)], H' as [H'|(E & Hn' & E')]; subst; auto.
  - apply position_lt in H. lia.
  - apply position_lt in H'. lia.
Qed.

Definition table_for (R : nat -> nat -> Prop) (t : list (option nat)) : Prop := forall id k, nth id t None = Some k <-> R id k.
Lemma register_ok pre t x : table_for (position pre) t ->
  exists t', register (t, length (nodup Nat.eq_dec pre)) x = Ok (t', length (nodup Nat.eq_dec (pre ++ [x]))) /\ table_for (position (pre ++ [x])) t'.
Proof.
  intros Ht. unfold register. cbn [fst snd]. set (t1 := if length t <=? x then grow None (x + 1) t else t).
  assert (Hl : x < length t1). { unfold t1. destruct (Nat.leb_spec (length t) x); [rewrite grow_length; lia|assumption]. }
  assert (Hn : forall i, nth i t1 None = nth i t None). { intros i. unfold t1. destruct (length t <=? x); [apply grow_nth|reflexivity]. }
  rewrite (idx_ok t1 x None) by exact Hl. cbn [obind]. rewrite nodup_snoc. destruct (nth x t1 None) as [k|] eqn:E.
  - rewrite Hn in E. apply Ht in E. assert (Hi := position_in _ _ _ E). destruct (in_dec Nat.eq_dec x pre); [|contradiction]. rewrite Nat.add_0_r. exists t1. split; [reflexivity|].
    intros id k'. rewrite Hn, (Ht id k'), position_snoc. tauto.
  - assert (Hi : ~ In x pre). { intros Hi. destruct (in_position pre x Hi) as (k & Hk). apply Ht in Hk. rewrite Hn in E. congruence. }
    destruct (in_dec Nat.eq_dec x pre); [contradiction|]. rewrite set_idx_ok by exact Hl. cbn [obind]. eexists. split; [reflexivity|].
    intros id k'. rewrite nth_upd, position_snoc. destruct (Nat.eqb_spec id x) as [->|Hne]; cbn [andb].
    + destruct (Nat.ltb_spec x (length t1)); [|lia]. split; [intros [= <-]; right; auto|]. intros [H1|(_ & _ & ->)]; [|reflexivity]. exfalso. apply Hi. eapply position_in; eassumption.
    + rewrite Hn, (Ht id k'). split; [auto|]. intros [H1|(E1 & _)]; [exact H1|contradiction].
Qed.
Lemma register_all : forall ids pre t, table_for (position pre) t ->
  exists t', foreach ids register (t, length (nodup Nat.eq_dec pre)) = Ok (t', length (nodup Nat.eq_dec (pre ++ ids))) /\ table_for (position (pre ++ ids)) t'.
Proof.
  induction ids as [|x ids IH]; intros pre t Ht; cbn [foreach]; [exists t; rewrite app_nil_r; split; [reflexivity|exact Ht]|].
  destruct (register_ok pre t x Ht) as (t' & E & Ht'). rewrite E. cbn [obind]. destruct (IH (pre ++ [x]) t' Ht') as (t2 & E2 & Ht2). exists t2. rewrite <- app_assoc in E2, Ht2. split; assumption.
Qed.

Lemma fold_max_le ids a x : In x ids \/ x <= a -> x <= fold_left Nat.max ids a.
Proof. revert a; induction ids as [|y ids IH]; intros a H; simpl; [destruct H as [[]|H]; exact H|]. apply IH. destruct H as [[->|H]|H]; [right; lia|left; exact H|right; lia]. Qed.
Definition in_group (gs : list (list nat)) (id k : nat) : Prop := exists g, nth_error gs k = Some g /\ In id g.
Lemma group_loop : forall ids (t : list (option nat)) (n : nat), (forall x, In x ids -> x < length t) ->
  (NoDup ids /\ (forall x, In x ids -> nth x t None = None) ->
     exists t', foreach ids (fun t id => do v <- idx t id; match v with None => set_idx t id (Some n) | Some _ => Throw UserExn end) t = Ok t' /\
       forall i, nth i t' None = if in_dec Nat.eq_dec i ids then Some n else nth i t None) /\
  (~ (NoDup ids /\ (forall x, In x ids -> nth x t None = None)) ->
     foreach ids (fun t id => do v <- idx t id; match v with None => set_idx t id (Some n) | Some _ => Throw UserExn end) t = Throw UserExn).
Proof.
  induction ids as [|x ids IH]; intros t n Hl.
  - split; [intros _; exists t; split; [reflexivity|intros i; reflexivity]|]. intros H. exfalso. apply H. split; [constructor|intros y []].
  - cbn [foreach]. rewrite (idx_ok t x None) by (apply Hl; left; reflexivity). cbn [obind]. destruct (nth x t None) as [k|] eqn:E.
    + split; [|reflexivity]. intros [_ H]. specialize (H x (or_introl eq_refl)). congruence.
    + rewrite set_idx_ok by (apply Hl; left; reflexivity). cbn [obind]. destruct (IH (upd t x (Some n)) n) as [IH1 IH2]; [intros y Hy; rewrite upd_length; apply Hl; right; exact Hy|].
      assert (Hx : x < length t) by (apply Hl; left; reflexivity).
      assert (Hu : forall y, nth y (upd t x (Some n)) None = if Nat.eqb y x then Some n else nth y t None). { intros y. rewrite nth_upd. destruct (Nat.eqb_spec y x); cbn [andb]; [|reflexivity]. destruct (Nat.ltb_spec x (length t)); [reflexivity|lia]. }
      split.
      * intros [Hnd Hnone]. inversion Hnd as [|? ? Hn Hnd']; subst. destruct IH1 as (t' & E' & Hn').
        { split; [exact Hnd'|]. intros y Hy. rewrite Hu. destruct (Nat.eqb_spec y x) as [->|]; [contradiction|]. apply Hnone. right; exact Hy. }
        exists t'. split; [exact E'|]. intros i. rewrite Hn', Hu. destruct (in_dec Nat.eq_dec i ids) as [Hi|Hi], (in_dec Nat.eq_dec i (x :: ids)) as [Hj|Hj]; try reflexivity.
        -- exfalso. apply Hj. right; exact Hi.
        -- destruct (Nat.eqb_spec i x); [reflexivity|]. exfalso. destruct Hj as [->|Hj]; contradiction.
        -- destruct (Nat.eqb_spec i x) as [->|]; [exfalso; apply Hj; left; reflexivity|reflexivity].
      * intros H. apply IH2. intros [Hnd Hnone]. apply H. split.
        -- constructor; [|exact Hnd]. intros Hi. specialize (Hnone x Hi). rewrite Hu, Nat.eqb_refl in Hnone. discriminate.
        -- intros y [->|Hy]; [exact E|]. specialize (Hnone y Hy). rewrite Hu in Hnone. destruct (Nat.eqb_spec y x); [discriminate|exact Hnone].
Qed.
Lemma in_group_snoc gs g id k : in_group (gs ++ [g]) id k <-> in_group gs id k \/ (k = length gs /\ In id g).
Proof.
  unfold in_group. split.
  - intros (h & E & Hi). destruct (Nat.ltb_spec k (length gs)) as [H|H]; [rewrite nth_error_app1 in E by exact H; left; eauto|].
    rewrite nth_error_app2 in E by exact H. destruct (k - length gs) as [|j] eqn:Ek; [|destruct j; discriminate]. cbn in E. inversion E; subst. right. split; [lia|exact Hi].
  - intros [(h & E & Hi)|(-> & Hi)]; [exists h; split; [|exact Hi]; rewrite nth_error_app1; [exact E|apply nth_error_Some; congruence]|].
    exists g. split; [|exact Hi]. rewrite nth_error_app2, Nat.sub_diag by lia. reflexivity.
Qed.
Lemma in_group_in gs id : In id (concat gs) <-> exists k, in_group gs id k.
Proof.
  rewrite in_concat. split.
  - intros (g & Hg & Hi). apply In_nth_error in Hg. destruct Hg as (k & E). exists k, g. auto.
  - intros (k & g & E & Hi). exists g. split; [eapply nth_error_In; exact E|exact Hi].
Qed.
Lemma NoDup_app_iff {A} (l l' : list A) : NoDup (l ++ l') <-> NoDup l /\ NoDup l' /\ (forall x, In x l -> ~ In x l').
Proof.
  induction l as [|a l IH]; simpl.
  - split; [intros H; split; [constructor|]; split; [exact H|intros x []]|tauto].
  - split.
    + intros H. inversion H as [|? ? Hn Hd]; subst. apply IH in Hd. destruct Hd as (H1 & H2 & H3). split; [constructor; [intros X; apply Hn, in_app_iff; left; exact X|exact H1]|].
      split; [exact H2|]. intros x [->|Hx]; [intros X; apply Hn, in_app_iff; right; exact X|apply H3, Hx].
    + intros (H1 & H2 & H3). inversion H1; subst. constructor; [rewrite in_app_iff; intros [X|X]; [contradiction|apply (H3 a); [left; reflexivity|exact X]]|].
      apply IH. split; [assumption|]. split; [assumption|]. intros x Hx. apply H3. right; exact Hx.
Qed.
Lemma register_groups_all : forall gs pre t, table_for (in_group pre) t -> NoDup (concat pre) ->
  (NoDup (concat (pre ++ gs)) -> exists t', foreach gs register_group (t, length pre) = Ok (t', length (pre ++ gs)) /\ table_for (in_group (pre ++ gs)) t') /\
  (~ NoDup (concat (pre ++ gs)) -> foreach gs register_group (t, length pre) = Throw UserExn).
Proof.
  induction gs as [|g gs IH]; intros pre t Ht Hpre; cbn [foreach].
  - rewrite app_nil_r. split; [intros _; exists t; split; [reflexivity|exact Ht]|contradiction].
  - unfold register_group at 1 3. cbn [fst snd]. set (mx := fold_left Nat.max g 0). set (t1 := if length t <=? mx then grow None (mx + 1) t else t).
    assert (Hl : forall x, In x g -> x < length t1).
    { intros x Hx. assert (x <= mx) by (apply fold_max_le; left; exact Hx). unfold t1. destruct (Nat.leb_spec (length t) mx); [rewrite grow_length; lia|lia]. }
    assert (Hn : forall i, nth i t1 None = nth i t None). { intros i. unfold t1. destruct (length t <=? mx); [apply grow_nth|reflexivity]. }
    destruct (group_loop g t1 (length pre) Hl) as [L1 L2].
    assert (Hiff : NoDup (concat (pre ++ [g])) <-> (NoDup g /\ forall x, In x g -> nth x t1 None = None)).
    { rewrite concat_app. cbn [concat]. rewrite app_nil_r, NoDup_app_iff. split.
      - intros (_ & H2 & H3). split; [exact H2|]. intros x Hx. rewrite Hn. destruct (nth x t None) as [k|] eqn:E; [|reflexivity]. exfalso. apply (H3 x); [|exact Hx]. apply in_group_in. exists k. apply Ht. exact E.
      - intros (H2 & H3). split; [exact Hpre|]. split; [exact H2|]. intros x Hx Hxg. apply in_group_in in Hx. destruct Hx as (k & Hk). apply Ht in Hk. specialize (H3 x Hxg). rewrite Hn in H3. congruence. }
    replace (pre ++ g :: gs) with ((pre ++ [g]) ++ gs) by (rewrite <- app_assoc; reflexivity).
    assert (Hdec : NoDup (concat (pre ++ [g])) \/ ~ NoDup (concat (pre ++ [g]))) by (destruct (ListDec.NoDup_dec Nat.eq_dec (concat (pre ++ [g]))); auto).
    destruct Hdec as [Hd|Hd].
    + destruct (L1 (proj1 Hiff Hd)) as (t2 & E2 & Hn2). rewrite E2. cbn [obind].
      assert (Ht2 : table_for (in_group (pre ++ [g])) t2).
      { intros id k. rewrite Hn2, in_group_snoc. apply Hiff in Hd. destruct Hd as [_ Hd]. destruct (in_dec Nat.eq_dec id g) as [Hi|Hi].
        - split; [intros [= <-]; right; auto|]. intros [H|(-> & _)]; [|reflexivity]. exfalso. apply Ht in H. specialize (Hd id Hi). rewrite Hn in Hd. congruence.
        - rewrite Hn, (Ht id k). tauto. }
      assert (El : length pre + 1 = length (pre ++ [g])) by (rewrite app_length; reflexivity). rewrite El.
      destruct (IH (pre ++ [g]) t2 Ht2 Hd) as [I1 I2]. split; [exact I1|exact I2].
    + assert (Hno : ~ NoDup (concat ((pre ++ [g]) ++ gs))). { rewrite concat_app, NoDup_app_iff. intros (X & _). contradiction. }
      split; [contradiction|]. intros _. rewrite L2; [reflexivity|]. intros X. apply Hd, Hiff, X.
Qed.

(* ------------------------------------------------------------------ the charge table *)
Lemma charge_app P a b : charge P (a ++ b) = (charge P a + charge P b)%Qc.
Proof. unfold charge. apply qsum_app. Qed.
Lemma charge_cons P d a : charge P (d :: a) = ((if P d then d_q d else 0) + charge P a)%Qc.
Proof. unfold charge. apply qsum_cons. Qed.
Lemma charge_ext P P' ds : (forall d, In d ds -> P d = P' d) -> charge P ds = charge P' ds.
Proof. intros H. unfold charge. apply qsum_ext. intros d Hd. rewrite (H d Hd). reflexivity. Qed.
Definition cls (tab : list (option nat)) (parts : nat) (id : Z) : nat := match nth (Z.to_nat id) tab None with Some i => i | None => parts - 1 end.
Definition good_tab (tab : list (option nat)) (parts : nat) : Prop := 0 < parts /\ forall id k, nth id tab None = Some k -> k < parts.
Lemma add_at_ok v i q : i < length v -> add_at v i q = Ok (upd v i (nth i v 0 + q)%Qc).
Proof. intros H. unfold add_at. rewrite (idx_ok v i 0%Qc H). cbn [obind]. apply set_idx_ok. exact H. Qed.
Lemma cls_lt tab parts id : good_tab tab parts -> cls tab parts id < parts.
Proof. intros [H0 H]. unfold cls. destruct (nth (Z.to_nat id) tab None) as [k|] eqn:E; [exact (H _ _ E)|lia]. Qed.
Lemma deposit_ok tab parts e s ide : good_tab tab parts -> length e = parts -> length s = parts -> (0 <= fst ide)%Z ->
  deposit tab parts (e, s) ide = Ok (upd e (cls tab parts (fst ide)) (nth (cls tab parts (fst ide)) e 0 + snd ide)%Qc, upd s (cls tab parts (fst ide)) (nth (cls tab parts (fst ide)) s 0 + snd ide)%Qc).
Proof.
  intros Hg He Hs Hid. pose proof (cls_lt tab parts (fst ide) Hg) as Hc. unfold deposit. cbn [fst snd].
  assert (E : (if (fst ide <? Z.of_nat (length tab))%Z then (if (fst ide <? 0)%Z then Undef else idx tab (Z.to_nat (fst ide))) else Ok None) = Ok (nth (Z.to_nat (fst ide)) tab None)).
  { destruct (Z.ltb_spec (fst ide) (Z.of_nat (length tab))) as [H|H].
    - destruct (Z.ltb_spec (fst ide) 0); [lia|]. apply idx_ok. lia.
    - rewrite nth_overflow by lia. reflexivity. }
  rewrite E. cbn [obind]. unfold cls in *. destruct (nth (Z.to_nat (fst ide)) tab None) as [i|].
  - destruct (Nat.leb_spec parts i); [lia|]. rewrite !add_at_ok by lia. reflexivity.
  - rewrite !add_at_ok by lia. rewrite He, Hs. reflexivity.
Qed.
Definition part_q (tab : list (option nat)) (parts k : nat) (ides : list (Z * Qc)) : Qc := qsum (fun ide => if Nat.eqb (cls tab parts (fst ide)) k then snd ide else 0%Qc) ides.
Lemma nth_upd_add v c q k : c < length v -> nth k (upd v c (nth c v 0 + q)%Qc) 0%Qc = (nth k v 0 + (if Nat.eqb c k then q else 0))%Qc.
Proof.
  intros H. rewrite nth_upd. destruct (Nat.ltb_spec c (length v)); [|lia]. rewrite andb_true_r, (Nat.eqb_sym k c). destruct (Nat.eqb_spec c k) as [->|]; [reflexivity|ring].
Qed.
Lemma deposits_ok tab parts : good_tab tab parts -> forall ides e s, length e = parts -> length s = parts -> Forall (fun ide => 0 <= fst ide)%Z ides ->
  exists e' s', foreach ides (deposit tab parts) (e, s) = Ok (e', s') /\ length e' = parts /\ length s' = parts /\
    (forall k, nth k e' 0%Qc = (nth k e 0 + part_q tab parts k ides)%Qc) /\ (forall k, nth k s' 0%Qc = (nth k s 0 + part_q tab parts k ides)%Qc).
Proof.
  intros Hg. induction ides as [|ide ides IH]; intros e s He Hs Hid; cbn [foreach].
  - exists e, s. split; [reflexivity|]. split; [exact He|]. split; [exact Hs|]. unfold part_q. cbn [qsum fold_right map]. split; intros k; unfold qsum; cbn; ring.
  - inversion Hid as [|? ? H0 Hid']; subst. rewrite deposit_ok by auto. cbn [obind]. pose proof (cls_lt tab (length e) (fst ide) Hg) as Hc.
    destruct (IH (upd e (cls tab (length e) (fst ide)) (nth (cls tab (length e) (fst ide)) e 0 + snd ide)%Qc) (upd s (cls tab (length e) (fst ide)) (nth (cls tab (length e) (fst ide)) s 0 + snd ide)%Qc)) as (e' & s' & E & L1 & L2 & N1 & N2); [apply upd_length|rewrite upd_length; exact Hs|exact Hid'|].
    exists e', s'. split; [exact E|]. split; [exact L1|]. split; [exact L2|].
    assert (Hp : forall k, part_q tab (length e) k (ide :: ides) = ((if Nat.eqb (cls tab (length e) (fst ide)) k then snd ide else 0) + part_q tab (length e) k ides)%Qc) by (intros k; unfold part_q; apply qsum_cons).
    split; intros k; [rewrite N1|rewrite N2]; rewrite Hp, nth_upd_add by lia; ring.
Qed.

Definition wfm (parts : nat) (m : list (nat * list Qc)) : Prop := StronglySorted lt (map fst m) /\ Forall (fun tv => length (snd tv) = parts) m.
Definition msum (m : list (nat * list Qc)) (P : nat -> bool) (k : nat) : Qc := qsum (fun tv => if P (fst tv) then nth k (snd tv) 0%Qc else 0%Qc) m.
Definition fetchd m t := match fetch m t with Some v => v | None => [] end.
Lemma fetch_none_lt m t : StronglySorted lt (map fst m) -> Forall (lt t) (map fst m) -> fetch m t = None.
Proof.
  induction m as [|[t' v] m IH]; intros Hs Hf; [reflexivity|]. cbn [fetch map fst] in *. inversion Hs; subst. inversion Hf; subst. destruct (Nat.eqb_spec t' t); [lia|]. apply IH; assumption.
Qed.
Lemma fetchd_length parts m t : wfm parts m -> fetchd m t = [] \/ length (fetchd m t) = parts.
Proof.
  intros [_ Hf]. unfold fetchd. induction m as [|[t' v] m IH]; [left; reflexivity|]. cbn [fetch]. inversion Hf as [|? ? Hv Hf']; subst. destruct (Nat.eqb t' t); [right; reflexivity|apply IH; exact Hf'].
Qed.
Lemma store_keys m t v : Forall (fun x => x = t \/ In x (map fst m)) (map fst (store m t v)).
Proof.
  induction m as [|[t' v'] m IH]; cbn [store]; [repeat constructor|]. destruct (t <? t'); [|destruct (Nat.eqb_spec t' t) as [->|]].
  - cbn [map fst]. constructor; [left; reflexivity|]. constructor; [right; left; reflexivity|]. apply Forall_forall. intros x Hx. right; right; exact Hx.
  - cbn [map fst]. constructor; [left; reflexivity|]. apply Forall_forall. intros x Hx. right; right; exact Hx.
  - cbn [map fst]. constructor; [right; left; reflexivity|]. eapply Forall_impl; [|exact IH]. intros x [->|Hx]; [left; reflexivity|right; right; exact Hx].
Qed.
Lemma store_ok parts m t v : wfm parts m -> length v = parts ->
  wfm parts (store m t v) /\ forall P k, msum (store m t v) P k = (msum m P k - (if P t then nth k (fetchd m t) 0 else 0) + (if P t then nth k v 0 else 0))%Qc.
Proof.
  intros [Hs Hf] Hv. induction m as [|[t' v'] m IH].
  - cbn [store]. split; [split; [repeat constructor|constructor; [exact Hv|constructor]]|]. intros P k. unfold msum, fetchd. cbn [fetch]. rewrite qsum_cons. unfold qsum. cbn [fold_right map fst snd]. rewrite nth_nil. destruct (P t); ring.
  - cbn [map fst] in Hs. inversion Hs as [|? ? Hs' Hall]; subst. inversion Hf as [|? ? Hv' Hf']; subst. cbn [snd] in Hv'. cbn [store]. destruct (Nat.ltb_spec t t') as [Hlt|Hge]; [|destruct (Nat.eqb_spec t' t) as [->|Hne]].
    + split.
      * split; [|constructor; [reflexivity|exact Hf]]. cbn [map fst]. constructor; [exact Hs|]. constructor; [exact Hlt|]. eapply Forall_impl; [|exact Hall]. intros x Hx. lia.
      * intros P k. unfold fetchd. rewrite fetch_none_lt; [|exact Hs|]. 2:{ cbn [map fst]. constructor; [exact Hlt|]. eapply Forall_impl; [|exact Hall]. intros x Hx. lia. }
        unfold msum. rewrite (qsum_cons _ (t, v)). cbn [fst snd]. rewrite nth_nil. destruct (P t); ring.
    + split.
      * split; [exact Hs|constructor; [reflexivity|exact Hf']].
      * intros P k. unfold fetchd. cbn [fetch]. rewrite Nat.eqb_refl. unfold msum. rewrite !qsum_cons. cbn [fst snd]. destruct (P t); ring.
    + destruct (IH Hs' Hf') as [[I1 I2] I3]. split.
      * split; [|constructor; [exact Hv'|exact I2]]. cbn [map fst]. constructor; [exact I1|]. pose proof (store_keys m t v) as Hk. rewrite Forall_forall in *. intros x Hx. destruct (Hk x Hx) as [->|Hi]; [lia|apply Hall, Hi].
      * intros P k. unfold fetchd in *. cbn [fetch]. destruct (Nat.eqb_spec t' t); [contradiction|]. unfold msum in *. rewrite !qsum_cons, I3. ring.
Qed.

Section Process.
Context (nplanes : nat) (plane_of : nat -> nat) (tab : list (option nat)) (parts : nat) (Hg : good_tab tab parts).
Definition rows (sums : list (list Qc)) : Prop := length sums = nplanes /\ Forall (fun r => length r = parts) sums.
Definition time_q (k : nat) (P : nat -> bool) (tis : list (nat * list (Z * Qc))) : Qc := qsum (fun ti => if P (fst ti) then part_q tab parts k (snd ti) else 0%Qc) tis.
Lemma rows_nth sums p : rows sums -> p < nplanes -> length (nth p sums []) = parts.
Proof. intros [H1 H2] H. rewrite Forall_forall in H2. apply H2, nth_In. lia. Qed.
Lemma rows_upd sums p r : rows sums -> length r = parts -> rows (upd sums p r).
Proof.
  intros [H1 H2] Hr. split; [rewrite upd_length; exact H1|]. rewrite Forall_forall in *. intros x Hx. apply In_nth_error in Hx. destruct Hx as (i & E). rewrite nth_error_upd in E.
  destruct (_ && _); [injection E as <-; exact Hr|apply H2; eapply nth_error_In; exact E].
Qed.
Lemma times_ok plane : plane < nplanes -> forall tis m sums, wfm parts m -> rows sums -> Forall (fun ti => Forall (fun ide => 0 <= fst ide)%Z (snd ti)) tis ->
  exists m' sums', foreach tis (process_time tab parts plane) (m, sums) = Ok (m', sums') /\ wfm parts m' /\ rows sums' /\
    (forall P k, msum m' P k = (msum m P k + time_q k P tis)%Qc) /\
    (forall p k, nth k (nth p sums' []) 0%Qc = (nth k (nth p sums []) 0 + (if Nat.eqb plane p then time_q k (fun _ => true) tis else 0))%Qc).
Proof using Hg.
  intros Hp. induction tis as [|[t ides] tis IH]; intros m sums Hm Hr Hid; cbn [foreach].
  - exists m, sums. split; [reflexivity|]. split; [exact Hm|]. split; [exact Hr|]. unfold time_q, qsum; cbn [map fold_right]. split; intros; [ring|]. destruct (Nat.eqb plane p); ring.
  - inversion Hid as [|? ? H0 Hid']; subst. cbn [snd] in H0. unfold process_time at 1. cbn [fst snd]. change (match fetch m t with Some v => v | None => [] end) with (fetchd m t).
    set (edep := match fetchd m t with [] => repeat 0%Qc parts | _ => fetchd m t end).
    assert (Hel : length edep = parts). { unfold edep. destruct (fetchd_length parts m t Hm) as [E|E]; [rewrite E; apply repeat_length|]. destruct (fetchd m t); [apply repeat_length|exact E]. }
    assert (Hen : forall k, nth k edep 0%Qc = nth k (fetchd m t) 0%Qc).
    { intros k. unfold edep. destruct (fetchd m t); [|reflexivity]. rewrite nth_nil. destruct (Nat.ltb_spec k parts); [apply nth_repeat|apply nth_overflow; rewrite repeat_length; exact H]. }
    rewrite (idx_ok sums plane []) by (destruct Hr; lia). cbn [obind].
    destruct (deposits_ok tab parts Hg ides edep (nth plane sums []) Hel (rows_nth sums plane Hr Hp) H0) as (e' & s' & E & L1 & L2 & N1 & N2). rewrite E. cbn [obind fst snd].
    rewrite set_idx_ok by (destruct Hr; lia). cbn [obind].
    destruct (store_ok parts m t e' Hm L1) as [W S].
    destruct (IH (store m t e') (upd sums plane s') W (rows_upd sums plane s' Hr L2) Hid') as (m' & sums' & E' & W' & R' & M' & S').
    exists m', sums'. split; [exact E'|]. split; [exact W'|]. split; [exact R'|].
    assert (Ht : forall k P, time_q k P ((t, ides) :: tis) = ((if P t then part_q tab parts k ides else 0) + time_q k P tis)%Qc) by (intros; unfold time_q; apply qsum_cons).
    split.
    + intros P k. rewrite M', S, Ht, N1, Hen. destruct (P t); ring.
    + intros p k. rewrite S', Ht. rewrite nth_upd. destruct Hr as [Hr _]. destruct (Nat.ltb_spec plane (length sums)); [|lia]. rewrite andb_true_r, (Nat.eqb_sym p plane).
      destruct (Nat.eqb_spec plane p) as [->|]; [rewrite N2|]; ring.
Qed.

Definition Inv (ds : list dep) (st : list (list (nat * list Qc)) * list (list Qc)) : Prop :=
  rows (snd st) /\ (forall ch, wfm parts (nth ch (fst st) [])) /\
  (forall ch P k, msum (nth ch (fst st) []) P k = charge (fun d => Nat.eqb (d_ch d) ch && P (d_t d) && Nat.eqb (cls tab parts (d_id d)) k) ds) /\
  (forall p k, nth k (nth p (snd st) []) 0%Qc = if p <? nplanes then charge (fun d => Nat.eqb (plane_of (d_ch d)) p && Nat.eqb (cls tab parts (d_id d)) k) ds else 0%Qc).
Lemma charge_map P ch t ides : charge P (map (fun ide => mkDep ch t (fst ide) (snd ide)) ides) = qsum (fun ide : Z * Qc => if P (mkDep ch t (fst ide) (snd ide)) then snd ide else 0%Qc) ides.
Proof. unfold charge. induction ides as [|i l IH]; [reflexivity|]. cbn [map]. rewrite !qsum_cons, IH. reflexivity. Qed.
Lemma charge_times ch k P tis (Q : dep -> bool) : (forall t id q, Q (mkDep ch t id q) = P t && Nat.eqb (cls tab parts id) k) ->
  charge Q (flat_map (fun ti => map (fun ide => mkDep ch (fst ti) (fst ide) (snd ide)) (snd ti)) tis) = time_q k P tis.
Proof.
  intros HQ. unfold time_q. induction tis as [|[t ides] tis IH]; [reflexivity|]. cbn [flat_map]. rewrite charge_app, IH, qsum_cons, charge_map. cbn [fst snd]. f_equal.
  destruct (P t) eqn:E; [apply qsum_ext; intros [id q] _; rewrite HQ, E; reflexivity|]. apply qsum_zero'. intros [id q] _. rewrite HQ, E. reflexivity.
Qed.
Lemma time_q_false k tis : time_q k (fun _ => false) tis = 0%Qc.
Proof. unfold time_q. apply qsum_zero'. reflexivity. Qed.
Lemma deps_cons s chs : deps (s :: chs) = deps [s] ++ deps chs.
Proof. unfold deps. cbn [flat_map]. rewrite app_nil_r. reflexivity. Qed.
Lemma channels_ok : forall chs ds st, Inv ds st -> Forall (fun d => 0 <= d_id d)%Z (deps chs) -> Forall (fun s => plane_of (sc_ch s) < nplanes) chs ->
  exists st', foreach chs (process_channel plane_of tab parts) st = Ok st' /\ Inv (ds ++ deps chs) st'.
Proof using Hg.
  induction chs as [|s chs IH]; intros ds [ev sums] (I1 & I2 & I3 & I4) Hid Hpl; cbn [foreach].
  - exists (ev, sums). split; [reflexivity|]. cbn [deps flat_map]. rewrite app_nil_r. split; [exact I1|]. split; [exact I2|]. split; assumption.
  - inversion Hpl as [|? ? Hp Hpl']; subst. rewrite deps_cons in Hid. apply Forall_app in Hid. destruct Hid as [Hid0 Hid']. unfold process_channel at 1. cbn [fst snd].
    set (ev1 := if length ev <=? sc_ch s then grow [] (sc_ch s + 1) ev else ev).
    assert (Hl : sc_ch s < length ev1). { unfold ev1. destruct (Nat.leb_spec (length ev) (sc_ch s)); [rewrite grow_length; lia|assumption]. }
    assert (Hn : forall c, nth c ev1 [] = nth c ev []). { intros c. unfold ev1. destruct (length ev <=? sc_ch s); [apply grow_nth|reflexivity]. }
    rewrite (idx_ok ev1 (sc_ch s) []) by exact Hl. cbn [obind]. rewrite Hn.
    destruct (times_ok (plane_of (sc_ch s)) Hp (sc_map s) (nth (sc_ch s) ev []) sums) as (m' & sums' & E & W & R & M & S); [apply I2|exact I1| |].
    { apply Forall_forall. intros ti Hti. apply Forall_forall. intros ide Hide. rewrite Forall_forall in Hid0. apply (Hid0 (mkDep (sc_ch s) (fst ti) (fst ide) (snd ide))).
      unfold deps. apply in_flat_map. exists s. split; [left; reflexivity|]. apply in_flat_map. exists ti. split; [exact Hti|]. apply in_map_iff. exists ide. auto. }
    rewrite E. cbn [obind fst snd]. rewrite set_idx_ok by exact Hl. cbn [obind].
    destruct (IH (ds ++ deps [s]) (upd ev1 (sc_ch s) m', sums')) as (st' & E' & HI); [|exact Hid'|exact Hpl'|].
    + cbn [fst snd] in I2, I3, I4. assert (Hu : forall c, nth c (upd ev1 (sc_ch s) m') [] = if Nat.eqb (sc_ch s) c then m' else nth c ev []).
      { intros c. rewrite nth_upd, Hn. destruct (Nat.ltb_spec (sc_ch s) (length ev1)); [|lia]. rewrite andb_true_r, Nat.eqb_sym. reflexivity. }
      assert (Hds : deps [s] = flat_map (fun ti => map (fun ide => mkDep (sc_ch s) (fst ti) (fst ide) (snd ide)) (snd ti)) (sc_map s)) by (unfold deps; cbn [flat_map]; apply app_nil_r).
      split; [exact R|]. cbn [fst snd]. split; [|split].
      * intros c. rewrite Hu. destruct (Nat.eqb (sc_ch s) c); [exact W|apply I2].
      * intros c P k. rewrite Hu, charge_app. destruct (Nat.eqb_spec (sc_ch s) c) as [<-|Hne].
        -- rewrite M, I3. f_equal. rewrite Hds. symmetry. apply charge_times. intros t id q. cbn [d_ch d_t d_id]. rewrite Nat.eqb_refl. reflexivity.
        -- rewrite I3. rewrite Hds. rewrite (charge_times (sc_ch s) k (fun _ => false)).
           ++ rewrite time_q_false. ring.
           ++ intros t id q. cbn [d_ch d_t d_id]. destruct (Nat.eqb_spec (sc_ch s) c); [contradiction|reflexivity].
      * intros p k. rewrite S, I4, charge_app, Hds. destruct (Nat.eqb_spec (plane_of (sc_ch s)) p) as [<-|Hne].
        -- destruct (Nat.ltb_spec (plane_of (sc_ch s)) nplanes); [|lia]. f_equal. symmetry. apply charge_times. intros t id q. cbn [d_ch d_t d_id]. rewrite Nat.eqb_refl. reflexivity.
        -- destruct (p <? nplanes); [|ring]. f_equal. rewrite (charge_times (sc_ch s) k (fun _ => false)).
           ++ rewrite time_q_false. ring.
           ++ intros t id q. cbn [d_ch d_t d_id]. destruct (Nat.eqb_spec (plane_of (sc_ch s)) p); [contradiction|reflexivity].
    + exists st'. split; [exact E'|]. rewrite deps_cons, app_assoc. exact HI.
Qed.
Lemma process_ok chs : Forall (fun d => 0 <= d_id d)%Z (deps chs) -> Forall (fun s => plane_of (sc_ch s) < nplanes) chs ->
  exists ev sums, process nplanes plane_of tab parts chs = Ok (mkBT ev tab sums parts) /\ Inv (deps chs) (ev, sums).
Proof using Hg.
  intros H1 H2. unfold process. destruct (channels_ok chs [] ([], repeat (repeat 0%Qc parts) nplanes)) as ([ev sums] & E & HI); [|exact H1|exact H2|].
  - assert (Hz : forall p k, nth k (nth p (repeat (repeat 0%Qc parts) nplanes) []) 0%Qc = 0%Qc).
    { intros p k. destruct (Nat.ltb_spec p nplanes); [|rewrite (nth_overflow _ _ (n := p)) by (rewrite repeat_length; assumption); apply nth_nil].
      rewrite (nth_indep _ [] (repeat 0%Qc parts)) by (rewrite repeat_length; exact H). rewrite nth_repeat. destruct (Nat.ltb_spec k parts); [apply nth_repeat|apply nth_overflow; rewrite repeat_length; assumption]. }
    split; [split; [apply repeat_length|apply Forall_forall; intros x Hx; apply repeat_spec in Hx; subst; apply repeat_length]|]. cbn [fst snd]. split; [|split].
    + intros c. rewrite nth_nil. split; constructor.
    + intros c P k. rewrite nth_nil. reflexivity.
    + intros p k. rewrite Hz. destruct (p <? nplanes); reflexivity.
  - rewrite E. cbn [obind fst snd]. exists ev, sums. split; [reflexivity|exact HI].
Qed.
End Process.

(* ------------------------------------------------------------------ range queries *)
Lemma vadd_ok n res v : length res = n -> length v = n -> exists r, vadd n res v = Ok r /\ length r = n /\ forall k, nth k r 0%Qc = (nth k res 0 + nth k v 0)%Qc.
Proof.
  intros Hr Hv. unfold vadd.
  destruct (for_range_inv (fun i r => length r = n /\ forall k, nth k r 0%Qc = (nth k res 0 + (if k <? i then nth k v 0 else 0))%Qc) (fun res i => do x <- idx v i; add_at res i x) 0 n res) as (r & E & L & N).
  - lia.
  - split; [exact Hr|]. intros k. destruct (Nat.ltb_spec k 0); [lia|ring].
  - intros i s Hi [L N]. rewrite (idx_ok v i 0%Qc) by lia. cbn [obind]. rewrite add_at_ok by lia. eexists. split; [reflexivity|]. split; [rewrite upd_length; exact L|].
    intros k. rewrite nth_upd_add by lia. rewrite N. destruct (Nat.eqb_spec i k) as [->|]; [destruct (Nat.ltb_spec k k), (Nat.ltb_spec k (S k))|destruct (Nat.ltb_spec k i), (Nat.ltb_spec k (S i))]; try lia; ring.
  - exists r. split; [exact E|]. split; [exact L|]. intros k. rewrite N. destruct (Nat.ltb_spec k n); [reflexivity|]. rewrite (nth_overflow v) by lia. reflexivity.
Qed.
Lemma leading_up h m : StronglySorted lt (map fst m) -> firstn (leading (fun t => t <=? h) m) m = filter (fun tv => fst tv <=? h) m.
Proof.
  induction m as [|[t v] m IH]; intros Hs; [reflexivity|]. cbn [map fst] in Hs. inversion Hs as [|? ? Hs' Hall]; subst. cbn [leading filter fst]. destruct (Nat.leb_spec t h); [cbn [firstn]; rewrite IH by exact Hs'; reflexivity|].
  cbn [firstn]. assert (E : forall tv, In tv m -> (fst tv <=? h) = false). { intros tv Hi. rewrite Forall_forall in Hall. specialize (Hall (fst tv) (in_map fst _ _ Hi)). apply Nat.leb_gt. lia. }
  clear IH Hs Hs' Hall. induction m as [|a m IH]; [reflexivity|]. cbn [filter]. rewrite E by (left; reflexivity). apply IH. intros tv Hi. apply E. right; exact Hi.
Qed.
Lemma leading_low l m : StronglySorted lt (map fst m) -> skipn (leading (fun t => t <? l) m) m = filter (fun tv => l <=? fst tv) m.
Proof.
  induction m as [|[t v] m IH]; intros Hs; [reflexivity|]. cbn [map fst] in Hs. inversion Hs as [|? ? Hs' Hall]; subst. cbn [leading filter fst]. destruct (Nat.ltb_spec t l), (Nat.leb_spec l t); try lia.
  - cbn [skipn]. apply IH, Hs'.
  - cbn [skipn]. f_equal. assert (E : forall tv, In tv m -> (l <=? fst tv) = true). { intros tv Hi. rewrite Forall_forall in Hall. specialize (Hall (fst tv) (in_map fst _ _ Hi)). apply Nat.leb_le. lia. }
    clear IH Hs Hs' Hall. induction m as [|a m IH]; [reflexivity|]. cbn [filter]. rewrite E by (left; reflexivity). f_equal. apply IH. intros tv Hi. apply E. right; exact Hi.
Qed.
Lemma entries_eq m lo h : StronglySorted lt (map fst m) -> lo <= h + 1 ->
  leading (fun t => t <? lo) m <= leading (fun t => t <=? h) m /\
  firstn (leading (fun t => t <=? h) m - leading (fun t => t <? lo) m) (skipn (leading (fun t => t <? lo) m) m) = filter (fun tv => (lo <=? fst tv) && (fst tv <=? h)) m.
Proof.
  intros Hs Hle. induction m as [|[t v] m IH]; [split; [apply le_n|reflexivity]|]. pose proof Hs as Hs0. cbn [map fst] in Hs. inversion Hs as [|? ? Hs' Hall]; subst. cbn [leading]. destruct (Nat.ltb_spec t lo) as [H|H].
  - destruct (Nat.leb_spec t h); [|lia]. destruct (IH Hs') as [I1 I2]. split; [lia|]. cbn [Nat.sub skipn filter fst]. destruct (Nat.leb_spec lo t); [lia|]. cbn [andb]. exact I2.
  - split; [lia|]. rewrite Nat.sub_0_r. cbn [skipn]. pose proof (leading_up h ((t, v) :: m) Hs0) as E. cbn [leading] in E. rewrite E. apply filter_ext_in. intros tv Hi.
    assert (lo <= fst tv). { destruct Hi as [<-|Hi]; [exact H|]. rewrite Forall_forall in Hall. specialize (Hall (fst tv) (in_map fst _ _ Hi)). lia. }
    destruct (Nat.leb_spec lo (fst tv)); [reflexivity|lia].
Qed.
Lemma msum_filter m P k : msum m P k = qsum (fun tv => nth k (snd tv) 0%Qc) (filter (fun tv => P (fst tv)) m).
Proof. unfold msum. induction m as [|tv m IH]; [reflexivity|]. cbn [filter]. rewrite qsum_cons, IH. destruct (P (fst tv)); [rewrite qsum_cons; reflexivity|ring]. Qed.
Lemma vadds_ok n : forall es res, length res = n -> Forall (fun tv => length (snd tv) = n) es ->
  exists r, foreach es (fun res (e : nat * list Qc) => vadd n res (snd e)) res = Ok r /\ length r = n /\ forall k, nth k r 0%Qc = (nth k res 0 + qsum (fun tv => nth k (snd tv) 0%Qc) es)%Qc.
Proof.
  induction es as [|e es IH]; intros res Hr Hf; cbn [foreach].
  - exists res. split; [reflexivity|]. split; [exact Hr|]. intros k. unfold qsum; cbn. ring.
  - inversion Hf; subst. destruct (vadd_ok (length res) res (snd e)) as (r1 & E1 & L1 & N1); [reflexivity|assumption|]. rewrite E1. cbn [obind]. destruct (IH r1 L1) as (r & E & L & N); [assumption|].
    exists r. split; [exact E|]. split; [exact L|]. intros k. rewrite N, N1, qsum_cons. ring.
Qed.
Definition mcq_spec (b : bt) (P : nat -> bool) (ch k : nat) : Qc := msum (nth ch (b_event b) []) P k.
Lemma mcq_ok b ch lo hi : (forall c, wfm (b_parts b) (nth c (b_event b) [])) ->
  exists r, mcq b ch lo hi = Ok r /\ length r = b_parts b /\
    forall k, nth k r 0%Qc = msum (nth ch (b_event b) []) (if lo <=? hi + 2 then fun t => (lo <=? t) && (t <=? hi + 1) else if leading (fun t => t <? lo) (nth ch (b_event b) []) <=? leading (fun t => t <=? hi + 1) (nth ch (b_event b) []) then fun _ => false else fun t => lo <=? t) k.
Proof.
  intros Hw. unfold mcq. assert (Hz : forall k, nth k (repeat 0%Qc (b_parts b)) 0%Qc = 0%Qc).
  { intros k. destruct (Nat.ltb_spec k (b_parts b)); [apply nth_repeat|apply nth_overflow; rewrite repeat_length; assumption]. }
  destruct (Nat.leb_spec (length (b_event b)) ch) as [H|H].
  - eexists. split; [reflexivity|]. split; [apply repeat_length|]. intros k. rewrite Hz, (nth_overflow (b_event b)) by exact H. reflexivity.
  - rewrite (idx_ok (b_event b) ch [] H). cbn [obind]. set (m := nth ch (b_event b) []). destruct (Hw ch) as [Hs Hf]. fold m in Hs, Hf.
    assert (Hsub : forall P, Forall (fun tv => length (snd tv) = b_parts b) (filter P m)). { intros P. apply Forall_forall. intros x Hx. apply filter_In in Hx. rewrite Forall_forall in Hf. apply Hf, Hx. }
    destruct (Nat.leb_spec lo (hi + 2)) as [Hle|Hgt].
    + destruct (entries_eq m lo (hi + 1) Hs) as [E1 E2]; [lia|]. destruct (Nat.leb_spec (leading (fun t => t <? lo) m) (leading (fun t => t <=? hi + 1) m)); [|lia]. rewrite E2.
      destruct (vadds_ok (b_parts b) (filter (fun tv => (lo <=? fst tv) && (fst tv <=? hi + 1)) m) (repeat 0%Qc (b_parts b)) (repeat_length _ _) (Hsub _)) as (r & E & L & N).
      exists r. split; [exact E|]. split; [exact L|]. intros k. rewrite N, Hz, msum_filter. ring.
    + destruct (Nat.leb_spec (leading (fun t => t <? lo) m) (leading (fun t => t <=? hi + 1) m)) as [H2|H2].
      * assert (Hll : leading (fun t => t <=? hi + 1) m <= leading (fun t => t <? lo) m).
        { clear -Hgt. induction m as [|[t v] m IH]; [apply le_n|]. cbn [leading]. destruct (Nat.leb_spec t (hi + 1)), (Nat.ltb_spec t lo); lia. }
        replace (leading (fun t => t <=? hi + 1) m - leading (fun t => t <? lo) m) with 0 by lia. cbn [firstn foreach]. eexists. split; [reflexivity|]. split; [apply repeat_length|].
        intros k. rewrite Hz. symmetry. unfold msum. apply qsum_zero'. reflexivity.
      * rewrite leading_low by exact Hs. destruct (vadds_ok (b_parts b) (filter (fun tv => lo <=? fst tv) m) (repeat 0%Qc (b_parts b)) (repeat_length _ _) (Hsub _)) as (r & E & L & N).
        exists r. split; [exact E|]. split; [exact L|]. intros k. rewrite N, Hz, msum_filter. ring.
Qed.

(* ------------------------------------------------------------------ the built table *)
Section Built.
Context (nplanes : nat) (plane_of : nat -> nat).
Lemma index_ok ev tab sums parts id : index (mkBT ev tab sums parts) id = Ok (nth id tab None).
Proof. unfold index. cbn [b_index]. destruct (Nat.leb_spec (length tab) id); [rewrite nth_overflow by assumption; reflexivity|apply idx_ok; assumption]. Qed.
Lemma belongs_cls ev tab sums parts k d : belongs (mkBT ev tab sums parts) k d = Nat.eqb (cls tab parts (d_id d)) k.
Proof. unfold belongs, cls. rewrite index_ok. destruct (nth _ tab None); [reflexivity|]. unfold num_parts. cbn [b_parts]. apply Nat.eqb_sym. Qed.
Lemma table_nil (R : nat -> nat -> Prop) : (forall id k, ~ R id k) -> table_for R [].
Proof. intros H id k. rewrite nth_nil. split; [discriminate|]. intros X. destruct (H _ _ X). Qed.
Lemma register_spec ids : exists t, foreach ids register ([], 0) = Ok (t, length (nodup Nat.eq_dec ids)) /\ table_for (position ids) t.
Proof. apply (register_all ids [] []). apply table_nil. intros id k (p & q & E & _). destruct p; discriminate. Qed.
Lemma groups_spec gs :
  (NoDup (concat gs) -> exists t, foreach gs register_group ([], 0) = Ok (t, length gs) /\ table_for (in_group gs) t) /\
  (~ NoDup (concat gs) -> foreach gs register_group ([], 0) = Throw UserExn).
Proof. apply (register_groups_all gs [] []); [|constructor]. apply table_nil. intros id k (g & E & _). destruct k; discriminate. Qed.
Lemma good_position ids t : table_for (position ids) t -> good_tab t (length (nodup Nat.eq_dec ids) + 1).
Proof. intros H. split; [lia|]. intros id k E. apply H, position_lt in E. lia. Qed.
Lemma good_group gs t : table_for (in_group gs) t -> good_tab t (length gs + 1).
Proof. intros H. split; [lia|]. intros id k E. apply H in E. destruct E as (g & E & _). assert (k < length gs) by (apply nth_error_Some; congruence). lia. Qed.
Lemma reset_spec old ids chs : proper nplanes plane_of chs ->
  exists ev t sums, reset nplanes plane_of old ids chs = Ok (mkBT ev t sums (length (nodup Nat.eq_dec ids) + 1)) /\ table_for (position ids) t /\
    Inv nplanes plane_of t (length (nodup Nat.eq_dec ids) + 1) (deps chs) (ev, sums).
Proof.
  intros [H1 H2]. destruct (register_spec ids) as (t & E & Ht). unfold reset. rewrite E. cbn [obind fst snd].
  destruct (process_ok nplanes plane_of t _ (good_position ids t Ht) chs H1 H2) as (ev & sums & E2 & HI). exists ev, t, sums. split; [exact E2|]. split; [exact Ht|exact HI].
Qed.
Lemma reset_groups_spec old gs chs : proper nplanes plane_of chs ->
  (NoDup (concat gs) -> exists ev t sums, reset_groups nplanes plane_of old gs chs = Ok (mkBT ev t sums (length gs + 1)) /\ table_for (in_group gs) t /\
    Inv nplanes plane_of t (length gs + 1) (deps chs) (ev, sums)) /\
  (~ NoDup (concat gs) -> reset_groups nplanes plane_of old gs chs = Throw UserExn).
Proof.
  intros [H1 H2]. destruct (groups_spec gs) as [G1 G2]. unfold reset_groups. split; intros Hn.
  - destruct (G1 Hn) as (t & E & Ht). rewrite E. cbn [obind fst snd].
    destruct (process_ok nplanes plane_of t _ (good_group gs t Ht) chs H1 H2) as (ev & sums & E2 & HI). exists ev, t, sums. split; [exact E2|]. split; [exact Ht|exact HI].
  - rewrite (G2 Hn). reflexivity.
Qed.
Lemma built_inv b chs : proper nplanes plane_of chs -> built nplanes plane_of b chs ->
  good_tab (b_index b) (b_parts b) /\ Inv nplanes plane_of (b_index b) (b_parts b) (deps chs) (b_event b, b_sum b).
Proof.
  intros Hp [(old & ids & E)|(old & gs & E)].
  - destruct (reset_spec old ids chs Hp) as (ev & t & sums & E' & Ht & HI). rewrite E in E'. inversion E'; subst. cbn [b_index b_parts b_event b_sum]. split; [apply good_position, Ht|exact HI].
  - destruct (reset_groups_spec old gs chs Hp) as [G1 G2]. destruct (ListDec.NoDup_dec Nat.eq_dec (concat gs)) as [Hn|Hn]; [|rewrite (G2 Hn) in E; discriminate].
    destruct (G1 Hn) as (ev & t & sums & E' & Ht & HI). rewrite E in E'. inversion E'; subst. cbn [b_index b_parts b_event b_sum]. split; [apply good_group, Ht|exact HI].
Qed.
Lemma belongs_cls' b k d : belongs b k d = Nat.eqb (cls (b_index b) (b_parts b) (d_id d)) k.
Proof. destruct b as [ev t s n]. apply belongs_cls. Qed.
Lemma built_parts b chs : proper nplanes plane_of chs -> built nplanes plane_of b chs -> num_parts b + 1 = b_parts b.
Proof. intros Hp Hb. destruct (built_inv b chs Hp Hb) as [[H _] _]. unfold num_parts. lia. Qed.
Lemma built_sum b chs p : proper nplanes plane_of chs -> built nplanes plane_of b chs -> p < nplanes ->
  exists r, mcq_sum b p = Ok r /\ length r = b_parts b /\ forall k, nth k r 0%Qc = charge (fun d => Nat.eqb (plane_of (d_ch d)) p && belongs b k d) (deps chs).
Proof.
  intros Hp Hb Hpl. destruct (built_inv b chs Hp Hb) as [_ (R & _ & _ & S)]. cbn [fst snd] in R, S. unfold mcq_sum. pose proof R as [Rl _]. destruct (Nat.ltb_spec (length (b_sum b)) p); [lia|].
  rewrite (idx_ok _ p []) by lia. eexists. split; [reflexivity|]. split; [eapply rows_nth; eauto|]. intros k. rewrite S. destruct (Nat.ltb_spec p nplanes); [|lia]. apply charge_ext. intros d _. rewrite belongs_cls'. reflexivity.
Qed.
Lemma built_mcq b chs ch lo hi : proper nplanes plane_of chs -> built nplanes plane_of b chs -> lo <= hi + 2 ->
  exists r, mcq b ch lo hi = Ok r /\ length r = b_parts b /\ forall k, nth k r 0%Qc = charge (fun d => within ch lo hi d && belongs b k d) (deps chs).
Proof.
  intros Hp Hb Hle. destruct (built_inv b chs Hp Hb) as [_ (_ & W & M & _)]. cbn [fst snd] in W, M. destruct (mcq_ok b ch lo hi W) as (r & E & L & N). exists r. split; [exact E|]. split; [exact L|].
  intros k. rewrite N. destruct (Nat.leb_spec lo (hi + 2)); [|lia]. rewrite M. apply charge_ext. intros d _. rewrite belongs_cls'. unfold within. rewrite <- !andb_assoc. reflexivity.
Qed.
Lemma built_hits b chs hits : proper nplanes plane_of chs -> built nplanes plane_of b chs -> Forall (fun h => snd (fst h) <= snd h + 2) hits ->
  exists r, mcq_hits b hits = Ok r /\ length r = b_parts b /\ forall k, nth k r 0%Qc = qsum (fun h => charge (fun d => within (fst (fst h)) (snd (fst h)) (snd h) d && belongs b k d) (deps chs)) hits.
Proof.
  intros Hp Hb Hf. unfold mcq_hits.
  assert (G : forall hs res, length res = b_parts b -> Forall (fun h => snd (fst h) <= snd h + 2) hs ->
    exists r, foreach hs (fun res h => do tmp <- mcq b (fst (fst h)) (snd (fst h)) (snd h); vadd (length res) res tmp) res = Ok r /\ length r = b_parts b /\
      forall k, nth k r 0%Qc = (nth k res 0 + qsum (fun h => charge (fun d => within (fst (fst h)) (snd (fst h)) (snd h) d && belongs b k d) (deps chs)) hs)%Qc).
  { induction hs as [|h hs IH]; intros res Hl Hf'; cbn [foreach].
    - exists res. split; [reflexivity|]. split; [exact Hl|]. intros k. unfold qsum; cbn. ring.
    - inversion Hf' as [|? ? H0 Hf2]; subst. destruct (built_mcq b chs (fst (fst h)) (snd (fst h)) (snd h) Hp Hb H0) as (r1 & E1 & L1 & N1). rewrite E1. cbn [obind].
      destruct (vadd_ok (length res) res r1) as (r2 & E2 & L2 & N2); [reflexivity|congruence|]. rewrite E2. cbn [obind]. destruct (IH r2) as (r & E & L & N); [congruence|exact Hf2|].
      exists r. split; [exact E|]. split; [exact L|]. intros k. rewrite N, N2, N1, qsum_cons. ring. }
  destruct (G hits (repeat 0%Qc (b_parts b))) as (r & E & L & N); [apply repeat_length|exact Hf|]. exists r. split; [exact E|]. split; [exact L|]. intros k. rewrite N.
  replace (nth k (repeat 0%Qc (b_parts b)) 0%Qc) with 0%Qc; [ring|]. destruct (Nat.ltb_spec k (b_parts b)); [symmetry; apply nth_repeat|symmetry; apply nth_overflow; rewrite repeat_length; assumption].
Qed.
Lemma qsum_nth (r : list Qc) : qsum (fun x => x) r = qsum (fun k => nth k r 0%Qc) (seq 0 (length r)).
Proof.
  induction r as [|x r IH]; [reflexivity|]. cbn [length seq]. rewrite !qsum_cons, IH. cbn [nth]. f_equal. rewrite <- seq_shift, qsum_map. reflexivity.
Qed.
Lemma charge_split b chs Q : proper nplanes plane_of chs -> built nplanes plane_of b chs ->
  qsum (fun k => charge (fun d => Q d && belongs b k d) (deps chs)) (seq 0 (b_parts b)) = charge Q (deps chs).
Proof.
  intros Hp Hb. destruct (built_inv b chs Hp Hb) as [Hg _]. unfold charge. rewrite qsum_swap. apply qsum_ext. intros d _.
  rewrite (qsum_single _ (cls (b_index b) (b_parts b) (d_id d))).
  - rewrite belongs_cls', Nat.eqb_refl, andb_true_r. reflexivity.
  - apply seq_NoDup.
  - apply in_seq. pose proof (cls_lt _ _ (d_id d) Hg). lia.
  - intros x _ Hx. rewrite belongs_cls'. destruct (Nat.eqb_spec (cls (b_index b) (b_parts b) (d_id d)) x); [congruence|]. rewrite andb_false_r. reflexivity.
Qed.
Lemma fold_left_qsum (l : list Qc) a : fold_left (fun a x => a + x)%Qc l a = (a + qsum (fun x => x) l)%Qc.
Proof. revert a; induction l as [|x l IH]; intros a; cbn [fold_left]; [unfold qsum; cbn; ring|]. rewrite IH, qsum_cons. ring. Qed.
End Built.
