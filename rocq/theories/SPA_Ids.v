(** making the points: identifiers, the map of hits, the multimap *)
From Coq Require Import QArith Qcanon.
From Verif Require Import Base SortUtil Solver_Model Solver_Proofs SPS_Model SPA_Model SPA_Spec SPA_Runs SPA_Loop.
Import SPA_Model.
Local Open Scope nat_scope.

Definition last_id (hs : list hit) : nat := hid (last hs hit0).
Definition entry (g : geo) (e : Z * list hit) : nat * sp := (last_id (snd e), simple_point g (snd e) (fst e)).

Lemma insk_perm k p l : Permutation (insk k p l) ((k, p) :: l).
Proof. induction l as [|e l IH]; cbn [insk]; [reflexivity|]. destruct (k <? fst e); [reflexivity|]. rewrite IH. apply perm_swap. Qed.
Lemma inss_in k x l : In x (inss k l) <-> x = k \/ In x l.
Proof.
  induction l as [|e l IH]; cbn [inss]; [cbn; intuition|]. destruct (k <? e); [cbn; intuition|].
  destruct (Nat.eqb_spec k e) as [->|D]; [cbn; intuition|]. cbn [In]. rewrite IH. intuition.
Qed.
Lemma inss_sorted k l : StronglySorted lt l -> StronglySorted lt (inss k l).
Proof.
  induction l as [|e l IH]; intros S; cbn [inss]; [repeat constructor|]. inversion S as [|? ? S1 F1]; subst.
  destruct (Nat.ltb_spec k e) as [L|L]; [constructor; [exact S|]; constructor; [exact L|]; eapply Forall_impl; [|exact F1]; intros; lia|].
  destruct (Nat.eqb_spec k e) as [->|D]; [exact S|]. constructor; [apply IH; exact S1|]. rewrite Forall_forall in *. intros x X. apply inss_in in X as [->|X]; [lia|apply F1; exact X].
Qed.
Lemma sorted_nodup l : StronglySorted lt l -> NoDup l.
Proof. induction 1 as [|x l S IH F]; constructor; [|exact IH]. intros X. rewrite Forall_forall in F. specialize (F x X). lia. Qed.

(** what holds while points are made and not merged: [D] the hits of the points in order of creation *)
Record inv (g : geo) (D : list (list hit)) (s : st) : Prop := {
  i_hits : map snd (s_map s) = rev D;
  i_mm : Permutation (s_mm s) (map (entry g) (s_map s));
  i_single : NoDup (map fst (s_map s));
  i_keys : StronglySorted lt (s_keys s);
  i_keys_in : forall k, In k (s_keys s) <-> In k (map last_id D) }.
(** identifiers: all below size - 1, or up to size - 1 included *)
Definition ids (high : bool) (s : st) : Prop :=
  let n := Z.of_nat (length (s_mm s)) in
  if high then (forall i, In i (map fst (s_map s)) -> (i < n)%Z) /\ In (n - 1)%Z (map fst (s_map s))
  else forall i, In i (map fst (s_map s)) -> (i < n - 1)%Z.

Lemma inv_len g D s : inv g D s -> length (s_mm s) = length D.
Proof. intros I. rewrite (Permutation_length (i_mm g D s I)), map_length, <- (map_length snd), (i_hits g D s I), rev_length. reflexivity. Qed.

Lemma addk_ok g k s hs : 2 <= length hs -> ~ In (Z.of_nat (length (s_mm s)) + k)%Z (map fst (s_map s)) ->
  let id := (Z.of_nat (length (s_mm s)) + k)%Z in
  addk g k s hs = Ok (St ((id, hs) :: s_map s) (insk (last_id hs) (simple_point g hs id) (s_mm s)) (inss (last_id hs) (s_keys s)) (s_out s)).
Proof. intros L N. cbv zeta. unfold addk, add_point. rewrite fill_ok by assumption. cbn [obind fst snd app length]. unfold idx. cbn [Nat.sub nth_error obind]. reflexivity. Qed.
Lemma addk_throw g k s hs : In (Z.of_nat (length (s_mm s)) + k)%Z (map fst (s_map s)) -> addk g k s hs = Throw UserExn.
Proof.
  intros I. unfold addk, add_point, fill. destruct (mfind _ _) eqn:E; [reflexivity|]. apply mfind_none in E. contradiction.
Qed.
Lemma addk_inv g k s hs D s' : inv g D s -> 2 <= length hs -> ~ In (Z.of_nat (length (s_mm s)) + k)%Z (map fst (s_map s)) -> addk g k s hs = Ok s' ->
  inv g (D ++ [hs]) s' /\ s_out s' = s_out s /\ length (s_mm s') = S (length (s_mm s)) /\ map fst (s_map s') = (Z.of_nat (length (s_mm s)) + k)%Z :: map fst (s_map s).
Proof.
  intros I L N E. rewrite addk_ok in E by assumption. injection E as <-. cbn [s_map s_mm s_keys s_out]. destruct I as [A B C K1 K2]. split; [|split; [reflexivity|split; [|reflexivity]]].
  - constructor; cbn [s_map s_mm s_keys].
    + cbn [map snd]. rewrite A, rev_app_distr. reflexivity.
    + rewrite insk_perm. cbn [map entry fst snd]. constructor. exact B.
    + cbn [map fst]. constructor; assumption.
    + apply inss_sorted. exact K1.
    + intros x. rewrite inss_in, K2, map_app, in_app_iff. cbn. intuition.
  - rewrite (Permutation_length (insk_perm _ _ _)). reflexivity.
Qed.

Lemma ids_weak b s : ids b s -> forall i, In i (map fst (s_map s)) -> (i < Z.of_nat (length (s_mm s)))%Z.
Proof. unfold ids. destruct b; [tauto|]. intros H i I. specialize (H i I). lia. Qed.

Lemma adds2 g : forall C D s b, inv g D s -> ids b s -> (forall hs, In hs C -> 2 <= length hs) ->
  exists s', foreach C (addk g 0) s = Ok s' /\ inv g (D ++ C) s' /\ s_out s' = s_out s /\ ids (b || negb (length C =? 0)) s'.
Proof.
  induction C as [|hs C IH]; intros D s b I B L; cbn [foreach].
  - exists s. rewrite app_nil_r, orb_false_r. auto.
  - assert (N : ~ In (Z.of_nat (length (s_mm s)) + 0)%Z (map fst (s_map s))) by (intros X; pose proof (ids_weak b s B _ X); lia).
    pose proof (addk_ok g 0 s hs (L hs (or_introl eq_refl)) N) as E. cbv zeta in E. rewrite E. cbn [obind].
    destruct (addk_inv g 0 s hs D _ I (L hs (or_introl eq_refl)) N E) as (I1 & O1 & L1 & K1). revert I1 O1 L1 K1. generalize (St ((Z.of_nat (length (s_mm s)) + 0, hs)%Z :: s_map s) (insk (last_id hs) (simple_point g hs (Z.of_nat (length (s_mm s)) + 0)) (s_mm s)) (inss (last_id hs) (s_keys s)) (s_out s)).
    intros s1 I1 O1 L1 K1.
    assert (B1 : ids true s1).
    { unfold ids. rewrite L1, K1. split; [|left; lia]. intros i [<-|Hi]; [lia|]. pose proof (ids_weak b s B i Hi). lia. }
    destruct (IH (D ++ [hs]) s1 true I1 B1 (fun x X => L x (or_intror X))) as (s2 & E2 & I2 & O2 & B2).
    exists s2. split; [exact E2|]. rewrite <- app_assoc in I2. split; [exact I2|]. split; [congruence|]. cbn [orb length Nat.eqb negb] in *. rewrite orb_true_r. exact B2.
Qed.
Lemma adds3 g : forall C D s, inv g D s -> ids false s -> (forall hs, In hs C -> 2 <= length hs) ->
  exists s', foreach C (addk g (-1)) s = Ok s' /\ inv g (D ++ C) s' /\ s_out s' = s_out s /\ ids false s'.
Proof.
  induction C as [|hs C IH]; intros D s I B L; cbn [foreach].
  - exists s. rewrite app_nil_r. auto.
  - assert (N : ~ In (Z.of_nat (length (s_mm s)) + -1)%Z (map fst (s_map s))) by (intros X; specialize (B _ X); lia).
    pose proof (addk_ok g (-1) s hs (L hs (or_introl eq_refl)) N) as E. cbv zeta in E. rewrite E. cbn [obind].
    destruct (addk_inv g (-1) s hs D _ I (L hs (or_introl eq_refl)) N E) as (I1 & O1 & L1 & K1). revert I1 O1 L1 K1. generalize (St ((Z.of_nat (length (s_mm s)) + -1, hs)%Z :: s_map s) (insk (last_id hs) (simple_point g hs (Z.of_nat (length (s_mm s)) + -1)) (s_mm s)) (inss (last_id hs) (s_keys s)) (s_out s)).
    intros s1 I1 O1 L1 K1.
    assert (B1 : ids false s1). { unfold ids. rewrite L1, K1. intros i [<-|Hi]; [lia|]. specialize (B i Hi). cbv zeta in B. lia. }
    destruct (IH (D ++ [hs]) s1 I1 B1 (fun x X => L x (or_intror X))) as (s2 & E2 & I2 & O2 & B2).
    exists s2. split; [exact E2|]. rewrite <- app_assoc in I2. split; [exact I2|]. split; [congruence|exact B2].
Qed.
Lemma adds3_throw g C s : ids true s -> C <> [] -> foreach C (addk g (-1)) s = Throw UserExn.
Proof.
  intros (_ & B) N. destruct C as [|hs C]; [congruence|]. cbn [foreach]. rewrite addk_throw; [reflexivity|exact B].
Qed.

(** one TPC on its lists of pairs and triplets *)
Record work := Work { w_ord : list nat; w2 : list (list hit); w3 : list (list hit) }.
Definition finish (g : geo) (c : cfg) (s : st) : outcome st := if filt c then do_filter s else if merge c then do_merge g s else do_copy s.
Definition step (g : geo) (c : cfg) (s : st) (w : work) : outcome st :=
  do s <- foreach (w2 w) (addk g 0) s; do s <- foreach (w3 w) (addk g (-1)) s; finish g c s.
Definition s0 : st := St [] [] [] [].

Lemma inv_out g D s s' : inv g D s -> s_map s' = s_map s -> s_mm s' = s_mm s -> s_keys s' = s_keys s -> inv g D s'.
Proof. intros [A B C K1 K2] E1 E2 E3. constructor; rewrite ?E1, ?E2, ?E3; assumption. Qed.
Lemma ids_out b s s' : ids b s -> s_map s' = s_map s -> s_mm s' = s_mm s -> ids b s'.
Proof. unfold ids. intros H E1 E2. rewrite E1, E2. exact H. Qed.

(** a sane work list: pairs or triplets, not both *)
Definition sane (w : work) : Prop := (forall hs, In hs (w2 w ++ w3 w) -> 2 <= length hs) /\ (w2 w = [] \/ w3 w = []).
Definition both (w : work) : list (list hit) := w2 w ++ w3 w.

(** a triplet after a pair *)
Definition late (L : list work) (seen : bool) : Prop :=
  exists j w, nth_error L j = Some w /\ w3 w <> [] /\ (seen = true \/ exists i w', i < j /\ nth_error L i = Some w' /\ w2 w' <> []).

(** the map of hits only grows *)
Lemma addk_grow g k s hs s' : addk g k s hs = Ok s' -> exists m1, s_map s' = m1 ++ s_map s.
Proof.
  intros E1. unfold addk, add_point, fill in E1. destruct (mfind _ _); [discriminate|]. destruct (2 <=? length hs); cbn [obind fst snd] in E1.
  - unfold idx in E1. cbn in E1. injection E1 as <-. cbn [s_map]. exists [(Z.of_nat (length (s_mm s)) + k, hs)%Z]. reflexivity.
  - unfold idx in E1. cbn in E1. discriminate.
Qed.
Lemma fe_grow {A} (f : st -> A -> outcome st) : (forall s x s', f s x = Ok s' -> exists m1, s_map s' = m1 ++ s_map s) ->
  forall l s s', foreach l f s = Ok s' -> exists m1, s_map s' = m1 ++ s_map s.
Proof.
  intros F. induction l as [|x l IH]; intros s s' E; cbn [foreach] in E; [injection E as <-; exists []; reflexivity|].
  destruct (f s x) as [s1| |] eqn:E1; cbn [obind] in E; try discriminate. destruct (IH _ _ E) as (m1 & H1). destruct (F _ _ _ E1) as (m2 & H2).
  exists (m1 ++ m2). rewrite H1, H2, app_assoc. reflexivity.
Qed.
Lemma finish_grow g c s s' : finish g c s = Ok s' -> exists m1, s_map s' = m1 ++ s_map s.
Proof.
  unfold finish. destruct (filt c); [|destruct (merge c)]; intros E.
  - revert E. unfold do_filter. apply fe_grow. intros b k b1 E. destruct (best k (s_mm b)); [|discriminate]. injection E as <-. exists []. reflexivity.
  - revert E. unfold do_merge. apply fe_grow. intros b k b1 M. unfold merge_key in M.
    destruct (foreach _ _ []) as [hits| |]; cbn [obind] in M; try discriminate. unfold fill_complex in M. destruct (mfind _ _); [discriminate|].
    destruct (2 <=? _); cbn [obind fst snd] in M; injection M as <-; cbn [s_map]; eexists [_]; reflexivity.
  - injection E as <-. exists []. reflexivity.
Qed.
Lemma steps_grow g c L s s' : foreach L (step g c) s = Ok s' -> exists m1, s_map s' = m1 ++ s_map s.
Proof.
  apply fe_grow. clear. intros s w s' E. unfold step in E.
  destruct (foreach (w2 w) _ s) as [a| |] eqn:A1; cbn [obind] in E; try discriminate. destruct (foreach (w3 w) _ a) as [b| |] eqn:A2; cbn [obind] in E; try discriminate.
  destruct (fe_grow _ (addk_grow g 0) _ _ _ A1) as (m1 & H1). destruct (fe_grow _ (addk_grow g (-1)) _ _ _ A2) as (m2 & H2). destruct (finish_grow _ _ _ _ E) as (m3 & H3).
  exists (m3 ++ m2 ++ m1). rewrite H3, H2, H1, !app_assoc. reflexivity.
Qed.

Section nomerge.
Context (g : geo) (c : cfg) (fin : st -> list sp).
(** the transfer only appends points, computed from the multimap *)
Hypothesis Fin : forall D s, inv g D s -> finish g c s = Ok (St (s_map s) (s_mm s) (s_keys s) (s_out s ++ fin s)).
Hypothesis Fin_ext : forall s s', s_mm s = s_mm s' -> s_keys s = s_keys s' -> fin s = fin s'.

Lemma steps_ok : forall L D s seen, inv g D s -> ids seen s -> (forall w, In w L -> sane w) -> ~ late L seen ->
  exists s' snaps, foreach L (step g c) s = Ok s' /\ inv g (D ++ flat_map both L) s' /\ length snaps = length L /\
    s_out s' = s_out s ++ flat_map fin snaps /\
    (forall k sn, nth_error snaps k = Some sn -> inv g (D ++ flat_map both (firstn (S k) L)) sn /\ exists m2, s_map s' = m2 ++ s_map sn).
Proof.
  induction L as [|w L IH]; intros D s seen I B Sa La; cbn [foreach].
  - exists s, []. cbn. rewrite !app_nil_r. split; [reflexivity|]. split; [exact I|]. split; [reflexivity|]. split; [reflexivity|]. intros [|k] sn X; discriminate.
  - destruct (Sa w (or_introl eq_refl)) as (S1 & S2).
    assert (St1 : exists s1 seen1, foreach (w2 w) (addk g 0) s = Ok s1 /\ inv g (D ++ w2 w) s1 /\ s_out s1 = s_out s /\ ids seen1 s1 /\ seen1 = seen || negb (length (w2 w) =? 0)).
    { destruct (adds2 g (w2 w) D s seen I B) as (s1 & E1 & I1 & O1 & B1); [intros hs H; apply S1, in_or_app; left; exact H|]. eauto 10. }
    destruct St1 as (s1 & seen1 & E1 & I1 & O1 & B1 & Sn).
    assert (St2 : exists s2, foreach (w3 w) (addk g (-1)) s1 = Ok s2 /\ inv g ((D ++ w2 w) ++ w3 w) s2 /\ s_out s2 = s_out s1 /\ ids seen1 s2).
    { destruct (w3 w) as [|hs r] eqn:E3; [exists s1; rewrite app_nil_r; cbn [foreach]; auto|].
      assert (seen = false). { destruct seen; [|reflexivity]. exfalso. apply La. exists 0, w. split; [reflexivity|]. split; [rewrite E3; discriminate|]. left; reflexivity. }
      subst seen. destruct S2 as [S2|S2]; [|congruence]. rewrite S2 in Sn. cbn in Sn. subst seen1.
      apply (adds3 g (hs :: r) (D ++ w2 w) s1 I1 B1). intros x X. apply S1. rewrite S2. cbn [app]. exact X. }
    destruct St2 as (s2 & E2 & I2 & O2 & B2).
    unfold step at 1. rewrite E1. cbn [obind]. rewrite E2. cbn [obind]. rewrite (Fin _ _ I2). cbn [obind].
    set (s3 := St (s_map s2) (s_mm s2) (s_keys s2) (s_out s2 ++ fin s2)).
    assert (I3 : inv g (D ++ both w) s3) by (apply (inv_out g _ s2); [unfold both; rewrite app_assoc; exact I2|reflexivity|reflexivity|reflexivity]).
    assert (B3 : ids seen1 s3) by (apply (ids_out _ s2); [exact B2|reflexivity|reflexivity]).
    destruct (IH (D ++ both w) s3 seen1 I3 B3 (fun x X => Sa x (or_intror X))) as (s' & snaps & E' & I' & Ln & O' & Sp).
    { intros (j & w' & Hj & H3 & H). apply La. exists (S j), w'. split; [exact Hj|]. split; [exact H3|]. destruct H as [H|(i & w'' & Li & Hi & H)].
      - rewrite Sn in H. apply orb_true_iff in H as [H|H]; [left; exact H|]. right. exists 0, w. split; [lia|]. split; [reflexivity|]. intros X. rewrite X in H. discriminate.
      - right. exists (S i), w''. split; [lia|]. split; [exact Hi|exact H]. }
    exists s', (s3 :: snaps). split; [exact E'|]. split; [cbn [flat_map]; rewrite app_assoc; exact I'|]. split; [cbn; congruence|]. split.
    + rewrite O'. unfold s3 at 1. cbn [s_out flat_map]. rewrite O2, O1, <- app_assoc. rewrite (Fin_ext s3 s2) by reflexivity. reflexivity.
    + intros [|k] sn N; cbn [nth_error] in N.
      * injection N as <-. cbn [firstn flat_map]. rewrite app_nil_r. split; [exact I3|].
        exact (steps_grow g c L _ _ E').
      * destruct (Sp k sn N) as (A & M). split; [|exact M]. cbn [firstn flat_map]. rewrite app_assoc. exact A.
Qed.
End nomerge.
