From Coq Require Import QArith Qcanon Lqa.
From Verif Require Solver_Sched CMComb_Proofs.
From Verif Require Import Base Util QcUtil Solver_Model Solver_Proofs CandHit_Model GaussElim_Model GaussElim_Proofs Triplet_Spec KD_Model KD_Spec.
Local Open Scope nat_scope.

Section KD.
Context (hit : nat -> hit3) (sort : (nat -> nat -> bool) -> list nat -> list nat) (root : Qc -> Qc) (sigmas refdist : Qc).
Hypothesis Hsort : sorts hit sort.

Lemma walk_back_S a l m : walk_back hit a l (S (S m)) = if qc_lt (coord (hit (nth (S m) l 0%nat)) a) (coord (hit (nth (S (S m)) l 0%nat)) a) then S (S m) else walk_back hit a l (S m).
Proof. reflexivity. Qed.
Lemma walk_back_range a l m : 1 <= m -> 1 <= walk_back hit a l m <= m.
Proof.
  induction m as [|m IH]; intros H; [lia|]. destruct m as [|m]; [cbn; lia|]. rewrite walk_back_S. destruct (qc_lt _ _); [lia|]. specialize (IH ltac:(lia)). lia.
Qed.
Lemma widest_lt l : widest hit l < 3.
Proof. unfold widest. cbv zeta. destruct (qc_lt (extent hit 0 l) (extent hit 1 l)); [destruct (qc_lt (extent hit 1 l) (extent hit 2 l))|destruct (qc_lt (extent hit 0 l) (extent hit 2 l))]; lia. Qed.
Lemma ss_nth a (l : list nat) : StronglySorted (fun x y => less_on hit a y x = false) l -> forall i j, i <= j -> j < length l -> (coord (hit (nth i l 0%nat)) a <= coord (hit (nth j l 0%nat)) a)%Qc.
Proof.
  induction 1 as [|x l Hs IH Hf]; intros i j Hij Hj; [cbn in Hj; lia|]. destruct i as [|i], j as [|j]; try lia; cbn [nth].
  - apply Qcle_refl.
  - rewrite Forall_forall in Hf. assert (Hi : In (nth j l 0%nat) l) by (apply nth_In; cbn in Hj; lia). specialize (Hf _ Hi). apply qc_lt_false in Hf. exact Hf.
  - apply IH; [lia|cbn in Hj; lia].
Qed.
Lemma half_between x y : (x <= y)%Qc -> (x <= half * (y + x) /\ half * (y + x) <= y)%Qc.
Proof. intros H. assert (E : (half * (1 + 1) = 1)%Qc) by (unfold half; field; discriminate). split; qcnra. Qed.

Lemma build_ok : forall fuel l, length l < fuel -> l <> [] ->
  exists t, build_range hit sort fuel l = Some t /\ Permutation (leaves t) l /\ well_split hit t.
Proof using Hsort.
  induction fuel as [|fuel IH]; intros l Hl Hne; [lia|]. cbn [build_range]. destruct l as [|h [|h' l]]; [contradiction| |].
  - exists (Leaf h). split; [reflexivity|]. split; [reflexivity|exact I].
  - set (L := h :: h' :: l) in *. set (a := widest hit L). destruct (Hsort a L) as [HP HS]. set (s := sort (less_on hit a) L) in *.
    assert (Hlen : length s = length L) by (apply Permutation_length, HP).
    assert (H2 : 2 <= length s) by (rewrite Hlen; unfold L; cbn [length]; lia).
    assert (Hhalf : 1 <= length s / 2 /\ length s / 2 < length s). { split; [apply (Nat.div_le_mono 2 (length s) 2); lia|apply Nat.div_lt; lia]. }
    pose proof (walk_back_range a s (length s / 2) (proj1 Hhalf)) as Hm. set (m := walk_back hit a s (length s / 2)) in *.
    destruct (IH (firstn m s)) as (t1 & E1 & P1 & W1); [rewrite firstn_length; lia|intros X; apply (f_equal (@length nat)) in X; rewrite firstn_length in X; cbn [length] in X; lia|].
    destruct (IH (skipn m s)) as (t2 & E2 & P2 & W2); [rewrite skipn_length; lia|intros X; apply (f_equal (@length nat)) in X; rewrite skipn_length in X; cbn [length] in X; lia|].
    rewrite E1, E2. eexists. split; [reflexivity|]. split; [cbn [leaves]; rewrite P1, P2, firstn_skipn; exact HP|].
    cbn [well_split]. assert (Hord := ss_nth a s HS (m - 1) m ltac:(lia) ltac:(lia)). destruct (half_between _ _ Hord) as [B1 B2].
    assert (L1 : forall x, In x (leaves t1) -> (coord (hit x) a <= coord (hit (nth (m - 1) s 0%nat)) a)%Qc).
    { intros x Hx. apply (Permutation_in _ P1) in Hx. apply (In_nth _ _ 0%nat) in Hx. destruct Hx as (i & Hi & <-). rewrite firstn_length in Hi.
      replace (nth i (firstn m s) 0%nat) with (nth i s 0%nat). 2:{ rewrite <- (firstn_skipn m s) at 1. rewrite app_nth1 by (rewrite firstn_length; lia). reflexivity. } apply ss_nth; [exact HS|lia|lia]. }
    assert (L2 : forall x, In x (leaves t2) -> (coord (hit (nth m s 0%nat)) a <= coord (hit x) a)%Qc).
    { intros x Hx. apply (Permutation_in _ P2) in Hx. apply (In_nth _ _ 0%nat) in Hx. destruct Hx as (i & Hi & <-). rewrite skipn_length in Hi.
      replace (nth i (skipn m s) 0%nat) with (nth (m + i) s 0%nat). 2:{ rewrite <- (firstn_skipn m s) at 1. rewrite app_nth2; rewrite firstn_length; [f_equal; lia|lia]. } apply ss_nth; [exact HS|lia|lia]. }
    split; [apply widest_lt|]. split; [|split; [|split; [|split; [exact W1|exact W2]]]].
    + intros x Hx. eapply Qcle_trans; [apply (L1 x Hx)|exact B1].
    + intros x Hx. eapply Qcle_trans; [exact B2|apply (L2 x Hx)].
    + exists (nth (m - 1) s 0%nat), (nth m s 0%nat). split; [|split; [|split; [exact L1|split; [exact L2|rewrite Qcplus_comm; reflexivity]]]].
      * apply (Permutation_in _ (Permutation_sym P1)). replace (nth (m - 1) s 0%nat) with (nth (m - 1) (firstn m s) 0%nat). 2:{ rewrite <- (firstn_skipn m s) at 2. rewrite app_nth1 by (rewrite firstn_length; lia). reflexivity. } apply nth_In. rewrite firstn_length. lia.
      * apply (Permutation_in _ (Permutation_sym P2)). replace (nth m s 0%nat) with (nth 0 (skipn m s) 0%nat). 2:{ rewrite <- (firstn_skipn m s) at 2. rewrite app_nth2; rewrite firstn_length; [f_equal; lia|lia]. } apply nth_In. rewrite skipn_length. lia.
Qed.

(* ------------------------------------------------------------------ searches *)
Lemma brute_ok ref t : well_split hit t -> find_brute ref t = Ok (if in_dec Nat.eq_dec ref (leaves t) then true else false).
Proof.
  induction t as [|h|a v l IHl r IHr]; intros H; [destruct H| |].
  - cbn [find_brute leaves]. destruct (Nat.eqb_spec ref h) as [->|], (in_dec Nat.eq_dec _ [_]) as [Hi|Hi]; try reflexivity; exfalso; [apply Hi; left; reflexivity|destruct Hi as [->|[]]; congruence].
  - cbn [well_split] in H. destruct H as (_ & _ & _ & _ & Hl & Hr). cbn [find_brute leaves]. rewrite IHl by exact Hl. cbn [obind]. rewrite IHr by exact Hr.
    destruct (in_dec Nat.eq_dec ref (leaves l)) as [Hi|Hi], (in_dec Nat.eq_dec ref (leaves l ++ leaves r)) as [Hj|Hj]; try reflexivity.
    + exfalso. apply Hj, in_app_iff. left; exact Hi.
    + destruct (in_dec Nat.eq_dec ref (leaves r)); [reflexivity|]. exfalso. apply in_app_iff in Hj. tauto.
    + destruct (in_dec Nat.eq_dec ref (leaves r)); [|reflexivity]. exfalso. apply Hj, in_app_iff. right; assumption.
Qed.

Lemma qmax_ge_l x y : (x <= qmax x y)%Qc.
Proof. unfold qmax. destruct (qc_lt x y) eqn:E; [apply qc_lt_spec in E; apply Qclt_le_weak, E|apply Qcle_refl]. Qed.
Lemma qmax_ge_r x y : (y <= qmax x y)%Qc.
Proof. unfold qmax. destruct (qc_lt x y) eqn:E; [apply Qcle_refl|apply qc_lt_false in E; exact E]. Qed.
Lemma sep_pos h k : (0 < separation hit root h k)%Qc.
Proof. eapply Qclt_le_trans; [|apply qmax_ge_l]. reflexivity. Qed.
Lemma wire_ok_spec h k : wire_ok hit h k = true <-> (Z.abs (h_w0 (hit h) - h_w0 (hit k)) < 3 /\ Z.abs (h_w1 (hit h) - h_w1 (hit k)) < 3 /\ Z.abs (h_w2 (hit h) - h_w2 (hit k)) < 3)%Z.
Proof. unfold wire_ok. rewrite !andb_true_iff, !Z.ltb_lt. tauto. Qed.
Lemma consistent_spec h k best s : consistent hit root sigmas h k best = Some s <->
  exists b, best = D b /\ compatible hit sigmas h k /\ s = separation hit root h k /\ (s < b)%Qc.
Proof.
  unfold consistent, compatible. split.
  - destruct best as [|b]; [discriminate|]. destruct (Nat.eqb_spec (h_cryo (hit h)) (h_cryo (hit k))); [|discriminate]. destruct (Nat.eqb_spec (h_tpc (hit h)) (h_tpc (hit k))); [|discriminate]. cbn [andb].
    destruct (qc_lt (qabs _) _) eqn:E1; [|discriminate]. destruct (wire_ok hit h k) eqn:E2; [|discriminate]. destruct (qc_lt (separation hit root h k) b) eqn:E3; [|discriminate]. intros [= <-].
    apply qc_lt_spec in E1, E3. apply wire_ok_spec in E2. exists b. auto 8.
  - intros (b & -> & (H1 & H2 & H3 & H4) & -> & H5). rewrite H1, H2, !Nat.eqb_refl. cbn [andb]. apply qc_lt_spec in H3, H5. apply wire_ok_spec in H4. rewrite H3, H4, H5. reflexivity.
Qed.
Lemma consistent_zero h k : consistent hit root sigmas h k (D 0%Qc) = None.
Proof. destruct (consistent _ _ _ _ _ _) as [s|] eqn:E; [|reflexivity]. apply consistent_spec in E. destruct E as (b & [= <-] & _ & -> & H). exfalso. apply (Qclt_not_le _ _ (sep_pos h k)). apply Qclt_le_weak, H. Qed.

(** FindEntry adds nothing and finds the hit if it is there *)
Lemma entry_ok ref t : well_split hit t -> forall cands best, (match best with Far => True | D b => 0 < b end)%Qc ->
  find_entry hit root sigmas ref t (cands, best, true) = Ok (if in_dec Nat.eq_dec ref (leaves t) then true else false, (cands, best, if in_dec Nat.eq_dec ref (leaves t) then false else true)).
Proof.
  intros Hw cands best Hb. induction t as [|h|a v l IHl r IHr]; [destruct Hw| |].
  - cbn [find_entry leaves]. rewrite consistent_zero. destruct (Nat.eqb_spec ref h) as [->|], (in_dec Nat.eq_dec _ [_]) as [Hi|Hi]; try reflexivity; exfalso; [apply Hi; left; reflexivity|destruct Hi as [->|[]]; congruence].
  - cbn [well_split] in Hw. destruct Hw as (_ & B1 & B2 & _ & Hl & Hr). cbn [find_entry leaves]. specialize (IHl Hl). specialize (IHr Hr). destruct (qc_lt (coord (hit ref) a) v) eqn:E.
    + apply qc_lt_spec in E. rewrite IHl. cbn [obind fst snd]. destruct (in_dec Nat.eq_dec ref (leaves l)) as [Hi|Hi]; cbn [negb andb].
      * destruct (in_dec Nat.eq_dec ref (leaves l ++ leaves r)) as [Hj|Hj]; [reflexivity|]. exfalso. apply Hj, in_app_iff. left; exact Hi.
      * assert (Hnr : ~ In ref (leaves r)). { intros X. specialize (B2 _ X). apply (Qclt_not_le _ _ E B2). }
        destruct (in_dec Nat.eq_dec ref (leaves l ++ leaves r)) as [Hj|Hj]; [exfalso; apply in_app_iff in Hj; tauto|]. destruct (reach_up _ _ _); [|reflexivity]. rewrite IHr. destruct (in_dec Nat.eq_dec ref (leaves r)); [contradiction|reflexivity].
    + apply qc_lt_false in E. rewrite IHr. cbn [obind fst snd]. destruct (in_dec Nat.eq_dec ref (leaves r)) as [Hi|Hi]; cbn [negb andb].
      * destruct (in_dec Nat.eq_dec ref (leaves l ++ leaves r)) as [Hj|Hj]; [reflexivity|]. exfalso. apply Hj, in_app_iff. right; exact Hi.
      * destruct (in_dec Nat.eq_dec ref (leaves l)) as [Hk|Hk].
        -- assert (R : reach_down (coord (hit ref) a) best v = true). { destruct best as [|b]; [reflexivity|]. cbn [reach_down]. apply qc_lt_spec. specialize (B1 _ Hk). qclra. }
           rewrite R, IHl. destruct (in_dec Nat.eq_dec ref (leaves l)); [|contradiction]. destruct (in_dec Nat.eq_dec ref (leaves l ++ leaves r)) as [Hj|Hj]; [reflexivity|]. exfalso. apply Hj, in_app_iff. left; exact Hk.
        -- destruct (in_dec Nat.eq_dec ref (leaves l ++ leaves r)) as [Hj|Hj]; [exfalso; apply in_app_iff in Hj; tauto|]. destruct (reach_down _ _ _); [|reflexivity]. rewrite IHl. destruct (in_dec Nat.eq_dec ref (leaves l)); [contradiction|reflexivity].
Qed.

(** what a search over a subtree adds: a duplicate-free list of other, compatible hits of that subtree, with their separation; the distance stays above refdist *)
Definition big (d : dist) : Prop := match d with Far => True | D b => (refdist <= b)%Qc end.
Definition dle (d d' : dist) : Prop := match d, d' with _, Far => True | Far, D _ => False | D b, D b' => (b <= b')%Qc end.
Lemma dle_refl d : dle d d.
Proof. destruct d; [exact I|apply Qcle_refl]. Qed.
Lemma dle_trans d1 d2 d3 : dle d1 d2 -> dle d2 d3 -> dle d1 d3.
Proof. destruct d1, d2, d3; cbn; auto; try contradiction. apply Qcle_trans. Qed.
Lemma nn_sound ref t : well_split hit t -> NoDup (leaves t) -> forall cands best, big best ->
  exists new best', neighbours hit root sigmas refdist ref t (cands, best) = Ok (cands ++ new, best') /\ big best' /\ dle best' best /\
    NoDup (map snd new) /\ (forall d h, In (d, h) new -> In h (leaves t) /\ h <> ref /\ compatible hit sigmas ref h /\ d = separation hit root ref h /\ dle (D d) best).
Proof.
  induction t as [|h|a v l IHl r IHr]; intros Hw Hnd cands best Hbig; [destruct Hw| |].
  - cbn [neighbours fst snd]. destruct (Nat.eqb_spec ref h) as [->|Hne].
    + exists [], (D refdist). rewrite app_nil_r. split; [reflexivity|]. split; [apply Qcle_refl|]. split; [destruct best; [exact I|exact Hbig]|]. split; [constructor|intros d x []].
    + destruct (consistent hit root sigmas ref h best) as [s|] eqn:E.
      * apply consistent_spec in E. destruct E as (b & -> & Hc & -> & Hlt). eexists [_], _. split; [reflexivity|]. split; [apply qmax_ge_l|]. split.
        -- cbn [dle]. unfold qmax. destruct (qc_lt _ _); [apply Qclt_le_weak, Hlt|exact Hbig].
        -- split; [cbn; constructor; [intros []|constructor]|]. intros d x [[= <- <-]|[]]. split; [left; reflexivity|]. split; [congruence|]. split; [exact Hc|]. split; [reflexivity|apply Qclt_le_weak, Hlt].
      * exists [], best. rewrite app_nil_r. split; [reflexivity|]. split; [exact Hbig|]. split; [apply dle_refl|]. split; [constructor|intros d x []].
  - cbn [well_split] in Hw. destruct Hw as (_ & B1 & B2 & _ & Hl & Hr). cbn [leaves] in Hnd.
    assert (Hdl : NoDup (leaves l)) by (eapply Solver_Sched.NoDup_app_l; eauto). assert (Hdr : NoDup (leaves r)) by (eapply Solver_Sched.NoDup_app_r; eauto).
    assert (Hdis : forall x, In x (leaves l) -> ~ In x (leaves r)) by (intros x; eapply Solver_Sched.NoDup_app_disj; eauto).
    cbn [neighbours leaves].
    assert (Comb : forall t1 t2 b1 b2 new1 new2, (forall x, In x (leaves t1) -> ~ In x (leaves t2)) -> (forall x, In x (leaves t1) \/ In x (leaves t2) -> In x (leaves l ++ leaves r)) -> dle b1 best -> dle b2 b1 ->
       NoDup (map snd new1) -> NoDup (map snd new2) ->
       (forall d h, In (d, h) new1 -> In h (leaves t1) /\ h <> ref /\ compatible hit sigmas ref h /\ d = separation hit root ref h /\ dle (D d) best) ->
       (forall d h, In (d, h) new2 -> In h (leaves t2) /\ h <> ref /\ compatible hit sigmas ref h /\ d = separation hit root ref h /\ dle (D d) b1) ->
       NoDup (map snd (new1 ++ new2)) /\ forall d h, In (d, h) (new1 ++ new2) -> In h (leaves l ++ leaves r) /\ h <> ref /\ compatible hit sigmas ref h /\ d = separation hit root ref h /\ dle (D d) best).
    { intros t1 t2 b1 b2 n1 n2 Hd Hin L1 L2 N1 N2 S1 S2. split.
      - rewrite map_app. apply CMComb_Proofs.NoDup_app_intro; [exact N1|exact N2|]. intros x Hx Hy. apply in_map_iff in Hx. destruct Hx as ([d1 h1] & <- & Hx). apply in_map_iff in Hy. destruct Hy as ([d2 h2] & E & Hy). cbn [snd] in *. subst h2.
        apply S1 in Hx. apply S2 in Hy. apply (Hd h1); [apply Hx|apply Hy].
      - intros d h Hx. apply in_app_iff in Hx. destruct Hx as [Hx|Hx]; [apply S1 in Hx|apply S2 in Hx]; destruct Hx as (X1 & X2 & X3 & X4 & X5); (split; [apply Hin; auto|]; split; [exact X2|]; split; [exact X3|]; split; [exact X4|]); [exact X5|eapply dle_trans; eauto]. }
    destruct (qc_lt (coord (hit ref) a) v).
    + destruct (IHl Hl Hdl cands best Hbig) as (n1 & b1 & E1 & G1 & L1 & N1 & S1). rewrite E1. cbn [obind snd]. destruct (reach_up _ b1 v).
      * destruct (IHr Hr Hdr (cands ++ n1) b1 G1) as (n2 & b2 & E2 & G2 & L2 & N2 & S2). exists (n1 ++ n2), b2. rewrite app_assoc. split; [exact E2|]. split; [exact G2|]. split; [eapply dle_trans; eauto|].
        apply (Comb l r b1 b2); auto. intros x; apply in_app_iff.
      * exists n1, b1. split; [reflexivity|]. split; [exact G1|]. split; [exact L1|]. split; [exact N1|]. intros d h Hx. apply S1 in Hx. rewrite in_app_iff. tauto.
    + destruct (IHr Hr Hdr cands best Hbig) as (n1 & b1 & E1 & G1 & L1 & N1 & S1). rewrite E1. cbn [obind snd]. destruct (reach_down _ b1 v).
      * destruct (IHl Hl Hdl (cands ++ n1) b1 G1) as (n2 & b2 & E2 & G2 & L2 & N2 & S2). exists (n1 ++ n2), b2. rewrite app_assoc. split; [exact E2|]. split; [exact G2|]. split; [eapply dle_trans; eauto|].
        apply (Comb r l b1 b2); auto. { intros x H1 H2. exact (Hdis x H2 H1). } intros x; rewrite in_app_iff; tauto.
      * exists n1, b1. split; [reflexivity|]. split; [exact G1|]. split; [exact L1|]. split; [exact N1|]. intros d h Hx. apply S1 in Hx. rewrite in_app_iff. tauto.
Qed.

(** completeness once the distance is finite *)
Lemma big_after ref t : well_split hit t -> forall cands best, big best -> forall c' b', neighbours hit root sigmas refdist ref t (cands, best) = Ok (c', b') -> big b' /\ (best <> Far -> b' <> Far) /\ incl cands c'.
Proof.
  induction t as [|h|a v l IHl r IHr]; intros Hw cands best Hbig c' b' E; [destruct Hw| |].
  - cbn [neighbours fst snd] in E. destruct (Nat.eqb_spec ref h) as [->|Hne].
    + inversion E; subst. split; [apply Qcle_refl|]. split; [discriminate|]. apply incl_refl.
    + destruct (consistent hit root sigmas ref h best) as [s|] eqn:Ec; inversion E; subst.
      * split; [apply qmax_ge_l|]. split; [discriminate|]. apply incl_appl, incl_refl.
      * split; [exact Hbig|]. split; [auto|]. apply incl_refl.
  - cbn [well_split] in Hw. destruct Hw as (_ & _ & _ & _ & Hl & Hr). cbn [neighbours] in E.
    assert (G : forall t1 t2 (f : dist -> bool), (forall cands best, big best -> forall c' b', neighbours hit root sigmas refdist ref t1 (cands, best) = Ok (c', b') -> big b' /\ (best <> Far -> b' <> Far) /\ incl cands c') ->
      (forall cands best, big best -> forall c' b', neighbours hit root sigmas refdist ref t2 (cands, best) = Ok (c', b') -> big b' /\ (best <> Far -> b' <> Far) /\ incl cands c') ->
      obind (neighbours hit root sigmas refdist ref t1 (cands, best)) (fun st1 => if f (snd st1) then neighbours hit root sigmas refdist ref t2 st1 else Ok st1) = Ok (c', b') -> big b' /\ (best <> Far -> b' <> Far) /\ incl cands c').
    { intros t1 t2 f I1 I2 E'. destruct (neighbours hit root sigmas refdist ref t1 (cands, best)) as [[c1 b1]| |] eqn:E1; try discriminate. cbn [obind snd] in E'. destruct (I1 _ _ Hbig _ _ E1) as (A1 & A2 & A3). destruct (f b1).
      - destruct (I2 _ _ A1 _ _ E') as (A4 & A5 & A6). split; [exact A4|]. split; [auto|]. eapply incl_tran; eauto.
      - inversion E'; subst. auto 6. }
    destruct (qc_lt (coord (hit ref) a) v); [apply (G l r (fun b => reach_up (coord (hit ref) a) b v))|apply (G r l (fun b => reach_down (coord (hit ref) a) b v))]; auto.
Qed.
Local Notation close_to := (KD_Spec.close_to hit root sigmas refdist).
Lemma qabs_lt_both x r : (qabs x < r)%Qc -> (x < r /\ - r < x)%Qc.
Proof. unfold qabs. destruct (qc_lt x 0) eqn:E; [apply qc_lt_spec in E|apply qc_lt_false in E]; intros H; split; qclra. Qed.
Lemma nn_complete ref t : well_split hit t -> forall cands b, (refdist <= b)%Qc -> forall c' b', neighbours hit root sigmas refdist ref t (cands, D b) = Ok (c', b') ->
  forall h, In h (leaves t) -> close_to ref h -> In (separation hit root ref h, h) c'.
Proof.
  induction t as [|h0|a v l IHl r IHr]; intros Hw cands b Hb c' b' E h Hin Hc; [destruct Hw| |].
  - destruct Hin as [->|[]]. cbn [neighbours fst snd] in E. destruct Hc as (Hne & Hcomp & Hsep & _). destruct (Nat.eqb_spec ref h); [congruence|].
    assert (Ec : consistent hit root sigmas ref h (D b) = Some (separation hit root ref h)). { apply consistent_spec. exists b. split; [reflexivity|]. split; [exact Hcomp|]. split; [reflexivity|]. eapply Qclt_le_trans; eauto. }
    rewrite Ec in E. inversion E; subst. apply in_app_iff. right; left; reflexivity.
  - cbn [well_split] in Hw. destruct Hw as (Ha & B1 & B2 & _ & Hl & Hr). cbn [neighbours] in E. cbn [leaves] in Hin. apply in_app_iff in Hin.
    assert (Hnear := proj2 (proj2 (proj2 Hc)) a Ha). apply qabs_lt_both in Hnear. destruct Hnear as [N1 N2].
    destruct (qc_lt (coord (hit ref) a) v) eqn:Ev.
    + destruct (neighbours hit root sigmas refdist ref l (cands, D b)) as [[c1 b1]| |] eqn:E1; try discriminate. cbn [obind snd] in E. destruct (big_after ref l Hl cands (D b) Hb _ _ E1) as (G1 & G2 & G3).
      destruct b1 as [|b1]; [exfalso; apply G2; [discriminate|reflexivity]|]. destruct (reach_up (coord (hit ref) a) (D b1) v) eqn:Er.
      * destruct Hin as [Hin|Hin]; [|eapply IHr; [exact Hr|exact G1|exact E|exact Hin|exact Hc]]. destruct (big_after ref r Hr c1 (D b1) G1 _ _ E) as (_ & _ & G6). apply G6. eapply IHl; [exact Hl|exact Hb|exact E1|exact Hin|exact Hc].
      * inversion E; subst. destruct Hin as [Hin|Hin]; [eapply IHl; [exact Hl|exact Hb|exact E1|exact Hin|exact Hc]|]. exfalso. cbn [reach_up] in Er. apply qc_lt_false in Er. specialize (B2 h Hin). cbn [big] in G1. apply qc_lt_spec in Ev.
        assert ((coord (hit h) a - coord (hit ref) a < refdist)%Qc) by qclra. qclra.
    + apply qc_lt_false in Ev. destruct (neighbours hit root sigmas refdist ref r (cands, D b)) as [[c1 b1]| |] eqn:E1; try discriminate. cbn [obind snd] in E. destruct (big_after ref r Hr cands (D b) Hb _ _ E1) as (G1 & G2 & G3).
      destruct b1 as [|b1]; [exfalso; apply G2; [discriminate|reflexivity]|]. destruct (reach_down (coord (hit ref) a) (D b1) v) eqn:Er.
      * destruct Hin as [Hin|Hin]; [eapply IHl; [exact Hl|exact G1|exact E|exact Hin|exact Hc]|]. destruct (big_after ref l Hl c1 (D b1) G1 _ _ E) as (_ & _ & G6). apply G6. eapply IHr; [exact Hr|exact Hb|exact E1|exact Hin|exact Hc].
      * inversion E; subst. destruct Hin as [Hin|Hin]; [|eapply IHr; [exact Hr|exact Hb|exact E1|exact Hin|exact Hc]]. exfalso. cbn [reach_down] in Er. apply qc_lt_false in Er. specialize (B1 h Hin). cbn [big] in G1. qclra.
Qed.
(** starting from FLT_MAX: nothing counts before the reference hit is met *)
Lemma nn_far_none ref t : well_split hit t -> ~ In ref (leaves t) -> forall cands, neighbours hit root sigmas refdist ref t (cands, Far) = Ok (cands, Far).
Proof.
  induction t as [|h|a v l IHl r IHr]; intros Hw Hn cands; [destruct Hw| |].
  - cbn [neighbours fst snd]. destruct (Nat.eqb_spec ref h) as [->|]; [exfalso; apply Hn; left; reflexivity|]. reflexivity.
  - cbn [well_split] in Hw. destruct Hw as (_ & _ & _ & _ & Hl & Hr). cbn [leaves] in Hn. rewrite in_app_iff in Hn. cbn [neighbours].
    destruct (qc_lt _ v); [rewrite (IHl Hl) by tauto|rewrite (IHr Hr) by tauto]; cbn [obind snd reach_up reach_down]; [apply IHr|apply IHl]; tauto.
Qed.
Lemma nn_far_finite ref t : well_split hit t -> In ref (leaves t) -> forall cands c' b', neighbours hit root sigmas refdist ref t (cands, Far) = Ok (c', b') -> exists b, b' = D b /\ (refdist <= b)%Qc.
Proof.
  induction t as [|h|a v l IHl r IHr]; intros Hw Hn cands c' b' E; [destruct Hw| |].
  - destruct Hn as [->|[]]. cbn [neighbours fst] in E. rewrite Nat.eqb_refl in E. inversion E; subst. exists refdist. split; [reflexivity|apply Qcle_refl].
  - cbn [well_split] in Hw. destruct Hw as (_ & _ & _ & _ & Hl & Hr). cbn [leaves] in Hn. apply in_app_iff in Hn. cbn [neighbours] in E.
    assert (G : forall t1 t2 (f : dist -> bool), f Far = true -> well_split hit t1 -> well_split hit t2 ->
      (In ref (leaves t1) -> forall cands c' b', neighbours hit root sigmas refdist ref t1 (cands, Far) = Ok (c', b') -> exists b, b' = D b /\ (refdist <= b)%Qc) ->
      (In ref (leaves t2) -> forall cands c' b', neighbours hit root sigmas refdist ref t2 (cands, Far) = Ok (c', b') -> exists b, b' = D b /\ (refdist <= b)%Qc) -> In ref (leaves t1) \/ In ref (leaves t2) ->
      obind (neighbours hit root sigmas refdist ref t1 (cands, Far)) (fun st1 => if f (snd st1) then neighbours hit root sigmas refdist ref t2 st1 else Ok st1) = Ok (c', b') -> exists b, b' = D b /\ (refdist <= b)%Qc).
    { intros t1 t2 f Hf W1 W2 I1 I2 Hor E'. destruct (in_dec Nat.eq_dec ref (leaves t1)) as [Hi|Hi].
      - destruct (neighbours hit root sigmas refdist ref t1 (cands, Far)) as [[c1 b1]| |] eqn:E1; try discriminate. cbn [obind snd] in E'. destruct (I1 Hi _ _ _ E1) as (b & -> & Hb). destruct (f (D b)); [|inversion E'; subst; eauto].
        destruct (big_after ref t2 W2 c1 (D b) Hb _ _ E') as (A1 & A2 & _). destruct b' as [|b2]; [exfalso; apply A2; [discriminate|reflexivity]|]. eauto.
      - rewrite (nn_far_none ref t1 W1 Hi) in E'. cbn [obind snd] in E'. rewrite Hf in E'. eapply I2; [tauto|exact E']. }
    destruct (qc_lt (coord (hit ref) a) v); [apply (G l r (fun b => reach_up (coord (hit ref) a) b v))|apply (G r l (fun b => reach_down (coord (hit ref) a) b v))]; auto; tauto.
Qed.
(** the search from the hit on the side it looks at first, from FLT_MAX, across a split *)
Lemma cross_up ref h a v l r : well_split hit (Split a v l r) -> In ref (leaves l) -> In h (leaves r) -> (coord (hit ref) a < v)%Qc -> close_to ref h ->
  forall cands c' b', neighbours hit root sigmas refdist ref (Split a v l r) (cands, Far) = Ok (c', b') -> In (separation hit root ref h, h) c'.
Proof.
  intros Hw Hi Hh Hlt Hc cands c' b' E. cbn [well_split] in Hw. destruct Hw as (Ha & B1 & B2 & _ & Hl & Hr). cbn [neighbours] in E. apply qc_lt_spec in Hlt. rewrite Hlt in E. apply qc_lt_spec in Hlt.
  destruct (neighbours hit root sigmas refdist ref l (cands, Far)) as [[c1 b1]| |] eqn:E1; try discriminate. cbn [obind snd] in E. destruct (nn_far_finite ref l Hl Hi _ _ _ E1) as (b & -> & Hb).
  assert (R : reach_up (coord (hit ref) a) (D b) v = true).
  { cbn [reach_up]. apply qc_lt_spec. destruct Hc as (_ & _ & _ & Hn). destruct (qabs_lt_both _ _ (Hn a Ha)) as [N1 N2]. specialize (B2 h Hh). qclra. }
  rewrite R in E. exact (nn_complete ref r Hr _ b Hb _ _ E h Hh Hc).
Qed.
Lemma cross_down ref h a v l r : well_split hit (Split a v l r) -> In ref (leaves r) -> In h (leaves l) -> close_to ref h ->
  forall cands c' b', neighbours hit root sigmas refdist ref (Split a v l r) (cands, Far) = Ok (c', b') -> In (separation hit root ref h, h) c'.
Proof.
  intros Hw Hi Hh Hc cands c' b' E. cbn [well_split] in Hw. destruct Hw as (Ha & B1 & B2 & _ & Hl & Hr). cbn [neighbours] in E. assert (Hge := B2 ref Hi). apply qc_lt_false in Hge. rewrite Hge in E. apply qc_lt_false in Hge.
  destruct (neighbours hit root sigmas refdist ref r (cands, Far)) as [[c1 b1]| |] eqn:E1; try discriminate. cbn [obind snd] in E. destruct (nn_far_finite ref r Hr Hi _ _ _ E1) as (b & -> & Hb).
  assert (R : reach_down (coord (hit ref) a) (D b) v = true).
  { cbn [reach_down]. apply qc_lt_spec. destruct Hc as (_ & _ & _ & Hn). destruct (qabs_lt_both _ _ (Hn a Ha)) as [N1 N2]. specialize (B1 h Hh). qclra. }
  rewrite R in E. exact (nn_complete ref l Hl _ b Hb _ _ E h Hh Hc).
Qed.
(** both hits on one side: the search of that side starts from FLT_MAX as well *)
Lemma same_side ref a v l r t : well_split hit (Split a v l r) -> NoDup (leaves (Split a v l r)) -> t = l \/ t = r -> In ref (leaves t) ->
  forall cands c' b', neighbours hit root sigmas refdist ref (Split a v l r) (cands, Far) = Ok (c', b') ->
  exists cands1 c1 b1, neighbours hit root sigmas refdist ref t (cands1, Far) = Ok (c1, b1) /\ incl c1 c'.
Proof.
  intros Hw Hnd Ht Hi cands c' b' E. cbn [well_split] in Hw. destruct Hw as (Ha & B1 & B2 & _ & Hl & Hr). cbn [leaves] in Hnd.
  assert (Hdis : forall x, In x (leaves l) -> ~ In x (leaves r)) by (intros x; eapply Solver_Sched.NoDup_app_disj; eauto).
  cbn [neighbours] in E.
  assert (G : forall t1 t2 (f : dist -> bool), f Far = true -> well_split hit t1 -> well_split hit t2 -> (forall x, In x (leaves t1) -> ~ In x (leaves t2)) -> t = t1 \/ t = t2 ->
    obind (neighbours hit root sigmas refdist ref t1 (cands, Far)) (fun st1 => if f (snd st1) then neighbours hit root sigmas refdist ref t2 st1 else Ok st1) = Ok (c', b') ->
    exists cands1 c1 b1, neighbours hit root sigmas refdist ref t (cands1, Far) = Ok (c1, b1) /\ incl c1 c').
  { intros t1 t2 f Hf W1 W2 Hd [->| ->] E'.
    - destruct (neighbours hit root sigmas refdist ref t1 (cands, Far)) as [[c1 b1]| |] eqn:E1; try discriminate. cbn [obind snd] in E'. exists cands, c1, b1. split; [exact E1|].
      destruct (nn_far_finite ref t1 W1 Hi _ _ _ E1) as (b & -> & Hb). destruct (f (D b)); [|inversion E'; subst; apply incl_refl]. eapply (big_after ref t2 W2 c1 (D b) Hb); exact E'.
    - rewrite (nn_far_none ref t1 W1) in E' by (intros X; exact (Hd _ X Hi)). cbn [obind snd] in E'. rewrite Hf in E'. exists cands, c', b'. split; [exact E'|apply incl_refl]. }
  destruct (qc_lt (coord (hit ref) a) v); [apply (G l r (fun b => reach_up (coord (hit ref) a) b v))|apply (G r l (fun b => reach_down (coord (hit ref) a) b v))]; auto; [|tauto].
  intros x H1 H2. exact (Hdis x H2 H1).
Qed.
Lemma nn_far_complete ref t : well_split hit t -> NoDup (leaves t) -> In ref (leaves t) -> (forall h a, In h (leaves t) -> h <> ref -> a < 3 -> coord (hit h) a <> coord (hit ref) a) ->
  forall cands c' b', neighbours hit root sigmas refdist ref t (cands, Far) = Ok (c', b') -> forall h, In h (leaves t) -> close_to ref h -> In (separation hit root ref h, h) c'.
Proof.
  induction t as [|h0|a v l IHl r IHr]; intros Hw Hnd Hi Hdc cands c' b' E h Hin Hc; [destruct Hw| |].
  - destruct Hin as [->|[]]. destruct Hi as [->|[]]. destruct Hc as [Hne _]. congruence.
  - pose proof Hw as Hw0. cbn [well_split] in Hw. destruct Hw as (Ha & B1 & B2 & (hl & hr & Hhl & Hhr & Hml & Hmr & Hv) & Hl & Hr). pose proof Hnd as Hnd0. cbn [leaves] in Hnd, Hi, Hin. apply in_app_iff in Hi, Hin.
    assert (Hdis : forall x, In x (leaves l) -> ~ In x (leaves r)) by (intros x; eapply Solver_Sched.NoDup_app_disj; eauto).
    assert (Hdl : NoDup (leaves l)) by (eapply Solver_Sched.NoDup_app_l; eauto). assert (Hdr : NoDup (leaves r)) by (eapply Solver_Sched.NoDup_app_r; eauto).
    destruct Hi as [Hi|Hi], Hin as [Hin|Hin].
    + destruct (same_side ref a v l r l Hw0 Hnd0 (or_introl eq_refl) Hi _ _ _ E) as (cd & c1 & b1 & E1 & Hinc). apply Hinc. eapply IHl; eauto. intros h' a' H'. apply Hdc, in_app_iff. left; exact H'.
    + eapply cross_up; [exact Hw0|exact Hi|exact Hin| |exact Hc|exact E]. destruct (Qcle_lt_or_eq _ _ (B1 ref Hi)) as [H|H]; [exact H|]. exfalso. apply (Hdc hr a); [apply in_app_iff; right; exact Hhr| |exact Ha|].
      * intros ->. exact (Hdis _ Hi Hhr).
      * pose proof (B1 hl Hhl) as B3. pose proof (Hml ref Hi) as B5. pose proof (B2 hr Hhr) as B4. assert (Eh : (half * (1 + 1) = 1)%Qc) by (unfold half; field; discriminate).
        assert (E2 : (v + v = coord (hit hl) a + coord (hit hr) a)%Qc). { rewrite Hv. transitivity (half * (1 + 1) * (coord (hit hl) a + coord (hit hr) a))%Qc; [ring|rewrite Eh; ring]. }
        rewrite H. apply Qcle_antisym; qclra.
    + eapply cross_down; [exact Hw0|exact Hi|exact Hin|exact Hc|exact E].
    + destruct (same_side ref a v l r r Hw0 Hnd0 (or_intror eq_refl) Hi _ _ _ E) as (cd & c1 & b1 & E1 & Hinc). apply Hinc. eapply IHr; eauto. intros h' a' H'. apply Hdc, in_app_iff. right; exact H'.
Qed.
Lemma nn_far_pair t : well_split hit t -> NoDup (leaves t) -> forall x y, In x (leaves t) -> In y (leaves t) -> close_to x y -> close_to y x ->
  forall cx cx' bx cy cy' by', neighbours hit root sigmas refdist x t (cx, Far) = Ok (cx', bx) -> neighbours hit root sigmas refdist y t (cy, Far) = Ok (cy', by') ->
  In (separation hit root x y, y) cx' \/ In (separation hit root y x, x) cy'.
Proof.
  induction t as [|h0|a v l IHl r IHr]; intros Hw Hnd x y Hx Hy Hxy Hyx cx cx' bx cy cy' by' Ex Ey; [destruct Hw| |].
  - destruct Hx as [<-|[]], Hy as [<-|[]]. destruct Hxy as [Hne _]. congruence.
  - pose proof Hw as Hw0. cbn [well_split] in Hw. destruct Hw as (Ha & B1 & B2 & _ & Hl & Hr). pose proof Hnd as Hnd0. cbn [leaves] in Hnd, Hx, Hy. apply in_app_iff in Hx, Hy.
    assert (Hdl : NoDup (leaves l)) by (eapply Solver_Sched.NoDup_app_l; eauto). assert (Hdr : NoDup (leaves r)) by (eapply Solver_Sched.NoDup_app_r; eauto).
    destruct Hx as [Hx|Hx], Hy as [Hy|Hy].
    + destruct (same_side x a v l r l Hw0 Hnd0 (or_introl eq_refl) Hx _ _ _ Ex) as (? & c1 & ? & E1 & I1). destruct (same_side y a v l r l Hw0 Hnd0 (or_introl eq_refl) Hy _ _ _ Ey) as (? & c2 & ? & E2 & I2).
      destruct (IHl Hl Hdl x y Hx Hy Hxy Hyx _ _ _ _ _ _ E1 E2) as [H|H]; [left; apply I1, H|right; apply I2, H].
    + right. eapply cross_down; [exact Hw0|exact Hy|exact Hx|exact Hyx|exact Ey].
    + left. eapply cross_down; [exact Hw0|exact Hx|exact Hy|exact Hxy|exact Ex].
    + destruct (same_side x a v l r r Hw0 Hnd0 (or_intror eq_refl) Hx _ _ _ Ex) as (? & c1 & ? & E1 & I1). destruct (same_side y a v l r r Hw0 Hnd0 (or_intror eq_refl) Hy _ _ _ Ey) as (? & c2 & ? & E2 & I2).
      destruct (IHr Hr Hdr x y Hx Hy Hxy Hyx _ _ _ _ _ _ E1 E2) as [H|H]; [left; apply I1, H|right; apply I2, H].
Qed.
Lemma qabs_minus x y : qabs (x - y) = qabs (y - x)%Qc.
Proof. unfold qabs. destruct (qc_lt (x - y) 0) eqn:E1, (qc_lt (y - x) 0) eqn:E2; try apply qc_lt_spec in E1; try apply qc_lt_spec in E2; try apply qc_lt_false in E1; try apply qc_lt_false in E2; try ring; [qclra|]. apply Qcle_antisym; qclra. Qed.
Lemma sep_sym x y : separation hit root x y = separation hit root y x.
Proof. unfold separation, dist_yz. do 2 f_equal. ring. Qed.
Lemma close_sym x y : close_to x y -> close_to y x.
Proof.
  intros (H1 & (C1 & C2 & C3 & C4 & C5 & C6) & H3 & H4). split; [congruence|]. split; [|split].
  - split; [congruence|]. split; [congruence|]. rewrite qabs_minus, Qcplus_comm. split; [exact C3|]. rewrite <- !(Z.abs_opp (_ - _)), !Z.opp_sub_distr, !Z.add_opp_l. auto.
  - rewrite sep_sym. exact H3.
  - intros a Ha. rewrite qabs_minus. apply H4, Ha.
Qed.
Lemma fuel_more : forall fuel l t, build_range hit sort fuel l = Some t -> build_range hit sort (S fuel) l = Some t.
Proof.
  induction fuel as [|fuel IH]; intros l t E; [discriminate|]. cbn [build_range] in E. remember (S fuel) as f eqn:Ef. cbn [build_range]. destruct l as [|h [|h' l]]; [exact E|exact E|]. 
  match type of E with match ?x with Some _ => match ?y with Some _ => _ | None => _ end | None => _ end = _ => destruct x as [t1|] eqn:E1; [destruct y as [t2|] eqn:E2|] end; try discriminate. subst f. rewrite (IH _ _ E1), (IH _ _ E2). exact E.
Qed.
Lemma fuel_enough l fuel : l <> [] -> S (length l) <= fuel -> build_range hit sort fuel l = build_tree hit sort l.
Proof using Hsort.
  intros Hne Hf. destruct (build_ok (S (length l)) l ltac:(lia) Hne) as (t & E & _). unfold build_tree. rewrite E. remember (fuel - S (length l)) as k eqn:Hk. replace fuel with (k + S (length l)) by lia. clear Hk Hf.
  induction k as [|k IH]; [exact E|]. cbn [Nat.add]. apply fuel_more, IH.
Qed.

(** the radius never exceeds RefLeafBestDist once it is finite *)
Lemma nn_radius ref t : well_split hit t -> forall cands best, best = Far \/ best = D refdist -> forall c' b', neighbours hit root sigmas refdist ref t (cands, best) = Ok (c', b') ->
  (b' = Far \/ b' = D refdist) /\ forall d h, In (d, h) c' -> In (d, h) cands \/ (d < refdist)%Qc.
Proof.
  induction t as [|h0|a v l IHl r IHr]; intros Hw cands best Hb c' b' E; [destruct Hw| |].
  - cbn [neighbours fst snd] in E. destruct (Nat.eqb_spec ref h0); [inversion E; subst; split; auto|]. destruct (consistent hit root sigmas ref h0 best) as [s|] eqn:Ec; [|inversion E; subst; split; auto].
    apply consistent_spec in Ec. destruct Ec as (b & -> & _ & -> & Hlt). destruct Hb as [Hb|Hb]; [discriminate|]. inversion Hb; subst b. inversion E; subst. split.
    + right. f_equal. unfold qmax. destruct (qc_lt refdist (separation hit root ref h0)) eqn:Eq; [|reflexivity]. apply qc_lt_spec in Eq. exfalso. qclra.
    + intros d h Hi. apply in_app_iff in Hi. destruct Hi as [Hi|[Hi|[]]]; [auto|]. inversion Hi; subst. auto.
  - cbn [well_split] in Hw. destruct Hw as (_ & _ & _ & _ & Hl & Hr). cbn [neighbours] in E. destruct (qc_lt (coord (hit ref) a) v).
    + destruct (neighbours hit root sigmas refdist ref l (cands, best)) as [[c1 b1]| |] eqn:E1; try discriminate. cbn [obind snd] in E. destruct (IHl Hl _ _ Hb _ _ E1) as [B1 D1]. destruct (reach_up (coord (hit ref) a) b1 v); [|inversion E; subst; split; assumption].
      destruct (IHr Hr _ _ B1 _ _ E) as [B2 D2]. split; [exact B2|]. intros d h Hi. destruct (D2 d h Hi) as [X|X]; [apply D1, X|auto].
    + destruct (neighbours hit root sigmas refdist ref r (cands, best)) as [[c1 b1]| |] eqn:E1; try discriminate. cbn [obind snd] in E. destruct (IHr Hr _ _ Hb _ _ E1) as [B1 D1]. destruct (reach_down (coord (hit ref) a) b1 v); [|inversion E; subst; split; assumption].
      destruct (IHl Hl _ _ B1 _ _ E) as [B2 D2]. split; [exact B2|]. intros d h Hi. destruct (D2 d h Hi) as [X|X]; [apply D1, X|auto].
Qed.
End KD.
