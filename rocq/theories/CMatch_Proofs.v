From Coq Require Import ZifyNat.
From Verif Require Import Base Util MultiMap CMergeBK_Model CMgr_Model CMgr_Spec CMgr_Proofs
  CMatchBK_Model CMatchBK_Spec CMatchBK_Proofs CMComb_Model CMComb_Spec CMComb_Proofs CMatch_Model CMatch_Spec.

(* ---- rank of a present plane ---- *)
Section Rank.
Variable present : nat -> bool.
Definition rank (p : nat) : nat := length (filter present (seq 0 p)).

Lemma rank_S p : rank (S p) = rank p + (if present p then 1 else 0).
Proof. unfold rank. rewrite seq_S, filter_app, app_length. simpl. destruct (present p); reflexivity. Qed.

Lemma rank_mono p q : p <= q -> rank p <= rank q.
Proof. induction 1; [lia|]. rewrite rank_S. lia. Qed.

Lemma rank_lt p q : p < q -> present p = true -> rank p < rank q.
Proof. intros H Hp. assert (K := rank_mono (S p) q H). rewrite rank_S, Hp in K. lia. Qed.

Lemma rank_surj : forall n r, r < rank n -> exists p, p < n /\ present p = true /\ rank p = r.
Proof.
  induction n as [|n IH]; intros r H; [unfold rank in H; simpl in H; lia|].
  rewrite rank_S in H. destruct (present n) eqn:E.
  - destruct (Nat.eq_dec r (rank n)) as [->|N]; [exists n; auto|].
    destruct (IH r ltac:(lia)) as (p & A & B & C). exists p. auto.
  - destruct (IH r ltac:(lia)) as (p & A & B & C). exists p. auto.
Qed.

Lemma rank_le n : rank n <= n.
Proof. induction n; [unfold rank; simpl; lia|]. rewrite rank_S. destruct (present n); lia. Qed.

Lemma rank_inj p q : present p = true -> present q = true -> rank p = rank q -> p = q.
Proof.
  intros Hp Hq E. destruct (Nat.lt_trichotomy p q) as [L|[L|L]]; [|exact L|].
  - pose proof (rank_lt p q L Hp). lia.
  - pose proof (rank_lt q p L Hq). lia.
Qed.
End Rank.

Lemma answers_length {hit extra W} (cl : list (cluster hit extra)) (alg : W -> list (cluster hit extra) -> W * Z) :
  forall cands w, length (snd (answers alg cl w cands)) = length cands.
Proof.
  induction cands as [|s cands IH]; intros w; simpl; [reflexivity|].
  destruct (alg w (clusters_of cl s)) as [w1 x]. specialize (IH w1). destruct (answers alg cl w1 cands) as [w2 xs]. simpl in *. lia.
Qed.

Section Fill.
Context {hit extra W : Type}.
Variable cl : list (cluster hit extra).
Variable nplanes : nat.
Variable planes : list Z.
Variable ord : list nat.
Hypothesis Hnp : nplanes <= 33.
Hypothesis Hnd : NoDup ord.
Hypothesis Hord : forall i, In i ord -> i < length cl /\ (0 <= plane_of cl i < Z.of_nat nplanes)%Z.
Hypothesis Hpl : forall z, In z planes <-> exists i, In i ord /\ z = plane_of cl i.

Let present (p : nat) : bool := existsb (Z.eqb (uchar (Z.of_nat p))) planes.
Let onp (p i : nat) : bool := (plane_of cl i =? Z.of_nat p)%Z.
Let plz (i : nat) : nat := Z.to_nat (plane_of cl i).

Lemma present_iff p : p < nplanes -> (present p = true <-> exists i, In i ord /\ plane_of cl i = Z.of_nat p).
Proof.
  intros Hp. unfold present. rewrite existsb_exists. unfold uchar. rewrite Z.mod_small by lia. split.
  - intros (z & Hz & E). apply Z.eqb_eq in E. apply Hpl in Hz. destruct Hz as (i & Hi & ->). exists i; auto.
  - intros (i & Hi & E). exists (plane_of cl i). split; [apply Hpl; exists i; auto|apply Z.eqb_eq; auto].
Qed.

Lemma present_ord i : In i ord -> plz i < nplanes /\ present (plz i) = true /\ plane_of cl i = Z.of_nat (plz i).
Proof.
  intros Hi. destruct (Hord i Hi) as [_ B]. unfold plz. assert (Z.to_nat (plane_of cl i) < nplanes) by lia.
  split; [assumption|]. split; [|lia]. apply present_iff; [assumption|]. exists i. split; [exact Hi|lia].
Qed.

Lemma plane_index_ok : exists pti, plane_index nplanes planes = Ok (pti, repeat [] (rank present nplanes)) /\
  length pti = nplanes /\ (forall p, p < nplanes -> present p = true -> nth p pti 0 = rank present p).
Proof.
  unfold plane_index. fold present.
  destruct (for_range_inv (fun k (st : list nat * list (list nat)) =>
     length (fst st) = nplanes /\ snd st = repeat [] (rank present k) /\
     (forall p, p < k -> present p = true -> nth p (fst st) 0 = rank present p))
     (fun (st : list nat * list (list nat)) plane =>
    let (pti, ca) := st in
    if present plane
    then do pti' <- set_idx pti plane (length ca); Ok (pti', ca ++ [[]])
    else Ok st) 0 nplanes (repeat nplanes nplanes, [])) as ([pti ca] & E & L & C & P).
  - lia.
  - simpl. rewrite repeat_length. split; [reflexivity|]. split; [reflexivity|]. intros; lia.
  - intros k [pti ca] Hk (L & C & P). simpl in L, C, P. destruct (present k) eqn:Ek.
    + rewrite set_idx_ok by lia. cbn [obind]. eexists. split; [reflexivity|]. cbn [fst snd].
      split; [rewrite upd_length; exact L|]. split.
      * rewrite rank_S, Ek, Nat.add_1_r, repeat_S_end, C. reflexivity.
      * intros p Hp Hpp. destruct (Nat.eq_dec p k) as [->|N].
        -- rewrite nth_upd_same by lia. rewrite C, repeat_length. reflexivity.
        -- rewrite nth_upd_other by exact N. apply P; [lia|exact Hpp].
    + eexists. split; [reflexivity|]. cbn [fst snd]. split; [exact L|]. split.
      * rewrite rank_S, Ek, Nat.add_0_r. exact C.
      * intros p Hp Hpp. apply P; [|exact Hpp]. destruct (Nat.eq_dec p k); [congruence|lia].
  - simpl in L, C, P. exists pti. subst ca. split; [exact E|]. split; [exact L|exact P].
Qed.

Definition table_ok (ca : list (list nat)) (seen : list nat) : Prop :=
  length ca = rank present nplanes /\
  forall p, p < nplanes -> present p = true -> nth (rank present p) ca [] = filter (onp p) seen.

Lemma fill_ok pti : length pti = nplanes -> (forall p, p < nplanes -> present p = true -> nth p pti 0 = rank present p) ->
  forall todo seen ca, (forall i, In i todo -> In i ord) -> table_ok ca seen ->
  exists ca', foreach todo (fill_one cl pti) ca = Ok ca' /\ table_ok ca' (seen ++ todo).
Proof.
  intros Lp Hp. induction todo as [|i todo IH]; intros seen ca Hin [L T].
  - exists ca. rewrite app_nil_r. split; [reflexivity|split; assumption].
  - assert (Hi : In i ord) by (apply Hin; left; reflexivity).
    destruct (present_ord i Hi) as (Q1 & Q2 & Q3). destruct (Hord i Hi) as [Li Bi].
    cbn [foreach]. unfold fill_one at 1.
    destruct (nth_error cl i) as [c|] eqn:Ec; [|apply nth_error_None in Ec; lia].
    assert (Epl : plane_of cl i = cplane c) by (unfold plane_of; rewrite Ec; reflexivity).
    unfold at_ at 1. rewrite Ec. cbn [obind]. unfold at_int. rewrite <- Epl.
    destruct (Z.ltb_spec (plane_of cl i) 0); [lia|]. fold (plz i).
    rewrite (at_ok pti (plz i) 0) by lia. cbn [obind]. rewrite Hp by assumption.
    assert (Rl : rank present (plz i) < length ca) by (rewrite L; apply rank_lt; assumption).
    rewrite (at_ok ca _ []) by exact Rl. cbn [obind]. rewrite set_at_ok by exact Rl. cbn [obind].
    destruct (IH (seen ++ [i]) (upd ca (rank present (plz i)) (nth (rank present (plz i)) ca [] ++ [i]))) as (ca' & E & T').
    + intros j Hj. apply Hin. right; exact Hj.
    + split; [rewrite upd_length; exact L|]. intros p Hpn Hpp. rewrite filter_app. cbn [filter].
      unfold onp at 2. destruct (Nat.eq_dec p (plz i)) as [->|N].
      * rewrite nth_upd_same by exact Rl. rewrite T by assumption. rewrite Q3, Z.eqb_refl. reflexivity.
      * rewrite nth_upd_other.
        -- rewrite T by assumption. destruct (Z.eqb_spec (plane_of cl i) (Z.of_nat p)); [exfalso; apply N; lia|]. rewrite app_nil_r. reflexivity.
        -- intros E. apply N. apply (rank_inj present); assumption.
    + exists ca'. split; [exact E|]. rewrite <- app_assoc in T'. exact T'.
Qed.

Lemma table_init : table_ok (repeat [] (rank present nplanes)) [].
Proof.
  split; [apply repeat_length|]. intros p Hp Hpp. simpl.
  destruct (Nat.lt_ge_cases (rank present p) (rank present nplanes)); [apply nth_repeat|apply nth_overflow; rewrite repeat_length; assumption].
Qed.

Section Table.
Variable ca : list (list nat).
Hypothesis T : table_ok ca ord.
Let cell (rk : nat * nat) : nat := nth (snd rk) (nth (fst rk) ca []) 0.
Let seed := map (@length nat) ca.

Lemma cell_ok r k : r < length ca -> k < length (nth r ca []) ->
  In (cell (r, k)) ord /\ rank present (plz (cell (r, k))) = r.
Proof.
  intros Hr Hk. destruct T as [L F]. rewrite L in Hr. destruct (rank_surj present nplanes r Hr) as (p & P1 & P2 & <-).
  unfold cell. cbn [fst snd]. rewrite F in Hk |- * by assumption.
  assert (Hin : In (nth k (filter (onp p) ord) 0) (filter (onp p) ord)) by (apply nth_In; exact Hk).
  apply filter_In in Hin. revert Hin. generalize (nth k (filter (onp p) ord) 0) as i. intros i [A B].
  split; [exact A|]. unfold onp in B. apply Z.eqb_eq in B. unfold plz. rewrite B, Nat2Z.id. reflexivity.
Qed.

Lemma row_NoDup r : NoDup (nth r ca []).
Proof.
  destruct T as [L F]. destruct (Nat.lt_ge_cases r (length ca)) as [H|H]; [|rewrite nth_overflow by exact H; constructor].
  rewrite L in H. destruct (rank_surj present nplanes r H) as (p & P1 & P2 & <-). rewrite F by assumption. apply NoDup_filter, Hnd.
Qed.

Lemma seed_nth r : nth r seed 0 = length (nth r ca []).
Proof. unfold seed. change 0 with (@length nat []). apply map_nth. Qed.

Lemma seed_pos : Forall (fun s => 0 < s) seed.
Proof.
  apply Forall_forall. intros s Hs. apply in_map_iff in Hs. destruct Hs as (row & <- & Hr).
  destruct (In_nth _ _ [] Hr) as (r & Lr & <-). destruct T as [L F]. rewrite L in Lr.
  destruct (rank_surj present nplanes r Lr) as (p & P1 & P2 & <-). rewrite F by assumption.
  apply present_iff in P2; [|exact P1]. destruct P2 as (i & Hi & Ei).
  assert (K : In i (filter (onp p) ord)) by (apply filter_In; split; [exact Hi|unfold onp; apply Z.eqb_eq; exact Ei]).
  destruct (filter (onp p) ord); [destruct K|simpl; lia].
Qed.

Lemma seed_len : length seed <= 33.
Proof. unfold seed. rewrite map_length. destruct T as [L _]. rewrite L. pose proof (rank_le present nplanes). lia. Qed.

Definition cand (s : list nat) : Prop :=
  2 <= length s /\ StronglySorted (fun i j => (plane_of cl i < plane_of cl j)%Z) s /\ forall i, In i s -> In i ord.

Lemma choice_entry c : plane_choice seed c -> forall rk, In rk c -> fst rk < length ca /\ snd rk < length (nth (fst rk) ca []).
Proof.
  intros (_ & _ & B) [r k] Hin. specialize (B r k Hin). rewrite seed_nth in B. unfold seed in B. rewrite map_length in B. exact B.
Qed.

Lemma choice_cand c : plane_choice seed c -> cand (map cell c).
Proof.
  intros Hc. pose proof (choice_entry c Hc) as He. destruct Hc as (L & S & _).
  split; [rewrite map_length; exact L|]. split.
  - clear L. revert S He. induction c as [|[r k] c IH]; intros S He; [constructor|].
    cbn [map fst] in S. inversion S as [|? ? S1 F1]; subst. cbn [map]. constructor.
    + apply IH; [exact S1|]. intros rk Hrk. apply He. right; exact Hrk.
    + apply Forall_forall. intros j Hj. apply in_map_iff in Hj. destruct Hj as ([r2 k2] & <- & H2).
      rewrite Forall_forall in F1. specialize (F1 r2 (in_map fst _ _ H2)).
      destruct (He (r, k)) as [A1 A2]; [simpl; auto|]. destruct (He (r2, k2)) as [B1 B2]; [simpl; auto|].
      destruct (cell_ok r k A1 A2) as [C1 C2]. destruct (cell_ok r2 k2 B1 B2) as [D1 D2].
      destruct (present_ord _ C1) as (X1 & X2 & X3). destruct (present_ord _ D1) as (Y1 & Y2 & Y3).
      rewrite X3, Y3. apply inj_lt.
      destruct (Nat.lt_ge_cases (plz (cell (r, k))) (plz (cell (r2, k2)))) as [?|G]; [assumption|].
      pose proof (rank_mono present _ _ G). lia.
  - intros i Hi. apply in_map_iff in Hi. destruct Hi as ([r k] & <- & H). destruct (He _ H) as [A B]. apply (cell_ok r k A B).
Qed.

Lemma cell_inj c c' : plane_choice seed c -> plane_choice seed c' -> map cell c = map cell c' -> c = c'.
Proof.
  intros H H'. pose proof (choice_entry c H) as E. pose proof (choice_entry c' H') as E'. clear H H'.
  revert c' E'. induction c as [|[r k] c IH]; intros [|[r' k'] c'] E' M; try discriminate; [reflexivity|].
  simpl in M. injection M as M0 M1. f_equal.
  - destruct (E (r, k) (or_introl eq_refl)) as [A1 A2]. destruct (E' (r', k') (or_introl eq_refl)) as [B1 B2]. cbn [fst snd] in *.
    destruct (cell_ok r k A1 A2) as [_ C]. destruct (cell_ok r' k' B1 B2) as [_ D]. rewrite M0 in C.
    assert (r = r') by congruence. subst r'. f_equal.
    apply (proj1 (NoDup_nth (nth r ca []) 0) (row_NoDup r)); assumption.
  - apply IH; [intros rk Hrk; apply E; right; exact Hrk|intros rk Hrk; apply E'; right; exact Hrk|exact M1].
Qed.

Lemma cand_choice s : cand s -> exists c, plane_choice seed c /\ map cell c = s.
Proof.
  intros (L & S & B).
  assert (K : forall s, (forall i, In i s -> In i ord) -> exists c, map cell c = s /\ map fst c = map (fun i => rank present (plz i)) s /\
     forall r k, In (r, k) c -> r < length seed /\ k < nth r seed 0).
  { clear L S B s. induction s as [|i s IH]; intros B; [exists []; split; [reflexivity|]; split; [reflexivity|intros r k []]|].
    destruct (IH (fun j Hj => B j (or_intror Hj))) as (c & E1 & E2 & E3).
    assert (Hi : In i ord) by (apply B; left; reflexivity). destruct (present_ord i Hi) as (P1 & P2 & P3).
    destruct T as [LT F].
    assert (Hrow : In i (nth (rank present (plz i)) ca [])).
    { rewrite F by assumption. apply filter_In. split; [exact Hi|]. unfold onp. apply Z.eqb_eq. exact P3. }
    destruct (In_nth _ _ 0 Hrow) as (k & Lk & Ek).
    exists ((rank present (plz i), k) :: c). simpl. split; [f_equal; [exact Ek|exact E1]|]. split; [f_equal; exact E2|].
    intros r k' [E|Hin]; [|apply E3, Hin]. injection E as <- <-. rewrite seed_nth. split; [|exact Lk].
    unfold seed. rewrite map_length, LT. apply rank_lt; assumption. }
  destruct (K s B) as (c & E1 & E2 & E3). exists c. split; [|exact E1].
  split; [rewrite <- E1, map_length in L; exact L|]. split; [|exact E3].
  rewrite E2. clear L E1 E2 E3 c K. induction s as [|i s IH]; simpl; [constructor|].
  inversion S as [|? ? S1 F1]; subst. constructor; [apply IH; [exact S1|intros j Hj; apply B; right; exact Hj]|].
  apply Forall_forall. intros r Hr. apply in_map_iff in Hr. destruct Hr as (j & <- & Hj).
  rewrite Forall_forall in F1. specialize (F1 j Hj).
  destruct (present_ord i (B i (or_introl eq_refl))) as (A1 & A2 & A3). destruct (present_ord j (B j (or_intror Hj))) as (B1 & B2 & B3).
  apply rank_lt; [lia|exact A2].
Qed.

Hypothesis Hbig : (Z.of_nat (length cl) < 4294967295)%Z.

Lemma rows_ask comb : plane_choice seed comb ->
  foreach comb (fun (acc : list nat * list (cluster hit extra)) pc =>
      do row <- at_ ca (fst pc);
      do i <- at_ row (snd pc);
      do c <- at_ cl i;
      Ok (fst acc ++ [u32 i], snd acc ++ [c])) ([], [])
  = Ok (map cell comb, clusters_of cl (map cell comb)).
Proof.
  intros Hc. pose proof (choice_entry comb Hc) as He. clear Hc.
  assert (G : forall comb acc1 acc2, (forall rk, In rk comb -> fst rk < length ca /\ snd rk < length (nth (fst rk) ca [])) ->
    foreach comb (fun (acc : list nat * list (cluster hit extra)) pc =>
      do row <- at_ ca (fst pc);
      do i <- at_ row (snd pc);
      do c <- at_ cl i;
      Ok (fst acc ++ [u32 i], snd acc ++ [c])) (acc1, acc2) = Ok (acc1 ++ map cell comb, acc2 ++ clusters_of cl (map cell comb))).
  { clear comb He. induction comb as [|[r k] comb IH]; intros acc1 acc2 He.
    - simpl. rewrite !app_nil_r. reflexivity.
    - destruct (He (r, k) (or_introl eq_refl)) as [A B]. cbn [fst snd] in A, B. cbn [foreach fst snd].
      rewrite (at_ok ca r []) by exact A. cbn [obind]. rewrite (at_ok _ k 0) by exact B. cbn [obind].
      change (nth k (nth r ca []) 0) with (cell (r, k)).
      destruct (cell_ok r k A B) as [C _]. destruct (Hord _ C) as [D _].
      destruct (nth_error cl (cell (r, k))) as [c|] eqn:Ec; [|apply nth_error_None in Ec; lia].
      unfold at_. rewrite Ec. cbn [obind]. rewrite IH by (intros rk Hrk; apply He; right; exact Hrk).
      cbn [map]. unfold clusters_of at 2. cbn [flat_map]. rewrite Ec. fold (clusters_of cl (map cell comb)).
      assert (U : u32 (cell (r, k)) = cell (r, k)) by (unfold u32; rewrite Z.mod_small by lia; lia).
      rewrite U, <- !app_assoc. reflexivity. }
  rewrite G by exact He. reflexivity.
Qed.

Definition positives (tr : list (list nat * Z)) : list (Z * list nat) :=
  map (fun q => (snd q, fst q)) (filter (fun q => 0 <? snd q)%Z tr).

Lemma ask_ok (alg : W -> list (cluster hit extra) -> W * Z) : forall combs w (r : reg) tr, (forall c, In c combs -> plane_choice seed c) ->
  let cands := map (map cell) combs in
  let qs := List.combine cands (snd (answers alg cl w cands)) in
  foreach combs (ask_one alg cl ca) (w, r, tr) =
    Ok (fst (answers alg cl w cands), fold_left (fun r x => reg_match r (snd x) (fst x)) (positives qs) r, tr ++ qs).
Proof.
  induction combs as [|c combs IH]; intros w r tr H.
  - simpl. rewrite app_nil_r. reflexivity.
  - cbn [foreach map answers].
    assert (Ek : ask_one alg cl ca (w, r, tr) c = let (w1, x) := alg w (clusters_of cl (map cell c)) in
       Ok (w1, if (0 <? x)%Z then reg_match r (map cell c) x else r, tr ++ [(map cell c, x)])).
    { unfold ask_one. rewrite rows_ask by (apply H; left; reflexivity). reflexivity. }
    rewrite Ek. clear Ek. destruct (alg w (clusters_of cl (map cell c))) as [w1 x] eqn:Ea. cbn [obind].
    specialize (IH w1 (if (0 <? x)%Z then reg_match r (map cell c) x else r) (tr ++ [(map cell c, x)]) (fun d Hd => H d (or_intror Hd))).
    cbv zeta in IH |- *. etransitivity; [exact IH|]. clear IH. destruct (answers alg cl w1 (map (map cell) combs)) as [w2 xs]. cbn [fst snd List.combine].
    unfold positives. cbn [filter snd]. destruct (0 <? x)%Z; cbn [map fold_left fst snd]; rewrite <- app_assoc; reflexivity.
Qed.
End Table.
End Fill.
