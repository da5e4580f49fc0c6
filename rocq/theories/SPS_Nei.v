From Coq Require Import QArith Qcanon Lqa.
From Verif Require Import Base Util QcUtil Solver_Model Solver_Proofs CMComb_Proofs PT_Connect SPS_Model SPS_Spec SPS_System.
Local Open Scope Qc_scope.

Definition qz (z : Z) : Qc := Q2Qc (inject_Z z).
(** truncation *)
Lemma trunc_nonneg q : 0 <= q -> qz (trunc q) <= q /\ q < qz (trunc q) + 1.
Proof.
  intros H. unfold trunc. set (n := Qnum (this q)). set (d := Qden (this q)). assert (Eq : (this q == n # d)%Q) by (destruct (this q); reflexivity). change (0 <= this q)%Q in H. rewrite Eq in H. assert (Hn : (0 <= n)%Z) by (unfold Qle in H; cbn in H; lia).
  assert (Hd := Z.quot_rem' n (Zpos d)). assert (Hr := Z.rem_bound_pos n (Zpos d) Hn ltac:(lia)). set (z := Z.quot n (Zpos d)) in *. split; qc2q; unfold qz; rewrite !this_Q2Qc, Eq; unfold Qle, Qlt; cbn; nia.
Qed.
Lemma trunc_neg q : q <= 0 -> q <= qz (trunc q) /\ qz (trunc q) < q + 1.
Proof.
  intros H. unfold trunc. set (n := Qnum (this q)). set (d := Qden (this q)). assert (Eq : (this q == n # d)%Q) by (destruct (this q); reflexivity). change (this q <= 0)%Q in H. rewrite Eq in H. assert (Hn : (n <= 0)%Z) by (unfold Qle in H; cbn in H; lia).
  assert (Hd := Z.quot_rem' n (Zpos d)). assert (Hr' : (- Zpos d < Z.rem n (Zpos d) <= 0)%Z) by (destruct (Z.eq_dec n 0) as [->|]; [rewrite Z.rem_0_l by lia; lia|apply Z.rem_bound_pos_neg; lia]). set (z := Z.quot n (Zpos d)) in *. split; qc2q; unfold qz; rewrite !this_Q2Qc, Eq; unfold Qle, Qlt; cbn; nia.
Qed.
Lemma qz_lt a b : qz a < qz b + 1 -> (a <= b)%Z.
Proof. intros H. unfold qz in H. qc2q. unfold inject_Z in H. unfold Qlt in H. cbn in H. lia. Qed.
Lemma qz_plus a b : qz (a + b) = qz a + qz b.
Proof. unfold qz. apply Qc_is_canon. rewrite this_plus, !this_Q2Qc, inject_Z_plus. reflexivity. Qed.
Lemma trunc_close x y : x <= y + 1 -> (trunc x <= trunc y + 1)%Z.
Proof.
  intros H. apply qz_lt. rewrite qz_plus. change (qz 1) with 1.
  destruct (Qclt_le_dec x 0) as [Hx|Hx]; destruct (Qclt_le_dec y 0) as [Hy|Hy].
  - destruct (trunc_neg x (Qclt_le_weak _ _ Hx)) as (A & B). destruct (trunc_neg y (Qclt_le_weak _ _ Hy)) as (C & D). qclra.
  - destruct (trunc_neg x (Qclt_le_weak _ _ Hx)) as (A & B). destruct (trunc_nonneg y Hy) as (C & D). qclra.
  - destruct (trunc_nonneg x Hx) as (A & B). destruct (trunc_neg y (Qclt_le_weak _ _ Hy)) as (C & D). qclra.
  - destruct (trunc_nonneg x Hx) as (A & B). destruct (trunc_nonneg y Hy) as (C & D). qclra.
Qed.
Lemma trunc_bound q b : - qz b <= q -> q <= qz b -> (- b <= trunc q <= b)%Z.
Proof.
  intros H1 H2. destruct (Qclt_le_dec q 0) as [Hx|Hx].
  - destruct (trunc_neg q (Qclt_le_weak _ _ Hx)) as (A & B). assert (qz (- b) < qz (trunc q) + 1) by (replace (qz (- b)) with (- qz b) by (unfold qz; apply Qc_is_canon; rewrite this_opp, !this_Q2Qc, inject_Z_opp; reflexivity); qclra). assert (qz (trunc q) < qz 0 + 1) by (change (qz 0) with 0; qclra). assert (qz 0 <= qz b) by (change (qz 0) with 0; qclra). apply qz_lt in H, H0. assert (qz 0 < qz b + 1) by qclra. apply qz_lt in H4. lia.
  - destruct (trunc_nonneg q Hx) as (A & B). assert (qz (trunc q) < qz b + 1) by qclra. assert (qz 0 < qz (trunc q) + 1) by (change (qz 0) with 0; qclra). apply qz_lt in H, H0. lia.
Qed.
Lemma crit_pos : crit <> 0. Proof. discriminate. Qed.
Lemma crit_val x : x / crit * crit = x. Proof. field. exact crit_pos. Qed.
Lemma crit_this : (this crit == 5)%Q. Proof. reflexivity. Qed.

(** the cell of a position *)
Definition icell (p : pos3) : cell := (trunc (fst (fst p) / crit), trunc (snd (fst p) / crit), trunc (snd p / crit)).
Lemma to_int_ok x : - big <= x -> x <= big -> to_int (x / crit) = Ok (trunc (x / crit)) /\ (-2000000000 <= trunc (x / crit) <= 2000000000)%Z.
Proof.
  intros H1 H2. assert (B : (-2000000000 <= trunc (x / crit) <= 2000000000)%Z).
  { apply (trunc_bound _ 2000000000).
    - assert (E := crit_val x). assert (C := crit_this). revert E. generalize (x / crit). intros y E. unfold qz, big in *. qc2q. rewrite C in E. assert ((inject_Z 2000000000 == 2000000000)%Q) by reflexivity. lra.
    - assert (E := crit_val x). assert (C := crit_this). revert E. generalize (x / crit). intros y E. unfold qz, big in *. qc2q. rewrite C in E. assert ((inject_Z 2000000000 == 2000000000)%Q) by reflexivity. lra. }
  split; [|exact B]. unfold to_int, int_ok. destruct (Z.leb_spec (-2147483648) (trunc (x / crit))); [|lia]. destruct (Z.leb_spec (trunc (x / crit)) 2147483647); [|lia]. reflexivity.
Qed.
Definition small (z : Z) : Prop := (-2000000000 <= z <= 2000000000)%Z.
Lemma int_coord_ok p : fits p -> int_coord p = Ok (icell p) /\ small (fst (fst (icell p))) /\ small (snd (fst (icell p))) /\ small (snd (icell p)).
Proof.
  destruct p as [[x y] z]. intros (A & B & C & D & E & F). cbn [fst snd] in *. unfold int_coord, icell, small. cbn [fst snd]. destruct (to_int_ok x A B) as (-> & X). destruct (to_int_ok y C D) as (-> & Y). destruct (to_int_ok z E F) as (-> & Z). cbn [obind]. auto.
Qed.
Lemma int_plus_ok a d : small a -> (-1 <= d <= 1)%Z -> int_plus a d = Ok (a + d)%Z.
Proof. unfold small. intros H1 H2. unfold int_plus, int_ok. destruct (Z.leb_spec (-2147483648) (a + d)); [|lia]. destruct (Z.leb_spec (a + d) 2147483647); [|lia]. reflexivity. Qed.
Definition deltas : list cell := flat_map (fun dx => flat_map (fun dy => map (fun dz => (dx, dy, dz)) [-1; 0; 1]%Z) [-1; 0; 1]%Z) [-1; 0; 1]%Z.
Definition shift (c d : cell) : cell := match c, d with (x, y, z), (dx, dy, dz) => (x + dx, y + dy, z + dz)%Z end.
Lemma cell_neighbours_ok c : small (fst (fst c)) -> small (snd (fst c)) -> small (snd c) -> cell_neighbours c = Ok (map (shift c) deltas).
Proof.
  destruct c as [[x y] z]. cbn [fst snd]. intros Hx Hy Hz. unfold cell_neighbours, deltas. cbn [foreach flat_map map app].
  repeat first [rewrite (int_plus_ok x) by (assumption || lia) | rewrite (int_plus_ok y) by (assumption || lia) | rewrite (int_plus_ok z) by (assumption || lia)]. cbn [obind app shift]. reflexivity.
Qed.
Lemma cell_eqb_spec a b : cell_eqb a b = true <-> a = b.
Proof. destruct a as [[x y] z], b as [[x' y'] z']. unfold cell_eqb. rewrite !andb_true_iff, !Z.eqb_eq. split; [intros ((-> & ->) & ->); reflexivity|intros E; injection E as -> -> ->; auto]. Qed.
Lemma deltas_in d : In d deltas <-> (-1 <= fst (fst d) <= 1 /\ -1 <= snd (fst d) <= 1 /\ -1 <= snd d <= 1)%Z.
Proof.
  destruct d as [[x y] z]. cbn [fst snd]. split.
  - unfold deltas. cbn. intros H. repeat (destruct H as [H|H]; [injection H as <- <- <-; lia|]). destruct H.
  - intros (Hx & Hy & Hz). unfold deltas. apply in_flat_map. exists x. split; [cbn; lia|]. apply in_flat_map. exists y. split; [cbn; lia|]. apply in_map_iff. exists z. split; [reflexivity|cbn; lia].
Qed.
Lemma deltas_nodup : NoDup deltas.
Proof. unfold deltas. cbn. repeat (constructor; [cbn; intuition discriminate|]). constructor. Qed.
Lemma shift_in c c' : In c' (map (shift c) deltas) <-> (-1 <= fst (fst c') - fst (fst c) <= 1 /\ -1 <= snd (fst c') - snd (fst c) <= 1 /\ -1 <= snd c' - snd c <= 1)%Z.
Proof.
  rewrite in_map_iff. destruct c as [[x y] z], c' as [[x' y'] z']. cbn [fst snd]. split.
  - intros (d & E & Hd). apply deltas_in in Hd. destruct d as [[a b] e]. cbn [fst snd shift] in *. injection E as <- <- <-. lia.
  - intros H. exists (x' - x, y' - y, z' - z)%Z. split; [cbn; f_equal; [f_equal|]; lia|]. apply deltas_in. cbn [fst snd]. lia.
Qed.
Lemma shift_nodup c : NoDup (map (shift c) deltas).
Proof. apply map_nodup_in; [apply deltas_nodup|]. intros [[a b] e] [[a' b'] e'] _ _ E. destruct c as [[x y] z]. cbn in E. injection E as E1 E2 E3. f_equal; [f_equal|]; lia. Qed.

(** the map of cells *)
Lemma cell_map_gen (pos : nat -> pos3) scs : forall m, (forall s, In s scs -> fits (pos s)) -> exists m', foreach scs (fun m s => do c <- int_coord (pos s); Ok (fun c' => if cell_eqb c' c then m c' ++ [s] else m c')) m = Ok m' /\
  forall c, m' c = m c ++ filter (fun s => cell_eqb c (icell (pos s))) scs.
Proof.
  induction scs as [|s scs IH]; intros m H; cbn [foreach filter]; [exists m; split; [reflexivity|intros c; rewrite app_nil_r; reflexivity]|]. rewrite (proj1 (int_coord_ok _ (H s (or_introl eq_refl)))). cbn [obind].
  destruct (IH (fun c' => if cell_eqb c' (icell (pos s)) then m c' ++ [s] else m c') (fun x Hx => H x (or_intror Hx))) as (m' & E & Hm). exists m'. split; [exact E|]. intros c. rewrite Hm. destruct (cell_eqb c (icell (pos s))); [rewrite <- app_assoc|]; reflexivity.
Qed.
Lemma cell_map_ok pos scs : (forall s, In s scs -> fits (pos s)) -> exists m, cell_map pos scs = Ok m /\ forall c, m c = filter (fun s => cell_eqb c (icell (pos s))) scs.
Proof. intros H. destruct (cell_map_gen pos scs (fun _ => []) H) as (m & E & Hm). exists m. split; [exact E|exact Hm]. Qed.

Definition near (pos : nat -> pos3) (s1 s2 : nat) : bool := negb (Nat.eqb s1 s2) && negb (qc_lt (crit * crit) (dist2 (pos s1) (pos s2))) && negb (qc_eqb (dist2 (pos s1) (pos s2)) 0).
Lemma try_fold ex pos s1 l : forall acc, fold_left (try_neighbour ex pos s1) l acc = acc ++ map (fun s2 => (s2, ex (dist2 (pos s1) (pos s2)))) (filter (near pos s1) l).
Proof.
  induction l as [|s l IH]; intros acc; cbn [fold_left filter]; [cbn [map]; rewrite app_nil_r; reflexivity|]. rewrite IH. unfold try_neighbour, near at 2. destruct (Nat.eqb s1 s); cbn [negb andb]; [reflexivity|]. destruct (qc_lt (crit * crit) _); cbn [negb andb]; [reflexivity|]. destruct (qc_eqb _ 0); cbn [negb]; [reflexivity|]. rewrite <- app_assoc. reflexivity.
Qed.
Definition nei_list (ex : Qc -> Qc) (pos : nat -> pos3) (scs : list nat) (s1 : nat) : list (nat * Qc) :=
  flat_map (fun icn => map (fun s2 => (s2, ex (dist2 (pos s1) (pos s2)))) (filter (near pos s1) (filter (fun s => cell_eqb icn (icell (pos s))) scs))) (map (shift (icell (pos s1))) deltas).
Lemma foreach_fold {A S} (f : S -> A -> S) l : forall s, foreach l (fun s a => Ok (f s a)) s = Ok (fold_left f l s).
Proof. induction l as [|a l IH]; intros s; cbn [foreach fold_left obind]; [reflexivity|apply IH]. Qed.
Lemma add_neighbours_ok ex pos scs : NoDup scs -> (forall s, In s scs -> fits (pos s)) -> exists nei, add_neighbours ex pos scs = Ok nei /\ (forall s, In s scs -> nei s = nei_list ex pos scs s) /\ (forall s, ~ In s scs -> nei s = []).
Proof.
  intros Nd Hf. unfold add_neighbours. destruct (cell_map_ok pos scs Hf) as (m & -> & Hm). cbn [obind].
  set (body := fun (nei : nat -> list (nat * Qc)) s1 => _).
  assert (G : forall l done nei, (forall s, In s l -> fits (pos s)) -> NoDup (done ++ l) -> (forall s, In s done -> nei s = nei_list ex pos scs s) -> (forall s, ~ In s done -> nei s = []) ->
    exists nei', foreach l body nei = Ok nei' /\ (forall s, In s (done ++ l) -> nei' s = nei_list ex pos scs s) /\ (forall s, ~ In s (done ++ l) -> nei' s = [])).
  { induction l as [|s1 l IH]; intros done nei Hl Nl H1 H2; cbn [foreach]; [rewrite app_nil_r; eauto|]. assert (Eb : body nei s1 = Ok (fun s => if Nat.eqb s s1 then nei_list ex pos scs s1 else nei s)).
    { unfold body. destruct (int_coord_ok _ (Hl s1 (or_introl eq_refl))) as (-> & A & B & C). cbn [obind]. rewrite (cell_neighbours_ok _ A B C). cbn [obind]. rewrite (foreach_fold (fun l icn => fold_left (try_neighbour ex pos s1) (m icn) l)). cbn [obind]. f_equal.
      assert (Hn : ~ In s1 done) by (apply NoDup_remove_2 in Nl; intros X; apply Nl, in_or_app; left; exact X). rewrite (H2 s1 Hn). unfold nei_list.
      assert (F : forall cs acc, fold_left (fun l icn => fold_left (try_neighbour ex pos s1) (m icn) l) cs acc = acc ++ flat_map (fun icn => map (fun s2 => (s2, ex (dist2 (pos s1) (pos s2)))) (filter (near pos s1) (filter (fun s => cell_eqb icn (icell (pos s))) scs))) cs).
      { induction cs as [|c cs IHc]; intros acc; cbn [fold_left flat_map]; [rewrite app_nil_r; reflexivity|]. rewrite IHc, try_fold, Hm, <- app_assoc. reflexivity. }
      rewrite F. reflexivity. }
    rewrite Eb. cbn [obind]. destruct (IH (done ++ [s1]) (fun s => if Nat.eqb s s1 then nei_list ex pos scs s1 else nei s)) as (nei' & E & G1 & G2).
    - intros s Hs. apply Hl. right. exact Hs.
    - rewrite <- app_assoc. exact Nl.
    - intros s Hs. destruct (Nat.eqb_spec s s1) as [->|Hne]; [reflexivity|]. apply H1. apply in_app_iff in Hs. destruct Hs as [Hs|[->|[]]]; [exact Hs|congruence].
    - intros s Hs. destruct (Nat.eqb_spec s s1) as [->|Hne]; [exfalso; apply Hs, in_or_app; right; left; reflexivity|]. apply H2. intros X. apply Hs, in_or_app. left. exact X.
    - rewrite <- app_assoc in G1, G2. cbn [app] in G1, G2. eauto. }
  exact (G scs [] (fun _ => []) Hf Nd (fun s (H : In s []) => match H with end) (fun s _ => eq_refl)).
Qed.
Lemma dist2_d2 p p' : dist2 p p' = d2 p p'.
Proof. destruct p as [[x y] z], p' as [[x' y'] z']. reflexivity. Qed.
Lemma d2_sym p p' : d2 p p' = d2 p' p.
Proof. unfold d2. ring. Qed.
Lemma sq_pos (x : Qc) : 0 <= x * x.
Proof. qc2q. nra. Qed.
Lemma d2_nonneg p p' : 0 <= d2 p p'.
Proof. unfold d2. assert (A := sq_pos (fst (fst p) - fst (fst p'))). assert (B := sq_pos (snd (fst p) - snd (fst p'))). assert (C := sq_pos (snd p - snd p')). revert A B C. generalize ((fst (fst p) - fst (fst p')) * (fst (fst p) - fst (fst p'))), ((snd (fst p) - snd (fst p')) * (snd (fst p) - snd (fst p'))), ((snd p - snd p') * (snd p - snd p')). intros a b c A B C. qclra. Qed.
Lemma near_spec pos s1 s2 : near pos s1 s2 = true <-> s1 <> s2 /\ 0 < d2 (pos s1) (pos s2) /\ d2 (pos s1) (pos s2) <= Q2Qc 25.
Proof.
  unfold near. rewrite !andb_true_iff, !negb_true_iff, Nat.eqb_neq, qc_lt_false, dist2_d2. assert (Hn := d2_nonneg (pos s1) (pos s2)). change (crit * crit) with (Q2Qc 25). split.
  - intros ((A & B) & C). split; [exact A|]. split; [|exact B]. destruct (Qcle_lt_or_eq _ _ Hn) as [H|H]; [exact H|]. rewrite <- H, qc_eqb_refl in C. discriminate.
  - intros (A & B & C). split; [split; assumption|]. destruct (qc_eqb (d2 (pos s1) (pos s2)) 0) eqn:E; [|reflexivity]. apply qc_eqb_spec in E. rewrite E in B. discriminate.
Qed.
Lemma sq_le (u v : Q) : ((u * 5 - v * 5) * (u * 5 - v * 5) <= 25 -> u <= v + 1 /\ v <= u + 1)%Q.
Proof. intros H. split; apply Qnot_lt_le; intros H'; [assert (0 < (u - v - 1) * (u - v - 1))%Q by nra|assert (0 < (v - u - 1) * (v - u - 1))%Q by nra]; nra. Qed.
Lemma near_cell p p' : d2 p p' <= Q2Qc 25 -> In (icell p') (map (shift (icell p)) deltas).
Proof.
  intros H. apply shift_in. assert (G : forall a b : Qc, (a - b) * (a - b) <= Q2Qc 25 -> (-1 <= trunc (b / crit) - trunc (a / crit) <= 1)%Z).
  { intros a b Hab. assert (a / crit <= b / crit + 1 /\ b / crit <= a / crit + 1).
    { assert (Ea := crit_val a). assert (Eb := crit_val b). assert (C := crit_this). revert Ea Eb. generalize (a / crit) (b / crit). intros u v Ea Eb. subst a b. qc2q. rewrite C in Hab. change (u <= v + 1 /\ v <= u + 1) with (this u <= this (v + 1)%Qc /\ this v <= this (u + 1)%Qc)%Q. rewrite !this_plus. apply sq_le. exact Hab. }
    destruct H0 as (H1 & H2). apply trunc_close in H1, H2. lia. }
  unfold d2 in H. assert (A := sq_pos (fst (fst p) - fst (fst p'))). assert (B := sq_pos (snd (fst p) - snd (fst p'))). assert (C := sq_pos (snd p - snd p')).
  unfold icell. cbn [fst snd]. split; [|split]; apply G; revert H A B C; generalize ((fst (fst p) - fst (fst p')) * (fst (fst p) - fst (fst p'))), ((snd (fst p) - snd (fst p')) * (snd (fst p) - snd (fst p'))), ((snd p - snd p') * (snd p - snd p')); intros a b c H A B C; qclra.
Qed.
Lemma nei_in ex pos scs s t c : In (t, c) (nei_list ex pos scs s) <-> In t scs /\ t <> s /\ 0 < d2 (pos s) (pos t) /\ d2 (pos s) (pos t) <= Q2Qc 25 /\ c = ex (d2 (pos s) (pos t)).
Proof.
  unfold nei_list. rewrite in_flat_map. split.
  - intros (icn & _ & H). apply in_map_iff in H. destruct H as (s2 & E & H). injection E as -> <-. apply filter_In in H. destruct H as (H & Hn). apply filter_In in H. apply near_spec in Hn. rewrite dist2_d2. split; [apply H|]. split; [apply not_eq_sym, Hn|]. split; [apply Hn|]. split; [apply Hn|reflexivity].
  - intros (H1 & H2 & H3 & H4 & ->). exists (icell (pos t)). split; [apply near_cell, H4|]. apply in_map_iff. exists t. split; [rewrite dist2_d2; reflexivity|]. apply filter_In. split; [|apply near_spec; split; [apply not_eq_sym, H2|split; assumption]]. apply filter_In. split; [exact H1|]. apply cell_eqb_spec. reflexivity.
Qed.
Lemma nei_nodup ex pos scs s : NoDup scs -> NoDup (map fst (nei_list ex pos scs s)).
Proof.
  intros Nd. unfold nei_list. rewrite Triplet_Proofs.map_flat_map. apply flat_nodup; [apply shift_nodup| |].
  - intros icn _. rewrite map_map. cbn [fst]. rewrite map_id. apply NoDup_filter, NoDup_filter, Nd.
  - intros a b k _ _ Ha Hb. rewrite map_map in Ha, Hb. cbn [fst] in *. rewrite map_id in Ha, Hb. apply filter_In in Ha, Hb. destruct Ha as (Ha & _), Hb as (Hb & _). apply filter_In in Ha, Hb. destruct Ha as (_ & Ha), Hb as (_ & Hb). apply cell_eqb_spec in Ha, Hb. congruence.
Qed.
