(** C65: the edge of the hull nearest to a point *)
From Coq Require Import QArith Qcanon Lqa.
From Verif Require Import Base QcUtil Solver_Model Solver_Proofs HULL_Model HULL_Spec HULL_Proofs HULL_Half HULL_Whole HULL_Hull HULL_Props.
Local Open Scope nat_scope.

Section Nums.
Local Open Scope Qc_scope.
Lemma sq_nn (x : Qc) : 0 <= x * x.
Proof. destruct (Qclt_le_dec x 0) as [A|A]; [|apply mul_nn; assumption]. replace (x * x) with ((- x) * (- x)) by ring. apply mul_nn; qclra. Qed.
Lemma sumsq_0 (x y : Qc) : x * x + y * y = 0 -> x = 0 /\ y = 0.
Proof.
  intros E. assert (A := sq_nn x). assert (B := sq_nn y).
  assert (X : x * x = 0) by (apply Qcle_antisym; [set (u := x * x) in *; set (v := y * y) in *; clearbody u v; qclra|exact A]).
  assert (Y : y * y = 0) by (apply Qcle_antisym; [set (u := x * x) in *; set (v := y * y) in *; clearbody u v; qclra|exact B]).
  split; [destruct (Qcmult_integral _ _ X); assumption|destruct (Qcmult_integral _ _ Y); assumption].
Qed.
End Nums.

Lemma len2 a b : dot (edge a b) (edge a b) = 0%Qc <-> same a b.
Proof.
  unfold dot, edge, same. simpl. split.
  - intros E. apply sumsq_0 in E. destruct E as (A & B). split; [transitivity (px b - (px b - px a))%Qc; [ring|rewrite A; ring]|transitivity (py b - (py b - py a))%Qc; [ring|rewrite B; ring]].
  - intros (A & B). rewrite A, B. ring.
Qed.
Lemma len2_nn a b : (0 <= dot (edge a b) (edge a b))%Qc.
Proof. unfold dot, edge; simpl. apply add_nn; apply sq_nn. Qed.
Lemma quad p a b t : sqdist p (along a b t) =
  (dot (edge a p) (edge a p) - t * dot (edge a p) (edge a b) - t * dot (edge a p) (edge a b) + t * t * dot (edge a b) (edge a b))%Qc.
Proof. unfold sqdist, along, dot, edge; simpl. ring. Qed.
Section Nums2.
Local Open Scope Qc_scope.
Lemma q_low (k pr l2 t : Qc) : pr < 0 -> 0 <= l2 -> 0 <= t -> k - 0 * pr - 0 * pr + 0 * 0 * l2 <= k - t * pr - t * pr + t * t * l2.
Proof.
  intros A B C. assert (E1 : 0 <= t * (- pr)) by (apply mul_nn; [exact C|qclra]). assert (E2 : 0 <= t * t * l2) by (apply mul_nn; [apply sq_nn|exact B]).
  set (u := t * t * l2) in *. clearbody u. qclra.
Qed.
Lemma q_high (k pr l2 t : Qc) : l2 < pr -> 0 <= l2 -> 0 <= t -> t <= 1 -> k - 1 * pr - 1 * pr + 1 * 1 * l2 <= k - t * pr - t * pr + t * t * l2.
Proof.
  intros A B C D. assert (E1 : 0 <= (1 - t) * (pr - l2)) by (apply mul_nn; qclra). assert (E2 : 0 <= (1 - t) * (1 - t) * l2) by (apply mul_nn; [apply sq_nn|exact B]).
  assert (E : k - t * pr - t * pr + t * t * l2 = k - 1 * pr - 1 * pr + 1 * 1 * l2 + ((1 - t) * (pr - l2) + (1 - t) * (pr - l2)) + (1 - t) * (1 - t) * l2) by ring.
  rewrite E. clear E. set (u := (1 - t) * (pr - l2)) in *. set (v := (1 - t) * (1 - t) * l2) in *. set (w := k - 1 * pr - 1 * pr + 1 * 1 * l2). clearbody u v w. qclra.
Qed.
Lemma q_mid (k pr l2 t s : Qc) : s * l2 = pr -> 0 <= l2 -> k - s * pr - s * pr + s * s * l2 <= k - t * pr - t * pr + t * t * l2.
Proof.
  intros <- B. assert (E2 : 0 <= (t - s) * (t - s) * l2) by (apply mul_nn; [apply sq_nn|exact B]).
  assert (E : k - t * (s * l2) - t * (s * l2) + t * t * l2 = k - s * (s * l2) - s * (s * l2) + s * s * l2 + (t - s) * (t - s) * l2) by ring.
  rewrite E. clear E. set (v := (t - s) * (t - s) * l2) in *. set (w := k - s * (s * l2) - s * (s * l2) + s * s * l2). clearbody v w. qclra.
Qed.
End Nums2.
Lemma doca_ok p a b : match doca2 p a b with Some d => seg_dist2 p a b d /\ ~ same a b | None => same a b end.
Proof.
  unfold doca2. set (l2 := dot (edge a b) (edge a b)). destruct (qc_eqb l2 0) eqn:E0; [apply qc_eqb_spec in E0; apply len2; exact E0|].
  assert (Nz : l2 <> 0%Qc) by (intros X; apply qc_eqb_spec in X; congruence). assert (Ns : ~ same a b) by (intros X; apply Nz, len2, X).
  assert (Ln : (0 <= l2)%Qc) by apply len2_nn. assert (Lp : (0 < l2)%Qc) by (destruct (Qcle_lt_or_eq _ _ Ln) as [X|X]; [exact X|congruence]).
  split; [|exact Ns]. set (pr := dot (edge a p) (edge a b)). fold l2.
  assert (Sep : forall q, sep2 q p = sqdist p q) by (intros q; unfold sep2, sqdist, dot, edge; simpl; ring). rewrite Sep.
  assert (Sq : forall q q', same q q' -> sqdist p q = sqdist p q') by (intros q q' (X & Y); unfold sqdist; rewrite X, Y; reflexivity).
  assert (A0 : same a (along a b 0)) by (unfold same, along; simpl; split; ring). assert (A1 : same b (along a b 1)) by (unfold same, along; simpl; split; ring).
  destruct (qc_lt pr 0) eqn:E1; [apply qc_lt_spec in E1|apply qc_lt_false in E1; destruct (qc_lt l2 pr) eqn:E2; [apply qc_lt_spec in E2|apply qc_lt_false in E2]].
  - split; [exists 0%Qc; split; [apply Qcle_refl|split; [discriminate|apply Sq; exact A0]]|]. intros t T0 T1. rewrite (Sq _ _ A0), !quad. apply q_low; assumption.
  - split; [exists 1%Qc; split; [discriminate|split; [apply Qcle_refl|apply Sq; exact A1]]|]. intros t T0 T1. rewrite (Sq _ _ A1), !quad. apply q_high; assumption.
  - set (s := (pr / l2)%Qc). assert (Es : (s * l2 = pr)%Qc) by (unfold s; field; exact Nz).
    assert (As : same (mkP (px a + pr * fst (edge a b) / l2) (py a + pr * snd (edge a b) / l2) 0) (along a b s)).
    { unfold same, along, s, edge; simpl. split; field; exact Nz. }
    assert (S0 : (0 <= s)%Qc) by (apply (div_nn l2); [exact Lp|]; replace (l2 * s)%Qc with pr by (rewrite <- Es; ring); exact E1).
    assert (S1 : (s <= 1)%Qc). { assert (X : (0 <= 1 - s)%Qc) by (apply (div_nn l2); [exact Lp|]; replace (l2 * (1 - s))%Qc with (l2 - pr)%Qc by (rewrite <- Es; ring); clear - E2; qclra). clear - X. qclra. }
    split; [exists s; split; [exact S0|split; [exact S1|apply Sq; exact As]]|]. intros t T0 T1. rewrite (Sq _ _ As), !quad. apply q_mid; assumption.
Qed.
Lemma seg_unique p a b d d' : seg_dist2 p a b d -> seg_dist2 p a b d' -> d = d'.
Proof.
  intros ((t & T0 & T1 & Et) & A) ((t' & T0' & T1' & Et') & B). apply Qcle_antisym; [rewrite Et'; apply A; assumption|rewrite Et; apply B; assumption].
Qed.

(** the edges that are looked at *)
Fixpoint looked (prev cur : point) (l : list point) : list (point * point) :=
  match l with [] => [] | nxt :: l' => (prev, cur) :: looked cur nxt l' end.
Definition le_opt (d : option Qc) (v : Qc) : Prop := exists w, d = Some w /\ (w <= v)%Qc.
Lemma nearest_loop_ok p : forall l prev cur best d2 e d, nearest_loop p prev cur l best d2 = (e, d) ->
  ((e = best /\ d = d2) \/ (exists x y v, In (x, y) (looked prev cur l) /\ doca2 p x y = Some v /\ e = (x, y) /\ d = Some v)) /\
  (forall x y v, In (x, y) (looked prev cur l) -> doca2 p x y = Some v -> le_opt d v) /\ (forall m, d2 = Some m -> le_opt d m).
Proof.
  induction l as [|nxt l IH]; intros prev cur best d2 e d H.
  - injection H as <- <-. split; [left; split; reflexivity|]. split; [intros x y v []|]. intros m ->. exists m. split; [reflexivity|apply Qcle_refl].
  - cbn [nearest_loop looked] in *.
    set (up := if peqb cur prev then None else match doca2 p prev cur with None => None | Some d => match d2 with None => Some d | Some m => if qc_lt d m then Some d else None end end) in H.
    assert (Hu : match up with
      | Some v => doca2 p prev cur = Some v /\ (forall m, d2 = Some m -> (v <= m)%Qc)
      | None => forall v, doca2 p prev cur = Some v -> le_opt d2 v end).
    { unfold up. destruct (peqb cur prev) eqn:Ep.
      - apply peqb_spec in Ep. intros v Hv. exfalso. assert (X := doca_ok p prev cur). rewrite Hv in X. apply (proj2 X). rewrite Ep. apply same_refl.
      - destruct (doca2 p prev cur) as [v|]; [|discriminate]. destruct d2 as [m|].
        + destruct (qc_lt v m) eqn:Q; [apply qc_lt_spec in Q; split; [reflexivity|]; intros m' [= <-]; apply Qclt_le_weak; exact Q|].
          apply qc_lt_false in Q. intros v' [= <-]. exists m. split; [reflexivity|exact Q].
        + split; [reflexivity|discriminate]. }
    destruct up as [v|].
    + destruct Hu as (Hd & Hm). destruct (IH _ _ _ _ _ _ H) as (I1 & I2 & I3). destruct (I3 v eq_refl) as (w & Ew & Lw). split; [|split].
      * right. destruct I1 as [(-> & ->)|(x & y & u & X1 & X2)]; [exists prev, cur, v; split; [left; reflexivity|split; [exact Hd|split; reflexivity]]|].
        exists x, y, u. split; [right; exact X1|exact X2].
      * intros x y u [[= <- <-]|Hin] Hu; [|apply (I2 x y u Hin Hu)]. exists w. rewrite Hd in Hu. injection Hu as <-. split; [exact Ew|exact Lw].
      * intros m Em. exists w. split; [exact Ew|]. apply (Qcle_trans _ v); [exact Lw|apply Hm; exact Em].
    + destruct (IH _ _ _ _ _ _ H) as (I1 & I2 & I3). split; [|split].
      * destruct I1 as [I1|(x & y & u & X1 & X2)]; [left; exact I1|]. right. exists x, y, u. split; [right; exact X1|exact X2].
      * intros x y u [[= <- <-]|Hin] Hv; [|apply (I2 x y u Hin Hv)]. destruct (Hu u Hv) as (m & Em & Lm). destruct (I3 m Em) as (w & Ew & Lw).
        exists w. split; [exact Ew|apply (Qcle_trans _ m); assumption].
      * exact I3.
Qed.
Lemma looked_edges : forall l a b x y, l <> [] -> (In (x, y) (looked a b l) <-> is_edge (a :: b :: removelast l) x y).
Proof.
  induction l as [|c l IH]; intros a b x y N; [contradiction|]. cbn [looked]. destruct l as [|d l].
  - simpl. rewrite is_edge_cons. split.
    + intros [[= <- <-]|[]]. left. split; [reflexivity|exists []; reflexivity].
    + intros [(-> & t & E)|([|? [|]] & h2 & E)]; [injection E as -> _; left; reflexivity|discriminate|discriminate|discriminate].
  - change (removelast (c :: d :: l)) with (c :: removelast (d :: l)). rewrite is_edge_cons, <- IH by discriminate. cbn [In]. split.
    + intros [[= <- <-]|H]; [left; split; [reflexivity|eexists; reflexivity]|right; exact H].
    + intros [(-> & t & E)|H]; [injection E as -> _; left; reflexivity|right; exact H].
Qed.

Theorem c65_nearest_edge_partial (h : list point) (p : point) : 3 <= length h -> exists e d inside,
  nearest_edge h p = Ok (e, d, inside) /\ is_edge h (fst e) (snd e) /\ (inside = true <-> (0 < side (fst e) (snd e) p)%Qc) /\
  match d with
  | Some d => seg_dist2 p (fst e) (snd e) d /\ ~ same (fst e) (snd e) /\
              forall a b d', is_edge (removelast h) a b -> ~ same a b -> seg_dist2 p a b d' -> (d <= d')%Qc
  | None => forall a b, is_edge (removelast h) a b -> same a b
  end.
Proof.
  intros L. destruct h as [|a [|b t]]; [simpl in L; lia|simpl in L; lia|]. destruct t as [|c t]; [simpl in L; lia|]. clear L.
  unfold nearest_edge. cbn [tl]. destruct (nearest_loop p a b (b :: c :: t) (a, b) None) as (e & d) eqn:H.
  exists e, d, (is_left (fst e) (snd e) p). split; [reflexivity|]. destruct (nearest_loop_ok _ _ _ _ _ _ _ _ H) as (I1 & I2 & _).
  assert (Lk : forall x y, In (x, y) (looked a b (b :: c :: t)) <-> (x = a /\ y = b) \/ (x = b /\ y = b) \/ is_edge (b :: removelast (c :: t)) x y).
  { intros x y. rewrite looked_edges by discriminate. change (removelast (b :: c :: t)) with (b :: removelast (c :: t)). rewrite !is_edge_cons. split.
    - intros [(-> & t' & E)|[(-> & t' & E)|G]]; [injection E as -> _; left; split; reflexivity|injection E as -> _; right; left; split; reflexivity|right; right; exact G].
    - intros [(-> & ->)|[(-> & ->)|G]]; [left; split; [reflexivity|eexists; reflexivity]|right; left; split; [reflexivity|eexists; reflexivity]|right; right; exact G]. }
  assert (Rl : forall x y, is_edge (removelast (a :: b :: c :: t)) x y -> In (x, y) (looked a b (b :: c :: t))).
  { intros x y E. change (removelast (a :: b :: c :: t)) with (a :: b :: removelast (c :: t)) in E. rewrite Lk. apply is_edge_cons in E.
    destruct E as [(-> & t' & E)|E]; [injection E as -> _; left; split; reflexivity|right; right; exact E]. }
  assert (Eh : forall x y, is_edge (b :: removelast (c :: t)) x y -> is_edge (a :: b :: c :: t) x y).
  { intros x y (h1 & h2 & E). exists (a :: h1), (h2 ++ [last (c :: t) no_point]). rewrite (app_removelast_last no_point (l := c :: t)) at 1 by discriminate.
    change (a :: b :: removelast (c :: t) ++ [last (c :: t) no_point]) with (a :: (b :: removelast (c :: t)) ++ [last (c :: t) no_point]). rewrite E. simpl. rewrite <- app_assoc. reflexivity. }
  split; [|split; [apply left_t|]].
  - destruct I1 as [(-> & _)|(x & y & v & X1 & X2 & -> & _)]; [exists [], (c :: t); reflexivity|]. simpl. apply Lk in X1.
    destruct X1 as [(-> & ->)|[(-> & ->)|X1]]; [exists [], (c :: t); reflexivity| |apply Eh; exact X1].
    exfalso. assert (X := doca_ok p b b). rewrite X2 in X. apply (proj2 X), same_refl.
  - destruct d as [d|].
    + destruct I1 as [(_ & E)|(x & y & v & X1 & X2 & -> & E)]; [discriminate|]. injection E as ->. simpl. assert (X := doca_ok p x y). rewrite X2 in X. destruct X as (Y1 & Y2).
      split; [exact Y1|]. split; [exact Y2|]. intros a' b' d' Eab Ns Sd. assert (Z := doca_ok p a' b'). destruct (doca2 p a' b') as [u|] eqn:Eu; [|contradiction].
      destruct (I2 a' b' u (Rl _ _ Eab) Eu) as (w & Ew & Lw). injection Ew as <-. rewrite <- (seg_unique _ _ _ _ _ (proj1 Z) Sd). exact Lw.
    + intros a' b' Eab. assert (Z := doca_ok p a' b'). destruct (doca2 p a' b') as [u|] eqn:Eu; [|exact Z]. destruct (I2 a' b' u (Rl _ _ Eab) Eu) as (w & Ew & _). discriminate.
Qed.
(** every hull is long enough *)
Lemma c65_hull_length l h : l <> [] -> ascending l -> convex_hull l = Ok h -> 3 <= length h.
Proof.
  intros N S E. destruct (hull_pieces l N S) as (h' & mm & MM & Lw & U & E' & _ & (s1 & E1 & N1) & (s2 & E2 & N2) & _ & _ & _ & _ & _ & (U0 & cl & Eh & CU & _)).
  rewrite E in E'. injection E' as <-. rewrite Eh, E1, !app_length. destruct s1 as [|? s1]; [contradiction|].
  assert (1 <= length U0) by (destruct CU as [->|(Eu & _)]; [rewrite E2; simpl; lia|rewrite E2 in Eu; injection Eu as <-; destruct s2; [contradiction|simpl; lia]]).
  simpl. lia.
Qed.
(** a point strictly inside is reported inside *)
Theorem c65_inside (h : list point) (p : point) : 3 <= length h -> (forall a b, is_edge h a b -> ~ same a b -> (0 < side a b p)%Qc) ->
  (exists a b, is_edge (removelast h) a b /\ ~ same a b) -> exists e d, nearest_edge h p = Ok (e, Some d, true).
Proof.
  intros L H (a & b & Eab & Ns). destruct (c65_nearest_edge_partial h p L) as (e & d & i & E & Ee & Hi & Hd). destruct d as [d|]; [|exfalso; apply Ns, Hd, Eab].
  exists e, d. rewrite E. repeat f_equal. apply Hi. apply H; [exact Ee|apply Hd].
Qed.

(** the closing edge is never looked at: a nearer edge is missed, and a point outside the hull is reported inside *)
Theorem c65_nearest_edge_refuted : ~ (forall l h p e d inside, l <> [] -> ascending l -> convex_hull l = Ok h -> nearest_edge h p = Ok (e, Some d, inside) ->
  forall a b d', is_edge h a b -> ~ same a b -> seg_dist2 p a b d' -> (d <= d')%Qc).
Proof.
  intros H. destruct c63_square_sorted as (N & S & _). destruct (convex_hull square) as [h| |] eqn:E; [|vm_compute in E; discriminate|vm_compute in E; discriminate].
  set (p := P 1 2 0). destruct (c65_nearest_edge_partial h p (c65_hull_length _ _ N S E)) as (e & d & i & En & _).
  assert (T : match d with Some d => qc_eqb d (Q2Qc 4) | None => false end = true).
  { assert (X : match convex_hull square with Ok h => match nearest_edge h p with Ok (_, d, _) => match d with Some d => qc_eqb d (Q2Qc 4) | None => false end | _ => false end | _ => false end = true) by (vm_compute; reflexivity).
    rewrite E, En in X. exact X. }
  destruct d as [d|]; [|discriminate]. apply qc_eqb_spec in T. subst d.
  assert (Eh : exists t, rev h = P 0 0 1 :: P 0 4 3 :: t).
  { assert (X : match convex_hull square with Ok h => match rev h with x :: y :: _ => peqb x (P 0 0 1) && peqb y (P 0 4 3) | _ => false end | _ => false end = true) by (vm_compute; reflexivity).
    rewrite E in X. destruct (rev h) as [|x [|y t]]; try discriminate. apply andb_true_iff in X. destruct X as (X & Y). apply peqb_spec in X, Y. subst. exists t. reflexivity. }
  destruct Eh as (t & Eh). assert (Ed : is_edge h (P 0 4 3) (P 0 0 1)) by (exists (rev t), []; rewrite <- (rev_involutive h), Eh; simpl; rewrite <- app_assoc; reflexivity).
  assert (Ns : ~ same (P 0 4 3) (P 0 0 1)) by (intros (_ & X); apply (f_equal this) in X; vm_compute in X; discriminate).
  assert (Z := doca_ok p (P 0 4 3) (P 0 0 1)). destruct (doca2 p (P 0 4 3) (P 0 0 1)) as [u|] eqn:Eu; [|contradiction].
  assert (Lu := H square h p e (Q2Qc 4) i N S E En _ _ u Ed Ns (proj1 Z)).
  assert (V : match doca2 p (P 0 4 3) (P 0 0 1) with Some u => qc_lt u (Q2Qc 4) | None => false end = true) by (vm_compute; reflexivity).
  rewrite Eu in V. apply qc_lt_spec in V. apply (Qclt_not_le _ _ V Lu).
Qed.
Theorem c65_inside_refuted : ~ (forall l h p e d inside, l <> [] -> ascending l -> convex_hull l = Ok h -> nearest_edge h p = Ok (e, Some d, inside) ->
  inside = true -> forall a b, is_edge h a b -> (0 <= side a b p)%Qc).
Proof.
  intros H. destruct c63_square_sorted as (N & S & _). destruct (convex_hull square) as [h| |] eqn:E; [|vm_compute in E; discriminate|vm_compute in E; discriminate].
  set (p := P (-1) 2 0). destruct (c65_nearest_edge_partial h p (c65_hull_length _ _ N S E)) as (e & d & i & En & _).
  assert (T : match d with Some d => i | None => false end = true).
  { assert (X : match convex_hull square with Ok h => match nearest_edge h p with Ok (_, d, i) => match d with Some d => i | None => false end | _ => false end | _ => false end = true) by (vm_compute; reflexivity).
    rewrite E, En in X. exact X. }
  destruct d as [d|]; [|discriminate].
  assert (Eh : exists t, rev h = P 0 0 1 :: P 0 4 3 :: t).
  { assert (X : match convex_hull square with Ok h => match rev h with x :: y :: _ => peqb x (P 0 0 1) && peqb y (P 0 4 3) | _ => false end | _ => false end = true) by (vm_compute; reflexivity).
    rewrite E in X. destruct (rev h) as [|x [|y t]]; try discriminate. apply andb_true_iff in X. destruct X as (X & Y). apply peqb_spec in X, Y. subst. exists t. reflexivity. }
  destruct Eh as (t & Eh). assert (Ed : is_edge h (P 0 4 3) (P 0 0 1)) by (exists (rev t), []; rewrite <- (rev_involutive h), Eh; simpl; rewrite <- app_assoc; reflexivity).
  assert (Z := H square h p e d i N S E En T _ _ Ed). assert (V : qc_lt (side (P 0 4 3) (P 0 0 1) p) 0 = true) by (vm_compute; reflexivity). apply qc_lt_spec in V. apply (Qclt_not_le _ _ V Z).
Qed.
Print Assumptions c65_nearest_edge_partial.
Print Assumptions c65_inside.
Print Assumptions c65_nearest_edge_refuted.
Print Assumptions c65_inside_refuted.
Example c65_example : match convex_hull square with Ok h => match nearest_edge h (P 3 2 0) with Ok (e, Some d, i) => Some (show (fst e), show (snd e), this d, i, length h) | _ => None end | _ => None end =
  Some (show (P 4 0 6), show (P 4 4 7), 1%Q, true, 5).
Proof. vm_compute. reflexivity. Qed.
