(** Segmentation2D::run: the loops on the centers and on the remaining hits *)
From Coq Require Import QArith Qcanon Permutation Sorted Lqa.
From Verif Require Import Base QcUtil Solver_Model Solver_Proofs SEG_Model SEG_Spec SEG_Simple SEG_Split.
Import SEG_Model.
Local Open Scope nat_scope.

Lemma dist2_nonneg a b : (0 <= dist2 a b)%Qc.
Proof. unfold dist2. generalize (fst a - fst b)%Qc. generalize (snd a - snd b)%Qc. intros x y. qcnra. Qed.
Lemma dist2_sym a b : dist2 a b = dist2 b a. Proof. unfold dist2. ring. Qed.
Lemma dist2_self a : dist2 a a = 0%Qc. Proof. unfold dist2. ring. Qed.
Lemma sq_pos x : x <> 0%Qc -> (0 < x * x)%Qc.
Proof.
  intros N. destruct (Qclt_le_dec 0 (x * x)) as [L|L]; [exact L|]. exfalso. apply N. assert (x * x = 0)%Qc by (apply Qcle_antisym; [exact L|clear; qcnra]). apply Qcmult_integral in H. tauto.
Qed.
Lemma dist2_zero a b : dist2 a b = 0%Qc -> a = b.
Proof.
  unfold dist2. destruct a as [a1 a2], b as [b1 b2]. cbn [fst snd]. intros E.
  assert (X : (a1 - b1 = 0)%Qc). { destruct (Qc_eq_dec (a1 - b1) 0) as [Z|N]; [exact Z|]. exfalso. pose proof (sq_pos _ N) as P. assert (0 <= (a2 - b2) * (a2 - b2))%Qc by (clear; generalize (a2 - b2)%Qc; intros; qcnra). revert E P H. generalize ((a1 - b1) * (a1 - b1))%Qc ((a2 - b2) * (a2 - b2))%Qc. intros. qclra. }
  assert (Y : (a2 - b2 = 0)%Qc). { destruct (Qc_eq_dec (a2 - b2) 0) as [Z|N]; [exact Z|]. exfalso. pose proof (sq_pos _ N) as P. assert (0 <= (a1 - b1) * (a1 - b1))%Qc by (clear; generalize (a1 - b1)%Qc; intros; qcnra). revert E P H. generalize ((a1 - b1) * (a1 - b1))%Qc ((a2 - b2) * (a2 - b2))%Qc. intros. qclra. }
  f_equal; [clear Y|clear X]; qclra.
Qed.
Section A.
Variable cf : cfg.
Lemma line_id (wx wy vx vy b : Qc) : (b * (vx * vx + vy * vy) = wx * vx + wy * vy ->
  (wx * vy - wy * vx) * (wx * vy - wy * vx) = ((wx - vx * b) * (wx - vx * b) + (wy - vy * b) * (wy - vy * b)) * (vx * vx + vy * vy))%Qc.
Proof.
  intros E. assert (R : (((wx - vx * b) * (wx - vx * b) + (wy - vy * b) * (wy - vy * b)) * (vx * vx + vy * vy) =
    (wx * wx + wy * wy) * (vx * vx + vy * vy) - (1 + 1) * (b * (vx * vx + vy * vy)) * (wx * vx + wy * vy) + (b * (vx * vx + vy * vy)) * (b * (vx * vx + vy * vy)))%Qc) by ring. rewrite R, E. ring.
Qed.
(** the candidate test is the distance to the line *)
Lemma cand_line center fin h : cand cf center fin h = true -> center <> fin /\ (off_line center fin h * off_line center fin h < f_line cf * f_line cf * dist2 center fin)%Qc.
Proof.
  unfold cand, proj. set (m := ((fst fin - fst center) * (fst fin - fst center) + (snd fin - snd center) * (snd fin - snd center))%Qc).
  assert (Em : m = dist2 center fin) by (unfold m, dist2; ring). destruct (Qc_eq_bool m 0) eqn:Z; [discriminate|].
  assert (Nz : m <> 0%Qc) by (intros X; apply qeq in X; congruence). intros C. apply andb_true_iff in C as [C _]. apply qc_lt_spec in C. split; [intros X; apply Nz; rewrite Em, X; apply dist2_self|].
  assert (Mp : (0 < m)%Qc) by (destruct (Qclt_le_dec 0 m) as [L|L]; [exact L|]; exfalso; apply Nz, Qcle_antisym; [exact L|rewrite Em; apply dist2_nonneg]).
  rewrite <- Em. set (b := (((fst (pos h) - fst center) * (fst fin - fst center) + (snd (pos h) - snd center) * (snd fin - snd center)) / m)%Qc) in C.
  assert (Eb : (b * m = (fst (pos h) - fst center) * (fst fin - fst center) + (snd (pos h) - snd center) * (snd fin - snd center))%Qc) by (unfold b; field; exact Nz).
  clearbody b. unfold off_line. rewrite (line_id _ _ _ _ b Eb). fold m.
  assert (K : dist2 (pos h) ((fst center + (fst fin - fst center) * b)%Qc, (snd center + (snd fin - snd center) * b)%Qc) =
    ((fst (pos h) - fst center - (fst fin - fst center) * b) * (fst (pos h) - fst center - (fst fin - fst center) * b) + (snd (pos h) - snd center - (snd fin - snd center) * b) * (snd (pos h) - snd center - (snd fin - snd center) * b))%Qc) by (unfold dist2; cbn [fst snd]; ring).
  rewrite <- K. apply Qcmult_lt_compat_r; assumption.
Qed.
Lemma cand_center center fin h : f_line cf <> 0%Qc -> pos h = center -> center <> fin -> cand cf center fin h = true.
Proof.
  intros Nl Eh Nc. unfold cand, proj. set (m := ((fst fin - fst center) * (fst fin - fst center) + (snd fin - snd center) * (snd fin - snd center))%Qc).
  assert (Em : m = dist2 center fin) by (unfold m, dist2; ring). destruct (Qc_eq_bool m 0) eqn:Z; [apply qeq in Z; rewrite Em in Z; apply dist2_zero in Z; congruence|].
  assert (Nz : m <> 0%Qc) by (intros X; apply qeq in X; congruence). rewrite Eh. apply andb_true_iff. split.
  - apply qc_lt_spec. unfold dist2. cbn [fst snd]. match goal with |- (?x < _)%Qc => replace x with 0%Qc; [apply sq_pos, Nl|] end. field. exact Nz.
  - apply orb_true_iff. left. apply negb_true_iff, qc_lt_false. match goal with |- (_ <= ?x)%Qc => replace x with 0%Qc by ring end. apply Qcle_refl.
Qed.

Variable srt : pt -> list hit -> list hit.
Hypothesis So : sorts srt.
Lemma run1_spec s c0 cen : s_cen s = c0 :: cen -> distinct (bag s) -> Forall (piece cf) (s_res s) ->
  exists s', (forall n, length (s_inp s) < n -> run1 srt cf n s = Some (Ok s')) /\ Permutation (bag s') (bag s) /\ Forall (piece cf) (s_res s') /\ size s' < size s /\ length (s_inp s') <= length (s_inp s) /\
    (f_line cf <> 0%Qc -> f_rmin cf <> 0%Qc -> (exists h, In h (s_inp s) /\ c0 = pos h) -> length (s_inp s') < length (s_inp s)).
Proof.
  intros Ec D R. assert (Keep : let s' := St (s_inp s) (s_res s) cen in Permutation (bag s') (bag s) /\ Forall (piece cf) (s_res s') /\ size s' < size s /\ length (s_inp s') <= length (s_inp s)).
  { cbn. split; [reflexivity|]. split; [exact R|]. unfold size. cbn. rewrite Ec. cbn [length]. lia. }
  destruct (closest c0 (s_inp s)) as [hf|] eqn:Cl.
  2:{ exists (St (s_inp s) (s_res s) cen). split; [intros n _; unfold run1; rewrite Ec, Cl; reflexivity|]. destruct Keep as (K1 & K2 & K3 & K4). do 4 (split; [assumption|]). intros _ _ (h & Ih & _). unfold closest in Cl. destruct (s_inp s); [destruct Ih|discriminate]. }
  destruct (closest_in c0 (s_inp s) hf Cl) as (Ihf & Min).
  destruct (qc_lt (Q2Qc (1 # 4)) (dist2 (pos hf) c0)) eqn:Far.
  { exists (St (s_inp s) (s_res s) cen). split; [intros n _; unfold run1; rewrite Ec, Cl, Far; reflexivity|]. destruct Keep as (K1 & K2 & K3 & K4). do 4 (split; [assumption|]). intros _ _ (h & Ih & Eh). exfalso. specialize (Min h Ih). rewrite Eh, dist2_self in Min. rewrite <- Eh in Min. apply qc_lt_spec in Far. clear -Min Far. revert Min Far. generalize (dist2 (pos hf) c0). intros x A B. qclra. }
  destruct (ring cf (s_inp s) (pos hf)) as [|r0 rr] eqn:Rg.
  - assert (P : Permutation (hf :: release hf (s_inp s)) (s_inp s)) by (apply release_perm; [apply in_distinct, D|exact Ihf]). pose proof (Permutation_length P) as Lp. cbn [length] in Lp.
    exists (St (release hf (s_inp s)) (s_res s ++ [fresh [hf]]) cen). split; [intros n _; unfold run1; rewrite Ec, Cl, Far, Rg; reflexivity|].
    split; [destruct s as [inp res cn]; apply (bag_snoc inp res cn); exact P|]. split.
    + cbn [s_res]. apply Forall_app. split; [exact R|]. constructor; [|constructor]. split; [reflexivity|]. split; [discriminate|]. split; [|split; [constructor|left; reflexivity]].
      intros a h b E Na. destruct a as [|a0 [|a1 a]]; [congruence|discriminate|discriminate].
    + unfold size. cbn [s_inp s_cen]. rewrite Ec. cbn [length]. split; [lia|]. split; [lia|]. intros; lia.
  - assert (Lr : length (r0 :: rr) <= length (s_inp s)) by (rewrite <- Rg; unfold ring; clear; induction (s_inp s) as [|x l IH]; cbn [filter]; [lia|]; destruct (_ && _); cbn [length]; lia).
    destruct (simple_ends (r0 :: rr)) as (seeds & Es).
    assert (E0 := Es (S (length (r0 :: rr))) (le_n _)).
    assert (Fs : Forall (fun c => c <> []) seeds) by (apply Forall_forall; apply (simple_nonempty _ _ _ E0)).
    destruct (seeds_spec srt So cf (pos hf) (length seeds) seeds (St (s_inp s) (s_res s) cen) eq_refl Fs) as (s' & E & B & R' & Z & Li & Pr); [exact D|exact R|].
    exists s'. split; [intros n Ln; unfold run1; rewrite Ec, Cl, Far, Rg, (Es n ltac:(lia)), E; reflexivity|]. split; [exact B|]. split; [exact R'|].
    split; [unfold size in *; cbn [s_inp s_cen] in *; rewrite Ec; cbn [length]; lia|]. split; [exact Li|].
    intros Nl Nr (h & Ih & Eh).
    destruct (pick_ok (pos hf) seeds) as (sd & x & X1 & X2); [|exact Fs|].
    { intros ->. apply simple_perm, Permutation_length in E0. cbn in E0. lia. }
    apply (Pr sd x X1 X2). cbn [s_inp]. intros Ne. assert (In hf (candidates cf (pos hf) (pos x) (s_inp s))); [|rewrite Ne in H; destruct H].
    unfold candidates. apply filter_In. split; [exact Ihf|]. apply cand_center; [exact Nl|reflexivity|]. intros Ex.
    assert (Ix : In x (ring cf (s_inp s) (pos hf))). { rewrite Rg. apply (Permutation_in _ (simple_perm _ _ _ E0)), in_concat. exists sd. split; [apply (nth_error_In _ _ X1)|apply (nth_error_In _ _ X2)]. }
    unfold ring in Ix. apply filter_In in Ix as [_ Ix]. apply andb_true_iff in Ix as [Ix _]. apply negb_true_iff, qc_lt_false in Ix. rewrite <- Ex, dist2_self in Ix. pose proof (sq_pos _ Nr) as Sp. apply (Qclt_not_le _ _ Sp Ix).
Qed.
Lemma centers_spec : forall k s, size s <= k -> distinct (bag s) -> Forall (piece cf) (s_res s) ->
  exists s', (forall n, k <= n -> centers_loop srt cf n s = Some (Ok s')) /\ Permutation (bag s') (bag s) /\ Forall (piece cf) (s_res s') /\ length (s_inp s') <= length (s_inp s) /\
    (f_line cf <> 0%Qc -> f_rmin cf <> 0%Qc -> (exists h c, In h (s_inp s) /\ s_cen s = pos h :: c) -> length (s_inp s') < length (s_inp s)).
Proof.
  induction k as [|k IH]; intros s L D R; destruct (s_cen s) as [|c0 cen] eqn:Ec.
  - exists s. split; [intros n _; destruct n; cbn [centers_loop]; rewrite Ec; reflexivity|]. split; [reflexivity|]. split; [exact R|]. split; [lia|]. intros _ _ (h & c & _ & X). congruence.
  - exfalso. unfold size in L. rewrite Ec in L. cbn in L. lia.
  - exists s. split; [intros n _; destruct n; cbn [centers_loop]; rewrite Ec; reflexivity|]. split; [reflexivity|]. split; [exact R|]. split; [lia|]. intros _ _ (h & c & _ & X). congruence.
  - destruct (run1_spec s c0 cen Ec D R) as (s1 & E1 & B1 & R1 & Z1 & L1 & P1).
    destruct (IH s1) as (s' & E & B & R' & Li & _); [lia|apply (distinct_perm _ _ (Permutation_sym B1) D)|exact R1|].
    exists s'. split.
    { intros n Ln. destruct n as [|n]; [lia|]. cbn [centers_loop]. rewrite Ec, E1; [apply E; lia|]. unfold size in L. rewrite Ec in L. cbn [length] in L. lia. }
    split; [rewrite B; exact B1|]. split; [exact R'|]. split; [lia|]. intros Nl Nr (h & c & Ih & X). assert (c0 = pos h) by congruence. assert (length (s_inp s1) < length (s_inp s)) by (apply P1; eauto). lia.
Qed.
(** the outer loop: it ends, nothing is lost, and at most one hit is left *)
Lemma split_spec : f_line cf <> 0%Qc -> f_rmin cf <> 0%Qc -> forall k inp res, length inp <= k -> distinct (concat (map hs res) ++ inp) -> Forall (piece cf) res ->
  exists inp' res', (forall n, k < n -> split_loop srt cf n inp res = Some (Ok (inp', res'))) /\ Permutation (concat (map hs res') ++ inp') (concat (map hs res) ++ inp) /\ Forall (piece cf) res' /\ length inp' <= 1.
Proof.
  intros Nl Nr. induction k as [|k IH]; intros inp res L D R.
  - destruct inp; [|cbn in L; lia]. exists [], res. split; [intros n _; destruct n; reflexivity|]. split; [reflexivity|]. split; [exact R|]. cbn; lia.
  - destruct (Nat.leb_spec (length inp) 1) as [L1|L1].
    + exists inp, res. split; [intros n _; destruct n; cbn [split_loop]; rewrite (proj2 (Nat.leb_le _ _) L1); reflexivity|]. split; [reflexivity|]. split; [exact R|exact L1].
    + destruct (outermost inp) as [hf|] eqn:Eo; [|destruct inp; [cbn in L1; lia|discriminate]]. pose proof (outermost_in _ _ Eo) as Ih.
      destruct (centers_spec (S (S k)) (St inp res [pos hf])) as (s1 & E1 & B1 & R1 & L2 & P1); [unfold size; cbn; lia|exact D|exact R|].
      assert (L3 : length (s_inp s1) < length inp) by (apply P1; auto; exists hf, []; auto).
      destruct (IH (s_inp s1) (s_res s1)) as (inp' & res' & E & B & R' & Lf); [lia|apply (distinct_perm _ _ (Permutation_sym B1) D)|exact R1|].
      exists inp', res'. split; [|split; [rewrite B; exact B1|auto]]. intros n Ln. destruct n as [|n]; [lia|]. cbn [split_loop]. rewrite (proj2 (Nat.leb_gt _ _) L1), Eo, E1 by lia. apply E. lia.
Qed.
End A.
