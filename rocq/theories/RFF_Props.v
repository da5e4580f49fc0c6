(** C29 *)
From Coq Require Import QArith Qcanon.
From Verif Require Import Base Util QcUtil Solver_Model Solver_Proofs GaussElim_Model GaussElim_Proofs GaussElim_Props CandHit_Spec RFF_Model RFF_Spec RFF_Proofs.
Local Open Scope nat_scope.

(** what the results must look like: each of the groups [kept] gave one entry of each vector; amplitudes come from the solver at the kept means,
    widths and interpolated heights; none is below threshold *)
Record aligned (sq : Qc -> Qc) (solver : nat -> list xf -> list xf -> list Qc -> list xf) (athr : Qc) (s : list Qc) (kept : list (list (Qc * Qc))) (r : res) (aerr : list xf) : Prop := {
  al_mean : r_mean r = map (fun g => Fin (gmean g)) kept;
  al_sigma : r_sigma r = map (fun g => Fin (avg (map snd g))) kept;
  al_merr : r_merr r = map (fun g => Fin (err sq (map fst g))) kept;
  al_serr : r_serr r = map (fun g => Fin (err sq (map snd g))) kept;
  al_amp : length (r_amp r) = length kept;
  al_aerr : length aerr = length kept;
  al_solved : exists k, r_amp r = solver k (r_mean r) (r_sigma r) (map (fun g => interp s (gmean g)) kept);
  al_above : forall a, In a (r_amp r) -> xlt a (Fin athr) = false }.

(** C29 as far as it is true: when no inner sample is zero, RunFitter groups the tick estimates, sorted by mean, into maximal groups with gaps within the
    match threshold, accepts those with enough members and average in [0,size-1], throws if an accepted average is exactly size-1, and otherwise ends
    (after at most one pass per accepted group) with all six vectors aligned on a sub-list of the accepted groups, no amplitude below threshold *)
Theorem c29_fitter_partial sq solver mthr multi0 athr s :
  (forall k m sg h, length sg = length m -> length h = length m -> length (solver k m sg h) = length m) ->
  (forall i, 1 <= i < length s - 1 -> nth i s 0%Qc <> 0%Qc) ->
  exists set gs, Permutation set (estimates sq s (range 1 (length s - 1))) /\ StronglySorted (fun a b => (fst a <= fst b)%Qc) set /\ grouping mthr set gs /\
    let acc := filter (accepted (Nat.max 1 multi0) (length s)) gs in
    forall fuel, length acc < fuel ->
    ((exists g, In g acc /\ gmean g = qc_nat (length s - 1)) -> run_fitter sq solver mthr multi0 athr fuel s = Some (Throw UserExn)) /\
    ((forall g, In g acc -> gmean g <> qc_nat (length s - 1)) ->
       exists kept r aerr, run_fitter sq solver mthr multi0 athr fuel s = Some (Ok (r, aerr)) /\ subseq kept acc /\ aligned sq solver athr s kept r aerr).
Proof.
  intros Hsol Hnz. destruct (run_ok sq solver mthr multi0 athr Hsol s Hnz) as (set & gs & Hp & Hs & Hg & H). exists set, gs.
  split; [exact Hp|]. split; [exact Hs|]. split; [exact Hg|].
  assert (Em : multi multi0 = Nat.max 1 multi0) by (unfold multi; destruct multi0; reflexivity). rewrite Em in H. intros acc fuel Hf. destruct (H fuel Hf) as [H1 H2].
  split; [exact H1|]. intros Hno. destruct (H2 Hno) as (rows & k & E & Hsub & Hb & Hr). exists (map fst rows), (of_rows sq s rows), (repeat (Fin 0%Qc) (length rows)).
  split; [exact E|]. split; [exact Hsub|]. constructor; cbn [of_rows r_mean r_sigma r_merr r_serr r_amp]; rewrite ?map_map; try reflexivity.
  - rewrite !map_length. reflexivity.
  - rewrite repeat_length, map_length. reflexivity.
  - exists k. exact Hr.
  - intros a Ha. destruct (xlt a (Fin athr)) eqn:El; [|reflexivity]. exfalso. unfold hits_below in Hb.
    assert (X : existsb (fun a => xlt a (Fin athr)) (r_amp (of_rows sq s rows)) = true) by (apply existsb_exists; exists a; split; assumption). congruence.
Qed.
Print Assumptions c29_fitter_partial.

Lemma filter_le {A} (f : A -> bool) l : length (filter f l) <= length l.
Proof. induction l as [|a l IH]; cbn [filter length]; [lia|]. destruct (f a); cbn [length]; lia. Qed.
(** the means are then inside the signal, strictly below its last tick *)
Theorem c29_means_inside sq solver mthr multi0 athr s fuel r aerr :
  (forall k m sg h, length sg = length m -> length h = length m -> length (solver k m sg h) = length m) ->
  (forall i, 1 <= i < length s - 1 -> nth i s 0%Qc <> 0%Qc) -> length s < fuel ->
  run_fitter sq solver mthr multi0 athr fuel s = Some (Ok (r, aerr)) ->
  forall x, In x (r_mean r) -> exists q, x = Fin q /\ (0 <= q)%Qc /\ (q < qc_nat (length s - 1))%Qc.
Proof.
  intros Hsol Hnz Hf E x Hx. destruct (c29_fitter_partial sq solver mthr multi0 athr s Hsol Hnz) as (set & gs & Hp & Hs & Hg & H). cbv zeta in H.
  set (acc := filter (accepted (Nat.max 1 multi0) (length s)) gs) in *.
  assert (Hlen : length acc <= length s).
  { assert (L1 : length acc <= length gs) by (unfold acc; apply filter_le).
    assert (L2 : length gs <= length set).
    { rewrite <- (gr_split _ _ _ Hg). assert (N := gr_nonempty _ _ _ Hg). clear - N. induction gs as [|g gs IH]; [simpl; lia|]. simpl. rewrite app_length. assert (g <> []) by (apply N; left; reflexivity).
      assert (length gs <= length (concat gs)) by (apply IH; intros; apply N; right; assumption). destruct g; [contradiction|simpl; lia]. }
    assert (L3 : length set <= length s). { rewrite (Permutation_length Hp). unfold estimates. rewrite map_length. transitivity (length (range 1 (length s - 1))).
      - apply filter_le.
      - unfold range. rewrite seq_length. lia. }
    clear - L1 L2 L3. lia. }
  destruct (H fuel ltac:(lia)) as [H1 H2].
  assert (Hno : forall g, In g acc -> gmean g <> qc_nat (length s - 1)). { intros g Hin Eg. rewrite H1 in E; [discriminate|]. exists g. split; assumption. }
  destruct (H2 Hno) as (kept & r' & aerr' & E' & Hsub & Hal). rewrite E' in E. inversion E; subst r' aerr'. rewrite (al_mean _ _ _ _ _ _ _ Hal) in Hx. apply in_map_iff in Hx. destruct Hx as (g & <- & Hin).
  assert (Hin' : In g acc). { clear - Hsub Hin. induction Hsub; [destruct Hin|destruct Hin as [<-|Hin]; [left; reflexivity|right; auto]|right; auto]. }
  exists (gmean g). split; [reflexivity|]. assert (A := Hin'). apply filter_In in A. destruct A as [_ A]. unfold accepted in A. apply andb_true_iff in A. destruct A as [A A2]. apply andb_true_iff in A. destruct A as [_ A1].
  apply negb_true_iff in A1, A2. apply qc_lt_false in A1, A2. split; [exact A1|]. destruct (Qclt_le_dec (gmean g) (qc_nat (length s - 1))) as [L|L]; [exact L|]. exfalso. apply (Hno g Hin'). qclra.
Qed.
Print Assumptions c29_means_inside.

(** C29 refuted for every signal: (1) a mean that is exactly the last tick passes the filter but makes the amplitude step throw: signal 1, 2, 3, 3.5 *)
Definition qz (z : Z) : Qc := Q2Qc (inject_Z z).
Definition nosolver (k : nat) (m sg : list xf) (h : list Qc) : list xf := map (fun _ => Fin (qz 10)) m.
Theorem c29_edge_mean_refuted : run_fitter (fun q => q) nosolver (qz 1) 1 (qz 0) 10 [qz 1; qz 2; qz 3; (qz 7 / qz 2)%Qc] = Some (Throw UserExn).
Proof. vm_compute. reflexivity. Qed.
Print Assumptions c29_edge_mean_refuted.
(** (2) a zero sample makes a mean NaN, which passes the filter too and is then converted to an index *)
Theorem c29_zero_sample_refuted : run_fitter (fun q => q) nosolver (qz 1) 1 (qz 0) 10 [qz 2; qz 0; qz 1] = Some Undef.
Proof. vm_compute. reflexivity. Qed.
Print Assumptions c29_zero_sample_refuted.

(** the premise on the solver holds for the real one: GaussianEliminationAlg::SolveEquations returns as many amplitudes as there are means *)
Definition unfin (x : xf) : Qc := match x with Fin q => q | _ => 0%Qc end.
Definition real_solver (a : alg) (eps : Qc) (old : list Qc) (k : nat) (m sg : list xf) (h : list Qc) : list xf :=
  match solve_equations a eps old (map unfin m) (map unfin sg) h with Ok (_, sol) => map Fin sol | _ => m end.
Theorem c29_solver_premise ex step mx t eps old : (0 < step)%Qc -> (0 <= mx)%Qc -> (exists fuel, construct ex fuel step mx = Some (Ok t)) ->
  forall k m sg h, length sg = length m -> length h = length m -> length (real_solver (mkAlg step mx t) eps old k m sg h) = length m.
Proof.
  intros Hs Hm Hc k m sg h H1 H2. assert (X := c30_solve_equations ex step mx t eps old (map unfin m) (map unfin sg) h Hs Hm Hc). cbv zeta in X. rewrite !map_length, H1, H2, Nat.eqb_refl in X. cbn [andb] in X.
  destruct X as (G & m' & sol & _ & E & Hl & _). unfold real_solver. rewrite E, map_length. exact Hl.
Qed.
Print Assumptions c29_solver_premise.

(** non-trivial case meeting the premises: two bumps give two accepted groups with amplitudes 6 and 8; a threshold of 7 prunes the first *)
Definition sig : list Qc := map qz [1; 4; 6; 4; 1; 2; 8; 2; 1]%Z.
Definition pick (k : nat) (m sg : list xf) (h : list Qc) : list xf := map Fin h.
Definition show (x : xf) : option Q := match x with Fin q => Some (this q) | _ => None end.
Definition outline (athr : Z) := match run_fitter (fun q => q) pick (Q2Qc (1 # 2)) 1 (qz athr) 20 sig with
  | Some (Ok (r, ae)) => (map show (r_mean r), length (r_sigma r), length (r_merr r), length (r_serr r), map show (r_amp r), length ae)
  | _ => ([], 0, 0, 0, [], 0) end.
Example c29_case : outline 5 = ([Some 2; Some 6]%Q, 2, 2, 2, [Some 6; Some 8]%Q, 2).
Proof. vm_compute. reflexivity. Qed.
Example c29_case_pruned : outline 7 = ([Some 6]%Q, 1, 1, 1, [Some 8]%Q, 1).
Proof. vm_compute. reflexivity. Qed.
Example c29_case_nonzero : forall i, 1 <= i < length sig - 1 -> nth i sig 0%Qc <> 0%Qc.
Proof. intros i Hi. cbn in Hi. do 8 (destruct i as [|i]; [try lia; vm_compute; intros H; discriminate H|]). lia. Qed.
