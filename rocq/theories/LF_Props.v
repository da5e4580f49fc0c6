(** C54: LinFit finds the line of least chi-square *)
From Coq Require Import QArith Qcanon Lqa Field.
From Verif Require Import Base QcUtil Solver_Model Solver_Proofs CMgr_Proofs LF_Model LF_Spec LF_Proofs.
Local Open Scope Qc_scope.

Lemma pw_pos x y ey2 : (forall e, In e ey2 -> 0 < e) -> forall p, In p (points x y ey2) -> 0 < pw p.
Proof. intros He p Hp. apply (points_err x y) in Hp. specialize (He _ Hp). unfold pw. revert He. generalize (snd p). intros e He. apply Qcnot_le_lt. intros X. assert (Nz : e <> 0) by (intros Z; rewrite Z in He; exact (Qclt_not_eq _ _ He eq_refl)). assert (E : e * (1 / e) = 1) by (field; exact Nz). revert E X. generalize (1 / e). intros w E X. qc2q. change (this 0) with 0%Q in *. change (this 1) with 1%Q in *. nra. Qed.
Lemma lin_fit_unfold sq fuel x y ey2 out : (length y < fuel)%nat -> (N.of_nat (length y) <= 65535)%N -> (2 <= length y)%nat -> (length y <= length x)%nat -> (length y <= length ey2)%nat -> (forall e, In e ey2 -> 0 < e) ->
  let ps := points x y ey2 in let s := sums_of ps in
  let A := (s_x2 s * s_y s - s_x s * s_xy s) / det ps in let B := (s_xy s * s_1 s - s_x s * s_y s) / det ps in
  let n := qnat (length x - 2) in
  lin_fit sq fuel x y ey2 out =
  if qc_eqb (det ps) 0 then Ok (Some (mkFit (f_a out) (f_b out) (f_ea out) (f_eb out) (Q2Qc 999)))
  else if Nat.eqb (length x) 2 then Ok (Some (mkFit A B (f_ea out) (f_eb out) 0))
  else Ok (Some (mkFit A B (if qc_lt 0 (chi2 ps A B / n) then sq (chi2 ps A B / n * s_x2 s / det ps) else 0) (if qc_lt 0 (chi2 ps A B / n) then sq (chi2 ps A B / n * s_1 s / det ps) else 0) (chi2 ps A B / n))).
Proof.
  intros Hf Hn H2 Hx He Hp. cbv zeta. unfold lin_fit. destruct (Nat.ltb_spec (length y) 2); [lia|]. destruct (Nat.ltb_spec (length x) (length y)); [lia|]. destruct (Nat.ltb_spec (length ey2) (length y)); [lia|]. cbn [orb].
  assert (L := points_length x y ey2 Hx He). assert (E1 := loop_foreach (length y) (add_point x y ey2) Hn (length y) fuel (mkS 0 0 0 0 0 0) (le_n _) Hf). rewrite Nat.sub_diag in E1. change (N.of_nat 0) with 0%N in E1. rewrite E1. rewrite (sums_loop x y ey2 Hp) by lia. rewrite <- L, firstn_all. cbn [obind]. set (ps := points x y ey2). change (s_1 (sums_of ps) * s_x2 (sums_of ps) - s_x (sums_of ps) * s_x (sums_of ps)) with (det ps).
  destruct (qc_eqb (det ps) 0); [reflexivity|]. destruct (Nat.eqb_spec (length x) 2); [reflexivity|].
  set (A := (s_x2 (sums_of ps) * s_y (sums_of ps) - s_x (sums_of ps) * s_xy (sums_of ps)) / det ps). set (B := (s_xy (sums_of ps) * s_1 (sums_of ps) - s_x (sums_of ps) * s_y (sums_of ps)) / det ps).
  assert (E2 := loop_foreach (length y) (add_chi x y ey2 A B) Hn (length y) fuel 0 (le_n _) Hf). rewrite Nat.sub_diag in E2. change (N.of_nat 0) with 0%N in E2. fold ps in L. rewrite L, E2. rewrite (chi_loop x y ey2 A B Hp) by (fold ps; lia). fold ps. rewrite <- L, firstn_all. cbn [obind].
  rewrite (chi2_expand ps A B). cbn [s_1 s_x s_y s_xy s_x2 s_y2 sums_of]. reflexivity.
Qed.

(** what LinFit does when a line is determined (two points with different x): it returns the only line of least chi-square *)
Theorem c54_best_line_partial sq fuel x y ey2 out : (length y < fuel)%nat -> (N.of_nat (length y) <= 65535)%N -> (length y <= length x)%nat -> (length y <= length ey2)%nat -> (forall e, In e ey2 -> 0 < e) ->
  let ps := points x y ey2 in
  (exists p q, In p ps /\ In q ps /\ px p <> px q) ->
  exists r, lin_fit sq fuel x y ey2 out = Ok (Some r) /\
    (forall a b, chi2 ps (f_a r) (f_b r) <= chi2 ps a b /\ (chi2 ps a b = chi2 ps (f_a r) (f_b r) -> a = f_a r /\ b = f_b r)) /\
    (length x = length y ->
      (length y = 2%nat -> f_chi r = 0 /\ chi2 ps (f_a r) (f_b r) = 0 /\ f_ea r = f_ea out /\ f_eb r = f_eb out) /\
      ((2 < length y)%nat -> let s2 := chi2 ps (f_a r) (f_b r) / qnat (length y - 2) in
        f_chi r = s2 /\
        (0 < s2 -> f_ea r = sq (s2 * qsum (fun p => pw p * (px p * px p)) ps / det ps) /\ f_eb r = sq (s2 * qsum pw ps / det ps)) /\
        (s2 = 0 -> f_ea r = 0 /\ f_eb r = 0))).
Proof.
  intros Hf Hn Hx He Hp ps (p & q & Hin & Hin' & Hne). assert (L := points_length x y ey2 Hx He). fold ps in L.
  assert (H2 : (2 <= length y)%nat). { rewrite <- L. destruct ps as [|a [|b l]]; [destruct Hin| |cbn; lia]. destruct Hin as [<-|[]]. destruct Hin' as [<-|[]]. congruence. }
  assert (Hw := pw_pos x y ey2 Hp). fold ps in Hw. assert (Nn : ps <> []) by (destruct ps; [destruct Hin|discriminate]). destruct (det_ge ps Hw Nn) as (D0 & D1). assert (Dz : det ps <> 0) by (intros Z; apply Hne; apply D1; assumption).
  rewrite (lin_fit_unfold sq fuel x y ey2 out Hf Hn H2 Hx He Hp). fold ps. destruct (qc_eqb (det ps) 0) eqn:Ez; [apply qc_eqb_spec in Ez; contradiction|].
  assert (M := fit_min ps Hw Dz). destruct (Nat.eqb_spec (length x) 2) as [E2|E2].
  - eexists. split; [reflexivity|]. cbn [f_a f_b f_ea f_eb f_chi]. cbn [s_1 s_x s_y s_xy s_x2 s_y2 sums_of]. split; [exact M|]. intros _. split; [|lia]. intros Ly. split; [reflexivity|]. split; [|auto].
    rewrite Ly in L. destruct ps as [|u [|v [|w l]]]; try discriminate. assert (Huv : px v - px u <> 0). { intros Z. apply Hne. assert (px u = px v) by qclra. destruct Hin as [<-|[<-|[]]], Hin' as [<-|[<-|[]]]; congruence. }
    set (b := (py v - py u) / (px v - px u)). set (a := py u - b * px u). assert (C0 : chi2 [u; v] a b = 0). { unfold chi2. cbn [qsum fold_right]. replace (py v - (a + b * px v)) with 0 by (unfold a, b; field; exact Huv). replace (py u - (a + b * px u)) with 0 by (unfold a; ring). ring. }
    destruct (M a b) as (M1 & _). rewrite C0 in M1. apply Qcle_antisym; [exact M1|]. exact (proj1 (sq_sum_ge _ [u; v] Hw)).
  - eexists. split; [reflexivity|]. cbn [f_a f_b f_ea f_eb f_chi]. cbn [s_1 s_x s_y s_xy s_x2 s_y2 sums_of]. split; [exact M|]. intros Lxy. split; [lia|]. intros Ly. cbv zeta. rewrite <- Lxy. split; [reflexivity|]. set (s2 := _ / qnat (length x - 2)). split.
    + intros P. destruct (qc_lt 0 s2) eqn:Es; [auto|]. apply qc_lt_false in Es. exfalso. qclra.
    + intros Z. destruct (qc_lt 0 s2) eqn:Es; [|auto]. apply qc_lt_spec in Es. rewrite Z in Es. exfalso. exact (Qclt_not_eq _ _ Es eq_refl).
Qed.
(** when it is not (fewer than two points, x or errors missing, all x the same) only the chi-square is set, to 999 *)
Theorem c54_undetermined sq fuel x y ey2 out : (length y < fuel)%nat -> (N.of_nat (length y) <= 65535)%N -> (forall e, In e ey2 -> 0 < e) ->
  (length y < 2 \/ length x < length y \/ length ey2 < length y)%nat \/ (forall p q, In p (points x y ey2) -> In q (points x y ey2) -> px p = px q) ->
  lin_fit sq fuel x y ey2 out = Ok (Some (mkFit (f_a out) (f_b out) (f_ea out) (f_eb out) (Q2Qc 999))).
Proof.
  intros Hf Hn Hp H. destruct (Nat.ltb_spec (length y) 2) as [L2|L2]; [unfold lin_fit; destruct (Nat.ltb_spec (length y) 2); [reflexivity|lia]|].
  destruct (Nat.ltb_spec (length x) (length y)) as [Lx|Lx]; [unfold lin_fit; destruct (Nat.ltb_spec (length y) 2); [lia|]; destruct (Nat.ltb_spec (length x) (length y)); [reflexivity|lia]|].
  destruct (Nat.ltb_spec (length ey2) (length y)) as [Le|Le]; [unfold lin_fit; destruct (Nat.ltb_spec (length y) 2); [lia|]; destruct (Nat.ltb_spec (length ey2) (length y)); [rewrite orb_true_r; reflexivity|lia]|].
  destruct H as [H|H]; [lia|]. rewrite (lin_fit_unfold sq fuel x y ey2 out Hf Hn L2 Lx Le Hp). assert (Hne : points x y ey2 <> []) by (intros E; assert (X := points_length x y ey2 Lx Le); rewrite E in X; cbn in X; lia). destruct (det_ge _ (pw_pos x y ey2 Hp) Hne) as (_ & D). apply D in H. rewrite H. reflexivity.
Qed.
(** refuted: with 65536 points or more the loop over the points never ends (the counter is an unsigned short), whatever the data *)
Theorem c54_terminates_refuted sq x y ey2 out : (65535 < N.of_nat (length y))%N -> (length y <= length x)%nat -> (length y <= length ey2)%nat -> (forall e, In e ey2 -> 0 < e) ->
  forall fuel, lin_fit sq fuel x y ey2 out = Ok None.
Proof.
  intros Hn Hx He Hp fuel. unfold lin_fit. destruct (Nat.ltb_spec (length y) 2); [lia|]. destruct (Nat.ltb_spec (length x) (length y)); [lia|]. destruct (Nat.ltb_spec (length ey2) (length y)); [lia|]. cbn [orb]. rewrite loop_diverges; [reflexivity|exact Hn| |reflexivity].
  intros s i Hi. rewrite <- (points_length x y ey2 Hx He) in Hi. destruct (points_idx x y ey2 i Hi) as (p & E & E1 & E2 & E3). unfold add_point. rewrite E1, E2, E3. cbn [obind]. destruct (qc_eqb (snd p) 0) eqn:Z; [|eauto]. apply qc_eqb_spec in Z. assert (X := Hp _ (points_err x y ey2 p (nth_error_In _ _ E))). rewrite Z in X. exfalso. exact (Qclt_not_eq _ _ X eq_refl).
Qed.
(** refuted: the number of degrees of freedom is taken from x, so with more x than y the reported chi-square is wrong *)
Definition ex_f0 : fit := mkFit 0 0 0 0 0.
Definition ql (l : list Q) : list Qc := map Q2Qc l.
Theorem c54_chidof_refuted : exists x y ey2 r, lin_fit (fun v => v) 10 x y ey2 ex_f0 = Ok (Some r) /\ length y = 3%nat /\ (forall e, In e ey2 -> 0 < e) /\
  f_chi r <> chi2 (points x y ey2) (f_a r) (f_b r) / qnat (length y - 2).
Proof.
  exists (ql [0; 1; 2; 7]%Q), (ql [0; 1; 0]%Q), (ql [1; 1; 1]%Q). destruct (lin_fit (fun v => v) 10 (ql [0; 1; 2; 7]%Q) (ql [0; 1; 0]%Q) (ql [1; 1; 1]%Q) ex_f0) as [[r|]| |] eqn:E; try (vm_compute in E; discriminate E). exists r. split; [reflexivity|]. split; [reflexivity|]. split; [intros e [<-|[<-|[<-|[]]]]; reflexivity|]. vm_compute in E. injection E as <-. intros X. apply (f_equal this) in X. vm_compute in X. discriminate X.
Qed.
Print Assumptions c54_best_line_partial. Print Assumptions c54_undetermined. Print Assumptions c54_terminates_refuted. Print Assumptions c54_chidof_refuted.

(* ------------------------------------------------------------ non-vacuity *)
Definition ex_x := ql [0; 1; 2; 4]%Q. Definition ex_y := ql [1; 3; 4; 9]%Q. Definition ex_e := ql [1; 1 # 2; 1; 2]%Q.
Example ex_fit : exists r, lin_fit (fun v => v) 5 ex_x ex_y ex_e ex_f0 = Ok (Some r) /\ (this (f_a r), this (f_b r), this (f_chi r)) = (25 # 27, 17 # 9, 19 # 54)%Q.
Proof. destruct (lin_fit (fun v => v) 5 ex_x ex_y ex_e ex_f0) as [[r|]| |] eqn:E; try (vm_compute in E; discriminate E). exists r. split; [reflexivity|]. vm_compute in E. injection E as <-. vm_compute. reflexivity. Qed.
Example ex_hyp : (exists p q, In p (points ex_x ex_y ex_e) /\ In q (points ex_x ex_y ex_e) /\ px p <> px q) /\ forall e, In e ex_e -> 0 < e.
Proof. split; [|intros e H; cbn in H; intuition (subst; reflexivity)]. exists (Q2Qc 0, Q2Qc 1, Q2Qc 1), (Q2Qc 1, Q2Qc 3, Q2Qc (1 # 2)). split; [left; reflexivity|]. split; [right; left; reflexivity|discriminate]. Qed.
Example ex_long : let l := repeat 1 (N.to_nat 65536) in (65535 < N.of_nat (length l))%N /\ forall e, In e l -> 0 < e.
Proof. cbv zeta. split; [rewrite repeat_length, Nnat.N2Nat.id; reflexivity|intros e H; apply repeat_spec in H; subst; reflexivity]. Qed.
