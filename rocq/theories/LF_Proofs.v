From Coq Require Import QArith Qcanon Lqa Field.
From Verif Require Import Base QcUtil Solver_Model Solver_Proofs CMgr_Proofs LF_Model LF_Spec.
Local Open Scope nat_scope.

Lemma loop_foreach {S} size (body : S -> nat -> outcome S) (Hs : (N.of_nat size <= 65535)%N) : forall k fuel s, k <= size -> k < fuel ->
  ushort_loop fuel size (N.of_nat (size - k)) body s = obind (foreach (seq (size - k) k) body s) (fun s => Ok (Some s)).
Proof.
  induction k as [|k IH]; intros fuel s Hk Hf; (destruct fuel as [|fuel]; [lia|]); cbn [ushort_loop].
  - destruct (N.ltb_spec (N.of_nat (size - 0)) (N.of_nat size)); [lia|]. reflexivity.
  - destruct (N.ltb_spec (N.of_nat (size - Datatypes.S k)) (N.of_nat size)); [|lia]. cbn [seq foreach]. rewrite Nnat.Nat2N.id. destruct (body s (size - Datatypes.S k)) as [s'| |]; cbn [obind]; [|reflexivity|reflexivity].
    replace (Datatypes.S (size - Datatypes.S k)) with (size - k) by lia. rewrite <- (IH fuel s') by lia. f_equal. rewrite N.mod_small by lia. lia.
Qed.
Lemma loop_diverges {S} size (body : S -> nat -> outcome S) : (65535 < N.of_nat size)%N -> (forall s i, i < size -> exists s', body s i = Ok s') ->
  forall fuel ii s, (ii < 65536)%N -> ushort_loop fuel size ii body s = Ok None.
Proof.
  intros Hs Hb. induction fuel as [|fuel IH]; intros ii s Hi; cbn [ushort_loop]; [reflexivity|]. destruct (N.ltb_spec ii (N.of_nat size)); [|lia]. destruct (Hb s (N.to_nat ii) ltac:(lia)) as (s' & ->). cbn [obind]. apply IH. apply N.mod_lt. discriminate.
Qed.

Lemma nth_combine {A B} (l : list A) (l' : list B) : forall i, nth_error (List.combine l l') i = match nth_error l i, nth_error l' i with Some a, Some b => Some (a, b) | _, _ => None end.
Proof. revert l'. induction l as [|a l IH]; intros [|b l'] [|i]; cbn; try reflexivity; [destruct (nth_error l i); reflexivity|apply IH]. Qed.
Lemma idx_nth {A} (l : list A) i a : nth_error l i = Some a -> idx l i = Ok a.
Proof. intros H. unfold idx. rewrite H. reflexivity. Qed.
Lemma points_idx x y ey2 i : i < length (points x y ey2) -> exists p, nth_error (points x y ey2) i = Some p /\ idx x i = Ok (px p) /\ idx y i = Ok (py p) /\ idx ey2 i = Ok (snd p).
Proof.
  intros H. destruct (nth_error (points x y ey2) i) as [[[a b] e]|] eqn:E; [|apply nth_error_None in E; lia]. exists (a, b, e). split; [reflexivity|]. unfold points, point in E. rewrite !nth_combine in E. destruct (nth_error x i) eqn:Ex; [|discriminate]. destruct (nth_error y i) eqn:Ey; [|discriminate]. destruct (nth_error ey2 i) eqn:Ee; [|discriminate]. injection E as -> -> ->. cbn. auto using idx_nth.
Qed.
Lemma points_length x y ey2 : length y <= length x -> length y <= length ey2 -> length (points x y ey2) = length y.
Proof. intros. unfold points, point. rewrite !combine_length. lia. Qed.
Lemma points_err x y ey2 p : In p (points x y ey2) -> In (snd p) ey2.
Proof. destruct p as [p e]. unfold points. intros H. apply in_combine_r in H. exact H. Qed.

Local Open Scope Qc_scope.
(** the sums over points *)
Definition sums_of (ps : list point) : sums :=
  mkS (qsum pw ps) (qsum (fun p => pw p * px p) ps) (qsum (fun p => pw p * py p) ps) (qsum (fun p => pw p * (px p * py p)) ps) (qsum (fun p => pw p * (px p * px p)) ps) (qsum (fun p => pw p * (py p * py p)) ps).
Lemma firstn_nth {A} (l : list A) k a : nth_error l k = Some a -> firstn (S k) l = firstn k l ++ [a].
Proof. revert k. induction l as [|b l IH]; intros [|k] H; cbn in *; try discriminate; [congruence|]. rewrite (IH k H). reflexivity. Qed.
Lemma sums_loop x y ey2 (He : forall e, In e ey2 -> 0 < e) : forall k, (k <= length (points x y ey2))%nat ->
  foreach (seq 0 k) (add_point x y ey2) (mkS 0 0 0 0 0 0) = Ok (sums_of (firstn k (points x y ey2))).
Proof.
  induction k as [|k IH]; intros Hk; [reflexivity|]. rewrite seq_S, foreach_app, IH by lia. cbn [obind foreach plus]. destruct (points_idx x y ey2 k ltac:(lia)) as (p & E & E1 & E2 & E3). unfold add_point. rewrite E1, E2, E3. cbn [obind].
  assert (Hp : 0 < snd p) by (apply He, (points_err x y), (nth_error_In _ _ E)). destruct (qc_eqb (snd p) 0) eqn:Z; [apply qc_eqb_spec in Z; rewrite Z in Hp; exfalso; exact (Qclt_not_eq _ _ Hp eq_refl)|]. cbn [obind]. rewrite (firstn_nth _ _ _ E). unfold sums_of. cbn [s_1 s_x s_y s_xy s_x2 s_y2]. rewrite !qsum_app. cbn [qsum fold_right]. fold (pw p). f_equal. f_equal; ring.
Qed.
Lemma chi_loop x y ey2 A B (He : forall e, In e ey2 -> 0 < e) : forall k, (k <= length (points x y ey2))%nat ->
  foreach (seq 0 k) (add_chi x y ey2 A B) 0 = Ok (chi2 (firstn k (points x y ey2)) A B).
Proof.
  induction k as [|k IH]; intros Hk; [reflexivity|]. rewrite seq_S, foreach_app, IH by lia. cbn [obind foreach plus]. destruct (points_idx x y ey2 k ltac:(lia)) as (p & E & E1 & E2 & E3). unfold add_chi. rewrite E1, E2, E3. cbn [obind].
  assert (Hp : 0 < snd p) by (apply He, (points_err x y), (nth_error_In _ _ E)). destruct (qc_eqb (snd p) 0) eqn:Z; [apply qc_eqb_spec in Z; rewrite Z in Hp; exfalso; exact (Qclt_not_eq _ _ Hp eq_refl)|]. cbn [obind]. rewrite (firstn_nth _ _ _ E). unfold chi2. rewrite !qsum_app. cbn [qsum fold_right]. f_equal. unfold pw, Qcdiv. ring.
Qed.

Lemma sq_ge (x : Qc) : 0 <= x * x. Proof. qc2q. nra. Qed.
Lemma mul_ge (x y : Qc) : 0 <= x -> 0 <= y -> 0 <= x * y. Proof. intros. qc2q. change (this 0) with 0%Q in *. nra. Qed.
(* ------------------------------------------------------------ algebra of the fit *)
Section Fit.
Variable ps : list point.
Hypothesis Hw : forall p, In p ps -> 0 < pw p.
Let S1 := qsum pw ps.
Let Sx := qsum (fun p => pw p * px p) ps.
Let Sy := qsum (fun p => pw p * py p) ps.
Let Sxy := qsum (fun p => pw p * (px p * py p)) ps.
Let Sxx := qsum (fun p => pw p * (px p * px p)) ps.
Let Syy := qsum (fun p => pw p * (py p * py p)) ps.
Lemma chi2_expand a b : chi2 ps a b = Syy + a * a * S1 + b * b * Sxx - two * (a * Sy + b * Sxy - a * b * Sx).
Proof using.
  clear Hw. unfold chi2, Syy, S1, Sxx, Sy, Sxy, Sx, two. induction ps as [|p l IH]; cbn [qsum fold_right]; [ring|]. fold (qsum (fun p => pw p * ((py p - (a + b * px p)) * (py p - (a + b * px p)))) l) (qsum pw l) (qsum (fun p => pw p * px p) l) (qsum (fun p => pw p * py p) l) (qsum (fun p => pw p * (px p * py p)) l) (qsum (fun p => pw p * (px p * px p)) l) (qsum (fun p => pw p * (py p * py p)) l). rewrite IH. ring.
Qed.
(** a sum of squares with positive weights *)
Lemma sq_sum_ge (g : point -> Qc) : forall l, (forall p, In p l -> 0 < pw p) -> 0 <= qsum (fun p => pw p * (g p * g p)) l /\ (qsum (fun p => pw p * (g p * g p)) l = 0 -> forall p, In p l -> g p = 0).
Proof using.
  induction l as [|p l IH]; intros H; [split; [apply Qcle_refl|intros _ p []]|]. destruct (IH (fun q Hq => H q (or_intror Hq))) as (A & B). cbn [qsum fold_right]. fold (qsum (fun p => pw p * (g p * g p)) l). assert (Hp := H p (or_introl eq_refl)). assert (P : 0 <= pw p * (g p * g p)) by (apply mul_ge; [apply Qclt_le_weak, Hp|apply sq_ge]). split; [qclra|]. intros E. assert (E1 : pw p * (g p * g p) = 0) by qclra. assert (E2 : qsum (fun p => pw p * (g p * g p)) l = 0) by qclra.
  intros q [<-|Hq]; [|exact (B E2 q Hq)]. destruct (Qcmult_integral _ _ E1) as [X|X]; [rewrite X in Hp; exfalso; exact (Qclt_not_eq _ _ Hp eq_refl)|]. destruct (Qcmult_integral _ _ X); assumption.
Qed.
Lemma s1_pos : ps <> [] -> 0 < S1.
Proof using Hw.
  unfold S1. intros H. destruct ps as [|p l]; [congruence|]. cbn [qsum fold_right]. fold (qsum pw l). assert (0 < pw p) by (apply Hw; left; reflexivity). assert (0 <= qsum pw l). { clear -Hw. assert (H : forall q, In q l -> 0 < pw q) by (intros q Hq; apply Hw; right; exact Hq). clear Hw. induction l as [|q l IH]; [apply Qcle_refl|]. cbn [qsum fold_right]. fold (qsum pw l). assert (0 < pw q) by (apply H; left; reflexivity). assert (0 <= qsum pw l) by (apply IH; intros r Hr; apply H; right; exact Hr). qclra. } qclra.
Qed.
Lemma quad_sum u v : qsum (fun p => pw p * ((u + v * px p) * (u + v * px p))) ps = u * u * S1 + two * (u * v * Sx) + v * v * Sxx.
Proof using.
  clear Hw. unfold S1, Sx, Sxx, two. induction ps as [|p l IH]; cbn [qsum fold_right]; [ring|]. fold (qsum (fun p => pw p * ((u + v * px p) * (u + v * px p))) l) (qsum pw l) (qsum (fun p => pw p * px p) l) (qsum (fun p => pw p * (px p * px p)) l). rewrite IH. ring.
Qed.
(** the determinant vanishes only if all x are the same *)
Lemma det_ge : ps <> [] -> 0 <= det ps /\ (det ps = 0 <-> forall p q, In p ps -> In q ps -> px p = px q).
Proof using Hw.
  intros Hne. assert (P := s1_pos Hne). assert (Nz : S1 <> 0) by (intros X; rewrite X in P; exact (Qclt_not_eq _ _ P eq_refl)). set (m := Sx / S1). assert (E : det ps = S1 * qsum (fun p => pw p * ((- m + 1 * px p) * (- m + 1 * px p))) ps).
  { rewrite quad_sum. unfold det. fold S1 Sx Sxx. unfold m, two. field. exact Nz. }
  destruct (sq_sum_ge (fun p => - m + 1 * px p) ps Hw) as (A & B). split; [rewrite E; apply mul_ge; [apply Qclt_le_weak, P|exact A]|]. split.
  - intros Z p q Hp Hq. rewrite E in Z. destruct (Qcmult_integral _ _ Z) as [X|X]; [contradiction|]. assert (Ep := B X p Hp). assert (Eq := B X q Hq). cbv beta in Ep, Eq. qclra.
  - intros H. destruct ps as [|p0 l] eqn:El; [congruence|]. rewrite <- El in *. assert (Q : forall p, In p ps -> px p = px p0) by (intros p Hp; apply H; [exact Hp|rewrite El; left; reflexivity]). unfold det. rewrite (qsum_ext (fun p => pw p * (px p * px p)) (fun p => px p0 * px p0 * pw p)), (qsum_ext (fun p => pw p * px p) (fun p => px p0 * pw p)), !qsum_scal; [ring| |]; intros p Hp; rewrite (Q p Hp); ring.
Qed.
Let A := (Sxx * Sy - Sx * Sxy) / det ps.
Let B := (Sxy * S1 - Sx * Sy) / det ps.
Lemma fit_gap : det ps <> 0 -> forall a b, chi2 ps a b = chi2 ps A B + qsum (fun p => pw p * (((a - A) + (b - B) * px p) * ((a - A) + (b - B) * px p))) ps.
Proof using.
  clear Hw. intros Hd a b. rewrite quad_sum, !chi2_expand. unfold A, B, two. unfold det in Hd |- *. fold S1 Sx Sxx in Hd |- *. field. exact Hd.
Qed.
Lemma fit_min : det ps <> 0 -> forall a b, chi2 ps A B <= chi2 ps a b /\ (chi2 ps a b = chi2 ps A B -> a = A /\ b = B).
Proof using Hw.
  intros Hd a b. destruct (sq_sum_ge (fun p => (a - A) + (b - B) * px p) ps Hw) as (G & Z). rewrite (fit_gap Hd a b). split; [qclra|]. intros E. assert (E0 : qsum (fun p => pw p * (((a - A) + (b - B) * px p) * ((a - A) + (b - B) * px p))) ps = 0) by qclra. specialize (Z E0). cbv beta in Z.
  destruct (Qc_eq_dec b B) as [Eb|Eb].
  - split; [|exact Eb]. destruct ps as [|p l] eqn:El; [exfalso; apply Hd; unfold det; cbn; ring|]. assert (X := Z p (or_introl eq_refl)). rewrite Eb in X. qclra.
  - exfalso. assert (Hne : ps <> []) by (intros X; apply Hd; rewrite X; unfold det; cbn; ring). apply Hd, (proj2 (det_ge Hne)). intros p q Hp Hq. assert (X1 := Z p Hp). assert (X2 := Z q Hq). assert (X : (b - B) * (px p - px q) = 0) by (transitivity (((a - A) + (b - B) * px p) - ((a - A) + (b - B) * px q)); [ring|rewrite X1, X2; ring]). destruct (Qcmult_integral _ _ X) as [Y|Y]; [exfalso; apply Eb; qclra|qclra].
Qed.
End Fit.
