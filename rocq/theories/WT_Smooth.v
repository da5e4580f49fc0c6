(** C57: smoothing and derivative *)
From Coq Require Import QArith Qcanon Lqa.
From Verif Require Import Base Util QcUtil Solver_Model Solver_Proofs CMgr_Proofs SortUtil WT_Model WT_Spec WT_Morph WT_Props.
Local Open Scope nat_scope.

(* ------------------------------------------------------------ overwriting a range *)
Lemma nth_range_upd (f : nat -> outcome Qc) (g : nat -> Qc) lo n (out : list Qc) : lo + n <= length out -> (forall c, lo <= c < lo + n -> f c = Ok (g c)) ->
  exists out', foreach (seq lo n) (fun out c => do v <- f c; set_idx out c v) out = Ok out' /\ length out' = length out /\
    forall i, nth i out' 0%Qc = if (lo <=? i) && (i <? lo + n) then g i else nth i out 0%Qc.
Proof.
  revert out. induction n as [|n IH]; intros out H Hf.
  - exists out. split; [reflexivity|]. split; [reflexivity|]. intros i. destruct (Nat.leb_spec lo i); [|reflexivity]. destruct (Nat.ltb_spec i (lo + 0)); [lia|reflexivity].
  - rewrite seq_S, foreach_app. destruct (IH out ltac:(lia) (fun c Hc => Hf c ltac:(lia))) as (out' & E & L & N). rewrite E. cbn [obind foreach]. rewrite Hf by lia. cbn [obind]. unfold set_idx. destruct (Nat.ltb_spec (lo + n) (length out')); [|lia]. cbn [obind]. eexists. split; [reflexivity|]. split; [rewrite upd_length; exact L|].
    intros i. rewrite nth_upd. destruct (Nat.eqb_spec i (lo + n)) as [->|Hi].
    + destruct (Nat.ltb_spec (lo + n) (length out')); [|lia]. destruct (Nat.leb_spec lo (lo + n)); [|lia]. destruct (Nat.ltb_spec (lo + n) (lo + S n)); [reflexivity|lia].
    + cbn [andb]. rewrite N. destruct (Nat.leb_spec lo i); [|reflexivity]. cbn [andb]. destruct (Nat.ltb_spec i (lo + n)), (Nat.ltb_spec i (lo + S n)); try reflexivity; lia.
Qed.
Definition sample (w : list Qc) (i : nat) : Qc := nth i w 0%Qc.
Lemma idx_s w i : i < length w -> idx w i = Ok (sample w i). Proof. apply idx_ok. Qed.
(** the weighted mean of five samples around tick [i] *)
Definition mean5 (w : list Qc) (i : nat) : Qc := ((sample w (i - 2) + Q2Qc 2 * sample w (i - 1) + Q2Qc 3 * sample w i + Q2Qc 2 * sample w (i + 1) + sample w (i + 2)) / Q2Qc 9)%Qc.
Theorem c57_triangle_partial w out0 low : length w <= 4 \/ low + 4 <= length w -> exists out, triangle_smooth w out0 low = Ok out /\ length out = length w /\
  forall i, i < length w -> sample out i = if (4 <? length w) && (2 + low <=? i) && (i <? length w - 2) then mean5 w i else sample w i.
Proof.
  intros H. unfold triangle_smooth. destruct (Nat.ltb_spec 4 (length w)) as [L|L]; [|exists w; auto]. destruct (Nat.ltb_spec (length w) (2 + low)); [lia|]. destruct (Nat.ltb_spec (length w - 3) (1 + low)); [lia|].
  set (n := length w) in *. set (sized := firstn n out0 ++ repeat 0%Qc (n - length out0)). assert (Ls : length sized = n) by (unfold sized; rewrite app_length, firstn_length, repeat_length; lia). set (mid := firstn (n - 2 - (2 + low)) (skipn (2 + low) sized)). assert (Lm : length mid = n - 2 - (2 + low)) by (unfold mid; rewrite firstn_length, skipn_length; lia).
  set (sm := firstn (2 + low) w ++ mid ++ skipn (n - 2) w). assert (Lsm : length sm = n) by (unfold sm; rewrite !app_length, firstn_length, skipn_length, Lm; fold n; lia).
  unfold range. destruct (nth_range_upd (five w) (mean5 w) (2 + low) (n - 2 - (2 + low)) sm ltac:(lia)) as (out & E & Lo & N).
  - intros c Hc. unfold five. rewrite !idx_s by (fold n; lia). reflexivity.
  - exists out. split; [exact E|]. split; [lia|]. intros i Hi. unfold sample at 1. rewrite N. replace (2 + low + (n - 2 - (2 + low))) with (n - 2) by lia. cbn [andb]. destruct (Nat.leb_spec (2 + low) i); [destruct (Nat.ltb_spec i (n - 2)); [reflexivity|]|]; cbn [andb]; unfold sm, sample.
    + rewrite app_nth2 by (rewrite firstn_length; fold n; lia). rewrite firstn_length. fold n. replace (Nat.min (2 + low) n) with (2 + low) by lia. rewrite app_nth2 by lia. rewrite Lm. rewrite <- (firstn_skipn (n - 2) w) at 2. rewrite (app_nth2 (firstn (n - 2) w)) by (rewrite firstn_length; fold n; lia). rewrite firstn_length. fold n. f_equal. lia.
    + rewrite app_nth1 by (rewrite firstn_length; fold n; lia). rewrite <- (firstn_skipn (2 + low) w) at 2. rewrite (app_nth1 (firstn (2 + low) w)) by (rewrite firstn_length; fold n; lia). reflexivity.
Qed.
Theorem c57_triangle_refuted w out0 low : 4 < length w -> length w < low + 4 -> triangle_smooth w out0 low = Undef.
Proof. intros H1 H2. unfold triangle_smooth. destruct (Nat.ltb_spec 4 (length w)); [|lia]. destruct (Nat.ltb_spec (length w) (2 + low)); [reflexivity|]. destruct (Nat.ltb_spec (length w - 3) (1 + low)); [reflexivity|lia]. Qed.

(* ------------------------------------------------------------ median *)
Lemma filter_len_perm {A} (f : A -> bool) l l' : Permutation l l' -> length (filter f l) = length (filter f l').
Proof. induction 1; cbn; try congruence; [destruct (f x); cbn; congruence|destruct (f x), (f y); reflexivity]. Qed.
Lemma filter_none {A} (f : A -> bool) l : (forall x, In x l -> f x = false) -> filter f l = [].
Proof. induction l as [|x l IH]; intros H; cbn; [reflexivity|]. rewrite (H x (or_introl eq_refl)). apply IH. intros y Hy. apply H. right. exact Hy. Qed.
Lemma filter_le {A} (f : A -> bool) l : length (filter f l) <= length l.
Proof. induction l as [|x l IH]; cbn; [lia|]. destruct (f x); cbn; lia. Qed.
Lemma sorted_split (l1 l2 : list Qc) v : StronglySorted Qcle (l1 ++ v :: l2) -> (forall x, In x l1 -> (x <= v)%Qc) /\ (forall x, In x l2 -> (v <= x)%Qc).
Proof.
  induction l1 as [|a l IH]; cbn; intros H; inversion H; subst.
  - split; [intros x []|]. intros x Hx. rewrite Forall_forall in H3. apply H3, Hx.
  - destruct (IH H2) as (A & B). split; [|exact B]. intros x [<-|Hx]; [|apply A, Hx]. rewrite Forall_forall in H3. apply H3. apply in_or_app. right. left. reflexivity.
Qed.
Lemma median_ok srt l m v : (forall l, Permutation (srt l) l /\ StronglySorted Qcle (srt l)) -> length l = 2 * m + 1 -> nth_error (srt l) m = Some v -> median_of l v.
Proof.
  intros H L E. destruct (H l) as (P & S). destruct (nth_error_split _ _ E) as (l1 & l2 & El & Ll). assert (Le := Permutation_length P). rewrite El in Le. rewrite app_length in Le. cbn in Le. rewrite El in S. destruct (sorted_split l1 l2 v S) as (A & B). split; [apply (Permutation_in _ P); rewrite El; apply in_or_app; right; left; reflexivity|].
  rewrite <- !(filter_len_perm _ _ _ P), El, !filter_app. cbn [filter]. destruct (Qclt_le_dec v v) as [X|X]; [exfalso; exact (Qclt_not_eq _ _ X eq_refl)|]. split.
  - rewrite (filter_none _ l2), app_nil_r; [assert (Y := filter_le (fun x => if Qclt_le_dec x v then true else false) l1); lia|]. intros x Hx. destruct (Qclt_le_dec x v) as [Y|Y]; [|reflexivity]. exfalso. exact (Qclt_not_le _ _ Y (B x Hx)).
  - rewrite (filter_none _ l1); [cbn [app]; assert (Y := filter_le (fun x => if Qclt_le_dec v x then true else false) l2); lia|]. intros x Hx. destruct (Qclt_le_dec v x) as [Y|Y]; [|reflexivity]. exfalso. exact (Qclt_not_le _ _ Y (A x Hx)).
Qed.
Lemma skipn_sample w k i : sample (skipn k w) i = sample w (k + i).
Proof. unfold sample. revert k. induction w as [|a w IH]; intros k; destruct k as [|k]; cbn [skipn]; try reflexivity; [destruct i; reflexivity|]. rewrite IH. reflexivity. Qed.
(** every tick whose window is complete, except the last one, gets a median of its window; the others are copied *)
Theorem c57_median_partial srt w m : (forall l, Permutation (srt l) l /\ StronglySorted Qcle (srt l)) -> 2 * m + 1 <= length w -> forall nb, nb = 2 * m + 1 \/ nb = 2 * m ->
  exists out, median_smooth srt w nb = Ok out /\ length out = length w /\
  forall i, i < length w -> if (m <=? i) && (i + m + 1 <? length w) then median_of (firstn (2 * m + 1) (skipn (i - m) w)) (sample out i) else sample out i = sample w i.
Proof.
  intros Hs Hn nb Hb. unfold median_smooth. assert (E0 : (if Nat.even nb then nb + 1 else nb) = 2 * m + 1).
  { destruct Hb as [->| ->]; [|rewrite Nat.even_mul; reflexivity]. rewrite Nat.even_add, Nat.even_mul. cbn. reflexivity. }
  rewrite E0. destruct (Nat.ltb_spec (length w) (2 * m + 1)); [lia|]. assert (E1 : (2 * m + 1) / 2 = m) by (rewrite Nat.mul_comm, Nat.div_add_l by lia; change (1 / 2) with 0; lia). rewrite E1. set (n := length w) in *.
  assert (P : forall k, k <= n - (2 * m + 1) -> exists mid, foreach (seq 0 k) (fun out s => do v <- idx (srt (firstn (2 * m + 1) (skipn s w))) m; Ok (out ++ [v])) [] = Ok mid /\ length mid = k /\ forall s, s < k -> median_of (firstn (2 * m + 1) (skipn s w)) (nth s mid 0%Qc)).
  { induction k as [|k IH]; intros Hk; [exists []; split; [reflexivity|]; split; [reflexivity|]; intros; lia|]. destruct (IH ltac:(lia)) as (mid & E & L & M). rewrite seq_S, foreach_app, E. cbn [obind foreach plus]. set (win := firstn (2 * m + 1) (skipn k w)). assert (Lw : length win = 2 * m + 1) by (unfold win; rewrite firstn_length, skipn_length; fold n; lia). assert (Lq : length (srt win) = 2 * m + 1) by (rewrite (Permutation_length (proj1 (Hs win))); exact Lw). rewrite (idx_ok _ _ 0%Qc) by lia. cbn [obind].
    eexists. split; [reflexivity|]. split; [rewrite app_length; cbn; lia|]. intros s Hk'. destruct (Nat.eq_dec s k) as [->|].
    - rewrite app_nth2 by lia. rewrite L, Nat.sub_diag. cbn [nth]. apply (median_ok srt win m); [exact Hs|exact Lw|]. apply nth_error_nth'. lia.
    - rewrite app_nth1 by lia. apply M. lia. }
  destruct (P _ (le_n _)) as (mid & E & L & M). rewrite E. cbn [obind]. eexists. split; [reflexivity|]. split; [rewrite !app_length, firstn_length, skipn_length, L; fold n; lia|]. intros i Hi. unfold sample at 1 2.
  destruct (Nat.leb_spec m i) as [Hm|Hm]; [destruct (Nat.ltb_spec (i + m + 1) n) as [Hr|Hr]|]; cbn [andb].
  - rewrite app_nth2 by (rewrite firstn_length; fold n; lia). rewrite firstn_length. fold n. replace (Nat.min m n) with m by lia. rewrite app_nth1 by lia. apply M. lia.
  - rewrite app_nth2 by (rewrite firstn_length; fold n; lia). rewrite firstn_length. fold n. replace (Nat.min m n) with m by lia. rewrite app_nth2 by lia. rewrite L. change (nth ?k ?l 0%Qc) with (sample l k). rewrite skipn_sample. f_equal. lia.
  - rewrite app_nth1 by (rewrite firstn_length; fold n; lia). rewrite <- (firstn_skipn m w) at 2. unfold sample. rewrite (app_nth1 (firstn m w)) by (rewrite firstn_length; fold n; lia). reflexivity.
Qed.
(** refuted: the last complete window is not used *)
Lemma srt_ok (l : list Qc) : Permutation (isort qc_lt l) l /\ StronglySorted Qcle (isort qc_lt l).
Proof.
  split; [apply isort_perm|]. assert (S := isort_sorted qc_lt (A := Qc)). assert (S' := S ltac:(intros a b c H1 H2; apply qc_lt_false in H1, H2; apply qc_lt_false; eapply Qcle_trans; eassumption) ltac:(intros a b H; apply qc_lt_spec in H; apply qc_lt_false, Qclt_le_weak, H) l). clear S. induction S' as [|a l' H IH F]; constructor; [exact IH|]. rewrite Forall_forall in *. intros x Hx. apply qc_lt_false, F, Hx.
Qed.
Theorem c57_median_last_window_refuted : exists w out, median_smooth (isort qc_lt) w 3 = Ok out /\ ~ median_of (firstn 3 (skipn 1 w)) (nth 2 out 0%Qc).
Proof.
  exists (qs [0; 0; 9; 0]%Z). destruct (median_smooth (isort qc_lt) (qs [0; 0; 9; 0]%Z) 3) as [out| |] eqn:E; try (vm_compute in E; discriminate E). exists out. split; [reflexivity|]. vm_compute in E. injection E as <-. intros (_ & H & _). vm_compute in H. lia.
Qed.
Theorem c57_median_short_refuted srt w nb : length w < nb -> median_smooth srt w nb = Undef.
Proof. intros H. unfold median_smooth. destruct (Nat.even nb); [destruct (Nat.ltb_spec (length w) (nb + 1))|destruct (Nat.ltb_spec (length w) nb)]; try reflexivity; lia. Qed.

(* ------------------------------------------------------------ derivative *)
Theorem c57_derivative_partial w d0 : w <> [] -> exists out, first_derivative w d0 = Ok out /\ length out = length w /\
  forall i, i < length w -> sample out i = if (1 <=? i) && (i <? length w - 1) then ((sample w (i + 1) - sample w (i - 1)) / two)%Qc else sample d0 i.
Proof.
  intros Hw. unfold first_derivative. set (n := length w). assert (Hn : n <> 0) by (unfold n; destruct w; [congruence|discriminate]). set (d := firstn n d0 ++ repeat 0%Qc (n - length d0)). assert (Ld : length d = n) by (unfold d; rewrite app_length, firstn_length, repeat_length; lia).
  assert (P : forall k, 1 + k <= n - 1 \/ k = 0 -> exists out, foreach (seq 1 k) (fun d i => do b <- at_ w (i + 1); do a <- at_ w (i - 1); set_at d i ((b - a) / two)%Qc) d = Ok out /\ length out = n /\ forall i, sample out i = if (1 <=? i) && (i <? 1 + k) then ((sample w (i + 1) - sample w (i - 1)) / two)%Qc else sample d i).
  { induction k as [|k IH]; intros Hk.
    - exists d. split; [reflexivity|]. split; [exact Ld|]. intros i. destruct (Nat.leb_spec 1 i); [|reflexivity]. destruct (Nat.ltb_spec i (1 + 0)); [lia|reflexivity].
    - destruct (IH ltac:(lia)) as (out & E & L & N). rewrite seq_S, foreach_app, E. cbn [obind foreach]. rewrite !(at_ok _ _ 0%Qc) by (fold n; lia). cbn [obind]. unfold set_at. destruct (Nat.ltb_spec (1 + k) (length out)); [|lia]. cbn [obind]. eexists. split; [reflexivity|]. split; [rewrite upd_length; exact L|].
      intros i. unfold sample at 1. rewrite nth_upd. destruct (Nat.eqb_spec i (1 + k)) as [->|Hi].
      + destruct (Nat.ltb_spec (1 + k) (length out)); [|lia]. destruct (Nat.leb_spec 1 (1 + k)); [|lia]. destruct (Nat.ltb_spec (1 + k) (1 + S k)); [|lia]. reflexivity.
      + cbn [andb]. fold (sample out i). rewrite N. destruct (Nat.leb_spec 1 i); [|reflexivity]. cbn [andb]. destruct (Nat.ltb_spec i (1 + k)), (Nat.ltb_spec i (1 + S k)); try reflexivity; lia. }
  unfold range. destruct (P (n - 1 - 1) ltac:(lia)) as (out & E & L & N). exists out. split; [destruct n eqn:En; [congruence|exact E]|]. split; [exact L|]. intros i Hi. rewrite N.
  assert (Sd : sample d i = sample d0 i). { unfold sample, d. destruct (Nat.ltb_spec i (length d0)) as [X|X]; [rewrite app_nth1 by (rewrite firstn_length; lia); rewrite <- (firstn_skipn n d0) at 2; rewrite (app_nth1 (firstn n d0)) by (rewrite firstn_length; lia); reflexivity|]. rewrite (nth_overflow d0) by lia. rewrite app_nth2 by (rewrite firstn_length; lia). apply nth_repeat. }
  rewrite Sd. destruct (Nat.leb_spec 1 i); [|reflexivity]. cbn [andb]. destruct (Nat.ltb_spec i (1 + (n - 1 - 1))), (Nat.ltb_spec i (n - 1)); try reflexivity; lia.
Qed.
(** refuted: an empty waveform throws, and the end ticks keep whatever the output vector held before *)
Theorem c57_derivative_empty_refuted d0 : first_derivative [] d0 = Throw RangeExn. Proof. reflexivity. Qed.
Theorem c57_derivative_stale_refuted : exists w d0 out out', first_derivative w [] = Ok out /\ first_derivative w d0 = Ok out' /\ out <> out'.
Proof.
  exists (qs [1; 2; 3]%Z), (qs [7]%Z). destruct (first_derivative (qs [1; 2; 3]%Z) []) as [o| |] eqn:E; try (vm_compute in E; discriminate E). destruct (first_derivative (qs [1; 2; 3]%Z) (qs [7]%Z)) as [o'| |] eqn:E'; try (vm_compute in E'; discriminate E'). exists o, o'. split; [reflexivity|]. split; [reflexivity|]. vm_compute in E, E'. injection E as <-. injection E' as <-. intros X. apply (f_equal (map this)) in X. vm_compute in X. discriminate X.
Qed.
Print Assumptions c57_triangle_partial. Print Assumptions c57_median_partial. Print Assumptions c57_derivative_partial. Print Assumptions c57_median_last_window_refuted. Print Assumptions c57_derivative_stale_refuted.
(* ------------------------------------------------------------ non-vacuity *)
Example ex_smooth : match triangle_smooth (qs [0; 0; 0; 9; 0; 0; 0]%Z) [] 0 with Ok l => map this l | _ => [] end = [0; 0; 2; 3; 2; 0; 0]%Q. Proof. vm_compute. reflexivity. Qed.
Example ex_median : match median_smooth (isort qc_lt) (qs [5; 1; 9; 2; 3; 8]%Z) 2 with Ok l => map this l | _ => [] end = [5; 5; 2; 3; 3; 8]%Q. Proof. vm_compute. reflexivity. Qed.
Example ex_deriv : match first_derivative (qs [0; 1; 4; 9]%Z) [] with Ok l => map this l | _ => [] end = [0; 2; 4; 0]%Q. Proof. vm_compute. reflexivity. Qed.
