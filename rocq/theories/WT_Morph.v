From Coq Require Import QArith Qcanon Lqa.
From Verif Require Import Base QcUtil Solver_Model Solver_Proofs CMgr_Proofs WT_Model WT_Spec.
Local Open Scope nat_scope.

Section Sel.
Variable better : Qc -> Qc -> bool.
(** [wk a b]: a is at least as good as b; [better] decides it up to ties *)
Variable wk : Qc -> Qc -> Prop.
Hypothesis wk_refl : forall a, wk a a.
Hypothesis wk_tr : forall a b c, wk a b -> wk b c -> wk a c.
Hypothesis b_true : forall a b, better a b = true -> wk a b.
Hypothesis b_false : forall a b, better a b = false -> wk b a.
Variable w : list Qc.
Let v i := nth i w 0%Qc.
(** element [el] is a best one of [lo, hi) *)
Definition best (lo hi el : nat) : Prop := lo <= el < hi /\ forall j, lo <= j < hi -> wk (v el) (v j).
Lemma idx_v i : i < length w -> idx w i = Ok (v i).
Proof using. clear. intros H. unfold v. rewrite (idx_ok _ _ 0%Qc H). reflexivity. Qed.
Lemma best_from_ok lo : forall n b i, i + n <= length w -> best lo i b -> exists el, best_from better w b i n = Ok el /\ best lo (i + n) el.
Proof using b_false b_true wk_refl wk_tr.
  induction n as [|n IH]; intros b i Hi Hb; cbn [best_from]; [exists b; rewrite Nat.add_0_r; auto|]. destruct Hb as (H1 & H2). rewrite !idx_v by lia. cbn [obind]. assert (Hn : best lo (S i) (if better (v i) (v b) then i else b)).
  { destruct (better (v i) (v b)) eqn:E; (split; [lia|]); intros j Hj; (destruct (Nat.eq_dec j i) as [->|]; [|]).
    - apply wk_refl. - apply (wk_tr _ (v b)); [apply b_true, E|apply H2; lia]. - apply b_false, E. - apply H2; lia. }
  destruct (IH _ (S i) ltac:(lia) Hn) as (el & E & B). exists el. split; [exact E|]. replace (i + S n) with (S i + n) by lia. exact B.
Qed.
Lemma best_elem_ok lo hi : lo < hi -> hi <= length w -> exists el, best_elem better w lo hi = Ok el /\ best lo hi el.
Proof using b_false b_true wk_refl wk_tr.
  intros H1 H2. unfold best_elem. destruct (Nat.ltb_spec lo hi); [|lia]. destruct (best_from_ok lo (hi - lo - 1) lo (S lo) ltac:(lia)) as (el & E & B).
  - split; [lia|]. intros j Hj. assert (j = lo) by lia. subst. apply wk_refl.
  - exists el. split; [exact E|]. replace (S lo + (hi - lo - 1)) with hi in B by lia. exact B.
Qed.
(** window of the element kept after tick i *)
Definition whi (h i : nat) := Nat.min (i + h + 1) (length w).
Definition wlo (h i : nat) := Nat.min i (length w - 1 - h) + 1 - h.
(** before tick i the kept element is the best of the window of tick i-1, or of the first h samples *)
Definition before (h i el : nat) : Prop := if i =? 0 then best 0 h el else best (wlo h (i - 1)) (whi h (i - 1)) el.
Lemma next_el_ok h i el : 1 <= h <= length w -> i < length w -> before h i el -> exists el', next_el better w h i el = Ok el' /\ best (wlo h i) (whi h i) el'.
Proof using b_false b_true wk_refl wk_tr.
  intros Hh Hi Hb. unfold next_el. destruct (Nat.ltb_spec h (length w - i)) as [L|L].
  - assert (Hlo : wlo h i = i + 1 - h) by (unfold wlo; lia). assert (Hhi : whi h i = i + h + 1) by (unfold whi; lia).
    destruct (Nat.leb_spec (h + el) i) as [F|F].
    + destruct (best_elem_ok (i + 1 - h) (i + h + 1) ltac:(lia) ltac:(lia)) as (el' & E & B). exists el'. split; [exact E|]. rewrite Hlo, Hhi. exact B.
    + assert (Hb' : best (i - h) (i + h) el \/ (i = 0 /\ best 0 h el)).
      { unfold before in Hb. destruct (Nat.eqb_spec i 0) as [->|]; [right; auto|left]. unfold wlo, whi in Hb. replace (Nat.min (i - 1) (length w - 1 - h) + 1 - h) with (i - h) in Hb by lia. replace (Nat.min (i - 1 + h + 1) (length w)) with (i + h) in Hb by lia. exact Hb. }
      assert (Hb2 : best (i + 1 - h) (i + h) el). { destruct Hb' as [(A & B)|(-> & A & B)]; (split; [lia|]); intros j Hj; apply B; lia. }
      destruct Hb2 as (A & B). rewrite !idx_v by lia. cbn [obind]. eexists. split; [reflexivity|]. rewrite Hlo, Hhi. destruct (better (v (i + h)) (v el)) eqn:E; (split; [lia|]); intros j Hj; (destruct (Nat.eq_dec j (i + h)) as [->|]; [|]).
      * apply wk_refl. * apply (wk_tr _ (v el)); [apply b_true, E|apply B; lia]. * apply b_false, E. * apply B; lia.
  - exists el. split; [reflexivity|]. unfold before in Hb. destruct (Nat.eqb_spec i 0) as [->|].
    + assert (h = length w) by lia. unfold wlo, whi. replace (Nat.min 0 (length w - 1 - h) + 1 - h) with 0 by lia. replace (Nat.min (0 + h + 1) (length w)) with h by lia. exact Hb.
    + unfold wlo, whi in *. replace (Nat.min i (length w - 1 - h)) with (Nat.min (i - 1) (length w - 1 - h)) by lia. replace (Nat.min (i + h + 1) (length w)) with (Nat.min (i - 1 + h + 1) (length w)) by lia. exact Hb.
Qed.
Lemma before_next h i el : best (wlo h i) (whi h i) el -> before h (S i) el.
Proof using. intros H. unfold before. cbn [Nat.eqb]. rewrite Nat.sub_1_r. exact H. Qed.
Definition selected (h : nat) (out : list Qc) (k : nat) : Prop := length out = k /\ forall i, i < k -> exists el, best (wlo h i) (whi h i) el /\ nth_error out i = Some (v el).
Lemma selected_snoc h out k el : selected h out k -> best (wlo h k) (whi h k) el -> selected h (out ++ [v el]) (S k).
Proof using.
  intros (A & B) H. split; [rewrite app_length; cbn; lia|]. intros i Hi. destruct (Nat.eq_dec i k) as [->|].
  - exists el. split; [exact H|]. rewrite nth_error_app2 by lia. rewrite A, Nat.sub_diag. reflexivity.
  - destruct (B i ltac:(lia)) as (e & E1 & E2). exists e. split; [exact E1|]. rewrite nth_error_app1 by lia. exact E2.
Qed.
Lemma slide_loop h el0 : 1 <= h <= length w -> best 0 h el0 -> forall k, k <= length w ->
  exists el out, foreach (seq 0 k) (fun st i => do el <- next_el better w h i (fst st); do v <- idx w el; Ok (el, snd st ++ [v])) (el0, []) = Ok (el, out) /\ before h k el /\ selected h out k.
Proof using b_false b_true wk_refl wk_tr.
  intros Hh H0. induction k as [|k IH]; intros Hk.
  - exists el0, []. split; [reflexivity|]. split; [exact H0|]. split; [reflexivity|]. intros i Hi. lia.
  - destruct (IH ltac:(lia)) as (el & out & E & B & S0). rewrite seq_S, foreach_app, E. cbn [obind foreach plus fst snd]. destruct (next_el_ok h k el Hh ltac:(lia) B) as (el' & E' & B'). rewrite E'. cbn [obind]. rewrite idx_v by (destruct B' as (X & _); unfold whi in X; lia). cbn [obind]. exists el', (out ++ [v el']). split; [reflexivity|]. split; [apply before_next, B'|apply selected_snoc; assumption].
Qed.
Lemma slide_ok se : (2 <= se)%Z -> (half se <= Z.of_nat (length w))%Z -> exists out, slide better w se = Ok out /\ selected (Z.to_nat (half se)) out (length w).
Proof using b_false b_true wk_refl wk_tr.
  intros H1 H2. assert (H3 : (1 <= half se)%Z) by (apply Z.quot_le_lower_bound; lia). unfold slide. destruct (Z.ltb_spec (half se) 0); [lia|]. destruct (Z.ltb_spec (Z.of_nat (length w)) (half se)); [lia|]. cbn [orb]. set (h := Z.to_nat (half se)).
  destruct (best_elem_ok 0 h ltac:(lia) ltac:(lia)) as (el0 & E0 & B0). rewrite E0. cbn [obind]. destruct (slide_loop h el0 ltac:(lia) B0 (length w) (le_n _)) as (el & out & E & _ & S0). rewrite E. cbn [obind]. exists out. split; [reflexivity|exact S0].
Qed.
End Sel.

Local Open Scope Qc_scope.
Lemma smaller_t a b : smaller a b = true -> a <= b. Proof. intros H. apply qc_lt_spec in H. apply Qclt_le_weak, H. Qed.
Lemma smaller_f a b : smaller a b = false -> b <= a. Proof. apply qc_lt_false. Qed.
Lemma larger_t a b : larger a b = true -> b <= a. Proof. intros H. apply qc_lt_spec in H. apply Qclt_le_weak, H. Qed.
Lemma larger_f a b : larger a b = false -> a <= b. Proof. apply qc_lt_false. Qed.
Lemma larger_eq_t a b : larger_eq a b = true -> b <= a. Proof. intros H. apply negb_true_iff in H. apply qc_lt_false, H. Qed.
Lemma larger_eq_f a b : larger_eq a b = false -> a <= b. Proof. intros H. apply negb_false_iff in H. apply Qclt_le_weak, qc_lt_spec, H. Qed.
Definition ge (a b : Qc) : Prop := b <= a.
Lemma ge_tr a b c : ge a b -> ge b c -> ge a c. Proof. unfold ge. intros. eapply Qcle_trans; eassumption. Qed.
Lemma best_least w h i el : (0 < h)%nat -> best Qcle w (wlo w h i) (whi w h i) el -> least_in w (win_lo (length w) h i) (win_hi (length w) h i) (nth el w 0).
Proof.
  intros Hh (A & B). unfold win_lo, win_hi, wlo, whi in *. split.
  - exists el. split; [lia|]. apply nth_error_nth'. lia.
  - intros j x Hj E. assert (X := B j ltac:(assert (j < length w)%nat by (apply nth_error_Some; congruence); lia)). rewrite (nth_error_nth _ _ 0 E) in X. exact X.
Qed.
Lemma best_greatest w h i el : (0 < h)%nat -> best ge w (wlo w h i) (whi w h i) el -> greatest_in w (win_lo (length w) h i) (win_hi (length w) h i) (nth el w 0).
Proof.
  intros Hh (A & B). unfold win_lo, win_hi, wlo, whi in *. split.
  - exists el. split; [lia|]. apply nth_error_nth'. lia.
  - intros j x Hj E. assert (X := B j ltac:(assert (j < length w)%nat by (apply nth_error_Some; congruence); lia)). rewrite (nth_error_nth _ _ 0 E) in X. exact X.
Qed.
Lemma morph_loop w h mn0 mx0 : (1 <= h <= length w)%nat -> best Qcle w 0 h mn0 -> best ge w 0 h mx0 -> forall k, (k <= length w)%nat ->
  exists mn mx ero dil, foreach (seq 0 k) (fun st i =>
        match st with (mn, mx, (ero, dil, ave, dif)) =>
          do mn' <- next_el smaller w h i mn; do mx' <- next_el larger w h i mx;
          do a <- idx w mn'; do b <- idx w mx';
          Ok (mn', mx', (ero ++ [a], dil ++ [b], ave ++ [((b + a) / two)%Qc], dif ++ [(b - a)%Qc]))
        end) (mn0, mx0, ([], [], [], [])) =
    Ok (mn, mx, (ero, dil, map (fun p => (snd p + fst p) / two) (List.combine ero dil), map (fun p => snd p - fst p) (List.combine ero dil))) /\
  before Qcle w h k mn /\ before ge w h k mx /\ selected Qcle w h ero k /\ selected ge w h dil k.
Proof.
  intros Hh H0 H1. induction k as [|k IH]; intros Hk.
  - exists mn0, mx0, [], []. split; [reflexivity|]. split; [exact H0|]. split; [exact H1|]. split; (split; [reflexivity|]; intros i Hi; lia).
  - destruct (IH ltac:(lia)) as (mn & mx & ero & dil & E & B1 & B2 & S1 & S2). rewrite seq_S, foreach_app, E. cbn [obind foreach plus].
    destruct (next_el_ok smaller Qcle Qcle_refl Qcle_trans smaller_t smaller_f w h k mn Hh ltac:(lia) B1) as (mn' & E1 & C1). destruct (next_el_ok larger ge Qcle_refl ge_tr larger_t larger_f w h k mx Hh ltac:(lia) B2) as (mx' & E2 & C2). rewrite E1. cbn [obind]. rewrite E2. cbn [obind].
    rewrite !idx_v by (destruct C1 as (X & _), C2 as (Y & _); unfold whi in X, Y; lia). cbn [obind]. exists mn', mx', (ero ++ [nth mn' w 0]), (dil ++ [nth mx' w 0]). split.
    + assert (L : length ero = length dil) by (destruct S1, S2; congruence). assert (Ec : List.combine (ero ++ [nth mn' w 0]) (dil ++ [nth mx' w 0]) = List.combine ero dil ++ [(nth mn' w 0, nth mx' w 0)]). { clear -L. revert dil L. induction ero as [|a l IH]; intros [|b l'] L; try discriminate; cbn; [reflexivity|]. f_equal. apply IH. cbn in L. lia. } rewrite Ec, !map_app. reflexivity.
    + split; [apply before_next, C1|]. split; [apply before_next, C2|]. split; apply selected_snoc; assumption.
Qed.
