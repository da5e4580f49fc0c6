(** C58: findPeaks *)
From Coq Require Import QArith Qcanon Lqa.
From Verif Require Import Base Util QcUtil Solver_Model Solver_Proofs CMgr_Proofs CandHit_Proofs WT_Model WT_Spec WT_Morph WT_Props WT_Smooth.
Local Open Scope nat_scope.

Section Peaks.
Variables (w : list Qc) (thr : Qc).
Hypothesis Ht : (0 <= thr)%Qc.
Notation v := (sample w).
Definition low (j : nat) : Prop := (v j < - thr)%Qc.
Definition high (j : nat) : Prop := (thr < v j)%Qc.
Lemma lobe_fwd_ok first e : e < length w -> forall d t second, t + d = e -> first <= t -> (second = first \/ first < second <= t /\ low second) ->
  exists g, lobe_fwd w thr first t second d = Ok g /\ (g = first \/ first < g <= e /\ low g).
Proof using.
  clear Ht. intros He. induction d as [|d IH]; intros t second Hd Hf Hs; cbn [lobe_fwd].
  - exists second. split; [reflexivity|]. destruct Hs as [->|(A & B)]; [left; reflexivity|right; split; [lia|exact B]].
  - rewrite idx_s by lia. cbn [obind]. destruct (qc_lt (v (S t)) (- thr)) eqn:E.
    + apply qc_lt_spec in E. rewrite idx_s by (destruct Hs as [->|(A & _)]; lia). cbn [obind]. apply IH; [lia|lia|]. destruct (qc_lt (v (S t)) (v second)); [right; split; [lia|exact E]|]. destruct Hs as [->|(A & B)]; [left; reflexivity|right; split; [lia|exact B]].
    + destruct (Nat.eqb_spec second first) as [->|Hn]; cbn [negb]; [apply IH; [lia|lia|left; reflexivity]|]. exists second. split; [reflexivity|]. destruct Hs as [->|(A & B)]; [left; reflexivity|right; split; [lia|exact B]].
Qed.
Lemma lobe_back_ok first s : first < length w -> forall d second, s + d <= first -> (second = first \/ s <= second < first /\ high second) ->
  exists g, lobe_back w thr first s second d = Ok g /\ (g = first \/ s <= g < first /\ high g).
Proof using.
  clear Ht. intros Hl. induction d as [|d IH]; intros second Hd Hs; cbn [lobe_back]; [exists second; auto|]. rewrite idx_s by lia. cbn [obind]. destruct (qc_lt thr (v (s + d))) eqn:E.
  - apply qc_lt_spec in E. rewrite idx_s by (destruct Hs as [->|(A & _)]; lia). cbn [obind]. apply IH; [lia|]. destruct (qc_lt (v second) (v (s + d))); [right; split; [lia|exact E]|exact Hs].
  - destruct (Nat.eqb_spec second first) as [->|Hn]; cbn [negb]; [apply IH; [lia|left; reflexivity]|]. exists second. auto.
Qed.
Lemma cross_back_ok s : forall d, s + d <= length w -> exists a, cross_back w s d = Ok a /\ s <= a <= s + d.
Proof using.
  clear Ht. induction d as [|d IH]; intros H; cbn [cross_back]; [exists s; split; [reflexivity|lia]|]. rewrite idx_s by lia. cbn [obind]. destruct (qc_lt (v (s + d)) 0); [exists (s + d); split; [reflexivity|lia]|]. destruct (IH ltac:(lia)) as (a & E & A). exists a. split; [exact E|lia].
Qed.
Lemma cross_fwd_ok : forall d i, i + d < length w -> exists b, cross_fwd w i d = Ok b /\ i <= b <= i + d.
Proof using.
  clear Ht. induction d as [|d IH]; intros i H; cbn [cross_fwd]; [exists i; split; [reflexivity|lia]|]. rewrite idx_s by lia. cbn [obind]. destruct (qc_lt 0 (v (S i))); [exists (S i); split; [reflexivity|lia]|]. destruct (IH (S i) ltac:(lia)) as (a & E & A). exists a. split; [exact E|lia].
Qed.
Definition ge_abs (a b : Qc) : Prop := (fabs b <= fabs a)%Qc.
Lemma ge_abs_tr a b c : ge_abs a b -> ge_abs b c -> ge_abs a c. Proof using. clear. unfold ge_abs. intros. eapply Qcle_trans; eassumption. Qed.
Lemma larger_abs_t a b : larger_abs a b = true -> ge_abs a b. Proof using. clear. intros H. apply qc_lt_spec in H. apply Qclt_le_weak, H. Qed.
Lemma larger_abs_f a b : larger_abs a b = false -> ge_abs b a. Proof using. clear. apply qc_lt_false. Qed.
(** a pulse [a, b] with centre [p]: a sample above threshold, later one below minus the threshold, and the tick half way between them *)
Definition pulse (s e : nat) (q : nat * nat * nat) : Prop :=
  match q with (a, p, b) => s <= a /\ b <= e /\ exists i j, a <= i < j /\ j <= b /\ (thr < v i)%Qc /\ (v j < - thr)%Qc /\ p = i + (j - i) / 2 end.
Definition before_pulse (q q' : nat * nat * nat) : Prop := snd q <= fst (fst q').
Definition ticks (s tick : nat) (q : nat * nat * nat) : nat * nat * nat := match q with (a, p, b) => (tick + (a - s), tick + (p - s), tick + (b - s)) end.
Lemma pulse_mono s e s' e' q : s' <= s -> e <= e' -> pulse s e q -> pulse s' e' q.
Proof using. clear Ht. destruct q as [[a p] b]. unfold pulse. intros H1 H2 (A & B & C). split; [lia|]. split; [lia|exact C]. Qed.
Lemma find_peaks_ok : forall fuel s e tick, s <= e -> e < length w -> e - s < fuel ->
  exists l, find_peaks w thr fuel s e tick = Ok (Some (map (ticks s tick) l)) /\ Forall (pulse s e) l /\ StronglySorted before_pulse l.
Proof using Ht.
  induction fuel as [|fuel IH]; intros s e tick Hs He Hf; [lia|]. cbn [find_peaks]. destruct (Nat.ltb_spec 4 (e - s)) as [L|L]; cbn [negb]; [|exists []; repeat constructor].
  destruct (best_elem_ok larger_abs ge_abs (fun a => Qcle_refl _) ge_abs_tr larger_abs_t larger_abs_f w s e ltac:(lia) ltac:(lia)) as (f & Ef & (Bf & _)). rewrite Ef. cbn [obind]. rewrite idx_s by lia. cbn [obind]. destruct (qc_lt thr (fabs (v f))) eqn:Ev; cbn [negb]; [|exists []; repeat constructor]. apply qc_lt_spec in Ev.
  assert (P : exists fs, (if qc_lt 0 (v f) then do g <- lobe_fwd w thr f f f (e - f); Ok (f, g) else do g <- lobe_back w thr f s f (f - s); Ok (g, f)) = Ok fs /\ (fst fs = snd fs \/ s <= fst fs < snd fs /\ snd fs <= e /\ high (fst fs) /\ low (snd fs))).
  { unfold fabs in Ev. destruct (qc_lt 0 (v f)) eqn:Ez.
    - apply qc_lt_spec in Ez. destruct (lobe_fwd_ok f e He (e - f) f f ltac:(lia) (le_n _) (or_introl eq_refl)) as (g & Eg & G). rewrite Eg. cbn [obind]. exists (f, g). split; [reflexivity|]. cbn [fst snd]. destruct G as [->|(G1 & G2)]; [left; reflexivity|right]. split; [lia|]. split; [lia|]. split; [|exact G2]. unfold high. destruct (qc_lt (v f) 0) eqn:Ex; [apply qc_lt_spec in Ex; exfalso; exact (Qclt_not_le _ _ Ex (Qclt_le_weak _ _ Ez))|exact Ev].
    - apply qc_lt_false in Ez. destruct (lobe_back_ok f s ltac:(lia) (f - s) f ltac:(lia) (or_introl eq_refl)) as (g & Eg & G). rewrite Eg. cbn [obind]. exists (g, f). split; [reflexivity|]. cbn [fst snd]. destruct G as [->|(G1 & G2)]; [left; reflexivity|right]. split; [lia|]. split; [lia|]. split; [exact G2|]. unfold low. destruct (qc_lt (v f) 0) eqn:Ex; [qclra|]. exfalso. apply qc_lt_false in Ex. qclra. }
  destruct P as ([first second] & E & P). rewrite E. cbn [obind fst snd] in *. destruct (Nat.eqb_spec first second) as [->|Hn]; [exists []; repeat constructor|]. destruct P as [P|(P1 & P2 & P3 & P4)]; [contradiction|].
  destruct (cross_back_ok s (first - s) ltac:(lia)) as (a & Ea & A). rewrite Ea. cbn [obind]. destruct (cross_fwd_ok (e - second) second ltac:(lia)) as (b & Eb & B). rewrite Eb. cbn [obind].
  destruct (IH s a tick ltac:(lia) ltac:(lia) ltac:(lia)) as (l & El & Fl & Sl). destruct (IH b e (tick + (b - s)) ltac:(lia) ltac:(lia) ltac:(lia)) as (r & Er & Fr & Sr). rewrite El. cbn [obind]. rewrite Er. cbn [obind].
  set (p := first + (second - first) / 2). exists (l ++ (a, p, b) :: r). split; [|split].
  - f_equal. f_equal. rewrite map_app. cbn [map ticks]. f_equal. f_equal; [f_equal; [f_equal; [lia|unfold p; lia]|lia]|]. apply map_ext_in. intros [[x y] z] Hx. rewrite Forall_forall in Fr. specialize (Fr _ Hx). cbn in Fr. destruct Fr as (F1 & F2 & i & j & F3 & F4 & _ & _ & F5). cbn [ticks]. f_equal; [f_equal|]; lia.
  - apply Forall_app. split; [revert Fl; apply Forall_impl; intros q; apply pulse_mono; lia|]. constructor; [|revert Fr; apply Forall_impl; intros q; apply pulse_mono; lia]. cbn. split; [lia|]. split; [lia|]. exists first, second. split; [lia|]. split; [lia|]. auto.
  - rewrite Forall_forall in Fl, Fr. assert (Q1 : forall q, In q l -> snd q <= a) by (intros [[x y] z] Hq; specialize (Fl _ Hq); cbn in *; lia). assert (Q2 : forall q, In q r -> b <= fst (fst q)) by (intros [[x y] z] Hq; specialize (Fr _ Hq); cbn in *; lia).
    apply ss_app; [exact Sl|exact Sr|intros q Hq; unfold before_pulse; cbn; apply Q1, Hq|intros q Hq; unfold before_pulse; cbn; apply Q2, Hq|]. intros q q' Hq Hq'. unfold before_pulse. specialize (Q1 _ Hq). specialize (Q2 _ Hq'). lia.
Qed.
(** reading on to the end without finding a second lobe *)
Lemma lobe_past_end first : forall d t, t + d = length w -> first <= t -> t < length w -> (forall j, j < length w -> (0 <= v j)%Qc) -> lobe_fwd w thr first t first d = Undef.
Proof using Ht.
  induction d as [|d IH]; intros t Hd Hf Hl Hv; [lia|]. cbn [lobe_fwd]. destruct (Nat.eq_dec (S t) (length w)) as [E|E].
  - unfold idx. assert (X : nth_error w (S t) = None) by (apply nth_error_None; lia). rewrite X. reflexivity.
  - rewrite idx_s by lia. cbn [obind]. destruct (qc_lt (v (S t)) (- thr)) eqn:El; [apply qc_lt_spec in El; assert (Y := Hv (S t) ltac:(lia)); exfalso; qclra|]. rewrite Nat.eqb_refl. cbn [negb]. apply IH; [lia|lia|lia|exact Hv].
Qed.
End Peaks.

(** C58: if the sample at the stop iterator can be read, findPeaks ends and returns pulses in order, within range, disjoint but for end
    ticks, each with a sample above threshold followed by one below minus the threshold and centred half way between them *)
Theorem c58_find_peaks_partial w thr fuel s e tick : (0 <= thr)%Qc -> s <= e -> e < length w -> e - s < fuel ->
  exists l, find_peaks w thr fuel s e tick = Ok (Some (map (ticks s tick) l)) /\ Forall (pulse w thr s e) l /\ StronglySorted before_pulse l.
Proof. intros Ht. apply find_peaks_ok. exact Ht. Qed.
(** refuted: with stop at the end of the vector, as any caller would pass it, every waveform without negative samples and with one above
    threshold is read past its end *)
Theorem c58_reads_past_end_refuted w thr fuel tick : (0 <= thr)%Qc -> 4 < length w -> (forall x, In x w -> (0 <= x)%Qc) -> (exists x, In x w /\ (thr < x)%Qc) ->
  find_peaks w thr (S fuel) 0 (length w) tick = Undef.
Proof.
  intros Ht Hl Hv (x & Hx & Hxt). cbn [find_peaks]. destruct (Nat.ltb_spec 4 (length w - 0)); [|lia]. cbn [negb]. destruct (best_elem_ok larger_abs ge_abs (fun a => Qcle_refl _) ge_abs_tr larger_abs_t larger_abs_f w 0 (length w) ltac:(lia) (le_n _)) as (f & Ef & (Bf & Mf)). rewrite Ef. cbn [obind]. rewrite idx_s by lia. cbn [obind].
  assert (Pv : forall j, j < length w -> (0 <= sample w j)%Qc) by (intros j Hj; apply Hv, nth_In, Hj). assert (Fa : forall q, (0 <= q)%Qc -> fabs q = q) by (intros q Hq; unfold fabs; destruct (qc_lt q 0) eqn:E; [apply qc_lt_spec in E; exfalso; exact (Qclt_not_le _ _ E Hq)|reflexivity]).
  assert (Hf : (thr < sample w f)%Qc). { destruct (In_nth _ _ 0%Qc Hx) as (j & Hj & Ej). specialize (Mf j ltac:(lia)). unfold ge_abs in Mf. rewrite !Fa in Mf by (apply Pv; lia). unfold sample. rewrite Ej in Mf. eapply Qclt_le_trans; eassumption. }
  rewrite Fa by (apply Pv; lia). destruct (qc_lt thr (sample w f)) eqn:E; [|apply qc_lt_false in E; exfalso; exact (Qclt_not_le _ _ Hf E)]. cbn [negb]. destruct (qc_lt 0 (sample w f)) eqn:E0; [|apply qc_lt_false in E0; exfalso; exact (Qclt_not_le _ _ Hf (Qcle_trans _ _ _ E0 Ht))].
  rewrite (lobe_past_end w thr Ht f (length w - f) f) by (try lia; exact Pv). reflexivity.
Qed.
Print Assumptions c58_find_peaks_partial. Print Assumptions c58_reads_past_end_refuted.
(* ------------------------------------------------------------ non-vacuity *)
Definition ex_wave := qs [0; 1; 6; 2; -1; -7; -2; 1; 0; 0; 5; 1; -1; -6; 0; 0; 0]%Z.
Example ex_peaks : find_peaks ex_wave (Q2Qc 4) 20 0 16 100 = Ok (Some [(100, 103, 107); (107, 111, 116)]).
Proof. vm_compute. reflexivity. Qed.
Example ex_past : find_peaks (qs [0; 0; 9; 0; 0; 0]%Z) (Q2Qc 4) 20 0 6 100 = Undef.
Proof. vm_compute. reflexivity. Qed.
