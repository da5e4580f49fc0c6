From Coq Require Import QArith Qcanon Lqa.
From Verif Require Import Base Util QcUtil Solver_Model Solver_Proofs CandHit_Model CandHit_Proofs WT_Model WT_Spec WT_Morph WT_Smooth WT_Peaks CHD_Model CHD_Spec.
Local Open Scope nat_scope.

Section D.
Variable w : list Qc.
Notation v := (sample w).
Lemma nearest_min_ok : forall d i, i + d < length w -> exists j, nearest_min w i d = Ok j /\ i <= j <= i + d /\ falling w i j.
Proof.
  induction d as [|d IH]; intros i H; cbn [nearest_min].
  - exists i. split; [reflexivity|]. split; [lia|]. intros k Hk. lia.
  - rewrite !idx_s by lia. cbn [obind]. destruct (qc_lt (v i) (v (S i))) eqn:E.
    + exists i. split; [reflexivity|]. split; [lia|]. intros k Hk. lia.
    + apply qc_lt_false in E. destruct (IH (S i) ltac:(lia)) as (j & Ej & J1 & J2). exists j. split; [exact Ej|]. split; [lia|]. intros k Hk. destruct (Nat.eq_dec k i) as [->|]; [exact E|apply J2; lia].
Qed.
Lemma back_max_ok s : forall d, s + 1 + d < length w -> exists j, back_max w s d = Ok j /\ s < j <= s + 1 + d /\ falling w j (s + 1 + d).
Proof.
  induction d as [|d IH]; intros H; cbn [back_max].
  - exists (s + 1). split; [reflexivity|]. split; [lia|]. intros k Hk. lia.
  - rewrite !idx_s by lia. cbn [obind]. destruct (qc_lt (v (s + 1 + d)) (v (s + 1 + S d))) eqn:E.
    + exists (s + 1 + S d). split; [reflexivity|]. split; [lia|]. intros k Hk. lia.
    + apply qc_lt_false in E. destruct (IH ltac:(lia)) as (j & Ej & J1 & J2). exists j. split; [exact Ej|]. split; [lia|]. intros k Hk. destruct (Nat.eq_dec k (s + 1 + d)) as [->|]; [replace (S (s + 1 + d)) with (s + 1 + S d) by lia; exact E|apply J2; lia].
Qed.
Lemma nearest_max_ok mi s : s <= mi < length w -> exists j, nearest_max w mi s = Ok j /\ s <= j <= mi /\ falling w j mi.
Proof.
  intros H. unfold nearest_max. destruct (Nat.ltb_spec s mi).
  - destruct (back_max_ok s (mi - 1 - s) ltac:(lia)) as (j & Ej & J1 & J2). replace (s + 1 + (mi - 1 - s)) with mi in * by lia. exists j. split; [exact Ej|]. split; [lia|exact J2].
  - exists mi. split; [reflexivity|]. split; [lia|]. intros k Hk. lia.
Qed.
Lemma back_start_ok s : forall d, s + 1 + d < length w -> exists j, back_start w s d = Ok j /\ s < j <= s + 1 + d /\ rising w j (s + 1 + d).
Proof.
  induction d as [|d IH]; intros H; cbn [back_start].
  - exists (s + 1). split; [reflexivity|]. split; [lia|]. intros k Hk. lia.
  - rewrite !idx_s by lia. cbn [obind]. destruct (qc_lt (v (s + 1 + d)) 0) eqn:E0; cbn [orb].
    + exists (s + 1 + S d). split; [reflexivity|]. split; [lia|]. intros k Hk. lia.
    + destruct (qc_lt (v (s + 1 + d)) (v (s + 1 + S d))) eqn:E; cbn [negb].
      * apply qc_lt_false in E0. apply qc_lt_spec in E. destruct (IH ltac:(lia)) as (j & Ej & J1 & J2). exists j. split; [exact Ej|]. split; [lia|]. intros k Hk. destruct (Nat.eq_dec k (s + 1 + d)) as [->|]; [replace (S (s + 1 + d)) with (s + 1 + S d) by lia; split; [exact E|exact E0]|apply J2; lia].
      * exists (s + 1 + S d). split; [reflexivity|]. split; [lia|]. intros k Hk. lia.
Qed.
Lemma start_tick_ok mx s : s <= mx < length w -> exists j, start_tick w mx s = Ok j /\ s <= j <= mx /\ (s < mx -> s < j) /\ rising w j mx.
Proof.
  intros H. unfold start_tick. destruct (Nat.ltb_spec s mx).
  - destruct (back_start_ok s (mx - 1 - s) ltac:(lia)) as (j & Ej & J1 & J2). replace (s + 1 + (mx - 1 - s)) with mx in * by lia. exists j. split; [exact Ej|]. split; [lia|]. split; [lia|exact J2].
  - exists s. split; [reflexivity|]. split; [lia|]. split; [lia|]. intros k Hk. lia.
Qed.
Lemma fwd_stop_ok : forall d i, i + d < length w -> exists j, fwd_stop w i d = Ok j /\ i <= j <= i + d /\ settling w i j.
Proof.
  induction d as [|d IH]; intros i H; cbn [fwd_stop].
  - exists i. split; [reflexivity|]. split; [lia|]. intros k Hk. lia.
  - rewrite !idx_s by lia. cbn [obind]. destruct (qc_lt 0 (v (S i))) eqn:E0; cbn [orb].
    + exists i. split; [reflexivity|]. split; [lia|]. intros k Hk. lia.
    + destruct (qc_lt (v i) (v (S i))) eqn:E; cbn [negb].
      * apply qc_lt_false in E0. apply qc_lt_spec in E. destruct (IH (S i) ltac:(lia)) as (j & Ej & J1 & J2). exists j. split; [exact Ej|]. split; [lia|]. intros k Hk. destruct (Nat.eq_dec k i) as [->|]; [split; [exact E|exact E0]|apply J2; lia].
      * exists i. split; [reflexivity|]. split; [lia|]. intros k Hk. lia.
Qed.
Lemma stop_tick_ok mi e : mi < e <= length w -> exists j, stop_tick w mi e = Ok j /\ mi <= j < e /\ settling w mi j.
Proof.
  intros H. unfold stop_tick. destruct (Nat.ltb_spec 1 (e - mi)).
  - destruct (fwd_stop_ok (e - (mi + 1)) mi ltac:(lia)) as (j & Ej & J1 & J2). exists j. split; [exact Ej|]. split; [lia|exact J2].
  - exists mi. split; [reflexivity|]. split; [lia|]. intros k Hk. lia.
Qed.
Lemma larger_eq_t a b : larger_eq a b = true -> ge a b.
Proof. unfold larger_eq, ge. intros H. apply qc_lt_false. destruct (qc_lt a b); [discriminate|reflexivity]. Qed.
Lemma larger_eq_f a b : larger_eq a b = false -> ge b a.
Proof. unfold larger_eq, ge. intros H. apply Qclt_le_weak, qc_lt_spec. destruct (qc_lt a b); [reflexivity|discriminate]. Qed.
Definition le_abs (a b : Qc) : Prop := (fabs a <= fabs b)%Qc.
Lemma le_abs_tr a b c : le_abs a b -> le_abs b c -> le_abs a c. Proof. unfold le_abs. intros. eapply Qcle_trans; eassumption. Qed.
Lemma smaller_abs_t a b : smaller_abs a b = true -> le_abs a b. Proof. intros H. apply qc_lt_spec in H. apply Qclt_le_weak, H. Qed.
Lemma smaller_abs_f a b : smaller_abs a b = false -> le_abs b a. Proof. apply qc_lt_false. Qed.
Lemma max_min_ok s e : s < e <= length w -> exists mx mi,
  (do mn0 <- best_elem smaller w s e; do mx0 <- best_elem larger_eq w s e; do vmx <- idx w mx0; do vmn <- idx w mn0;
   if qc_lt (fabs vmn) (fabs vmx) then do mi <- nearest_min w mx0 (e - 1 - mx0); Ok (mx0, mi) else do mx <- nearest_max w mn0 s; Ok (mx, mn0)) = Ok (mx, mi) /\
  s <= mx <= mi /\ mi < e /\ falling w mx mi.
Proof.
  intros (H1 & H2). destruct (best_elem_ok smaller Qcle Qcle_refl Qcle_trans smaller_t smaller_f w s e H1 H2) as (mn0 & E1 & (B1 & _)). destruct (best_elem_ok larger_eq ge Qcle_refl ge_tr larger_eq_t larger_eq_f w s e H1 H2) as (mx0 & E2 & (B2 & _)).
  rewrite E1. cbn [obind]. rewrite E2. cbn [obind]. rewrite !idx_s by lia. cbn [obind]. destruct (qc_lt (fabs (v mn0)) (fabs (v mx0))).
  - destruct (nearest_min_ok (e - 1 - mx0) mx0 ltac:(lia)) as (j & Ej & J1 & J2). rewrite Ej. cbn [obind]. exists mx0, j. split; [reflexivity|]. split; [lia|]. split; [lia|exact J2].
  - destruct (nearest_max_ok mn0 s ltac:(lia)) as (j & Ej & J1 & J2). rewrite Ej. cbn [obind]. exists j, mn0. split; [reflexivity|]. split; [lia|]. split; [lia|exact J2].
Qed.
Lemma peak_ok mx mi : mx < mi <= length w -> exists pk0, best_elem smaller_abs w mx mi = Ok pk0 /\
  let pk := if 2 * (mi - pk0) <? pk0 - mx then pk0 - 1 else if 2 * (pk0 - mx) <? mi - pk0 then pk0 + 1 else pk0 in mx <= pk <= mi.
Proof.
  intros H. destruct (best_elem_ok smaller_abs le_abs (fun a => Qcle_refl _) le_abs_tr smaller_abs_t smaller_abs_f w mx mi ltac:(lia) ltac:(lia)) as (p & E & (B & _)). exists p. split; [exact E|]. cbv zeta.
  destruct (Nat.ltb_spec (2 * (mi - p)) (p - mx)); [lia|]. destruct (Nat.ltb_spec (2 * (p - mx)) (mi - p)); lia.
Qed.

Variables (fT : Z) (fP : Qc).
Lemma dp_mono off s e s' e' c : s' <= s -> e <= e' -> deriv_pulse w fT fP off s e c -> deriv_pulse w fT fP off s' e' c.
Proof. intros H1 H2 (f & a & p & b & l & A1 & A2 & A3 & A4 & A). exists f, a, p, b, l. split; [lia|]. split; [exact A2|]. split; [lia|]. split; [exact A4|exact A]. Qed.
Definition thr_ok (dT : Z) (dP : Qc) : Prop := (dT = fT /\ dP = fP) \/ (dT = 2%Z /\ dP = 0%Qc).
Lemma thr_cases (b : bool) : thr_ok (fst (if b then (2%Z, 0%Qc) else (fT, fP))) (snd (if b then (2%Z, 0%Qc) else (fT, fP))).
Proof. destruct b; [right|left]; split; reflexivity. Qed.
Hypothesis HT : (1 <= fT)%Z.
Lemma thr_pos dT dP : thr_ok dT dP -> (1 <= dT)%Z.
Proof. intros [(-> & ->)|(-> & ->)]; [assumption|lia]. Qed.
Lemma find_deriv_ok : forall fuel s e off dT dP, thr_ok dT dP -> s < e <= length w -> e - s <= fuel ->
  exists l, find_deriv w fT fP fuel s e (off + s) dT dP = Ok (Some l) /\ Forall (deriv_pulse w fT fP off s e) l /\ StronglySorted in_order l.
Proof.
  induction fuel as [|fuel IH]; intros s e off dT dP Ht Hs Hf; [lia|]. cbn [find_deriv].
  destruct (max_min_ok s e Hs) as (mx & mi & E & M1 & M2 & M3).
  assert (Ht1 := thr_pos dT dP Ht).
  match type of E with obind ?x _ = _ => destruct x as [mn0| |] eqn:E1; [|discriminate E..] end. cbn [obind] in E |- *.
  match type of E with obind ?x _ = _ => destruct x as [mx0| |] eqn:E2; [|discriminate E..] end. cbn [obind] in E |- *.
  match type of E with obind ?x _ = _ => destruct x as [vmx| |] eqn:E3; [|discriminate E..] end. cbn [obind] in E |- *.
  match type of E with obind ?x _ = _ => destruct x as [vmn| |] eqn:E4; [|discriminate E..] end. cbn [obind] in E |- *.
  rewrite E. clear E E1 E2 E3 E4 mn0 mx0 vmx vmn. cbn [obind fst snd]. rewrite !idx_s by lia. cbn [obind].
  destruct (Z.leb_spec dT (Z.of_nat mi - Z.of_nat mx)) as [D|D]; cbn [andb]; [|exists []; split; [reflexivity|split; constructor]].
  destruct (qc_lt dP (v mx - v mi)%Qc) eqn:Er; [|exists []; split; [reflexivity|split; constructor]]. apply qc_lt_spec in Er.
  assert (Hmm : mx < mi) by lia.
  destruct (start_tick_ok mx s ltac:(lia)) as (ne & En & N1 & N2 & N3). rewrite En. cbn [obind].
  destruct (stop_tick_ok mi e ltac:(lia)) as (ns & Es & S1 & S2). rewrite Es. cbn [obind]. cbv zeta.
  assert (LF : exists t l, (if (dT <? Z.of_nat (ne - s))%Z then
                     do v <- CHD_Model.before w ne;
                     do l <- find_deriv w fT fP fuel s (ne + 1) (off + s) (fst (if qc_lt 0 v then (2%Z, 0%Qc) else (fT, fP))) (snd (if qc_lt 0 v then (2%Z, 0%Qc) else (fT, fP)));
                     Ok (fst (if qc_lt 0 v then (2%Z, 0%Qc) else (fT, fP)), l)
                   else Ok (dT, Some [])) = Ok (t, Some l) /\ (1 <= t)%Z /\ Forall (deriv_pulse w fT fP off s (ne + 1)) l /\ StronglySorted in_order l).
  { destruct (Z.ltb_spec dT (Z.of_nat (ne - s))) as [L|L]; [|exists dT, []; split; [reflexivity|split; [exact Ht1|split; constructor]]].
    assert (Hb : exists x, CHD_Model.before w ne = Ok x). { unfold CHD_Model.before. destruct ne as [|n]; [lia|]. exists (v n). apply idx_s. lia. }
    destruct Hb as (x & Eb). rewrite Eb. cbn [obind]. cbv zeta. assert (C := thr_cases (qc_lt 0 x)). assert (C1 := thr_pos _ _ C). destruct (IH s (ne + 1) off _ _ C ltac:(lia) ltac:(lia)) as (l & El & Fl & Sl). rewrite El. cbn [obind]. eexists. exists l. split; [reflexivity|]. split; [exact C1|]. split; [exact Fl|exact Sl]. }
  destruct LF as (t & l & El & T1 & Fl & Sl). rewrite El. clear El. cbn [obind fst snd].
  destruct (peak_ok mx mi ltac:(lia)) as (pk0 & Ep & Pk). rewrite Ep. cbn [obind]. cbv zeta in Pk. cbv zeta.
  set (pk := if 2 * (mi - pk0) <? pk0 - mx then pk0 - 1 else if 2 * (pk0 - mx) <? mi - pk0 then pk0 + 1 else pk0) in *. clearbody pk.
  destruct (Nat.eqb_spec mx e) as [X|_]; [lia|]. destruct (Nat.eqb_spec mi e) as [X|_]; [lia|].
  assert (RG : exists r, (if (t <? Z.of_nat (e - ns))%Z then
                     do v <- idx w (ns + 1);
                     find_deriv w fT fP fuel ns e (off + s + (ns - s)) (fst (if qc_lt v 0 then (2%Z, 0%Qc) else (fT, fP))) (snd (if qc_lt v 0 then (2%Z, 0%Qc) else (fT, fP)))
                   else Ok (Some [])) = Ok (Some r) /\ Forall (deriv_pulse w fT fP off ns e) r /\ StronglySorted in_order r).
  { destruct (Z.ltb_spec t (Z.of_nat (e - ns))) as [L|L]; [|exists []; split; [reflexivity|split; constructor]].
    rewrite idx_s by lia. cbn [obind]. replace (off + s + (ns - s)) with (off + ns) by lia. apply IH; [apply thr_cases|lia|lia]. }
  destruct RG as (r & Erg & Fr & Sr). rewrite Erg. clear Erg. cbn [obind].
  eexists. split; [reflexivity|]. set (c := mkCand _ _ _ _ _ _ _ _ _).
  assert (Hc : deriv_pulse w fT fP off s e c).
  { exists ne, mx, pk, mi, ns. unfold c. cbn [h_start h_stop h_maxT h_minT h_center h_maxD h_minD h_sigma]. split; [lia|]. split; [lia|]. split; [lia|]. split; [exact Pk|]. split; [lia|]. split; [lia|]. split; [lia|]. split; [lia|]. split; [lia|].
    split; [reflexivity|]. split; [reflexivity|]. split; [reflexivity|]. split; [exact N3|]. split; [exact M3|]. split; [exact S2|].
    destruct Ht as [(-> & ->)|(-> & ->)]; [left|right]; (split; [lia|exact Er]). }
  assert (C1 : h_start c = off + ne) by (unfold c; cbn [h_start]; lia). assert (C2 : h_stop c = off + ns) by (unfold c; cbn [h_stop]; lia). clearbody c. clear IH Ht En Es Ep.
  split.
  - apply Forall_app. split; [revert Fl; apply Forall_impl; intros q; apply dp_mono; lia|]. constructor; [exact Hc|]. revert Fr. apply Forall_impl. intros q. apply dp_mono; lia.
  - rewrite Forall_forall in Fl, Fr. assert (Q1 : forall q, In q l -> h_stop q <= off + ne) by (intros q Hq; destruct (Fl q Hq) as (f & a & p & b & z & _ & A2 & A3 & _ & _ & A4 & _); lia). assert (Q2 : forall q, In q r -> off + ns <= h_start q) by (intros q Hq; destruct (Fr q Hq) as (f & a & p & b & z & A1 & _ & _ & _ & A4 & _); lia).
    apply ss_app; [exact Sl|exact Sr|intros q Hq; unfold in_order; rewrite C1; apply Q1, Hq|intros q Hq; unfold in_order; rewrite C2; apply Q2, Hq|]. intros q q' Hq Hq'. unfold in_order. specialize (Q1 _ Hq). specialize (Q2 _ Hq'). lia.
Qed.
End D.
