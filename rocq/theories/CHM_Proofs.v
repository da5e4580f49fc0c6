From Coq Require Import QArith Qround Qcanon Lqa.
From Verif Require Import Base Util QcUtil Solver_Model Solver_Proofs CandHit_Model CandHit_Proofs CMgr_Proofs WT_Model WT_Spec WT_Morph WT_Smooth WT_Peaks CHD_Model CHD_Spec CHD_Proofs CHD_Props CHM_Model CHM_Spec.
Local Open Scope nat_scope.

Section M.
Variables (der ero dil : list Qc) (mt : Z) (fP : Qc).
Notation v := (sample der).
Hypothesis Hmt : (0 <= mt)%Z.

(* ------------------------------------------------------------ the list of maximum / minimum pairs *)
Definition pair_ok (s e : nat) (q : params) : Prop :=
  match q with (f, a, b, l) => s <= f <= a /\ a + 2 <= b <= l /\ l < e /\ rising der f a /\ falling der a b /\ settling der b l end.
Definition meets (q : params) : Prop := match q with (f, a, b, l) => (mt <= Z.of_nat (b - a))%Z /\ (fP < v a - v b)%Qc end.
Definition q_order (q q' : params) : Prop := match q, q' with (_, _, _, l), (f, _, _, _) => l <= f end.
Lemma pair_mono s e s' e' q : s' <= s -> e <= e' -> pair_ok s e q -> pair_ok s' e' q.
Proof using. clear. destruct q as [[[f a] b] l]. unfold pair_ok. intros H1 H2 (A & B & C & D). split; [lia|]. split; [exact B|]. split; [lia|exact D]. Qed.
Lemma get_list_empty fuel s : s < length der -> 0 < fuel -> get_list der mt fuel s s mt fP = Ok (Some (false, [])).
Proof using.
  clear. intros H Hf. destruct fuel as [|fuel]; [lia|]. cbn [get_list]. destruct (Z.of_nat (s - s) <? mt)%Z; [reflexivity|]. unfold best_elem. rewrite Nat.ltb_irrefl. cbn [obind]. rewrite idx_s by exact H. cbn [obind].
  destruct (qc_lt (fabs (v s)) (fabs (v s))) eqn:E; [apply qc_lt_spec in E; exfalso; exact (Qclt_not_eq _ _ E eq_refl)|]. unfold nearest_max. rewrite Nat.ltb_irrefl. cbn [obind fst snd]. rewrite idx_s by exact H. cbn [obind]. rewrite Nat.sub_diag. reflexivity.
Qed.
Lemma get_list_ok : forall fuel s e, s <= e <= length der -> s < length der -> e - s < fuel ->
  exists found ps, get_list der mt fuel s e mt fP = Ok (Some (found, ps)) /\ Forall (pair_ok s e) ps /\ StronglySorted q_order ps /\ (found = true -> Exists meets ps).
Proof using.
  clear Hmt. induction fuel as [|fuel IH]; intros s e Hs Hs' Hf; [lia|]. destruct (Nat.eq_dec s e) as [<-|Hne].
  { exists false, []. split; [apply get_list_empty; lia|]. split; [constructor|]. split; [constructor|discriminate]. }
  cbn [get_list]. destruct (Z.of_nat (e - s) <? mt)%Z; [exists false, []; split; [reflexivity|]; split; [constructor|]; split; [constructor|discriminate]|].
  destruct (max_min_ok der s e ltac:(lia)) as (mx & mi & E & M1 & M2 & M3).
  match type of E with obind ?x _ = _ => destruct x as [mn0| |] eqn:E1; [|discriminate E..] end. cbn [obind] in E |- *.
  match type of E with obind ?x _ = _ => destruct x as [mx0| |] eqn:E2; [|discriminate E..] end. cbn [obind] in E |- *.
  match type of E with obind ?x _ = _ => destruct x as [vmx| |] eqn:E3; [|discriminate E..] end. cbn [obind] in E |- *.
  match type of E with obind ?x _ = _ => destruct x as [vmn| |] eqn:E4; [|discriminate E..] end. cbn [obind] in E |- *.
  rewrite E. clear E E1 E2 E3 E4 mn0 mx0 vmx vmn. cbn [obind fst snd]. rewrite !idx_s by lia. cbn [obind].
  destruct (Nat.ltb_spec (mi - mx) 2) as [D|D]; [exists false, []; split; [reflexivity|]; split; [constructor|]; split; [constructor|discriminate]|].
  destruct (start_tick_ok der mx s ltac:(lia)) as (cs & En & N1 & N2 & N3). rewrite En. cbn [obind].
  destruct (stop_tick_ok der mi e ltac:(lia)) as (ce & Es & S1 & S2). rewrite Es. cbn [obind]. clear En Es.
  destruct (IH s cs ltac:(lia) ltac:(lia) ltac:(lia)) as (fl & l & El & Fl & Sl & Xl). rewrite El. cbn [obind].
  destruct (IH ce e ltac:(lia) ltac:(lia) ltac:(lia)) as (fr & r & Er & Fr & Sr & Xr). rewrite Er. cbn [obind fst snd]. clear IH El Er.
  eexists. eexists. split; [reflexivity|]. split; [|split].
  - apply Forall_app. split; [revert Fl; apply Forall_impl; intros q; apply pair_mono; lia|]. constructor; [|revert Fr; apply Forall_impl; intros q; apply pair_mono; lia]. unfold pair_ok. split; [lia|]. split; [lia|]. split; [lia|]. split; [exact N3|]. split; [exact M3|exact S2].
  - rewrite Forall_forall in Fl, Fr. assert (Q1 : forall q, In q l -> snd q <= cs) by (intros [[[f a] b] z] Hq; destruct (Fl _ Hq) as (_ & _ & A & _); cbn; lia). assert (Q2 : forall q, In q r -> ce <= fst (fst (fst q))) by (intros [[[f a] b] z] Hq; destruct (Fr _ Hq) as (A & _); cbn; lia).
    apply ss_app; [exact Sl|exact Sr| | |].
    + intros [[[f a] b] z] Hq. apply (Q1 _ Hq).
    + intros [[[f a] b] z] Hq. apply (Q2 _ Hq).
    + intros [[[f a] b] z] [[[f' a'] b'] z'] Hq Hq'. specialize (Q1 _ Hq). specialize (Q2 _ Hq'). cbn in *. lia.
  - intros X. apply Exists_exists. apply orb_prop in X. destruct X as [X|X]; [apply orb_prop in X; destruct X as [X|X]|].
    + exists (cs, mx, mi, ce). split; [apply in_or_app; right; left; reflexivity|]. apply andb_prop in X. destruct X as [X1 X2]. apply Z.leb_le in X1. apply qc_lt_spec in X2. split; assumption.
    + specialize (Xl X). apply Exists_exists in Xl. destruct Xl as (q & Hq & Mq). exists q. split; [apply in_or_app; left; exact Hq|exact Mq].
    + specialize (Xr X). apply Exists_exists in Xr. destruct Xr as (q & Hq & Mq). exists q. split; [apply in_or_app; right; right; exact Hq|exact Mq].
Qed.

(* ------------------------------------------------------------ the candidate list *)
(** the candidates so far, all before tick [hi] *)
Definition acc_ok (off s hi : nat) (acc : list cand) : Prop := Forall (morph_pulse der off s hi) acc /\ linked adjacent acc.
Lemma mp_mono off s e s' e' c : s' <= s -> e <= e' -> morph_pulse der off s e c -> morph_pulse der off s' e' c.
Proof using. clear. intros H1 H2 (f & a & p & b & l & A1 & A2 & A3 & A4 & A5 & A6 & A). exists f, a, p, b, l. split; [lia|]. split; [exact A2|]. split; [lia|]. split; [exact A4|]. split; [lia|]. split; [lia|exact A]. Qed.
Lemma linked_last {A} (R : A -> A -> Prop) l (x y : A) : linked R (l ++ [x]) -> (forall z, R z x -> R z y) -> linked R (l ++ [y]).
Proof using. clear. induction l as [|a l IH]; intros H1 H2; [exact Logic.I|]. destruct l as [|b l]; cbn in *; [split; [apply H2, H1|exact Logic.I]|]. destruct H1 as [H1 H3]. split; [exact H1|apply IH; assumption]. Qed.
Lemma adjust_ok off s e acc f : acc_ok off s e acc -> (forall c, In c acc -> h_stop c <= off + f) -> s <= f < e ->
  exists acc' st, adjust acc (off + f) = (acc', st) /\ acc_ok off s e acc' /\ off + s <= st <= off + f /\ (forall c a0, acc' = a0 ++ [c] -> h_stop c <= st <= h_stop c + 1) /\ (forall c, In c acc' -> h_stop c <= off + f) /\ map h_maxD acc' = map h_maxD acc /\ map h_minD acc' = map h_minD acc /\ map h_maxT acc' = map h_maxT acc /\ map h_minT acc' = map h_minT acc.
Proof using.
  clear. intros (F & L) Hst Hf. unfold adjust. destruct acc as [|b r _] using rev_ind.
  - cbn [rev]. eexists. eexists. split; [reflexivity|]. split; [split; assumption|]. split; [lia|]. split; [intros c [|] X; discriminate X|]. split; [intros c []|]. repeat split.
  - rewrite rev_app_distr. cbn [rev app]. rewrite rev_involutive. apply Forall_app in F. destruct F as [F1 F2]. inversion F2 as [|? ? Hb _]; subst. clear F2.
    assert (Hbf : h_stop b <= off + f) by (apply Hst, in_or_app; right; left; reflexivity).
    assert (Hbs : off + s <= h_stop b) by (destruct Hb as (f0 & a & p & b0 & l & A1 & A2 & _ & _ & _ & A3 & _); lia).
    destruct (Nat.ltb_spec (h_stop b) (off + f)) as [C|C].
    + set (k := (off + f - h_stop b) / 2). assert (Hk : 2 * k <= off + f - h_stop b <= 2 * k + 1) by (unfold k; assert (X := Nat.div_mod_eq (off + f - h_stop b) 2); assert (Y := Nat.mod_upper_bound (off + f - h_stop b) 2 ltac:(lia)); lia). clearbody k.
      eexists. eexists. split; [reflexivity|]. split; [split|].
      * apply Forall_app. split; [exact F1|]. constructor; [|constructor]. destruct Hb as (f0 & a & p & b0 & l & A1 & A2 & A3 & A4 & A5 & A6 & A). exists f0, a, p, b0, l. cbn [set_stop h_start h_stop h_maxT h_minT h_center h_maxD h_minD h_sigma]. split; [exact A1|]. split; [exact A2|]. split; [exact A3|]. split; [exact A4|]. split; [exact A5|]. split; [lia|exact A].
      * eapply linked_last; [exact L|]. intros z Hz. exact Hz.
      * split; [lia|]. split; [intros c a0 X; apply app_inj_tail in X; destruct X as [_ <-]; cbn [set_stop h_stop]; lia|]. split; [intros c X; apply in_app_or in X; destruct X as [X|[<-|[]]]; [apply Hst, in_or_app; left; exact X|cbn [set_stop h_stop]; lia]|]. rewrite !map_app. repeat split; reflexivity.
    + eexists. eexists. split; [reflexivity|]. split; [split; [apply Forall_app; split; [exact F1|constructor; [exact Hb|constructor]]|exact L]|]. split; [lia|]. split; [intros c a0 X; apply app_inj_tail in X; destruct X as [_ <-]; lia|]. split; [exact Hst|]. repeat split; reflexivity.
Qed.
(** what is carried over to the candidates: the pairs they come from, by offset *)
Definition sig4 (c : cand) : nat * nat * Qc * Qc := (h_maxT c, h_minT c, h_maxD c, h_minD c).
Definition sig_of (off : nat) (q : params) : nat * nat * Qc * Qc := match q with (_, a, b, _) => (off + a, off + b, v a, v b) end.
Lemma map_sig l l' : map h_maxD l' = map h_maxD l -> map h_minD l' = map h_minD l -> map h_maxT l' = map h_maxT l -> map h_minT l' = map h_minT l -> map sig4 l' = map sig4 l.
Proof using. clear. revert l'. induction l as [|x l IH]; intros [|y l'] H1 H2 H3 H4; try discriminate; [reflexivity|]. cbn [map] in *. injection H1 as A1 B1. injection H2 as A2 B2. injection H3 as A3 B3. injection H4 as A4 B4. f_equal; [unfold sig4; congruence|apply IH; assumption]. Qed.
Lemma convert_ok off s e s' e' q acc : s <= s' -> e' <= e -> e' <= length der -> acc_ok off s e acc -> pair_ok s' e' q -> (forall c, In c acc -> h_stop c <= off + fst (fst (fst q))) ->
  exists acc', convert der s' e' (off + s') acc q = Ok acc' /\ acc_ok off s e acc' /\ (forall c, In c acc' -> h_stop c <= off + snd q) /\ map sig4 acc' = map sig4 acc ++ [sig_of off q].
Proof using.
  clear. destruct q as [[[f a] b] l]. intros Hs He Hl Ha (P1 & P2 & P3 & P4 & P5 & P6) Hst. cbn [fst snd] in *. unfold convert.
  destruct (peak_ok der a b ltac:(lia)) as (pk0 & Ep & Pk). rewrite Ep. cbn [obind]. cbv zeta in Pk |- *. set (pk := if 2 * (b - pk0) <? pk0 - a then pk0 - 1 else if 2 * (pk0 - a) <? b - pk0 then pk0 + 1 else pk0) in *. clearbody pk. clear Ep.
  destruct (Nat.eqb_spec a e'); [lia|]. destruct (Nat.eqb_spec b e'); [lia|]. rewrite !idx_s by lia. cbn [obind]. replace (off + s' + (f - s')) with (off + f) by lia.
  destruct (adjust_ok off s e acc f Ha Hst ltac:(lia)) as (acc1 & st & Ea & (F1 & L1) & A2 & A3 & A4 & A5 & A6 & A7 & A8). rewrite Ea. cbn [fst snd]. eexists. split; [reflexivity|]. split; [split|split].
  - apply Forall_app. split; [exact F1|]. constructor; [|constructor]. exists f, a, pk, b, l. cbn [h_start h_stop h_maxT h_minT h_center h_maxD h_minD h_sigma]. split; [lia|]. split; [lia|]. split; [lia|]. split; [exact Pk|]. split; [lia|]. split; [lia|]. split; [lia|]. split; [lia|]. split; [lia|]. split; [reflexivity|]. split; [reflexivity|]. split; [reflexivity|]. split; [exact P4|]. split; [exact P5|exact P6].
  - apply linked_snoc'; [exact L1|]. intros c l0 X. unfold adjacent. cbn [h_start]. apply (A3 _ _ X).
  - intros c X. apply in_app_or in X. destruct X as [X|[<-|[]]]; [specialize (A4 _ X); lia|]. cbn [h_stop]. lia.
  - rewrite map_app, (map_sig _ _ A5 A6 A7 A8). cbn [map sig4 sig_of h_maxT h_minT h_maxD h_minD]. replace (off + s' + (a - s')) with (off + a) by lia. replace (off + s' + (b - s')) with (off + b) by lia. reflexivity.
Qed.
Lemma converts_ok off s e s' e' : s <= s' -> e' <= e -> e' <= length der -> forall ps acc, Forall (pair_ok s' e') ps -> StronglySorted q_order ps -> acc_ok off s e acc -> (forall c q, In c acc -> In q ps -> h_stop c <= off + fst (fst (fst q))) -> (forall c, In c acc -> h_stop c < off + e') ->
  exists acc', foreach ps (convert der s' e' (off + s')) acc = Ok acc' /\ acc_ok off s e acc' /\ (forall c, In c acc' -> h_stop c < off + e') /\ map sig4 acc' = map sig4 acc ++ map (sig_of off) ps.
Proof using.
  clear. intros Hs He Hl. induction ps as [|q ps IH]; intros acc F S Ha Hst Hlt; cbn [foreach].
  - exists acc. split; [reflexivity|]. split; [exact Ha|]. split; [exact Hlt|]. cbn [map]. rewrite app_nil_r. reflexivity.
  - inversion F as [|? ? Fq F']; subst. inversion S as [|? ? S' Sq]; subst. destruct (convert_ok off s e s' e' q acc Hs He Hl Ha Fq ltac:(intros c Hc; apply Hst; [exact Hc|left; reflexivity])) as (acc1 & E1 & A1 & B1 & C1). rewrite E1. cbn [obind].
    assert (Lq : snd q < e') by (destruct q as [[[f a] b] l]; destruct Fq as (_ & _ & X & _); exact X).
    destruct (IH acc1 F' S' A1) as (acc2 & E2 & A2 & B2 & C2).
    + intros c q' Hc Hq'. specialize (B1 _ Hc). rewrite Forall_forall in Sq. specialize (Sq _ Hq'). destruct q as [[[f a] b] l], q' as [[[f' a'] b'] l']. cbn in *. lia.
    + intros c Hc. specialize (B1 _ Hc). lia.
    + exists acc2. split; [exact E2|]. split; [exact A2|]. split; [exact B2|]. rewrite C2, C1, <- app_assoc. reflexivity.
Qed.
Lemma region_hits_ok off s e s' e' acc : s <= s' < e' -> e' <= e -> e' <= length der -> acc_ok off s e acc -> (forall c, In c acc -> h_stop c < off + s') ->
  exists acc' ps, region_hits der mt fP (S (e' - s')) s' e' (off + s') acc = Ok (Some acc') /\ acc_ok off s e acc' /\ (forall c, In c acc' -> h_stop c < off + e') /\ map sig4 acc' = map sig4 acc ++ map (sig_of off) ps /\ (ps <> [] -> Exists meets ps).
Proof using.
  clear Hmt. intros Hs He Hl Ha Hst. unfold region_hits. destruct (get_list_ok (S (e' - s')) s' e' ltac:(lia) ltac:(lia) ltac:(lia)) as (found & ps & E & F & S & X). rewrite E. cbn [obind]. destruct found.
  - destruct (converts_ok off s e s' e' ltac:(lia) He Hl ps acc F S Ha) as (acc' & E' & A & B & C).
    + intros c q Hc Hq. rewrite Forall_forall in F. specialize (F _ Hq). specialize (Hst _ Hc). destruct q as [[[f a] b] l]. destruct F as (F1 & _). cbn. lia.
    + intros c Hc. specialize (Hst _ Hc). lia.
    + rewrite E'. cbn [obind]. exists acc', ps. split; [reflexivity|]. split; [exact A|]. split; [exact B|]. split; [exact C|]. intros _. apply X. reflexivity.
  - exists acc, []. split; [reflexivity|]. split; [exact Ha|]. split; [intros c Hc; specialize (Hst _ Hc); lia|]. split; [cbn [map]; rewrite app_nil_r; reflexivity|]. intros Y. contradiction.
Qed.

(* ------------------------------------------------------------ the regions *)
Variables (thr fE : Qc).
Hypothesis Le : length ero = length der.
Hypothesis Ld : length dil = length der.
Lemma region_start_ok cut s : forall d pv, s + d < length der -> exists f, region_start der ero cut s pv d = Ok f /\ s <= f <= s + d.
Proof using Le.
  clear Ld. induction d as [|d IH]; intros pv H; cbn [region_start]; [exists s; split; [reflexivity|lia]|]. rewrite !idx_s by lia. cbn [obind]. destruct (_ && _); [exists (s + S d); split; [reflexivity|lia]|]. destruct (IH (v (s + S d)) ltac:(lia)) as (f & E & F). exists f. split; [exact E|lia].
Qed.
Lemma region_stop_ok cut : forall d i pv, i + d <= length der -> exists l, region_stop der ero cut i pv d = Ok l /\ i <= l <= i + d /\ ((0 < pv)%Qc -> 0 < d -> i < l).
Proof using Le.
  clear Ld. induction d as [|d IH]; intros i pv H; cbn [region_stop]; [exists i; split; [reflexivity|]; split; lia|]. rewrite !idx_s by lia. cbn [obind]. destruct (IH (S i) (v i) ltac:(lia)) as (l & E & F & _). destruct (negb (qc_lt cut _) && _) eqn:C.
  - exists i. split; [reflexivity|]. split; [lia|]. intros Hp _. apply andb_prop in C. destruct C as [_ C]. apply andb_prop in C. destruct C as [_ C]. apply qc_lt_spec in C. exfalso. exact (Qclt_not_le _ _ C (Qclt_le_weak _ _ Hp)).
  - exists l. split; [exact E|]. split; [lia|]. intros _ _. lia.
Qed.
(** [off], [s0], [e0]: the whole region of interest *)
Lemma find_morph_ok off s0 e0 : forall fuel s e acc, s0 <= s < e -> e <= e0 -> e <= length der -> e - s <= fuel -> acc_ok off s0 e0 acc -> (forall c, In c acc -> h_stop c < off + s) ->
  exists acc' ps, find_morph der ero dil mt fP thr fE fuel s e (off + s) acc = Ok (Some acc') /\ acc_ok off s0 e0 acc' /\ (forall c, In c acc' -> h_stop c < off + e) /\
    map sig4 acc' = map sig4 acc ++ map (sig_of off) ps /\ (ps <> [] -> Exists meets ps /\ exists t, s <= t < e /\ (thr <= sample dil t)%Qc).
Proof using Hmt Le Ld.
  induction fuel as [|fuel IH]; intros s e acc Hs He Hl Hf Ha Hst; [lia|]. cbn [find_morph].
  assert (Skip : exists acc' ps, Ok (Some acc) = Ok (Some acc') /\ acc_ok off s0 e0 acc' /\ (forall c, In c acc' -> h_stop c < off + e) /\ map sig4 acc' = map sig4 acc ++ map (sig_of off) ps /\ (ps <> [] -> Exists meets ps /\ exists t, s <= t < e /\ (thr <= sample dil t)%Qc)).
  { exists acc, []. split; [reflexivity|]. split; [exact Ha|]. split; [intros c Hc; specialize (Hst _ Hc); lia|]. split; [cbn [map]; rewrite app_nil_r; reflexivity|]. intros X; contradiction. }
  destruct (Z.of_nat (e - s) <? mt)%Z; [exact Skip|].
  destruct (best_elem_ok larger ge Qcle_refl ge_tr larger_t larger_f dil s e ltac:(lia) ltac:(lia)) as (m & Em & (Bm & _)). rewrite Em. cbn [obind]. rewrite idx_s by lia. cbn [obind]. destruct (qc_lt (sample dil m) thr) eqn:Et; [exact Skip|]. clear Skip. apply qc_lt_false in Et. cbv zeta.
  destruct (region_start_ok (fE * sample dil m)%Qc s (m - s) (Q2Qc (-1)) ltac:(lia)) as (f & Ef & F1). rewrite Ef. cbn [obind]. destruct (region_stop_ok (fE * sample dil m)%Qc (e - m) m 1%Qc ltac:(lia)) as (l & El & L1 & L2). rewrite El. cbn [obind]. specialize (L2 ltac:(reflexivity) ltac:(lia)). clear Em Ef El.
  assert (LF : exists acc1 ps1, (if (mt <? Z.of_nat (f - s))%Z then find_morph der ero dil mt fP thr fE fuel s f (off + s) acc else Ok (Some acc)) = Ok (Some acc1) /\ acc_ok off s0 e0 acc1 /\ (forall c, In c acc1 -> h_stop c < off + f) /\ map sig4 acc1 = map sig4 acc ++ map (sig_of off) ps1 /\ (ps1 <> [] -> Exists meets ps1)).
  { destruct (Z.ltb_spec mt (Z.of_nat (f - s))) as [C|C].
    - destruct (IH s f acc ltac:(lia) ltac:(lia) ltac:(lia) ltac:(lia) Ha Hst) as (acc1 & ps1 & A1 & A2 & A3 & A4 & A5). exists acc1, ps1. split; [exact A1|]. split; [exact A2|]. split; [exact A3|]. split; [exact A4|]. intros X. apply A5, X.
    - exists acc, []. split; [reflexivity|]. split; [exact Ha|]. split; [intros c Hc; specialize (Hst _ Hc); lia|]. split; [cbn [map]; rewrite app_nil_r; reflexivity|]. intros X; contradiction. }
  destruct LF as (acc1 & ps1 & E1 & A1 & B1 & C1 & X1). rewrite E1. clear E1. cbn [obind]. replace (off + s + (f - s)) with (off + f) by lia.
  destruct (region_hits_ok off s0 e0 f l acc1 ltac:(lia) ltac:(lia) ltac:(lia) A1 B1) as (acc2 & ps2 & E2 & A2 & B2 & C2 & X2). rewrite E2. clear E2. cbn [obind]. replace (off + s + (l - s)) with (off + l) by lia.
  assert (RG : exists acc3 ps3, (if (mt <? Z.of_nat (e - l))%Z then find_morph der ero dil mt fP thr fE fuel l e (off + l) acc2 else Ok (Some acc2)) = Ok (Some acc3) /\ acc_ok off s0 e0 acc3 /\ (forall c, In c acc3 -> h_stop c < off + e) /\ map sig4 acc3 = map sig4 acc2 ++ map (sig_of off) ps3 /\ (ps3 <> [] -> Exists meets ps3)).
  { destruct (Z.ltb_spec mt (Z.of_nat (e - l))) as [C|C].
    - destruct (IH l e acc2 ltac:(lia) ltac:(lia) ltac:(lia) ltac:(lia) A2 B2) as (acc3 & ps3 & Y1 & Y2 & Y3 & Y4 & Y5). exists acc3, ps3. split; [exact Y1|]. split; [exact Y2|]. split; [exact Y3|]. split; [exact Y4|]. intros X. apply Y5, X.
    - exists acc2, []. split; [reflexivity|]. split; [exact A2|]. split; [intros c Hc; specialize (B2 _ Hc); lia|]. split; [cbn [map]; rewrite app_nil_r; reflexivity|]. intros X; contradiction. }
  destruct RG as (acc3 & ps3 & E3 & A3 & B3 & C3 & X3). exists acc3, (ps1 ++ ps2 ++ ps3). split; [exact E3|]. split; [exact A3|]. split; [exact B3|]. split; [rewrite C3, C2, C1, !map_app, <- !app_assoc; reflexivity|].
  intros X. split; [|exists m; split; [lia|exact Et]]. apply Exists_app. destruct ps1 as [|q ps1]; [right|left; apply X1; discriminate]. apply Exists_app. destruct ps2 as [|q ps2]; [right; apply X3; exact X|left; apply X2; discriminate].
Qed.
End M.
