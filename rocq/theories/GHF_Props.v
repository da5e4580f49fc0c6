(** Theorems C70-C73: GausHitFinder *)
From Coq Require Import QArith Qround Qcanon Lqa String.
From Verif Require Import Base QcUtil Solver_Model Solver_Proofs SPS_Model Triplet_Spec SortUtil RFF_Spec GHF_Model GHF_Spec GHF_Long GHF_Windows GHF_Any GHF_Sched.
Local Open Scope nat_scope.

(* ================================================================== C71 *)
(** a long pulse [s, e) is cut into consecutive non-empty intervals from its first tick on, the last stopping [lost] ticks before its end; each
    becomes a peak in the middle of its interval *)
Theorem c71_intervals sig s e w mx : (0 <= s < e)%Z -> (e <= Z.of_nat (List.length sig))%Z -> (0 < w)%Z -> (0 < mx)%Z ->
  exists ivs, long_peaks sig s e w mx = Ok (map (flat_peak sig) ivs) /\ consecutive s ivs (e - lost (e - s) w mx) /\ Z.of_nat (List.length ivs) = pieces (e - s) w mx /\
    (pieces (e - s) w mx <= mx + 1)%Z /\ (forall iv, In iv ivs -> (snd iv - fst iv <= Z.max w ((e - s) / mx))%Z) /\
    qsum (fun iv => sum_ticks sig (fst iv) (snd iv)) ivs = sum_ticks sig s (e - lost (e - s) w mx).
Proof.
  intros H1 H2 Hw Hm. destruct (long_ok sig s e w mx H1 H2 Hw Hm) as (ivs & w' & _ & A & B & C & D & E). exists ivs. split; [exact A|]. split; [exact B|]. split; [exact C|]. split; [exact D|]. split.
  - intros iv Hi. specialize (E iv Hi). lia.
  - apply consec_sum; [exact B|lia].
Qed.
(** nothing is lost when the pulse needs no more than the maximum number of hits, or when it has at least mx * (mx - 1) ticks *)
Theorem c71_covered len w mx : (0 < len)%Z -> (0 < w)%Z -> (0 < mx)%Z -> (len / w <= mx)%Z \/ (mx * (mx - 1) <= len)%Z -> lost len w mx = 0%Z.
Proof.
  intros H Hw Hm K. unfold lost. destruct (Z.ltb_spec mx (len / w)) as [C|C]; [|reflexivity]. destruct K as [K|K]; [lia|]. pose proof (Z.mod_pos_bound len mx Hm).
  assert (mx - 1 <= len / mx)%Z by (apply Z.div_le_lower_bound; lia). lia.
Qed.
(** with the default configuration (16 ticks, 25 hits) a pulse of 417 ticks loses its last tick, and is cut into 26 pieces *)
Theorem c71_covered_refuted : ~ (forall len w mx : Z, (0 < len)%Z -> (0 < w)%Z -> (0 < mx)%Z -> lost len w mx = 0%Z) /\ ~ (forall len w mx : Z, (0 < len)%Z -> (0 < w)%Z -> (0 < mx)%Z -> (pieces len w mx <= mx)%Z) /\
  long_params 0 417 16 25 = Ok (26, 16)%Z /\ last (long_ticks 26 0 16 16 417) (0, 0)%Z = (400, 416)%Z.
Proof. split; [intros H; specialize (H 417%Z 16%Z 25%Z); vm_compute in H; specialize (H eq_refl eq_refl eq_refl); discriminate|]. split; [intros H; specialize (H 417%Z 16%Z 25%Z); vm_compute in H; exact (H eq_refl eq_refl eq_refl eq_refl)|]. split; reflexivity. Qed.
Theorem c71_zero_undefined s e w mx sig : (0 <= s < e)%Z -> (0 < w)%Z -> (w <= e - s)%Z -> long_peaks sig s e 0 mx = Undef /\ long_peaks sig s e w 0 = Undef.
Proof.
  intros H Hw Hl. unfold long_peaks, long_params. split; [reflexivity|]. destruct (Z.eqb_spec w 0); [lia|]. rewrite Z.quot_div_nonneg by lia. assert (1 <= (e - s) / w)%Z by (apply Z.div_le_lower_bound; lia). destruct (Z.ltb_spec 0 ((e - s) / w)); [reflexivity|lia].
Qed.

Section Pulse.
Context (c : config) (sa st : list hit -> list hit) (fit : list Qc -> list cand -> list peak * option Qc * Z).
Context (sig : list Qc) (plane : nat) (roi : Z).
(** the fit is not used *)
Definition not_fitted (cands : list cand) : Prop :=
  c_maxmulti c < List.length cands \/ (exists x, snd (fst (fit sig cands)) = Some x /\ (c_chi2 c < zq (Z.of_nat (List.length cands)) * x)%Qc) \/ snd (fst (fit sig cands)) = None.

Lemma two_c n : 0 < n -> (0 < c_chi2 c)%Qc -> (c_chi2 c < zq (Z.of_nat n) * (q2 * c_chi2 c))%Qc.
Proof.
  intros Hn Hc. assert (H1 : (1 <= zq (Z.of_nat n))%Qc) by (rewrite <- zq_1; apply zq_le; lia). set (x := zq (Z.of_nat n)) in *. set (y := c_chi2 c) in *. clearbody x y. unfold q2. assert (H2 : (1 * y <= x * y)%Qc) by (apply Qcmult_le_compat_r; [exact H1|apply Qclt_le_weak, Hc]).
  replace (x * (Q2Qc (2 # 1) * y))%Qc with (Q2Qc (2 # 1) * (x * y))%Qc by ring. set (z := (x * y)%Qc) in *. clearbody z. qclra.
Qed.
Lemma not_fitted_peaks cands startT endT w mx : (0 < c_chi2 c)%Qc -> nth_error (c_longwidth c) plane = Some w -> nth_error (c_longmax c) plane = Some mx -> (0 < w)%Z -> (0 < mx)%Z ->
  (0 <= startT < endT)%Z -> (endT <= Z.of_nat (List.length sig))%Z -> cands <> [] -> not_fitted cands ->
  exists ps gof, long_peaks sig startT endT w mx = Ok ps /\ pulse_peaks c fit sig plane cands startT endT = Ok (ps, pieces (endT - startT) w mx, gof, 1%Z) /\ (gof = zq (-1) \/ (c_chi2 c < gof)%Qc).
Proof.
  intros Hc Ew Em Hw Hm Hs He Hne Hn. destruct (long_ok sig startT endT w mx Hs He Hw Hm) as (ivs & w' & Ep & El & _). unfold pulse_peaks. unfold at_. rewrite Ew, Em. cbn [obind]. destruct (Z.eqb_spec w 0); [lia|]. cbn [obind]. rewrite Ep. cbn [obind]. rewrite El. cbn [obind fst].
  set (chi := if List.length cands <=? c_maxmulti c then _ else _).
  assert (T : negb (List.length cands <=? c_maxmulti c) || qc_lt (c_chi2 c) (zq (Z.of_nat (List.length cands)) * chi) = true).
  { unfold chi. clear chi. destruct (Nat.leb_spec (List.length cands) (c_maxmulti c)) as [K|K]; cbn [negb orb]; [|reflexivity]. apply qc_lt_spec. destruct Hn as [Hn|[(x & Ex & Hx)|Hn]]; [lia|rewrite Ex; exact Hx|]. rewrite Hn. apply two_c; [destruct cands; [contradiction|cbn; lia]|exact Hc]. }
  rewrite T. eexists _, _. split; [reflexivity|]. split; [reflexivity|]. destruct (qc_lt (c_chi2 c) chi) eqn:E; [right; apply qc_lt_spec, E|left; reflexivity].
Qed.

Lemma all_of_push hits kept : all_of (map PushAll hits ++ map PushFilt kept) = hits.
Proof. rewrite all_of_app. assert (A : all_of (map PushAll hits) = hits) by (induction hits as [|h l IH]; [reflexivity|]; cbn; f_equal; exact IH). assert (B : all_of (map PushFilt kept) = []) by (induction kept as [|h l IH]; [reflexivity|exact IH]). rewrite A, B. apply app_nil_r. Qed.
Lemma filt_of_push hits kept : filt_of (map PushAll hits ++ map PushFilt kept) = kept.
Proof. rewrite filt_of_app. assert (A : filt_of (map PushFilt kept) = kept) by (induction kept as [|h l IH]; [reflexivity|]; cbn; f_equal; exact IH). assert (B : filt_of (map PushAll hits) = []) by (induction hits as [|h l IH]; [reflexivity|exact IH]). rewrite A, B. reflexivity. Qed.
Lemma pulse_inv (cands : list cand) (c0 : cand) (rest : list cand) evs : cands = c0 :: rest -> (5 <= snd (last cands c0) - fst c0)%Z -> do_pulse c sa st fit sig plane roi cands = Ok evs ->
  exists peaks ng gof dof hits, pulse_peaks c fit sig plane cands (fst c0) (snd (last cands c0)) = Ok (peaks, ng, gof, dof) /\ make_hits sig plane roi (fst c0) (snd (last cands c0)) peaks ng gof dof = Ok hits /\ all_of evs = hits /\
    (c_filter c = false -> filt_of evs = []) /\ (c_filter c = true -> hits <> [] -> filter_hits c sa st plane hits = Ok (filt_of evs)) /\ (hits = [] -> filt_of evs = []).
Proof.
  intros -> Hl H. unfold do_pulse in H. set (cands := c0 :: rest) in *. destruct (Z.ltb_spec (snd (last cands c0) - fst c0) 5); [lia|]. apply obind_inv in H. destruct H as ([[[peaks ng] gof] dof] & E1 & H). apply obind_inv in H. destruct H as (hits & E2 & H). apply obind_inv in H. destruct H as (kept & E3 & [= <-]).
  exists peaks, ng, gof, dof, hits. rewrite all_of_push, filt_of_push. split; [exact E1|]. split; [exact E2|]. split; [reflexivity|]. split; [intros Ef; rewrite Ef in E3; congruence|]. split.
  - intros Ef Hne. rewrite Ef in E3. destruct hits; [contradiction|exact E3].
  - intros ->. destruct (c_filter c); congruence.
Qed.

(** hits of a pulse whose fit was not usable: one per interval, with the chi2 that failed or -1 *)
Theorem c71_hits (cands : list cand) (c0 : cand) (rest : list cand) evs w mx : cands = c0 :: rest -> do_pulse c sa st fit sig plane roi cands = Ok evs ->
  let s := fst c0 in let e := snd (last cands c0) in
  (5 <= e - s)%Z -> (0 <= s)%Z -> (e <= Z.of_nat (List.length sig))%Z -> (0 < c_chi2 c)%Qc ->
  nth_error (c_longwidth c) plane = Some w -> nth_error (c_longmax c) plane = Some mx -> (0 < w)%Z -> (0 < mx)%Z -> not_fitted cands ->
  exists ivs, consecutive s ivs (e - lost (e - s) w mx) /\ Z.of_nat (List.length ivs) = pieces (e - s) w mx /\ List.length (all_of evs) = List.length ivs /\
    forall i iv, nth_error ivs i = Some iv -> exists h, nth_error (all_of evs) i = Some h /\ h_start h = (s + roi)%Z /\ h_end h = (e + roi)%Z /\
      h_time h = (zq (fst iv + snd iv) / q2 + zq roi)%Qc /\ h_rms h = (zq (snd iv - fst iv) / Q2Qc (3 # 1))%Qc /\ Some (h_amp h) = p_amp (flat_peak sig iv) /\
      h_mult h = pieces (e - s) w mx /\ h_index h = i /\ h_dof h = 1%Z /\ (h_gof h = zq (-1) \/ (c_chi2 c < h_gof h)%Qc).
Proof.
  intros Ec Hd s e Hl H0 Hlen Hc Ew Em Hw Hm Hn. destruct (pulse_inv cands c0 rest evs Ec Hl Hd) as (peaks & ng & gof & dof & hits & E1 & E2 & Ea & _). fold s e in E1, E2.
  destruct (not_fitted_peaks cands s e w mx Hc Ew Em Hw Hm ltac:(lia) Hlen ltac:(subst; discriminate) Hn) as (ps & gof' & El & Ep & Hg). rewrite E1 in Ep. injection Ep as -> -> -> ->.
  destruct (long_ok sig s e w mx ltac:(lia) Hlen Hw Hm) as (ivs & w' & _ & El' & Hcon & Hcnt & _ & Hin). rewrite El in El'. injection El' as ->.
  exists ivs. split; [exact Hcon|]. split; [exact Hcnt|].
  assert (Lp : pieces (e - s) w mx = Z.of_nat (List.length (map (flat_peak sig) ivs))) by (rewrite map_length; symmetry; exact Hcnt). rewrite Lp in E2.
  assert (Hlost : (e - lost (e - s) w mx <= e)%Z) by (unfold lost; destruct (_ <? _)%Z; lia).
  rewrite (make_ok sig plane roi s e gof' 1%Z ltac:(lia) Hlen _ (flat_tidy sig _ _ _ e Hcon Hlost)) in E2. injection E2 as <-. rewrite Ea.
  assert (Hlh : forall n l prev i, List.length (hits_from sig plane roi s e gof' 1 n i prev l) = List.length l) by (clear; induction l as [|p l IH]; intros; cbn [hits_from List.length]; [reflexivity|rewrite IH; reflexivity]).
  split; [rewrite Hlh, map_length; reflexivity|]. intros i iv Hi. rewrite hits_nth. rewrite (map_nth_error (flat_peak sig) _ _ Hi). rewrite (wins_nth s e _ _ _ _ (map_nth_error (flat_peak sig) _ _ Hi)). eexists. split; [reflexivity|].
  unfold hit_of. cbn [h_start h_end h_time h_rms h_amp h_mult h_index h_dof h_gof]. split; [reflexivity|]. split; [reflexivity|]. split; [reflexivity|]. split; [reflexivity|]. split; [reflexivity|]. split; [rewrite Lp; reflexivity|]. split; [reflexivity|]. split; [reflexivity|exact Hg].
Qed.
(** hits of a usable fit: the chi2 times the number of candidates is within the cut, the multiplicity is the number of candidates *)
Theorem c71_fitted (cands : list cand) (c0 : cand) (rest : list cand) evs : cands = c0 :: rest -> do_pulse c sa st fit sig plane roi cands = Ok evs -> (5 <= snd (last cands c0) - fst c0)%Z -> (0 < c_chi2 c)%Qc -> ~ not_fitted cands ->
  forall h, In h (all_of evs) -> h_mult h = Z.of_nat (List.length cands) /\ (zq (Z.of_nat (List.length cands)) * h_gof h <= c_chi2 c)%Qc /\ snd (fst (fit sig cands)) = Some (h_gof h) /\ h_dof h = snd (fit sig cands).
Proof.
  intros Ec Hd Hl Hc Hn h Hh. destruct (pulse_inv cands c0 rest evs Ec Hl Hd) as (peaks & ng & gof & dof & hits & E1 & E2 & Ea & _). rewrite Ea in Hh. apply any_ok in E2. destruct E2 as [A _]. apply In_nth_error in Hh. destruct Hh as [i Hi]. specialize (A i h Hi). destruct A as (_ & A1 & _ & _ & _ & A2 & A3 & _).
  unfold pulse_peaks in E1. assert (K : (List.length cands <=? c_maxmulti c) = true) by (apply Nat.leb_le; destruct (Nat.le_gt_cases (List.length cands) (c_maxmulti c)); [assumption|exfalso; apply Hn; left; assumption]). rewrite K in E1. cbn [negb orb] in E1.
  destruct (snd (fst (fit sig cands))) as [x|] eqn:Ex; [|exfalso; apply Hn; right; right; exact Ex]. assert (Q : qc_lt (c_chi2 c) (zq (Z.of_nat (List.length cands)) * x) = false). { destruct (qc_lt _ _) eqn:Q; [|reflexivity]. exfalso. apply Hn. right. left. exists x. split; [exact Ex|apply qc_lt_spec, Q]. }
  rewrite Q in E1. injection E1 as <- <- <- <-. rewrite A1, A2, A3. apply qc_lt_false in Q. auto.
Qed.
(** a pulse of fewer than five ticks gives no hits *)
Theorem c71_short (cands : list cand) (c0 : cand) (rest : list cand) : cands = c0 :: rest -> (snd (last cands c0) - fst c0 < 5)%Z -> do_pulse c sa st fit sig plane roi cands = Ok [].
Proof. intros -> H. unfold do_pulse. destruct (Z.ltb_spec (snd (last (c0 :: rest) c0) - fst c0) 5); [reflexivity|lia]. Qed.
End Pulse.

(* ================================================================== C72 *)
Section Hits.
Context (sig : list Qc) (plane : nat) (roi startT endT : Z) (gof : Qc) (dof : Z).
(** peaks in time order, of positive width, inside the pulse: one hit per peak, numbered in order; its charge is summed over a window around the peak, and
    the windows of different hits do not overlap *)
Theorem c72_hits peaks : (0 <= startT <= endT)%Z -> (endT <= Z.of_nat (List.length sig))%Z -> tidy startT endT peaks ->
  exists hits ws, make_hits sig plane roi startT endT peaks (Z.of_nat (List.length peaks)) gof dof = Ok hits /\ List.length hits = List.length peaks /\ List.length ws = List.length peaks /\ apart_in startT ws endT /\
    forall i p, nth_error peaks i = Some p -> exists h w, nth_error hits i = Some h /\ nth_error ws i = Some w /\ window_of startT endT peaks i w /\ (fst w <= flo (p_mean p) <= snd w)%Z /\
      h_sum h = sum_ticks sig (fst w) (snd w) /\ h_roisum h = sum_ticks sig startT endT /\ h_start h = (startT + roi)%Z /\ h_end h = (endT + roi)%Z /\ h_time h = (p_mean p + zq roi)%Qc /\ h_rms h = p_sigma p /\
      p_amp p = Some (h_amp h) /\ h_mult h = Z.of_nat (List.length peaks) /\ h_index h = i /\ h_plane h = plane /\ h_gof h = gof /\ h_dof h = dof.
Proof.
  intros H0 Hlen T. assert (F : forall x, In x peaks -> fine startT endT x) by (intros x Hx; destruct T as [_ T2 T3 T4]; unfold fine; destruct (T3 x Hx); auto).
  exists (hits_from sig plane roi startT endT gof dof (List.length peaks) 0 None peaks), (wins startT endT None peaks). split; [apply make_ok; assumption|].
  assert (Hlh : forall n l prev i, List.length (hits_from sig plane roi startT endT gof dof n i prev l) = List.length l) by (clear; induction l as [|p l IH]; intros; cbn [hits_from List.length]; [reflexivity|rewrite IH; reflexivity]).
  split; [apply Hlh|]. split; [apply wins_length|]. assert (Ap : apart_in startT (wins startT endT None peaks) endT) by (apply (wins_apart sig startT endT H0 peaks); [apply T|exact F|destruct peaks; exact Logic.I|lia|destruct peaks; reflexivity]). split; [exact Ap|].
  intros i p Hi. pose proof (wins_nth startT endT peaks None i p Hi) as Hw. set (w := win startT endT _ p _) in Hw. exists (hit_of sig plane roi startT endT gof dof (List.length peaks) i p w), w. split.
  { rewrite hits_nth, Hi, Hw. reflexivity. }
  split; [exact Hw|]. split. { exists p, (lo_of (match i with O => None | S j => nth_error peaks j end) p), (hi_of p (nth_error peaks (i + 1))). split; [exact Hi|]. split; [apply lo_edge|]. split; [apply hi_edge|reflexivity]. }
  split.
  { assert (Hle : forall j k a b, j < k -> nth_error peaks j = Some a -> nth_error peaks k = Some b -> (p_mean a <= p_mean b)%Qc).
    { destruct T as [T1 _ _ _]. clear -T1. induction T1 as [|x l H IH Hf]; intros j k a b Hjk Ha Hb; [destruct j; discriminate|]. destruct k; [lia|]. destruct j; cbn [nth_error] in *; [injection Ha as ->; rewrite Forall_forall in Hf; apply Hf; eapply nth_error_In; exact Hb|]. apply (IH j k a b); [lia|assumption|assumption]. }
    unfold w. enough (K : after startT endT (match i with O => None | S j => nth_error peaks j end) p /\ match nth_error peaks (i + 1) with Some q => fine startT endT q /\ (p_mean p <= p_mean q)%Qc | None => True end).
    { destruct (win_ok sig startT endT _ p _ (F p (nth_error_In _ _ Hi)) (proj1 K) (proj2 K)). lia. }
    split.
    - destruct i as [|j]; [exact Logic.I|]. destruct (nth_error peaks j) as [q|] eqn:Eq; [|exact Logic.I]. split; [apply F; eapply nth_error_In; exact Eq|]. apply (Hle j (S j)); [lia|assumption|assumption].
    - destruct (nth_error peaks (i + 1)) as [q|] eqn:Eq; [|exact Logic.I]. split; [apply F; eapply nth_error_In; exact Eq|]. apply (Hle i (i + 1)); [lia|assumption|assumption]. }
  unfold hit_of. cbn [h_sum h_roisum h_start h_end h_time h_rms h_amp h_mult h_index h_plane h_gof h_dof]. destruct (p_amp p) as [a|] eqn:Ea; [|exfalso; destruct T as [_ _ _ T4]; exact (T4 p (nth_error_In _ _ Hi) Ea)]. repeat (split; [reflexivity|]). reflexivity.
Qed.
(** with samples that are not negative the hits together have no more charge than the pulse *)
Theorem c72_charge peaks hits : (0 <= startT <= endT)%Z -> (endT <= Z.of_nat (List.length sig))%Z -> tidy startT endT peaks -> (forall x, In x sig -> (0 <= x)%Qc) ->
  make_hits sig plane roi startT endT peaks (Z.of_nat (List.length peaks)) gof dof = Ok hits -> (qsum h_sum hits <= sum_ticks sig startT endT)%Qc.
Proof.
  intros H0 Hlen T Hs E. destruct (c72_hits peaks H0 Hlen T) as (hits' & ws & E' & L1 & L2 & Ap & N). rewrite E in E'. injection E' as <-.
  assert (K : qsum h_sum hits = qsum (fun w => sum_ticks sig (fst w) (snd w)) ws).
  { clear Ap E Hs. assert (M : forall i h, nth_error hits i = Some h -> exists w, nth_error ws i = Some w /\ h_sum h = sum_ticks sig (fst w) (snd w)).
    { intros i h Hi. destruct (nth_error peaks i) as [p|] eqn:Ep; [|apply nth_error_None in Ep; assert (i < List.length hits) by (apply nth_error_Some; congruence); lia]. destruct (N i p Ep) as (h' & w & A & B & _ & _ & D & _). exists w. split; [exact B|congruence]. }
    assert (L : List.length hits = List.length ws) by congruence. clear - M L. revert ws L M. induction hits as [|h l IH]; intros [|w ws] L M; try discriminate L; [reflexivity|]. rewrite !qsum_cons. destruct (M 0 h eq_refl) as (w' & [= <-] & ->). f_equal. apply IH; [cbn in L; lia|]. intros i x Hi. exact (M (S i) x Hi). }
  rewrite K. apply apart_sum; [exact Hs|exact Ap|lia].
Qed.
(** whatever the fit returned: hits numbered from 0 on, from peaks in the order given, all with the start, end and charge of the pulse, each with the charge
    of a window inside it *)
Theorem c72_any_partial peaks ng hits : make_hits sig plane roi startT endT peaks ng gof dof = Ok hits ->
  (forall i h, nth_error hits i = Some h -> h_index h = i /\ h_mult h = ng /\ h_start h = (startT + roi)%Z /\ h_end h = (endT + roi)%Z /\ h_plane h = plane /\ h_gof h = gof /\ h_dof h = dof /\ h_roisum h = sum_ticks sig startT endT /\
     exists lo hi, (startT <= lo <= hi)%Z /\ (hi <= endT)%Z /\ h_sum h = sum_ticks sig lo hi) /\
  List.length hits <= List.length peaks /\ subseq (map (fun h => (h_time h, h_rms h, Some (h_amp h))) hits) (map (fun p => ((p_mean p + zq roi)%Qc, p_sigma p, p_amp p)) peaks).
Proof. intros E. apply any_ok in E. destruct E as [A B]. split; [exact A|]. split; [|exact B]. apply subseq_length in B. rewrite !map_length in B. exact B. Qed.
End Hits.

Definition ex_sig : list Qc := repeat (Q2Qc (10 # 1)) 40.
Definition ex_peak (m s : Z) : peak := mkPeak (zq m) (zq s) (Some (zq 20)).
(** a refit puts a peak more than candidates at the end of the list: its hit has a local index not below the multiplicity, and its window may overlap others',
    so that the hits have more charge than the pulse; a NaN amplitude leaves fewer hits than the multiplicity says *)
Theorem c72_index_refuted : exists peaks hits, make_hits ex_sig 0 0 0 40 peaks 1 0 1 = Ok hits /\ exists h, In h hits /\ ~ (Z.of_nat (h_index h) < h_mult h)%Z.
Proof.
  exists [ex_peak 10 2; ex_peak 20 2]. assert (G : match make_hits ex_sig 0 0 0 40 [ex_peak 10 2; ex_peak 20 2] 1 0 1 with Ok hits => existsb (fun h => negb (Z.of_nat (h_index h) <? h_mult h)%Z) hits | _ => false end = true) by (vm_compute; reflexivity).
  destruct (make_hits ex_sig 0 0 0 40 [ex_peak 10 2; ex_peak 20 2] 1 0 1) as [hits| |]; [|discriminate G|discriminate G]. exists hits. split; [reflexivity|]. apply existsb_exists in G. destruct G as (h & Hi & Hb). exists h. split; [exact Hi|]. intros K. apply Z.ltb_lt in K. rewrite K in Hb. discriminate.
Qed.
Theorem c72_charge_refuted : exists peaks hits, (forall p, In p peaks -> (0 < p_sigma p)%Qc /\ (zq 0 <= p_mean p)%Qc /\ (p_mean p <= zq 40)%Qc /\ p_amp p <> None) /\
  make_hits ex_sig 0 0 0 40 peaks 3 0 1 = Ok hits /\ ~ (qsum h_sum hits <= sum_ticks ex_sig 0 40)%Qc.
Proof.
  set (ps := [ex_peak 12 8; ex_peak 28 8; ex_peak 20 9; ex_peak 20 9]). exists ps.
  assert (G : match make_hits ex_sig 0 0 0 40 ps 3 0 1 with Ok hits => qc_lt (sum_ticks ex_sig 0 40) (qsum h_sum hits) | _ => false end = true) by (vm_compute; reflexivity).
  destruct (make_hits ex_sig 0 0 0 40 ps 3 0 1) as [hits| |]; [|discriminate G|discriminate G]. exists hits. split.
  - intros p Hp. unfold ps in Hp. cbn [In] in Hp. repeat (destruct Hp as [<-|Hp]; [cbn [ex_peak p_sigma p_mean p_amp]; split; [apply (zq_lt 0); lia|split; [apply zq_le; lia|split; [apply zq_le; lia|discriminate]]]|]). destruct Hp.
  - split; [reflexivity|]. apply qc_lt_spec in G. apply Qclt_not_le, G.
Qed.
Theorem c72_multiplicity_refuted : exists peaks hits, make_hits ex_sig 0 0 0 40 peaks (Z.of_nat (List.length peaks)) 0 1 = Ok hits /\ hits <> [] /\ exists h, In h hits /\ h_mult h <> Z.of_nat (List.length hits).
Proof.
  set (ps := [mkPeak (zq 10) (zq 2) None; ex_peak 20 2]). exists ps.
  assert (G : match make_hits ex_sig 0 0 0 40 ps (Z.of_nat (List.length ps)) 0 1 with Ok (h :: r) => negb (h_mult h =? Z.of_nat (List.length (h :: r)))%Z | _ => false end = true) by (vm_compute; reflexivity).
  destruct (make_hits ex_sig 0 0 0 40 ps (Z.of_nat (List.length ps)) 0 1) as [[|h r]| |]; try discriminate G. exists (h :: r). split; [reflexivity|]. split; [discriminate|]. exists h. split; [left; reflexivity|]. intros K. rewrite K, Z.eqb_refl in G. discriminate.
Qed.
Example c72_nonvacuous : tidy 0 40 [ex_peak 10 3; ex_peak 18 3; ex_peak 33 2] /\ match make_hits ex_sig 0 100 0 40 [ex_peak 10 3; ex_peak 18 3; ex_peak 33 2] 3 0 1 with Ok hits => map (fun h => this (h_sum h)) hits = [100 # 1; 100 # 1; 80 # 1]%Q | _ => False end.
Proof.
  split; [|vm_compute; reflexivity]. split.
  - repeat constructor; apply zq_le; lia.
  - intros p Hp. cbn [In] in Hp. repeat (destruct Hp as [<-|Hp]; [apply (zq_lt 0); lia|]). destruct Hp.
  - intros p Hp. cbn [In] in Hp. repeat (destruct Hp as [<-|Hp]; [split; apply zq_le; lia|]). destruct Hp.
  - intros p Hp. cbn [In] in Hp. repeat (destruct Hp as [<-|Hp]; [discriminate|]). destruct Hp.
Qed.

(* ================================================================== C73 *)
Section Filter.
Context (c : config) (sa st : list hit -> list hit) (Hsa : sorts_by higher sa) (Hst : sorts_by earlier st).
(** the hits of a pulse are all dropped if the highest of them is below the height or width cut; otherwise those are kept, in time order, that are not small
    beside the highest and that pass the minima of the plane *)
Theorem c73_filter plane hits hc wc thr : hits <> [] -> nth_error (c_height c) plane = Some hc -> nth_error (c_width c) plane = Some wc -> nth_error (c_ratio c) plane = Some thr ->
  (0 < hc)%Qc -> (thr <= 1)%Qc ->
  exists kept top, filter_hits c sa st plane hits = Ok kept /\ In top hits /\ (forall h, In h hits -> (h_amp h <= h_amp top)%Qc) /\
    ((h_amp top < hc)%Qc \/ (h_rms top < wc)%Qc -> kept = []) /\
    (~ ((h_amp top < hc)%Qc \/ (h_rms top < wc)%Qc) -> StronglySorted (fun a b => h_time a <= h_time b)%Qc kept /\
       exists keep, (forall h, keep h = true <-> not_small thr top h /\ passes_minima (c_minPH c) (c_minSig c) h) /\ Permutation kept (filter keep hits)).
Proof. apply filter_ok; assumption. Qed.
End Filter.
Lemma higher_tr a b d : higher b a = false -> higher d b = false -> higher d a = false.
Proof. unfold higher. rewrite !qc_lt_false. intros. eapply Qcle_trans; eassumption. Qed.
Lemma higher_as a b : higher a b = true -> higher b a = false.
Proof. unfold higher. rewrite qc_lt_spec, qc_lt_false. apply Qclt_le_weak. Qed.
Lemma earlier_tr a b d : earlier b a = false -> earlier d b = false -> earlier d a = false.
Proof. unfold earlier. rewrite !qc_lt_false. intros. eapply Qcle_trans; eassumption. Qed.
Lemma earlier_as a b : earlier a b = true -> earlier b a = false.
Proof. unfold earlier. rewrite qc_lt_spec, qc_lt_false. apply Qclt_le_weak. Qed.
Lemma sa1 : sorts_by higher (isort higher). Proof. intros l. split; [apply isort_perm|apply isort_sorted; [exact higher_tr|exact higher_as]]. Qed.
Lemma sa2 : sorts_by higher (fun l => isort higher (rev l)).
Proof. intros l. split; [rewrite isort_perm; symmetry; apply Permutation_rev|apply isort_sorted; [exact higher_tr|exact higher_as]]. Qed.
Lemma st1 : sorts_by earlier (isort earlier). Proof. intros l. split; [apply isort_perm|apply isort_sorted; [exact earlier_tr|exact earlier_as]]. Qed.
Definition ex_cfg (f : bool) (name : string) : config :=
  mkConfig f name [25]%Z [16]%Z 5 (zq 500) [zq 3] [zq 2] [Q2Qc (35 # 100)] [zq 3] [zq 1].
Definition ex_hit (amp rms time : Z) : hit := mkHit 0 40 (zq rms) (zq time) (zq amp) 0%Qc 0%Qc 2 0 0%Qc 1 0.
(** with two highest hits of equal amplitude the outcome depends on how std::sort orders them *)
Theorem c73_ties_refuted : exists hits k1 k2, filter_hits (ex_cfg true "") (isort higher) (isort earlier) 0 hits = Ok k1 /\ filter_hits (ex_cfg true "") (fun l => isort higher (rev l)) (isort earlier) 0 hits = Ok k2 /\ List.length k1 <> List.length k2.
Proof.
  set (l := [ex_hit 20 1 10; ex_hit 20 4 20]). exists l.
  assert (G : match filter_hits (ex_cfg true "") (isort higher) (isort earlier) 0 l, filter_hits (ex_cfg true "") (fun l => isort higher (rev l)) (isort earlier) 0 l with Ok a, Ok b => negb (List.length a =? List.length b) | _, _ => false end = true) by (vm_compute; reflexivity).
  destruct (filter_hits (ex_cfg true "") (isort higher) (isort earlier) 0 l) as [a| |]; try discriminate G. destruct (filter_hits (ex_cfg true "") (fun l => isort higher (rev l)) (isort earlier) 0 l) as [b| |]; try discriminate G.
  exists a, b. split; [reflexivity|]. split; [reflexivity|]. apply Nat.eqb_neq. destruct (List.length a =? List.length b); [discriminate|reflexivity].
Qed.
Example c73_nonvacuous : match filter_hits (ex_cfg true "") (isort higher) (isort earlier) 0 [ex_hit 30 4 20; ex_hit 5 4 10; ex_hit 12 3 15; ex_hit 9 1 5] with Ok k => map (fun h => this (h_amp h)) k = [12 # 1; 30 # 1]%Q | _ => False end.
Proof. vm_compute. reflexivity. Qed.

(* ================================================================== C70 *)
Section Event.
Context (c : config) (sa st : list hit -> list hit) (fit : list Qc -> list cand -> list peak * option Qc * Z) (find : nat -> list Qc -> option (list (list cand))).
(** what the tasks (one per region of interest) push, in order *)
Definition pushed_all (todo : list (nat * list event)) : list (list (hit * nat)) := map (fun t => map (fun h => (h, fst t)) (all_of (snd t))) todo.
Definition pushed_filt (todo : list (nat * list event)) : list (list (hit * nat)) := map (fun t => map (fun h => (h, fst t)) (filt_of (snd t))) todo.
(** in every execution the collections saved are merges of what the tasks found: each hit once, with its wire, those of a region in order *)
Theorem c70_result ws out : produces c sa st fit find ws (Ok out) ->
  exists todo all filt, tasks c sa st fit find ws = map (fun t => (fst t, Ok (snd t))) todo /\ merge_of (pushed_all todo) all /\ merge_of (pushed_filt todo) filt /\ Permutation all (List.concat (pushed_all todo)) /\ Permutation filt (List.concat (pushed_filt todo)) /\
    (c_filter c = false -> out = [(c_instance c, all)]) /\ (c_filter c = true -> c_instance c = EmptyString -> out = [(EmptyString, filt)]) /\ (c_filter c = true -> c_instance c <> EmptyString -> out = [(EmptyString, filt); (c_instance c, all)]).
Proof.
  intros H. inversion H as [todo s Et Hr Hd| |]; subst out. destruct (run_merge todo s Hr Hd) as [A B]. exists todo, (t_all s), (t_filt s). split; [symmetry; exact Et|]. split; [exact A|]. split; [exact B|]. split; [apply merge_perm, A|]. split; [apply merge_perm, B|]. unfold put.
  split; [intros ->; reflexivity|]. split; [intros -> ->; reflexivity|]. intros -> Hn. apply String.eqb_neq in Hn. rewrite Hn. reflexivity.
Qed.
(** two executions save the same hits with the same wires under the same names *)
Theorem c70_same_hits ws out out' : produces c sa st fit find ws (Ok out) -> produces c sa st fit find ws (Ok out') ->
  map fst out = map fst out' /\ Forall2 (fun a b => Permutation (snd a) (snd b)) out out'.
Proof.
  intros H H'. destruct (c70_result ws out H) as (todo & all & filt & E & _ & _ & P1 & P2 & O1 & O2 & O3). destruct (c70_result ws out' H') as (todo' & all' & filt' & E' & _ & _ & P1' & P2' & O1' & O2' & O3').
  assert (todo = todo'). { rewrite E in E'. clear -E'. revert todo' E'. induction todo as [|[w e] l IH]; intros [|[w' e'] l'] H; try discriminate H; [reflexivity|]. cbn [map fst snd] in H. injection H as -> -> H. f_equal. apply IH, H. }
  subst todo'. assert (Pa : Permutation all all') by (rewrite P1, P1'; reflexivity). assert (Pf : Permutation filt filt') by (rewrite P2, P2'; reflexivity).
  destruct (c_filter c); [destruct (string_dec (c_instance c) EmptyString) as [K|K]|].
  - rewrite (O2 eq_refl K), (O2' eq_refl K). split; [reflexivity|]. constructor; [exact Pf|constructor].
  - rewrite (O3 eq_refl K), (O3' eq_refl K). split; [reflexivity|]. constructor; [exact Pf|constructor; [exact Pa|constructor]].
  - rewrite (O1 eq_refl), (O1' eq_refl). split; [reflexivity|]. constructor; [exact Pa|constructor].
Qed.
Lemma task_in ws w o : In (w, o) (tasks c sa st fit find ws) <-> exists plane gs g, nth_error ws w = Some (plane, gs) /\ In g gs /\ o = do_region c sa st fit find plane g.
Proof.
  unfold tasks. rewrite in_concat. split.
  - intros (l & Hl & Hi). apply in_map_iff in Hl. destruct Hl as ([i [plane gs]] & <- & Hc). cbn [fst snd] in Hi. apply in_map_iff in Hi. destruct Hi as (g & [= <- <-] & Hg). exists plane, gs, g. split; [|auto].
    assert (G : forall ws s, In (i, (plane, gs)) (List.combine (seq s (List.length ws)) ws) -> s <= i /\ nth_error ws (i - s) = Some (plane, gs)).
    { clear. induction ws as [|x ws IH]; intros s H; [destruct H|]. cbn [List.length seq List.combine] in H. destruct H as [H|H]; [injection H as -> ->; rewrite Nat.sub_diag; auto|]. apply IH in H. destruct H as [H1 H2]. split; [lia|]. replace (i - s) with (S (i - S s)) by lia. exact H2. }
    destruct (G ws 0 Hc) as [_ K]. rewrite Nat.sub_0_r in K. exact K.
  - intros (plane & gs & g & E & Hg & ->). exists (map (fun g => (w, do_region c sa st fit find plane g)) gs). split; [|apply in_map_iff; exists g; auto]. apply in_map_iff. exists (w, (plane, gs)). split; [reflexivity|].
    assert (G : forall ws s k, nth_error ws k = Some (plane, gs) -> In (s + k, (plane, gs)) (List.combine (seq s (List.length ws)) ws)).
    { clear. induction ws as [|x ws IH]; intros s k H; [destruct k; discriminate|]. cbn [List.length seq List.combine]. destruct k; cbn [nth_error] in H; [injection H as ->; left; rewrite Nat.add_0_r; reflexivity|]. right. replace (s + S k) with (S s + k) by lia. apply IH, H. }
    exact (G ws 0 w E).
Qed.
(** a hit saved with a wire was found in a region of interest of that wire, and every hit found there is saved with it *)
Theorem c70_own_wire ws out name col h w : produces c sa st fit find ws (Ok out) -> In (name, col) out ->
  In (h, w) col <-> exists plane gs g evs, nth_error ws w = Some (plane, gs) /\ In g gs /\ do_region c sa st fit find plane g = Ok evs /\
    ((In h (all_of evs) /\ (c_filter c = false \/ name <> EmptyString)) \/ (In h (filt_of evs) /\ c_filter c = true /\ name = EmptyString)).
Proof.
  intros H Hin. destruct (c70_result ws out H) as (todo & all & filt & E & _ & _ & P1 & P2 & O1 & O2 & O3).
  assert (Ga : In (h, w) all <-> exists plane gs g evs, nth_error ws w = Some (plane, gs) /\ In g gs /\ do_region c sa st fit find plane g = Ok evs /\ In h (all_of evs)).
  { split.
    - intros K. apply (Permutation_in _ P1) in K. apply in_concat in K. destruct K as (l & Hl & K). apply in_map_iff in Hl. destruct Hl as ([i evs] & <- & Ht). apply in_map_iff in K. destruct K as (h' & [= <- <-] & Hh). cbn [fst snd] in *.
      apply (in_map (fun t : nat * list event => (fst t, Ok (snd t)))) in Ht. rewrite <- E in Ht. apply task_in in Ht. destruct Ht as (plane & gs & g & A & B & D). cbn [fst snd] in A, D. exists plane, gs, g, evs. auto.
    - intros (plane & gs & g & evs & A & B & D & Hh). assert (Ht : In (w, Ok evs) (tasks c sa st fit find ws)) by (apply task_in; exists plane, gs, g; auto). rewrite E in Ht. apply in_map_iff in Ht. destruct Ht as ([i evs'] & [= -> ->] & Ht).
      apply (Permutation_in _ (Permutation_sym P1)). apply in_concat. exists (map (fun h => (h, w)) (all_of evs)). split; [apply in_map_iff; exists (w, evs); auto|apply in_map_iff; exists h; auto]. }
  assert (Gf : In (h, w) filt <-> exists plane gs g evs, nth_error ws w = Some (plane, gs) /\ In g gs /\ do_region c sa st fit find plane g = Ok evs /\ In h (filt_of evs)).
  { split.
    - intros K. apply (Permutation_in _ P2) in K. apply in_concat in K. destruct K as (l & Hl & K). apply in_map_iff in Hl. destruct Hl as ([i evs] & <- & Ht). apply in_map_iff in K. destruct K as (h' & [= <- <-] & Hh). cbn [fst snd] in *.
      apply (in_map (fun t : nat * list event => (fst t, Ok (snd t)))) in Ht. rewrite <- E in Ht. apply task_in in Ht. destruct Ht as (plane & gs & g & A & B & D). cbn [fst snd] in A, D. exists plane, gs, g, evs. auto.
    - intros (plane & gs & g & evs & A & B & D & Hh). assert (Ht : In (w, Ok evs) (tasks c sa st fit find ws)) by (apply task_in; exists plane, gs, g; auto). rewrite E in Ht. apply in_map_iff in Ht. destruct Ht as ([i evs'] & [= -> ->] & Ht).
      apply (Permutation_in _ (Permutation_sym P2)). apply in_concat. exists (map (fun h => (h, w)) (filt_of evs)). split; [apply in_map_iff; exists (w, evs); auto|apply in_map_iff; exists h; auto]. }
  assert (Col : (col = all /\ (c_filter c = false \/ name <> EmptyString) /\ ~ (c_filter c = true /\ name = EmptyString)) \/ (col = filt /\ c_filter c = true /\ name = EmptyString)).
  { destruct (c_filter c); [destruct (string_dec (c_instance c) EmptyString) as [K|K]|].
    - rewrite (O2 eq_refl K) in Hin. destruct Hin as [[= <- <-]|[]]. right. auto.
    - rewrite (O3 eq_refl K) in Hin. destruct Hin as [[= <- <-]|[[= <- <-]|[]]]; [right; auto|left]. split; [reflexivity|]. split; [right; exact K|]. intros [_ X]. exact (K X).
    - rewrite (O1 eq_refl) in Hin. destruct Hin as [[= <- <-]|[]]. left. split; [reflexivity|]. split; [left; reflexivity|]. intros [X _]. discriminate. }
  destruct Col as [(-> & K1 & K2)|(-> & K1 & K2)].
  - rewrite Ga. split; intros (plane & gs & g & evs & A & B & D & F); exists plane, gs, g, evs; repeat (split; [assumption|]); [left; auto|]. destruct F as [[F _]|[_ F]]; [exact F|contradiction].
  - rewrite Gf. split; intros (plane & gs & g & evs & A & B & D & F); exists plane, gs, g, evs; repeat (split; [assumption|]); [right; auto|]. destruct F as [[_ F]|[F _]]; [|exact F]. exfalso. destruct F as [F|F]; [congruence|contradiction].
Qed.
(** produce always comes to an end: normally if and only if every task does; however far an execution has come it can be finished, and it is finished after as
    many pushes as the tasks have to make *)
Theorem c70_ends ws : (exists out, produces c sa st fit find ws out) /\
  ((exists out, produces c sa st fit find ws (Ok out)) <-> forall w plane gs g, nth_error ws w = Some (plane, gs) -> In g gs -> exists evs, do_region c sa st fit find plane g = Ok evs) /\
  (forall s, exists s', clos_refl_trans _ pstep s s' /\ all_done s') /\ (forall s s', pstep s s' -> left_over s = S (left_over s')).
Proof.
  assert (D : (exists w e, In (w, Throw e) (tasks c sa st fit find ws)) \/ (exists w, In (w, Undef) (tasks c sa st fit find ws)) \/ exists todo, map (fun t => (fst t, Ok (snd t))) todo = tasks c sa st fit find ws).
  { generalize (tasks c sa st fit find ws). intros l. induction l as [|[w o] l IH]; [right; right; exists []; reflexivity|]. destruct o as [evs|e|]; [|left; exists w, e; left; reflexivity|right; left; exists w; left; reflexivity].
    destruct IH as [(w' & e & H)|[(w' & H)|(todo & H)]]; [left; exists w', e; right; exact H|right; left; exists w'; right; exact H|right; right; exists ((w, evs) :: todo); cbn [map fst snd]; rewrite H; reflexivity]. }
  split. { destruct D as [(w & e & H)|[(w & H)|(todo & H)]]; [exists (Throw e); eapply prod_throw; exact H|exists Undef; eapply prod_undef; exact H|]. destruct (finish (mkPs todo [] [])) as (s & R & F). exists (Ok (put c s)). eapply prod_ok; eassumption. }
  split.
  - split.
    + intros [out H] w plane gs g E Hg. destruct (c70_result ws out H) as (todo & _ & _ & Et & _). assert (K : In (w, do_region c sa st fit find plane g) (tasks c sa st fit find ws)) by (apply task_in; exists plane, gs, g; auto).
      rewrite Et in K. apply in_map_iff in K. destruct K as ([i evs] & [= _ K] & _). exists evs. symmetry. exact K.
    + intros H. destruct D as [(w & e & K)|[(w & K)|(todo & K)]].
      * exfalso. apply task_in in K. destruct K as (plane & gs & g & A & B & D). destruct (H w plane gs g A B) as [evs F]. congruence.
      * exfalso. apply task_in in K. destruct K as (plane & gs & g & A & B & D). destruct (H w plane gs g A B) as [evs F]. congruence.
      * destruct (finish (mkPs todo [] [])) as (s & R & F). exists (put c s). eapply prod_ok; eassumption.
  - split; [exact finish|exact step_less].
Qed.
(** a region gives the hits of its pulses, one pulse after the other *)
Theorem c70_region plane g evs : do_region c sa st fit find plane g = Ok evs ->
  exists ps per, find plane (snd g) = Some ps /\ Forall2 (fun cs ev => do_pulse c sa st fit (snd g) plane (fst g) cs = Ok ev) ps per /\ all_of evs = flat_map all_of per /\ filt_of evs = flat_map filt_of per.
Proof.
  intros H. unfold do_region in H. destruct (find plane (snd g)) as [ps|]; [|discriminate]. exists ps.
  assert (G : forall ps acc, foreach ps (fun acc cs => do ev <- do_pulse c sa st fit (snd g) plane (fst g) cs; Ok (acc ++ ev)) acc = Ok evs ->
    exists per, Forall2 (fun cs ev => do_pulse c sa st fit (snd g) plane (fst g) cs = Ok ev) ps per /\ evs = acc ++ List.concat per).
  { clear H. induction ps0 as [|cs ps0 IH]; intros acc H; cbn [foreach] in H; [injection H as <-; exists []; split; [constructor|rewrite app_nil_r; reflexivity]|].
    apply obind_inv in H. destruct H as (acc' & H & H2). apply obind_inv in H. destruct H as (ev & E & [= <-]). destruct (IH _ H2) as (per & F & ->). exists (ev :: per). split; [constructor; assumption|]. cbn [List.concat]. rewrite app_assoc. reflexivity. }
  destruct (G ps [] H) as (per & F & ->). exists per. split; [reflexivity|]. split; [exact F|]. cbn [app]. clear. split; induction per as [|e per IH]; try reflexivity; cbn [List.concat flat_map]; [rewrite all_of_app, IH|rewrite filt_of_app, IH]; reflexivity.
Qed.
(** every filtered hit is also one of all hits: in every region, hence in the two collections saved *)
Theorem c73_subset plane g evs : sorts_by higher sa -> sorts_by earlier st -> do_region c sa st fit find plane g = Ok evs -> incl (filt_of evs) (all_of evs).
Proof.
  intros Hsa Hst H. unfold do_region in H. destruct (find plane (snd g)) as [ps|]; [|discriminate].
  assert (G : forall ps acc, incl (filt_of acc) (all_of acc) -> foreach ps (fun acc cs => do ev <- do_pulse c sa st fit (snd g) plane (fst g) cs; Ok (acc ++ ev)) acc = Ok evs -> incl (filt_of evs) (all_of evs)).
  { clear H. induction ps0 as [|cs ps0 IH]; intros acc Ha H; cbn [foreach] in H; [injection H as <-; exact Ha|]. apply obind_inv in H. destruct H as (acc' & H & H2). apply obind_inv in H. destruct H as (ev & E & [= <-]). eapply IH; [|exact H2].
    rewrite filt_of_app, all_of_app. enough (X : incl (filt_of ev) (all_of ev)) by (apply incl_app; [apply incl_appl, Ha|apply incl_appr, X]).
    destruct cs as [|c0 rest]; [discriminate E|]. destruct (Z.ltb_spec (snd (last (c0 :: rest) c0) - fst c0) 5) as [K|K].
    { rewrite (c71_short c sa st fit (snd g) plane (fst g) (c0 :: rest) c0 rest eq_refl K) in E. injection E as <-. intros x []. }
    destruct (pulse_inv c sa st fit (snd g) plane (fst g) (c0 :: rest) c0 rest ev eq_refl ltac:(lia) E) as (peaks & ng & gof & dof & hits & _ & _ & Ea & F1 & F2 & F3). rewrite Ea. destruct hits as [|h hs]; [rewrite (F3 eq_refl); intros x []|].
    destruct (c_filter c); [|rewrite (F1 eq_refl); intros x []]. specialize (F2 eq_refl ltac:(discriminate)). eapply filter_sub; eassumption. }
  apply (G ps []); [intros x []|exact H].
Qed.
End Event.

Definition ex_fit (_ : list Qc) (cands : list cand) : list peak * option Qc * Z := ([ex_peak 10 2; ex_peak 25 2], Some 1%Qc, 30%Z).
Definition ex_find (_ : nat) (_ : list Qc) : option (list (list cand)) := Some [[(0, 18); (18, 40)]]%Z.
Definition ex_ws : list wire := [(0, [(100%Z, ex_sig)]); (0, [(100%Z, ex_sig)])].
Definition ex_evs : list event := match do_region (ex_cfg false "") (isort higher) (isort earlier) ex_fit ex_find 0 (100%Z, ex_sig) with Ok e => e | _ => [] end.
(** neither the order of the hits nor that the hits of a wire stay together is the same in all executions *)
Theorem c70_order_refuted : exists out out' col col', produces (ex_cfg false "") (isort higher) (isort earlier) ex_fit ex_find ex_ws (Ok out) /\ produces (ex_cfg false "") (isort higher) (isort earlier) ex_fit ex_find ex_ws (Ok out') /\
  out = [(EmptyString, col)] /\ out' = [(EmptyString, col')] /\ map snd col = [0; 0; 1; 1] /\ map snd col' = [0; 1; 0; 1].
Proof.
  assert (E : do_region (ex_cfg false "") (isort higher) (isort earlier) ex_fit ex_find 0 (100%Z, ex_sig) = Ok ex_evs) by (unfold ex_evs; vm_compute; reflexivity).
  assert (Ev : exists a b, ex_evs = [PushAll a; PushAll b]) by (unfold ex_evs; vm_compute; eexists _, _; reflexivity). destruct Ev as (a & b & Ev). rewrite Ev in E. clear Ev.
  assert (Et : map (fun t => (fst t, Ok (snd t))) [(0, [PushAll a; PushAll b]); (1, [PushAll a; PushAll b])] = tasks (ex_cfg false "") (isort higher) (isort earlier) ex_fit ex_find ex_ws).
  { unfold tasks, ex_ws. cbn [List.length seq List.combine map fst snd List.concat app]. rewrite E. reflexivity. }
  eexists _, _, _, _. split.
  { eapply prod_ok; [exact Et| |].
    - eapply rt_trans; [apply rt_step, (push_all [])|]. eapply rt_trans; [apply rt_step, (push_all [])|]. eapply rt_trans; [apply rt_step, (push_all [(0, [])])|]. apply rt_step, (push_all [(0, [])]).
    - intros t Ht. cbn [t_todo app In] in Ht. destruct Ht as [<-|[<-|[]]]; reflexivity. }
  split.
  { eapply prod_ok; [exact Et| |].
    - eapply rt_trans; [apply rt_step, (push_all [])|]. eapply rt_trans; [apply rt_step, (push_all [(0, [PushAll b])])|]. eapply rt_trans; [apply rt_step, (push_all [])|]. apply rt_step, (push_all [(0, [])]).
    - intros t Ht. cbn [t_todo app In] in Ht. destruct Ht as [<-|[<-|[]]]; reflexivity. }
  split; [reflexivity|]. split; [reflexivity|]. split; reflexivity.
Qed.

Print Assumptions c71_intervals. Print Assumptions c71_covered. Print Assumptions c71_covered_refuted. Print Assumptions c71_zero_undefined. Print Assumptions c71_hits. Print Assumptions c71_fitted. Print Assumptions c71_short.
Print Assumptions c72_hits. Print Assumptions c72_charge. Print Assumptions c72_any_partial. Print Assumptions c72_index_refuted. Print Assumptions c72_charge_refuted. Print Assumptions c72_multiplicity_refuted.
Print Assumptions c73_filter. Print Assumptions c73_ties_refuted. Print Assumptions c73_subset. Print Assumptions c70_region. Print Assumptions c70_result. Print Assumptions c70_same_hits. Print Assumptions c70_own_wire. Print Assumptions c70_ends. Print Assumptions c70_order_refuted.
