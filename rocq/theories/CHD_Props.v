(** C60, C61: the derivative candidate hit finder *)
From Coq Require Import QArith Qcanon Lqa.
From Verif Require Import Base Util QcUtil Solver_Model Solver_Proofs CandHit_Model CandHit_Proofs WT_Model WT_Spec WT_Morph WT_Smooth WT_Props CHD_Model CHD_Spec CHD_Proofs.
Local Open Scope nat_scope.

(** [der] is the derivative of [w] (zero in the end ticks), smoothed by the five point mean if there are more than four ticks *)
Definition smoothed_derivative (w der : list Qc) : Prop := exists raw, length raw = length w /\ length der = length w /\
  (forall i, i < length w -> nth i raw 0%Qc = if (1 <=? i) && (i <? length w - 1) then ((nth (i + 1) w 0 - nth (i - 1) w 0) / (1 + 1))%Qc else 0%Qc) /\
  (forall i, i < length w -> nth i der 0%Qc = if (4 <? length w) && (2 <=? i) && (i <? length w - 2) then
     ((nth (i - 2) raw 0 + Q2Qc 2 * nth (i - 1) raw 0 + Q2Qc 3 * nth i raw 0 + Q2Qc 2 * nth (i + 1) raw 0 + nth (i + 2) raw 0) / Q2Qc 9)%Qc else nth i raw 0%Qc).
Lemma derivative_ok w : w <> [] -> exists raw der, first_derivative w [] = Ok raw /\ triangle_smooth raw [] 0 = Ok der /\ length der = length w /\ smoothed_derivative w der.
Proof.
  intros Hw. destruct (c57_derivative_partial w [] Hw) as (raw & Er & Lr & Nr). destruct (c57_triangle_partial raw [] 0 ltac:(lia)) as (der & Ed & Ld & Nd). exists raw, der. split; [exact Er|]. split; [exact Ed|]. split; [lia|]. exists raw. split; [exact Lr|]. split; [lia|]. split.
  - intros i Hi. specialize (Nr i Hi). unfold sample in Nr. rewrite Nr. destruct (_ && _); [reflexivity|]. apply nth_nil.
  - intros i Hi. specialize (Nd i ltac:(lia)). unfold sample, mean5, sample in Nd. rewrite Nd, Lr. reflexivity.
Qed.
Lemma heights_ok w : forall l, (forall c, In c l -> h_center c < length w) -> exists l', heights w l = Ok l' /\ l' = map (fun c => set_height c (nth (h_center c) w 0%Qc)) l.
Proof.
  induction l as [|c l IH]; intros H; cbn [heights map]; [eexists; split; reflexivity|]. rewrite (at_ok _ _ 0%Qc) by (apply H; left; reflexivity). cbn [obind]. destruct (IH ltac:(intros; apply H; right; assumption)) as (l' & -> & ->). cbn [obind]. eexists. split; reflexivity.
Qed.
Lemma pulse_set d fT fP off s e c h : deriv_pulse d fT fP off s e c <-> deriv_pulse d fT fP off s e (set_height c h).
Proof. split; intros (f & a & p & b & l & H); exists f, a, p, b, l; exact H. Qed.
Lemma map_sorted (f : cand -> cand) l : (forall c, h_start (f c) = h_start c /\ h_stop (f c) = h_stop c) -> StronglySorted in_order l -> StronglySorted in_order (map f l).
Proof.
  intros H. induction 1 as [|c l S IH F]; cbn [map]; constructor; [exact IH|]. rewrite Forall_forall in F |- *. intros x Hx. apply in_map_iff in Hx. destruct Hx as (y & <- & Hy). specialize (F y Hy). unfold in_order in *. destruct (H c) as [_ ->]. destruct (H y) as [-> _]. exact F.
Qed.
(** C60: for regions starting at tick 0 and a minimum of at least one tick, the search ends, reads nothing outside its vectors, and its candidates
    are ordered pulses of the smoothed derivative whose heights are the samples at their centres *)
Theorem c60_derivative_candidates_partial w fT fP : w <> [] -> (1 <= fT)%Z -> exists der cs,
  smoothed_derivative w der /\ deriv_candidates w fT fP 0 = Ok (Some cs) /\
  (forall c, In c cs -> deriv_pulse der fT fP 0 0 (length w) c /\ h_center c < length w /\ h_height c = nth (h_center c) w 0%Qc) /\ StronglySorted in_order cs.
Proof.
  intros Hw HT. destruct (derivative_ok w Hw) as (raw & der & Er & Ed & Ld & Sd). exists der. unfold deriv_candidates. rewrite Er. cbn [obind]. rewrite Ed. cbn [obind].
  assert (Hl : 0 < length w) by (destruct w; [congruence|cbn; lia]).
  destruct (find_deriv_ok der fT fP HT (S (length der)) 0 (length der) 0 fT fP (or_introl (conj eq_refl eq_refl)) ltac:(lia) ltac:(lia)) as (l & El & Fl & Sl). cbn [Nat.add] in El. rewrite El. cbn [obind]. rewrite Forall_forall in Fl. rewrite Ld in Fl.
  destruct (heights_ok w l) as (l' & Eh & ->). { intros c Hc. destruct (Fl c Hc) as (f & a & p & b & z & A1 & A2 & A3 & A4 & _ & _ & _ & _ & A5 & _). lia. }
  rewrite Eh. cbn [obind]. eexists. split; [exact Sd|]. split; [reflexivity|]. split.
  - intros c Hc. apply in_map_iff in Hc. destruct Hc as (c0 & <- & Hc). assert (P := Fl c0 Hc). split; [apply pulse_set; exact P|]. destruct P as (f & a & p & b & z & A1 & A2 & A3 & A4 & _ & _ & _ & _ & A5 & _). cbn [set_height h_center h_height]. split; [lia|reflexivity].
  - apply map_sorted; [intros; split; reflexivity|exact Sl].
Qed.
(** refuted for regions that start later: the sample is looked up by absolute tick, and the search throws out_of_range for every region with
    a candidate that starts at or behind its own length *)
Theorem c60_late_region_refuted w fT fP roi cs : (1 <= fT)%Z -> deriv_candidates w fT fP 0 = Ok (Some cs) -> cs <> [] -> length w <= roi -> deriv_candidates w fT fP roi = Throw RangeExn.
Proof.
  intros HT E Hne Hroi. assert (Hw : w <> []). { intros ->. vm_compute in E. discriminate. }
  destruct (derivative_ok w Hw) as (raw & der & Er & Ed & Ld & Sd). unfold deriv_candidates in *. rewrite Er in *. cbn [obind] in *. rewrite Ed in *. cbn [obind] in *. assert (Hl : 0 < length w) by (destruct w; [congruence|cbn; lia]).
  destruct (find_deriv_ok der fT fP HT (S (length der)) 0 (length der) roi fT fP (or_introl (conj eq_refl eq_refl)) ltac:(lia) ltac:(lia)) as (l & El & Fl & Sl). rewrite Nat.add_0_r in El. rewrite El. cbn [obind].
  assert (Hc : forall c, In c l -> length w <= h_center c). { rewrite Forall_forall in Fl. intros c Hc. destruct (Fl c Hc) as (f & a & p & b & z & _ & _ & _ & _ & _ & _ & _ & _ & A5 & _). lia. }
  destruct l as [|c l].
  - exfalso. (* no candidate at this offset: none at offset 0 *)
    assert (Sh : forall fuel s e r dT dP, find_deriv der fT fP fuel s e r dT dP = Ok (Some []) -> forall r', find_deriv der fT fP fuel s e r' dT dP = Ok (Some [])).
    { clear. intros fuel s e r dT dP H r'. destruct fuel as [|fuel]; [discriminate|]. cbn [find_deriv] in *.
      repeat match type of H with obind ?x _ = _ => destruct x as [?| |]; try discriminate H; cbn [obind] in H |- * end.
      destruct (_ && _); [|reflexivity]. exfalso.
      repeat match type of H with obind ?x _ = _ => destruct x as [?| |]; try discriminate H; cbn [obind] in H end.
      match type of H with match ?a with _ => _ end = _ => destruct a as [[|]|]; try discriminate H end; match type of H with match ?a with _ => _ end = _ => destruct a as [?|]; try discriminate H end. }
    rewrite (Sh _ _ _ _ _ _ El 0) in E. cbn in E. injection E as <-. contradiction.
  - cbn [heights]. assert (X : at_ w (h_center c) = Throw RangeExn). { unfold at_. specialize (Hc c ltac:(left; reflexivity)). assert (Y : nth_error w (h_center c) = None) by (apply nth_error_None; exact Hc). rewrite Y. reflexivity. } rewrite X. reflexivity.
Qed.
(** refuted with the default MinDeltaTicks of 0: the derivative is read past its end *)
Theorem c60_default_ticks_refuted : exists w, deriv_candidates w 0 (Q2Qc (1 # 40)) 0 = Undef.
Proof. exists (qs [0; 5; 4; 0]%Z). vm_compute. reflexivity. Qed.
(** refuted for an empty region *)
Theorem c60_empty_region_refuted fT fP roi : deriv_candidates [] fT fP roi = Throw RangeExn.
Proof. reflexivity. Qed.
Print Assumptions c60_derivative_candidates_partial. Print Assumptions c60_late_region_refuted. Print Assumptions c60_default_ticks_refuted. Print Assumptions c60_empty_region_refuted.

(* ------------------------------------------------------------ C61 *)
Lemma linked_snoc {A} (R : A -> A -> Prop) l c d : linked R (l ++ [c]) -> R c d -> linked R ((l ++ [c]) ++ [d]).
Proof. induction l as [|x l IH]; intros H1 H2; [cbn; auto|]. destruct l as [|y l]; cbn in *; [tauto|]. destruct H1 as [H1 H3]. split; [exact H1|apply IH; assumption]. Qed.
Lemma linked_snoc' {A} (R : A -> A -> Prop) (l : list A) d : linked R l -> (forall c l0, l = l0 ++ [c] -> R c d) -> linked R (l ++ [d]).
Proof. intros H1 H2. destruct l as [|x l] using rev_ind; [exact Logic.I|]. apply linked_snoc; [exact H1|eapply H2; reflexivity]. Qed.
Section Merge.
Variables (minH : Qc) (gap : nat).
Definition kept (c : cand) : bool := if Qclt_le_dec minH (h_height c) then true else false.
Definition close (c d : cand) : Prop := h_start d <= h_stop c + gap.
Definition far (g g' : list cand) : Prop := exists g0 c d g1, g = g0 ++ [c] /\ g' = d :: g1 /\ h_stop c + gap < h_start d.
Lemma merge_ok : forall l done grp last done' grp' last',
  fold_left (merge_step minH gap) l (done, grp, last) = (done', grp', last') ->
  Forall (fun g => g <> [] /\ linked close g) done -> linked far done -> linked close grp -> (forall g0 c, grp = g0 ++ [c] -> last = h_stop c) -> (grp = [] -> done = []) -> (forall g0 g d r, done = g0 ++ [g] -> grp = d :: r -> far g grp) ->
  concat done' ++ grp' = concat done ++ grp ++ filter kept l /\ Forall (fun g => g <> [] /\ linked close g) done' /\ linked far done' /\ linked close grp' /\ (grp' = [] -> done' = []) /\ (forall g0 g d r, done' = g0 ++ [g] -> grp' = d :: r -> far g grp').
Proof.
  induction l as [|c l IH]; intros done grp last done' grp' last' E F1 L1 L2 HL Hn Hf; cbn [fold_left filter] in *.
  - injection E as <- <- <-. rewrite app_nil_r. split; [reflexivity|]. split; [exact F1|]. split; [exact L1|]. split; [exact L2|]. split; [exact Hn|exact Hf].
  - unfold merge_step at 2 in E. unfold kept at 1. unfold qc_lt in E. destruct (Qclt_le_dec minH (h_height c)) as [K|K]; [|apply (IH _ _ _ _ _ _ E); assumption].
    destruct (Nat.ltb_spec (last + gap) (h_start c)) as [G|G]; cbn [andb] in E.
    + destruct grp as [|d0 gr] eqn:Eg; cbn [negb] in E.
      * rewrite (Hn eq_refl) in *. apply IH in E; [|assumption|exact Logic.I|exact Logic.I| |intros X; discriminate X|intros [|] g d r X; discriminate X].
        -- destruct E as (E & R). split; [|exact R]. rewrite E. reflexivity.
        -- intros g0 x X. destruct g0 as [|? [|]]; try discriminate X. injection X as <-. reflexivity.
      * apply IH in E.
        -- destruct E as (E & R). split; [|exact R]. rewrite E, concat_app. cbn [concat]. rewrite app_nil_r, <- !app_assoc. reflexivity.
        -- apply Forall_app. split; [exact F1|]. constructor; [|constructor]. split; [discriminate|exact L2].
        -- apply linked_snoc'; [exact L1|]. intros g l0 X. eapply Hf; [exact X|reflexivity].
        -- exact Logic.I.
        -- intros g0 x X. destruct g0 as [|? [|]]; try discriminate X. injection X as <-. reflexivity.
        -- intros X; discriminate X.
        -- intros g0 g d r X _. apply app_inj_tail in X. destruct X as [_ <-]. destruct (@exists_last _ (d0 :: gr) ltac:(discriminate)) as (g1 & z & Ez). exists g1, z, c, []. split; [exact Ez|]. split; [reflexivity|]. rewrite <- (HL _ _ Ez). exact G.
    + assert (HL' : forall g0 x, grp ++ [c] = g0 ++ [x] -> h_stop c = h_stop x) by (intros g0 x X; apply app_inj_tail in X; destruct X as [_ ->]; reflexivity).
      assert (Hl2 : linked close (grp ++ [c])). { apply linked_snoc'; [exact L2|]. intros x l0 X. unfold close. rewrite <- (HL _ _ X). exact G. }
      apply IH in E; [|exact F1|exact L1|exact Hl2|exact HL'|intros X; destruct grp; discriminate X|].
      * destruct E as (E & R). split; [|exact R]. rewrite E, <- !app_assoc. reflexivity.
      * intros g0 g d r X Y. destruct grp as [|d1 gr]; [specialize (Hn eq_refl); subst done; destruct g0; discriminate X|]. destruct (Hf g0 g d1 gr X eq_refl) as (a0 & a & b & b1 & A1 & A2 & A3). injection A2 as <- <-. exists a0, a, d1, (gr ++ [c]). split; [exact A1|]. split; [reflexivity|exact A3].
Qed.
(** C61: the groups split the candidates above the minimum height, in order; inside a group the next candidate starts at most [gap] ticks behind
    the end of the one before, between groups later *)
Theorem c61_merge cs : let groups := merge_cands minH gap cs in
  concat groups = filter kept cs /\ (forall g, In g groups -> g <> [] /\ linked close g) /\ linked far groups.
Proof.
  unfold merge_cands. destruct cs as [|c0 cs]; [split; [reflexivity|]; split; [intros g []|exact Logic.I]|]. destruct (fold_left _ _ _) as [[done grp] last] eqn:E. apply merge_ok in E; [|constructor|exact Logic.I|exact Logic.I|intros [|] x X; discriminate X|reflexivity|intros [|] g d r X; discriminate X].
  cbn [concat app] in E. destruct E as (E & F & L1 & L2 & Hn & Hf). rewrite Forall_forall in F. destruct grp as [|d gr].
  - rewrite app_nil_r in E. split; [exact E|]. split; [exact F|exact L1].
  - split; [rewrite concat_app; cbn [concat]; rewrite app_nil_r; exact E|]. split.
    + intros g Hg. apply in_app_or in Hg. destruct Hg as [Hg|[<-|[]]]; [apply F, Hg|split; [discriminate|exact L2]].
    + apply linked_snoc'; [exact L1|]. intros g l0 X. eapply Hf; [exact X|reflexivity].
Qed.
End Merge.
Print Assumptions c61_merge.
(* ------------------------------------------------------------ non-vacuity *)
Definition show (c : cand) := (h_start c, h_maxT c, h_center c, h_minT c, h_stop c).
Example ex_deriv : match deriv_candidates (qs [0; 0; 0; 2; 6; 9; 6; 2; 0; 0; 0; 0; 3; 8; 10; 7; 3; 0; 0]%Z) 1 (Q2Qc (1 # 4)) 0 with Ok (Some l) => map (fun c => (show c, this (h_height c))) l | _ => [] end
  = [((1, 3, 5, 7, 9), 9%Q); ((10, 12, 14, 16, 18), 10%Q)].
Proof. vm_compute. reflexivity. Qed.
Definition cd (a b : nat) (h : Z) : cand := mkCand a b a b 0%Qc 0%Qc a 0%Qc (Q2Qc (inject_Z h)).
Example ex_merge : map (map (fun c => (h_start c, h_stop c))) (merge_cands (Q2Qc 2) 6 [cd 0 3 1; cd 5 9 5; cd 15 18 4; cd 19 20 1; cd 25 30 9; cd 30 33 9]) = [[(5, 9); (15, 18)]; [(25, 30); (30, 33)]].
Proof. vm_compute. reflexivity. Qed.
