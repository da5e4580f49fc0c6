(** Filter: of the points with the same last hit the one of lowest chisquare *)
From Coq Require Import QArith Qcanon Lqa.
From Verif Require Import Base QcUtil SortUtil Solver_Model Solver_Proofs SPS_Model SPA_Model SPA_Spec SPA_Fit SPA_Runs SPA_Loop SPA_Ids SPA_Make SPA_Out.
Import SPA_Model SPA_Ids.
Local Open Scope nat_scope.

Lemma best_spec k mm :
  match best k mm with
  | None => forall q, ~ In (k, q) mm
  | Some p => In (k, p) mm /\ forall q, In (k, q) mm -> (sp_chi p <= sp_chi q)%Qc
  end.
Proof.
  unfold best.
  set (f := fun (b : option sp) (e : nat * sp) => if fst e =? k then match b with None => Some (snd e) | Some p => if qc_lt (sp_chi (snd e)) (sp_chi p) then Some (snd e) else b end else b).
  assert (G : forall pre b l, match b with None => forall q, ~ In (k, q) pre | Some p => In (k, p) pre /\ forall q, In (k, q) pre -> (sp_chi p <= sp_chi q)%Qc end ->
    match fold_left f l b with None => forall q, ~ In (k, q) (pre ++ l) | Some p => In (k, p) (pre ++ l) /\ forall q, In (k, q) (pre ++ l) -> (sp_chi p <= sp_chi q)%Qc end).
  { intros pre b l. revert pre b. induction l as [|[k' q] l IH]; intros pre b H; cbn [fold_left]; [rewrite app_nil_r; exact H|].
    replace (pre ++ (k', q) :: l) with ((pre ++ [(k', q)]) ++ l) by (rewrite <- app_assoc; reflexivity). apply IH. unfold f. cbn [fst snd].
    destruct (Nat.eqb_spec k' k) as [->|D].
    - destruct b as [p|].
      + destruct H as (H1 & H2). destruct (qc_lt (sp_chi q) (sp_chi p)) eqn:Q.
        * apply qc_lt_spec in Q. split; [apply in_or_app; right; left; reflexivity|]. intros q' I. apply in_app_or in I as [I|[I|[]]]; [specialize (H2 q' I); apply Qclt_le_weak; eapply Qclt_le_trans; eassumption|injection I as <-; apply Qcle_refl].
        * apply qc_lt_false in Q. split; [apply in_or_app; left; exact H1|]. intros q' I. apply in_app_or in I as [I|[I|[]]]; [apply H2; exact I|injection I as <-; exact Q].
      + split; [apply in_or_app; right; left; reflexivity|]. intros q' I. apply in_app_or in I as [I|[I|[]]]; [exfalso; exact (H q' I)|injection I as <-; apply Qcle_refl].
    - destruct b as [p|].
      + destruct H as (H1 & H2). split; [apply in_or_app; left; exact H1|]. intros q' I. apply in_app_or in I as [I|[I|[]]]; [apply H2; exact I|injection I as X _; congruence].
      + intros q' I. apply in_app_or in I as [I|[I|[]]]; [exact (H q' I)|injection I as X _; congruence]. }
  exact (G [] None mm (fun q X => X)).
Qed.

Definition pick (mm : list (nat * sp)) (k : nat) : list sp := match best k mm with Some p => [p] | None => [] end.
Definition fin_filter (s : st) : list sp := flat_map (pick (s_mm s)) (s_keys s).

Lemma key_best g D s k : inv g D s -> In k (s_keys s) -> exists p, best k (s_mm s) = Some p.
Proof.
  intros I K. pose proof (best_spec k (s_mm s)) as B. destruct (best k (s_mm s)) as [p|]; [eauto|]. exfalso.
  apply (i_keys_in _ _ _ I), in_map_iff in K as (hs & E & K). apply in_rev in K. rewrite <- (i_hits _ _ _ I) in K. apply in_map_iff in K as ((id & hs') & X & K). cbn in X. subst hs'.
  apply (B (simple_point g hs id)). apply (Permutation_in _ (Permutation_sym (i_mm _ _ _ I))), in_map_iff. exists (id, hs). split; [unfold entry; cbn [fst snd]; rewrite E; reflexivity|exact K].
Qed.
Lemma filter_fin g c : filt c = true -> forall D s, inv g D s -> finish g c s = Ok (St (s_map s) (s_mm s) (s_keys s) (s_out s ++ fin_filter s)).
Proof.
  intros F D s I. unfold finish. rewrite F. unfold do_filter, fin_filter.
  assert (K : forall k, In k (s_keys s) -> exists p, best k (s_mm s) = Some p) by (intros k; apply (key_best g D s k I)).
  revert K. generalize (s_keys s) at 1 2 4 as ks.
  assert (G : forall ks o, (forall k, In k ks -> exists p, best k (s_mm s) = Some p) ->
    foreach ks (fun s k => match best k (s_mm s) with None => Throw UserExn | Some p => Ok (St (s_map s) (s_mm s) (s_keys s) (s_out s ++ [p])) end) (St (s_map s) (s_mm s) (s_keys s) o)
    = Ok (St (s_map s) (s_mm s) (s_keys s) (o ++ flat_map (pick (s_mm s)) ks))).
  { induction ks as [|k ks IH]; intros o K; cbn [foreach flat_map]; [rewrite app_nil_r; reflexivity|]. cbn [s_mm s_map s_keys s_out]. destruct (K k (or_introl eq_refl)) as (p & E). unfold pick at 1. rewrite E. cbn [obind].
    rewrite IH by (intros k' K'; apply K; right; exact K'). rewrite <- app_assoc. reflexivity. }
  intros ks K. destruct s as [m mm ks0 o]. apply (G ks o K).
Qed.

Lemma tpc_index g c hits : forall vis L, NoDup (map fst vis) -> Forall2 (does g c hits) vis L -> forall k k' w w' hs hs' h,
  nth_error L k = Some w -> nth_error L k' = Some w' -> In hs (both w) -> In hs' (both w') -> In h hs -> In h hs' -> k = k'.
Proof.
  intros vis L N F k k' w w' hs hs' h Hk Hk' I I' J J'. destruct (F2_nth _ _ _ F _ _ Hk) as (v & Hv & D). destruct (F2_nth _ _ _ F _ _ Hk') as (v' & Hv' & D').
  destruct (does_at _ _ _ _ _ hs h D I J) as (A & B & _). destruct (does_at _ _ _ _ _ hs' h D' I' J') as (A' & B' & _).
  rewrite NoDup_nth_error in N. apply N; [rewrite map_length; apply nth_error_Some; congruence|]. rewrite !nth_error_map, Hv, Hv'. cbn. destruct v as [[v1 v2] v3], v' as [[v1' v2'] v3']. cbn in *. congruence.
Qed.

Lemma last_id_snoc pre d : last_id (pre ++ [d]) = hid d.
Proof. unfold last_id. rewrite last_last. reflexivity. Qed.
Lemma snoc_of {A} (l : list A) : l <> [] -> exists pre d, l = pre ++ [d].
Proof. intros N. destruct (exists_last N) as (pre & d & E). eauto. Qed.
Lemma hid_inj g hits a b : placed g hits -> In a hits -> In b hits -> hid a = hid b -> a = b.
Proof.
  intros (N & _) A B E. apply In_nth_error in A as (i & A). apply In_nth_error in B as (j & B). assert (i = j); [|congruence].
  rewrite NoDup_nth_error in N. apply N; [rewrite map_length; apply nth_error_Some; congruence|]. rewrite !nth_error_map, A, B. cbn. congruence.
Qed.

Theorem make_filtered g c hits vis : regular g -> placed g hits -> (forall h, In h hits -> (0 < hsig h)%Qc) -> visited (g_shape g) 0 vis -> filt c = true ->
  exists Cs, Forall2 (combinations g c hits) vis Cs /\
    (late_triplet Cs -> make g c hits = Throw UserExn) /\
    (~ late_triplet Cs -> exists out m, make g c hits = Ok (out, m) /\ single m /\ Permutation (map snd m) (concat Cs) /\
      (forall p, In p out -> exists pre d, hits_of m p (pre ++ [d]) /\ fitted g (fun _ => 1%Qc) (pre ++ [d]) p /\
        forall pre' t, In (pre' ++ [d]) (concat Cs) -> (sp_chi p <= time_chi2 g (fun _ => 1%Qc) (pre' ++ [d]) t)%Qc) /\
      forall k C pre d, nth_error Cs k = Some C -> In (pre ++ [d]) C -> counts (ends_with m d) out (length vis - k)).
Proof.
  intros R Pl Po V Fc. destruct (make_eq g c hits vis R Pl V) as (L & F & E). exists (map both L). split; [apply F2_combos; exact F|].
  assert (Sa : forall w, In w L -> sane w) by (intros w W; destruct (does_all _ _ _ _ _ F w W) as (v & _ & D); exact (does_sane _ _ _ _ _ D)).
  assert (Len : length vis = length L) by (clear -F; induction F; cbn; congruence).
  pose proof (visited_fst_nodup _ _ _ V) as Nv. pose proof (all_nodup g c hits vis L Nv F) as Nd.
  assert (In1 : forall w hs, In w L -> In hs (both w) -> incl hs hits /\ hs <> []).
  { intros w hs W I. destruct (does_all _ _ _ _ _ F w W) as (v & _ & D). split; [intros h H; apply (does_at _ _ _ _ _ hs h D I H)|]. intros ->. pose proof (no_hit_two w (Sa w W) [] I) as X. cbn in X. lia. }
  rewrite <- (late_eq _ _ _ _ _ F). split.
  - intros La. rewrite E, (steps_throw g c fin_filter (filter_fin g c Fc) L [] s0 false (inv0 g) ids0 Sa La). reflexivity.
  - intros La. destruct (steps_ok g c fin_filter (filter_fin g c Fc)) with (L := L) (D := @nil (list hit)) (s := s0) (seen := false) as (s' & snaps & E' & I' & Ln & O' & Sp);
      [intros s1 s2 X Y; unfold fin_filter; rewrite X, Y; reflexivity|apply inv0|apply ids0|exact Sa|exact La|].
    cbn [app] in *. exists (s_out s'), (s_map s'). split; [rewrite E, E'; reflexivity|]. pose proof (i_single _ _ _ I') as Sg. split; [exact Sg|]. cbn [s0 s_out app] in O'.
    split; [rewrite (i_hits _ _ _ I'), concat_map_both; apply Permutation_sym, Permutation_rev|].
    (* the point of a key in one transfer *)
    assert (Pk : forall i sn k p, nth_error snaps i = Some sn -> In (k, p) (s_mm sn) -> exists id pre d w, p = simple_point g (pre ++ [d]) id /\ In (id, pre ++ [d]) (s_map sn) /\ k = hid d /\ In d hits /\
      In (pre ++ [d]) (flat_map both (firstn (S i) L)) /\ In w L /\ In (pre ++ [d]) (both w)).
    { intros i sn k p J I. destruct (Sp i sn J) as (Ii & _). apply (Permutation_in _ (i_mm _ _ _ Ii)), in_map_iff in I as ((id & hs) & X & I). unfold entry in X. cbn [fst snd] in X. injection X as Xk Xp.
      assert (Ih : In hs (flat_map both (firstn (S i) L))) by (apply (in_map snd) in I; cbn in I; rewrite (i_hits _ _ _ Ii) in I; apply in_rev in I; exact I).
      pose proof (flat_firstn_incl both (S i) L hs Ih) as Ig. apply in_flat_map in Ig as (w & W & Iw). destruct (In1 w hs W Iw) as (Ic & Ne). destruct (snoc_of hs Ne) as (pre & d & ->).
      rewrite last_id_snoc in Xk. exists id, pre, d, w. repeat (split; [first [assumption|symmetry; assumption|apply Ic, in_or_app; right; left; reflexivity]|]). exact Iw. }
    split.
    + intros p I. rewrite O' in I. apply in_flat_map in I as (sn & J & I). apply In_nth_error in J as (i & J). destruct (Sp i sn J) as (Ii & m2 & Em).
      unfold fin_filter in I. apply in_flat_map in I as (k & K & I). unfold pick in I. pose proof (best_spec k (s_mm sn)) as B. destruct (best k (s_mm sn)) as [p'|]; [|destruct I]. destruct I as [->|[]]. destruct B as (B1 & B2).
      destruct (Pk i sn k p J B1) as (id & pre & d & w & -> & Im & -> & Hd & If & W & Iw). exists pre, d.
      split; [apply hits_of_simple; [exact Sg|rewrite Em; apply in_or_app; right; exact Im|reflexivity]|]. destruct (In1 w _ W Iw) as (Ic & Ne). split; [apply (simple_fitted g hits); assumption|].
      intros pre' t Ip. rewrite concat_map_both in Ip. apply in_flat_map in Ip as (w' & W' & Iw'). destruct (In1 w' _ W' Iw') as (Ic' & Ne').
      apply In_nth_error in W as (kw & Hk). apply In_nth_error in W' as (kw' & Hk').
      assert (kw = kw') by (apply (tpc_index g c hits vis L Nv F kw kw' w w' _ _ d Hk Hk' Iw Iw'); apply in_or_app; right; left; reflexivity). subst kw'. assert (w' = w) by congruence. subst w'.
      apply (firstn_flat_in both L i kw w _ Hk Iw Nd) in If. apply (firstn_flat_in both L i kw w _ Hk Iw' Nd) in If.
      apply in_rev in If. rewrite <- (i_hits _ _ _ Ii) in If. apply in_map_iff in If as ((id' & hs') & X & If). cbn in X. subst hs'.
      assert (Im' : In (hid d, simple_point g (pre' ++ [d]) id') (s_mm sn)). { apply (Permutation_in _ (Permutation_sym (i_mm _ _ _ Ii))), in_map_iff. exists (id', pre' ++ [d]). split; [unfold entry; cbn [fst snd]; rewrite last_id_snoc; reflexivity|exact If]. }
      specialize (B2 _ Im'). destruct (f_time _ _ _ _ (simple_fitted g hits (pre' ++ [d]) id' R Po Ic' Ne')) as (t0 & _ & Ec & Mn). rewrite Ec in B2. eapply Qcle_trans; [exact B2|apply Mn].
    + intros k C pre d Hk I. rewrite nth_error_map in Hk. destruct (nth_error L k) as [w|] eqn:Ek; [|discriminate]. injection Hk as <-.
      assert (Hd : In d hits) by (apply (In1 w _ (nth_error_In _ _ Ek) I), in_or_app; right; left; reflexivity).
      rewrite O', Len, <- Ln. apply counts_tail; [rewrite Ln; apply Nat.lt_le_incl, nth_error_Some; congruence|]. intros i sn J. destruct (Sp i sn J) as (Ii & m2 & Em). cbn [app] in Ii.
      assert (Ke : In (hid d) (s_keys sn) <-> k <= i).
      { rewrite (i_keys_in _ _ _ Ii), in_map_iff. split.
        - intros (hs & X & Ih). pose proof (flat_firstn_incl both (S i) L hs Ih) as Ig. apply in_flat_map in Ig as (w' & W' & Iw'). destruct (In1 w' hs W' Iw') as (Ic' & Ne'). destruct (snoc_of hs Ne') as (pre' & d' & ->).
          rewrite last_id_snoc in X. assert (d' = d) by (apply (hid_inj g hits); [exact Pl|apply Ic', in_or_app; right; left; reflexivity|exact Hd|exact X]). subst d'.
          apply In_nth_error in W' as (k' & Hk'). assert (k = k') by (apply (tpc_index g c hits vis L Nv F k k' w w' _ _ d Ek Hk' I Iw'); apply in_or_app; right; left; reflexivity). subst k'.
          apply (firstn_flat_in both L i k w' _ Hk' Iw' Nd). exact Ih.
        - intros X. exists (pre ++ [d]). split; [apply last_id_snoc|]. apply (firstn_flat_in both L i k w _ Ek I Nd). exact X. }
      assert (Kc : counts (fun x => x = hid d) (s_keys sn) (if k <=? i then 1 else 0)).
      { replace (if k <=? i then 1 else 0) with (count_occ Nat.eq_dec (s_keys sn) (hid d)); [apply counts_eq|].
        destruct (Nat.leb_spec k i) as [K|K]; [apply NoDup_count_occ'; [apply sorted_nodup, (i_keys _ _ _ Ii)|apply Ke; exact K]|apply count_occ_not_In; intros X; apply Ke in X; lia]. }
      unfold fin_filter. assert (Kb : forall x, In x (s_keys sn) -> exists p, best x (s_mm sn) = Some p) by (intros x; apply (key_best g _ sn x Ii)).
      clear - Kc Kb Pk J Em Sg Pl Hd. induction Kc as [|x l n X Kc IH|x l n X Kc IH]; cbn [flat_map]; [constructor| |].
      * change (S n) with (1 + n). apply counts_app; [|apply IH; intros y Y; apply Kb; right; exact Y]. destruct (Kb x (or_introl eq_refl)) as (p & Ep). unfold pick. pose proof (best_spec x (s_mm sn)) as B. rewrite Ep in B |- *.
        constructor; [|constructor]. destruct (Pk i sn x p J (proj1 B)) as (id & pre' & d' & w' & -> & Im & Xd & Hd' & _). assert (d' = d) by (apply (hid_inj g hits); [exact Pl|exact Hd'|exact Hd|congruence]). subst d'.
        exists pre'. apply hits_of_simple; [exact Sg|rewrite Em; apply in_or_app; right; exact Im|reflexivity].
      * change n with (0 + n). apply counts_app; [|apply IH; intros y Y; apply Kb; right; exact Y]. destruct (Kb x (or_introl eq_refl)) as (p & Ep). unfold pick. pose proof (best_spec x (s_mm sn)) as B. rewrite Ep in B |- *.
        apply cno; [|constructor]. destruct (Pk i sn x p J (proj1 B)) as (id & pre' & d' & w' & -> & Im & Xd & Hd' & _). intros (pre2 & Y). apply hits_of_simple in Y; [|exact Sg|rewrite Em; apply in_or_app; right; exact Im].
        apply app_inj_tail in Y as (_ & <-). congruence.
Qed.
