(** Properties C10-C12, C43: cmtool::CMatchBookKeeper and cmtool::CMatchManager. *)
From Coq Require Import ZifyNat.
From Verif Require Import Base Util MultiMap CMergeBK_Model CMgr_Model CMgr_Spec CMgr_Proofs
  CMatchBK_Model CMatchBK_Spec CMatchBK_Proofs CMComb_Model CMComb_Spec CMComb_Proofs
  CMatch_Model CMatch_Spec CMatch_Proofs CMatch_Process.

(** C10 *)
Theorem match_book_keeper_is_greedy :
  forall ops : list match_op,
  (forall s i, In s (registered [] ops) -> In i (snd s) -> (Z.of_nat i < 4294967295)%Z) ->
  exists res, match_result (match_run reg_reset ops) = Ok res /\ greedy_selection (registered [] ops) res.
Proof.
  intros ops H. pose proof (registered_run ops []) as E. simpl in E. unfold reg_reset. rewrite E.
  apply greedy_ok. intros s i Hs Hi. specialize (H s i Hs Hi). unfold fits. lia.
Qed.
Print Assumptions match_book_keeper_is_greedy.

Example ex_greedy :
  let ops := [OpMatch [9] 9%Z; OpReset; OpMatch [0; 3] 2%Z; OpMatch [1; 3] 5%Z; OpMatch [0; 4] 2%Z; OpMatch [1; 7] 1%Z; OpMatch [6; 6] 1%Z] in
  match_result (match_run reg_reset ops) = Ok [[1; 3]; [0; 4]; [6; 6]].
Proof. vm_compute. reflexivity. Qed.

(** the greedy selection is unique, so the theorem above determines the result *)
Theorem greedy_selection_unique :
  forall h res res', greedy_selection h res -> greedy_selection h res' -> res = res'.
Proof.
  intros h res res' (sel & E & B & S & D & C) (sel' & E' & B' & S' & D' & C'). subst. f_equal.
  assert (Hirr : forall p, ~ preferred h p p) by (intros p; unfold preferred; lia).
  assert (Htr : forall p q r, preferred h p q -> preferred h q r -> preferred h p r) by (unfold preferred; intros; lia).
  (* membership agrees, by strong induction on the precedence *)
  assert (Hmem : forall n p, p < length h -> length (filter (fun q => if (score_at h q >? score_at h p)%Z then true else (score_at h q =? score_at h p)%Z && (p <? q)) (seq 0 (length h))) <= n ->
     (In p sel <-> In p sel')).
  { induction n as [n IH] using lt_wf_ind. intros p Hp Hn.
    assert (Hlt : forall q, q < length h -> preferred h q p -> (In q sel <-> In q sel')).
    { intros q Hq Hqp. 
      set (f := fun p q => if (score_at h q >? score_at h p)%Z then true else (score_at h q =? score_at h p)%Z && (p <? q)) in *.
      change (length (filter (f p) (seq 0 (length h))) <= n) in Hn.
      assert (Hf : forall a b, f a b = true <-> preferred h b a).
      { intros a b. unfold f, preferred. destruct (Z.gtb_spec (score_at h b) (score_at h a)); [split; [intros; left; lia|reflexivity]|].
        rewrite andb_true_iff, Z.eqb_eq, Nat.ltb_lt. lia. }
      assert (Hlen : length (filter (f q) (seq 0 (length h))) < length (filter (f p) (seq 0 (length h)))).
      { assert (I : incl (q :: filter (f q) (seq 0 (length h))) (filter (f p) (seq 0 (length h)))).
        { intros x [<-|Hx]; apply filter_In; [split; [apply in_seq; lia|apply Hf; exact Hqp]|].
          apply filter_In in Hx. destruct Hx as [Hx1 Hx2]. split; [exact Hx1|]. apply Hf. apply Hf in Hx2. eapply Htr; eassumption. }
        assert (N : NoDup (q :: filter (f q) (seq 0 (length h)))).
        { constructor; [|apply NoDup_filter, seq_NoDup]. intros Hx. apply filter_In in Hx. destruct Hx as [_ Hx]. apply Hf in Hx. exact (Hirr q Hx). }
        pose proof (NoDup_incl_length N I) as K. simpl in K. lia. }
      apply (IH (length (filter (f q) (seq 0 (length h))))); [lia|exact Hq|apply le_n]. }
    split; intros Hi.
    - destruct (in_dec Nat.eq_dec p sel') as [|N]; [assumption|exfalso].
      destruct (C' p Hp N) as (q & Q1 & Q2 & Q3). apply Hlt in Q1; [|apply B', Q1|exact Q2].
      assert (p <> q) by (intros ->; exact (Hirr q Q2)). apply (D q p Q1 Hi); [congruence|exact Q3].
    - destruct (in_dec Nat.eq_dec p sel) as [|N]; [assumption|exfalso].
      destruct (C p Hp N) as (q & Q1 & Q2 & Q3). apply Hlt in Q1; [|apply B, Q1|exact Q2].
      assert (p <> q) by (intros ->; exact (Hirr q Q2)). apply (D' q p Q1 Hi); [congruence|exact Q3]. }
  assert (Hm : forall p, In p sel <-> In p sel').
  { intros p. split; intros H; (eapply Hmem; [|apply le_n|exact H]); auto. }
  clear - S S' Hm Hirr Htr. revert sel' S' Hm. induction sel as [|a sel IH]; intros sel' S' Hm.
  - destruct sel' as [|b sel']; [reflexivity|]. exfalso. apply (Hm b). left; reflexivity.
  - destruct sel' as [|b sel']; [exfalso; apply (Hm a); left; reflexivity|].
    inversion S as [|? ? S1 F1]; subst. inversion S' as [|? ? S2 F2]; subst. rewrite Forall_forall in F1, F2.
    assert (E : a = b).
    { destruct (proj1 (Hm a) (or_introl eq_refl)) as [E|Ha]; [auto|]. destruct (proj2 (Hm b) (or_introl eq_refl)) as [E|Hb]; [auto|].
      exfalso. apply (Hirr a). eapply Htr; [apply (F1 b Hb)|apply (F2 a Ha)]. }
    subst b. f_equal. apply IH; [assumption|assumption|]. intros x. split; intros Hx.
    + destruct (proj1 (Hm x) (or_intror Hx)) as [<-|K]; [|exact K]. exfalso. exact (Hirr a (F1 a Hx)).
    + destruct (proj2 (Hm x) (or_intror Hx)) as [<-|K]; [|exact K]. exfalso. exact (Hirr a (F2 a Hx)).
Qed.
Print Assumptions greedy_selection_unique.

(** C11 *)
Theorem combinations_are_complete_and_unique :
  forall seed : list nat, length seed <= 33 -> (forall s, In s seed -> 0 < s) ->
  exists res, plane_cluster_combinations seed = Ok res /\
    NoDup res /\
    (forall c, In c res <-> plane_choice seed c) /\
    StronglySorted (fun a b : list (nat * nat) => length b <= length a) res.
Proof.
  intros seed H33 Hp. assert (F : Forall (fun s => 0 < s) seed) by (apply Forall_forall; exact Hp).
  destruct (plane_loop_ok seed F H33 (length seed) 0 [] ltac:(lia)) as (new & E & N & I & S).
  exists new. unfold plane_cluster_combinations, range. rewrite Nat.sub_0_r. split; [exact E|]. split; [exact N|]. split; [|exact S].
  intros c. rewrite I. split; [tauto|]. intros Hc. split; [exact Hc|]. rewrite Nat.sub_0_r.
  destruct Hc as (_ & Sc & B).
  assert (ND : NoDup (map fst c)).
  { clear - Sc. induction (map fst c) as [|x l IH]; [constructor|]. inversion Sc as [|? ? S1 F]; subst. constructor; [|auto].
    intros Hx. rewrite Forall_forall in F. specialize (F x Hx). lia. }
  assert (In' : incl (map fst c) (seq 0 (length seed))).
  { intros p Hp'. apply in_map_iff in Hp'. destruct Hp' as ([q k] & <- & Hq). apply in_seq. simpl. destruct (B q k Hq). lia. }
  pose proof (NoDup_incl_length ND In') as K. rewrite map_length, seq_length in K. exact K.
Qed.
Print Assumptions combinations_are_complete_and_unique.

Example ex_comb : plane_cluster_combinations [2; 1; 2] =
  Ok [[(0,0);(1,0);(2,0)]; [(0,0);(1,0);(2,1)]; [(0,1);(1,0);(2,0)]; [(0,1);(1,0);(2,1)];
      [(1,0);(2,0)]; [(1,0);(2,1)];
      [(0,0);(2,0)]; [(0,0);(2,1)]; [(0,1);(2,0)]; [(0,1);(2,1)];
      [(0,0);(1,0)]; [(0,1);(1,0)]].
Proof. vm_compute. reflexivity. Qed.

(** with 34 or more planes the reserve() argument divides by 34! = 0 modulo 2^32 *)
Theorem combinations_of_34_planes_are_undefined :
  forall seed : list nat, 34 <= length seed -> plane_cluster_combinations seed = Undef.
Proof.
  intros seed H. unfold plane_cluster_combinations, range.
  destruct (length seed) as [|n] eqn:E; [lia|]. cbn [Nat.sub seq plane_loop]. rewrite E.
  destruct (Nat.ltb_spec (S n) (2 + 0)); [lia|]. rewrite Nat.sub_0_r. unfold simple_combination.
  destruct (Nat.eqb_spec (S n) 0); [lia|]. cbn [orb]. rewrite Nat.ltb_irrefl.
  rewrite (fact32_big (S n)) by lia. rewrite Z.eqb_refl, orb_true_r. reflexivity.
Qed.
Print Assumptions combinations_of_34_planes_are_undefined.

(** a plane without clusters still contributes the non-existing cluster 0 *)
Theorem combinations_with_an_empty_plane_refuted :
  exists seed res c, plane_cluster_combinations seed = Ok res /\ In c res /\ ~ plane_choice seed c.
Proof.
  exists [1; 0], [[(0, 0); (1, 0)]], [(0, 0); (1, 0)]. split; [vm_compute; reflexivity|]. split; [left; reflexivity|].
  intros (_ & _ & B). specialize (B 1 0 (or_intror (or_introl eq_refl))). simpl in B. lia.
Qed.

(** C12 (general form): with the register holding earlier registrations [h] *)
Theorem match_manager_is_greedy :
  forall (hit extra W : Type) (cfg : config hit extra W) (alg : W -> list (cluster hit extra) -> W * Z)
    (nplanes : nat) (m : mmgr hit extra W) (h : list (Z * list nat)),
  nplanes <= 33 -> (Z.of_nat (length (mm_in m)) < 4294967295)%Z ->
  mm_reg m = register_of h -> (forall s i, In s h -> In i (snd s) -> (Z.of_nat i < 4294967295)%Z) ->
  let w0 := hook cfg (hook cfg (mm_w m) (mm_in m)) (mm_in m) in
  let prio := snd (prio_vals cfg w0 (mm_in m)) in
  (forall i, i < length (mm_in m) -> (0 < nth i prio 0)%Z -> (0 <= plane_of (mm_in m) i < Z.of_nat nplanes)%Z) ->
  exists m' cands res,
    let scores := snd (answers alg (mm_in m) (fst (prio_vals cfg w0 (mm_in m))) cands) in
    let qs := List.combine cands scores in
    match_process nplanes (Some alg) cfg m = Ok (m', qs) /\
    NoDup cands /\ (forall s, In s cands <-> match_candidate (mm_in m) prio s) /\
    match_result (mm_reg m') = Ok res /\
    greedy_selection (h ++ map (fun q => (snd q, fst q)) (filter (fun q => 0 <? snd q)%Z qs)) res.
Proof.
  intros hit extra W cfg alg nplanes m h Hnp Hbig Hreg Hh w0 prio Hgood.
  destruct (iteration_match cfg alg nplanes Hnp (mkMM (mm_in m) (mm_reg m) w0) Hbig Hgood) as (cands & w' & E & N & Hc).
  cbn [mm_in mm_reg mm_w] in E, Hc. fold prio in Hc.
  set (qs := List.combine cands (snd (answers alg (mm_in m) (fst (prio_vals cfg w0 (mm_in m))) cands))) in *.
  destruct (greedy_ok (h ++ positives qs)) as (res & R & G).
  { intros s i Hs Hi. apply in_app_or in Hs. destruct Hs as [Hs|Hs].
    - specialize (Hh s i Hs Hi). unfold fits. lia.
    - unfold positives in Hs. apply in_map_iff in Hs. destruct Hs as ([c x] & <- & Hq). apply filter_In in Hq. destruct Hq as [Hq _].
      apply in_combine_l in Hq. apply Hc in Hq. cbn [snd fst] in Hi. destruct Hq as (_ & _ & B). destruct (B i Hi). unfold fits. lia. }
  rewrite fold_left_app, <- register_of_fold, <- Hreg in R.
  assert (Hcase : mm_in m = [] \/ mm_in m <> []) by (destruct (mm_in m); [left; reflexivity|right; discriminate]).
  destruct Hcase as [Ein|Hne].
  - exists m, [], res. cbv zeta. assert (Ecn : cands = []).
    { destruct cands as [|s cands]; [reflexivity|]. exfalso. destruct (proj1 (Hc s) (or_introl eq_refl)) as (L & _ & B).
      destruct s as [|i s]; [simpl in L; lia|]. destruct (B i (or_introl eq_refl)) as [K _]. rewrite Ein in K. simpl in K. lia. }
    unfold qs in *. clear qs. subst cands. cbn [answers snd List.combine filter map]. split; [unfold match_process; rewrite Ein; reflexivity|]. split; [constructor|]. split; [exact Hc|].
    cbn [answers snd List.combine positives filter map fold_left] in R, G. split; [exact R|exact G].
  - rewrite match_process_ne by exact Hne. fold w0. rewrite E. cbn [obind]. eexists _, cands, res. cbv zeta. fold qs. split; [reflexivity|]. split; [exact N|]. split; [exact Hc|].
    cbn [mm_reg]. split; [exact R|exact G].
Qed.
Print Assumptions match_manager_is_greedy.

(** C12 *)
Theorem matches_are_cross_plane_and_disjoint :
  forall (hit extra W : Type) (cfg : config hit extra W) (alg : W -> list (cluster hit extra) -> W * Z)
    (nplanes : nat) (m : mmgr hit extra W),
  nplanes <= 33 -> (Z.of_nat (length (mm_in m)) < 4294967295)%Z ->
  mm_reg m = reg_reset ->
  let w0 := hook cfg (hook cfg (mm_w m) (mm_in m)) (mm_in m) in
  let prio := snd (prio_vals cfg w0 (mm_in m)) in
  (forall i, i < length (mm_in m) -> (0 < nth i prio 0)%Z -> (0 <= plane_of (mm_in m) i < Z.of_nat nplanes)%Z) ->
  exists m' qs res,
    match_process nplanes (Some alg) cfg m = Ok (m', qs) /\
    match_result (mm_reg m') = Ok res /\
    (forall r, In r res -> match_candidate (mm_in m) prio r /\ exists x, In (r, x) qs /\ (0 < x)%Z) /\
    (forall i r1 r2, In r1 res -> In r2 res -> In i r1 -> In i r2 -> r1 = r2) /\
    NoDup res /\
    (forall s, match_candidate (mm_in m) prio s ->
       exists x, In (s, x) qs /\
         ((0 < x)%Z -> ~ In s res ->
            exists r y, In r res /\ In (r, y) qs /\ (y >= x)%Z /\ share r s)).
Proof.
  intros hit extra W cfg alg nplanes m Hnp Hbig Hreg w0 prio Hgood.
  destruct (match_manager_is_greedy hit extra W cfg alg nplanes m [] Hnp Hbig Hreg ltac:(intros s i []) Hgood)
    as (m' & cands & res & E & N & Hc & R & (sel & Es & B & S & D & C)).
  fold w0 in E, Hc, Es, B, S, D, C. fold prio in Hc.
  set (qs := List.combine cands (snd (answers alg (mm_in m) (fst (prio_vals cfg w0 (mm_in m))) cands))) in *.
  cbn [app] in *. set (h := map (fun q : list nat * Z => (snd q, fst q)) (filter (fun q => (0 <? snd q)%Z) qs)) in *.
  assert (Hsnd : forall s, In s cands -> exists x, In (s, x) qs).
  { intros s Hs. apply (In_nth _ _ []) in Hs. destruct Hs as (k & Lk & <-).
    exists (nth k (snd (answers alg (mm_in m) (fst (prio_vals cfg w0 (mm_in m))) cands)) 0%Z).
    unfold qs. rewrite <- combine_nth by (symmetry; apply answers_length). apply nth_In.
    rewrite combine_length, answers_length. lia. }
  assert (Hh : forall x s, In (x, s) h <-> In (s, x) qs /\ (0 < x)%Z).
  { intros x s. unfold h. rewrite in_map_iff. split.
    - intros ([a b] & Eab & Hf). injection Eab as <- <-. apply filter_In in Hf. cbn [snd] in Hf. rewrite Z.ltb_lt in Hf. exact Hf.
    - intros [A P]. exists (s, x). split; [reflexivity|]. apply filter_In. cbn [snd]. rewrite Z.ltb_lt. auto. }
  assert (Hat : forall p, p < length h -> In (score_at h p, set_at_pos h p) h).
  { intros p Hp. unfold score_at, set_at_pos. rewrite <- surjective_pairing. apply nth_In, Hp. }
  assert (Hinj : forall p q, p < length h -> q < length h -> set_at_pos h p = set_at_pos h q -> p = q).
  { assert (NH : NoDup (map snd h)).
    { unfold h. rewrite map_map. cbn [snd].
      assert (G : forall (cs : list (list nat)) (xs : list Z), NoDup cs -> NoDup (map (fun q => fst q) (filter (fun q => (0 <? snd q)%Z) (List.combine cs xs)))).
      { induction cs as [|c cs IH]; intros [|x xs] Nc; simpl; try constructor. inversion Nc; subst.
        destruct (0 <? x)%Z; simpl; [|apply IH; assumption]. constructor; [|apply IH; assumption].
        rewrite in_map_iff. intros ([a b] & Ea & Hi). cbn [fst] in Ea. subst a. apply filter_In in Hi. destruct Hi as [Hi _]. apply in_combine_l in Hi. contradiction. }
      apply G, N. }
    intros p q Hp Hq Epq. apply (proj1 (NoDup_nth (map snd h) (snd (0%Z, @nil nat))) NH).
    - rewrite map_length; exact Hp.
    - rewrite map_length; exact Hq.
    - rewrite !map_nth. exact Epq. }
  exists m', qs, res. split; [exact E|]. split; [exact R|].
  assert (Hres : forall r, In r res -> exists p, In p sel /\ r = set_at_pos h p).
  { intros r Hr. subst res. apply in_map_iff in Hr. destruct Hr as (p & <- & Hp). exists p; auto. }
  split; [|split; [|split]].
  - intros r Hr. destruct (Hres r Hr) as (p & Hp & ->). pose proof (Hat p (B p Hp)) as Hi. apply Hh in Hi. destruct Hi as [Hi Px].
    split; [apply Hc; unfold qs in Hi; apply in_combine_l in Hi; exact Hi|]. exists (score_at h p). auto.
  - intros i r1 r2 H1 H2 I1 I2. destruct (Hres r1 H1) as (p & Hp & ->). destruct (Hres r2 H2) as (q & Hq & ->).
    destruct (Nat.eq_dec p q) as [->|Npq]; [reflexivity|]. exfalso. apply (D p q Hp Hq Npq). exists i; auto.
  - subst res. apply NoDup_map_inj_in; [intros p q Hp Hq; apply Hinj; apply B; assumption|].
    clear - S. induction sel as [|p sel IH]; [constructor|]. inversion S as [|? ? S1 F]; subst. constructor; [|apply IH, S1].
    intros Hp. rewrite Forall_forall in F. specialize (F p Hp). unfold preferred in F. lia.
  - intros s Hs. apply Hc in Hs. destruct (Hsnd s Hs) as (x & Hx). exists x. split; [exact Hx|]. intros Px Hn.
    assert (Hin : In (x, s) h) by (apply Hh; auto). apply (In_nth _ _ (0%Z, [])) in Hin. destruct Hin as (p & Lp & Ep).
    assert (Es1 : set_at_pos h p = s /\ score_at h p = x) by (unfold set_at_pos, score_at; rewrite Ep; auto). destruct Es1 as [Es1 Es2].
    assert (Hns : ~ In p sel) by (intros Hp; apply Hn; subst res; rewrite <- Es1; apply in_map; exact Hp).
    destruct (C p Lp Hns) as (q & Q1 & Q2 & Q3). exists (set_at_pos h q), (score_at h q). rewrite Es1 in Q3.
    split; [subst res; apply in_map; exact Q1|]. split; [apply Hh, Hat, B, Q1|]. split; [|exact Q3].
    unfold preferred in Q2. lia.
Qed.
Print Assumptions matches_are_cross_plane_and_disjoint.

(** a cluster on a plane the manager was not told about makes Process throw *)
Theorem match_manager_rejects_unknown_plane :
  forall (hit extra W : Type) (cfg : config hit extra W) alg nplanes (m : mmgr hit extra W) i j,
  nplanes <= 33 ->
  let w0 := hook cfg (hook cfg (mm_w m) (mm_in m)) (mm_in m) in
  let prio := snd (prio_vals cfg w0 (mm_in m)) in
  i < length (mm_in m) -> (0 < nth i prio 0)%Z -> ~ (0 <= plane_of (mm_in m) i < Z.of_nat nplanes)%Z ->
  j < length (mm_in m) -> (0 < nth j prio 0)%Z -> uchar (plane_of (mm_in m) i) <> uchar (plane_of (mm_in m) j) ->
  exists e, match_process nplanes (Some alg) cfg m = Throw e.
Proof.
  intros hit extra W cfg alg nplanes m i j Hnp w0 prio Hi Pi Bi Hj Pj N.
  destruct (iteration_bad cfg alg nplanes (mkMM (mm_in m) (mm_reg m) w0) i j Hnp Hi Pi Bi Hj Pj N) as (e & E).
  exists e. rewrite match_process_ne by (intros En; rewrite En in Hi; simpl in Hi; lia).
  fold w0. rewrite E. reflexivity.
Qed.
Print Assumptions match_manager_rejects_unknown_plane.

(* ---- concrete runs ---- *)
Definition mcfg : config Z unit unit := mkCfg None None None (fun w _ => w) false 0.
Definition mclu (hs : list Z) (p : Z) : cluster Z unit := mkC hs p tt.
Definition msum (w : unit) (cs : list (cluster Z unit)) : unit * Z :=
  (tt, fold_right Z.add 0%Z (concat (map (@chits _ _) cs))).
Definition mev1 : mmgr Z unit unit :=
  mkMM [mclu [1%Z] 0; mclu [2; 3]%Z 1; mclu [7%Z] 2; mclu [4%Z] 1; mclu [] 0] reg_reset tt.

Example ex_match : match match_process 3 (Some msum) mcfg mev1 with
  | Ok (m', qs) => (length qs, match_result (mm_reg m')) = (7, Ok [[0; 1; 2]])
  | _ => False end.
Proof. vm_compute. reflexivity. Qed.

(** C43: nothing but an explicit CMatchManager::Reset clears the register, so the next event on
    the same manager returns matches of clusters that no longer exist. *)
Theorem next_event_returns_stale_matches_refuted :
  exists (m1 : mmgr Z unit unit) (qs1 : questions) (m2 : mmgr Z unit unit) (qs2 : questions),
    match_process 3 (Some msum) mcfg (mm_set_clusters (mm_new tt) (mm_in mev1)) = Ok (m1, qs1) /\
    match_process 3 (Some msum) mcfg (mm_set_clusters m1 [mclu [5%Z] 0]) = Ok (m2, qs2) /\
    length (mm_in m2) = 1 /\ qs2 = [] /\ match_result (mm_reg m2) = Ok [[0; 1; 2]].
Proof.
  eexists _, _, _, _. split; [vm_compute; reflexivity|]. split; [vm_compute; reflexivity|].
  repeat split.
Qed.
Print Assumptions next_event_returns_stale_matches_refuted.
