(** Segmentation2D::run, the splitting into segments: proofs *)
From Coq Require Import QArith Qcanon Permutation Sorted Lqa.
From Verif Require Import Base QcUtil Solver_Model Solver_Proofs SEG_Model SEG_Spec SEG_Simple TJ_Proofs.
Import SEG_Model.
Local Open Scope nat_scope.

Lemma distinct_perm a b : Permutation a b -> distinct a -> distinct b.
Proof. intros P D. unfold distinct in *. apply (Permutation_NoDup (Permutation_map key P) D). Qed.
Lemma distinct_app a b : distinct (a ++ b) -> distinct a /\ distinct b.
Proof. unfold distinct. rewrite map_app. intros D. apply TJ_Proofs.nodup_app_iff in D. tauto. Qed.
Lemma distinct_filter f l : distinct l -> distinct (filter f l).
Proof.
  unfold distinct. induction l as [|x l IH]; intros D; [constructor|]. inversion D as [|? ? N D']; subst. cbn [filter]. destruct (f x); [|apply IH, D']. cbn [map]. constructor; [|apply IH, D'].
  intros I. apply N. apply in_map_iff in I as (y & E & Y). apply filter_In in Y as [Y _]. rewrite <- E. apply in_map, Y.
Qed.
Lemma release_perm h : forall l, distinct l -> In h l -> Permutation (h :: release h l) l.
Proof.
  induction l as [|x l IH]; intros D I; [destruct I|]. unfold distinct in D. cbn [map] in D. inversion D as [|? ? N D']; subst. cbn [release]. destruct (Nat.eqb_spec (key x) (key h)) as [E|E].
  - destruct I as [->|I]; [reflexivity|]. exfalso. apply N. rewrite E. apply in_map, I.
  - destruct I as [->|I]; [congruence|]. rewrite perm_swap. constructor. apply IH; assumption.
Qed.
Lemma first_idx_lt center l : l <> [] -> first_idx center l < length l.
Proof.
  unfold first_idx. intros N.
  assert (G : forall m d i k, i <= k -> (0 < k -> i < k) -> let r := fold_left (fun '(d, i, k) h => if qc_lt (dist2 (pos h) center) d then (dist2 (pos h) center, k, S k) else (d, i, S k)) m (d, i, k) in
    snd (fst r) <= k + length m /\ (0 < k + length m -> snd (fst r) < k + length m)).
  { induction m as [|h m IH]; intros d i k L1 L2; cbn [fold_left length]; [cbn; lia|]. destruct (qc_lt (dist2 (pos h) center) d).
    - specialize (IH (dist2 (pos h) center) k (S k) ltac:(lia) ltac:(lia)). cbv zeta in *. replace (k + S (length m)) with (S k + length m) by lia. exact IH.
    - specialize (IH d i (S k) ltac:(lia) ltac:(lia)). cbv zeta in *. replace (k + S (length m)) with (S k + length m) by lia. exact IH. }
  specialize (G l (Q2Qc (1000000000000000000 # 1)) 0 0 ltac:(lia) ltac:(lia)). cbv zeta in G. destruct G as [_ G]. apply G. destruct l; [congruence|cbn; lia].
Qed.

Lemma swap_at : forall k (l : list hit) x a, nth_error l k = Some x -> Permutation (x :: upd l k a) (a :: l).
Proof.
  induction k as [|k IH]; intros l x a E; destruct l as [|y l]; try discriminate; cbn [nth_error upd] in *; [assert (y = x) by congruence; subst; apply perm_swap|]. rewrite perm_swap, (IH l x a E). apply perm_swap.
Qed.
Section A.
Variable srt : pt -> list hit -> list hit.
Hypothesis So : sorts srt.
Variable cf : cfg.

Lemma arrange_ok center l : exists r, arrange srt center l = Ok r /\ Permutation r l /\ outward r.
Proof.
  unfold arrange. destruct (Nat.ltb_spec 1 (length l)) as [L|L].
  - assert (N : l <> []) by (destruct l; [cbn in L; lia|discriminate]). pose proof (first_idx_lt center l N) as F. destruct l as [|a l]; [congruence|].
    unfold idx. destruct (nth_error (a :: l) (first_idx center (a :: l))) as [hf|] eqn:E1; [|apply nth_error_None in E1; lia]. cbn [nth_error obind].
    assert (Q : Permutation (upd (upd (a :: l) (first_idx center (a :: l)) a) 0 hf) (a :: l)).
    { revert E1. generalize (first_idx center (a :: l)). intros k E1. destruct k as [|k]; cbn [nth_error upd] in *; [assert (hf = a) by congruence; subst; reflexivity|]. apply (swap_at k l hf a E1). }
    destruct (upd (upd (a :: l) (first_idx center (a :: l)) a) 0 hf) as [|f r] eqn:U; [apply Permutation_length in Q; cbn in Q; lia|].
    destruct (Nat.ltb_spec 2 (length (a :: l))) as [L2|L2].
    + exists (f :: srt (pos f) r). destruct (So (pos f) r) as (S1 & S2). split; [reflexivity|]. split; [rewrite S1; exact Q|exact S2].
    + exists (f :: r). split; [reflexivity|]. split; [exact Q|]. apply Permutation_length in Q. cbn [length] in *. destruct r as [|x [|y r]]; [constructor|repeat constructor|cbn in Q; lia].
  - exists l. split; [reflexivity|]. split; [reflexivity|]. destruct l as [|x [|y l]]; [exact Logic.I|constructor|cbn in L; lia].
Qed.
(** growing takes a prefix of the candidates *)
Lemma grow_spec : forall cands seg inp, distinct inp -> distinct cands -> incl cands inp -> exists p q inp', grow seg cands inp = (seg ++ p, inp') /\ cands = p ++ q /\ Permutation (p ++ inp') inp /\
    (forall a h b, p = a ++ h :: b -> touch1 (seg ++ a) h = true).
Proof.
  induction cands as [|c cands IH]; intros seg inp D Dc I; cbn [grow].
  - exists [], [], inp. rewrite app_nil_r. split; [reflexivity|]. split; [reflexivity|]. split; [reflexivity|]. intros a h b E. destruct a; discriminate.
  - destruct (touch1 seg c) eqn:T.
    + assert (P : Permutation (c :: release c inp) inp) by (apply release_perm; [exact D|apply I; left; reflexivity]).
      assert (D1 : distinct (release c inp)) by (apply (distinct_perm _ _ (Permutation_sym P)) in D; apply (proj2 (distinct_app [c] _ D))).
      assert (Dc2 : distinct cands) by (apply (proj2 (distinct_app [c] _ Dc))).
      assert (I1 : incl cands (release c inp)).
      { intros x X. assert (In x (c :: release c inp)) as [<-|Y] by (apply (Permutation_in _ (Permutation_sym P)), I; right; exact X); [|exact Y]. exfalso. unfold distinct in Dc. cbn [map] in Dc. inversion Dc as [|? ? Nn _]; subst. apply Nn, in_map, X. }
      destruct (IH (seg ++ [c]) (release c inp) D1 Dc2 I1) as (p & q & inp' & E & Ec & Pm & Ht). exists (c :: p), q, inp'. rewrite <- app_assoc in E. split; [exact E|]. split; [cbn; congruence|]. split; [rewrite <- P; cbn; constructor; exact Pm|].
      intros a h b Ea. destruct a as [|a0 a]; cbn [app] in Ea; injection Ea as -> Ea; [rewrite app_nil_r; exact T|]. rewrite <- (Ht a h b Ea), <- app_assoc. reflexivity.
    + exists [], (c :: cands), inp. rewrite app_nil_r. split; [reflexivity|]. split; [reflexivity|]. split; [reflexivity|]. intros a h b E. destruct a; discriminate.
Qed.
Lemma ss_prefix {T} (R : T -> T -> Prop) a b : StronglySorted R (a ++ b) -> StronglySorted R a.
Proof. induction a as [|x a IH]; intros H; [constructor|]. cbn in H. inversion H as [|? ? H1 H2]; subst. constructor; [apply IH, H1|]. apply Forall_app in H2. tauto. Qed.

(** one segment: nothing is lost *)
Definition touching (c : list hit) : Prop := forall a h b, c = a ++ h :: b -> a <> [] -> touch1 a h = true.
Lemma build_spec inp center fin : distinct inp -> exists seg inp', build srt cf inp center fin = Ok (seg, inp') /\ Permutation (seg ++ inp') inp /\
    (forall h, In h seg -> cand cf center fin h = true) /\ touching seg /\ outward seg /\ (candidates cf center fin inp <> [] -> seg <> []).
Proof.
  intros D. unfold build. destruct (arrange_ok center (candidates cf center fin inp)) as (l & E & P & O). rewrite E. cbn [obind].
  assert (Ic : forall x, In x l -> In x inp /\ cand cf center fin x = true) by (intros x X; apply (Permutation_in _ P) in X; unfold candidates in X; apply filter_In in X; exact X).
  assert (Dl : distinct l) by (apply (distinct_perm _ _ (Permutation_sym P)), distinct_filter, D).
  destruct l as [|c l].
  - exists [], inp. split; [reflexivity|]. split; [reflexivity|]. split; [intros h []|]. split; [intros a h b X; destruct a; discriminate|]. split; [exact Logic.I|]. intros N. apply Permutation_nil in P. congruence.
  - assert (Pr : Permutation (c :: release c inp) inp) by (apply release_perm; [exact D|apply Ic; left; reflexivity]).
    assert (D1 : distinct (release c inp)) by (apply (distinct_perm _ _ (Permutation_sym Pr)) in D; apply (proj2 (distinct_app [c] _ D))).
    destruct (grow_spec l [c] (release c inp) D1) as (p & q & inp' & Eg & Eq & Pm & Ht).
    + apply (proj2 (distinct_app [c] _ Dl)).
    + intros x X. assert (In x (c :: release c inp)) as [<-|Y] by (apply (Permutation_in _ (Permutation_sym Pr)), Ic; right; exact X); [|exact Y]. exfalso. unfold distinct in Dl. cbn [map] in Dl. inversion Dl as [|? ? Nn _]; subst. apply Nn, in_map, X.
    + rewrite Eg. exists ([c] ++ p), inp'. split; [reflexivity|]. split; [cbn; rewrite <- Pr; constructor; exact Pm|]. split; [intros h Hi; apply Ic; rewrite Eq; destruct Hi as [<-|Hi]; [left; reflexivity|right; apply in_or_app; auto]|].
      split; [|split].
      * intros a h b Ea Na. destruct a as [|a0 a]; [congruence|]. cbn [app] in Ea. injection Ea as <- Ea. apply (Ht a h b Ea).
      * cbn [app outward] in *. rewrite Eq in O. apply (ss_prefix _ _ _ O).
      * discriminate.
Qed.

(** the seeds *)
Lemma dist_at_lt p l : l <> [] -> snd (dist_at p l) < length l.
Proof.
  destruct l as [|x l]; intros N; [congruence|]. unfold dist_at. set (f := fun '(d, i, k) (h : hit) => if qc_lt (dist2 (pos h) p) d then (dist2 (pos h) p, k, S k) else (d, i, S k)).
  assert (G : forall m d i k, i < k -> let r := fold_left f m (d, i, k) in snd (fst r) < k + length m).
  { induction m as [|h m IH]; intros d i k L; cbn [fold_left length]; [cbn; lia|]. unfold f at 2. destruct (qc_lt (dist2 (pos h) p) d).
    - specialize (IH (dist2 (pos h) p) k (S k) ltac:(lia)). cbv zeta in *. lia.
    - specialize (IH d i (S k) ltac:(lia)). cbv zeta in *. lia. }
  specialize (G l (dist2 (pos x) p) 0 1 ltac:(lia)). cbv zeta in G. destruct (fold_left f l (dist2 (pos x) p, 0, 1)) as [[d i] k]. cbn [fst snd] in *. cbn [length]. lia.
Qed.
Lemma pick_ok center seeds : seeds <> [] -> Forall (fun c => c <> []) seeds -> exists sd h, nth_error seeds (fst (pick center seeds)) = Some sd /\ nth_error sd (snd (pick center seeds)) = Some h.
Proof.
  destruct seeds as [|s l]; intros N F; [congruence|]. unfold pick.
  set (f := fun '(d, s, i, k) (x : list hit) => if qc_lt (fst (dist_at center x)) d then (fst (dist_at center x), k, snd (dist_at center x), S k) else (d, s, i, S k)).
  assert (G : forall m pre d si i k, Forall (fun c => c <> []) m -> length pre = k -> (exists sd, nth_error pre si = Some sd /\ i < length sd) ->
    let r := fold_left f m (d, si, i, k) in exists sd, nth_error (pre ++ m) (snd (fst (fst r))) = Some sd /\ snd (fst r) < length sd).
  { induction m as [|x m IH]; intros pre d si i k Fm L (sd & E1 & E2); cbn [fold_left]; [exists sd; rewrite app_nil_r; auto|]. inversion Fm as [|? ? Fx Fm']; subst.
    replace (pre ++ x :: m) with ((pre ++ [x]) ++ m) by (rewrite <- app_assoc; reflexivity). unfold f at 2 4. destruct (qc_lt (fst (dist_at center x)) d); apply IH; auto; try (rewrite app_length; cbn; lia).
    - exists x. split; [rewrite nth_error_app2, Nat.sub_diag by lia; reflexivity|apply dist_at_lt, Fx].
    - exists sd. split; [|exact E2]. rewrite nth_error_app1; [exact E1|]. apply nth_error_Some. congruence. }
  inversion F as [|? ? Fs Fl]; subst. specialize (G l [s] (fst (dist_at center s)) 0 (snd (dist_at center s)) 1 Fl eq_refl). cbv zeta in G.
  destruct G as (sd & E1 & E2); [exists s; split; [reflexivity|apply dist_at_lt, Fs]|]. destruct (fold_left f l (fst (dist_at center s), 0, snd (dist_at center s), 1)) as [[[d si] i] k]. cbn [fst snd app] in *.
  destruct (nth_error sd i) as [h|] eqn:E; [exists sd, h; auto|]. apply nth_error_None in E. lia.
Qed.
Lemma cut_len {T} (l : list T) i : i < length l -> length (cut l i) = length l - 1.
Proof. intros L. unfold cut. rewrite app_length, firstn_length, skipn_length. lia. Qed.
Lemma cut_in {T} (l : list T) i x : In x (cut l i) -> In x l.
Proof. unfold cut. intros X. apply in_app_or in X as [X|X]; [rewrite <- (firstn_skipn i l)|rewrite <- (firstn_skipn (S i) l)]; apply in_or_app; auto. Qed.

(** a cluster as it is appended to the result: flags clear, and a proper segment *)
Definition piece (c : clu) : Prop := c = fresh (hs c) /\ hs c <> [] /\ touching (hs c) /\ outward (hs c) /\ (length (hs c) = 1 \/ exists center fin, forall h, In h (hs c) -> cand cf center fin h = true).
Definition bag (s : st) : list hit := concat (map hs (s_res s)) ++ s_inp s.
Definition size (s : st) : nat := length (s_inp s) + length (s_cen s).
Lemma bag_snoc inp res cen seg inp' cen' : Permutation (seg ++ inp') inp -> Permutation (bag (St inp' (res ++ [fresh seg]) cen')) (bag (St inp res cen)).
Proof. intros P. unfold bag. cbn [s_res s_inp]. rewrite map_app, concat_app. cbn [map concat hs fresh]. rewrite app_nil_r, <- app_assoc. apply Permutation_app_head. exact P. Qed.
Lemma in_distinct s : distinct (bag s) -> distinct (s_inp s). Proof. intros D. apply (proj2 (distinct_app _ _ D)). Qed.
Lemma seeds_spec center : forall n seeds s, length seeds = n -> Forall (fun c => c <> []) seeds -> distinct (bag s) -> Forall piece (s_res s) ->
  exists s', seeds_loop srt cf n center seeds s = Ok s' /\ Permutation (bag s') (bag s) /\ Forall piece (s_res s') /\ size s' <= size s /\ length (s_inp s') <= length (s_inp s) /\
    (forall sd h, nth_error seeds (fst (pick center seeds)) = Some sd -> nth_error sd (snd (pick center seeds)) = Some h -> candidates cf center (pos h) (s_inp s) <> [] -> length (s_inp s') < length (s_inp s)).
Proof.
  induction n as [|n IH]; intros seeds s L F D R; cbn [seeds_loop].
  - exists s. split; [reflexivity|]. split; [reflexivity|]. split; [exact R|]. split; [lia|]. split; [lia|]. intros sd h E. destruct seeds; [|discriminate]. destruct (fst (pick center [])); discriminate.
  - destruct (pick_ok center seeds) as (sd & h & E1 & E2); [destruct seeds; discriminate|exact F|]. destruct (pick center seeds) as [si hi]. cbn [fst snd] in E1, E2. unfold idx. rewrite E1. cbn [obind]. rewrite E2. cbn [obind].
    destruct (build_spec (s_inp s) center (pos h) (in_distinct s D)) as (seg & inp' & Eb & Pb & Hc & Ht & Ho & Hn). rewrite Eb. cbn [obind].
    set (s1 := St inp' (match seg with [] => s_res s | _ => s_res s ++ [fresh seg] end) (match rev seg with e :: _ :: _ => s_cen s ++ [pos e] | _ => s_cen s end)).
    assert (B1 : Permutation (bag s1) (bag s)).
    { unfold s1. destruct seg as [|x seg]; [unfold bag; cbn [s_res s_inp app] in *; apply Permutation_app_head; exact Pb|]. destruct s as [inp res cen]. apply (bag_snoc inp res cen). exact Pb. }
    assert (R1 : Forall piece (s_res s1)).
    { unfold s1. cbn [s_res]. destruct seg as [|x seg]; [exact R|]. apply Forall_app. split; [exact R|]. constructor; [|constructor]. split; [reflexivity|]. split; [discriminate|]. split; [exact Ht|]. split; [exact Ho|]. right. eauto. }
    assert (Lb : length seg + length inp' = length (s_inp s)) by (rewrite <- app_length; apply Permutation_length, Pb).
    assert (Z1 : size s1 <= size s).
    { unfold size, s1. cbn [s_inp s_cen]. assert (Lr : length (rev seg) = length seg) by apply rev_length. destruct (rev seg) as [|e [|e' r]]; cbn [length] in Lr |- *; rewrite ?app_length; cbn [length]; lia. }
    destruct (IH (cut seeds si) s1) as (s' & E & B & R' & Z & Li & _).
    + rewrite cut_len; [lia|]. apply nth_error_Some. congruence.
    + rewrite Forall_forall in *. intros c C. apply F, (cut_in _ si), C.
    + apply (distinct_perm _ _ (Permutation_sym B1) D).
    + exact R1.
    + exists s'. split; [exact E|]. split; [rewrite B; exact B1|]. split; [exact R'|]. split; [lia|]. assert (L1 : length (s_inp s1) = length inp') by reflexivity. split; [lia|].
      intros sd' h' X Y Nn. cbn [fst snd] in X, Y. assert (sd' = sd) by congruence. subst sd'. assert (h' = h) by congruence. subst h'. specialize (Hn Nn). destruct seg; [congruence|]. cbn [length] in Lb. lia.
Qed.
Lemma qc0 : (0 <= 0)%Qc. Proof. apply Qcle_refl. Qed.
Lemma closest_in p l h : closest p l = Some h -> In h l /\ forall x, In x l -> (dist2 (pos h) p <= dist2 (pos x) p)%Qc.
Proof.
  destruct l as [|a l]; [discriminate|]. unfold closest. set (f := fun (b h : hit) => if qc_lt (dist2 (pos h) p) (dist2 (pos b) p) then h else b). intros E. assert (Eh : h = fold_left f l a) by congruence. clear E. subst h.
  assert (G : forall l b, (In (fold_left f l b) (b :: l)) /\ forall x, In x (b :: l) -> (dist2 (pos (fold_left f l b)) p <= dist2 (pos x) p)%Qc).
  { clear. induction l as [|y l IH]; intros b; cbn [fold_left]; [split; [left; reflexivity|]; intros x [->|[]]; apply Qcle_refl|]. destruct (IH (f b y)) as (A & B).
    assert (Fb : (f b y = b \/ f b y = y) /\ (dist2 (pos (f b y)) p <= dist2 (pos b) p)%Qc /\ (dist2 (pos (f b y)) p <= dist2 (pos y) p)%Qc).
    { unfold f. destruct (qc_lt (dist2 (pos y) p) (dist2 (pos b) p)) eqn:Q.
      - apply qc_lt_spec in Q. split; [auto|]. split; [apply Qclt_le_weak, Q|apply Qcle_refl].
      - apply qc_lt_false in Q. split; [auto|]. split; [apply Qcle_refl|exact Q]. }
    destruct Fb as (F1 & F2 & F3). split.
    - destruct A as [A|A]; [|right; right; exact A]. rewrite <- A. destruct F1 as [-> | ->]; cbn; auto.
    - specialize (B (f b y) (or_introl eq_refl)) as B0. intros x [<-|[<-|X]]; [apply (Qcle_trans _ _ _ B0 F2)|apply (Qcle_trans _ _ _ B0 F3)|apply B; right; exact X]. }
  apply G.
Qed.
Lemma outermost_in l h : outermost l = Some h -> In h l.
Proof.
  destruct l as [|a l]; [discriminate|]. unfold outermost. set (f := fun (b h : hit) => if qc_lt (dist2 (pos b) (mean (a :: l))) (dist2 (pos h) (mean (a :: l))) then h else b). intros E. assert (Eh : h = fold_left f l a) by congruence. clear E. subst h.
  assert (G : forall l b, In (fold_left f l b) (b :: l)).
  { assert (Ff : forall b y, f b y = b \/ f b y = y) by (intros b y; unfold f; destruct (qc_lt _ _); auto). clearbody f. clear -Ff. induction l as [|y l IH]; intros b; cbn [fold_left]; [left; reflexivity|]. destruct (IH (f b y)) as [A|A]; [|right; right; exact A]. rewrite <- A. destruct (Ff b y) as [-> | ->]; cbn; auto. }
  apply G.
Qed.
End A.
