(** one TPC is one step on its lists of combinations *)
From Coq Require Import QArith Qcanon.
From Verif Require Import Base SortUtil Solver_Model Solver_Proofs SPS_Model SPA_Model SPA_Spec SPA_Order SPA_Hits SPA_Geom SPA_Loop SPA_Ids TJ_More.
Import SPA_Model.
Local Open Scope nat_scope.

(** what the work of one TPC is *)
Record does (g : geo) (c : cfg) (hits : list hit) (v : nat * nat * nat) (w : work) : Prop := {
  d_ord : plane_order g c hits (fst (fst v)) (snd (fst v)) (snd v) (w_ord w);
  d_two : forall hs, In hs (w2 w) <-> pair_of g c hits (fst (fst v)) (snd (fst v)) (snd v) (w_ord w) hs;
  d_three : forall hs, In hs (w3 w) <-> triple_of g c hits (fst (fst v)) (snd (fst v)) (snd v) (w_ord w) hs;
  d_nd2 : NoDup (w2 w);
  d_nd3 : NoDup (w3 w);
  d_one : w2 w = [] \/ w3 w = [] }.

Lemma nodup_hits g hits : placed g hits -> NoDup hits.
Proof. intros (N & _). apply NoDup_map_inv in N. exact N. Qed.
Lemma filter_seq_planes {A} (l : list (list A)) : length (filter (fun x => negb (length x =? 0)) l) = length (filter (fun p => negb (length (nth p l []) =? 0)) (seq 0 (length l))).
Proof.
  assert (G : forall k, length (filter (fun x => negb (length x =? 0)) l) = length (filter (fun p => negb (length (nth (p - k) l []) =? 0)) (seq k (length l)))).
  { induction l as [|x l IH]; intros k; [reflexivity|]. cbn [length seq filter]. rewrite Nat.sub_diag. change (nth 0 (x :: l) []) with x.
    assert (E : filter (fun p => negb (length (nth (p - k) (x :: l) []) =? 0)) (seq (S k) (length l)) = filter (fun p => negb (length (nth (p - S k) l []) =? 0)) (seq (S k) (length l))).
    { apply filter_ext2. intros p P. apply in_seq in P. replace (p - k) with (S (p - S k)) by lia. reflexivity. }
    destruct (length x =? 0); cbn [negb]; [rewrite E; apply IH|]. cbn [length]. rewrite E. f_equal. apply IH. }
  rewrite (G 0). f_equal. apply filter_ext2. intros p _. rewrite Nat.sub_0_r. reflexivity.
Qed.

Lemma one_tpc_step g c hits hm cr t np : regular g -> placed g hits -> repr g c hm hits -> planes_in g cr t np ->
  exists w, does g c hits (cr, t, np) w /\ forall s, one_tpc g c hm s (cr, t) = step g c s w.
Proof.
  intros R Pl Rp Pn. destruct (Rp _ _ _ Pn) as (a & planes & Ha & Ht & Hl & Hp).
  assert (N3 : np <= 3) by (destruct Pn as (ts & X & Y); exact (r_three g R _ _ _ _ X Y)).
  pose (pc := fun p => prefer c && g_coll g cr t p).
  destruct (order_ok pc planes) as (index & Eo & Pi & Bf).
  assert (Nth : forall p, np <= p -> nth p planes [] = []) by (intros p L; apply nth_overflow; lia).
  assert (Hin : forall p h, In h (nth p planes []) <-> p < np /\ In h hits /\ used_at c cr t p h).
  { intros p h. destruct (Nat.lt_ge_cases p np) as [L|L].
    - split; [intros X; apply (Permutation_in _ (Hp p L)) in X; apply filter_In in X as (X & Y); apply sel_spec in Y; auto|].
      intros (_ & X & Y). apply (Permutation_in _ (Permutation_sym (Hp p L))). apply filter_In. split; [exact X|apply sel_spec; exact Y].
    - rewrite Nth by exact L. split; [intros []|intros (X & _); lia]. }
  assert (At : forall p h, In h (nth p planes []) -> at_plane cr t p h /\ p < length planes) by (intros p h X; apply Hin in X as (X & _ & Y & Z); rewrite Hl; auto).
  assert (Nd : forall p, NoDup (nth p planes [])).
  { intros p. destruct (Nat.lt_ge_cases p np) as [L|L]; [|rewrite Nth by exact L; constructor].
    apply (Permutation_NoDup (Permutation_sym (Hp p L))), NoDup_filter, (nodup_hits g), Pl. }
  assert (Cn : forall p n, p < np -> counts (used_at c cr t p) hits n -> n = length (nth p planes [])).
  { intros p n L C. rewrite (Permutation_length (Hp p L)). apply (counts_filter (used_at c cr t p)); [intros h; apply sel_spec|exact C]. }
  assert (Hh : forall p, p < np -> (negb (length (nth p planes []) =? 0) = true <-> has_hits c hits cr t p)).
  { intros p L. rewrite negb_true_iff, Nat.eqb_neq. split.
    - intros X. destruct (nth p planes []) as [|h l] eqn:E; [cbn in X; lia|]. assert (Ih : In h (nth p planes [])) by (rewrite E; left; reflexivity). apply Hin in Ih as (_ & I1 & I2). exists h. auto.
    - intros (h & I1 & I2) X. apply length_zero_iff_nil in X. assert (Ih : In h (nth p planes [])) by (apply Hin; auto). rewrite X in Ih. destruct Ih. }
  set (nv := length (filter (fun l : list hit => negb (length l =? 0)) planes)).
  assert (Cv : counts (fun p => has_hits c hits cr t p) (seq 0 np) nv).
  { unfold nv. rewrite filter_seq_planes, Hl. apply filter_counts. intros p X. apply in_seq in X. apply Hh. lia. }
  assert (Tw : ((nv =? 2) || (np =? 2) = true) <-> two_only c hits cr t np).
  { rewrite orb_true_iff, !Nat.eqb_eq. unfold two_only. split; [intros [X|X]; [right; rewrite <- X; exact Cv|left; exact X]|].
    intros [X|X]; [right; exact X|left]. exact (counts_fun _ _ _ _ _ (fun _ _ => iff_refl _) Cv X). }
  assert (Nx : forall i, i < np -> nth_error index i = Some (pi index i)).
  { intros i L. pose proof (perm_len planes index Pi) as Len. unfold pi. apply nth_error_nth'. lia. }
  assert (Lp : forall i, i < np -> pi index i < np) by (intros i L; rewrite <- Hl; apply (perm_lt planes index i); [exact Pi|apply Nx; exact L]).
  assert (PO : plane_order g c hits cr t np index).
  { split; [rewrite <- Hl; apply Permutation_sym; exact Pi|]. intros i j p q L Ip Iq. destruct (Bf i j p q L Ip Iq) as (B1 & B2).
    assert (E : forall x, pc x = true <-> last_plane g c cr t x) by (intros x; unfold pc, last_plane; apply andb_true_iff).
    split; [rewrite <- !E; exact B1|]. rewrite <- !E. intros X Y n m Cp Cq. apply not_true_iff_false in X, Y.
    apply (perm_lt planes index) in Ip; [|exact Pi]. apply (perm_lt planes index) in Iq; [|exact Pi]. rewrite Hl in Ip, Iq.
    rewrite (Cn p n Ip Cp), (Cn q m Iq Cq). apply B2; assumption. }
  set (b2 := ((nv =? 2) || (np =? 2)) && (minviews c <=? 2)). set (b3 := (3 <=? np) && (minviews c <=? 3)).
  set (w := Work index (if b2 then combos2 g c cr t planes index else []) (if b3 then combos3 g c cr t planes index else [])).
  assert (D2 : forall hs, In hs (w2 w) <-> pair_of g c hits cr t np index hs).
  { intros hs. cbn [w w2]. unfold pair_of. split.
    - intros H. destruct b2 eqn:E2; [|destruct H]. unfold b2 in E2. apply andb_true_iff in E2 as (E21 & E22). apply Nat.leb_le in E22. split; [exact E22|]. split; [apply Tw; exact E21|].
      apply in_combos2 in H; [|exact R|rewrite Hl; exact N3|exact At|exact Pi]. destruct H as (i & j & x & y & L & -> & Ix & Iy & Re & F). rewrite Hl in L.
      apply Hin in Ix as (_ & X1 & X2). apply Hin in Iy as (_ & Y1 & Y2). exists i, j, (pi index i), (pi index j), x, y. repeat (split; [first [lia|apply Nx; lia|assumption|reflexivity]|]). exact F.
    - intros (M & T & i & j & p & q & x & y & L & Ip & Iq & -> & X1 & X2 & Y1 & Y2 & Re & F).
      replace b2 with true by (symmetry; apply andb_true_iff; split; [apply Tw; exact T|apply Nat.leb_le; exact M]).
      pose proof (perm_len planes index Pi) as Len. rewrite Hl in Len. assert (Lj : j < np) by (rewrite <- Len; apply nth_error_Some; congruence).
      rewrite Nx in Ip by lia. rewrite Nx in Iq by lia. injection Ip as <-. injection Iq as <-.
      apply in_combos2; [exact R|rewrite Hl; exact N3|exact At|exact Pi|]. exists i, j, x, y. rewrite Hl.
      split; [lia|]. split; [reflexivity|]. split; [apply Hin; split; [apply Lp; lia|auto]|].
      split; [apply Hin; split; [apply Lp; lia|auto]|]. auto. }
  assert (D3 : forall hs, In hs (w3 w) <-> triple_of g c hits cr t np index hs).
  { intros hs. cbn [w w3]. unfold triple_of. split.
    - intros H. destruct b3 eqn:E3; [|destruct H]. unfold b3 in E3. apply andb_true_iff in E3 as (E31 & E32). apply Nat.leb_le in E31, E32. split; [exact E32|]. split; [exact E31|].
      apply in_combos3 in H; [|exact R|rewrite Hl; exact N3|exact At|exact Pi|rewrite Hl; exact E31]. destruct H as (x & y & z & -> & Ix & Iy & Iz & Re & F).
      apply Hin in Ix as (_ & X1 & X2). apply Hin in Iy as (_ & Y1 & Y2). apply Hin in Iz as (_ & Z1 & Z2).
      exists (pi index 0), (pi index 1), (pi index 2), x, y, z. repeat (split; [first [apply Nx; lia|assumption|reflexivity]|]). exact F.
    - intros (M & T & p & q & r & x & y & z & Ip & Iq & Ir & -> & X1 & X2 & Y1 & Y2 & Z1 & Z2 & Re & F).
      replace b3 with true by (symmetry; apply andb_true_iff; split; apply Nat.leb_le; assumption).
      rewrite Nx in Ip by lia. rewrite Nx in Iq by lia. rewrite Nx in Ir by lia. injection Ip as <-. injection Iq as <-. injection Ir as <-.
      apply in_combos3; [exact R|rewrite Hl; exact N3|exact At|exact Pi|rewrite Hl; exact T|]. exists x, y, z.
      split; [reflexivity|]. split; [apply Hin; split; [apply Lp; lia|auto]|]. split; [apply Hin; split; [apply Lp; lia|auto]|]. split; [apply Hin; split; [apply Lp; lia|auto]|]. auto. }
  exists w. split.
  - constructor; cbn [fst snd]; [exact PO|exact D2|exact D3| | |].
    + cbn [w w2]. destruct b2; [|constructor]. apply nodup_combos2; [exact R|rewrite Hl; exact N3|exact At|exact Pi|exact Nd].
    + cbn [w w3]. destruct b3; [|constructor]. apply nodup_combos3; exact Nd.
    + destruct (w2 w) as [|x l] eqn:E2; [left; reflexivity|right]. destruct (w3 w) as [|y l'] eqn:E3; [reflexivity|exfalso].
      destruct (proj1 (D2 x) (or_introl eq_refl)) as (_ & T & _). destruct (proj1 (D3 y) (or_introl eq_refl)) as (_ & L & p & q & r & a1 & b1 & d1 & Ip & Iq & Ir & _ & A1 & A2 & B1 & B2' & C1 & C2 & _).
      assert (np = 3) by lia. destruct T as [T|T]; [lia|].
      assert (All : counts (fun p => has_hits c hits cr t p) (seq 0 np) (length (filter (fun _ => true) (seq 0 np)))).
      { apply filter_counts. intros k K. split; [intros _|reflexivity]. apply in_seq in K.
        assert (In k index) by (apply (Permutation_in _ Pi); apply in_seq; lia). apply In_nth_error in H0 as (n & Hn).
        pose proof (perm_len planes index Pi) as Len. assert (Ln : n < 3) by (rewrite <- H, <- Hl, <- Len; apply nth_error_Some; congruence).
        destruct n as [|[|[|n]]]; [| | |lia]; [exists a1|exists b1|exists d1]; split; try assumption; [rewrite Ip in Hn|rewrite Iq in Hn|rewrite Ir in Hn]; injection Hn as <-; assumption. }
      pose proof (counts_fun _ _ _ _ _ (fun _ _ => iff_refl _) All T) as X. rewrite H in X. cbn in X. discriminate.
  - intros s. unfold one_tpc. unfold idx at 1. rewrite Ha. cbn [obind]. unfold idx at 1. rewrite Ht. cbn [obind]. fold pc. rewrite Eo. cbn [obind]. cbv zeta. rewrite Hl. fold nv. fold b2 b3.
    unfold step. cbn [w w2 w3]. fold (finish g c).
    assert (S2 : forall s, (if b2 then two_views g c cr t planes index s else Ok s) = foreach (if b2 then combos2 g c cr t planes index else []) (addk g 0) s).
    { intros s1. destruct b2; [|reflexivity]. apply two_views_eq; [exact R|rewrite Hl; exact N3|exact At|exact Pi|]. rewrite Hl. intros i j L Pf.
      destruct (Bf i j _ _ (proj1 L) (Nx i ltac:(lia)) (Nx j ltac:(lia))) as (_ & B). apply B; unfold pc; rewrite Pf; reflexivity. }
    assert (S3 : forall s, (if b3 then three_views g c cr t planes index s else Ok s) = foreach (if b3 then combos3 g c cr t planes index else []) (addk g (-1)) s).
    { intros s1. destruct b3 eqn:E3; [|reflexivity]. unfold b3 in E3. apply andb_true_iff in E3 as (E31 & _). apply Nat.leb_le in E31.
      apply three_views_eq; [exact R|rewrite Hl; exact N3|exact At|exact Pi|rewrite Hl; exact E31]. }
    rewrite S2. destruct (foreach _ (addk g 0) s) as [s1| |]; cbn [obind]; try reflexivity. rewrite S3. destruct (foreach _ _ s1); reflexivity.
Qed.

(** the TPCs visited *)
Lemma visited_planes shape k vis : visited shape k vis ->
  map fst vis = flat_map (fun cr => map (pair cr) (seq 0 (length (nth (cr - k) shape [])))) (seq k (length shape)) /\
  forall v, In v vis -> exists ts, k <= fst (fst v) /\ nth_error shape (fst (fst v) - k) = Some ts /\ nth_error ts (snd (fst v)) = Some (snd v).
Proof.
  induction 1 as [k|ts shape k l rest Hl Hn V (IH1 & IH2)]; [split; [reflexivity|intros v []]|]. split.
  - cbn [length seq flat_map]. rewrite Nat.sub_diag. cbn [nth]. rewrite map_app. f_equal.
    + apply TJ_More.nth_error_ext. intros i. rewrite !nth_error_map. destruct (nth_error l i) as [[[c' t'] np']|] eqn:E.
      * assert (L : i < length ts) by (rewrite <- Hl; apply nth_error_Some; congruence). destruct (nth_error ts i) as [np|] eqn:Et; [|apply nth_error_None in Et; lia].
        apply Hn in Et. rewrite E in Et. injection Et as -> -> ->. rewrite (nth_error_nth' (seq 0 (length ts)) 0) by (rewrite seq_length; exact L). rewrite seq_nth by exact L. reflexivity.
      * apply nth_error_None in E. rewrite (proj2 (nth_error_None (seq 0 (length ts)) i)); [reflexivity|rewrite seq_length; lia].
    + rewrite IH1. apply flat_map_ext'. intros cr C. apply in_seq in C. replace (cr - k) with (S (cr - S k)) by lia. reflexivity.
  - intros v I. apply in_app_or in I as [I|I].
    + apply In_nth_error in I as (i & E). assert (L : i < length ts) by (rewrite <- Hl; apply nth_error_Some; congruence).
      destruct (nth_error ts i) as [np|] eqn:Et; [|apply nth_error_None in Et; lia]. pose proof (proj1 (Hn i np) Et) as X. rewrite E in X. injection X as ->. cbn [fst snd].
      exists ts. rewrite Nat.sub_diag. cbn. auto.
    + destruct (IH2 v I) as (ts' & A & B & C). exists ts'. split; [lia|]. split; [|exact C]. replace (fst (fst v) - k) with (S (fst (fst v) - S k)) by lia. exact B.
Qed.

Lemma make_eq g c hits vis : regular g -> placed g hits -> visited (g_shape g) 0 vis ->
  exists L, Forall2 (does g c hits) vis L /\ make g c hits = (do s <- foreach L (step g c) s0; Ok (s_out s, s_map s)).
Proof.
  intros R Pl V. destruct (visited_planes _ _ _ V) as (E & P). destruct (sort_ok g c hits Pl) as (hm & Es & Rp).
  assert (T : tpcs g = map fst vis). { rewrite E. unfold tpcs. apply flat_map_ext'. intros cr _. rewrite Nat.sub_0_r. reflexivity. }
  assert (G : forall l, incl l vis -> exists L, Forall2 (does g c hits) l L /\ forall s, foreach (map fst l) (one_tpc g c hm) s = foreach L (step g c) s).
  { induction l as [|[[cr t] np] l IH]; intros I; [exists []; split; [constructor|reflexivity]|].
    destruct (IH (fun x X => I x (or_intror X))) as (L & F & Eq). destruct (P _ (I _ (or_introl eq_refl))) as (ts & _ & A & B). cbn [fst snd] in A, B. rewrite Nat.sub_0_r in A.
    destruct (one_tpc_step g c hits hm cr t np R Pl Rp) as (w & D & W); [exists ts; auto|]. exists (w :: L). split; [constructor; assumption|].
    intros s. cbn [map fst foreach]. rewrite W. destruct (step g c s w); cbn [obind]; [apply Eq|reflexivity|reflexivity]. }
  destruct (G vis (fun x X => X)) as (L & F & Eq). exists L. split; [exact F|]. unfold make. rewrite Es. cbn [obind]. rewrite T. fold s0. rewrite Eq. reflexivity.
Qed.

Lemma does_sane g c hits v w : does g c hits v w -> sane w.
Proof.
  intros D. split; [|exact (d_one _ _ _ _ _ D)]. intros hs I. apply in_app_or in I as [I|I].
  - apply (d_two _ _ _ _ _ D) in I as (_ & _ & i & j & p & q & a & b & _ & _ & _ & -> & _). cbn. lia.
  - apply (d_three _ _ _ _ _ D) in I as (_ & _ & p & q & r & a & b & d & _ & _ & _ & -> & _). cbn. lia.
Qed.
