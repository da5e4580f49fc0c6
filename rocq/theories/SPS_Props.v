(** C51: what BuildSystem makes of the triplets; C52: neighbour search; C53: space points from triplets, end to end *)
From Coq Require Import QArith Qcanon Lqa.
From Verif Require Import Base Util QcUtil SortUtil Solver_Model Solver_Spec Solver_Proofs Solver_Sched Solver_Props Solver_Min Triplet_Model CMComb_Proofs PT_Connect SPS_Model SPS_Spec SPS_System SPS_Nei.
Local Open Scope nat_scope.

(* ------------------------------------------------------------ C51 *)
(** one wire per collection hit of a triplet, made of its full triplets, or of all its triplets if none is full; a full triplet
    without a collection hit is kept as an orphan exactly if one of its induction hits is in no full triplet with a collection hit *)
Theorem c51_system ts : let s := build_system ts in
  NoDup (map fst (s_wires s)) /\
  (forall x scs, In (x, scs) (s_wires s) <-> (exists t, In t ts /\ t_x t = Some x) /\ scs = wire_triplets ts x) /\
  (forall x scs, In (x, scs) (s_wires s) -> scs <> []) /\
  s_orphans s = where_ (fun t => (match t_x t with None => true | Some _ => false end) && full t && (negb (explained ts (t_u t)) || negb (explained ts (t_v t)))) ts.
Proof.
  cbv zeta. rewrite system_ok. cbn [s_wires s_orphans]. assert (W : forall x scs, In (x, scs) (map (fun h => (h, wire_triplets ts h)) (chits ts)) <-> (exists t, In t ts /\ t_x t = Some x) /\ scs = wire_triplets ts x).
  { intros x scs. rewrite in_map_iff. split; [intros (h & E & Hh); injection E as -> <-; split; [apply chits_in, Hh|reflexivity]|intros (H & ->); exists x; split; [reflexivity|apply chits_in, H]]. }
  split; [rewrite map_map; cbn [fst]; rewrite map_id; apply set_of_nodup|]. split; [exact W|]. split.
  - intros x scs H E. apply W in H. destruct H as ((t & Hin & Ht) & ->). unfold wire_triplets in E. destruct (existsb (fun t => hit_is (t_x t) x && full t) ts) eqn:X; apply where_nil in E; [congruence|]. assert (Y : existsb (fun t => hit_is (t_x t) x) ts = true) by (apply existsb_exists; exists t; split; [exact Hin|apply hit_is_spec, Ht]). congruence.
  - apply where_ext. intros t _. unfold orphan_t, unexplained. destruct (t_x t); reflexivity.
Qed.
(** every space charge made is used once, or deleted once, except those with neither a collection hit nor both induction hits, which leak *)
Theorem c51_account ts : let s := build_system ts in
  Permutation (flat_map snd (s_wires s) ++ s_orphans s ++ s_deleted s ++ where_ (fun t => (match t_x t with None => true | Some _ => false end) && negb (full t)) ts) (seq 0 (length ts)).
Proof.
  cbv zeta. assert (A := account ts). unfold charges in A. rewrite <- app_assoc in A. unfold leaked in A. rewrite (where_ext _ (fun t => (match t_x t with None => true | Some _ => false end) && negb (full t))) in A; [exact A|]. intros t _. destruct (t_x t); reflexivity.
Qed.
Lemma charges_nodup ts : NoDup (charges (build_system ts)).
Proof. apply (NoDup_app_l _ (s_deleted (build_system ts) ++ leaked ts)). apply (Permutation_NoDup (Permutation_sym (account ts))), seq_NoDup. Qed.
Lemma charges_t ts k : In k (charges (build_system ts)) -> exists t, nth_error ts k = Some t.
Proof. intros H. assert (X : In k (seq 0 (length ts))) by (apply (Permutation_in _ (account ts)), in_or_app; left; exact H). apply in_seq in X. destruct (nth_error ts k) as [t|] eqn:E; [eauto|apply nth_error_None in E; lia]. Qed.

(* ------------------------------------------------------------ C52 *)
Local Open Scope Qc_scope.
(** the neighbours of a space charge are exactly the others within 5 cm, not at the same place, each once, with a coupling that depends on
    the distance only: so being neighbours is symmetric, with the same coupling *)
Theorem c52_neighbours ex pos scs : NoDup scs -> (forall s, In s scs -> fits (pos s)) -> exists nei, add_neighbours ex pos scs = Ok nei /\
  (forall s, ~ In s scs -> nei s = []) /\
  forall s, In s scs -> NoDup (map fst (nei s)) /\
    forall t c, In (t, c) (nei s) <-> In t scs /\ t <> s /\ 0 < d2 (pos s) (pos t) /\ d2 (pos s) (pos t) <= Q2Qc 25 /\ c = ex (d2 (pos s) (pos t)).
Proof.
  intros Nd Hf. destruct (add_neighbours_ok ex pos scs Nd Hf) as (nei & E & H1 & H2). exists nei. split; [exact E|]. split; [exact H2|]. intros s Hs. rewrite (H1 s Hs). split; [apply nei_nodup, Nd|]. intros t c. apply nei_in.
Qed.
Theorem c52_symmetric ex pos scs nei : NoDup scs -> (forall s, In s scs -> fits (pos s)) -> add_neighbours ex pos scs = Ok nei ->
  forall s t c, In s scs -> In (t, c) (nei s) -> In t scs /\ In (s, c) (nei t).
Proof.
  intros Nd Hf E s t c Hs Hin. destruct (c52_neighbours ex pos scs Nd Hf) as (nei' & E' & _ & H). assert (nei' = nei) by congruence. subst nei'. apply (proj2 (H s Hs)) in Hin. destruct Hin as (H1 & H2 & H3 & H4 & ->). split; [exact H1|]. apply (proj2 (H t H1)). rewrite (d2_sym (pos t) (pos s)). repeat split; auto.
Qed.

(* ------------------------------------------------------------ C53 *)
(** premises on the triplets: collection hits have no negative integral, the views have no hit in common, coordinates fit, and the number of
    triplets is such that the index walk does not wrap *)
Record good_input (q : nat -> Qc) (ts : list triplet) : Prop := mkGI {
  gi_q : forall t x, In t ts -> t_x t = Some x -> 0 <= q x;
  gi_uv : forall t t' w, In t ts -> In t' ts -> t_u t = Some w -> t_v t' <> Some w;
  gi_x : forall t t' w, In t ts -> In t' ts -> t_x t = Some w -> t_u t' <> Some w /\ t_v t' <> Some w;
  gi_pos : forall t, In t ts -> fits (t_px t, t_py t, t_pz t);
  gi_n : (N.of_nat (length ts) + 1299827 <= 4294967296)%N }.
Lemma all_charges q ts : all_scs (cws_of q (build_system ts)) (s_orphans (build_system ts)) = charges (build_system ts).
Proof. unfold all_scs, charges, cws_of. f_equal. rewrite Triplet_Proofs.flat_map_map. reflexivity. Qed.
Lemma tpos_fits q ts : good_input q ts -> forall k, In k (charges (build_system ts)) -> fits (tpos ts k).
Proof. intros G k Hk. destruct (charges_t ts k Hk) as (t & E). unfold tpos. rewrite E. apply (gi_pos q ts G). eapply nth_error_In. exact E. Qed.
Lemma make_ok ex q inc ts : good_input q ts -> exists N m0, make_system ex q inc ts = Ok (build_system ts, N, m0) /\
  WF N (charges (build_system ts)) /\ n_w1 N = nth_t t_u ts /\ n_w2 N = nth_t t_v ts /\ build N (cws_of q (build_system ts)) (s_orphans (build_system ts)) = Ok m0 /\ (forall w, In w (cws_of q (build_system ts)) -> 0 <= cw_q w).
Proof.
  intros G. set (s := build_system ts). assert (Hnei : exists nei, (if inc then add_neighbours ex (tpos ts) (charges s) else Ok (fun _ => [])) = Ok nei /\
     forall k, In k (charges s) -> NoDup (map fst (nei k)) /\ forall t c, In (t, c) (nei k) -> In t (charges s) /\ t <> k /\ In (k, c) (nei t)).
  { destruct inc; [|exists (fun _ => []); split; [reflexivity|]; intros k _; split; [constructor|intros t c []]]. destruct (c52_neighbours ex (tpos ts) (charges s) (charges_nodup ts) (tpos_fits q ts G)) as (nei & E & _ & H). exists nei. split; [exact E|]. intros k Hk. split; [apply H, Hk|]. intros t c Hin. destruct (c52_symmetric ex (tpos ts) (charges s) nei (charges_nodup ts) (tpos_fits q ts G) E k t c Hk Hin) as (A & B). split; [exact A|]. split; [|exact B]. apply (proj2 (H k Hk)) in Hin. apply Hin. }
  destruct Hnei as (nei & En & Hn). set (N := mkNet (nth_t t_u ts) (nth_t t_v ts) nei q).
  assert (W : WF N (charges s)).
  { constructor.
    - apply charges_nodup.
    - intros k t c Hk Hin. exact (proj1 (proj2 (Hn k Hk) t c Hin)).
    - intros k t c Hk Hin. exact (proj2 (proj2 (proj2 (Hn k Hk) t c Hin))).
    - intros k Hk. exact (proj1 (Hn k Hk)).
    - intros k c Hk Hin. exact (proj1 (proj2 (proj2 (Hn k Hk) k c Hin)) eq_refl).
    - intros k t w Hk Ht. cbn [N n_w1 n_w2]. unfold nth_t. destruct (nth_error ts k) as [a|] eqn:Ea; [|discriminate]. destruct (nth_error ts t) as [b|] eqn:Eb; [|discriminate]. apply (gi_uv q ts G); eapply nth_error_In; eassumption. }
  assert (Q : forall w, In w (cws_of q s) -> 0 <= cw_q w).
  { intros w Hw. apply in_map_iff in Hw. destruct Hw as ((x & scs) & <- & Hin). cbn [cw_q fst]. destruct (c51_system ts) as (_ & C & _). apply C in Hin. destruct Hin as ((t & Hin & Ht) & _). exact (gi_q q ts G t x Hin Ht). }
  assert (W' : WF N (all_scs (cws_of q s) (s_orphans s))) by (unfold s; rewrite all_charges; exact W).
  destruct (build_ok N (cws_of q s) (s_orphans s) W' Q) as (m0 & E & _). exists N, m0. unfold make_system. fold s. rewrite En. cbn [obind]. fold N. rewrite E. cbn [obind]. auto 8.
Qed.
Lemma minimize_ok N cws orphans alpha : WF N (all_scs cws orphans) -> (orphans = [] \/ alpha < two) -> (forall s, In s orphans -> n_w1 N s <> None /\ n_w2 N s <> None) -> (N.of_nat (length cws) + 1299827 <= 4294967296)%N ->
  forall iters prev m, Consistent N (all_scs cws orphans) m -> Conserved cws orphans m -> exists m', minimize N alpha cws orphans (length cws) iters prev m = Ok (Some m') /\ Consistent N (all_scs cws orphans) m' /\ Conserved cws orphans m'.
Proof.
  intros W Ha Ho Hn. induction iters as [|k IH]; intros prev m C K; cbn [minimize]; [eauto|]. destruct (iterate_never_increases_energy N cws orphans alpha m W Ha Ho Hn C K) as (m' & E & C' & K' & _). rewrite E. cbn [obind]. destruct (qc_lt prev _); [eauto|]. destruct (qc_lt _ _); [eauto|]. apply IH; assumption.
Qed.
Lemma fill_in ts m hits scs : forall i p, In p (fill ts m hits scs i) <-> exists j k, nth_error scs j = Some k /\ m_pred m k <> 0 /\ p = mkSP (tpos ts k) (i + j) (m_pred m k) (hits k).
Proof.
  induction scs as [|k scs IH]; intros i p; cbn [fill].
  - split; [intros []|intros ([|j] & k & E & _); discriminate].
  - rewrite in_app_iff, IH. split.
    + intros [H|(j & k' & E & H)].
      * destruct (qc_eqb (m_pred m k) 0) eqn:Ez; [destruct H|]. destruct H as [<-|[]]. exists 0%nat, k. rewrite Nat.add_0_r. split; [reflexivity|]. split; [|reflexivity]. intros X. apply qc_eqb_spec in X. congruence.
      * exists (S j), k'. rewrite Nat.add_succ_r. auto.
    + intros ([|j] & k' & E & Hz & ->).
      * injection E as ->. left. destruct (qc_eqb (m_pred m k') 0) eqn:Ez; [apply qc_eqb_spec in Ez; contradiction|]. rewrite Nat.add_0_r. left. reflexivity.
      * right. exists j, k'. rewrite Nat.add_succ_r. auto.
Qed.
Lemma fill_sum ts m hits (F : spoint -> bool) (f : nat -> bool) scs : forall i, (forall k i, In k scs -> F (mkSP (tpos ts k) i (m_pred m k) (hits k)) = f k) ->
  qsum sp_q (filter F (fill ts m hits scs i)) = qsum (m_pred m) (filter f scs).
Proof.
  induction scs as [|k scs IH]; intros i H; cbn [fill filter]; [reflexivity|]. rewrite filter_app, qsum_app, IH by (intros k' i' Hk; apply H; right; exact Hk). destruct (qc_eqb (m_pred m k) 0) eqn:Ez.
  - apply qc_eqb_spec in Ez. cbn [filter]. destruct (f k); cbn [qsum fold_right]; rewrite ?Ez; fold (qsum (m_pred m) (filter f scs)); ring.
  - cbn [filter]. rewrite (H k i (or_introl eq_refl)). destruct (f k); cbn [qsum fold_right sp_q]; fold (qsum (m_pred m) (filter f scs)); ring.
Qed.
Lemma fill_ids ts m hits scs : forall i, (forall p, In p (fill ts m hits scs i) -> (i <= sp_id p)%nat) /\ NoDup (map sp_id (fill ts m hits scs i)).
Proof.
  induction scs as [|k scs IH]; intros i; cbn [fill]; [split; [intros p []|constructor]|]. destruct (IH (S i)) as (A & B). split.
  - intros p Hp. apply in_app_iff in Hp. destruct Hp as [Hp|Hp]; [|specialize (A p Hp); lia]. destruct (qc_eqb _ _); [destruct Hp|]. destruct Hp as [<-|[]]. cbn. lia.
  - destruct (qc_eqb _ _); [exact B|]. cbn [app map sp_id]. constructor; [|exact B]. intros X. apply in_map_iff in X. destruct X as (p & E & Hp). specialize (A p Hp). lia.
Qed.
Lemma cwire_of_wire ts x scs k : In (x, scs) (s_wires (build_system ts)) -> In k scs -> cwire_of (build_system ts) k = Some x.
Proof.
  intros Hin Hk. unfold cwire_of. destruct (c51_system ts) as (_ & C & _). assert (U : forall y l, In (y, l) (s_wires (build_system ts)) -> In k l -> y = x).
  { assert (H : forall y l, In (y, l) (s_wires (build_system ts)) -> In k l -> exists t, nth_error ts k = Some t /\ t_x t = Some y).
    { intros y l Hy Hl. apply C in Hy. destruct Hy as (_ & ->). unfold wire_triplets in Hl. destruct (existsb _ ts); apply where_in in Hl; destruct Hl as (t & E & Ht); exists t; (split; [exact E|]); [apply andb_true_iff in Ht; apply hit_is_spec, Ht|apply hit_is_spec, Ht]. }
    intros y l Hy Hl. destruct (H y l Hy Hl) as (t & E1 & E2). destruct (H x scs Hin Hk) as (t' & E1' & E2'). congruence. }
  destruct (find (fun w => existsb (Nat.eqb k) (snd w)) (s_wires (build_system ts))) as [[y l]|] eqn:E.
  - apply find_some in E. destruct E as (A & B). cbn [snd] in B. apply existsb_eqb in B. cbn. f_equal. exact (U y l A B).
  - exfalso. assert (X := find_none _ _ E (x, scs) Hin). cbn [snd] in X. assert (Y : existsb (Nat.eqb k) scs = true) by (apply existsb_eqb, Hk). congruence.
Qed.
Lemma cwire_of_orphan ts k : In k (s_orphans (build_system ts)) -> cwire_of (build_system ts) k = None.
Proof.
  intros Hk. unfold cwire_of. destruct (find (fun w => existsb (Nat.eqb k) (snd w)) (s_wires (build_system ts))) as [[y l]|] eqn:E; [|reflexivity]. exfalso. apply find_some in E. destruct E as (A & B). cbn [snd] in B. apply existsb_eqb in B.
  apply (NoDup_app_disj _ _ k (charges_nodup ts)); [apply in_flat_map; exists (y, l); split; [exact A|exact B]|exact Hk].
Qed.
(** the wire of a used space charge is that of its triplet's collection hit *)
Lemma cwire_hit ts k t : In k (charges (build_system ts)) -> nth_error ts k = Some t -> cwire_of (build_system ts) k = t_x t.
Proof.
  intros Hk Et. destruct (c51_system ts) as (_ & C & _ & O). unfold charges in Hk. apply in_app_iff in Hk. destruct Hk as [Hk|Hk].
  - apply in_flat_map in Hk. destruct Hk as ((x & scs) & Hw & Hk). cbn [snd] in Hk. rewrite (cwire_of_wire ts x scs k Hw Hk). apply C in Hw. destruct Hw as (_ & ->). unfold wire_triplets in Hk. destruct (existsb _ ts); apply where_in in Hk; destruct Hk as (t' & E & Ht); assert (t' = t) by congruence; subst t'; symmetry; [apply andb_true_iff in Ht; apply hit_is_spec, Ht|apply hit_is_spec, Ht].
  - rewrite (cwire_of_orphan ts k Hk). rewrite O in Hk. apply where_in in Hk. destruct Hk as (t' & E & Ht). assert (t' = t) by congruence. subst t'. destruct (t_x t); [discriminate|reflexivity].
Qed.
Lemma conserved_pos cws orphans m : Conserved cws orphans m -> forall k, In k (all_scs cws orphans) -> m_pred m k <> 0 -> 0 < m_pred m k.
Proof. intros (_ & H) k Hk Hz. destruct (Qcle_lt_or_eq _ _ (H k Hk)) as [X|X]; [exact X|congruence]. Qed.
Lemma nodup_le {A} (l l' : list A) : NoDup l -> (forall x, In x l -> In x l') -> (length l <= length l')%nat.
Proof. apply NoDup_incl_length. Qed.

(** from triplets to space points: all three collections hold points of positive charge with distinct ids; each final point stands for one
    triplet: its position, and exactly its hits; no triplet gives two points; and the points associated with a collection hit share
    out exactly its integral *)
Theorem c53_produce ex q alpha it0 it1 ts : good_input q ts -> alpha < two ->
  exists pre noreg final, produce ex q alpha it0 it1 ts = Ok (Some (pre, noreg, final)) /\
  (forall p, In p (pre ++ noreg ++ final) -> 0 < sp_q p) /\
  NoDup (map sp_id pre) /\ NoDup (map sp_id noreg) /\ NoDup (map sp_id final) /\
  (exists src : nat -> nat, (forall p p', In p final -> In p' final -> src (sp_id p) = src (sp_id p') -> p = p') /\
     forall p, In p final -> exists t, nth_error ts (src (sp_id p)) = Some t /\ sp_pos p = (t_px t, t_py t, t_pz t) /\ sp_hits p = hits_of t) /\
  (forall x, (exists t, In t ts /\ t_x t = Some x) -> qsum sp_q (filter (fun p => existsb (Nat.eqb x) (sp_hits p)) final) = q x).
Proof.
  intros G Ha. destruct (make_ok ex q (negb (qc_eqb alpha 0)) ts G) as (N & m0 & E & W & W1 & W2 & Eb & Q). unfold produce. rewrite E. cbn [obind fst snd]. set (s := build_system ts) in *. set (cws := cws_of q s) in *.
  assert (Hall : all_scs cws (s_orphans s) = charges s) by apply all_charges. assert (W' : WF N (all_scs cws (s_orphans s))) by (rewrite Hall; exact W).
  destruct (solver_consistent_and_conserving N cws (s_orphans s) W' Q) as (m0' & E0 & Hops). assert (m0' = m0) by congruence. subst m0'. destruct (Hops [] (fun o H => match H with end)) as (m0' & E0' & C0 & K0). cbn [foreach] in E0'. injection E0' as <-.
  assert (Ho : forall k, In k (s_orphans s) -> n_w1 N k <> None /\ n_w2 N k <> None).
  { intros k Hk. destruct (c51_system ts) as (_ & _ & _ & O). fold s in O. rewrite O in Hk. apply where_in in Hk. destruct Hk as (t & Et & Ht). rewrite W1, W2. unfold nth_t. rewrite Et. apply andb_true_iff in Ht. destruct Ht as (Ht & _). apply andb_true_iff in Ht. destruct Ht as (_ & Ht). unfold full in Ht. destruct (t_u t), (t_v t); try discriminate. split; discriminate. }
  assert (Hn : (N.of_nat (length cws) + 1299827 <= 4294967296)%N).
  { assert (L : (length cws <= length ts)%nat). { unfold cws, cws_of. rewrite map_length. destruct (c51_system ts) as (Nd & C & Ne & _). fold s in Nd, C, Ne.
      assert (L1 : (length (s_wires s) <= length (flat_map snd (s_wires s)))%nat). { clear -Ne. induction (s_wires s) as [|[x l] ws IH]; cbn; [lia|]. rewrite app_length. assert (l <> []) by (apply (Ne x l); left; reflexivity). destruct l; [congruence|]. cbn. assert (forall x scs, In (x, scs) ws -> scs <> []) by (intros y l' Hy; apply (Ne y l'); right; exact Hy). specialize (IH H0). lia. }
      assert (L2 := Permutation_length (account ts)). fold s in L2. rewrite app_length, seq_length in L2. unfold charges in L2. rewrite app_length in L2. lia. }
    assert (X := gi_n q ts G). lia. }
  destruct (minimize_ok N cws (s_orphans s) 0 W' (or_intror two_pos) Ho Hn it0 (metric_cwires N 0 cws m0) m0 C0 K0) as (m1 & E1 & C1 & K1). rewrite E1. cbn [obind].
  destruct (minimize_ok N cws (s_orphans s) alpha W' (or_intror Ha) Ho Hn it1 (metric_cwires N alpha cws m1) m1 C1 K1) as (m2 & E2 & C2 & K2). rewrite E2. cbn [obind]. eexists. eexists. eexists. split; [reflexivity|].
  assert (Hin2 : forall k, In k (s_orphans s ++ flat_map snd (s_wires s)) <-> In k (charges s)) by (intros k; unfold charges; rewrite !in_app_iff; tauto).
  split; [|split; [apply fill_ids|split; [apply fill_ids|split; [apply fill_ids|split]]]].
  - intros p Hp. apply in_app_iff in Hp. destruct Hp as [Hp|Hp]; [|apply in_app_iff in Hp; destruct Hp as [Hp|Hp]]; apply fill_in in Hp; destruct Hp as (j & k & Ej & Hz & ->); cbn [sp_q]; apply nth_error_In in Ej.
    + apply (conserved_pos _ _ _ K0); [rewrite Hall; exact Ej|exact Hz].
    + apply (conserved_pos _ _ _ K1); [rewrite Hall; exact Ej|exact Hz].
    + apply (conserved_pos _ _ _ K2); [rewrite Hall; apply Hin2, Ej|exact Hz].
  - set (L := s_orphans s ++ flat_map snd (s_wires s)) in *. assert (Ndl : NoDup L) by (apply (Permutation_NoDup (Permutation_app_comm _ _)), (charges_nodup ts)). exists (fun i => nth i L 0%nat). split.
    + intros p p' Hp Hp'. apply fill_in in Hp, Hp'. destruct Hp as (j & k & Ej & Hz & ->). destruct Hp' as (j' & k' & Ej' & Hz' & ->). cbn [sp_id plus]. fold L in Ej, Ej'. rewrite (nth_error_nth _ _ 0%nat Ej), (nth_error_nth _ _ 0%nat Ej'). intros <-. rewrite NoDup_nth_error in Ndl. assert (j = j') by (apply Ndl; [apply nth_error_Some; congruence|congruence]). subst j'. reflexivity.
    + intros p Hp. apply fill_in in Hp. destruct Hp as (j & k & Ej & Hz & ->). cbn [sp_id sp_pos sp_hits plus]. fold L in Ej. rewrite (nth_error_nth _ _ 0%nat Ej). assert (Hk : In k (charges s)) by (apply Hin2; eapply nth_error_In; exact Ej). destruct (charges_t ts k Hk) as (t & Et). exists t. split; [exact Et|]. unfold tpos. rewrite Et. split; [reflexivity|]. unfold assns, hits_of. assert (X := cwire_hit ts k t Hk Et). fold s in X. rewrite X. unfold nth_t. rewrite Et. reflexivity.
  - intros x Hx. destruct (c51_system ts) as (Ndw & C & Ne & O). fold s in Ndw, C, Ne, O. assert (Hw : In (x, wire_triplets ts x) (s_wires s)) by (apply C; auto).
    assert (Hc : qsum (m_pred m2) (wire_triplets ts x) = q x). { destruct K2 as (K2 & _). apply (K2 (mkCW (q x) (wire_triplets ts x))); [apply in_map_iff; exists (x, wire_triplets ts x); auto|exact (Ne x _ Hw)]. }
    unfold fill_assns. fold s. rewrite (fill_sum ts m2 (assns ts s) _ (fun k => match nth_error ts k with Some t => hit_is (t_x t) x | None => false end)).
    + rewrite <- Hc. apply qsum_perm. apply NoDup_Permutation; [apply NoDup_filter, (Permutation_NoDup (Permutation_app_comm _ _)), (charges_nodup ts)|unfold wire_triplets; destruct (existsb _ ts); apply where_nodup|].
      intros k. rewrite filter_In. split.
      * intros (Hk & Hh). apply Hin2 in Hk. destruct (nth_error ts k) as [t|] eqn:Et; [|discriminate]. apply hit_is_spec in Hh. unfold charges in Hk. apply in_app_iff in Hk. destruct Hk as [Hk|Hk].
        -- apply in_flat_map in Hk. destruct Hk as ((y & l) & Hy & Hk). cbn [snd] in Hk. assert (X := cwire_of_wire ts y l k Hy Hk). rewrite (cwire_hit ts k t) in X by (try exact Et; unfold charges; apply in_or_app; left; apply in_flat_map; exists (y, l); auto). assert (y = x) by congruence. subst y. apply C in Hy. destruct Hy as (_ & <-). exact Hk.
        -- exfalso. assert (X := cwire_of_orphan ts k Hk). rewrite (cwire_hit ts k t) in X by (try exact Et; unfold charges; apply in_or_app; right; exact Hk). congruence.
      * intros Hk. split; [apply Hin2; unfold charges; apply in_or_app; left; apply in_flat_map; exists (x, wire_triplets ts x); auto|]. unfold wire_triplets in Hk. destruct (existsb _ ts); apply where_in in Hk; destruct Hk as (t & Et & Ht); rewrite Et; [apply andb_true_iff in Ht; apply Ht|exact Ht].
    + intros k i Hk. cbn [sp_hits]. apply Hin2 in Hk. destruct (charges_t ts k Hk) as (t & Et). rewrite Et. unfold assns. assert (X := cwire_hit ts k t Hk Et). fold s in X. rewrite X. clear X. unfold nth_t. rewrite Et. destruct Hx as (t0 & Ht0 & Ex0). assert (Hin := nth_error_In _ _ Et). destruct (gi_x q ts G t0 t x Ht0 Hin Ex0) as (Xu & Xv).
      rewrite !existsb_app. destruct (t_u t) as [a|], (t_v t) as [b|]; cbn [opt_list existsb]; rewrite ?orb_false_r; try (destruct (Nat.eqb_spec x a); [congruence|]); try (destruct (Nat.eqb_spec x b); [congruence|]); rewrite ?orb_false_r; destruct (t_x t) as [c|]; cbn; rewrite ?orb_false_r; try reflexivity; apply Nat.eqb_sym.
Qed.
Print Assumptions c51_system. Print Assumptions c51_account. Print Assumptions c52_neighbours. Print Assumptions c52_symmetric. Print Assumptions c53_produce.

(* ------------------------------------------------------------ non-vacuity *)
Definition ex_t (x u v : option nat) (a b c : Q) : triplet := mkT x u v (Q2Qc a) (Q2Qc b) (Q2Qc c).
Definition ex_ts : list triplet :=
  [ex_t (Some 10%nat) (Some 20%nat) (Some 30%nat) 1 1 1; ex_t (Some 10%nat) (Some 21%nat) None 2 1 1; ex_t (Some 11%nat) (Some 21%nat) None (-3) 0 (-1);
   ex_t None (Some 21%nat) (Some 30%nat) 1 0 0; ex_t None (Some 20%nat) (Some 30%nat) 0 0 0; ex_t None (Some 20%nat) None 0 0 0;
   ex_t (Some 10%nat) (Some 22%nat) (Some 30%nat) 40 1 1].
Definition ex_q (h : nat) : Qc := match h with 10%nat => Q2Qc 8 | 11%nat => Q2Qc 3 | _ => Q2Qc 4 end.
Definition ex_e (d : Qc) : Qc := 1 / (1 + d).
Example ex_good : good_input ex_q ex_ts.
Proof.
  constructor.
  - intros t x _ _. unfold ex_q. do 12 (destruct x; [discriminate|]). discriminate.
  - intros t t' w H H' E. repeat (destruct H as [<-|H]); try destruct H; cbn in E; try discriminate; injection E as <-; repeat (destruct H' as [<-|H']); try destruct H'; cbn; discriminate.
  - intros t t' w H H' E. repeat (destruct H as [<-|H]); try destruct H; cbn in E; try discriminate; injection E as <-; repeat (destruct H' as [<-|H']); try destruct H'; cbn; split; discriminate.
  - intros t H. cbn in H. intuition (subst; cbv [fits ex_t fst snd t_px t_py t_pz]; repeat split; discriminate).
  - vm_compute. discriminate.
Qed.
Example ex_sys : build_system ex_ts = mkSys [(10%nat, [0; 6]%nat); (11%nat, [2]%nat)] [3%nat] [1; 4]%nat. Proof. reflexivity. Qed.
Example ex_nei : match add_neighbours ex_e (tpos ex_ts) (charges (build_system ex_ts)) with
  | Ok nei => map (fun k => map (fun p => (fst p, this (snd p))) (nei k)) [0; 6; 2; 3; 1]%nat | _ => [] end
  = [[(2%nat, 1 # 22); (3%nat, 1 # 3)]; []; [(0%nat, 1 # 22); (3%nat, 1 # 18)]; [(0%nat, 1 # 3); (2%nat, 1 # 18)]; []]%Q.
Proof. vm_compute. reflexivity. Qed.
Example ex_produce : match produce ex_e ex_q (Q2Qc (1 # 10)) 2 2 ex_ts with
  | Ok (Some (pre, noreg, final)) => (map (fun p => (sp_id p, this (sp_q p))) pre, map (fun p => (sp_id p, sp_hits p)) final, map (fun p => negb (qc_eqb (sp_q p) 0)) noreg) | _ => ([], [], []) end
  = ([(0, 4%Q); (1, 4%Q); (2, 3%Q)], [(1, [10; 20; 30]); (2, [10; 22; 30]); (3, [11; 21])], [true; true; true])%nat.
Proof. vm_compute. reflexivity. Qed.
