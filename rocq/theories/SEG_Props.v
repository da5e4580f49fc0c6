(** SimpleClustering and Segmentation2D: theorems *)
From Coq Require Import QArith Qcanon Permutation Sorted Lqa.
From Verif Require Import Base QcUtil SortUtil Solver_Model Solver_Proofs SEG_Model SEG_Spec SEG_Simple SEG_Split SEG_Run SEG_Tag SEG_Dense SEG_Whole TJ_Proofs.
Import SEG_Model.
Local Open Scope nat_scope.

(** * SimpleClustering *)
(** C149: it ends for every list of hits, and puts each hit into exactly one cluster; no cluster is empty *)
Theorem simple_partition inp : exists cls, returns (fun n => simple n inp) cls /\ Permutation (concat cls) inp /\ ~ In [] cls.
Proof.
  destruct (simple_ends inp) as (cls & E). exists cls. split; [exists (S (length inp)); intros n L; apply E; lia|]. specialize (E (S (length inp)) (le_n _)). split; [apply (simple_perm _ _ _ E)|]. intros I. apply (simple_nonempty _ _ _ E [] I). reflexivity.
Qed.
Print Assumptions simple_partition.

Lemma returns_simple inp cls : returns (fun n => simple n inp) cls -> exists n, simple n inp = Some cls.
Proof. intros (n & E). exists n. apply E. lia. Qed.
(** C150: the clusters are the classes of hits that chains of touching hits connect — away from wire 0 *)
Theorem simple_components_partial inp cls : (forall h, In h inp -> sane h) -> returns (fun n => simple n inp) cls -> forall a b, In a inp -> together cls a b <-> linked inp a b.
Proof. intros Sn R. destruct (returns_simple _ _ R) as (n & E). apply (components inp Sn n cls E). Qed.
Print Assumptions simple_components_partial.
(** and so the clusters do not depend on the order of the hits *)
Theorem simple_any_order_partial inp inp' cls cls' : (forall h, In h inp -> sane h) -> Permutation inp inp' -> returns (fun n => simple n inp) cls -> returns (fun n => simple n inp') cls' -> forall a b, In a inp -> together cls a b <-> together cls' a b.
Proof.
  intros Sn P R R' a b Ia. assert (Sn' : forall h, In h inp' -> sane h) by (intros h Ih; apply Sn, (Permutation_in _ (Permutation_sym P)), Ih).
  rewrite (simple_components_partial inp cls Sn R a b Ia), (simple_components_partial inp' cls' Sn' R' a b (Permutation_in _ P Ia)).
  assert (G : forall l l', Permutation l l' -> linked l a b -> linked l' a b). { clear. intros l l' P H. induction H as [x y (A & B & C)|x|x y z _ IH1 _ IH2]; [apply rt_step; split; [apply (Permutation_in _ P A)|]; split; [apply (Permutation_in _ P B)|exact C]|apply rt_refl|apply (rt_trans _ _ _ y); assumption]. }
  split; apply G; [exact P|apply Permutation_sym, P].
Qed.
Print Assumptions simple_any_order_partial.

Definition q (a : Z) (b : positive) : Qc := Q2Qc (a # b).
(** a hit on wire [w], ticks [t] to [u], at the place (x, y) *)
Definition mk (k : nat) (w t u : Z) (x y : Qc) : hit := Hit k w t u (q (t + u) 2) (x, y) 0 0 0.
(** two hits on wire 0, one following the other *)
Definition edge : list hit := [mk 0 0 0 1 (q 0 1) (q 0 1); mk 1 0 2 3 (q 0 1) (q 1 1)].
Theorem simple_components_refuted : ~ (forall inp cls, (forall h, In h inp -> (0 <= wire h < 4294967295)%Z /\ (tick0 h <= tick1 h)%Z) -> returns (fun n => simple n inp) cls -> forall a b, In a inp -> together cls a b <-> linked inp a b).
Proof.
  intros G. specialize (G edge [[mk 0 0 0 1 (q 0 1) (q 0 1)]; [mk 1 0 2 3 (q 0 1) (q 1 1)]]).
  assert (X : returns (fun n => simple n edge) [[mk 0 0 0 1 (q 0 1) (q 0 1)]; [mk 1 0 2 3 (q 0 1) (q 1 1)]]) by (exists 1; intros n L; destruct n; [lia|vm_compute; reflexivity]).
  specialize (G ltac:(intros h [<-|[<-|[]]]; cbn; lia) X (mk 0 0 0 1 (q 0 1) (q 0 1)) (mk 1 0 2 3 (q 0 1) (q 1 1)) ltac:(left; reflexivity)).
  destruct G as [_ G]. destruct G as (c & [<-|[<-|[]]] & A & B).
  - apply rt_step. split; [left; reflexivity|]. split; [right; left; reflexivity|]. unfold neighbours. cbn. split; [lia|]. split; [lia|]. split; [lia|]. intros [_ Y]. apply (f_equal this) in Y. vm_compute in Y. discriminate.
  - destruct B as [B|[]]. discriminate.
  - destruct A as [A|[]]. discriminate.
Qed.
Print Assumptions simple_components_refuted.
(** the hypotheses can be met: three hits on wires 4, 5, 6, the first two a chain, the third far off *)
Example simple_case : let l := [mk 0 4 0 2 (q 0 1) (q 0 1); mk 1 6 50 51 (q 2 1) (q 5 1); mk 2 5 3 4 (q 1 1) (q 0 1)] in
  (forall h, In h l -> sane h) /\ returns (fun n => simple n l) [[mk 0 4 0 2 (q 0 1) (q 0 1); mk 2 5 3 4 (q 1 1) (q 0 1)]; [mk 1 6 50 51 (q 2 1) (q 5 1)]].
Proof. cbv zeta. split; [intros h [<-|[<-|[<-|[]]]]; split; cbn; lia|]. exists 1. intros n L. destruct n; [lia|]. vm_compute. reflexivity. Qed.

(** * Segmentation2D::run *)
(** a concrete sort that keeps what the standard promises *)
Definition nearest_first (p : pt) (l : list hit) : list hit := isort (fun a b => qc_lt (dist2 (pos a) p) (dist2 (pos b) p)) l.
Lemma nearest_sorts : sorts nearest_first.
Proof.
  intros p l. split; [apply isort_perm|]. unfold nearest_first. assert (Sf := isort_sorted (fun a b => qc_lt (dist2 (pos a) p) (dist2 (pos b) p))). cbv beta in Sf.
  assert (G : StronglySorted (fun a b => qc_lt (dist2 (pos b) p) (dist2 (pos a) p) = false) (isort (fun a b => qc_lt (dist2 (pos a) p) (dist2 (pos b) p)) l)).
  { apply Sf; intros a b; [intros c; rewrite !qc_lt_false; intros X Y; apply (Qcle_trans _ _ _ X Y)|]. rewrite qc_lt_spec, qc_lt_false. apply Qclt_le_weak. }
  clear Sf. induction G as [|x m G IH F]; constructor; [exact IH|]. rewrite Forall_forall in *. intros y Y. apply qc_lt_false, F, Y.
Qed.

(** C151: no hit is in two clusters, and at most one hit is in none *)
Theorem segmentation_hits_partial srt cf inp g : sorts srt -> usable cf -> distinct inp -> returns (fun n => run srt cf n inp) (Ok g) ->
  (exists left, length left <= 1 /\ Permutation (concat (map hs g) ++ left) inp) /\ ~ In [] (map hs g).
Proof.
  intros So U D R. destruct (run_ok srt So cf U inp D) as (segs & left & tg & g' & R' & P & L & Pc & Lt & Tg & (F & Pg & _) & _). assert (g' = g) by (pose proof (returns_fun _ _ _ R R'); congruence). subst g'. split.
  - exists left. split; [exact L|]. rewrite Pg. rewrite <- P. apply Permutation_app_tail.
    replace (map hs tg) with (map hs segs); [reflexivity|]. apply (nth_ext_length []); [rewrite !map_length; lia|]. intros i Hi. rewrite map_length in Hi. destruct (nth_error segs i) as [c|] eqn:Ec; [|apply nth_error_None in Ec; lia]. destruct (Tg i c Ec) as (d & Ed & Hd & _). rewrite (nth_error_nth _ _ _ (map_nth_error hs i tg Ed)), (nth_error_nth _ _ _ (map_nth_error hs i segs Ec)). congruence.
  - intros I. apply in_map_iff in I as (c & E & I). unfold full in F. rewrite Forall_forall in F. apply (F c I E).
Qed.
Print Assumptions segmentation_hits_partial.
Definition std (line rmin : Qc) (minN : nat) : cfg := Cfg rmin (q 6 10) line (q 1 1) minN (q 5 1) 100.
(** two touching hits farther apart than the ring: the second one is dropped *)
Definition pair_ : list hit := [mk 0 5 0 10 (q 0 1) (q 0 1); mk 1 6 10 20 (q 1 1) (q 3 1)].
Theorem segmentation_hits_refuted : ~ (forall srt cf inp g, sorts srt -> usable cf -> distinct inp -> (forall h, In h inp -> sane h) -> (forall a b, In a inp -> In b inp -> linked inp a b) -> returns (fun n => run srt cf n inp) (Ok g) -> Permutation (concat (map hs g)) inp).
Proof.
  intros G. specialize (G nearest_first (std (q 2 10) (q 1 10) 5) pair_ [fresh [mk 0 5 0 10 (q 0 1) (q 0 1)]] nearest_sorts).
  assert (Permutation (concat (map hs [fresh [mk 0 5 0 10 (q 0 1) (q 0 1)]])) pair_) as X; [|apply Permutation_length in X; discriminate]. apply G.
  - split; [|split]; [intros X|intros X|cbn; lia]; apply (f_equal this) in X; vm_compute in X; discriminate.
  - unfold distinct. cbn. repeat constructor; cbn; intuition lia.
  - intros h [<-|[<-|[]]]; split; cbn; lia.
  - assert (N : linked pair_ (mk 0 5 0 10 (q 0 1) (q 0 1)) (mk 1 6 10 20 (q 1 1) (q 3 1))) by (apply rt_step; split; [left; reflexivity|]; split; [right; left; reflexivity|]; unfold neighbours; cbn; lia).
    assert (Sn : forall h, In h pair_ -> sane h) by (intros h [<-|[<-|[]]]; split; cbn; lia).
    intros a b [<-|[<-|[]]] [<-|[<-|[]]]; [apply rt_refl|exact N|apply (linked_sym pair_), N|apply rt_refl].
  - exists 5. intros n L. do 5 (destruct n; [lia|]). vm_compute. reflexivity.
Qed.
Print Assumptions segmentation_hits_refuted.

(** C152: it ends *)
Theorem segmentation_ends_partial srt cf inp : sorts srt -> usable cf -> distinct inp -> exists g, returns (fun n => run srt cf n inp) (Ok g).
Proof. intros So U D. destruct (run_ok srt So cf U inp D) as (segs & left & tg & g & R & _). eauto. Qed.
Print Assumptions segmentation_ends_partial.
(** MaxLineDist = 0: no hit is ever taken *)
Definition close_pair : list hit := [mk 0 5 0 1 (q 0 1) (q 0 1); mk 1 5 2 3 (q 0 1) (q 5 10)].
Theorem segmentation_hangs_line : distinct close_pair /\ (forall h, In h close_pair -> sane h) /\ hangs (fun n => run nearest_first (std (q 0 1) (q 1 10) 5) n close_pair).
Proof.
  split; [unfold distinct; cbn; repeat constructor; cbn; intuition lia|]. split; [intros h [<-|[<-|[]]]; split; cbn; lia|].
  assert (G : forall n, split_loop nearest_first (std (q 0 1) (q 1 10) 5) n close_pair [] = None).
  { induction n as [|n IH]; [vm_compute; reflexivity|].
    assert (E1 : centers_loop nearest_first (std (q 0 1) (q 1 10) 5) (S n) (St close_pair [] [(q 0 1, q 0 1)]) = Some (Ok (St close_pair [] []))) by (destruct n; vm_compute; reflexivity).
    assert (E2 : outermost close_pair = Some (mk 0 5 0 1 (q 0 1) (q 0 1))) by (vm_compute; reflexivity).
    cbn [split_loop]. change (length close_pair <=? 1) with false. cbv iota. rewrite E2. change (pos (mk 0 5 0 1 (q 0 1) (q 0 1))) with (q 0 1, q 0 1). rewrite E1. exact IH. }
  intros n. unfold run. rewrite G. reflexivity.
Qed.
Print Assumptions segmentation_hangs_line.
(** DenseMinNVtx = 0 with sensible widths: ten hits in four places *)
Definition places (n : nat) : list hit :=
  [mk 0 5 100 100 (q 0 1) (q (-10) 1); mk 1 5 200 200 (q 0 1) (q 0 1); mk 2 5 201 201 (q 3 10) (q 4 10); mk 3 5 300 300 (q (-8) 10) (q 4 10)] ++ map (fun k => mk (4 + k) 5 (500 + Z.of_nat k) (500 + Z.of_nat k) (q 0 1) (q 5 1)) (seq 0 n).
Definition ten : list hit := places 6.
Lemma ten_ok : distinct ten /\ forall h, In h ten -> sane h.
Proof. split; [unfold distinct; cbn; repeat constructor; cbn; intuition lia|]. intros h I. cbn in I. repeat (destruct I as [<-|I]; [split; cbn; lia|]). destruct I. Qed.
(** the value of a computation that ends *)
Definition got {A} (o : option (outcome A)) (d : A) : A := match o with Some (Ok a) => a | _ => d end.
Lemma got_eq {A} (o : option (outcome A)) d : match o with Some (Ok _) => true | _ => false end = true -> o = Some (Ok (got o d)).
Proof. destruct o as [[a| |]|]; cbn; congruence. Qed.
Definition gotten_ {A} (o : outcome A) (d : A) : A := match o with Ok a => a | _ => d end.
Lemma gotten {A} (o : outcome A) d : match o with Ok _ => true | _ => false end = true -> o = Ok (gotten_ o d).
Proof. destruct o; cbn; congruence. Qed.
Definition stuck_at : list clu := gotten_ (tag_dense (std (q 2 10) (q 1 10) 0) (snd (got (split_loop nearest_first (std (q 2 10) (q 1 10) 0) 12 ten []) ([], [])))) [].
Fixpoint steps (cf : cfg) (k : nat) (g : list clu) : list clu :=
  match k with 0 => g | S k => match look cf g with Ok b => match chosen b with Some (i, l) => match merge_clusters g (l ++ [i]) with Ok (g', Some m) => match (do c <- idx g' m; set_idx g' m (set_em c)) with Ok g2 => steps cf k g2 | _ => [] end | _ => [] end | None => [] end | _ => [] end end.
Lemma steps_eq cf : forall k g, steps cf k g <> [] -> forall n, merge_dense cf (k + n) g = merge_dense cf n (steps cf k g).
Proof.
  induction k as [|k IH]; intros g N n; [reflexivity|]. cbn [steps plus merge_dense] in *. destruct (look cf g) as [b| |]; try congruence. destruct (chosen b) as [[i l]|]; [|congruence]. destruct (merge_clusters g (l ++ [i])) as [[g' [m|]]| |]; try congruence. destruct (do c <- idx g' m; set_idx g' m (set_em c)) as [g2| |]; try congruence. apply IH. exact N.
Qed.
Lemma md_short cf k g : steps cf k g <> [] -> forall n, n <= k -> merge_dense cf n g = None.
Proof.
  revert g. induction k as [|k IH]; intros g N n L; [destruct n; [reflexivity|lia]|]. destruct n as [|n]; [reflexivity|]. cbn [steps merge_dense] in *. destruct (look cf g) as [b| |]; try congruence. destruct (chosen b) as [[i l]|]; [|congruence]. destruct (merge_clusters g (l ++ [i])) as [[g' [m|]]| |]; try congruence. destruct (do c <- idx g' m; set_idx g' m (set_em c)) as [g2| |]; try congruence. apply IH; [exact N|lia].
Qed.
Lemma loops cf g k : steps cf k g <> [] -> steps cf 1 (steps cf k g) = steps cf k g -> forall n, merge_dense cf n g = None.
Proof.
  intros N L. assert (H : forall n, merge_dense cf n (steps cf k g) = None). { induction n as [|n IH]; [reflexivity|]. change (S n) with (1 + n). rewrite steps_eq by (rewrite L; exact N). rewrite L. exact IH. }
  intros n. destruct (Nat.le_gt_cases n k) as [A|A]; [apply (md_short cf k g N n A)|]. replace n with (k + (n - k)) by lia. rewrite (steps_eq cf k g N). apply H.
Qed.
Theorem segmentation_hangs_minN : sorts nearest_first /\ distinct ten /\ (forall h, In h ten -> sane h) /\ hangs (fun n => run nearest_first (std (q 2 10) (q 1 10) 0) n ten).
Proof.
  split; [exact nearest_sorts|]. split; [apply ten_ok|]. split; [apply ten_ok|].
  assert (Mg : forall n, merge_dense (std (q 2 10) (q 1 10) 0) n stuck_at = None).
  { apply (loops _ _ 4); [|vm_compute; reflexivity]. remember (steps (std (q 2 10) (q 1 10) 0) 4 stuck_at) as s eqn:E. vm_compute in E. rewrite E. discriminate. }
  assert (Sp : exists left segs, split_loop nearest_first (std (q 2 10) (q 1 10) 0) 12 ten [] = Some (Ok (left, segs)) /\ tag_dense (std (q 2 10) (q 1 10) 0) segs = Ok stuck_at) 
    by (eexists (fst (got (split_loop nearest_first (std (q 2 10) (q 1 10) 0) 12 ten []) ([], []))), (snd (got (split_loop nearest_first (std (q 2 10) (q 1 10) 0) 12 ten []) ([], []))); split; [rewrite <- surjective_pairing; apply got_eq; vm_compute; reflexivity|apply gotten; vm_compute; reflexivity]).
  destruct Sp as (left & segs & E & T). clear -Mg E T. intros n. destruct (Nat.le_gt_cases n 12) as [L|L].
  - clear -L. do 13 (destruct n as [|n]; [vm_compute; reflexivity|]). lia.
  - unfold run. rewrite (split_more _ _ _ _ _ _ E n) by lia. rewrite T. apply Mg.
Qed.
Print Assumptions segmentation_hangs_minN.
Theorem segmentation_ends_refuted : ~ (forall srt cf inp, sorts srt -> distinct inp -> (0 < f_line cf)%Qc -> (0 < f_rmin cf)%Qc -> (f_rmin cf < f_rmax cf)%Qc -> exists r, returns (fun n => run srt cf n inp) r).
Proof.
  intros G. destruct segmentation_hangs_minN as (S1 & S2 & _ & Hg). destruct (G nearest_first (std (q 2 10) (q 1 10) 0) ten S1 S2) as (r & n & R); [vm_compute; reflexivity|vm_compute; reflexivity|vm_compute; reflexivity|]. specialize (R n (le_n _)). rewrite Hg in R. discriminate.
Qed.
Print Assumptions segmentation_ends_refuted.

(** C153: the flags of tagDenseEnds are exactly right ... *)
Theorem dense_flags cf g0 : ~ In [] (map hs g0) -> exists g, tag_dense cf g0 = Ok g /\ length g = length g0 /\ forall i c, nth_error g0 i = Some c -> exists d, nth_error g i = Some d /\ hs d = hs c /\ em d = em c /\
  (dstart d = true <-> dstart c = true \/ end_near (f_vrad cf) g0 i (first_of c)) /\ (dend d = true <-> dend c = true \/ end_near (f_vrad cf) g0 i (last_of c)).
Proof.
  intros N. destruct (tag_exact cf g0) as (g & E & L & T); [apply Forall_forall; intros c C X; apply N; rewrite <- X; apply in_map, C|]. exists g. split; [exact E|]. split; [exact L|]. intros i c Ei. destruct (T i c Ei) as (d & A & B & _ & X). exists d. tauto.
Qed.
Print Assumptions dense_flags.
(** ... and when run returns, no track-like segment has more than DenseMinNVtx ends of track-like segments around either end *)
Theorem no_dense_vertex_left srt cf inp g : sorts srt -> usable cf -> distinct inp -> returns (fun n => run srt cf n inp) (Ok g) ->
  forall i c, nth_error g i = Some c -> em c = false -> count_ends (f_vrad cf) g i (first_of c) <= f_minN cf /\ count_ends (f_vrad cf) g i (last_of c) <= f_minN cf.
Proof.
  intros So U D R i c Ei Em. destruct (run_ok srt So cf U inp D) as (segs & left & tg & g' & R' & P & L & Pc & Lt & Tg & (F & Pg & Md) & Th). assert (g' = g) by (pose proof (returns_fun _ _ _ R R'); congruence). subst g'. destruct U as (_ & _ & U3).
  assert (Hh : map hs tg = map hs segs). { apply (nth_ext_length []); [rewrite !map_length; exact Lt|]. intros k Hi. rewrite map_length in Hi. destruct (nth_error segs k) as [x|] eqn:Ec; [|apply nth_error_None in Ec; lia]. destruct (Tg k x Ec) as (d & Ed & Hd & _). rewrite (nth_error_nth _ _ _ (map_nth_error hs k tg Ed)), (nth_error_nth _ _ _ (map_nth_error hs k segs Ec)). exact Hd. }
  assert (Dg : NoDup (map key (concat (map hs g)))). { apply (distinct_perm (concat (map hs segs))); [rewrite Pg, Hh; reflexivity|]. apply (distinct_perm _ _ (Permutation_sym P)), distinct_app in D. apply D. }
  (* where a track-like cluster of the result comes from *)
  assert (Src : forall j d, nth_error g j = Some d -> em d = false -> exists k s, nth_error segs k = Some s /\ hs s = hs d /\ (dstart d = true <-> end_near (f_vrad cf) segs k (first_of d)) /\ (dend d = true <-> end_near (f_vrad cf) segs k (last_of d))).
  { intros j d Ej Ed. rewrite Forall_forall in Md. destruct (Md d (nth_error_In _ _ Ej)) as (Mo & _). destruct (Mo Ed) as (o & Io & Ho & Hs & He & _). apply In_nth_error in Io as (k & Ek). destruct (nth_error segs k) as [s|] eqn:Es; [|apply nth_error_None in Es; assert (nth_error tg k <> None) by congruence; apply nth_error_Some in H; lia].
    destruct (Tg k s Es) as (o' & Eo & Ho' & _ & T1 & T2). assert (o' = o) by congruence. subst o'. exists k, s. assert (Hsd : hs s = hs d) by congruence. split; [exact Es|]. split; [exact Hsd|]. destruct (core_ends d s Hsd) as (F1 & F2). rewrite <- F1, <- F2, <- Hs, <- He. split; assumption. }
  assert (Far : forall p (b : bool), (forall k s, nth_error segs k = Some s -> hs s = hs c -> b = false -> ~ end_near (f_vrad cf) segs k p) -> b = false -> count_ends (f_vrad cf) g i p <= 1).
  { intros p b Hp Eb. apply count_le1. intros j d Nj Ej Ed. destruct (Src j d Ej Ed) as (k2 & s2 & E2 & H2 & _). destruct (Src i c Ei Em) as (k1 & s1 & E1 & H1 & _). destruct (core_ends d s2 H2) as (F1 & F2).
    assert (Nk : k2 <> k1). { intros ->. assert (s2 = s1) by congruence. subst s2. assert (Hne : hs c <> []) by (apply (full_nth g i c F Ei)). destruct (hs c) as [|h r] eqn:Hc; [congruence|]. apply (nodup_two g i j c d h Dg Ei Ej); [congruence|rewrite Hc; left; reflexivity|]. rewrite <- H2, H1. left. reflexivity. }
    specialize (Hp k1 s1 E1 H1 Eb). split; intros X; apply Hp; exists k2, s2; (split; [exact Nk|]); (split; [exact E2|]); rewrite F1, F2; auto. }
  assert (Uniq : forall k s k1 s1, nth_error segs k = Some s -> hs s = hs c -> nth_error segs k1 = Some s1 -> hs s1 = hs c -> k = k1).
  { intros k s k1 s1 A B A1 B1. destruct (Nat.eq_dec k k1) as [X|X]; [exact X|]. exfalso. assert (Hne : hs c <> []) by (apply (full_nth g i c F Ei)). destruct (hs c) as [|h r] eqn:Hc; [congruence|]. apply (nodup_two segs k k1 s s1 h); auto; [|rewrite B; left; reflexivity|rewrite B1; left; reflexivity]. apply (distinct_perm _ _ (Permutation_sym P)), distinct_app in D. apply D. }
  destruct (Src i c Ei Em) as (k1 & s1 & E1 & H1 & T1 & T2). destruct (Th i c Ei Em) as (Th1 & Th2).
  assert (C1 : count_ends (f_vrad cf) g i (first_of c) <= f_minN cf).
  { destruct (dstart c) eqn:Ds; [apply Th1; reflexivity|]. etransitivity; [|exact U3]. apply (Far (first_of c) (dstart c)); [|exact Ds]. intros k s A B _ X. assert (k = k1) by (apply (Uniq k s k1 s1); assumption). subst k. apply T1 in X. discriminate. }
  split; [exact C1|]. destruct (dend c) eqn:De.
  - destruct (Nat.lt_ge_cases 1 (length (hs c))) as [Ln|Ln]; [apply Th2; auto|]. assert (Hne : hs c <> []) by (apply (full_nth g i c F Ei)). assert (Efl : last_of c = first_of c) by (unfold last_of, first_of; destruct (hs c) as [|h [|h2 r]]; [congruence|reflexivity|cbn in Ln; lia]). rewrite Efl. exact C1.
  - etransitivity; [|exact U3]. apply (Far (last_of c) (dend c)); [|exact De]. intros k s A B _ X. assert (k = k1) by (apply (Uniq k s k1 s1); assumption). subst k. apply T2 in X. discriminate.
Qed.
Print Assumptions no_dense_vertex_left.

(** C154: what merging does *)
(** the full claims: a segment with a dense vertex becomes EM ... *)
Definition dense_becomes_em : Prop := forall srt cf inp segs g, sorts srt -> usable cf -> distinct inp -> (forall h, In h inp -> sane h) -> f_minN cf <= 1000 ->
  returns (fun n => run srt (with_minN cf 1000) n inp) (Ok segs) -> (forall c, In c segs -> em c = false) -> returns (fun n => run srt cf n inp) (Ok g) ->
  forall i c, nth_error segs i = Some c -> f_minN cf < count_ends (f_vrad cf) segs i (first_of c) -> forall h, In h (hs c) -> exists e, In e g /\ em e = true /\ In h (hs e).
(** ... and the segments of one EM cluster meet in one vertex *)
Definition em_has_vertex : Prop := forall srt cf inp segs g, sorts srt -> usable cf -> distinct inp -> (forall h, In h inp -> sane h) -> f_minN cf <= 1000 ->
  returns (fun n => run srt (with_minN cf 1000) n inp) (Ok segs) -> (forall c, In c segs -> em c = false) -> returns (fun n => run srt cf n inp) (Ok g) ->
  forall e, In e g -> em e = true -> exists p, forall h, In h (hs e) -> exists c, In c segs /\ In h (hs c) /\ ((dist2 p (first_of c) < f_vrad cf * f_vrad cf)%Qc \/ (dist2 p (last_of c) < f_vrad cf * f_vrad cf)%Qc).
Definition cf1 : cfg := std (q 2 10) (q 1 10) 1.
Lemma cf1_usable : usable cf1.
Proof. split; [|split]; [intros X|intros X|cbn; lia]; apply (f_equal this) in X; vm_compute in X; discriminate. Qed.
Definition segs1 : list clu := got (run nearest_first (with_minN cf1 1000) 12 ten) [].
Definition g1 : list clu := got (run nearest_first cf1 12 ten) [].
Lemma ten_returns cf : forall g, run nearest_first cf 12 ten = Some (Ok g) -> returns (fun n => run nearest_first cf n ten) (Ok g).
Proof. intros g E. exists 12. intros n L. apply (run_more _ _ _ _ _ E n L). Qed.
Lemma ten_segs : run nearest_first (with_minN cf1 1000) 12 ten = Some (Ok segs1) /\ run nearest_first cf1 12 ten = Some (Ok g1). Proof. split; apply got_eq; vm_compute; reflexivity. Qed.
Lemma segs1_em : forall c, In c segs1 -> em c = false.
Proof. assert (X : forallb (fun c => negb (em c)) segs1 = true) by (vm_compute; reflexivity). intros c C. rewrite forallb_forall in X. apply negb_true_iff, X, C. Qed.
Theorem dense_becomes_em_refuted : ~ dense_becomes_em.
Proof.
  intros G. destruct ten_segs as (E1 & E2). destruct (nth_error segs1 1) as [c|] eqn:Ec; [|vm_compute in Ec; discriminate].
  specialize (G nearest_first cf1 ten segs1 g1 nearest_sorts cf1_usable (proj1 ten_ok) (proj2 ten_ok) ltac:(cbn; lia) (ten_returns _ _ E1) segs1_em (ten_returns _ _ E2) 1 c Ec).
  assert (Hc : f_minN cf1 < count_ends (f_vrad cf1) segs1 1 (first_of c) /\ hs c = [nth 1 ten (mk 0 0 0 0 (q 0 1) (q 0 1)); nth 2 ten (mk 0 0 0 0 (q 0 1) (q 0 1))]).
  { assert (c = nth 1 segs1 (fresh [])) by (rewrite (nth_error_nth _ _ _ Ec); reflexivity). subst c. split; [apply Nat.ltb_lt; vm_compute; reflexivity|vm_compute; reflexivity]. }
  destruct Hc as (Hc & Hs). destruct (G Hc (nth 1 ten (mk 0 0 0 0 (q 0 1) (q 0 1)))) as (e & Ie & Em & Ih); [rewrite Hs; left; reflexivity|].
  assert (X : forallb (fun e => negb (em e) || negb (existsb (fun h => key h =? 1) (hs e))) g1 = true) by (vm_compute; reflexivity).
  rewrite forallb_forall in X. specialize (X e Ie). rewrite Em in X. cbn [negb orb] in X. apply negb_true_iff in X. assert (Y : existsb (fun h => key h =? 1) (hs e) = true) by (apply existsb_exists; eexists; split; [exact Ih|reflexivity]). congruence.
Qed.
Print Assumptions dense_becomes_em_refuted.
Lemma far_apart x y : ~ ((dist2 (x, y) (q (-8) 10, q 4 10) < q 1 1 * q 1 1)%Qc /\ (dist2 (x, y) (q 0 1, q 5 1) < q 1 1 * q 1 1)%Qc).
Proof.
  unfold dist2, q. cbn [fst snd]. intros (A & B).
  assert (A2 : ((y - Q2Qc (4 # 10)) * (y - Q2Qc (4 # 10)) < 1)%Qc) by (clear B; assert (0 <= (x - Q2Qc (-8 # 10)) * (x - Q2Qc (-8 # 10)))%Qc by (generalize (x - Q2Qc (-8 # 10))%Qc; intros; clear; qcnra); revert A H; generalize ((x - Q2Qc (-8 # 10)) * (x - Q2Qc (-8 # 10)))%Qc ((y - Q2Qc (4 # 10)) * (y - Q2Qc (4 # 10)))%Qc; intros; assert (E : (Q2Qc (1 # 1) * Q2Qc (1 # 1) = 1)%Qc) by (apply Qc_is_canon; reflexivity); rewrite E in A; qclra).
  assert (B2 : ((y - Q2Qc (5 # 1)) * (y - Q2Qc (5 # 1)) < 1)%Qc) by (clear A A2; assert (0 <= (x - Q2Qc (0 # 1)) * (x - Q2Qc (0 # 1)))%Qc by (generalize (x - Q2Qc (0 # 1))%Qc; intros; clear; qcnra); revert B H; generalize ((x - Q2Qc (0 # 1)) * (x - Q2Qc (0 # 1)))%Qc ((y - Q2Qc (5 # 1)) * (y - Q2Qc (5 # 1)))%Qc; intros; assert (E : (Q2Qc (1 # 1) * Q2Qc (1 # 1) = 1)%Qc) by (apply Qc_is_canon; reflexivity); rewrite E in B; qclra).
  clear A B. qcnra.
Qed.
Lemma only_at (segs : list clu) k p : forallb (fun c => negb (existsb (fun h => key h =? k) (hs c)) || (Qc_eq_bool (fst (first_of c)) (fst p) && Qc_eq_bool (snd (first_of c)) (snd p) && Qc_eq_bool (fst (last_of c)) (fst p) && Qc_eq_bool (snd (last_of c)) (snd p))) segs = true ->
  forall h, key h = k -> forall c, In c segs -> In h (hs c) -> first_of c = p /\ last_of c = p.
Proof.
  intros F h Kh c Ic Ih. rewrite forallb_forall in F. specialize (F c Ic). assert (Y : existsb (fun h => key h =? k) (hs c) = true) by (apply existsb_exists; exists h; split; [exact Ih|apply Nat.eqb_eq, Kh]). rewrite Y in F. cbn [negb orb] in F. rewrite !andb_true_iff in F. destruct F as (((A & B) & C) & D). apply qeq in A, B, C, D.
  split; [rewrite (surjective_pairing (first_of c)), (surjective_pairing p)|rewrite (surjective_pairing (last_of c)), (surjective_pairing p)]; congruence.
Qed.
Theorem em_has_vertex_refuted : ~ em_has_vertex.
Proof.
  intros G. destruct ten_segs as (E1 & E2).
  assert (X : exists e, In e g1 /\ em e = true /\ In (nth 3 ten (mk 0 0 0 0 (q 0 1) (q 0 1))) (hs e) /\ In (nth 4 ten (mk 0 0 0 0 (q 0 1) (q 0 1))) (hs e)).
  { exists (nth 2 g1 (fresh [])). split; [apply nth_In, Nat.ltb_lt; vm_compute; reflexivity|]. split; [vm_compute; reflexivity|]. assert (Y : hs (nth 2 g1 (fresh [])) = [nth 3 ten (mk 0 0 0 0 (q 0 1) (q 0 1)); nth 4 ten (mk 0 0 0 0 (q 0 1) (q 0 1))]) by (vm_compute; reflexivity). rewrite Y. split; [left|right; left]; reflexivity. }
  destruct X as (e & Ie & Em & I3 & I4).
  destruct (G nearest_first cf1 ten segs1 g1 nearest_sorts cf1_usable (proj1 ten_ok) (proj2 ten_ok) ltac:(cbn; lia) (ten_returns _ _ E1) segs1_em (ten_returns _ _ E2) e Ie Em) as ([x y] & P). clear G.
  destruct (P _ I3) as (c3 & Ic3 & Ih3 & N3). destruct (P _ I4) as (c4 & Ic4 & Ih4 & N4). clear P.
  destruct (only_at segs1 3 (q (-8) 10, q 4 10) ltac:(vm_compute; reflexivity) (nth 3 ten (mk 0 0 0 0 (q 0 1) (q 0 1))) eq_refl c3 Ic3 Ih3) as (F3 & L3). destruct (only_at segs1 4 (q 0 1, q 5 1) ltac:(vm_compute; reflexivity) (nth 4 ten (mk 0 0 0 0 (q 0 1) (q 0 1))) eq_refl c4 Ic4 Ih4) as (F4 & L4).
  rewrite F3, L3 in N3. rewrite F4, L4 in N4. clear -N3 N4. change (f_vrad cf1) with (q 1 1) in *. apply (far_apart x y). split; [destruct N3|destruct N4]; assumption.
Qed.
Print Assumptions em_has_vertex_refuted.

(** C157: every track-like cluster of the result is one linear segment, and every cluster is a whole number of such segments *)
Lemma piece_segment cf c : piece cf c -> (forall h, In h (hs c) -> sane h) -> straight (f_line cf) (hs c) /\ chained (hs c) /\ outward (hs c).
Proof.
  intros (_ & N & T & O & S) Sn. split; [|split; [|exact O]].
  - destruct S as [S|(p & r & S)]; [left; exact S|]. right. destruct (hs c) as [|h0 l] eqn:E; [congruence|]. exists p, r. split; [apply (cand_line cf p r h0), S; left; reflexivity|]. intros h I. apply (cand_line cf p r h), S, I.
  - intros a h b E Na. specialize (T a h b E Na). apply touch1_ex in T as (x & Ix & T). exists x. split; [exact Ix|]. apply touch_spec; [| |exact T]; apply Sn; rewrite E; apply in_or_app; [left; exact Ix|right; left; reflexivity].
Qed.
Theorem segments_are_linear srt cf inp g : sorts srt -> usable cf -> distinct inp -> (forall h, In h inp -> sane h) -> returns (fun n => run srt cf n inp) (Ok g) ->
  exists segs, (forall s, In s segs -> straight (f_line cf) s /\ chained s /\ outward s) /\ NoDup segs /\
    forall c, In c g -> (em c = false -> In (hs c) segs) /\ exists l, incl l segs /\ hs c = concat l.
Proof.
  intros So U D Sn R. destruct (run_ok srt So cf U inp D) as (segs & left & tg & g' & R' & P & L & Pc & Lt & Tg & (F & Pg & Md) & _). assert (g' = g) by (pose proof (returns_fun _ _ _ R R'); congruence). subst g'.
  assert (Hh : forall o, In o tg -> In (hs o) (map hs segs)). { intros o I. apply In_nth_error in I as (k & Ek). destruct (nth_error segs k) as [x|] eqn:Ec; [|apply nth_error_None in Ec; assert (nth_error tg k <> None) by congruence; apply nth_error_Some in H; lia]. destruct (Tg k x Ec) as (d & Ed & Hd & _). assert (d = o) by congruence. subst. rewrite Hd. apply in_map, (nth_error_In _ _ Ec). }
  exists (map hs segs). split; [|split].
  - intros s I. apply in_map_iff in I as (c & <- & I). rewrite Forall_forall in Pc. apply (piece_segment cf c (Pc c I)). intros h Ih. apply Sn, (Permutation_in _ P), in_or_app. left. apply in_concat. exists (hs c). split; [apply in_map, I|exact Ih].
  - apply (distinct_perm _ _ (Permutation_sym P)), distinct_app in D. destruct D as [D _]. clear -D Pc. unfold distinct in D. induction segs as [|x l IH]; [constructor|]. cbn [map concat] in *. rewrite map_app in D. apply nodup_app_iff in D as (_ & D2 & D3). inversion Pc as [|? ? (_ & Nx & _) Pl]; subst. constructor; [|apply IH; assumption].
    intros I. destruct (hs x) as [|h r] eqn:Hx; [congruence|]. apply (D3 (key h)); [left; reflexivity|]. apply in_map, in_concat. exists (h :: r). split; [exact I|left; reflexivity].
  - intros c Ic. rewrite Forall_forall in Md. destruct (Md c Ic) as (M1 & l & Il & El). split.
    + intros Em. destruct (M1 Em) as (o & Io & Ho & _). rewrite <- Ho. apply Hh, Io.
    + exists (map hs l). split; [|exact El]. intros s I. apply in_map_iff in I as (o & <- & I). apply Hh, Il, I.
Qed.
Print Assumptions segments_are_linear.
(** the hypotheses can be met by a run that makes a segment of two hits and EM clusters *)
Example run_case : sorts nearest_first /\ usable cf1 /\ distinct ten /\ (forall h, In h ten -> sane h) /\ returns (fun n => run nearest_first cf1 n ten) (Ok g1) /\
  map (fun c => (map key (hs c), em c)) g1 = [([0], false); ([1; 2], false); ([3; 4], true); ([5; 6; 7; 8], true)].
Proof. split; [exact nearest_sorts|]. split; [exact cf1_usable|]. split; [apply ten_ok|]. split; [apply ten_ok|]. split; [apply ten_returns, ten_segs|]. vm_compute. reflexivity. Qed.
