(** SmallClusterFinder: the products of the module *)
From Coq Require Import QArith Qcanon Permutation Sorted Lqa.
From Verif Require Import Base QcUtil SortUtil Solver_Model Solver_Proofs SCF_Model SCF_Spec SCF_Proofs SCF_Props TJ_Proofs TJ_More CMgr_Proofs SPA_Loop Triplet_Proofs.
Import SCF_Model.
Local Open Scope nat_scope.

Definition mk (id : nat) (hs : list hit) : oclu := match hs with [] => Oc id 0 0 [] | f :: _ => Oc id (h_tpc f) (h_plane f) hs end.
Lemma write_eq out id hs : hs <> [] -> write out id hs = Ok (out ++ [mk id hs]). Proof. destruct hs; [contradiction|reflexivity]. Qed.
Definition outs (p : nat) (lf : list hit) (cl : list (list hit)) : list oclu := (match lf with [] => [] | _ => [mk (p * 100) lf] end) ++ map (fun i => mk (p * 100 + i + 1) (nth i cl [])) (seq 0 (length cl)).
Lemma write_cl p cl : (forall c, In c cl -> c <> []) -> forall m out, m <= length cl -> foreach (seq 0 m) (fun out i => do c <- idx cl i; write out (p * 100 + i + 1) c) out = Ok (out ++ map (fun i => mk (p * 100 + i + 1) (nth i cl [])) (seq 0 m)).
Proof.
  intros Ne. induction m as [|m IH]; intros out L; [cbn; rewrite app_nil_r; reflexivity|]. rewrite seq_S, foreach_app, IH by lia. cbn [obind foreach Nat.add]. destruct (nth_error cl m) as [c|] eqn:E; [|apply nth_error_None in E; lia]. unfold idx. rewrite E. cbn [obind].
  rewrite write_eq by (apply Ne, (nth_error_In _ _ E)). cbn [obind]. rewrite map_app, app_assoc. cbn [map]. rewrite (nth_error_nth cl m [] E). reflexivity.
Qed.
Lemma write_all_eq cf s (F : nat -> list hit) (G : nat -> list (list hit)) : (forall p, p < f_np cf -> left_of cf s p = Ok (F p) /\ small_of cf s p = Ok (G p) /\ forall c, In c (G p) -> c <> []) -> write_all cf s = Ok (flat_map (fun p => outs p (F p) (G p)) (seq 0 (f_np cf))).
Proof.
  intros A. unfold write_all. match goal with |- foreach _ ?f _ = _ => set (body := f) end. assert (X : forall m, m <= f_np cf -> foreach (seq 0 m) body [] = Ok (flat_map (fun p => outs p (F p) (G p)) (seq 0 m))); [|apply X; lia].
  induction m as [|m IH]; intros L; [reflexivity|]. rewrite seq_S, foreach_app, IH by lia. cbn [obind foreach Nat.add]. destruct (A m) as (E1 & E2 & Ne); [lia|]. unfold body at 1. rewrite E1. cbn [obind]. rewrite flat_map_app. cbn [flat_map]. rewrite app_nil_r.
  generalize (flat_map (fun p => outs p (F p) (G p)) (seq 0 m)). intros o. unfold outs. destruct (F m) as [|f r] eqn:Ef.
  - cbn [obind app]. rewrite E2. cbn [obind]. rewrite (write_cl m (G m) Ne) by lia. reflexivity.
  - rewrite write_eq by discriminate. cbn [obind]. rewrite E2. cbn [obind]. rewrite (write_cl m (G m) Ne) by lia. cbn [obind]. rewrite <- app_assoc. reflexivity.
Qed.
Lemma mk_hits id hs : o_hits (mk id hs) = hs. Proof. destruct hs; reflexivity. Qed.
Lemma mk_id id hs : o_id (mk id hs) = id. Proof. destruct hs; reflexivity. Qed.
Lemma nth_all (l : list (list hit)) : map (fun i => nth i l []) (seq 0 (length l)) = l.
Proof. induction l as [|x l IH]; [reflexivity|]. cbn [length seq map nth]. f_equal. rewrite <- seq_shift, map_map. exact IH. Qed.
Lemma outs_hits p lf cl : concat (map o_hits (outs p lf cl)) = lf ++ concat cl.
Proof.
  unfold outs. rewrite map_app, concat_app, map_map. f_equal; [destruct lf; [reflexivity|cbn; rewrite app_nil_r; reflexivity]|]. f_equal. transitivity (map (fun i => nth i cl []) (seq 0 (length cl))); [apply map_ext; intros i; apply mk_hits|apply nth_all].
Qed.
Lemma concat_flat_hits (f : nat -> list oclu) l : concat (map o_hits (flat_map f l)) = flat_map (fun p => concat (map o_hits (f p))) l.
Proof. induction l as [|x l IH]; [reflexivity|]. cbn [flat_map]. rewrite map_app, concat_app, IH. reflexivity. Qed.
Lemma on_all np : forall hits, (forall h, In h hits -> h_plane h < np) -> Permutation (flat_map (fun p => on p hits) (seq 0 np)) hits.
Proof.
  induction hits as [|h hs IH]; intros B; [rewrite (flat_map_ext _ (fun _ => [])); [induction (seq 0 np); [constructor|assumption]|reflexivity]|].
  assert (Lh : h_plane h < np) by (apply B; left; reflexivity). apply (Permutation_trans (l' := h :: flat_map (fun p => on p hs) (seq 0 np))); [|constructor; apply IH; intros; apply B; right; assumption].
  assert (Sp : seq 0 np = seq 0 (h_plane h) ++ h_plane h :: seq (S (h_plane h)) (np - S (h_plane h))).
  { replace np with (h_plane h + S (np - S (h_plane h))) at 1 by lia. rewrite seq_app. cbn [seq Nat.add]. reflexivity. }
  rewrite Sp, !flat_map_app. cbn [flat_map]. assert (Ot : forall l, ~ In (h_plane h) l -> flat_map (fun p => on p (h :: hs)) l = flat_map (fun p => on p hs) l).
  { induction l as [|x l IHl]; intros Nl; [reflexivity|]. cbn [flat_map]. rewrite IHl by (intros X; apply Nl; right; exact X). f_equal. unfold on. cbn [filter]. destruct (Nat.eqb_spec (h_plane h) x); [exfalso; apply Nl; left; congruence|reflexivity]. }
  rewrite !Ot by (rewrite in_seq; lia). unfold on at 2. cbn [filter]. rewrite Nat.eqb_refl. cbn [app]. apply Permutation_sym, Permutation_cons_app. apply Permutation_refl.
Qed.

(* ---------------------------------------------------------------- C139: the products *)
Definition produces (g : scale) (cf : cfg) (s0 : st) (hits : list hit) (s : st) (out : list oclu) : Prop := exists n, forall fuel, n <= fuel -> produce g cf fuel s0 hits = Some (Ok (s, Some out)).
(** Every event with hits gives clusters that hold each hit exactly once, on the plane of all its hits; crowded hits are in the cluster 100 p of their plane p, the others in
    clusters 100 p + k with k from 1. The ids are distinct when no plane has more than 99 small clusters. *)
Theorem C139_products_partial g cf s0 hits : (0 < f_rad cf)%Qc -> event cf hits -> hits <> [] -> exists s out, produces g cf s0 hits s out /\ Permutation (concat (map o_hits out)) hits /\
  (forall o, In o out -> o_hits o <> [] /\ (forall h, In h (o_hits o) -> h_plane h = o_plane o) /\ (exists f, hd_error (o_hits o) = Some f /\ o_tpc o = h_tpc f) /\
     exists k, o_id o = 100 * o_plane o + k /\ ((k = 0 /\ forall h, In h (o_hits o) -> crowded g cf hits h) \/ (0 < k /\ forall h, In h (o_hits o) -> ~ crowded g cf hits h))) /\
  ((forall p cl, small_of cf s p = Ok cl -> length cl < 100) -> NoDup (map o_id out)).
Proof.
  intros R Ev Ne. destruct (finds_ex g cf s0 hits R Ev) as (s & (n & Fi) & Ls & Ll & N).
  set (F := fun p => filter (fun h => negb (iso g cf (on p hits) h)) (on p hits)). set (G := fun p => peel g cf (length (refined g cf p hits)) (refined g cf p hits)).
  assert (Wa : write_all cf s = Ok (flat_map (fun p => outs p (F p) (G p)) (seq 0 (f_np cf)))).
  { apply write_all_eq. intros p Lp. destruct (N p Lp) as (A & B). split; [exact B|]. split; [exact A|]. intros c I. apply (peel_nonempty g cf R _ _ c I). }
  exists s, (flat_map (fun p => outs p (F p) (G p)) (seq 0 (f_np cf))). split; [|split; [|split]].
  - exists n. intros fuel L. unfold produce. destruct hits as [|h hs]; [contradiction|]. rewrite (Fi fuel L), Wa. reflexivity.
  - rewrite concat_flat_hits. destruct Ev as (Nd & P). apply (Permutation_trans (l' := flat_map (fun p => on p hits) (seq 0 (f_np cf)))); [|apply on_all; exact P]. apply flat_map_perm_ext. intros p _. rewrite outs_hits.
    apply (Permutation_trans (l' := F p ++ refined g cf p hits)); [apply Permutation_app_head, peel_perm; [exact R|lia]|]. unfold F, refined. generalize (iso g cf (on p hits)). intros f. induction (on p hits) as [|x l IH]; [constructor|]. cbn [filter]. destruct (f x); cbn [negb app]; [apply Permutation_sym, Permutation_cons_app, Permutation_sym; exact IH|constructor; exact IH].
  - intros o I. apply in_flat_map in I as (p & Ip & Io). apply in_seq in Ip. destruct Ev as (Nd & P).
    assert (Mk : forall id hs, hs <> [] -> (forall h, In h hs -> h_plane h = p) -> let o := mk id hs in o_hits o <> [] /\ (forall h, In h (o_hits o) -> h_plane h = o_plane o) /\ (exists f, hd_error (o_hits o) = Some f /\ o_tpc o = h_tpc f) /\ o_plane o = p).
    { intros id [|f r] E X; [contradiction|]. cbn [mk o_hits o_plane o_tpc]. pose proof (X f (or_introl eq_refl)) as Xf. split; [discriminate|]. split; [intros h Ih; rewrite (X h Ih); congruence|]. split; [exists f; auto|exact Xf]. }
    unfold outs in Io. apply in_app_or in Io as [Io|Io].
    + assert (Il : forall h, In h (F p) -> h_plane h = p /\ crowded g cf hits h).
      { intros h X. unfold F in X. apply filter_In in X as (X & Y). unfold on in X at 1. apply filter_In in X as (X & Z). apply Nat.eqb_eq in Z. split; [exact Z|]. apply negb_true_iff in Y. subst p. unfold iso in Y. apply qc_lt_false in Y.
        exists (filter (fun x => close g cf x h) (on (h_plane h) hits)). split; [apply NoDup_filter, NoDup_filter; exact Nd|]. split; [intros x W; unfold on in W; rewrite !filter_In, Nat.eqb_eq, close_within in W; tauto|exact Y]. }
      destruct (F p) as [|f r] eqn:Ef; [destruct Io|]. destruct Io as [<-|[]]. destruct (Mk (p * 100) (f :: r)) as (A & B & C & D); [discriminate|intros h X; apply Il; exact X|]. cbv zeta in A, B, C, D. split; [exact A|]. split; [exact B|]. split; [exact C|].
      exists 0. rewrite D, mk_id. split; [lia|]. left. split; [reflexivity|]. intros h X. rewrite mk_hits in X. apply Il. exact X.
    + apply in_map_iff in Io as (i & <- & Ii). apply in_seq in Ii. assert (Ic : In (nth i (G p) []) (G p)) by (apply nth_In; lia).
      assert (Ir : forall h, In h (nth i (G p) []) -> h_plane h = p /\ ~ crowded g cf hits h).
      { intros h X. assert (Y : In h (concat (G p))) by (apply in_concat; eauto). unfold G in Y. apply (Permutation_in _ (peel_perm g cf R _ _ (le_n _))) in Y. apply (in_refined g cf hits Nd) in Y. tauto. }
      destruct (Mk (p * 100 + i + 1) (nth i (G p) [])) as (A & B & C & D); [apply (peel_nonempty g cf R _ _ _ Ic)|intros h X; apply Ir; exact X|]. cbv zeta in A, B, C, D. split; [exact A|]. split; [exact B|]. split; [exact C|].
      exists (i + 1). rewrite D, mk_id. split; [lia|]. right. split; [lia|]. intros h X. rewrite mk_hits in X. apply Ir. exact X.
  - intros Few. assert (Ids : map o_id (flat_map (fun p => outs p (F p) (G p)) (seq 0 (f_np cf))) = flat_map (fun p => map o_id (outs p (F p) (G p))) (seq 0 (f_np cf))).
    { assert (W : forall f l, map o_id (flat_map f l) = flat_map (fun p : nat => map o_id (f p)) l) by (clear; intros f l; induction l as [|x l IH]; [reflexivity|]; cbn [flat_map]; rewrite map_app, IH; reflexivity). apply W. }
    rewrite Ids. assert (Io : forall p, map o_id (outs p (F p) (G p)) = (match F p with [] => [] | _ => [p * 100] end) ++ map (fun i => p * 100 + i + 1) (seq 0 (length (G p)))).
    { intros p. unfold outs. rewrite map_app, map_map. f_equal; [destruct (F p); reflexivity|]. apply map_ext. intros i. apply mk_id. }
    assert (Rg : forall p z, p < f_np cf -> In z (map o_id (outs p (F p) (G p))) -> p * 100 <= z < p * 100 + 100).
    { intros p z Lp I. destruct (N p Lp) as (A & _). pose proof (Few p _ A) as L. fold (G p) in L. rewrite Io in I. apply in_app_or in I as [I|I]; [destruct (F p); [destruct I|destruct I as [<-|[]]; lia]|]. apply in_map_iff in I as (i & <- & I). apply in_seq in I. lia. }
    apply nodup_flat; [apply seq_NoDup| |].
    + intros p _. rewrite Io. apply nodup_app_iff. split; [destruct (F p); repeat constructor; intros []|]. split; [apply FinFun.Injective_map_NoDup; [intros a b X; lia|apply seq_NoDup]|]. intros x X Y. apply in_map_iff in Y as (i & <- & _). destruct (F p); [destruct X|destruct X as [X|[]]; lia].
    + intros x y z X Y Zx Zy. apply in_seq in X. apply in_seq in Y. apply Rg in Zx; [|lia]. apply Rg in Zy; [|lia]. lia.
Qed.
Definition many : list hit := map (fun i => hw i 0 (10 * i)) (seq 0 100) ++ map (fun i => hw (100 + i) 1 5) (seq 0 4).
Definition good (o : option (outcome (st * option (list oclu)))) : bool :=
  match o with Some (Ok (s, Some out)) => match nth_error out 99, nth_error out 100 with Some a, Some b => (o_id a =? 100) && (o_id b =? 100) && negb (o_plane a =? o_plane b) | _, _ => false end | _ => false end.
Lemma many_good : good (produce sc1 cf3 104 (clear cf3) many) = true. Proof. vm_cast_no_check (eq_refl true). Qed.
Lemma many_out : exists s out a b, produce sc1 cf3 104 (clear cf3) many = Some (Ok (s, Some out)) /\ nth_error out 99 = Some a /\ nth_error out 100 = Some b /\ o_id a = 100 /\ o_id b = 100 /\ o_plane a <> o_plane b.
Proof.
  pose proof many_good as G. revert G. generalize (produce sc1 cf3 104 (clear cf3) many). intros o G. unfold good in G. destruct o as [[(s, [out|])|e|]|]; try discriminate. destruct (nth_error out 99) as [a|] eqn:E9; [|discriminate]. destruct (nth_error out 100) as [b|] eqn:E; [|discriminate].
  apply andb_true_iff in G as (G & G3). apply andb_true_iff in G as (G1 & G2). apply Nat.eqb_eq in G1. apply Nat.eqb_eq in G2. apply negb_true_iff, Nat.eqb_neq in G3. exists s, out, a, b. split; [reflexivity|]. split; [exact E9|]. split; [exact E|]. auto.
Qed.
Theorem C139_products_refuted :
  (** 100 isolated hits on plane 0: the last of them and the leftovers of plane 1 have the same id *)
  (event cf3 many /\ exists s out a b, produces sc1 cf3 (clear cf3) many s out /\ nth_error out 99 = Some a /\ nth_error out 100 = Some b /\ o_id a = 100 /\ o_id b = 100 /\ o_plane a <> o_plane b) /\
  (** an event without hits: nothing is put in the event *)
  (forall g cf fuel s, produce g cf fuel s [] = Some (Ok (s, None))).
Proof.
  split; [|reflexivity]. assert (Ev : event cf3 many).
  { split.
    - apply nodup_ids. assert (E : map h_id many = seq 0 104) by (vm_compute; reflexivity). rewrite E. apply seq_NoDup.
    - intros h I. apply in_app_or in I as [I|I]; apply in_map_iff in I as (i & <- & _); cbn; lia. }
  split; [exact Ev|]. destruct many_out as (s & out & a & b & E & X). exists s, out, a, b. split; [|exact X]. eexists. intros fuel L. exact (produce_more _ _ _ _ _ _ _ L E).
Qed.

(* ---------------------------------------------------------------- C140: independence of TPCs and planes *)
(** hits at the same wire number and time of two TPCs make one cluster, with the plane of the first *)
Definition tpcs : list hit := [H 0 0 0 10 0; H 1 1 0 10 0].
Theorem C140_tpcs_refuted : event cf3 tpcs /\ exists s, finds sc1 cf3 (clear cf3) tpcs s /\ small_of cf3 s 0 = Ok [tpcs].
Proof.
  assert (Ev : event cf3 tpcs) by (split; [apply nodup_ids; cbn; repeat constructor; cbn; intuition discriminate|intros h [<-|[<-|[]]]; cbn; lia]). split; [exact Ev|]. assert (R : (0 < f_rad cf3)%Qc) by (vm_compute; reflexivity).
  destruct (finds_ex sc1 cf3 (clear cf3) tpcs R Ev) as (s & Fi & _ & _ & N). exists s. split; [exact Fi|]. destruct (N 0) as (A & _); [cbn; lia|]. rewrite A. vm_compute. reflexivity.
Qed.
(** what is true: the result on a plane number depends on the hits of that plane number only, and not on what the object did before *)
Theorem C140_planes_partial g cf s0 s0' hits hits' s s' p : (0 < f_rad cf)%Qc -> event cf hits -> event cf hits' -> filter (fun h => h_plane h =? p) hits = filter (fun h => h_plane h =? p) hits' ->
  finds g cf s0 hits s -> finds g cf s0' hits' s' -> small_of cf s p = small_of cf s' p /\ left_of cf s p = left_of cf s' p.
Proof.
  intros R Ev Ev' Eq (n & F) (n' & F'). destruct (finds_ex g cf s0 hits R Ev) as (t & (m & T) & _ & _ & N). destruct (finds_ex g cf s0' hits' R Ev') as (t' & (m' & T') & _ & _ & N').
  assert (t = s) by (pose proof (F (n + m) ltac:(lia)) as X; rewrite (T (n + m)) in X by lia; congruence). assert (t' = s') by (pose proof (F' (n' + m') ltac:(lia)) as X; rewrite (T' (n' + m')) in X by lia; congruence). subst t t'.
  destruct (Nat.lt_ge_cases p (f_np cf)) as [L|L].
  - destruct (N p L) as (A & B), (N' p L) as (A' & B'). rewrite A, B, A', B'. unfold refined, on. rewrite Eq. auto.
  - unfold small_of, left_of. rewrite (proj2 (Nat.ltb_ge _ _) L). auto.
Qed.
Definition mixed : list hit := [hw 0 0 10; hw 1 1 5; hw 2 1 5; hw 3 0 11; hw 4 1 5; hw 5 1 6; hw 6 1 20].
Example SCF_applies : event cf3 mixed /\ (0 < f_rad cf3)%Qc /\
  match find sc1 cf3 7 (clear cf3) mixed with Some (Ok s) => small_of cf3 s 0 = Ok [[hw 0 0 10; hw 3 0 11]] /\ small_of cf3 s 1 = Ok [[hw 6 1 20]] /\ left_of cf3 s 1 = Ok [hw 1 1 5; hw 2 1 5; hw 4 1 5; hw 5 1 6] | _ => False end /\
  match produce sc1 cf3 7 (clear cf3) mixed with Some (Ok (_, Some out)) => map o_id out = [1; 100; 101] | _ => False end.
Proof.
  split; [split; [apply nodup_ids; assert (E : map h_id mixed = seq 0 7) by (vm_compute; reflexivity); rewrite E; apply seq_NoDup|intros h I; cbn in I; repeat destruct I as [<-|I]; cbn; try lia; destruct I]|].
  split; [vm_compute; reflexivity|]. split; [vm_compute; auto|vm_compute; reflexivity].
Qed.
Print Assumptions C136_partition. Print Assumptions C137_separated_refuted. Print Assumptions C137_shape_partial. Print Assumptions C138_ends_refuted. Print Assumptions C138_ends_partial.
Print Assumptions C139_products_refuted. Print Assumptions C139_products_partial. Print Assumptions C140_tpcs_refuted. Print Assumptions C140_planes_partial.
