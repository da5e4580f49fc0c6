(** Properties C94, C95: clusters of close 2D vertices; merging and searching 2D vertices. *)
From Verif Require Import Base QcUtil SortUtil TV_Model TV_Spec TV_Kill TV_High TV_Ops TV_Kill2 TV_Ops2 TV_Merge TV_FModel TV_Find TV_Spec3 TV_Find3 TV_Store3 TV_Chk TV_Wit.
From Coq Require Import QArith Qcanon Permutation Relations.
Import TV_Model TV_FModel.
Local Open Scope nat_scope.

(* ------------------------------------------------------------------ C94 *)
(** Reconcile2Vs: every close pair of a plane shares a cluster; a cluster has at least two distinct 2D
    vertices of the plane, connected by close pairs *)
Theorem vertex_clusters npl close s p : sound npl s ->
  exists cl, clusters close s p = Ok cl /\
    (forall x y, near_pair close s p x y -> exists c, In c cl /\ In x c /\ In y c) /\
    (forall c, In c cl -> NoDup c /\ 2 <= length c /\ (forall x, In x c -> in_plane s p x) /\
       forall x y, In x c -> In y c -> clos_refl_sym_trans nat (near_pair close s p) x y).
Proof.
  intros H. destruct (clusters_ok npl close s p H) as (cl & E & G & A). exists cl. split; [exact E|]. split; [exact A|].
  intros c Hc. rewrite Forall_forall in G. exact (G c Hc).
Qed.
Print Assumptions vertex_clusters.

(** four 2D vertices of one plane *)
Definition bare (i : nat) : vx := V i 0 0 i 0 0%Qc false 0%Z.
Definition s_four : slice := SL [] [bare 1; bare 2; bare 3; bare 4] [] [] 4 0.
Lemma hist_bare cut n : history cut (SL [] (map bare (seq 1 n)) [] [] n 0).
Proof.
  induction n as [|n IH]; [apply h_start|]. rewrite seq_S, map_app. eapply h_step; [exact IH|].
  set (s := SL _ _ _ _ n 0). assert (L : length (vs s) = n) by (unfold s; cbn [vs]; rewrite map_length, seq_length; reflexivity).
  replace (SL [] (map bare (seq 1 n) ++ map bare [1 + n]) [] [] (S n) 0) with (snd (store_vertex (set_tjs s []) (bare (S n)))).
  - apply op_store; [apply Forall2_nil|cbn [vid bare]; rewrite L; reflexivity|reflexivity|simpl; lia].
  - unfold store_vertex. cbn [set_tjs vs]. change (length (map bare (seq 1 n))) with (length (vs s)). rewrite L. replace (n + 1) with (S n) by lia. cbn [vid bare]. rewrite Nat.eqb_refl. reflexivity.
Qed.

(** the claim "the clusters are disjoint" fails: a pair that joins two clusters adds to the first one only *)
Theorem clusters_disjoint_refuted : ~ forall cut close s p cl, history cut s -> clusters close s p = Ok cl ->
  forall i j c d x, nth_error cl i = Some c -> nth_error cl j = Some d -> In x c -> In x d -> i = j.
Proof.
  intros F. assert (E : clusters (fun i j => existsb (fun q => (fst q =? i) && (snd q =? j)) [(0, 3); (1, 2); (2, 3)]) s_four 0 = Ok [[1; 4; 3]; [2; 3]]) by reflexivity.
  specialize (F q10 _ s_four 0 _ (hist_bare q10 4) E 0 1 [1; 4; 3] [2; 3] 3 eq_refl eq_refl). discriminate F; simpl; auto.
Qed.
Print Assumptions clusters_disjoint_refuted.

(** Reconcile2VTs: when all trajectories have a clean point, a cluster of live 2D vertices with three
    trajectories or more makes it read a third coordinate of a two-dimensional position *)
Theorem reconcile_reads_past npl s cls : sound npl s -> (forall c, In c cls -> exists v, is_2V s c v) -> 2 <= length cls ->
  (exists a b c, NoDup [a; b; c] /\ forall j, In j [a; b; c] -> exists x t, In x cls /\ is_tj s j t /\ halo t = false /\ on t x) ->
  reconcile true s cls = Undef.
Proof. intros H A B C. exact (reconcile_undef npl (fun _ _ => true) s cls A B C H). Qed.
Print Assumptions reconcile_reads_past.

(** in all other cases it changes nothing *)
Theorem reconcile_unchanged clean s cls b s' : reconcile clean s cls = Ok (b, s') -> s' = s /\
  (b = true -> exists c v, In c cls /\ nth1 (vs s) c = Some v /\ vid v = 0).
Proof.
  unfold reconcile. destruct (length cls <? 2); [intros [= <- <-]; split; [reflexivity|discriminate]|].
  match goal with |- context [foreach cls ?body (Some [])] => set (bd := body) end.
  assert (K : forall l acc r, foreach l bd acc = Ok r -> r = None -> acc <> None -> exists c v, In c l /\ nth1 (vs s) c = Some v /\ vid v = 0).
  { induction l as [|c l IH]; intros acc r E R A; cbn [foreach] in E; [injection E as <-; contradiction|].
    destruct acc as [a|]; [|contradiction]. unfold bd at 1 in E. destruct (at1 (vs s) c) as [v| |] eqn:Ev; cbn [obind] in E; try discriminate. apply at1_ok in Ev.
    destruct (vid v =? 0) eqn:Z; cbn [obind] in E.
    - apply Nat.eqb_eq in Z. exists c, v. simpl. auto.
    - destruct (IH _ _ E R) as (d & u & D & U); [discriminate|]. exists d, u. simpl. auto. }
  destruct (foreach cls bd (Some [])) as [[l|]| |] eqn:E; cbn [obind]; try discriminate.
  - destruct (length l <? 3); [intros [= <- <-]; split; [reflexivity|discriminate]|]. destruct clean; cbn [negb]; [discriminate|]. intros [= <- <-]; split; [reflexivity|discriminate].
  - intros [= <- <-]. split; [reflexivity|]. intros _. apply (K cls (Some []) None E eq_refl). discriminate.
Qed.
Print Assumptions reconcile_unchanged.

Example clusters_example : sound 3 s_four /\ near_pair (fun _ _ => true) s_four 0 1 4 /\ clusters (fun _ _ => true) s_four 0 = Ok [[1; 2; 3; 4]].
Proof.
  split; [apply (history_sound q10), (hist_bare q10 4)|]. split; [|reflexivity]. split; [lia|]. split; [|split; [|reflexivity]]; (eexists; split; [split; reflexivity|reflexivity]).
Qed.
(** three trajectories at two 2D vertices of a plane *)
Definition s_rec : slice := SL [T 1 0 false false 1 0 false false; T 2 0 false false 1 2 false false; T 3 0 false false 2 0 false false] [bare 1; bare 2] [] [] 2 0.
Example reconcile_example : sound 3 s_rec /\ reconcile true s_rec [1; 2] = Undef /\ reconcile false s_rec [1; 2] = Ok (false, s_rec).
Proof.
  assert (H : sound 3 s_rec).
  { constructor; simpl.
    - intros i t Ht. destruct i as [|[|[|i]]]; simpl in Ht; try (injection Ht as <-; reflexivity). destruct i; discriminate.
    - intros i v Ht. right. destruct i as [|[|i]]; simpl in Ht; try (injection Ht as <-; reflexivity). destruct i; discriminate.
    - intros i w Hw. destruct i; discriminate.
    - intros v [<-|[<-|[]]]; simpl; lia.
    - intros w [].
    - intros t [<-|[<-|[<-|[]]]]; discriminate.
    - intros t x Ht _ (X & O). assert (Hx : x = 1 \/ x = 2) by (destruct Ht as [<-|[<-|[<-|[]]]]; simpl in O; lia). exists (bare x).
      split; [destruct Hx as [-> | ->]; split; reflexivity|destruct Ht as [<-|[<-|[<-|[]]]]; reflexivity].
    - intros x v (A & _) N. destruct x as [|[|[|x]]]; simpl in A; try discriminate; try (injection A as <-; contradiction N; reflexivity). destruct x; discriminate.
    - intros k w p x (A & _). destruct k as [|[|k]]; discriminate.
    - intros v [<-|[<-|[]]]; simpl; lia. }
  split; [exact H|]. split; reflexivity.
Qed.

(* ------------------------------------------------------------------ C95 *)
(** MergeWithVertex: whatever it answers, only trajectory ends of the plane change, each to free or to
    the existing vertex; when it answers true nothing refers to the new vertex any more *)
Theorem merge_with_vertex npl g s v o : let id := S (length (vs s)) in
  sound_but npl id s -> vid v = id -> o <> 0 -> (forall l, incl (order g l) l) ->
  exists b s', merge_with g s v o = Ok (b, s') /\ sound_but npl id s' /\
    Forall2 (fun t t' => tj_fixed t' = tj_fixed t /\
               (e0 t' = e0 t \/ e0 t' = 0 \/ e0 t' = o) /\ (e1 t' = e1 t \/ e1 t' = 0 \/ e1 t' = o) /\
               ((e0 t' = e0 t /\ e1 t' = e1 t) \/ (dead t = false /\ halo t = false /\ tctp t = vctp v))) (tjs s) (tjs s') /\
    map vx_shape (vs s') = map vx_shape (vs s) /\ ws s' = ws s /\ ps s' = ps s /\
    (b = true -> (exists vo, is_2V s o vo /\ vctp vo = vctp v) /\
                 forall t, In t (tjs s') -> dead t = false -> tctp t = vctp v -> ~ on t id).
Proof.
  intros id H A B C. destruct (merge_ok npl g s v o H A B C) as (b & s' & E & S1 & (L & M) & R). exists b, s'. split; [exact E|]. split; [exact S1|]. split; [|exact R].
  clear -L M. revert L M. generalize (tjs s) (tjs s'). intros l. induction l as [|t l IH]; intros l' L M; destruct l' as [|t' l']; try discriminate; constructor.
  - destruct (M 0 t eq_refl) as (u & U & (A1 & A2 & A3 & A4 & _ & _ & A5 & A6 & A7)). injection U as <-. unfold tj_fixed. rewrite A1, A2, A3, A4. auto.
  - apply IH; [simpl in L; lia|]. intros i u Hu. exact (M (S i) u Hu).
Qed.
Print Assumptions merge_with_vertex.

(** Find2DVertices: no failure, consistent associations, new 2D vertices of the plane only *)
Theorem find_2D_vertices npl g ctp s : (forall s i b j l, incl (order (mgeo g s i b j) l) l) -> ctp mod 10 < npl -> sound npl s ->
  exists s', find2d g ctp s = Ok s' /\ sound npl s' /\
    map tj_fixed (tjs s') = map tj_fixed (tjs s) /\ ws s' = ws s /\ ps s' = ps s /\
    exists k, map vx_shape (vs s') = map vx_shape (vs s) ++ map (fun i => (S (length (vs s)) + i, ctp, 0)) (seq 0 k).
Proof. exact (find2d_ok npl g ctp s). Qed.
Print Assumptions find_2D_vertices.

(** one candidate vertex between two free ends *)
Theorem candidate_vertex npl s ctp i1 b1 i2 b2 fit close g wire t1 t2 : sound npl s ->
  nth_error (tjs s) i1 = Some t1 -> nth_error (tjs s) i2 = Some t2 -> i1 <> i2 ->
  dead t1 = false -> halo t1 = false -> tctp t1 = ctp -> vtxid t1 b1 = 0 ->
  dead t2 = false -> halo t2 = false -> tctp t2 = ctp -> vtxid t2 b2 = 0 ->
  ctp mod 10 < npl -> (forall l, incl (order g l) l) ->
  exists b s', try_vertex s ctp i1 b1 i2 b2 fit close g wire = Ok (b, s') /\ sound npl s' /\
    (fit = false -> b = false /\ s' = s) /\
    map tj_fixed (tjs s') = map tj_fixed (tjs s) /\ ws s' = ws s /\ ps s' = ps s /\
    map vx_shape (vs s') = map vx_shape (vs s) ++ (if b then [(S (length (vs s)), ctp, 0)] else []) /\
    (b = false -> fit = true -> exists vo, is_2V s close vo /\ vctp vo = ctp) /\
    (fit = true -> close = 0 -> b = true /\ exists v', is_2V s' (S (length (vs s))) v' /\ nt v' = 2 /\
        (exists u1 u2, nth_error (tjs s') i1 = Some u1 /\ vtxid u1 b1 = S (length (vs s)) /\
                       nth_error (tjs s') i2 = Some u2 /\ vtxid u2 b2 = S (length (vs s)))).
Proof. exact (try_ok npl s ctp i1 b1 i2 b2 fit close g wire t1 t2). Qed.
Print Assumptions candidate_vertex.

(** witness: 2D vertex 1 with T1 and T3, then T3 is killed; T1's other end meets T2 near 2D vertex 1 *)
Definition tj_ (i a b : nat) (d : bool) : tj := T i 0 d false a b false false.
Definition s_loop : slice := SL [tj_ 1 1 0 false; tj_ 2 0 0 false; tj_ 3 1 0 true] [V 1 0 0 1 2 0%Qc false 0%Z] [] [] 1 0.
Lemma hist_loop cut : history cut s_loop.
Proof.
  set (a := SL [free_tj 1 0; free_tj 2 0; free_tj 3 0] [] [] [] 0 0).
  assert (Ha : history cut a).
  { assert (K : forall l i c, history cut (SL l [] [] [] 0 0) -> i = S (length l) -> history cut (SL (l ++ [free_tj i c]) [] [] [] 0 0)).
    { intros l i c H ->. eapply h_step; [exact H|]. apply (op_new_tj cut (SL l [] [] [] 0 0) (free_tj (S (length l)) c)); reflexivity. }
    apply (K [free_tj 1 0; free_tj 2 0]); [|reflexivity]. apply (K [free_tj 1 0]); [|reflexivity]. apply (K []); [|reflexivity]. apply h_start. }
  set (b := SL [tj_ 1 1 0 false; tj_ 2 0 0 false; tj_ 3 1 0 false] [V 1 0 0 1 2 0%Qc false 0%Z] [] [] 1 0).
  assert (Hb : history cut b).
  { eapply h_step; [exact Ha|]. replace b with (snd (store_vertex (set_tjs a [tj_ 1 1 0 false; tj_ 2 0 0 false; tj_ 3 1 0 false]) (V 1 0 0 0 0 0%Qc false 0%Z))) by reflexivity.
    apply op_store; [|reflexivity|reflexivity|simpl; lia]. apply Forall2_cons; [|apply Forall2_cons; [|apply Forall2_cons; [|apply Forall2_nil]]]; unfold claims; simpl; tauto. }
  eapply h_step; [exact Hb|]. apply (op_kill_tj cut b 2 (tj_ 3 1 0 false)). reflexivity.
Qed.
Definition g_loop (fit : bool) : f2_geo := F2 (fun _ => false) (fun _ _ => false) (fun _ _ => false) (fun _ _ _ _ => false) (fun _ _ _ _ => true)
  (fun _ _ _ _ => true) (fun _ _ _ _ => 1) (fun _ _ _ _ => MG fit true (fun _ => true) (fun _ => false) (fun l => l) 0%Qc) (fun _ _ _ _ => 0%Z)
  (fun _ _ _ => true) (fun _ _ _ => false) (fun _ _ _ => 0%Qc) 0%Qc (fun _ _ _ => Reject) (fun _ _ => 0%Qc).
Lemma order_loop fit : forall s i b j l, incl (order (mgeo (g_loop fit) s i b j) l) l.
Proof. intros. simpl. intros x Hx. exact Hx. Qed.

(** the claim "no trajectory has the same vertex at both ends" fails *)
Theorem no_double_end_refuted : ~ forall cut g ctp s s', history cut s -> (forall s i b j l, incl (order (mgeo g s i b j) l) l) -> ctp mod 10 < 3 ->
  find2d g ctp s = Ok s' -> (forall t x, In t (tjs s) -> on t x -> e0 t <> e1 t) -> forall t x, In t (tjs s') -> on t x -> e0 t <> e1 t.
Proof.
  intros F. assert (E : exists s', find2d (g_loop true) 0 s_loop = Ok s' /\ In (tj_ 1 1 1 false) (tjs s')) by (eexists; split; [vm_compute; reflexivity|left; reflexivity]).
  destruct E as (s' & E & Hin). refine (F q10 (g_loop true) 0 s_loop s' (hist_loop q10) (order_loop true) _ E _ _ 1 Hin _ eq_refl).
  - simpl; lia.
  - intros t x [<-|[<-|[<-|[]]]] (X & [O|O]); simpl in *; congruence.
  - split; [discriminate|simpl; auto].
Qed.
Print Assumptions no_double_end_refuted.

(** the claim "every new 2D vertex has a trajectory" fails: a merge that fails at the fit has already
    moved the trajectories to the old vertex, and the new vertex is stored all the same *)
Theorem new_2V_has_tj_refuted : ~ forall cut g ctp s s', history cut s -> (forall s i b j l, incl (order (mgeo g s i b j) l) l) -> ctp mod 10 < 3 ->
  find2d g ctp s = Ok s' -> forall x v, length (vs s) < x -> is_2V s' x v -> exists t, In t (tjs s') /\ on t x.
Proof.
  intros F. assert (E : exists s', find2d (g_loop false) 0 s_loop = Ok s' /\ (exists v, is_2V s' 2 v) /\ forallb (fun t => negb (e0 t =? 2) && negb (e1 t =? 2)) (tjs s') = true).
  { unfold is_2V. eexists; split; [vm_compute; reflexivity|]. split; [eexists; split; reflexivity|reflexivity]. }
  destruct E as (s' & E & (v & V1) & Z). assert (L : 0 mod 10 < 3) by (simpl; lia). assert (L2 : length (vs s_loop) < 2) by (simpl; lia).
  destruct (F q10 (g_loop false) 0 s_loop s' (hist_loop q10) (order_loop false) L E 2 v L2 V1) as (t & Ht & (_ & O)).
  rewrite forallb_forall in Z. specialize (Z t Ht). apply andb_true_iff in Z. destruct Z as (Z0 & Z1). apply negb_true_iff in Z0, Z1. apply Nat.eqb_neq in Z0, Z1. destruct O; contradiction.
Qed.
Print Assumptions new_2V_has_tj_refuted.

(** the claim "a merge that fails changes nothing" fails as well when a third trajectory is involved:
    the existing vertex loses its trajectories *)
Definition s_occ : slice := SL [tj_ 1 1 0 false; tj_ 2 1 0 false; tj_ 3 3 0 false; tj_ 4 2 3 false] [V 1 0 0 1 2 0%Qc false 0%Z; V 2 0 0 2 1 0%Qc false 0%Z] [] [] 2 0.
Theorem failed_merge_unchanged_refuted : ~ forall npl g s v o s', let id := S (length (vs s)) in
  sound_but npl id s -> vid v = id -> o <> 0 -> (forall l, incl (order g l) l) ->
  merge_with g s v o = Ok (false, s') -> tjs s' = tjs s.
Proof.
  intros F. set (g := MG true true (fun _ => true) (fun _ => false) (@rev nat) 0%Qc).
  assert (E : exists s', merge_with g s_occ (V 3 0 0 0 0 0%Qc false 0%Z) 1 = Ok (false, s') /\ map e0 (tjs s') <> map e0 (tjs s_occ)) by (eexists; split; [vm_compute; reflexivity|discriminate]).
  destruct E as (s' & E & Ne). apply Ne. f_equal. refine (F 3 g s_occ (V 3 0 0 0 0 0%Qc false 0%Z) 1 s' _ eq_refl _ _ E); [|discriminate|intros l x; simpl; rewrite <- in_rev; auto].
  split; [|intros t [<-|[<-|[<-|[<-|[]]]]]; discriminate]. constructor; simpl.
  - intros i t Ht. destruct i as [|[|[|[|i]]]]; simpl in Ht; try (injection Ht as <-; reflexivity). destruct i; discriminate.
  - intros i v Ht. right. destruct i as [|[|i]]; simpl in Ht; try (injection Ht as <-; reflexivity). destruct i; discriminate.
  - intros i w Hw. destruct i; discriminate.
  - intros v [<-|[<-|[]]]; simpl; lia.
  - intros w [].
  - intros t [<-|[<-|[<-|[<-|[]]]]]; discriminate.
  - intros t x Ht _ (X & O). assert (Hx : x = 1 \/ x = 2) by (destruct Ht as [<-|[<-|[<-|[<-|[]]]]]; simpl in O; lia).
    destruct Hx as [-> | ->]; [exists (V 1 0 0 1 2 0%Qc false 0%Z)|exists (V 2 0 0 2 1 0%Qc false 0%Z)]; (split; [split; reflexivity|destruct Ht as [<-|[<-|[<-|[<-|[]]]]]; reflexivity]).
  - intros x v (A & _) N. destruct x as [|[|[|x]]]; simpl in A; try discriminate; try (injection A as <-; contradiction N; reflexivity). destruct x; discriminate.
  - intros k w p x (A & _). destruct k as [|[|k]]; discriminate.
  - intros v [<-|[<-|[]]]; simpl; lia.
Qed.
Print Assumptions failed_merge_unchanged_refuted.

Example find2d_example : sound 3 s_tjs /\ (forall s i b j l, incl (order (mgeo g_two s i b j) l) l) /\
  exists s', find2d g_two 1 s_tjs = Ok s' /\ map vx_shape (vs s') = [(1, 1, 0)] /\ map (fun t => (e0 t, e1 t)) (tjs s') = [(0, 0); (0, 0); (1, 0); (1, 0); (0, 0); (0, 0)].
Proof.
  split; [apply (history_sound q10), hist_tjs|]. split; [exact order_two|]. exists (run (find2d g_two 1 s_tjs)). split; [apply run_ok; vm_compute; reflexivity|]. vm_compute. auto.
Qed.
