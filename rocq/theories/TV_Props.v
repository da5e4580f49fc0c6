(** Properties C89-C91 and C93: the TrajCluster vertex associations. *)
From Verif Require Import Base QcUtil SortUtil TV_Model TV_Spec TV_Kill TV_High TV_Ops TV_Kill2 TV_Ops2 TV_Merge TV_FModel TV_Find TV_Spec3 TV_Find3 TV_Store3 TV_Chk TV_Wit.
From Coq Require Import QArith Qcanon Permutation.
Import TV_Model.
Local Open Scope nat_scope.

(* ------------------------------------------------------------------ C89 *)
(** after any history of vertex operations the associations are consistent *)
Theorem vertex_history_sound cut s : history cut s -> sound 3 s.
Proof. apply history_sound. Qed.
Print Assumptions vertex_history_sound.

(** a trajectory that is not obsolete and one of whose ends is attached to vertex [id] *)
Definition tj_at (s : slice) (t : tj) (id : nat) : Prop := In t (tjs s) /\ dead t = false /\ on t id.

(** StoreVertex: accepted or refused, the associations are consistent again *)
Theorem store_vertex_ok npl s v : let id := S (length (vs s)) in
  vid v = id -> v3 v = 0 -> vctp v mod 10 < npl -> sound_but npl id s ->
  let r := store_vertex s v in
  (fst r = true <-> (forall t, tj_at s t id -> tctp t = vctp v)) /\
  (fst r = true -> tjs (snd r) = tjs s /\
     exists n, vs (snd r) = vs s ++ [V id (vctp v) 0 (S (g2 s)) n (vsc v) (vhi v) (vwire v)] /\
               n = length (filter (fun t => negb (dead t) && ((e0 t =? id) || (e1 t =? id))) (tjs s))) /\
  (fst r = false -> vs (snd r) = vs s /\ forall t, ~ tj_at (snd r) t id) /\
  ws (snd r) = ws s /\ ps (snd r) = ps s /\ sound npl (snd r).
Proof. exact (store_ok npl s v). Qed.
Print Assumptions store_vertex_ok.

(** AttachTrajToVertex: what true and false mean *)
Theorem attach_traj_ok npl s ti vi e g : sound npl s -> ti < length (tjs s) -> vi < length (vs s) ->
  exists b s', attach s ti vi e g = Ok (b, s') /\ sound npl s' /\ (b = false -> s' = s) /\
    (b = true -> exists t v, nth_error (tjs s) ti = Some t /\ nth_error (vs s) vi = Some v /\
        dead t = false /\ halo t = false /\ vid v = S vi /\ vctp v = tctp t /\ vtxid t e = 0 /\ ~ on t (vid v) /\
        ((g = Inside /\ s' = s) \/
         (exists ph sc, g = Accept ph sc /\ tjs s' = upd (tjs s) ti (set_pho (set_end t e (vid v)) ph) /\
            ws s' = ws s /\ ps s' = ps s /\
            vs s' = upd (vs s) vi (set_vsc v (match sc with Some q => q | None => vsc v end))))).
Proof. exact (attach_ok npl s ti vi e g). Qed.
Print Assumptions attach_traj_ok.

(** the claim "when AttachTrajToVertex returns true the trajectory is attached to the vertex" fails: a
    vertex that lies more than two points inside the trajectory gives true and nothing is attached *)
Theorem attach_true_attached_refuted : ~ forall cut s ti vi e g s', history cut s -> attach s ti vi e g = Ok (true, s') ->
  exists t v, nth_error (tjs s') ti = Some t /\ nth_error (vs s') vi = Some v /\ on t (vid v).
Proof.
  intros F. set (s := set_tjs s_3V (tjs s_3V ++ [free_tj 7 0])).
  assert (Hh : history q10 s) by (eapply h_step; [exact hist_3V|]; apply op_new_tj; vm_compute; reflexivity).
  destruct (F q10 s 6 0 false Inside s Hh) as (t & v & Ht & _ & O); [vm_compute; reflexivity|].
  vm_compute in Ht. injection Ht as <-. destruct O as (X & [O|O]); simpl in O; congruence.
Qed.
Print Assumptions attach_true_attached_refuted.

Example history_example : history q10 s_3V /\ length (ws s_3V) = 1 /\ length (vs s_3V) = 3 /\ length (tjs s_3V) = 6.
Proof. split; [exact hist_3V|]. vm_compute. auto. Qed.

(** StoreVertex refuses a vertex claimed by trajectories of two planes, accepts one of one plane *)
Definition claim_tj (i c : nat) : tj := T i c false false 1 0 false false.
Definition new_vx (c : nat) : vx := V 1 c 0 0 0 0%Qc false 0%Z.
Lemma claim_but l : (forall i t, nth_error l i = Some t -> exists c, t = claim_tj (S i) c) -> sound_but 3 1 (SL l [] [] [] 0 0).
Proof.
  intros H. split.
  - constructor; simpl.
    + intros i t Ht. rewrite nth_error_map in Ht. destruct (nth_error l i) as [u|] eqn:E; [|discriminate]. injection Ht as <-. destruct (H i u E) as (c & ->). reflexivity.
    + intros i v Hv. destruct i; discriminate.
    + intros i w Hw. destruct i; discriminate.
    + intros v [].
    + intros w [].
    + intros t Ht Hh. apply in_map_iff in Ht. destruct Ht as (u & <- & Hu). apply In_nth_error in Hu. destruct Hu as (i & Hu). destruct (H i u Hu) as (c & ->). simpl. auto.
    + intros t x Ht _ (X & O). apply in_map_iff in Ht. destruct Ht as (u & <- & Hu). apply In_nth_error in Hu. destruct Hu as (i & Hu). destruct (H i u Hu) as (c & ->). simpl in O. destruct O; congruence.
    + intros x v (A & _). destruct x as [|[|x]]; discriminate.
    + intros x v p y (A & _). destruct x as [|[|x]]; discriminate.
    + intros v [].
  - simpl. intros t Ht Hh. apply In_nth_error in Ht. destruct Ht as (i & Hu). destruct (H i t Hu) as (c & ->). discriminate.
Qed.
Example store_example :
  sound_but 3 1 (SL [claim_tj 1 0; claim_tj 2 0] [] [] [] 0 0) /\ fst (store_vertex (SL [claim_tj 1 0; claim_tj 2 0] [] [] [] 0 0) (new_vx 0)) = true /\
  sound_but 3 1 (SL [claim_tj 1 0; claim_tj 2 1] [] [] [] 0 0) /\ fst (store_vertex (SL [claim_tj 1 0; claim_tj 2 1] [] [] [] 0 0) (new_vx 0)) = false.
Proof.
  assert (K : forall c d i t, nth_error [claim_tj 1 c; claim_tj 2 d] i = Some t -> exists c, t = claim_tj (S i) c).
  { intros c d i t Ht. destruct i as [|[|i]]; simpl in Ht; [injection Ht as <-; eauto|injection Ht as <-; eauto|destruct i; discriminate]. }
  split; [apply claim_but, K|]. split; [reflexivity|]. split; [apply claim_but, K|reflexivity].
Qed.

(* ------------------------------------------------------------------ C90 *)
(** ChkVtxAssociations passes on consistent associations and changes nothing *)
Theorem check_passes npl s ctp : sound npl s -> ctp mod 10 < npl -> chk_assns s ctp = Ok (true, s).
Proof. apply chk_passes. Qed.
Print Assumptions check_passes.

(** it always returns; what its answers establish *)
Theorem check_means s ctp : (forall w, In w (ws s) -> ctp mod 10 < length (w2 w)) ->
  exists b s', chk_assns s ctp = Ok (b, s') /\
  (b = true -> s' = s /\
     (forall v, In v (vs s) -> vctp v = ctp -> vid v <> 0 -> v3 v <> 0 ->
        exists w, nth1 (ws s) (v3 v) = Some w /\ wid w <> 0 /\ nth_error (w2 w) (ctp mod 10) = Some (vid v)) /\
     (forall w x, In w (ws s) -> wid w <> 0 -> nth_error (w2 w) (ctp mod 10) = Some x -> x <> 0 ->
        exists v, nth1 (vs s) x = Some v /\ v3 v = wid w) /\
     (forall t x, In t (tjs s) -> dead t = false -> halo t = false -> on t x -> exists v, nth1 (vs s) x = Some v /\ vid v <> 0)) /\
  (b = false -> s' = s \/ exists l1 t e l2, tjs s = l1 ++ t :: l2 /\ s' = set_tjs s (l1 ++ set_end t e 0 :: l2) /\
                dead t = false /\ halo t = false /\ vtxid t e <> 0 /\ ~ exists v, nth1 (vs s) (vtxid t e) = Some v /\ vid v <> 0).
Proof. intros H. destruct (chk_total s ctp H) as (b & s' & E). exists b, s'. split; [exact E|]. exact (chk_means s ctp b s' E). Qed.
Print Assumptions check_means.

(** the claim "associations that pass the check in every plane are consistent" fails in three ways *)
(** (1) a 3D vertex may name an obsolete 2D vertex *)
Theorem check_dead_2V_refuted : ~ forall s, (forall ctp, In ctp [0; 1; 2] -> chk_assns s ctp = Ok (true, s)) ->
  forall k w p x, is_3V s k w -> nth_error (w2 w) p = Some x -> x <> 0 -> exists v, is_2V s x v.
Proof.
  intros F. set (s := SL [] [V 0 0 1 1 2 0%Qc false 0%Z; V 2 1 1 2 2 0%Qc false 0%Z] [W 1 [1; 2; 0] 0%Qc 0%Z false false 1] [] 2 1).
  destruct (F s) with (k := 1) (w := W 1 [1; 2; 0] 0%Qc 0%Z false false 1) (p := 0) (x := 1) as (v & V1 & V2).
  - intros ctp [<-|[<-|[<-|[]]]]; vm_compute; reflexivity.
  - split; reflexivity.
  - reflexivity.
  - discriminate.
  - simpl in V1. injection V1 as <-. discriminate.
Qed.
Print Assumptions check_dead_2V_refuted.

(** (2) a trajectory may be attached to a vertex of another plane *)
Theorem check_other_plane_refuted : ~ forall s, (forall ctp, In ctp [0; 1; 2] -> chk_assns s ctp = Ok (true, s)) ->
  forall t x, In t (tjs s) -> dead t = false -> on t x -> exists v, is_2V s x v /\ vctp v = tctp t.
Proof.
  intros F. set (s := SL [claim_tj 1 0; claim_tj 2 1] [new_vx 0] [] [] 1 0).
  destruct (F s) with (t := claim_tj 2 1) (x := 1) as (v & (V1 & V2) & V3).
  - intros ctp [<-|[<-|[<-|[]]]]; vm_compute; reflexivity.
  - simpl; auto.
  - reflexivity.
  - split; [discriminate|]. simpl. auto.
  - simpl in V1. injection V1 as <-. discriminate.
Qed.
Print Assumptions check_other_plane_refuted.

(** (3) a failing check repairs at most one end: a second call is needed for the next one *)
Theorem check_repairs_all_refuted : ~ forall s ctp b s', chk_assns s ctp = Ok (b, s') ->
  forall t x, In t (tjs s') -> dead t = false -> halo t = false -> on t x -> exists v, is_2V s' x v.
Proof.
  intros F. set (s := SL [T 1 0 false false 1 1 false false] [] [] [] 0 0).
  destruct (F s 0 false (SL [T 1 0 false false 0 1 false false] [] [] [] 0 0)) with (t := T 1 0 false false 0 1 false false) (x := 1) as (v & V1 & V2).
  - reflexivity.
  - simpl; auto.
  - reflexivity.
  - reflexivity.
  - split; [discriminate|simpl; auto].
  - discriminate.
Qed.
Print Assumptions check_repairs_all_refuted.

Example check_example : sound 3 s_3V /\ chk_assns s_3V 1 = Ok (true, s_3V) /\ (forall w, In w (ws s_3V) -> 1 mod 10 < length (w2 w)) /\
  exists s', chk_assns (SL [T 1 0 false false 1 1 false false] [] [] [] 0 0) 0 = Ok (false, s').
Proof.
  assert (H : sound 3 s_3V) by (apply (history_sound q10), hist_3V). split; [exact H|]. split; [apply (check_passes 3 _ _ H); simpl; lia|].
  split; [intros w Hw; rewrite (s_len 3 _ H w Hw); simpl; lia|]. eexists. reflexivity.
Qed.

(* ------------------------------------------------------------------ C91 *)
(** MakeVertexObsolete of a 2D vertex *)
Theorem make_2V_obsolete npl cut s x v force : sound npl s -> is_2V s x v ->
  (* protected by its 3D vertex: nothing happens *)
  ((force = false /\ exists w, is_3V s (v3 v) w /\ (cut <= wsc w)%Qc) -> mvo2 npl cut s (x - 1) force = Ok (false, s)) /\
  (* otherwise it is gone, with all references to it, and the associations are consistent *)
  ((force = true \/ v3 v = 0 \/ exists w, is_3V s (v3 v) w /\ (wsc w < cut)%Qc) ->
   exists s', mvo2 npl cut s (x - 1) force = Ok (true, s') /\ obsoleted s x v s' /\ sound npl s').
Proof.
  intros H (V1 & V2). destruct x as [|i]; [discriminate|]. simpl in V1. replace (S i - 1) with i by lia. split.
  - intros (-> & w & (W1 & _) & Hq). eapply mvo2_protected; eauto.
  - intros Hc. assert (Nz : vid v <> 0) by (rewrite V2; lia). destruct (mvo2_live npl cut s i v force H V1 Nz) as (s' & E & O).
    { destruct Hc as [A|[A|(w & (W1 & _) & Hq)]]; eauto. }
    exists s'. rewrite V2 in O. split; [exact E|]. split; [exact O|].
    assert (L : i < length (vs s)) by (apply nth_error_Some; congruence).
    destruct (mvo2_sound npl cut s i force H L) as (b & s1 & E1 & S1 & _). rewrite E in E1. injection E1 as <- <-. exact S1.
Qed.
Print Assumptions make_2V_obsolete.

(** MakeVertexObsolete of a 3D vertex takes its 2D vertices with it *)
Theorem make_3V_obsolete npl cut s k w : sound npl s -> is_3V s k w ->
  exists s', mvo3 npl cut s (k - 1) = Ok (true, s') /\ sound npl s' /\ kills (fun x => x <> 0 /\ In x (w2 w)) (fun j => j = k) s s'.
Proof.
  intros H W1. destruct k as [|k]; [destruct W1; discriminate|]. replace (S k - 1) with k by lia. apply mvo3_live; auto.
Qed.
Print Assumptions make_3V_obsolete.

(** KillPoorVertices removes exactly the 2D vertices with a score not above the cut that are not in a
    primary or high-score 3D vertex *)
Theorem kill_poor_vertices npl cut s : sound npl s ->
  exists s', kill_poor npl cut s = Ok s' /\ sound npl s' /\
    kills (fun x => exists v, is_2V s x v /\ (vsc v <= cut)%Qc /\
                      (v3 v = 0 \/ exists w, is_3V s (v3 v) w /\ prim w = false /\ (wsc w < cut)%Qc)) (fun _ => False) s s'.
Proof. exact (kill_poor_ok npl cut s). Qed.
Print Assumptions kill_poor_vertices.

(** KillVerticesInShower removes exactly the 2D vertices of the plane inside the shower whose 3D vertex
    is not the neutrino vertex, with their 3D vertices and the 2D vertices of these *)
Theorem kill_vertices_in_shower npl cut ctp inside s : sound npl s ->
  exists s', kill_in_shower npl cut ctp inside s = Ok s' /\ sound npl s' /\
    kills (shower_2V ctp inside s) (shower_3V ctp inside s) s s'.
Proof. intros H. exact (kill_in_shower_ok npl cut ctp inside s H). Qed.
Print Assumptions kill_vertices_in_shower.

(** the claim "a 3D vertex keeps at least two 2D vertices: it is made obsolete when MakeVertexObsolete
    takes one of the last two" fails for every 3D vertex: it always survives, with its old score *)
Theorem kill_2V_keeps_3V npl cut s x v force s' k w : sound npl s -> is_2V s x v ->
  mvo2 npl cut s (x - 1) force = Ok (true, s') -> is_3V s k w ->
  exists w', is_3V s' k w' /\ wsc w' = wsc w /\ wire w' = wire w /\
             forall p y, nth_error (w2 w) p = Some y -> nth_error (w2 w') p = Some (if y =? x then 0 else y).
Proof.
  intros H V1 E W1. destruct (make_2V_obsolete npl cut s x v force H V1) as (A & B).
  assert (C : force = true \/ v3 v = 0 \/ exists w, is_3V s (v3 v) w /\ (wsc w < cut)%Qc).
  { destruct force; [auto|]. destruct (Nat.eq_dec (v3 v) 0) as [Z|Z]; [auto|]. destruct (s_23 npl s H x v V1 Z) as (u & U1 & _).
    destruct (Qclt_le_dec (wsc u) cut) as [Q|Q]; [eauto|]. rewrite A in E; [discriminate|]. split; [auto|]. eauto. }
  destruct (B C) as (s1 & E1 & O & _). rewrite E in E1. injection E1 as <-. destruct W1 as (W1 & W2).
  destruct (o_3V _ _ _ _ O k w W1) as (w' & P1 & P2 & P3 & P4 & _ & _ & _ & _ & P8). exists w'.
  split; [split; [auto|congruence]|]. split; [auto|]. split; [auto|]. intros p y Hy. rewrite (P8 p y Hy). f_equal.
  destruct (Nat.eqb_spec y x) as [->|Ne]; [|rewrite andb_false_r; reflexivity]. destruct (Nat.eqb_spec k (v3 v)) as [->|Nk]; [reflexivity|].
  exfalso. destruct V1 as (V1 & V2). destruct (s_32 npl s H k w p x (conj W1 W2) Hy) as (v' & (U1 & U2) & U3 & _); [destruct x; [discriminate|lia]|]. rewrite V1 in U1. injection U1 as <-. auto.
Qed.
Print Assumptions kill_2V_keeps_3V.

Definition n2d (w : vx3) : nat := length (filter (fun x => 0 <? x) (w2 w)).
Definition kill2 (s : slice) (x : nat) : slice := run (do r <- mvo2 3 q10 s (x - 1) true; Ok (snd r)).
Lemma kill2_hist s x : history q10 s -> is_ok (mvo2 3 q10 s (x - 1) true) = true -> history q10 (kill2 s x).
Proof.
  intros H E. unfold kill2. destruct (mvo2 3 q10 s (x - 1) true) as [[b s']| |] eqn:Q; try discriminate. cbn [obind run snd]. eapply h_step; [exact H|]. eapply op_mvo2; eauto.
Qed.
Theorem two_2V_in_3V_refuted : ~ forall s, history q10 s -> forall k w, is_3V s k w -> 2 <= n2d w.
Proof.
  intros F. assert (H1 : history q10 (kill2 s_3V 1)) by (apply kill2_hist; [exact hist_3V|vm_compute; reflexivity]).
  assert (H2 : history q10 (kill2 (kill2 s_3V 1) 2)) by (apply kill2_hist; [exact H1|vm_compute; reflexivity]).
  assert (H3 : history q10 (kill2 (kill2 (kill2 s_3V 1) 2) 3)) by (apply kill2_hist; [exact H2|vm_compute; reflexivity]).
  assert (Q : exists w, is_3V (kill2 (kill2 (kill2 s_3V 1) 2) 3) 1 w /\ n2d w = 0).
  { unfold is_3V, n2d. eexists. split; [split; [vm_compute; reflexivity|reflexivity]|reflexivity]. }
  destruct Q as (w & W1 & W2). specialize (F _ H3 1 w W1). lia.
Qed.
Print Assumptions two_2V_in_3V_refuted.

(** the claim "a PFParticle never refers to an obsolete 3D vertex" fails after MakeVertexObsolete of the
    3D vertex: PFParticles are not looked at *)
Theorem pfp_vertex_refuted : ~ forall s, history q10 s -> (forall p, In p (ps s) -> p0 p <> 0 -> exists w, is_3V s (p0 p) w) ->
  forall k b s', mvo3 3 q10 s k = Ok (b, s') -> forall p, In p (ps s') -> p0 p <> 0 -> exists w, is_3V s' (p0 p) w.
Proof.
  intros F. set (s := set_ps s_3V [PF 1 1 0]).
  assert (Hh : history q10 s) by (eapply h_step; [exact hist_3V|]; apply op_pfps).
  assert (W1 : exists w, is_3V s 1 w) by (eexists; split; vm_compute; reflexivity). destruct W1 as (w & W1).
  destruct (make_3V_obsolete 3 q10 s 1 w (history_sound q10 s Hh) W1) as (s' & E & _ & K). simpl in E.
  destruct (F s Hh) with (k := 0) (b := true) (s' := s') (p := PF 1 1 0) as (w' & W2 & W3).
  - intros p [<-|[]] _. exists w. exact W1.
  - exact E.
  - rewrite (k_pf _ _ _ _ K). simpl. auto.
  - discriminate.
  - destruct (k_3V _ _ _ _ K 1 w W1) as (u & U1 & U2 & _). simpl in W2. simpl in U1. rewrite W2 in U1. injection U1 as <-. simpl in W3. rewrite U2 in W3 by auto. discriminate.
Qed.
Print Assumptions pfp_vertex_refuted.

(** the claim "a trajectory flagged high-score has a high-score vertex" fails after MakeVertexObsolete *)
Theorem high_flag_after_kill_refuted : ~ forall s, history q10 s -> forall t, In t (tjs s) -> thi t = true ->
  exists x v, on t x /\ is_2V s x v /\ vhi v = true.
Proof.
  intros F. assert (H1 : history q10 (kill2 s_3V 1)) by (apply kill2_hist; [exact hist_3V|vm_compute; reflexivity]).
  assert (Q : exists t, nth_error (tjs (kill2 s_3V 1)) 0 = Some t /\ thi t = true /\ e0 t = 0 /\ e1 t = 0) by (eexists; split; [vm_compute; reflexivity|auto]).
  destruct Q as (t & Ht & A & B & C). destruct (F _ H1 t (nth_error_In _ _ Ht) A) as (x & v & (X & [O|O]) & _); congruence.
Qed.
Print Assumptions high_flag_after_kill_refuted.

(** an obsolete 2D vertex given to MakeVertexObsolete again: only then is the 3D vertex with fewer than
    two 2D vertices made obsolete, and detached from the PFParticles *)
Theorem make_dead_2V_obsolete npl cut s i v force : sound npl s -> nth_error (vs s) i = Some v -> vid v = 0 ->
  (force = true \/ v3 v = 0 \/ exists w, nth1 (ws s) (v3 v) = Some w /\ (wsc w < cut)%Qc) ->
  exists s', mvo2 npl cut s i force = Ok (true, s') /\ sound npl s' /\ length (vs s') = length (vs s) /\
    forall w, nth1 (ws s) (v3 v) = Some w -> nth_error (w2 w) (vctp v mod 10) = Some 0 ->
      length (filter (fun x => 0 <? x) (w2 w)) <= 1 ->
      (exists w', nth1 (ws s') (v3 v) = Some w' /\ wid w' = 0) /\
      (wid w <> 0 -> forall p, In p (ps s') -> p0 p <> wid w /\ p1 p <> wid w).
Proof. apply mvo2_dead. Qed.
Print Assumptions make_dead_2V_obsolete.

Example kill_example : sound 3 s_3V /\ (exists v, is_2V s_3V 2 v /\ v3 v = 1) /\ (exists w, is_3V s_3V 1 w /\ (q10 <= wsc w)%Qc) /\
  pic (kill2 s_3V 2) =
  ([(1, 0, 1, 0, true); (2, 0, 1, 0, true); (3, 1, 0, 0, true); (4, 1, 0, 0, true); (5, 2, 3, 0, true); (6, 2, 3, 0, true)],
   [(1, 0, 1, 2, true); (0, 1, 1, 2, true); (3, 2, 1, 2, true)], [(1, [1; 0; 3])]).
Proof.
  split; [apply (history_sound q10), hist_3V|]. split; [eexists; split; [split; [vm_compute; reflexivity|reflexivity]|reflexivity]|].
  split; [|vm_compute; reflexivity]. eexists. split; [split; [vm_compute; reflexivity|reflexivity]|]. vm_compute. discriminate.
Qed.

(* ------------------------------------------------------------------ C93 *)
(** ScoreVertices: the high-score flags are those of the connected components *)
Theorem score_vertices_flags npl cut sc s : sound npl s ->
  exists s', score_vertices npl cut sc s = Ok s' /\ same s s' /\ ps s' = ps s /\
    (* 2D scores: SetVx2Score with the associations as they were *)
    (forall x v, is_2V s' x v -> exists si, same s si /\ vsc v = sc si (x - 1)) /\
    (* 3D scores: the sum over the planes divided by the number of planes, at least 0.001 *)
    (forall k w, is_3V s' k w ->
       let a := (score_sum s' (w2 w) / Q2Qc (inject_Z (Z.of_nat npl)))%Qc in
       ((a < Q2Qc (1 # 1000))%Qc -> wsc w = Q2Qc (1 # 1000)) /\ ((Q2Qc (1 # 1000) <= a)%Qc -> wsc w = a)) /\
    (* a 2D vertex is flagged when it has a trajectory and a chain of trajectories leads to it from a
       2D vertex of a 3D vertex with a score above the cut *)
    (forall x v, is_2V s' x v -> (vhi v = true <->
       (exists u, high_seed cut s' u /\ connected s' u x) /\ exists j t, is_tj s' j t /\ on t x)) /\
    (* a trajectory is flagged when it has a flagged vertex *)
    (forall j t, is_tj s' j t -> halo t = false -> (thi t = true <-> exists x v, on t x /\ is_2V s' x v /\ vhi v = true)).
Proof.
  intros H. destruct (score_vertices_ok npl cut sc s H) as (s' & A & B & C & D & E & F1 & F2). exists s'.
  split; [exact A|]. split; [exact B|]. split; [exact C|]. split; [exact D|].
  assert (H' : sound npl s') by (eapply same_sound; eauto). split; [|split].
  - intros k w W1. cbv zeta. rewrite (E k w W1). unfold clamp, qlt. destruct (Qclt_le_dec _ _) as [Q|Q]; split; intros P; try reflexivity.
    + exfalso. exact (Qclt_not_le _ _ Q P).
    + exfalso. exact (Qclt_not_le _ _ P Q).
  - intros x v V1. specialize (F1 x v V1). unfold VH, att in F1. split.
    + intros P. destruct V1 as (V1 & _). destruct (proj1 F1 (ex_intro _ v (conj V1 P))) as (Q1 & j & t & Q2 & Q3). eauto 6.
    + intros (Q1 & j & t & Q2 & Q3). destruct (proj2 F1 (conj Q1 (ex_intro _ j (ex_intro _ t (conj Q2 Q3))))) as (u & U1 & U2).
      destruct V1 as (V1 & _). rewrite V1 in U1. injection U1 as <-. exact U2.
  - intros j t T1 Hh. specialize (F2 j t T1 Hh). unfold TH, VH, att in F2. split.
    + intros P. destruct (proj1 F2) as (x & (t' & (J1 & J2) & O) & v & V1 & V2); [destruct T1; eauto|].
      pose proof T1 as (T2 & T3). rewrite T2 in J1. injection J1 as <-. exists x, v. split; [exact O|]. split; [|exact V2].
      destruct (s_t2 npl s' H' t x) as (v' & (U1 & U2) & _); [destruct j as [|j]; [discriminate|exact (nth_error_In (tjs s') j T2)]|exact T3|exact O|].
      rewrite V1 in U1. injection U1 as <-. split; auto.
    + intros (x & v & O & (V1 & _) & V2). assert (Q : exists x0, (exists t0, is_tj s' j t0 /\ on t0 x0) /\ exists v0, nth1 (vs s') x0 = Some v0 /\ vhi v0 = true) by (exists x; split; [exists t; split; assumption|exists v; split; assumption]). destruct (proj2 F2 Q) as (t' & J1 & J2). destruct T1 as (T2 & _). rewrite T2 in J1. injection J1 as J1. rewrite J1. exact J2.
Qed.
Print Assumptions score_vertices_flags.

(** on the example: all flags set when the 2D scores are 30, none when they are 5 *)
Example score_example : sound 3 s_3V /\
  (exists s', score_vertices 3 q10 (fun _ _ => q30) s_3V = Ok s' /\ pic s' = pic s_3V) /\
  (exists s', score_vertices 3 q10 (fun _ _ => Q2Qc 5) s_3V = Ok s' /\ forallb (fun v => negb (vhi v)) (vs s') && forallb (fun t => negb (thi t)) (tjs s') = true).
Proof.
  split; [apply (history_sound q10), hist_3V|].
  split; eexists; (split; [apply run_ok; vm_compute; reflexivity|vm_compute; reflexivity]).
Qed.
