(** LineMerger: theorems about produce *)
From Coq Require Import QArith Qcanon Permutation.
From Verif Require Import Base QcUtil Solver_Model Solver_Proofs LM_Model LM_Spec LM_Proofs TJ_Proofs.
Import LM_Model.
Local Open Scope nat_scope.

Section All.
Variables (atan : Qc -> Qc) (cf : cfg) (cls : list clu) (hits_of : list (list nat)).
Definition of_view (v : view) : list nat := filter (fun i => match nth_error cls i with Some c => view_eqb (c_view c) v | None => false end) (seq 0 (length cls)).
Lemma in_of_view v i : In i (of_view v) <-> exists c, is cls i c /\ c_view c = v.
Proof.
  unfold of_view, is. rewrite filter_In, in_seq. split.
  - intros (_ & X). destruct (nth_error cls i) as [c|]; [|discriminate]. apply view_eqb_eq in X. eauto.
  - intros (c & X & Y). rewrite X. split; [split; [lia|apply nth_error_Some; congruence]|apply view_eqb_eq; exact Y].
Qed.
(** nothing that was still free when a lone cluster was written out continues it *)
Definition unjoined (groups : list (list nat)) (lost : list nat) : Prop :=
  forall n i c j d, nth_error groups n = Some [i] -> is cls i c -> is cls j d -> c_view d = c_view c -> ~ In j (concat (firstn n groups)) -> ~ In j lost -> j <> i -> ~ continues atan cf (c_start c) (c_end c) d.
Lemma alone_app v g1 l1 g2 l2 : unjoined g1 l1 -> alone atan cf cls (of_view v) g2 l2 -> (forall i, In i (concat g2) -> In i (of_view v)) -> unjoined (g1 ++ g2) (l1 ++ l2).
Proof.
  intros U A Iv n i c j d Nn Ic Jd V N1 N2 D. destruct (Nat.lt_ge_cases n (length g1)) as [L|L].
  - rewrite nth_error_app1 in Nn by exact L. rewrite firstn_app in N1. replace (n - length g1) with 0 in N1 by lia. cbn [firstn] in N1. rewrite app_nil_r in N1. apply (U n i c j d); auto. intros X. apply N2, in_or_app; auto.
  - rewrite nth_error_app2 in Nn by exact L. apply (A (n - length g1) i c Nn Ic j d); auto.
    + apply in_of_view. exists d. split; [exact Jd|]. assert (Ii : In i (of_view v)) by (apply Iv; apply in_concat; exists [i]; split; [apply (nth_error_In _ _ Nn)|left; reflexivity]). apply in_of_view in Ii as (c' & X & Y). unfold is in *. congruence.
    + intros X. apply N1. rewrite firstn_app, concat_app. apply in_or_app; auto.
    + intros X. apply N2, in_or_app; auto.
Qed.
Theorem produce_ok : healthy cls hits_of -> exists out groups lost, produce atan cf cls hits_of = Ok out /\ Forall2 (holds atan cf cls hits_of) groups out /\
  NoDup (concat groups ++ lost) /\ (forall i, In i (concat groups ++ lost) <-> exists c, is cls i c /\ wanted c) /\ (forall x, In x lost -> clash cls (concat groups) x) /\ unjoined groups lost.
Proof.
  intros Hy. unfold produce. cbn [foreach]. unfold one_view.
  assert (V : forall v i, In i (of_view v) -> exists c, is cls i c /\ c_view c = v) by (intros v i X; apply in_of_view; exact X).
  destruct (view_K atan cf cls hits_of Hy VU (of_view VU) (V VU) []) as (r1 & g1 & l1 & o1 & E1 & Eo1 & F1 & _ & P1 & C1 & A1). fold (of_view VU). rewrite E1. cbn [obind]. rewrite Eo1.
  destruct (view_K atan cf cls hits_of Hy VV (of_view VV) (V VV) ([] ++ o1)) as (r2 & g2 & l2 & o2 & E2 & Eo2 & F2 & _ & P2 & C2 & A2). fold (of_view VV). rewrite E2. cbn [obind]. rewrite Eo2.
  destruct (view_K atan cf cls hits_of Hy VZ (of_view VZ) (V VZ) (([] ++ o1) ++ o2)) as (r3 & g3 & l3 & o3 & E3 & Eo3 & F3 & _ & P3 & C3 & A3). fold (of_view VZ). rewrite E3. cbn [obind]. rewrite Eo3. cbn [app].
  exists ((o1 ++ o2) ++ o3), ((g1 ++ g2) ++ g3), ((l1 ++ l2) ++ l3). split; [reflexivity|]. split; [repeat apply Forall2_app; assumption|].
  assert (P : Permutation (concat ((g1 ++ g2) ++ g3) ++ (l1 ++ l2) ++ l3) ((of_view VU ++ of_view VV) ++ of_view VZ)).
  { apply (Permutation_trans (l' := ((concat g1 ++ l1) ++ (concat g2 ++ l2)) ++ (concat g3 ++ l3))); [|repeat apply Permutation_app; assumption]. rewrite !concat_app.
    generalize (concat g1) (concat g2) (concat g3). intros a b c. clear.
    assert (Sw : forall x y z w : list nat, Permutation ((x ++ y) ++ (z ++ w)) ((x ++ z) ++ (y ++ w))) by (intros; rewrite <- !app_assoc; apply Permutation_app_head; rewrite !app_assoc; apply Permutation_app_tail, Permutation_app_comm).
    apply (Permutation_trans (Sw (a ++ b) c (l1 ++ l2) l3)). apply Permutation_app_tail. apply (Sw a b l1 l2). }
  assert (Nv : forall v, NoDup (of_view v)) by (intros v; apply NoDup_filter, seq_NoDup).
  assert (Dj : forall v w i, v <> w -> In i (of_view v) -> In i (of_view w) -> False).
  { intros v w i D X Y. apply in_of_view in X as (c & X & X'). apply in_of_view in Y as (d & Y & Y'). unfold is in *. congruence. }
  split; [|split; [|split]].
  - apply (Permutation_NoDup (Permutation_sym P)). apply nodup_app_iff. split; [apply nodup_app_iff; split; [apply Nv|split; [apply Nv|]]|split; [apply Nv|]].
    + intros x X Y. apply (Dj VU VV x); [discriminate|exact X|exact Y].
    + intros x X Y. apply in_app_or in X as [X|X]; [apply (Dj VU VZ x)|apply (Dj VV VZ x)]; try discriminate; assumption.
  - intros i. split.
    + intros X. apply (Permutation_in _ P) in X. unfold wanted. apply in_app_or in X as [X|X]; [apply in_app_or in X as [X|X]|]; apply in_of_view in X as (c & X & Y); exists c; auto.
    + intros (c & X & W). apply (Permutation_in _ (Permutation_sym P)). destruct W as [W|[W|W]]; [apply in_or_app; left; apply in_or_app; left|apply in_or_app; left; apply in_or_app; right|apply in_or_app; right]; apply in_of_view; eauto.
  - rewrite !concat_app. intros x X. apply in_app_or in X as [X|X]; [apply in_app_or in X as [X|X]|].
    + apply (clash_mono cls (concat g1)); [intros y Y; apply in_or_app; left; apply in_or_app; auto|apply C1; exact X].
    + apply (clash_mono cls (concat g2)); [intros y Y; apply in_or_app; left; apply in_or_app; auto|apply C2; exact X].
    + apply (clash_mono cls (concat g3)); [intros y Y; apply in_or_app; auto|apply C3; exact X].
  - assert (U0 : unjoined [] []) by (intros n i c j d X; destruct n; discriminate).
    assert (Vn : forall v g l, Permutation (concat g ++ l) (of_view v) -> forall i, In i (concat g) -> In i (of_view v)) by (intros v g l Q i X; apply (Permutation_in _ Q), in_or_app; auto).
    apply (alone_app VZ); [|exact A3|apply (Vn _ _ _ P3)]. apply (alone_app VV); [|exact A2|apply (Vn _ _ _ P2)]. apply (alone_app VU [] []); [exact U0|exact A1|apply (Vn _ _ _ P1)].
Qed.
End All.

(* ---------------------------------------------------------------- events used as witnesses *)
Definition qi (z : Z) : Qc := Q2Qc (inject_Z z).
(** a line from wire [a] to wire [b] at tick 0 *)
Definition ln (id : nat) (a b : Z) (p : nat) : clu := C id true (E (qi a) 0 0 id) (E (qi b) 0 0 (id + 100)) (qi (Z.of_nat id)) VU (Some p).
Definition cf0 : cfg := Cfg (qi 1) (qi 10).
Definition at0 (x : Qc) : Qc := x.
Lemma ok_all cls : forallb c_valid cls = true -> forall c, In c cls -> c_valid c = true. Proof. intros X. apply forallb_forall. exact X. Qed.

(* ---------------------------------------------------------------- C132: every cluster is in one output *)
Definition lost_event : list clu := [ln 1 0 10 0; ln 2 11 20 1].
Theorem C132_every_cluster_once_refuted : healthy lost_event [[1; 2]; [3; 4]] /\
  exists out, produce at0 cf0 lost_event [[1; 2]; [3; 4]] = Ok out /\ map (fun o => m_hits (snd o)) out = [[1; 2]].
Proof.
  split; [split; [apply ok_all; reflexivity|reflexivity]|]. remember (produce at0 cf0 lost_event [[1; 2]; [3; 4]]) as o eqn:Eo. vm_compute in Eo. subst o. eexists. split; [reflexivity|]. reflexivity.
Qed.
Lemma map_nth_all (l : list (list nat)) : map (fun i => nth i l []) (seq 0 (length l)) = l.
Proof. induction l as [|x l IH]; [reflexivity|]. cbn [length seq map nth]. f_equal. rewrite <- seq_shift, map_map. exact IH. Qed.
(** what is true: each cluster of the three views is in exactly one output, unless it continues a line in another plane; then it is lost *)
Theorem C132_every_cluster_once_partial atan cf cls hits_of : healthy cls hits_of ->
  exists out groups lost, produce atan cf cls hits_of = Ok out /\ Forall2 (made_of atan cf cls hits_of) groups out /\
    NoDup (concat groups ++ lost) /\ (forall i, In i (concat groups ++ lost) <-> exists c, is cls i c /\ wanted c) /\
    (forall x, In x lost -> exists c j d p q, is cls x c /\ c_plane c = Some p /\ In j (concat groups) /\ is cls j d /\ c_plane d = Some q /\ p <> q /\ c_view d = c_view c) /\
    (NoDup (map c_id cls) -> NoDup (map fst out)) /\
    (one_tpc cls -> lost = [] /\ ((forall c, In c cls -> wanted c) -> Permutation (concat (map (fun o => m_hits (snd o)) out)) (concat hits_of))).
Proof.
  intros Hy. destruct (produce_ok atan cf cls hits_of Hy) as (out & gs & lost & E & F & N & Al & Cl & _). exists out, gs, lost. split; [exact E|].
  assert (F' : Forall2 (made_of atan cf cls hits_of) gs out) by (clear -F; induction F as [|g o gs out H F IH]; constructor; [apply H|exact IH]).
  split; [exact F'|]. split; [exact N|]. split; [exact Al|]. split; [|split].
  - intros x X. destruct (Cl x X) as (c & p & j & d & q & R). exists c, j, d, p, q. tauto.
  - intros Ni. assert (Ng : NoDup (concat gs)) by (apply nodup_app_iff in N; apply N). clear -F' Ni Ng.
    assert (Inj : forall i j c d, is cls i c -> is cls j d -> c_id c = c_id d -> i = j).
    { intros i j c d X Y Z. unfold is in *. assert (Li : i < length (map c_id cls)) by (rewrite map_length; apply nth_error_Some; congruence). apply (proj1 (NoDup_nth_error _) Ni i j Li). rewrite !nth_error_map, X, Y. cbn. congruence. }
    assert (Hd : forall gs out, Forall2 (made_of atan cf cls hits_of) gs out -> forall id, In id (map fst out) -> exists i c, In i (concat gs) /\ is cls i c /\ c_id c = id).
    { induction 1 as [|g o gs' out' H F IH]; intros id X; [destruct X|]. destruct X as [<-|X].
      - destruct H as ((i & r & c & -> & Ic & Eid & _) & _). exists i, c. split; [left; reflexivity|auto].
      - destruct (IH id X) as (i & c & A & B). exists i, c. split; [cbn; apply in_or_app; auto|exact B]. }
    induction F' as [|g o gs out H F IH]; [constructor|]. cbn [concat] in Ng. apply nodup_app_iff in Ng as (_ & N2 & D). cbn [map]. constructor; [|apply IH; exact N2].
    intros X. destruct (Hd gs out F _ X) as (j & d & Jj & Jd & Je). destruct H as ((i & r & c & -> & Ic & Eid & _) & _). assert (i = j) by (apply (Inj i j c d); congruence). subst j. apply (D i); [left; reflexivity|exact Jj].
  - intros Ot. assert (Nl : lost = []).
    { destruct lost as [|x lost]; [reflexivity|]. destruct (Cl x (or_introl eq_refl)) as (c & p & j & d & q & A & B & _ & D & G & H & I). exfalso. apply H. apply (Ot c d p q); [apply (nth_error_In _ _ A)|apply (nth_error_In _ _ D)|congruence|exact B|exact G]. }
    split; [exact Nl|]. intros W. subst lost. rewrite app_nil_r in *.
    assert (Pg : Permutation (concat gs) (seq 0 (length cls))).
    { apply NoDup_Permutation; [exact N|apply seq_NoDup|]. intros i. rewrite Al, in_seq. split.
      - intros (c & X & _). split; [lia|]. apply nth_error_Some. unfold is in X. congruence.
      - intros (_ & L). destruct (nth_error cls i) as [c|] eqn:X; [|apply nth_error_None in X; lia]. exists c. split; [exact X|apply W, (nth_error_In _ _ X)]. }
    assert (Q : Permutation (concat (map (fun o => m_hits (snd o)) out)) (concat (map (fun i => nth i hits_of []) (concat gs)))).
    { clear -F'. induction F' as [|g o gs out H F IH]; [constructor|]. cbn [map concat]. rewrite map_app, concat_app. apply Permutation_app; [|exact IH]. destruct H as (_ & _ & _ & (g' & Pg & Eh) & _). rewrite Eh.
      clear -Pg. induction Pg as [|x l l' Pg IH|x y l|l l' l'' A IHA B IHB]; cbn [map concat]; [constructor|apply Permutation_app_head; exact IH| |apply (Permutation_trans IHA IHB)]. rewrite !app_assoc. apply Permutation_app_tail, Permutation_app_comm. }
    apply (Permutation_trans Q). assert (Z : concat hits_of = concat (map (fun i => nth i hits_of []) (seq 0 (length cls)))).
    { rewrite <- (proj2 Hy), map_nth_all. reflexivity. }
    rewrite Z. clear -Pg. induction Pg as [|x l l' Pg IH|x y l|l l' l'' A IHA B IHB]; cbn [map concat]; [constructor|apply Permutation_app_head; exact IH| |apply (Permutation_trans IHA IHB)]. rewrite !app_assoc. apply Permutation_app_tail, Permutation_app_comm.
Qed.
Definition three : list clu := [ln 1 0 10 0; ln 2 21 30 0; ln 3 11 20 0].
Example C132_applies : healthy three [[1; 2]; [3; 4]; [5]] /\ one_tpc three /\ (forall c, In c three -> wanted c) /\ NoDup (map c_id three) /\
  match produce at0 cf0 three [[1; 2]; [3; 4]; [5]] with Ok out => map (fun o => m_hits (snd o)) out = [[5; 1; 2]; [3; 4]] | _ => False end.
Proof.
  split; [split; [apply ok_all; reflexivity|reflexivity]|]. split; [intros c d p q [<-|[<-|[<-|[]]]] [<-|[<-|[<-|[]]]] _ A B; cbn in A, B; congruence|]. split; [intros c [<-|[<-|[<-|[]]]]; left; reflexivity|]. split; [|vm_compute; reflexivity].
  repeat constructor; cbn; intuition discriminate.
Qed.

(* ---------------------------------------------------------------- C133: the extent of an output *)
Definition two : list clu := [ln 1 0 10 0; ln 2 11 20 0].
(** two clusters in line: the output starts at wire 0 but ends at wire 10, not 20 *)
Theorem C133_extent_refuted : healthy two [[1; 2]; [3; 4]] /\ one_tpc two /\
  exists id m, produce at0 cf0 two [[1; 2]; [3; 4]] = Ok [(id, m)] /\ Permutation (m_hits m) [1; 2; 3; 4] /\ m_end m = c_end (ln 1 0 10 0) /\ ~ ends_last two [0; 1] (id, m).
Proof.
  split; [split; [apply ok_all; reflexivity|reflexivity]|]. split; [intros c d p q [<-|[<-|[]]] [<-|[<-|[]]] _ A B; cbn in A, B; congruence|].
  remember (produce at0 cf0 two [[1; 2]; [3; 4]]) as o eqn:Eo. vm_compute in Eo. subst o. eexists _, _. split; [reflexivity|]. cbn [m_hits m_end snd].
  split; [apply (Permutation_app_comm [3; 4] [1; 2])|]. split; [vm_compute; reflexivity|]. intros (_ & X). specialize (X 1 (ln 2 11 20 0) (or_intror (or_introl eq_refl)) eq_refl). cbn [snd m_end e_wire] in X. vm_compute in X. apply X. reflexivity.
Qed.
(** what is true of every output: its start is the start of the member that starts at the least wire, its end is the end of the member that ends at the LEAST wire,
    and its plane is that of a member that has one *)
Definition ends_earliest (cls : list clu) (g : list nat) (o : sclu) : Prop :=
  (exists i c, In i g /\ is cls i c /\ m_end (snd o) = c_end c) /\ (forall i c, In i g -> is cls i c -> (e_wire (m_end (snd o)) <= e_wire (c_end c))%Qc).
Theorem C133_extent_partial atan cf cls hits_of : healthy cls hits_of ->
  exists out groups, produce atan cf cls hits_of = Ok out /\ Forall2 (fun g o => made_of atan cf cls hits_of g o /\ starts_first cls g o /\ ends_earliest cls g o /\
     (forall i c p, In i g -> is cls i c -> c_plane c = Some p -> m_plane (snd o) = Some p) /\ (ends_last cls g o <-> forall i j c d, In i g -> In j g -> is cls i c -> is cls j d -> e_wire (c_end c) = e_wire (c_end d))) groups out.
Proof.
  intros Hy. destruct (produce_ok atan cf cls hits_of Hy) as (out & gs & lost & E & F & _). exists out, gs. split; [exact E|]. clear E. induction F as [|g o gs out H F IH]; constructor; [|exact IH]. destruct H as (M & S & L & (P & _) & _). split; [exact M|]. split; [exact S|]. split; [exact L|]. split.
  - intros i c p I X Y. destruct (P i c I X) as (_ & [Z|Z]); congruence.
  - destruct L as ((k & e & K & X & Y) & L). split.
    + intros (_ & G) i j c d Ii Ij Xi Xj. apply Qcle_antisym; [apply (Qcle_trans _ (e_wire (m_end (snd o))) _); [apply (G i c Ii Xi)|apply (L j d Ij Xj)]|apply (Qcle_trans _ (e_wire (m_end (snd o))) _); [apply (G j d Ij Xj)|apply (L i c Ii Xi)]].
    + intros A. split; [exists k, e; auto|]. intros i c Ii Xi. rewrite Y, (A i k c e Ii K Xi X). apply Qcle_refl.
Qed.
Example C133_applies : healthy two [[1; 2]; [3; 4]] /\ exists id m, produce at0 cf0 two [[1; 2]; [3; 4]] = Ok [(id, m)] /\ e_wire (m_start m) = qi 0 /\ e_wire (m_end m) = qi 10.
Proof.
  split; [split; [apply ok_all; reflexivity|reflexivity]|]. remember (produce at0 cf0 two [[1; 2]; [3; 4]]) as o eqn:Eo. vm_compute in Eo. subst o. eexists _, _. split; [reflexivity|]. split; vm_compute; reflexivity.
Qed.

(* ---------------------------------------------------------------- C134: the order of the hits *)
(** along the line: the hits of the cluster that starts where the other ends come after those of the other *)
Theorem C134_hit_order_refuted : exists a b, meets cf0 (c_end a) (c_start b) /\ parallel at0 cf0 (c_end a) (c_start b) /\ healthy [a; b] [[1; 2]; [3; 4]] /\ one_tpc [a; b] /\
  exists id m, produce at0 cf0 [a; b] [[1; 2]; [3; 4]] = Ok [(id, m)] /\ m_hits m = [3; 4; 1; 2].
Proof.
  exists (ln 1 0 10 0), (ln 2 11 20 0). split; [apply near_meets; vm_compute; reflexivity|]. split; [apply slope_parallel; vm_compute; reflexivity|]. split; [split; [apply ok_all; reflexivity|reflexivity]|].
  split; [intros c d p q [<-|[<-|[]]] [<-|[<-|[]]] _ A B; cbn in A, B; congruence|].
  remember (produce at0 cf0 [ln 1 0 10 0; ln 2 11 20 0] [[1; 2]; [3; 4]]) as o eqn:Eo. vm_compute in Eo. subst o. eexists _, _. split; reflexivity.
Qed.
(** for every pair of clusters in line: the hits of the later one are put first; when the second precedes the first (and does not also follow it) its hits are put last *)
Theorem C134_hit_order_partial atan cf a b ha hb : healthy [a; b] [ha; hb] -> wanted a -> c_view b = c_view a -> (c_plane a = None \/ c_plane b = None \/ c_plane a = c_plane b) -> (parallel atan cf (c_start a) (c_end b) \/ parallel atan cf (c_end a) (c_start b)) ->
  (meets cf (c_end a) (c_start b) -> exists m, produce atan cf [a; b] [ha; hb] = Ok [(c_id a, m)] /\ m_hits m = hb ++ ha) /\
  (~ meets cf (c_end a) (c_start b) -> meets cf (c_start a) (c_end b) -> exists m, produce atan cf [a; b] [ha; hb] = Ok [(c_id a, m)] /\ m_hits m = ha ++ hb).
Proof.
  intros (Va & _) W Eb Pl Pa.
  assert (V1 : c_valid a = true) by (apply Va; left; reflexivity). assert (V2 : c_valid b = true) by (apply Va; right; left; reflexivity).
  assert (Hv : forall p, exists m', add (M (c_start a) (c_end a) (c_width a) (c_view a) (c_plane a) ha) b hb p = (true, m') /\ m_hits m' = if p then hb ++ ha else ha ++ hb).
  { intros p. unfold add. rewrite V2. cbn [negb m_view m_plane]. rewrite Eb, (proj2 (view_eqb_eq _ _) eq_refl). cbn [negb]. assert (Pc : plane_clash (c_plane b) (c_plane a) = false) by (unfold plane_clash; destruct (c_plane b) as [x|]; [|reflexivity]; destruct (c_plane a) as [y|]; [|reflexivity]; destruct Pl as [Pl|[Pl|Pl]]; try discriminate; injection Pl as ->; rewrite Nat.eqb_refl; reflexivity).
    rewrite Pc. eexists. split; reflexivity. }
  assert (Sl : same_slope atan cf (M (c_start a) (c_end a) (c_width a) (c_view a) (c_plane a) ha) b = true) by (unfold same_slope; cbn [m_start m_end]; apply orb_true_iff; destruct Pa as [Pa|Pa]; [left|right]; apply slope_parallel; exact Pa).
  assert (Gen : forall p, (endpoint cf (c_start a) (c_end a) b = if p : bool then Plus else Minus) -> exists m, produce atan cf [a; b] [ha; hb] = Ok [(c_id a, m)] /\ m_hits m = if p then hb ++ ha else ha ++ hb).
  { intros p En. destruct (Hv p) as (m' & Ea & Eh). exists m'. split; [|exact Eh]. unfold produce. cbn [foreach].
    assert (Yes : forall out, one_view atan cf [a; b] [ha; hb] out (c_view a) = Ok (out ++ [(c_id a, m')])).
    { intros out. unfold one_view. cbn [length seq filter nth_error]. rewrite Eb, (proj2 (view_eqb_eq _ _) eq_refl). cbv zeta. cbn [length seq foreach repeat]. unfold turn1 at 1. unfold idx at 1. cbn [nth_error obind]. unfold idx at 1. cbn [nth_error obind]. unfold at_ at 1 2. cbn [nth_error obind]. unfold set_idx at 1. cbn [length Nat.ltb Nat.leb obind upd]. unfold first. rewrite V1. cbn [length seq foreach obind].
      unfold turn2 at 1. unfold idx at 1. cbn [nth_error obind]. unfold turn2 at 1. unfold idx at 1 2. cbn [nth_error obind]. unfold at_ at 1 2. cbn [nth_error obind m_start m_end]. rewrite En.
      destruct p; rewrite Sl; unfold set_idx; cbn [length Nat.ltb Nat.leb obind upd]; rewrite Ea; cbn [snd fst obind]; unfold turn1, idx; cbn [nth_error obind snd]; reflexivity. }
    assert (No : forall v out, view_eqb (c_view a) v = false -> one_view atan cf [a; b] [ha; hb] out v = Ok out).
    { intros v out X. unfold one_view. cbn [length seq filter nth_error]. rewrite Eb, X. reflexivity. }
    destruct W as [W|[W|W]]; rewrite W in *.
    - rewrite Yes. cbn [obind app]. rewrite No by reflexivity. cbn [obind]. rewrite No by reflexivity. reflexivity.
    - rewrite No by reflexivity. cbn [obind]. rewrite Yes. cbn [obind app]. rewrite No by reflexivity. reflexivity.
    - rewrite No by reflexivity. cbn [obind]. rewrite No by reflexivity. cbn [obind]. rewrite Yes. reflexivity. }
  split.
  - intros Me. apply (Gen true). unfold endpoint. rewrite (proj2 (near_meets cf _ _) Me). reflexivity.
  - intros Nm Me. apply (Gen false). unfold endpoint. rewrite (proj2 (near_meets cf _ _) Me). destruct (near cf (c_end a) (c_start b)) eqn:X; [apply near_meets in X; contradiction|reflexivity].
Qed.
Example C134_applies : let a := ln 1 11 20 0 in let b := ln 2 0 10 0 in healthy [a; b] [[1; 2]; [3; 4]] /\ wanted a /\ c_view b = c_view a /\ c_plane a = c_plane b /\ parallel at0 cf0 (c_start a) (c_end b) /\ ~ meets cf0 (c_end a) (c_start b) /\ meets cf0 (c_start a) (c_end b).
Proof.
  cbv zeta. split; [split; [apply ok_all; reflexivity|reflexivity]|]. split; [left; reflexivity|]. split; [reflexivity|]. split; [reflexivity|]. split; [apply slope_parallel; vm_compute; reflexivity|]. split; [|apply near_meets; vm_compute; reflexivity].
  intros X. apply near_meets in X. vm_compute in X. discriminate.
Qed.

(* ---------------------------------------------------------------- C135: which clusters are merged *)
(** four clusters along one line, in order: each joins only one other, as the output of the first two still ends where the first does *)
Definition four : list clu := [ln 1 0 10 0; ln 2 11 20 0; ln 3 21 30 0; ln 4 31 40 0].
Theorem C135_merging_refuted : healthy four [[1; 2]; [3; 4]; [5]; [6]] /\ one_tpc four /\
  (forall k a b, nth_error four k = Some a -> nth_error four (S k) = Some b -> continues at0 cf0 (c_start a) (c_end a) b) /\
  exists a b, produce at0 cf0 four [[1; 2]; [3; 4]; [5]; [6]] = Ok [a; b] /\ Permutation (m_hits (snd a)) [1; 2; 3; 4] /\ Permutation (m_hits (snd b)) [5; 6].
Proof.
  split; [split; [apply ok_all; reflexivity|reflexivity]|]. split; [intros c d p q [<-|[<-|[<-|[<-|[]]]]] [<-|[<-|[<-|[<-|[]]]]] _ A B; cbn in A, B; congruence|]. split.
  - intros [|[|[|[|k]]]] a b A B; cbn in A, B; try discriminate; injection A as <-; injection B as <-; (split; [left; apply near_meets; vm_compute; reflexivity|left; apply slope_parallel; vm_compute; reflexivity]).
  - remember (produce at0 cf0 four [[1; 2]; [3; 4]; [5]; [6]]) as o eqn:Eo. vm_compute in Eo. subst o. eexists _, _. split; [reflexivity|]. cbn [snd m_hits]. split; [apply (Permutation_app_comm [3; 4] [1; 2])|apply perm_swap].
Qed.
(** what is true: a cluster joins an output only as a continuation of its line; and an output made of one cluster is continued by no cluster of its view but those already in an earlier output,
    or lost *)
Theorem C135_merging_partial atan cf cls hits_of : healthy cls hits_of ->
  exists out groups lost, produce atan cf cls hits_of = Ok out /\ Forall2 (made_of atan cf cls hits_of) groups out /\ (one_tpc cls -> lost = []) /\
    (forall g, In g groups -> linked atan cf cls g /\ alike cls g) /\
    (forall n i c j d, nth_error groups n = Some [i] -> is cls i c -> is cls j d -> c_view d = c_view c -> ~ In j (concat (firstn n groups)) -> ~ In j lost -> j <> i ->
       ~ continues atan cf (c_start c) (c_end c) d).
Proof.
  intros Hy. destruct (produce_ok atan cf cls hits_of Hy) as (out & gs & lost & E & F & N & Al & Cl & U). exists out, gs, lost. split; [exact E|].
  assert (F' : Forall2 (made_of atan cf cls hits_of) gs out) by (clear -F; induction F as [|g o gs out H F IH]; constructor; [apply H|exact IH]). split; [exact F'|]. split; [|split; [|exact U]].
  - intros Ot. destruct lost as [|x lost]; [reflexivity|]. destruct (Cl x (or_introl eq_refl)) as (c & p & j & d & q & A & B & _ & D & G & H & I). exfalso. apply H. apply (Ot c d p q); [apply (nth_error_In _ _ A)|apply (nth_error_In _ _ D)|congruence|exact B|exact G].
  - intros g I. clear -F' I. induction F' as [|g0 o gs out H F IH]; [destruct I|]. destruct I as [<-|I]; [|apply IH; exact I]. destruct H as (_ & A & L & _). auto.
Qed.
(** two clusters of one view: merged exactly when the second continues the first *)
Theorem C135_pair atan cf a b ha hb : healthy [a; b] [ha; hb] -> wanted a -> c_view b = c_view a -> (c_plane a = None \/ c_plane b = None \/ c_plane a = c_plane b) ->
  exists out, produce atan cf [a; b] [ha; hb] = Ok out /\ (continues atan cf (c_start a) (c_end a) b -> exists m, out = [(c_id a, m)] /\ Permutation (m_hits m) (ha ++ hb)) /\
    (~ continues atan cf (c_start a) (c_end a) b -> out = [(c_id a, M (c_start a) (c_end a) (c_width a) (c_view a) (c_plane a) ha); (c_id b, M (c_start b) (c_end b) (c_width b) (c_view b) (c_plane b) hb)]).
Proof.
  intros Hy W Eb Pl. destruct (produce_ok atan cf [a; b] [ha; hb] Hy) as (out & _ & _ & E & _). exists out. split; [exact E|]. split.
  - intros (Me & Pa). destruct (C134_hit_order_partial atan cf a b ha hb Hy W Eb Pl Pa) as (H1 & H2). destruct (near cf (c_end a) (c_start b)) eqn:Nr.
    + apply near_meets in Nr. destruct (H1 Nr) as (m & E' & Eh). exists m. split; [congruence|]. rewrite Eh. apply Permutation_app_comm.
    + assert (Nm : ~ meets cf (c_end a) (c_start b)) by (intros X; apply near_meets in X; congruence). destruct Me as [Me|Me]; [contradiction|]. destruct (H2 Nm Me) as (m & E' & Eh). exists m. split; [congruence|]. rewrite Eh. apply Permutation_refl.
  - intros Nc. destruct Hy as (Va & _). assert (V1 : c_valid a = true) by (apply Va; left; reflexivity). assert (V2 : c_valid b = true) by (apply Va; right; left; reflexivity). cut (produce atan cf [a; b] [ha; hb] = Ok [(c_id a, M (c_start a) (c_end a) (c_width a) (c_view a) (c_plane a) ha); (c_id b, M (c_start b) (c_end b) (c_width b) (c_view b) (c_plane b) hb)]); [congruence|]. clear E out Va.
    set (ma := M (c_start a) (c_end a) (c_width a) (c_view a) (c_plane a) ha). set (mb := M (c_start b) (c_end b) (c_width b) (c_view b) (c_plane b) hb).
    assert (Tn : turn2 atan cf [a; b] [ha; hb] [0; 1] ([true; false], ma) 1 = Ok ([true; false], ma)).
    { unfold turn2, idx, at_. cbn [nth_error obind]. destruct (endpoint cf (m_start ma) (m_end ma) b) eqn:En; [| |reflexivity]; (destruct (same_slope atan cf ma b) eqn:Sl; [exfalso; apply Nc|reflexivity]).
      all: split; [unfold endpoint in En; cbn [ma m_start m_end] in En; destruct (near cf (c_end a) (c_start b)) eqn:N1; [left; apply near_meets; exact N1|]; destruct (near cf (c_start a) (c_end b)) eqn:N2; [right; apply near_meets; exact N2|discriminate]
          |unfold same_slope in Sl; cbn [ma m_start m_end] in Sl; apply orb_true_iff in Sl as [Sl|Sl]; apply slope_parallel in Sl; auto]. }
    assert (Yes : forall out, one_view atan cf [a; b] [ha; hb] out (c_view a) = Ok (out ++ [(c_id a, ma); (c_id b, mb)])).
    { intros out. unfold one_view. cbn [length seq filter nth_error]. rewrite Eb, (proj2 (view_eqb_eq _ _) eq_refl). cbv zeta. cbn [length seq foreach repeat]. unfold turn1 at 1. unfold idx at 1. cbn [nth_error obind]. unfold idx at 1. cbn [nth_error obind]. unfold at_ at 1 2. cbn [nth_error obind]. unfold set_idx at 1. cbn [length Nat.ltb Nat.leb obind upd]. unfold first. rewrite V1. cbn [length seq foreach obind].
      fold ma. unfold turn2 at 1. unfold idx at 1. cbn [nth_error obind]. rewrite Tn. cbn [obind fst snd].
      unfold turn1 at 1. unfold idx at 1. cbn [nth_error obind]. unfold idx at 1. cbn [nth_error obind]. unfold at_ at 1 2. cbn [nth_error obind]. unfold set_idx at 1. cbn [length Nat.ltb Nat.leb obind upd]. unfold first. rewrite V2. cbn [length seq foreach obind].
      fold mb. unfold turn2 at 1. unfold idx at 1. cbn [nth_error obind]. unfold turn2 at 1. unfold idx at 1. cbn [nth_error obind fst snd]. rewrite <- app_assoc. reflexivity. }
    assert (No : forall v out, view_eqb (c_view a) v = false -> one_view atan cf [a; b] [ha; hb] out v = Ok out).
    { intros v out X. unfold one_view. cbn [length seq filter nth_error]. rewrite Eb, X. reflexivity. }
    unfold produce. cbn [foreach]. clearbody ma mb. clear Tn. destruct W as [W|[W|W]]; rewrite W in *.
    + rewrite Yes. cbn [obind app]. rewrite No by reflexivity. cbn [obind]. rewrite No by reflexivity. reflexivity.
    + rewrite No by reflexivity. cbn [obind]. rewrite Yes. cbn [obind app]. rewrite No by reflexivity. reflexivity.
    + rewrite No by reflexivity. cbn [obind]. rewrite No by reflexivity. cbn [obind]. rewrite Yes. reflexivity.
Qed.
Example C135_applies : let a := ln 1 0 10 0 in let b := ln 2 20 30 0 in healthy [a; b] [[1; 2]; [3; 4]] /\ wanted a /\ ~ continues at0 cf0 (c_start a) (c_end a) b /\ continues at0 cf0 (c_start a) (c_end a) (ln 3 11 20 0).
Proof.
  cbv zeta. split; [split; [apply ok_all; reflexivity|reflexivity]|]. split; [left; reflexivity|]. split; [intros ([X|X] & _); apply near_meets in X; vm_compute in X; discriminate|]. split; [left; apply near_meets; vm_compute; reflexivity|left; apply slope_parallel; vm_compute; reflexivity].
Qed.
Print Assumptions C132_every_cluster_once_refuted. Print Assumptions C132_every_cluster_once_partial. Print Assumptions C133_extent_refuted. Print Assumptions C133_extent_partial.
Print Assumptions C134_hit_order_refuted. Print Assumptions C134_hit_order_partial. Print Assumptions C135_merging_refuted. Print Assumptions C135_merging_partial. Print Assumptions C135_pair.
