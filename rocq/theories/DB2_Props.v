(** Properties C112-C115: the two-dimensional DBSCAN and DBcluster. *)
From Coq Require Import QArith Qcanon Qround Lqa.
From Verif Require Import Base QcUtil Solver_Model Solver_Proofs SPS_Model DB2_Model DB2_Spec DB2_FN DB2_Paper DB2_Sim DB2_Node DB2_Out.
Import DB2_Model DB2_Spec. Local Open Scope nat_scope.

(* ---------------------------------------------------------------- C112 *)

Definition flagged (bad : list nat) (w : nat) : bool := existsb (Nat.eqb w) bad.
(** method 0 terminates and is an exact DBSCAN of the ellipse relation (a wire is dead when its number is in the list) *)
Theorem naive_scan (bad : list nat) (pitch eps eps2 : Qc) (ex : Qc -> Qc) (minpts fuel : nat) (ps : list pt) :
  (Q2Qc 0 < pitch)%Qc -> (Q2Qc 0 < eps)%Qc -> (Q2Qc 0 < eps2)%Qc -> (forall a, In a ps -> (Q2Qc 0 <= px a)%Qc) ->
  length ps + length ps * length ps <= fuel ->
  exists s, run_naive bad pitch eps eps2 ex minpts fuel ps = Ok s /\
    let near := near_pts (flagged bad) pitch eps eps2 ex ps in
    scanned (length ps) near minpts Free (lab s) (length (cls s)) /\ first_come (length ps) near minpts (lab s) /\ listed (length ps) (lab s) (cls s).
Proof.
  intros P E1 E2 X Fu. destruct (neighbours_spec bad pitch eps eps2 ex ps P E1 E2 X) as (nbl & s1 & s2 & s3 & C1 & C2 & C3 & Nok & Ns & Nb).
  destruct (run_fn_ok (length ps) (near_pts (flagged bad) pitch eps eps2 ex ps) minpts (find_neighbours s1 s2 s3 eps eps2) nbl Nok (near_sym bad pitch eps eps2 ex ps)) with (fuel := fuel) as (s & Es & H).
  - intros i Hi. apply (ss_nodup lt); [lia|apply Ns, Hi].
  - exact Nb.
  - exact Fu.
  - exists s. split; [unfold run_naive; rewrite C1, C2, C3; exact Es|]. cbv zeta. apply (OI_spec _ _ _ _ _ _ H).
Qed.
Print Assumptions naive_scan.

(** six hits on wires 0 1 2 10 11 20: two clusters and a lone hit *)
Definition q (z : Z) : Qc := Q2Qc (inject_Z z).
Definition at_wire (w t : Z) : pt := P (q w) (q t) (Q2Qc 0).
Definition one : Qc -> Qc := fun _ => q 1.
Example naive_ex :
  match run_naive [] (q 1) (Q2Qc (3 # 2)) (q 1) one 1 42 (map (fun w => at_wire w 0) [0; 1; 2; 10; 11; 20]%Z) with
  | Ok s => lab s = [In_ 0; In_ 0; In_ 0; In_ 1; In_ 1; Free] /\ cls s = [[0; 1; 2]; [3; 4] ]
  | _ => False
  end.
Proof. vm_compute. split; reflexivity. Qed.
(** a border point between two clusters goes to the first *)
Example naive_border :
  match run_naive [] (q 1) (Q2Qc (3 # 2)) (q 1) one 3 200 (map (fun w => at_wire w 0) [0; 0; 1; 2; 3; 4; 4]%Z) with
  | Ok s => lab s = [In_ 0; In_ 0; In_ 0; In_ 0; In_ 1; In_ 1; In_ 1] /\ cls s = [[2; 0; 1; 3]; [4; 5; 6] ]
  | _ => False
  end.
Proof. vm_compute. auto. Qed.

(* ---------------------------------------------------------------- C113 *)

(** being near is symmetric *)
Theorem near_symmetric (isdead : nat -> bool) (pitch eps eps2 : Qc) (ex : Qc -> Qc) (ps : list pt) i j :
  near_pts isdead pitch eps eps2 ex ps i j -> near_pts isdead pitch eps eps2 ex ps j i.
Proof. intros (a & b & A & B & D & E). exists b, a. split; [exact B|]. split; [exact A|]. split; [congruence|apply ellipse_sym, E]. Qed.
(** the neighbours of a point are those in the ellipse with the dead wires taken off, when wire w is channel w *)
Theorem neighbours_partial (isdead : nat -> bool) (bad : list nat) (pitch eps eps2 : Qc) (ex : Qc -> Qc) (ps : list pt) :
  (Q2Qc 0 < pitch)%Qc -> (Q2Qc 0 < eps)%Qc -> (Q2Qc 0 < eps2)%Qc -> (forall a, In a ps -> (Q2Qc 0 <= px a)%Qc) ->
  (forall w, In w bad <-> isdead w = true) ->
  exists s1 s2 s3, compute (similarity bad pitch) ps = Ok s1 /\ compute (similarity2 bad pitch) ps = Ok s2 /\ compute (width_factor ex) ps = Ok s3 /\
  forall i, i < length ps -> exists l, find_neighbours s1 s2 s3 eps eps2 i = Ok l /\ StronglySorted lt l /\
    forall j, In j l <-> near_pts isdead pitch eps eps2 ex ps i j.
Proof.
  intros P E1 E2 X D. destruct (neighbours_spec bad pitch eps eps2 ex ps P E1 E2 X) as (nbl & s1 & s2 & s3 & C1 & C2 & C3 & Nok & Ns & Nb).
  exists s1, s2, s3. split; [exact C1|]. split; [exact C2|]. split; [exact C3|]. intros i Hi. exists (nbl i). split; [apply Nok, Hi|]. split; [apply Ns, Hi|]. intros j. rewrite (Nb i j Hi).
  assert (Fl : forall w, existsb (Nat.eqb w) bad = isdead w).
  { intros w. destruct (isdead w) eqn:I0; [apply existsb_exists; exists w; split; [apply D, I0|apply Nat.eqb_refl]|]. apply Bool.not_true_iff_false. intros Y. apply existsb_exists in Y. destruct Y as (y & Y1 & Y2). apply Nat.eqb_eq in Y2. subst y. apply D in Y1. congruence. }
  assert (De : forall a b, dead (fun w => existsb (Nat.eqb w) bad) pitch a b = dead isdead pitch a b) by (intros a b; unfold dead; cbv zeta; rewrite (filter_ext _ _ Fl); reflexivity).
  split.
  - intros (Hj & a & b & A & B & N & Y). exists a, b. split; [exact A|]. split; [exact B|]. split; [exact N|]. unfold in_ellipse in *. rewrite De in Y. exact Y.
  - intros (a & b & A & B & N & Y). split; [apply nth_error_Some; congruence|]. exists a, b. split; [exact A|]. split; [exact B|]. split; [exact N|]. unfold in_ellipse in *. rewrite De. exact Y.
Qed.
Print Assumptions neighbours_partial.
Definition gap_pts : list pt := [at_wire 0 0; at_wire 2 0].
(** REFUTED: the list holds channel numbers and is searched for wire numbers. On a plane whose wire w is channel 100 + w, with
    wire 1 dead, the hits on wires 0 and 2 are near but stay apart; with channel 1 (of another plane) dead, they are joined over a live wire *)
Theorem dead_wires_refuted : exists (chan : nat -> nat) (isdead isdead' : nat -> bool) (bad bad' : list nat) s s',
  (forall v w, chan v = chan w -> v = w) /\
  (forall w, In (chan w) bad <-> isdead w = true) /\ (forall w, In (chan w) bad' <-> isdead' w = true) /\
  near_pts isdead (q 1) (Q2Qc (3 # 2)) (q 1) one gap_pts 0 1 /\ run_naive bad (q 1) (Q2Qc (3 # 2)) (q 1) one 1 42 gap_pts = Ok s /\ lab s = [Free; Free] /\
  ~ near_pts isdead' (q 1) (Q2Qc (3 # 2)) (q 1) one gap_pts 0 1 /\ run_naive bad' (q 1) (Q2Qc (3 # 2)) (q 1) one 1 42 gap_pts = Ok s' /\ lab s' = [In_ 0; In_ 0].
Proof.
  exists (fun w => 100 + w), (fun w => w =? 1), (fun _ => false), [101], [1]. eexists. eexists.
  split; [intros v w E; lia|]. split; [intros w; cbn; destruct w as [|[|w] ]; cbn; split; intros; try discriminate; try lia; auto|].
  split; [intros w; split; [intros [X|[] ]; lia|discriminate]|].
  split; [exists (at_wire 0 0), (at_wire 2 0); repeat split; try discriminate; vm_compute; reflexivity|].
  split; [vm_compute; reflexivity|]. split; [reflexivity|].
  split; [intros (a & b & A & B & _ & E); injection A as <-; injection B as <-; vm_compute in E; discriminate E|].
  split; [vm_compute; reflexivity|reflexivity].
Qed.
Print Assumptions dead_wires_refuted.

(* ---------------------------------------------------------------- C114 *)

(** REFUTED: with an R*-tree (methods 1 and 2) every run over at least one hit reads past the end of the sums of dead wires *)
Theorem tree_methods_refuted (ex : Qc -> Qc) (eps eps2 pitch maxw : Qc) (bws : list nat) (ps : list pt) (t : tree) (minpts fuel : nat) :
  tree_of ps t -> ps <> [] ->
  run_fn (region_query ex eps eps2 pitch maxw bws ps t) minpts fuel (length ps) = Undef /\
  run_paper (region_query_set ex eps eps2 pitch maxw bws ps t) minpts fuel (length ps) = Undef.
Proof.
  intros T N. assert (L : 0 < length ps) by (destruct ps; [contradiction|cbn; lia]). destruct (region_undef ex eps eps2 pitch maxw bws ps t 0 T L) as [A B].
  split; [apply run_fn_undef; assumption|apply run_paper_undef; assumption].
Qed.
Print Assumptions tree_methods_refuted.
Example tree_ex : tree_of gap_pts (Node_ (B (q 0) (q 2) (q 0) (q 0)) [Leaf_ (B (q 0) (q 0) (q 0) (q 0)) 0; Leaf_ (B (q 2) (q 2) (q 0) (q 0)) 1]).
Proof.
  split.
  - constructor.
    + intros t [<-|[<-|[] ] ]; constructor.
    + intros b i L. inversion L as [|? ? ? ? t I0 Lt]; subst. destruct I0 as [<-|[<-|[] ] ]; inversion Lt; subst; unfold inside; cbn; repeat split; vm_compute; discriminate.
  - intros [|[|i] ] a E; cbn in E; [| |destruct i; discriminate]; injection E as <-; eexists; (split; [eapply leaf_below; [|apply leaf_here]; cbn; auto|]); repeat split; apply Qc_is_canon; reflexivity.
Qed.

(** if the queries were exact, method 1 would be a DBSCAN not counting the point itself, *)
Theorem vector_method_partial (n : nat) (near : nat -> nat -> Prop) (minpts : nat) nb nbl (fuel : nat) :
  (forall i, i < n -> nb i = Ok (nbl i)) -> (forall i j, near i j -> near j i) ->
  (forall i, i < n -> NoDup (nbl i)) -> (forall i j, i < n -> In j (nbl i) <-> j < n /\ near i j) -> n + n * n <= fuel ->
  exists s, run_fn nb minpts fuel n = Ok s /\ scanned n near minpts Free (lab s) (length (cls s)) /\ first_come n near minpts (lab s) /\ listed n (lab s) (cls s).
Proof.
  intros A B C D E. destruct (run_fn_ok n near minpts nb nbl A B C D fuel E) as (s & Es & H). exists s. split; [exact Es|]. apply (OI_spec _ _ _ _ _ _ H).
Qed.
(** and method 2 a DBSCAN counting it *)
Theorem paper_method_partial (n : nat) (near : nat -> nat -> Prop) (minpts : nat) rq rql (fuel : nat) :
  (forall i, i < n -> rq i = Ok (rql i)) -> (forall i j, near i j -> near j i) -> (forall i, i < n -> near i i) ->
  (forall i, i < n -> NoDup (rql i)) -> (forall i j, i < n -> In j (rql i) <-> j < n /\ near i j) -> n + n <= fuel ->
  exists l cs, run_paper rq minpts fuel n = Ok (l, cs) /\ scanned n near minpts Noise l (length cs) /\ listed n l cs.
Proof. intros A B C D E Fu. exact (run_paper_ok n near minpts rq rql A B C D E fuel Fu). Qed.
Print Assumptions vector_method_partial.
Print Assumptions paper_method_partial.
(** REFUTED: methods 1 and 2 differ on the same exact queries: two hits near each other, minPts 2 *)
Theorem methods_differ_refuted : exists (n : nat) (near : nat -> nat -> Prop) (minpts : nat) nb rq s l cs,
  (forall i, i < n -> near i i) /\ (forall i j, near i j -> near j i) /\
  (forall i, i < n -> exists x y, nb i = Ok x /\ rq i = Ok y /\ NoDup x /\ NoDup y /\ (forall j, In j y <-> j < n /\ near i j) /\ forall j, In j x <-> In j y /\ j <> i) /\
  run_fn nb minpts 42 n = Ok s /\ cls s = [] /\ run_paper rq minpts 42 n = Ok (l, cs) /\ cs = [[0; 1] ].
Proof.
  exists 2, (fun i j => i < 2 /\ j < 2), 2, (fun i => Ok [1 - i]), (fun i => Ok [0; 1]). eexists. eexists. eexists.
  split; [auto|]. split; [tauto|]. split.
  - intros i Hi. exists [1 - i], [0; 1]. split; [reflexivity|]. split; [reflexivity|]. split; [repeat constructor; cbn; tauto|]. split; [repeat constructor; cbn; intuition discriminate|]. destruct i as [|[|i] ]; [| |lia]; cbn [In Nat.sub]; split; intros j; lia.
  - split; [vm_compute; reflexivity|]. split; [reflexivity|]. split; vm_compute; reflexivity.
Qed.
(** method 2 gives a border point to the last cluster instead *)
Example paper_border : run_paper (fun i => Ok (nth i [[0; 1; 2]; [0; 1; 2]; [0; 1; 2; 3]; [2; 3; 4]; [3; 4; 5; 6]; [4; 5; 6]; [4; 5; 6] ] [])) 4 14 7 =
  Ok ([In_ 0; In_ 0; In_ 0; In_ 1; In_ 1; In_ 1; In_ 1], [[0; 1; 2]; [3; 4; 5; 6] ]).
Proof. reflexivity. Qed.
(** the comparison of two hits is symmetric *)
Theorem leaf_test_symmetric ex eps eps2 pitch nbr a b : near_with ex eps eps2 pitch nbr a b = near_with ex eps eps2 pitch nbr b a.
Proof.
  unfold near_with. cbv zeta. rewrite !absq_eq, !absq_div, (absq_opp (half (x0 b) (x1 b))), (absq_opp (half (y0 b) (y1 b))), (Qcplus_comm (absq (y1 b - y0 b) * absq (y1 b - y0 b))). reflexivity.
Qed.
(** a node that is not entirely on the low-wire side of the hit, and holds a near hit, is searched (no wires to bridge) *)
Theorem node_kept_partial ex eps eps2 pitch maxw t node leaf : (Q2Qc 0 < eps -> Q2Qc 0 < eps2 ->
  (forall u v, Q2Qc 0 <= u -> u <= v -> ex u <= ex v) ->
  x0 leaf = x1 leaf -> y0 leaf <= y1 leaf -> y1 leaf - y0 leaf <= maxw -> inside leaf node ->
  half (x0 t) (x1 t) <= x1 node ->
  near_with ex eps eps2 pitch 0 t leaf = true -> accept_node_with ex eps eps2 pitch maxw 0 t node = true)%Qc.
Proof. apply node_kept. Qed.
(** REFUTED: one that is, is skipped although the hit in it is near, because the time edge is chosen by the wire edges *)
Theorem node_skipped_refuted : exists t node leaf, inside leaf node /\ x0 leaf = x1 leaf /\ (y0 leaf <= y1 leaf)%Qc /\
  near_with one (q 2) (q 2) (q 1) 0 t leaf = true /\ accept_node_with one (q 2) (q 2) (q 1) (q 1) 0 t node = false.
Proof.
  exists (B (q 10) (q 10) (q 5) (q 5)), (B (q 8) (q 9) (q 0) (q 100)), (B (q 9) (q 9) (q 5) (q 5)).
  split; [unfold inside; cbn; repeat split; vm_compute; discriminate|]. split; [reflexivity|]. split; [vm_compute; discriminate|]. split; vm_compute; reflexivity.
Qed.
Print Assumptions methods_differ_refuted.
Print Assumptions node_kept_partial.
Print Assumptions node_skipped_refuted.
Example node_kept_ex : near_with one (q 2) (q 2) (q 1) 0 (B (q 7) (q 7) (q 5) (q 5)) (B (q 8) (q 8) (q 5) (q 5)) = true /\
  accept_node_with one (q 2) (q 2) (q 1) (q 1) 0 (B (q 7) (q 7) (q 5) (q 5)) (B (q 8) (q 9) (q 0) (q 100)) = true /\
  accept_node_with one (q 2) (q 2) (q 1) (q 1) 0 (B (q 7) (q 7) (q 5) (q 5)) (B (q 12) (q 19) (q 0) (q 100)) = false.
Proof. vm_compute. repeat split. Qed.

(* ---------------------------------------------------------------- C115 *)

Theorem dbcluster_output pl run o : produce pl run = Ok o -> written pl run o.
Proof. apply produce_written. Qed.
(** and nothing goes wrong if each run labels every hit *)
Theorem dbcluster_total pl run :
  (forall hs, exists ls k, run hs = Ok (ls, k) /\ length ls = length hs) -> exists o, produce pl run = Ok o.
Proof.
  intros R. unfold produce. cut (forall ps o, exists o', foreach ps (fun o p =>
    let hs := hits_of_plane pl p in
    do r <- run hs;
    for_ (seq 0 (snd r)) (fun o i =>
      do ch <- for_ (seq 0 (length (fst r))) (fun ch j =>
        do y <- idx (fst r) j;
        match y with In_ c => if c =? i then do h <- idx hs j; Ok (ch ++ [h]) else Ok ch | _ => Ok ch end) [];
      match ch with [] => Ok o | _ => Ok (o ++ [(length o, p, ch)]) end) o) o = Ok o'); [intros G; apply G|].
  induction ps as [|p ps IH]; intros o; cbn [foreach]; [eauto|].
  destruct (R (hits_of_plane pl p)) as (ls & k & -> & L). cbn [obind fst snd].
  assert (G : forall is o, exists o', for_ is (fun o i =>
      do ch <- for_ (seq 0 (length ls)) (fun ch j =>
        do y <- idx ls j;
        match y with In_ c => if c =? i then do h <- idx (hits_of_plane pl p) j; Ok (ch ++ [h]) else Ok ch | _ => Ok ch end) [];
      match ch with [] => Ok o | _ => Ok (o ++ [(length o, p, ch)]) end) o = Ok o').
  { induction is as [|i is IHi]; intros o1; cbn [for_]; [eauto|].
    destruct (for_seq_inv (fun _ (_ : list nat) => True) (fun ch j =>
        do y <- idx ls j;
        match y with In_ c => if c =? i then do h <- idx (hits_of_plane pl p) j; Ok (ch ++ [h]) else Ok ch | _ => Ok ch end) 0 (length ls) []) as (ch & Ec & _); [exact Logic.I| |].
    - intros j ch [_ Hj] _. cbn in Hj. rewrite (idx_ok ls j Free Hj). cbn [obind]. destruct (nth j ls Free); eauto. destruct (c =? i); eauto. rewrite (idx_ok _ j 0) by lia. cbn [obind]. eauto.
    - rewrite Ec. cbn [obind]. destruct ch; cbn [obind]; apply IHi. }
  destruct (G (seq 0 k) o) as [o' ->]. cbn [obind]. apply IH.
Qed.
Print Assumptions dbcluster_output.
Print Assumptions dbcluster_total.
Example dbcluster_ex : produce [1; 0; 1; 1; 0; 1] (fun hs => match length hs with 2 => Ok ([In_ 0; In_ 0], 1) | _ => Ok ([In_ 1; Free; In_ 0; In_ 1], 2) end) =
  Ok [(0, 0, [1; 4]); (1, 1, [3]); (2, 1, [0; 5])].
Proof. reflexivity. Qed.
