(** SpacePointAlg: makeSpacePoints *)
From Coq Require Import QArith Qcanon Lqa.
From Verif Require Import Base QcUtil SortUtil Solver_Model Solver_Proofs SPS_Model SPA_Model SPA_Spec SPA_Compat SPA_Fit SPA_Runs SPA_Hits SPA_Geom SPA_Loop SPA_Ids SPA_Make SPA_Out SPA_Filter SPA_Merge SPA_Reach SPA_Complete SPA_Wit.
Import SPA_Model.
Local Open Scope nat_scope.

Definition g1 : geo := wgeo [[3]].
Definition g2 : geo := wgeo [[3; 3]].
Lemma g1_ok : regular g1. Proof. apply wgeo_ok. reflexivity. Qed.
Lemma g2_ok : regular g2. Proof. apply wgeo_ok. reflexivity. Qed.
Lemma vis1 : visited (g_shape g1) 0 [(0, 0, 3)].
Proof. apply (v_cons [3] [] 0 [(0, 0, 3)] []); [reflexivity| |constructor]. intros [|[|t]] np; cbn; split; intros X; congruence. Qed.
Lemma vis2 : visited (g_shape g2) 0 [(0, 0, 3); (0, 1, 3)].
Proof. apply (v_cons [3; 3] [] 0 [(0, 0, 3); (0, 1, 3)] []); [reflexivity| |constructor]. intros [|[|[|t]]] np; cbn; split; intros X; congruence. Qed.
Lemma placed_by g hits (f : list nat) : map hid hits = f -> NoDup f -> forallb (fun h => match nth_error (g_shape g) (hcryo h) with Some ts => match nth_error ts (htpc h) with Some np => hplane h <? np | None => false end | None => false end) hits = true -> placed g hits.
Proof.
  intros E N F. split; [rewrite E; exact N|]. intros h I. rewrite forallb_forall in F. specialize (F h I). destruct (nth_error (g_shape g) (hcryo h)) as [ts|] eqn:A; [|discriminate]. destruct (nth_error ts (htpc h)) as [np|] eqn:B; [|discriminate]. exists np. split; [exists ts; auto|apply Nat.ltb_lt; exact F].
Qed.
Lemma placed_seq g hits n : map hid hits = seq 0 n -> forallb (fun h => match nth_error (g_shape g) (hcryo h) with Some ts => match nth_error ts (htpc h) with Some np => hplane h <? np | None => false end | None => false end) hits = true -> placed g hits.
Proof. intros E. apply (placed_by g hits (seq 0 n)); [exact E|apply seq_NoDup]. Qed.

(* ================================================================ C120: neither Filter nor Merge *)
(** "Space points are generated for all compatible combinations of hits": each combination once? In a detector with several TPCs no. *)
Theorem C120_once_refuted : exists g c hits out m hs, regular g /\ placed g hits /\ filt c = false /\ merge c = false /\
  make g c hits = Ok (out, m) /\ single m /\ counts (fun p => hits_of m p hs) out 2 /\ exists p, out = [p; p].
Proof.
  assert (G : exists out m, make g2 (wcfg 3 false false false) (trip 0 0) = Ok (out, m) /\ single m /\ (exists p, out = [p; p]) /\ counts (fun p => hits_of m p (trip 0 0)) out 2).
  { remember (make g2 (wcfg 3 false false false) (trip 0 0)) as o eqn:E. vm_compute in E. subst o. eexists _, _. split; [reflexivity|]. split; [repeat constructor; cbn; tauto|]. split; [eexists; reflexivity|].
    repeat constructor; unfold hits_of; left; reflexivity. }
  destruct G as (out & m & E & S & P & C). exists g2, (wcfg 3 false false false), (trip 0 0), out, m, (trip 0 0). split; [exact g2_ok|]. split; [apply (placed_seq g2 _ 3); reflexivity|]. auto 10.
Qed.
(** what is made: every combination of the k-th of T TPCs T - k times (counting k from 0); an exception exactly when a TPC with triplets follows one with pairs *)
Theorem C120_made_partial g c hits vis : regular g -> placed g hits -> visited (g_shape g) 0 vis -> filt c = false -> merge c = false ->
  exists Cs, Forall2 (combinations g c hits) vis Cs /\
    (late_triplet Cs -> make g c hits = Throw UserExn) /\
    (~ late_triplet Cs -> exists out m, make g c hits = Ok (out, m) /\ single m /\ Permutation (map snd m) (concat Cs) /\
      (forall p, In p out -> exists hs, hits_of m p hs /\ ((forall h, In h hits -> (0 < hsig h)%Qc) -> fitted g (fun _ => 1%Qc) hs p)) /\
      forall k C hs, nth_error Cs k = Some C -> In hs C -> counts (fun p => hits_of m p hs) out (length vis - k)).
Proof. exact (make_plain g c hits vis). Qed.
(** a detector with one TPC: each combination once, and no exception *)
Theorem C120_one_tpc_partial g c hits t np : regular g -> placed g hits -> g_shape g = repeat [] t ++ [[np]] -> filt c = false -> merge c = false ->
  exists C out m, combinations g c hits (t, 0, np) C /\ make g c hits = Ok (out, m) /\ single m /\ Permutation (map snd m) C /\
    (forall p, In p out -> exists hs, hits_of m p hs) /\ forall hs, In hs C -> counts (fun p => hits_of m p hs) out 1.
Proof.
  intros R Pl Sh Fc Mc. assert (V : visited (g_shape g) 0 [(t, 0, np)]).
  { rewrite Sh. assert (G : forall n k, visited (repeat [] n ++ [[np]]) k [(k + n, 0, np)]).
    { induction n as [|n IH]; intros k; cbn [repeat app].
      - apply (v_cons [np] [] k [(k + 0, 0, np)] []); [reflexivity| |constructor]. rewrite Nat.add_0_r. intros [|[|x]] y; cbn; split; intros X; congruence.
      - apply (v_cons [] _ k [] [(k + S n, 0, np)]); [reflexivity|intros [|x] y; cbn; split; discriminate|]. replace (k + S n) with (S k + n) by lia. apply IH. }
    apply (G t 0). }
  destruct (make_plain g c hits _ R Pl V Fc Mc) as (Cs & F & _ & Mk). inversion F as [|? C ? Cs' Hc F']; subst. inversion F'; subst.
  destruct Mk as (out & m & E & S & P & Q & Cn). { intros (i & j & C1 & C2 & a & b & L & A & B & _). destruct j as [|[|j]]; [lia|discriminate|discriminate]. }
  exists C, out, m. split; [exact Hc|]. split; [exact E|]. split; [exact S|]. split; [cbn in P; rewrite app_nil_r in P; exact P|]. split; [intros p I; destruct (Q p I) as (hs & X & _); eauto|].
  intros hs I. exact (Cn 0 C hs eq_refl I).
Qed.
Print Assumptions C120_once_refuted.
Print Assumptions C120_made_partial.
Print Assumptions C120_one_tpc_partial.
Example C120_case : g_shape g1 = repeat [] 0 ++ [[3]] /\ match make g1 (wcfg 3 false false false) (trip 0 0 ++ trip 3 0) with Ok (o, m) => length o = 8 /\ length m = 8 | _ => False end /\
  visited (g_shape g2) 0 [(0, 0, 3); (0, 1, 3)] /\ placed g2 (trip 0 0 ++ trip 3 1).
Proof. split; [reflexivity|]. split; [vm_compute; auto|]. split; [exact vis2|]. apply (placed_seq g2 _ 6); reflexivity. Qed.

(* ================================================================ C121: Filter *)
(** "filtering eliminates multiple space points ... on the same wire of the most populated plane": in a detector with several TPCs the same point is returned again *)
Theorem C121_filter_refuted : exists g c hits out m, regular g /\ placed g hits /\ (forall h, In h hits -> (0 < hsig h)%Qc) /\ filt c = true /\ make g c hits = Ok (out, m) /\ exists p, out = [p; p].
Proof.
  assert (G : exists out m, make g2 (wcfg 3 true false false) (trip 0 0) = Ok (out, m) /\ (exists p, out = [p; p])).
  { remember (make g2 (wcfg 3 true false false) (trip 0 0)) as o eqn:E. vm_compute in E. subst o. eexists _, _. split; [reflexivity|]. eexists; reflexivity. }
  destruct G as (out & m & E & P). exists g2, (wcfg 3 true false false), (trip 0 0), out, m. split; [exact g2_ok|]. split; [apply (placed_seq g2 _ 3); reflexivity|]. split; [intros h [<-|[<-|[<-|[]]]]; reflexivity|]. auto.
Qed.
Theorem C121_filter_partial g c hits vis : regular g -> placed g hits -> (forall h, In h hits -> (0 < hsig h)%Qc) -> visited (g_shape g) 0 vis -> filt c = true ->
  exists Cs, Forall2 (combinations g c hits) vis Cs /\
    (late_triplet Cs -> make g c hits = Throw UserExn) /\
    (~ late_triplet Cs -> exists out m, make g c hits = Ok (out, m) /\ single m /\ Permutation (map snd m) (concat Cs) /\
      (forall p, In p out -> exists pre d, hits_of m p (pre ++ [d]) /\ fitted g (fun _ => 1%Qc) (pre ++ [d]) p /\
        forall pre' t, In (pre' ++ [d]) (concat Cs) -> (sp_chi p <= time_chi2 g (fun _ => 1%Qc) (pre' ++ [d]) t)%Qc) /\
      forall k C pre d, nth_error Cs k = Some C -> In (pre ++ [d]) C -> counts (ends_with m d) out (length vis - k)).
Proof. exact (make_filtered g c hits vis). Qed.
Print Assumptions C121_filter_refuted.
Print Assumptions C121_filter_partial.
(** eight combinations, two hits on the last plane: two points, of chisquare 0 *)
Definition late_hit (h : hit) : hit := Hit (hid h) (hcryo h) (htpc h) (hplane h) (hwire h) (hview h) (htime h + 1)%Qc (hsig h).
Example C121_case : match make g1 (wcfg 3 true false false) (trip 0 0 ++ map late_hit (trip 3 0)) with Ok (o, m) => map (fun p => this (sp_chi p)) o = [0%Q; 0%Q] /\ length m = 8 | _ => False end.
Proof. vm_compute. auto. Qed.

(* ================================================================ C122: Merge *)
(** a single pair, or a triplet in each of two TPCs, is enough for an exception *)
Theorem C122_merge_refuted :
  (exists g c a b, regular g /\ placed g [a; b] /\ (0 < hsig a)%Qc /\ (0 < hsig b)%Qc /\ filt c = false /\ merge c = true /\ minviews c = 2 /\ fits g c [a; b] /\ make g c [a; b] = Throw UserExn /\
    exists out m, make g (Cfg (maxdt c) (maxs c) 2 true true true false false false 0 0 0)%Qc [a; b] = Ok (out, m) /\ length out = 1) /\
  (exists g c hits, regular g /\ placed g hits /\ (forall h, In h hits -> (0 < hsig h)%Qc) /\ filt c = false /\ merge c = true /\ minviews c = 3 /\ length hits = 6 /\ make g c hits = Throw UserExn).
Proof.
  split.
  - exists g1, (wcfg 2 false true false), (whit 0 0 0 5), (whit 1 0 1 10). split; [exact g1_ok|]. split; [apply (placed_seq g1 _ 2); reflexivity|]. do 5 (split; [reflexivity|]).
    split; [constructor; repeat split; try discriminate; vm_compute; discriminate|]. split; [vm_compute; reflexivity|].
    remember (make g1 _ _) as o eqn:E. vm_compute in E. subst o. eexists _, _. split; reflexivity.
  - exists g2, (wcfg 3 false true false), (trip 0 0 ++ trip 3 1). split; [exact g2_ok|]. split; [apply (placed_seq g2 _ 6); reflexivity|]. split; [intros h I; cbn in I; repeat (destruct I as [<-|I]; [reflexivity|]); destruct I|]. do 4 (split; [reflexivity|]). vm_compute. reflexivity.
Qed.
Theorem C122_merge_partial g c hits vis : regular g -> placed g hits -> (forall h, In h hits -> (0 < hsig h)%Qc) -> visited (g_shape g) 0 vis -> filt c = false -> merge c = true ->
  exists Cs, Forall2 (combinations g c hits) vis Cs /\
    (* the first TPC that makes points makes pairs *)
    (forall k C hs, nth_error Cs k = Some C -> In hs C -> length hs = 2 -> (forall j C', nth_error Cs j = Some C' -> j < k -> C' = []) -> make g c hits = Throw UserExn) /\
    (* two TPCs make triplets *)
    (forall i j C C' hs hs', i < j -> nth_error Cs i = Some C -> nth_error Cs j = Some C' -> In hs C -> In hs' C' -> length hs = 3 -> length hs' = 3 -> make g c hits = Throw UserExn) /\
    (* one TPC makes points, all of three hits: one merged point for each last hit, in each of the T - k rounds *)
    (forall k C, nth_error Cs k = Some C -> (forall hs, In hs C -> length hs = 3) -> (forall j C', nth_error Cs j = Some C' -> j <> k -> C' = []) ->
      exists out m ds rs, make g c hits = Ok (out, m) /\ single m /\ NoDup ds /\ (forall d, In d ds <-> exists pre, In (pre ++ [d]) C) /\
        out = concat rs /\ length rs = length vis - k /\ forall r, In r rs -> Forall2 (merged g m C) ds r).
Proof. exact (make_merged g c hits vis). Qed.
Print Assumptions C122_merge_refuted.
Print Assumptions C122_merge_partial.
Example C122_case : match make g1 (wcfg 3 false true false) (trip 0 0 ++ trip 3 0) with Ok (o, m) => length o = 2 /\ length m = 10 /\ map (fun p => match mfind (sp_id p) m with Some l => map hid l | None => [] end) o = [[0; 1; 2; 3; 4]; [0; 1; 3; 4; 5]] | _ => False end.
Proof. vm_compute. auto. Qed.

(* ================================================================ C123: exceptions *)
(** hits of a detector never make it throw? A pair in one TPC and a triplet in a later one do *)
Theorem C123_total_refuted : exists g c hits, regular g /\ placed g hits /\ (forall h, In h hits -> (0 < hsig h)%Qc) /\ filt c = false /\ merge c = false /\ minviews c = 2 /\
  make g c hits = Throw UserExn /\ make g c (trip 0 1) <> Throw UserExn.
Proof.
  exists g2, (wcfg 2 false false false), (two 0 0 ++ trip 2 1). split; [exact g2_ok|]. split; [apply (placed_seq g2 _ 5); reflexivity|]. split; [intros h I; cbn in I; repeat (destruct I as [<-|I]; [reflexivity|]); destruct I|]. do 3 (split; [reflexivity|]).
  split; [vm_compute; reflexivity|]. remember (make g2 _ (trip 0 1)) as o eqn:E. vm_compute in E. subst o. discriminate.
Qed.
(** with MinViews = 3, or in a detector of two-plane TPCs, it does not *)
Theorem C123_total_partial g c hits : regular g -> placed g hits -> (forall h, In h hits -> (0 < hsig h)%Qc) -> merge c = false ->
  3 <= minviews c \/ (forall cr t np, planes_in g cr t np -> np <= 2) -> exists out m, make g c hits = Ok (out, m).
Proof.
  intros R Pl Po Mc H. destruct (visited_ex (g_shape g) 0) as (vis & V).
  assert (NL : forall Cs, Forall2 (combinations g c hits) vis Cs -> ~ late_triplet Cs).
  { intros Cs F (i & j & C & C' & hs & hs' & L & A & B & I & L2 & I' & L3). destruct (F2_nth _ _ _ F _ _ A) as (v & Hv & (ord & _ & _ & E)). destruct (F2_nth _ _ _ F _ _ B) as (v' & Hv' & (ord' & _ & _ & E')).
    destruct H as [H|H].
    - apply E in I as [(X & _)|(_ & _ & p & q & r & a & b & d & _ & _ & _ & -> & _)]; [lia|discriminate].
    - apply E' in I' as [(_ & _ & i' & j' & p & q & a & b & _ & _ & _ & -> & _)|(_ & X & _)]; [discriminate|]. destruct (visited_planes _ _ _ V) as (_ & P). destruct (P v' (nth_error_In _ _ Hv')) as (ts & _ & Y & Z). rewrite Nat.sub_0_r in Y.
      assert (snd v' <= 2) by (apply (H (fst (fst v')) (snd (fst v'))); exists ts; auto). lia. }
  destruct (filt c) eqn:Fc.
  - destruct (make_filtered g c hits vis R Pl Po V Fc) as (Cs & F & _ & Mk). destruct (Mk (NL Cs F)) as (out & m & E & _). eauto.
  - destruct (make_plain g c hits vis R Pl V Fc Mc) as (Cs & F & _ & Mk). destruct (Mk (NL Cs F)) as (out & m & E & _). eauto.
Qed.
Print Assumptions C123_total_refuted.
Print Assumptions C123_total_partial.
Example C123_case : 3 <= minviews (wcfg 3 false false false) /\ exists o m, make g2 (wcfg 3 false false false) (two 0 0 ++ trip 2 1) = Ok (o, m) /\ length o = 1.
Proof. split; [cbn; lia|]. remember (make g2 _ _) as o eqn:E. vm_compute in E. subst o. eexists _, _. split; reflexivity. Qed.

(* ================================================================ C124: which combinations *)
(** a compatible pair on crossing wires is not used when the third plane has a hit, whatever MinViews says; and a pair is used although its wires are far apart *)
Theorem C124_combinations_refuted :
  (exists g c hits a b out m, regular g /\ placed g hits /\ minviews c = 2 /\ filt c = false /\ merge c = false /\ In a hits /\ In b hits /\ used c a /\ used c b /\ hplane a <> hplane b /\
     fits g c [a; b] /\ cross g a b /\ make g c hits = Ok (out, m) /\ out = []) /\
  (exists g c a b out m p, regular g /\ placed g [a; b] /\ filt c = false /\ merge c = false /\ make g c [a; b] = Ok (out, m) /\ In p out /\ hits_of m p [a; b] /\ ~ near_wire g a b).
Proof.
  split.
  - exists g1, (wcfg 2 false false false), (two 0 0 ++ [whit 2 0 2 50]), (whit 0 0 0 5), (whit 1 0 1 10).
    assert (E : make g1 (wcfg 2 false false false) (two 0 0 ++ [whit 2 0 2 50]) = Ok ([], [])) by (vm_compute; reflexivity). exists [], [].
    split; [exact g1_ok|]. split; [apply (placed_seq g1 _ 3); reflexivity|]. do 3 (split; [reflexivity|]). split; [left; reflexivity|]. split; [right; left; reflexivity|]. do 2 (split; [reflexivity|]). split; [discriminate|].
    split; [constructor; repeat split; try discriminate; vm_compute; discriminate|]. split; [|split; [exact E|reflexivity]].
    exists (Q2Qc (-5)), (Q2Qc 10). split.
    + exists (Q2Qc (11 # 20)). split; [vm_compute; discriminate|]. split; [vm_compute; discriminate|]. split; apply Qc_is_canon; vm_compute; reflexivity.
    + exists (Q2Qc (19 # 40)). split; [vm_compute; discriminate|]. split; [vm_compute; discriminate|]. split; apply Qc_is_canon; vm_compute; reflexivity.
  - assert (G : exists out m p, make g1 (wcfg 2 false false false) [whit 0 0 0 200; whit 1 0 2 0] = Ok (out, m) /\ In p out /\ hits_of m p [whit 0 0 0 200; whit 1 0 2 0]).
    { remember (make g1 _ _) as o eqn:E. vm_compute in E. subst o. eexists _, _, _. split; [reflexivity|]. split; [left; reflexivity|]. left; reflexivity. }
    destruct G as (out & m & p & E & I & H). exists g1, (wcfg 2 false false false), (whit 0 0 0 200), (whit 1 0 2 0), out, m, p.
    split; [exact g1_ok|]. split; [apply (placed_seq g1 _ 2); reflexivity|]. do 2 (split; [reflexivity|]). split; [exact E|]. split; [exact I|]. split; [exact H|].
    intros (y & z & (l & A & B & -> & ->) & (U & _)). unfold wr in U. cbn [g1 wgeo g_wire whit hcryo htpc hplane hwire pitch_of g_pitch] in U. unfold coord in U. rewrite off_w, sn_w, cs_w in U.
    assert (E1 : ys (wwire 0 200) = Q2Qc (-200)) by (apply Qc_is_canon; vm_compute; reflexivity). assert (E2 : ye (wwire 0 200) = Q2Qc (-200)) by (apply Qc_is_canon; vm_compute; reflexivity).
    assert (E3 : zs (wwire 0 200) = Q2Qc (-100)) by (apply Qc_is_canon; vm_compute; reflexivity). assert (E4 : ze (wwire 0 200) = Q2Qc 100) by (apply Qc_is_canon; vm_compute; reflexivity).
    assert (E5 : dsn 2 = Q2Qc (4 # 5)) by (apply Qc_is_canon; vm_compute; reflexivity). assert (E6 : dcs 2 = Q2Qc (-3 # 5)) by (apply Qc_is_canon; vm_compute; reflexivity).
    rewrite E1, E2, E3, E4, E5, E6 in U. change (nat_q 0) with 0%Qc in U. revert U. clear -B. intros U. qclra.
Qed.
(** compatible hits on crossing wires make a point: pairs when only two planes have hits, triplets *)
Theorem C124_pairs_partial g c hits out m np a b : regular g -> placed g hits -> filt c = false -> merge c = false -> make g c hits = Ok (out, m) -> minviews c <= 2 ->
  In a hits -> In b hits -> used c a -> used c b -> planes_in g (hcryo a) (htpc a) np -> two_only c hits (hcryo a) (htpc a) np -> hplane a <> hplane b ->
  fits g c [a; b] -> cross g a b -> exists p hs, In p out /\ hits_of m p hs /\ Permutation hs [a; b].
Proof. intros R Pl Fc Mc E Mv Ia Ib Ua Ub P T D Ft X. apply (pair_complete g c hits R Pl Fc Mc out m np a b); try assumption. inversion Ft; assumption. Qed.
Theorem C124_triplets g c hits out m a b d : regular g -> placed g hits -> filt c = false -> merge c = false -> make g c hits = Ok (out, m) -> minviews c <= 3 ->
  In a hits -> In b hits -> In d hits -> used c a -> used c b -> used c d -> planes_in g (hcryo a) (htpc a) 3 ->
  hplane a <> hplane b -> hplane a <> hplane d -> hplane b <> hplane d -> fits g c [a; b; d] -> cross g a b -> cross g a d -> cross g b d ->
  exists p hs, In p out /\ hits_of m p hs /\ Permutation hs [a; b; d].
Proof. intros R Pl Fc Mc. apply (triple_complete g c hits R Pl Fc Mc). Qed.
(** a point is made of hits whose first two wires come within one spacing, except wire 0 *)
Theorem C124_near_partial g c hits out m p a b rest : regular g -> placed g hits -> filt c = false -> merge c = false -> make g c hits = Ok (out, m) ->
  In p out -> hits_of m p (a :: b :: rest) -> hwire b <> 0 -> near_wire g a b.
Proof.
  intros R Pl Fc Mc E I H Nz. destruct (visited_ex (g_shape g) 0) as (vis & V). destruct (make_plain g c hits vis R Pl V Fc Mc) as (Cs & F & Th & Mk).
  assert (NL : ~ late_triplet Cs) by (intros X; rewrite (Th X) in E; discriminate). destruct (Mk NL) as (out' & m' & E' & _ & Pm & _). rewrite E in E'. injection E' as <- <-.
  apply (in_map snd) in H. cbn [snd] in H. apply (Permutation_in _ Pm) in H. apply in_concat in H as (C & HC & H). apply In_nth_error in HC as (k & HC). destruct (F2_nth _ _ _ F _ _ HC) as (v & _ & (ord & _ & _ & Ec)).
  apply (reaches_near g R); [exact Nz|]. pose proof (proj1 (Ec _) H) as H'; destruct H' as [(_ & _ & i & j & p' & q & x & y & _ & _ & _ & X & _ & _ & _ & _ & Re & _)|(_ & _ & p' & q & r & x & y & z & _ & _ & _ & X & _ & _ & _ & _ & _ & _ & Re & _)]; injection X as -> -> _; exact Re.
Qed.
Print Assumptions C124_combinations_refuted.
Print Assumptions C124_pairs_partial.
Print Assumptions C124_triplets.
Print Assumptions C124_near_partial.
Example C124_case : exists out m, make g1 (wcfg 2 false false false) (two 0 0) = Ok (out, m) /\ length out = 1 /\ two_only (wcfg 2 false false false) (two 0 0) 0 0 3.
Proof.
  remember (make g1 _ _) as o eqn:E. vm_compute in E. subst o. eexists _, _. split; [reflexivity|]. split; [reflexivity|]. right. cbn [seq].
  constructor; [exists (whit 0 0 0 5); split; [left; reflexivity|split; [reflexivity|repeat split]]|]. constructor; [exists (whit 1 0 1 10); split; [right; left; reflexivity|split; [reflexivity|repeat split]]|].
  apply cno; [|constructor]. intros (h & [<-|[<-|[]]] & _ & _ & _ & X); discriminate.
Qed.

(* ================================================================ C125: the hits of a point *)
(** two or three hits of the input, of enabled views, of one TPC, of different planes and views, in the order of the planes: collection last with
    PreferColl, otherwise by number of hits; and they can be asked for *)
Theorem C125_hits g c hits out m p : regular g -> placed g hits -> (forall h, In h hits -> (0 < hsig h)%Qc) -> merge c = false -> make g c hits = Ok (out, m) -> In p out ->
  exists hs, assoc_hits m p = Ok hs /\ incl hs hits /\ fits g c hs /\ minviews c <= length hs /\ (forall h, In h hs -> used c h) /\ NoDup (map hplane hs) /\
    forall pre a mid b post, hs = pre ++ a :: mid ++ b :: post ->
      (last_plane g c (hcryo a) (htpc a) (hplane a) -> last_plane g c (hcryo b) (htpc b) (hplane b)) /\
      (~ last_plane g c (hcryo a) (htpc a) (hplane a) -> ~ last_plane g c (hcryo b) (htpc b) (hplane b) ->
       forall n k, counts (used_at c (hcryo a) (htpc a) (hplane a)) hits n -> counts (used_at c (hcryo b) (htpc b) (hplane b)) hits k -> n <= k).
Proof.
  intros R Pl Po Mc E I. destruct (visited_ex (g_shape g) 0) as (vis & V).
  assert (G : exists Cs, Forall2 (combinations g c hits) vis Cs /\ single m /\ Permutation (map snd m) (concat Cs) /\ exists hs, hits_of m p hs).
  { destruct (filt c) eqn:Fc.
    - destruct (make_filtered g c hits vis R Pl Po V Fc) as (Cs & F & Th & Mk). assert (NL : ~ late_triplet Cs) by (intros X; rewrite (Th X) in E; discriminate). destruct (Mk NL) as (out' & m' & E' & S & Pm & Q & _). rewrite E in E'. injection E' as <- <-.
      exists Cs. split; [exact F|]. split; [exact S|]. split; [exact Pm|]. destruct (Q p I) as (pre & d & X & _). eauto.
    - destruct (make_plain g c hits vis R Pl V Fc Mc) as (Cs & F & Th & Mk). assert (NL : ~ late_triplet Cs) by (intros X; rewrite (Th X) in E; discriminate). destruct (Mk NL) as (out' & m' & E' & S & Pm & Q & _). rewrite E in E'. injection E' as <- <-.
      exists Cs. split; [exact F|]. split; [exact S|]. split; [exact Pm|]. destruct (Q p I) as (hs & X & _). eauto. }
  destruct G as (Cs & F & S & Pm & hs & H). exists hs. split; [unfold assoc_hits; rewrite (proj2 (mfind_some _ _ _ S) H); reflexivity|].
  apply (in_map snd) in H. cbn [snd] in H. apply (Permutation_in _ Pm) in H. apply in_concat in H as (C & HC & H). apply In_nth_error in HC as (k & HC). destruct (F2_nth _ _ _ F _ _ HC) as (v & _ & (ord & (Po' & Or) & _ & Ec)).
  assert (No : NoDup ord) by (apply (Permutation_NoDup (Permutation_sym Po')), seq_NoDup). rewrite NoDup_nth_error in No.
  assert (Ne : forall i j x y, i < j -> nth_error ord i = Some x -> nth_error ord j = Some y -> x <> y) by (intros i j x y L X Y Z; assert (i = j) by (apply No; [apply nth_error_Some; congruence|congruence]); lia).
  assert (Pr : forall i j p' q x y, i < j -> nth_error ord i = Some p' -> nth_error ord j = Some q -> used_at c (fst (fst v)) (snd (fst v)) p' x -> used_at c (fst (fst v)) (snd (fst v)) q y ->
    (last_plane g c (hcryo x) (htpc x) (hplane x) -> last_plane g c (hcryo y) (htpc y) (hplane y)) /\
    (~ last_plane g c (hcryo x) (htpc x) (hplane x) -> ~ last_plane g c (hcryo y) (htpc y) (hplane y) ->
       forall n k, counts (used_at c (hcryo x) (htpc x) (hplane x)) hits n -> counts (used_at c (hcryo y) (htpc y) (hplane y)) hits k -> n <= k)).
  { intros i j p' q x y L X Y (_ & Ux1 & Ux2 & Ux3) (_ & Uy1 & Uy2 & Uy3). rewrite Ux1, Ux2, Ux3, Uy1, Uy2, Uy3. exact (Or i j p' q L X Y). }
  pose proof (proj1 (Ec _) H) as H'; clear H; destruct H' as [(Mv & _ & i & j & p' & q & x & y & L & X & Y & -> & Ix & Ux & Iy & Uy & _ & Ft)|(Mv & _ & p' & q & r & x & y & z & X & Y & Z & -> & Ix & Ux & Iy & Uy & Iz & Uz & _ & Ft)].
  - split; [intros h [<-|[<-|[]]]; assumption|]. split; [exact Ft|]. split; [exact Mv|]. split; [intros h [<-|[<-|[]]]; [apply Ux|apply Uy]|].
    assert (Dp : hplane x <> hplane y) by (destruct Ux as (_ & _ & _ & ->), Uy as (_ & _ & _ & ->); apply (Ne i j); assumption).
    split; [cbn; constructor; [intros [W|[]]; congruence|constructor; [intros []|constructor]]|].
    intros pre a mid b post W. destruct pre as [|a0 [|a1 pre]]; cbn in W; injection W; intros; subst; try discriminate.
    + destruct mid as [|m0 mid]; cbn in H; injection H; intros; subst; [|destruct mid; discriminate]. apply (Pr i j p' q); assumption.
    + destruct mid; discriminate.
    + destruct pre; discriminate.
  - split; [intros h [<-|[<-|[<-|[]]]]; assumption|]. split; [exact Ft|]. split; [exact Mv|]. split; [intros h [<-|[<-|[<-|[]]]]; [apply Ux|apply Uy|apply Uz]|].
    assert (D1 : hplane x <> hplane y) by (destruct Ux as (_ & _ & _ & ->), Uy as (_ & _ & _ & ->); apply (Ne 0 1); [lia|assumption|assumption]).
    assert (D2 : hplane x <> hplane z) by (destruct Ux as (_ & _ & _ & ->), Uz as (_ & _ & _ & ->); apply (Ne 0 2); [lia|assumption|assumption]).
    assert (D3 : hplane y <> hplane z) by (destruct Uy as (_ & _ & _ & ->), Uz as (_ & _ & _ & ->); apply (Ne 1 2); [lia|assumption|assumption]).
    split; [cbn; constructor; [intros [W|[W|[]]]; congruence|constructor; [intros [W|[]]; congruence|constructor; [intros []|constructor]]]|].
    intros pre a mid b post W. destruct pre as [|a0 [|a1 [|a2 pre]]]; cbn in W; injection W; intros; subst; try discriminate.
    + destruct mid as [|m0 [|m1 mid]]; cbn in H; injection H; intros; subst; [apply (Pr 0 1 p' q); [lia|assumption|assumption|assumption|assumption]|apply (Pr 0 2 p' r); [lia|assumption|assumption|assumption|assumption]|destruct mid; discriminate].
    + destruct mid as [|m0 mid]; cbn in H; injection H; intros; subst; [|destruct mid; discriminate]. apply (Pr 1 2 q r); [lia|assumption|assumption|assumption|assumption].
    + destruct mid; discriminate.
    + destruct pre; discriminate.
Qed.
Print Assumptions C125_hits.
(** the U plane has two hits: it comes last; with PreferColl the collection plane *)
Example C125_case : match make g1 (wcfg 3 false false false) (trip 0 0 ++ [whit 3 0 0 5]), make g1 (wcfg 3 false false true) (trip 0 0 ++ [whit 3 0 0 5]) with
  Ok (_, m), Ok (_, m') => map (fun e => map hplane (snd e)) m = [[1; 2; 0]; [1; 2; 0]] /\ map (fun e => map hplane (snd e)) m' = [[1; 0; 2]; [1; 0; 2]] | _, _ => False end.
Proof. vm_compute. auto. Qed.
