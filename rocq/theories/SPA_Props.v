(** SpacePointAlg: the properties *)
From Coq Require Import QArith Qcanon Lqa.
From Verif Require Import Base QcUtil SortUtil Solver_Model Solver_Proofs SPS_Model SPA_Model SPA_Spec SPA_Compat SPA_Fit SPA_Runs SPA_Hits SPA_Geom SPA_Loop SPA_Ids SPA_Make SPA_Out SPA_Filter SPA_Merge SPA_Reach SPA_Complete SPA_Wit.
Import SPA_Model.
Local Open Scope nat_scope.

(* ================================================================ C116: compatible *)
(** hits of different planes of straight wires: [compatible] is the definition, and the order of the hits does not matter *)
Theorem C116_compatible g c hs : (forall h, In h hs -> straight (wr g h) /\ hplane h < 3) -> NoDup (map hplane hs) ->
  exists b, compatible g c hs = Ok b /\ (b = true <-> fits g c hs) /\ forall hs', Permutation hs hs' -> compatible g c hs' = Ok b.
Proof.
  intros H N. assert (Cl : forall l, Permutation hs l -> clean g l).
  { intros l P. split; [intros h I; apply H, (Permutation_in _ (Permutation_sym P)), I|]. split; [apply (Permutation_NoDup (Permutation_map hplane P)); exact N|]. intros h I. apply H, (Permutation_in _ (Permutation_sym P)), I. }
  destruct (compatible_spec g c hs (Cl hs (Permutation_refl _))) as (b & E & S). exists b. split; [exact E|]. split; [exact S|]. intros hs' P.
  destruct (compatible_spec g c hs' (Cl hs' P)) as (b' & E' & S'). rewrite E'. f_equal.
  assert (Q : b = true <-> b' = true) by (rewrite S, S'; split; apply fits_perm; [exact P|apply Permutation_sym; exact P]). clear - Q. destruct b, b'; intuition congruence.
Qed.
(** three hits of one TPC: [compatible] cuts on what [separation] returns *)
Theorem C116_separation g c a b d : (forall h, In h [a; b; d] -> straight (wr g h) /\ hplane h < 3) -> NoDup (map hplane [a; b; d]) ->
  htpc a = htpc b -> htpc a = htpc d -> hcryo a = hcryo b -> hcryo a = hcryo d ->
  exists s, separation g [a; b; d] = Ok s /\ (compatible g c [a; b; d] = Ok true <-> agree g c a b /\ agree g c a d /\ agree g c b d /\ within (maxs c) s).
Proof.
  intros H N T1 T2 T3 T4. assert (Cl : clean g [a; b; d]) by (split; [intros h I; apply H, I|split; [exact N|intros h I; apply H, I]]).
  destruct (separation_three g a b d Cl T1 T2 T3 T4) as (s & E & P). exists s. split; [exact E|].
  destruct (compatible_spec g c _ Cl) as (r & Er & S). rewrite Er. split.
  - intros X. injection X as ->. destruct (fits3_inv g c a b d (proj1 S eq_refl)) as (A & B & D & W). split; [exact A|]. split; [exact B|]. split; [exact D|].
    exact (proj2 (pm_within _ _ _ P) W).
  - intros (A & B & D & W). f_equal. apply S. constructor; try assumption. exact (proj1 (pm_within _ _ _ P) W).
Qed.
Print Assumptions C116_compatible.
Print Assumptions C116_separation.
Example C116_case : compatible (wgeo [[3]]) (wcfg 2 false false false) (trip 0 0) = Ok true /\ compatible (wgeo [[3]]) (wcfg 2 false false false) [whit 0 0 0 5; whit 1 0 1 10; whit 2 0 2 8] = Ok false /\
  (exists s, separation (wgeo [[3]]) [whit 0 0 0 5; whit 1 0 1 10; whit 2 0 2 8] = Ok s /\ this s = (-3)%Q) /\ NoDup (map hplane (trip 0 0)).
Proof. repeat split; try (vm_compute; reflexivity); [eexists; split; vm_compute; reflexivity|]. repeat constructor; cbn; intuition discriminate. Qed.

(* ================================================================ C117: the time offsets *)
(** the header: "The time offsets are subtracted from times embedded in hits before comparing times in different planes, and before
    converting time to distance" *)
Definition offs_cfg : cfg := Cfg 1%Qc 1%Qc 2 true true true false false false (Q2Qc 50) 0%Qc 0%Qc.
Theorem C117_offsets_refuted :
  (exists g c a b, regular g /\ placed g [a; b] /\ agree g c a b /\ compatible g c [a; b] = Ok true /\ ~ upto (maxdt c) (corrected_time g c a - corrected_time g c b)) /\
  (exists g c a b, regular g /\ placed g [a; b] /\ hview a <> hview b /\ hplane a <> hplane b /\ corrected_time g c a = corrected_time g c b /\ compatible g c [a; b] = Ok false).
Proof.
  assert (R : regular (wgeo [[3]])) by (apply wgeo_ok; reflexivity).
  split.
  - exists (wgeo [[3]]), offs_cfg, (whit 0 0 0 5), (whit 1 0 1 10). split; [exact R|]. split.
    { split; [repeat constructor; cbn; intuition discriminate|]. intros h [<-|[<-|[]]]; exists 3; (split; [exists [3]; auto|cbn; lia]). }
    split; [repeat split; try discriminate; vm_compute; discriminate|]. split; [vm_compute; reflexivity|]. intros (X & _). vm_compute in X. apply X. reflexivity.
  - exists (wgeo [[3]]), offs_cfg, (Hit 0 0 0 0 5 VU (Q2Qc 150) 1%Qc), (whit 1 0 1 10). split; [exact R|]. split.
    { split; [repeat constructor; cbn; intuition discriminate|]. intros h [<-|[<-|[]]]; exists 3; (split; [exists [3]; auto|cbn; lia]). }
    split; [discriminate|]. split; [discriminate|]. split; [apply Qc_is_canon; vm_compute; reflexivity|vm_compute; reflexivity].
Qed.
(** with all offsets zero the corrected times are the times compared and fitted *)
Theorem C117_offsets_partial g c : offu c = 0%Qc -> offv c = 0%Qc -> offw c = 0%Qc ->
  (forall h, corrected_time g c h = tm g h) /\
  (forall hs, fits g c hs -> forall a b, In a hs -> In b hs -> a = b \/ upto (maxdt c) (corrected_time g c a - corrected_time g c b)).
Proof.
  intros U V W. assert (T : forall h, corrected_time g c h = tm g h) by (intros h; unfold corrected_time, tick, tm; rewrite U, V, W; destruct (hview h); ring). split; [exact T|].
  intros hs F a b A B. rewrite !T.
  assert (Sy : forall x y, agree g c x y -> upto (maxdt c) (tm g x - tm g y) /\ upto (maxdt c) (tm g y - tm g x)) by (intros x y (_ & _ & _ & X1 & X2); repeat split; qclra).
  inversion F as [x y X|x y z X Y Z]; subst.
  - destruct (Sy _ _ X). destruct A as [<-|[<-|[]]], B as [<-|[<-|[]]]; auto.
  - destruct (Sy _ _ X), (Sy _ _ Y), (Sy _ _ Z). destruct A as [<-|[<-|[<-|[]]]], B as [<-|[<-|[<-|[]]]]; auto.
Qed.
Print Assumptions C117_offsets_refuted.
Print Assumptions C117_offsets_partial.
Example C117_case : offu (wcfg 2 false false false) = 0%Qc /\ corrected_time (wgeo [[3]]) offs_cfg (whit 0 0 0 5) <> tm (wgeo [[3]]) (whit 0 0 0 5).
Proof. split; [reflexivity|]. intros X. apply (f_equal this) in X. vm_compute in X. discriminate. Qed.

(* ================================================================ C118: one point *)
Lemma assoc_mono m id hs q l : ~ In id (map fst m) -> assoc_hits m q = Ok l -> assoc_hits ((id, hs) :: m) q = Ok l.
Proof.
  intros N E. unfold assoc_hits, mfind in *. cbn [find fst]. destruct (Z.eqb_spec id (sp_id q)) as [->|D]; [|exact E].
  exfalso. destruct (find _ m) as [e|] eqn:F; [|discriminate]. apply find_some in F as (F1 & F2). apply Z.eqb_eq in F2. apply N. rewrite <- F2. apply in_map. exact F1.
Qed.
Lemma assoc_head id hs m q : sp_id q = id -> assoc_hits ((id, hs) :: m) q = Ok hs.
Proof. intros <-. unfold assoc_hits, mfind. cbn [find fst]. rewrite Z.eqb_refl. reflexivity. Qed.
Lemma exx_simple g hits id : fittable g hits -> hits <> [] -> (sp_exx (simple_point g hits id) * total (fun h => 1 / sq (hsig h)) hits = sq (g_x g))%Qc.
Proof.
  intros F N. unfold simple_point, point. cbn [sp_exx].
  assert (T : fsum (fun h => 1 / (hsig h * hsig h))%Qc hits = total (fun h => 1 / sq (hsig h))%Qc hits) by apply fsum_total.
  rewrite T. assert (P : (0 < total (fun h => 1 / sq (hsig h)) hits)%Qc).
  { apply total_pos; [exact N|]. intros h H. apply div_pos; [reflexivity|]. unfold sq. destruct (F h H) as (S & _). apply mul_pos; exact S. }
  revert P. generalize (total (fun h => 1 / sq (hsig h)) hits)%Qc. intros x P. destruct (qc_eqb x 0) eqn:Z; [apply qc_eqb_spec in Z; subst; discriminate|].
  assert (0 < 1 / x)%Qc by (apply div_pos; [reflexivity|exact P]). destruct (qc_lt (1 / x) 0) eqn:Q; [apply qc_lt_spec in Q; exfalso; revert H Q; generalize (1 / x)%Qc; intros; qclra|]. unfold sq. field. apply pos_ne. exact P.
Qed.

Theorem C118_simple g hits sptv id m : fittable g hits ->
  (In id (map fst m) -> fill g hits sptv id m = Throw UserExn) /\
  (~ In id (map fst m) -> length hits < 2 -> exists m', fill g hits sptv id m = Ok (sptv, m')) /\
  (~ In id (map fst m) -> 2 <= length hits -> exists p m', fill g hits sptv id m = Ok (sptv ++ [p], m') /\ sp_id p = id /\ fitted g (fun _ => 1%Qc) hits p /\
     (sp_exx p * total (fun h => 1 / sq (hsig h)) hits = sq (g_x g))%Qc /\
     (forall a b, hits = [a; b] -> (sn (wr g a) * cs (wr g b) <> sn (wr g b) * cs (wr g a))%Qc -> on_wire (wr g a) (sp_y p) (sp_z p) /\ on_wire (wr g b) (sp_y p) (sp_z p)) /\
     assoc_hits m' p = Ok hits /\ (forall q l, assoc_hits m q = Ok l -> assoc_hits m' q = Ok l) /\ (single m -> single m')).
Proof.
  intros F. split; [|split].
  - intros I. unfold fill. destruct (mfind id m) eqn:E; [reflexivity|]. apply mfind_none in E. contradiction.
  - intros N L. unfold fill. rewrite (proj2 (mfind_none id m) N). destruct (Nat.leb_spec 2 (length hits)); [lia|]. eauto.
  - intros N L. assert (Ne : hits <> []) by (intros ->; cbn in L; lia).
    assert (Ft : fitted g (fun _ => 1%Qc) hits (simple_point g hits id)) by (apply point_fitted; [exact F|exact Ne|reflexivity]).
    exists (simple_point g hits id), ((id, hits) :: m). split; [apply fill_ok; assumption|]. split; [reflexivity|]. split; [exact Ft|]. split; [apply exx_simple; assumption|].
    split; [intros a b -> X; apply (two_wires g (fun _ => 1%Qc)); [exact F|reflexivity|reflexivity|exact Ft|exact X]|].
    split; [apply assoc_head; reflexivity|]. split; [intros q l; apply assoc_mono; exact N|]. intros S. unfold single. cbn [map fst]. constructor; assumption.
Qed.
Theorem C118_complex g hits sptv id m : fittable g hits ->
  (In id (map fst m) -> fill_complex g hits sptv id m = Throw UserExn) /\
  (~ In id (map fst m) -> 2 <= length hits -> exists p m' wt, fill_complex g hits sptv id m = Ok (sptv ++ [p], m') /\ sp_id p = id /\
     (forall h n, In h hits -> counts (fun k => hplane k = hplane h) hits n -> wt h = (1 / (nat_q n * nat_q n * nat_q n))%Qc) /\ fitted g wt hits p /\
     assoc_hits m' p = Ok hits /\ (forall q l, assoc_hits m q = Ok l -> assoc_hits m' q = Ok l) /\ (single m -> single m')).
Proof.
  intros F. split.
  - apply complex_throw.
  - intros N L. assert (Ne : hits <> []) by (intros ->; cbn in L; lia). exists (complex_point g hits id), ((id, hits) :: m), (plane_weight hits).
    split; [apply complex_ok; assumption|]. split; [reflexivity|]. split; [intros h n _ X; apply weight_spec; exact X|]. split; [apply point_fitted; [exact F|exact Ne|intros h H; apply weight_pos; exact H]|].
    split; [apply assoc_head; reflexivity|]. split; [intros q l; apply assoc_mono; exact N|]. intros S. unfold single. cbn [map fst]. constructor; assumption.
Qed.
Print Assumptions C118_simple.
Print Assumptions C118_complex.
Example C118_case : match fill (wgeo [[3]]) (two 0 0) [] 7 [] with Ok ([p], m) => (this (sp_y p), this (sp_z p), map fst m) = ((-5)%Q, 10%Q, [7%Z]) | _ => False end /\
  fill (wgeo [[3]]) (two 0 0) [] 7 [(7%Z, [])] = Throw UserExn /\ fittable (wgeo [[3]]) (two 0 0).
Proof.
  split; [vm_compute; reflexivity|]. split; [vm_compute; reflexivity|]. intros h H. assert (R : regular (wgeo [[3]])) by (apply wgeo_ok; reflexivity).
  split; [destruct H as [<-|[<-|[]]]; reflexivity|]. split; [apply (r_straight _ R)|apply (r_pitch _ R)].
Qed.

(* ================================================================ C119: points along a track *)
Theorem C119_track g c track spts m : proper g (on_wires track) -> single m -> (forall i, In i (map fst m) -> (i < Z.of_nat (length m))%Z) ->
  exists segs long new m', cut_in_runs g c (on_wires track) segs /\ long = filter (fun s : list hit => 2 <=? length s) segs /\
    fill_runs g c track spts m = Ok (spts ++ new, m') /\ length new = length long /\ single m' /\
    (forall i s, nth_error long i = Some s -> exists p, nth_error new i = Some p /\ sp_id p = Z.of_nat (length m + i) /\ assoc_hits m' p = Ok s /\ (fittable g s -> fitted g (fun _ => 1%Qc) s p)) /\
    (forall q l, assoc_hits m q = Ok l -> assoc_hits m' q = Ok l).
Proof.
  intros P S B. destruct (fill_runs_made g c spts m B track P) as (segs & C & E). destruct (made_spec g segs m) as (L & N & I).
  set (long := filter (fun s : list hit => 2 <=? length s) segs) in *. exists segs, long, (fst (made g m segs)), (snd (made g m segs)). split; [exact C|]. split; [reflexivity|]. split; [exact E|]. split; [exact L|].
  assert (S' : single (snd (made g m segs))).
  { clear -S B. revert m S B. induction segs as [|s segs IH]; intros m S B; cbn [made]; [exact S|]. destruct (2 <=? length s); [|apply IH; assumption].
    specialize (IH ((Z.of_nat (length m), s) :: m)). destruct (made g ((Z.of_nat (length m), s) :: m) segs) as (l, m'). cbn [snd] in *. apply IH.
    - unfold single. cbn [map fst]. constructor; [intros X; apply B in X; lia|exact S].
    - cbn [map fst length]. intros i [<-|X]; [lia|]. apply B in X. lia. }
  split; [exact S'|].
  assert (Af : forall q l, In (sp_id q, l) (snd (made g m segs)) -> assoc_hits (snd (made g m segs)) q = Ok l) by (intros q l X; unfold assoc_hits; rewrite (proj2 (mfind_some _ _ _ S') X); reflexivity).
  split.
  - intros i s Hi. exists (simple_point g s (Z.of_nat (length m + i))). split; [apply N; exact Hi|]. split; [reflexivity|]. split; [apply Af; apply I; right; exists i; auto|].
    intros F. apply point_fitted; [exact F| |reflexivity]. apply nth_error_In in Hi. apply filter_In in Hi as (_ & Hi). intros ->. discriminate.
  - intros q l X. apply Af, I. left. unfold assoc_hits in X. destruct (mfind (sp_id q) m) as [l'|] eqn:M; [|discriminate]. injection X as ->. apply mfind_some in M; [exact M|exact S].
Qed.
Print Assumptions C119_track.
Example C119_case : match fill_runs (wgeo [[3]]) (wcfg 2 false false false) (map Some (trip 0 0 ++ two 3 0) ++ [None]) [] [] with Ok (o, m) => (map sp_id o, map (fun e => (fst e, map hid (snd e))) m) = ([0%Z; 1%Z], [(1%Z, [3; 4]); (0%Z, [0; 1; 2])]) | _ => False end.
Proof. vm_compute. reflexivity. Qed.
