(** C20, C21, C22 *)
From Coq Require Import QArith Qcanon.
From Verif Require Import Base Util SortUtil QcUtil Solver_Model Solver_Proofs Triplet_Model Triplet_Spec Triplet_Proofs.
Local Open Scope Qc_scope.

(** C20: on lists sorted in drift, the windowed scan finds exactly the pairs found by comparing everything with everything *)
Theorem c20_doublets_complete thr isect xs os xbad obad :
  0 < thr ->
  StronglySorted (fun a b => hc_x a <= hc_x b) xs -> StronglySorted (fun a b => hc_x a <= hc_x b) os ->
  Permutation (doublets thr isect xs os xbad obad) (all_doublets thr isect xs os xbad obad).
Proof. apply doublets_perm. Qed.
Print Assumptions c20_doublets_complete.

(** C20: and for the whole detector, whatever order std::sort leaves equal elements in *)
Theorem c20_doublets_of_tpc srt I tpc :
  sorts_by hoc_less srt -> 0 < in_thrD I ->
  Permutation (doublets_xu srt I tpc) (spec_xu I tpc) /\ Permutation (doublets_xv srt I tpc) (spec_xv I tpc).
Proof.
  intros Hs Ht.
  assert (S1 : forall l, asc (srt l)) by (intros l; apply sorted_asc, Hs).
  assert (S2 : forall l, Permutation (srt l) l) by (intros l; apply Hs).
  split; unfold doublets_xu, doublets_xv, spec_xu, spec_xv;
    (etransitivity; [apply doublets_perm; auto|]; rewrite <- !hits_in_eq; apply all_doublets_perm; apply S2).
Qed.
Print Assumptions c20_doublets_of_tpc.

(** C20: membership form: a pair of hits is reported iff the two are near in drift and the wires cross *)
Theorem c20_hit_pair_iff thr isect xs os xbad obad x o p :
  0 < thr ->
  StronglySorted (fun a b => hc_x a <= hc_x b) xs -> StronglySorted (fun a b => hc_x a <= hc_x b) os ->
  (forall h, In h xs \/ In h os -> hc_hit h <> None) ->
  hc_hit x <> None -> hc_hit o <> None ->
  (In (mkD x o p) (doublets thr isect xs os xbad obad) <->
   In x xs /\ In o os /\ hc_x x - hc_x o < thr /\ hc_x o - hc_x x < thr /\ isect (hc_chan x) (hc_chan o) = Some p).
Proof.
  intros Ht Hx Ho Hreal Rx Ro.
  assert (P := doublets_perm thr isect xs os xbad obad Ht Hx Ho).
  split.
  - intros H. apply (Permutation_in _ P) in H. unfold all_doublets in H. rewrite !in_app_iff in H.
    destruct H as [H|[H|H]].
    + unfold hit_hit in H. apply in_flat_map in H. destruct H as (x' & Hx' & H). apply in_flat_map in H. destruct H as (o' & Ho' & H).
      destruct (near thr (hc_x x') (hc_x o')) eqn:En; [|destruct H]. unfold crossing in H.
      destruct (isect (hc_chan x') (hc_chan o')) as [q|] eqn:Ei; [|destruct H]. destruct H as [H|[]]. inversion H; subst.
      apply near_spec in En. destruct En. repeat split; assumption.
    + unfold hit_bad in H. apply in_flat_map in H. destruct H as (x' & Hx' & H). apply in_flat_map in H. destruct H as (c & Hc & H).
      unfold crossing in H. destruct (isect _ _); [|destruct H]. destruct H as [H|[]]. inversion H; subst. exfalso. apply Ro. reflexivity.
    + unfold bad_hit in H. apply in_flat_map in H. destruct H as (x' & Hx' & H). apply in_flat_map in H. destruct H as (c & Hc & H).
      unfold crossing in H. destruct (isect _ _); [|destruct H]. destruct H as [H|[]]. inversion H; subst. exfalso. apply Rx. reflexivity.
  - intros (H1 & H2 & H3 & H4 & H5). apply (Permutation_in _ (Permutation_sym P)). unfold all_doublets. apply in_or_app. left.
    unfold hit_hit. apply in_flat_map. exists x. split; [exact H1|]. apply in_flat_map. exists o. split; [exact H2|].
    replace (near thr (hc_x x) (hc_x o)) with true by (symmetry; apply near_spec; split; assumption).
    unfold crossing. rewrite H5. left. reflexivity.
Qed.
Print Assumptions c20_hit_pair_iff.

(** C20: the intersection cache never changes an answer *)
Theorem c20_cache_transparent isect queries :
  cache_asks isect [] queries = map (fun q => isect (fst q) (snd q)) queries.
Proof. apply cache_transparent. Qed.
Print Assumptions c20_cache_transparent.

(** the positive threshold is needed: with threshold 0 nothing is near, yet a pair at equal drift is reported *)
Theorem c20_zero_threshold_refuted :
  ~ (forall isect xs os, StronglySorted (fun a b => hc_x a <= hc_x b) xs -> StronglySorted (fun a b => hc_x a <= hc_x b) os ->
       Permutation (doublets 0 isect xs os [] []) (all_doublets 0 isect xs os [] [])).
Proof.
  intros H. specialize (H (fun _ _ => Some (0, 0)) [mkHoc 1 (Some 1%nat) 0] [mkHoc 2 (Some 2%nat) 0]).
  assert (X : Permutation [mkD (mkHoc 1 (Some 1%nat) 0) (mkHoc 2 (Some 2%nat) 0) (0, 0)] []).
  { apply H; repeat constructor. }
  apply Permutation_length in X. discriminate.
Qed.

(* -------------------------------------------------------------- C21 *)
(** without a limit: exactly the compatible combinations, TPC by TPC *)
Theorem c21_triplets_complete sort_hits sort_doublets I tpc :
  sorts_by hoc_less sort_hits -> sorts_by less_x sort_doublets -> 0 < in_thrD I -> in_max I = 0%nat ->
  Permutation (triplets_of sort_hits sort_doublets I tpc) (spec_triplets_of I tpc).
Proof.
  intros Hh Hd Ht Hm. unfold triplets_of. rewrite Hm. rewrite join_eq by apply Hd.
  destruct (c20_doublets_of_tpc sort_hits I tpc Hh Ht) as [Du Dv].
  unfold spec_triplets_of. rewrite <- (all_triplets_perm _ _ _ _ _ _ _ Du Dv).
  etransitivity; [|apply all_triplets_perm; apply Hd]. unfold all_triplets.
  apply flat_map_perm_ext. intros xu _. rewrite jpairs_spec. reflexivity.
Qed.
Print Assumptions c21_triplets_complete.

(** and over the detector: the TPCs that have at least one X hit, each once *)
Theorem c21_all_tpcs sort_hits sort_doublets I :
  sorts_by hoc_less sort_hits -> sorts_by less_x sort_doublets -> 0 < in_thrD I -> in_max I = 0%nat ->
  exists tpcs, NoDup tpcs /\
    (forall tpc, In tpc tpcs <-> exists h, In h (in_xhits I) /\ In tpc (in_tpcs I (snd h))) /\
    Permutation (triplets sort_hits sort_doublets I) (flat_map (spec_triplets_of I) tpcs).
Proof.
  intros Hh Hd Ht Hm. exists (x_tpcs I). split; [apply NoDup_nodup|]. split.
  - intros tpc. unfold x_tpcs. rewrite nodup_In, in_flat_map. reflexivity.
  - unfold triplets. apply flat_map_perm_ext. intros tpc _. apply c21_triplets_complete; assumption.
Qed.
Print Assumptions c21_all_tpcs.

(** with a limit m > 0: the result is the first m+1 of the unlimited list of each TPC, so it never exceeds m+1 *)
Definition no_limit (I : input) : input :=
  mkIn (in_tpcs I) (in_xpos I) (in_isect I) (in_thr I) (in_thrD I) 0 (in_xhits I) (in_uhits I) (in_vhits I) (in_xbad I) (in_ubad I) (in_vbad I).
Theorem c21_limit_prefix_partial sort_hits sort_doublets I tpc :
  (0 < in_max I)%nat ->
  triplets_of sort_hits sort_doublets I tpc = firstn (in_max I + 1) (triplets_of sort_hits sort_doublets (no_limit I) tpc) /\
  (length (triplets_of sort_hits sort_doublets I tpc) <= in_max I + 1)%nat.
Proof.
  intros Hm. assert (E : triplets_of sort_hits sort_doublets I tpc = firstn (in_max I + 1) (triplets_of sort_hits sort_doublets (no_limit I) tpc)).
  { unfold triplets_of. rewrite join_limit by lia. rewrite Nat.sub_0_r. reflexivity. }
  split; [exact E|]. rewrite E. apply firstn_le_length.
Qed.
Print Assumptions c21_limit_prefix_partial.

(** a concrete detector: one TPC, one X, two U and two V hits at the same drift and the same point *)
Definition ex_in (m : nat) : input :=
  mkIn (fun _ => [0%nat]) (fun _ _ => 0) (fun _ _ _ => Some (0, 0)) 1 1 m [(1, 1)]%nat [(2, 2); (3, 3)]%nat [(4, 4); (5, 5)]%nat [] [7%nat] [].

Lemma hoc_isort_ok : sorts_by hoc_less (isort hoc_less).
Proof.
  intros l. split; [apply isort_perm|]. apply isort_sorted.
  - unfold hoc_less. intros a b c H1 H2. qb. apply qc_lt_false. qclra.
  - unfold hoc_less. intros a b H. qb. apply qc_lt_false. qclra.
Qed.
Lemma less_x_isort_ok : sorts_by less_x (isort less_x).
Proof.
  intros l. split; [apply isort_perm|]. apply isort_sorted.
  - intros a b c H1 H2. apply less_x_false. apply less_x_false in H1. apply less_x_false in H2. intros C. 
    destruct (klt_total (key a) (key b)) as [H|[H|H]]; [|rewrite <- H in H2; contradiction|contradiction].
    apply H2. unfold klt in *. lia.
  - intros a b H. apply less_x_false. apply less_x_key in H. unfold klt in *. lia.
Qed.

(** hypotheses are met, and the answer is not trivial: 3 XU doublets (one with a bad channel), 2 XV, 6 triplets *)
Example c21_nonvacuous :
  sorts_by hoc_less (isort hoc_less) /\ sorts_by less_x (isort less_x) /\ 0 < in_thrD (ex_in 0) /\ in_max (ex_in 0) = 0%nat /\
  length (triplets (isort hoc_less) (isort less_x) (ex_in 0)) = 6%nat /\
  map t_u (triplets (isort hoc_less) (isort less_x) (ex_in 0)) <> repeat (Some 2%nat) 6.
Proof.
  split; [apply hoc_isort_ok|]. split; [apply less_x_isort_ok|]. split; [reflexivity|]. split; [reflexivity|].
  split; [vm_compute; reflexivity|]. intros C.
  assert (B : existsb (fun o => match o with None => true | _ => false end) (map t_u (triplets (isort hoc_less) (isort less_x) (ex_in 0))) = true) by (vm_compute; reflexivity).
  rewrite C in B. discriminate.
Qed.

(** "at most m per TPC" is false: m = 1 gives 2 *)
Theorem c21_limit_refuted :
  ~ (forall sort_hits sort_doublets I tpc, sorts_by hoc_less sort_hits -> sorts_by less_x sort_doublets -> 0 < in_thrD I ->
       (0 < in_max I)%nat -> (length (triplets_of sort_hits sort_doublets I tpc) <= in_max I)%nat).
Proof.
  intros H. specialize (H (isort hoc_less) (isort less_x) (ex_in 1) 0%nat hoc_isort_ok less_x_isort_ok).
  assert (X : (length (triplets_of (isort hoc_less) (isort less_x) (ex_in 1) 0) = 2)%nat) by (vm_compute; reflexivity).
  rewrite X in H. specialize (H ltac:(reflexivity) ltac:(simpl; lia)). simpl in H. lia.
Qed.
Print Assumptions c21_limit_refuted.

(* -------------------------------------------------------------- C22 *)
(** three views: the x of a triplet is the mean of its real hits, and y, z the mean of the three crossings *)
Theorem c22_three_view_position thr thrD isect xu xv t :
  same_x xv xu = true -> make_triplet thr thrD isect xu xv = Some t ->
  exists uv, isect (hc_chan (d_b xu)) (hc_chan (d_b xv)) = Some uv /\
    t_px t = mean (map hc_x (filter real [d_a xu; d_b xu; d_b xv])) /\
    t_py t = mean [fst (d_pt xu); fst (d_pt xv); fst uv] /\ t_pz t = mean [snd (d_pt xu); snd (d_pt xv); snd uv] /\
    (2 <= length (filter real [d_a xu; d_b xu; d_b xv]))%nat.
Proof.
  intros Hs Hm. assert (E := make_spec thr thrD isect xu xv). rewrite Hs, Hm in E. unfold spec_triplet in E.
  destruct (isect (hc_chan (d_b xu)) (hc_chan (d_b xv))) as [uv|]; [|discriminate]. exists uv. split; [reflexivity|].
  destruct (_ && _) eqn:Ec in E; [|discriminate]. repeat (apply andb_prop in Ec; destruct Ec as [Ec ?]).
  inversion E; subst t; cbn [t_px t_py t_pz]. repeat split. apply Nat.leb_le. assumption.
Qed.
Print Assumptions c22_three_view_position.

(** two views: one triplet per XU doublet of each TPC, at its crossing point *)
Theorem c22_two_view srt I :
  sorts_by hoc_less srt -> 0 < in_thrD I ->
  exists tpcs, NoDup tpcs /\
    (forall tpc, In tpc tpcs <-> exists h, In h (in_xhits I) /\ In tpc (in_tpcs I (snd h))) /\
    Permutation (triplets_two_view srt I) (flat_map (fun tpc => map two_view_triplet (spec_xu I tpc)) tpcs).
Proof.
  intros Hh Ht. exists (x_tpcs I). split; [apply NoDup_nodup|]. split.
  - intros tpc. unfold x_tpcs. rewrite nodup_In, in_flat_map. reflexivity.
  - unfold triplets_two_view. apply flat_map_perm_ext. intros tpc _. apply Permutation_map. apply (c20_doublets_of_tpc srt I tpc Hh Ht).
Qed.
Print Assumptions c22_two_view.

(** its x is the mean of the real hits when the X hit is real *)
Theorem c22_two_view_mean_partial xu :
  hc_hit (d_a xu) <> None ->
  let t := two_view_triplet xu in
  t_px t = mean (map hc_x (filter real [d_a xu; d_b xu])) /\ t_py t = fst (d_pt xu) /\ t_pz t = snd (d_pt xu) /\
  t_x t = hc_hit (d_a xu) /\ t_u t = hc_hit (d_b xu) /\ t_v t = None.
Proof.
  intros H t. subst t. unfold two_view_triplet. cbn [t_px t_py t_pz t_x t_u t_v]. split; [|repeat split].
  unfold is_bad, real, filter. destruct (hc_hit (d_a xu)); [|congruence].
  destruct (hc_hit (d_b xu)); unfold mean; cbn [map length qsum fold_right fst snd]; f_equal; ring.
Qed.
Print Assumptions c22_two_view_mean_partial.

(** with a bad X channel the x is half the U hit's drift position *)
Theorem c22_bad_x_halves xu :
  hc_hit (d_a xu) = None -> hc_x (d_a xu) = 0 -> hc_hit (d_b xu) <> None ->
  t_px (two_view_triplet xu) = hc_x (d_b xu) / qc_nat 2.
Proof.
  intros H H0 H1. unfold two_view_triplet. cbn [t_px]. unfold is_bad. destruct (hc_hit (d_b xu)); [|congruence]. cbn [fst snd].
  rewrite H0. f_equal. ring.
Qed.

Definition ex_two : input :=
  mkIn (fun _ => [0%nat]) (fun _ _ => 1) (fun _ a b => if Nat.eqb a 1 || Nat.eqb b 1 then None else Some (0, 0)) 1 1 0 [(1, 1)]%nat [(2, 2)]%nat [] [9%nat] [] [].
Theorem c22_two_view_mean_refuted :
  ~ (forall srt I t, sorts_by hoc_less srt -> 0 < in_thrD I -> In t (triplets_two_view srt I) ->
      exists tpc xu, In xu (spec_xu I tpc) /\ t_x t = hc_hit (d_a xu) /\ t_u t = hc_hit (d_b xu) /\
        t_px t = mean (map hc_x (filter real [d_a xu; d_b xu]))).
Proof.
  intros H. specialize (H (isort hoc_less) ex_two (mkT None (Some 2%nat) None (1 / qc_nat 2) 0 0) hoc_isort_ok ltac:(reflexivity)).
  assert (X : In (mkT None (Some 2%nat) None (1 / qc_nat 2) 0 0) (triplets_two_view (isort hoc_less) ex_two)).
  { left. vm_compute. f_equal. }
  destruct (H X) as (tpc & xu & Hin & _ & Hu & Hp). clear H X.
  assert (E : xu = mkD (bad_chan 9) (mkHoc 2 (Some 2%nat) 1) (0, 0)).
  { destruct tpc as [|tpc]; [|destruct Hin]. cbn in Hin. destruct Hin as [<-|[]]. reflexivity. }
  subst xu. cbn in Hp. apply (f_equal this) in Hp. vm_compute in Hp. discriminate.
Qed.
Print Assumptions c22_two_view_mean_refuted.
Example c22_nonvacuous : length (triplets_two_view (isort hoc_less) ex_two) = 1%nat /\ length (triplets_two_view (isort hoc_less) (ex_in 0)) = 3%nat.
Proof. split; vm_compute; reflexivity. Qed.
