(** Properties C87, C88: MergeClusterAlg::MergeClusters and BlurredClustering::produce. *)
From Coq Require Import QArith Qcanon.
From Verif Require Import Base QcUtil SortUtil Solver_Model Solver_Proofs BC_Model BC_Spec BC_Cells BC_Blur BC_Props CMComb_Proofs MCA_Model MCA_Spec MCA_Proofs.
Local Open Scope nat_scope.

(* ------------------------------------------------------------------ C87 *)
Definition big_clusters (mc : mergecfg) (l : list (list bhit)) : list (list bhit) := filter (fun c => minMerge mc <=? length c) l.

(** MergeClusters returns; what it adds are the clusters of at least MinMergeClusterSize hits, largest first, joined into closed groups *)
Theorem merge_clusters_ok mc srt pl acc : sorts_by_size srt ->
  exists out ord, merge_clusters mc srt pl acc = Ok (acc ++ out, length (acc ++ out)) /\
    Permutation ord (big_clusters mc pl) /\ StronglySorted (fun a b => length b <= length a) ord /\
    (ord = [] -> out = [[]]) /\ (ord <> [] -> merges mc ord out).
Proof.
  intros Hs. destruct (merge_clusters_exact mc srt pl acc) as (out & E & H1 & H2). exists out, (filter (fun c => minMerge mc <=? length c) (srt pl)).
  destruct (Hs pl) as [Hp Ho]. split; [exact E|]. split; [|split; [|split; assumption]].
  - unfold big_clusters. clear -Hp. induction Hp as [|x l l' Hp IH|x y l|]; simpl; [reflexivity| | |etransitivity; eassumption].
    + destruct (minMerge mc <=? length x); [constructor|]; exact IH.
    + destruct (minMerge mc <=? length x), (minMerge mc <=? length y); try reflexivity. apply perm_swap.
  - clear -Ho. induction Ho as [|x l Ho IH Hf]; simpl; [constructor|]. destruct (minMerge mc <=? length x); [|exact IH].
    constructor; [exact IH|]. rewrite Forall_forall in *. intros y Hy. apply filter_In in Hy. apply Hf, Hy.
Qed.
Print Assumptions merge_clusters_ok.

Lemma absorbs_whole mc a b : clos_refl_trans _ (absorbs mc) a b ->
  exists xs, fst b = fst a ++ concat xs /\ Permutation (xs ++ snd b) (snd a).
Proof.
  intros H. apply clos_rt_rt1n_iff in H. induction H as [x|x y z Hs _ IH].
  - exists []. rewrite app_nil_r. split; reflexivity.
  - destruct IH as (xs & E & P). destruct Hs as [c l1 u l2 _]. cbn [fst snd] in *. exists (u :: xs). simpl. rewrite E, <- app_assoc. split; [reflexivity|].
    rewrite P. apply Permutation_middle.
Qed.
Lemma merges_whole mc l out : merges mc l out -> exists gs, out = map (@concat bhit) gs /\ Permutation (concat gs) l /\ forall g, In g gs -> g <> [].
Proof.
  induction 1 as [|h t c rest out Ha Hc _ (gs & -> & Hp & Hn)]; [exists []; split; [reflexivity|split; [reflexivity|intros g []]]|].
  destruct (absorbs_whole mc _ _ Ha) as (xs & E & P). cbn [fst snd] in *. exists ((h :: xs) :: gs). simpl. rewrite E. split; [reflexivity|].
  split; [constructor; rewrite Hp; exact P|]. intros g [<-|Hg]; [discriminate|apply Hn, Hg].
Qed.

(** every cluster of at least MinMergeClusterSize hits goes whole into exactly one of the clusters added *)
Theorem merge_whole_clusters mc srt pl acc : sorts_by_size srt -> big_clusters mc pl <> [] ->
  exists gs, merge_clusters mc srt pl acc = Ok (acc ++ map (@concat bhit) gs, length acc + length gs) /\
    Permutation (concat gs) (big_clusters mc pl) /\ forall g, In g gs -> g <> [].
Proof.
  intros Hs Hb. destruct (merge_clusters_ok mc srt pl acc Hs) as (out & ord & E & Hp & _ & _ & Hm).
  destruct (merges_whole mc ord out) as (gs & -> & Hq & Hn). { apply Hm. intros ->. apply Permutation_nil in Hp. contradiction. }
  exists gs. rewrite app_length, map_length in E. split; [exact E|]. split; [rewrite Hq; exact Hp|exact Hn].
Qed.
Print Assumptions merge_whole_clusters.

(** in particular no hit is added or doubled *)
Theorem merge_hits mc srt pl acc : sorts_by_size srt ->
  exists out n, merge_clusters mc srt pl acc = Ok (acc ++ out, n) /\ Permutation (concat out) (concat (big_clusters mc pl)).
Proof.
  intros Hs. destruct (merge_clusters_ok mc srt pl acc Hs) as (out & ord & E & Hp & _ & H0 & Hm). exists out, (length (acc ++ out)). split; [exact E|].
  destruct ord as [|c l].
  - rewrite (H0 eq_refl). apply Permutation_nil in Hp. rewrite Hp. reflexivity.
  - destruct (merges_whole mc _ out (Hm ltac:(discriminate))) as (gs & -> & Hq & _).
    assert (Hc : forall A (l l' : list (list A)), Permutation l l' -> Permutation (concat l) (concat l')).
    { clear. intros A l l' H. induction H as [|x l l' _ IH|x y l|]; simpl; [reflexivity|apply Permutation_app_head, IH| |etransitivity; eassumption].
      rewrite !app_assoc. apply Permutation_app_tail, Permutation_app_comm. }
    rewrite <- (Hc _ _ _ Hp), <- (Hc _ _ _ Hq). clear. induction gs as [|g gs IH]; [reflexivity|]. simpl. rewrite concat_app. apply Permutation_app_head, IH.
Qed.
Print Assumptions merge_hits.

(** examples: three short tracks, two of them within reach of each other; a small cluster *)
Definition bh (i : nat) (w t : Z) : bhit := {| h_id := i; h_wire := w; h_time := q t; h_charge := q 1 |}.
Definition mc0 : mergecfg := {| minMerge := 2; maxSep := q 3; gwire := fun h => Q2Qc (inject_Z (h_wire h)); pass_cuts := fun _ _ => true |}.
Definition by_size (a b : list bhit) : bool := length b <? length a.
Lemma by_size_ok : sorts_by_size (isort by_size).
Proof.
  intros l. split; [apply isort_perm|].
  assert (H : StronglySorted (fun a b => by_size b a = false) (isort by_size l)).
  { apply isort_sorted; unfold by_size; intros *; rewrite ?Nat.ltb_ge, ?Nat.ltb_lt; lia. }
  induction H as [|x m _ IH Hf]; constructor; [exact IH|]. rewrite Forall_forall in *. intros y Hy. specialize (Hf y Hy). apply Nat.ltb_ge in Hf. exact Hf.
Qed.
Definition pl0 : list (list bhit) := [[bh 0 1 1; bh 1 2 2]; [bh 2 50 50; bh 3 51 51; bh 4 52 52]; [bh 5 4 4; bh 6 5 5]; [bh 7 60 60]].
Example merge_ex : match merge_clusters mc0 (isort by_size) pl0 [] with Ok (out, n) => map (map h_id) out = [[2; 3; 4]; [5; 6; 0; 1]] /\ n = 2 | _ => False end.
Proof. vm_compute. split; reflexivity. Qed.
Example merge_ex_big : big_clusters mc0 pl0 <> [].
Proof. vm_compute. discriminate. Qed.

(** REFUTED: hits of clusters below MinMergeClusterSize are lost, *)
Theorem merge_keeps_hits_refuted : exists mc srt pl out n h, sorts_by_size srt /\ merge_clusters mc srt pl [] = Ok (out, n) /\
  In h (concat pl) /\ ~ In h (concat out).
Proof.
  destruct (merge_hits mc0 (isort by_size) pl0 [] by_size_ok) as (out & n & E & Hp).
  exists mc0, (isort by_size), pl0, out, n, (bh 7 60 60). split; [apply by_size_ok|]. split; [exact E|]. split; [simpl; tauto|].
  intros F. apply (Permutation_in _ Hp) in F. apply (in_map h_id) in F. vm_compute in F. intuition discriminate.
Qed.
Print Assumptions merge_keeps_hits_refuted.
(** and when there is no larger cluster an empty one is made *)
Theorem merge_nonempty_refuted : forall mc srt pl, sorts_by_size srt -> (forall c, In c pl -> length c < minMerge mc) ->
  merge_clusters mc srt pl [] = Ok ([[]], 1).
Proof.
  intros mc srt pl Hs Hsm. destruct (merge_clusters_ok mc srt pl [] Hs) as (out & ord & E & Hp & _ & H0 & _).
  assert (Hb : big_clusters mc pl = []).
  { unfold big_clusters. clear -Hsm. induction pl as [|c pl IH]; [reflexivity|]. simpl. destruct (Nat.leb_spec (minMerge mc) (length c)) as [F|F].
    - specialize (Hsm c (or_introl eq_refl)). lia.
    - apply IH. intros c' Hc'. apply Hsm. right; exact Hc'. }
  rewrite Hb in Hp. symmetry in Hp. apply Permutation_nil in Hp. rewrite (H0 Hp) in E. exact E.
Qed.
Print Assumptions merge_nonempty_refuted.
Example merge_nonempty_ex : merge_clusters mc0 (isort by_size) [[bh 0 0 0]] [] = Ok ([[]], 1).
Proof. apply merge_nonempty_refuted; [apply by_size_ok|]. intros c [<-|[]]. vm_compute. lia. Qed.

(* ------------------------------------------------------------------ C88 *)
Lemma key_lt_spec a b : key_lt a b = true <-> (fst a < fst b \/ (fst a = fst b /\ snd a < snd b))%Z.
Proof. unfold key_lt. rewrite orb_true_iff, andb_true_iff, !Z.ltb_lt, Z.eqb_eq. tauto. Qed.
Definition klt (a b : (Z * Z) * list bhit) : Prop := key_lt (fst a) (fst b) = true.

Lemma key_eq a b : key_lt a b = false -> key_lt b a = false -> a = b.
Proof.
  intros H1 H2. assert (N1 : ~ key_lt a b = true) by congruence. assert (N2 : ~ key_lt b a = true) by congruence. rewrite key_lt_spec in N1, N2.
  destruct a as [a1 a2], b as [b1 b2]; simpl in *. f_equal; lia.
Qed.
Lemma key_tr a b c : key_lt a b = true -> key_lt b c = true -> key_lt a c = true.
Proof. rewrite !key_lt_spec. lia. Qed.
Lemma key_irr a : key_lt a a = false.
Proof. destruct (key_lt a a) eqn:E; [|reflexivity]. apply key_lt_spec in E. lia. Qed.

Lemma push_in k h m : forall e, In e (map_push k h m) -> In e m \/ fst e = k.
Proof.
  induction m as [|[k' hs] m IH]; simpl; intros e He; [destruct He as [<-|[]]; right; reflexivity|].
  destruct (key_lt k k') eqn:E1; [destruct He as [<-|He]; [right; reflexivity|left; exact He]|].
  destruct (key_lt k' k) eqn:E2.
  - destruct He as [<-|He]; [left; left; reflexivity|]. destruct (IH e He); [left; right; assumption|right; assumption].
  - destruct He as [<-|He]; [|left; right; exact He]. right. apply key_eq; assumption.
Qed.
Lemma push_sorted k h m : StronglySorted klt m -> StronglySorted klt (map_push k h m).
Proof.
  induction 1 as [|[k' hs] m Hs IH Hf]; simpl; [repeat constructor|]. rewrite Forall_forall in Hf.
  destruct (key_lt k k') eqn:E1.
  - constructor; [constructor; [exact Hs|apply Forall_forall, Hf]|]. apply Forall_forall. intros e [<-|He]; [exact E1|].
    eapply key_tr; [exact E1|apply (Hf e He)].
  - destruct (key_lt k' k) eqn:E2.
    + constructor; [exact IH|]. apply Forall_forall. intros e He. destruct (push_in k h m e He) as [H|H]; [apply Hf, H|]. unfold klt. rewrite H. exact E2.
    + constructor; [exact Hs|]. apply Forall_forall. intros e He. apply (Hf e He).
Qed.
(** looking up the hits of a key *)
Definition hits_at (m : list ((Z * Z) * list bhit)) (k : Z * Z) : list bhit :=
  flat_map (fun e => if key_lt (fst e) k || key_lt k (fst e) then [] else snd e) m.
Lemma at_none m k : (forall e, In e m -> key_lt k (fst e) = true) -> hits_at m k = [].
Proof.
  intros H. unfold hits_at. induction m as [|e m IH]; [reflexivity|]. simpl. rewrite (H e (or_introl eq_refl)), orb_true_r. simpl. apply IH.
  intros e' He'. apply H. right; exact He'.
Qed.
Lemma at_cons e m k : hits_at (e :: m) k = (if key_lt (fst e) k || key_lt k (fst e) then [] else snd e) ++ hits_at m k.
Proof. reflexivity. Qed.
Lemma push_at k h m : StronglySorted klt m -> forall k', hits_at (map_push k h m) k' = hits_at m k' ++ (if key_lt k k' || key_lt k' k then [] else [h]).
Proof.
  induction 1 as [|[k0 hs] m Hs IH Hf]; intros k'; [cbn [map_push]; rewrite at_cons; cbn [fst snd]; apply app_nil_r|]. rewrite Forall_forall in Hf. cbn [map_push].
  destruct (key_lt k k0) eqn:E1.
  - rewrite at_cons. cbn [fst snd]. destruct (key_lt k k' || key_lt k' k) eqn:E3; [rewrite app_nil_r; reflexivity|].
    apply orb_false_iff in E3. destruct E3 as [E3 E4]. assert (k' = k) by (apply key_eq; assumption). subst k'.
    rewrite at_none; [reflexivity|]. intros e [<-|He]; [exact E1|eapply key_tr; [exact E1|apply (Hf e He)]].
  - destruct (key_lt k0 k) eqn:E2.
    + rewrite !at_cons, IH, app_assoc. reflexivity.
    + assert (k0 = k) by (apply key_eq; assumption). subst k0. rewrite !at_cons. cbn [fst snd].
      destruct (key_lt k k' || key_lt k' k) eqn:E3; [rewrite !app_nil_r; reflexivity|].
      apply orb_false_iff in E3. destruct E3 as [E3 E4]. assert (k' = k) by (apply key_eq; assumption). subst k'.
      rewrite at_none; [rewrite !app_nil_r; reflexivity|]. intros e He. apply (Hf e He).
Qed.

Definition same_key (a b : Z * Z) : bool := ((fst a =? fst b) && (snd a =? snd b))%Z.
Lemma same_key_spec a b : same_key a b = true <-> a = b.
Proof. unfold same_key. rewrite andb_true_iff, !Z.eqb_eq. destruct a, b; simpl. split; [intros [-> ->]; reflexivity|intros [= -> ->]; auto]. Qed.

Lemma plane_map_ok key hits : StronglySorted klt (plane_map key hits) /\
  (forall k, hits_at (plane_map key hits) k = filter (fun h => same_key (key h) k) hits) /\ (forall e, In e (plane_map key hits) -> snd e <> []).
Proof.
  unfold plane_map. induction hits as [|h l IH] using rev_ind; [simpl; split; [constructor|split; [reflexivity|intros e []]]|].
  rewrite fold_left_app. simpl. destruct IH as (H1 & H2 & H3). split; [apply push_sorted, H1|]. split.
  - intros k. rewrite push_at by exact H1. rewrite H2, filter_app. f_equal. simpl. destruct (same_key (key h) k) eqn:E.
    + apply same_key_spec in E. rewrite E, key_irr. reflexivity.
    + destruct (key_lt (key h) k) eqn:E1; [reflexivity|]. destruct (key_lt k (key h)) eqn:E2; [reflexivity|].
      rewrite (key_eq _ _ E1 E2) in E. assert (F : same_key k k = true) by (apply same_key_spec; reflexivity). congruence.
  - clear -H3. revert H3. generalize (fold_left (fun m h0 => map_push (key h0) h0 m) l []). intros m Hm.
    induction m as [|[k' hs] m IH]; simpl; intros e He; [destruct He as [<-|[]]; discriminate|].
    destruct (key_lt (key h) k'); [destruct He as [<-|He]; [discriminate|apply Hm, He]|].
    destruct (key_lt k' (key h)).
    + destruct He as [<-|He]; [apply (Hm (k', hs)); left; reflexivity|]. apply IH; [intros e' He'; apply Hm; right; exact He'|exact He].
    + destruct He as [<-|He]; [destruct hs; discriminate|apply Hm; right; exact He].
Qed.
Lemma plane_group key hits e : In e (plane_map key hits) -> snd e = filter (fun h => same_key (key h) (fst e)) hits.
Proof.
  destruct (plane_map_ok key hits) as (H1 & H2 & _). rewrite <- H2. revert H1. generalize (plane_map key hits). clear H2. intros m Hs He.
  induction Hs as [|a m Hs IH Hf]; [destruct He|]. rewrite Forall_forall in Hf. rewrite at_cons. destruct He as [->|He].
  - rewrite key_irr. cbn [orb]. rewrite at_none; [rewrite app_nil_r; reflexivity|]. intros e' He'. apply (Hf e' He').
  - rewrite (Hf e He). simpl. apply IH, He.
Qed.

Definition clusters_written (out : list (nat * list bhit)) : list (list bhit) := map snd out.

Definition nonnil {A} (c : list A) : bool := match c with [] => false | _ => true end.
Lemma write_all : forall (fin : list (list bhit)) (out : list (nat * list bhit)), map fst out = seq 0 (length out) ->
  let r := fold_left (fun out (c : list bhit) => match c with [] => out | _ :: _ => out ++ [(length out, c)] end) fin out in
  map fst r = seq 0 (length r) /\ map snd r = map snd out ++ filter nonnil fin.
Proof.
  induction fin as [|c fin IH]; intros out H; cbn [fold_left filter]; [cbn zeta; rewrite app_nil_r; split; [exact H|reflexivity]|].
  destruct c as [|h c]; cbn [nonnil]; [apply IH, H|].
  destruct (IH (out ++ [(length out, h :: c)])) as [H1 H2].
  - rewrite map_app, app_length, seq_app, H. reflexivity.
  - cbn zeta in *. split; [exact H1|]. rewrite H2, map_app, <- app_assoc. reflexivity.
Qed.
Lemma concat_nonnil {A} (l : list (list A)) : concat (filter nonnil l) = concat l.
Proof. induction l as [|[|a c] l IH]; simpl; [reflexivity|exact IH|rewrite IH; reflexivity]. Qed.

(** what [produce] needs of its parameters: sorts that sort, a positive seed threshold, blurring radii within kernel and margin, no dead wires *)
Definition sound_setup (pc : prodcfg) : Prop :=
  sorts_falling (p_sort pc) /\ sorts_by_size (p_msort pc) /\ (0 < minSeed (p_cfg pc))%Qc /\
  (forall hs, no_blur (p_blur pc hs) = true \/ blur_fits (p_blur pc hs)) /\
  (forall b, loW b <= upW b -> Z.of_nat (length (p_dead pc b)) = upW b - loW b /\ forall d, In d (p_dead pc b) -> d = false)%Z.

Lemma final_ok pc hits : sound_setup pc -> hits <> [] ->
  exists fin, final_clusters pc hits = Ok fin /\ NoDup (concat fin) /\ incl (concat fin) hits /\
    forall c, In c fin -> c = [] \/ match p_merge pc with None => minSize (p_cfg pc) <= length c | Some mc => minMerge mc <= length c end.
Proof.
  intros (S1 & S2 & S3 & S4 & S5) Hne. unfold final_clusters. destruct (length hits <? minSize (p_cfg pc)) eqn:Esz.
  { exists []. split; [reflexivity|]. split; [constructor|]. split; [intros h []|intros c []]. }
  destruct (plane_clusters_ok (p_cfg pc) (p_blur pc hits) (p_dead pc) (p_sort pc) (p_maxWires pc) (p_readout pc) hits Hne S1 S3 (S4 hits) S5)
    as (cl & E & H1 & H2 & H3 & _). rewrite E. cbn [obind]. destruct (p_merge pc) as [mc|].
  - destruct (merge_clusters_ok mc (p_msort pc) cl [] S2) as (out & ord & Em & Hp & _ & H0 & Hm). rewrite Em. cbn [obind fst]. exists out. split; [reflexivity|].
    destruct (merge_hits mc (p_msort pc) cl [] S2) as (out' & n & Em' & Hph). rewrite Em in Em'. injection Em' as <- _.
    destruct (nodup_concat_filter (fun c => minMerge mc <=? length c) cl H1) as [M1 M2].
    split; [apply (Permutation_NoDup (Permutation_sym Hph)), M1|].
    split; [intros h Hh; apply H2, M2, (Permutation_in _ Hph), Hh|].
    intros c Hc. destruct ord as [|c0 l]; [rewrite (H0 eq_refl) in Hc; destruct Hc as [<-|[]]; left; reflexivity|]. right.
    destruct (merges_whole mc _ out (Hm ltac:(discriminate))) as (gs & -> & Hq & Hn). apply in_map_iff in Hc. destruct Hc as (g & <- & Hg).
    specialize (Hn g Hg). destruct g as [|u g]; [congruence|]. simpl. rewrite app_length.
    assert (Hu : In u (big_clusters mc cl)).
    { apply (Permutation_in _ Hp), (Permutation_in _ Hq), in_concat. exists (u :: g). split; [exact Hg|left; reflexivity]. }
    unfold big_clusters in Hu. apply filter_In in Hu. destruct Hu as [_ Hu]. apply Nat.leb_le in Hu. lia.
  - exists cl. split; [reflexivity|]. split; [exact H1|]. split; [exact H2|]. intros c Hc. right. apply H3, Hc.
Qed.

(** the module succeeds; clusters are numbered in order, none is empty, no hit is in two of them (or twice in one), and each lies
    on one plane of one TPC and has the required number of hits *)
Theorem produce_ok pc hits : sound_setup pc ->
  exists out, produce pc hits = Ok out /\ map fst out = seq 0 (length out) /\ NoDup (concat (map snd out)) /\
    forall c, In c (map snd out) -> c <> [] /\ incl c hits /\ (exists k, forall h, In h c -> p_key pc h = k) /\
      match p_merge pc with None => minSize (p_cfg pc) <= length c | Some mc => minMerge mc <= length c end.
Proof.
  intros Hset. unfold produce. destruct (plane_map_ok (p_key pc) hits) as (Hs & _ & Hnn).
  match goal with |- context [foreach ?l ?b ?s0] =>
  destruct (foreach_pre (fun pre (out : list (nat * list bhit)) => map fst out = seq 0 (length out) /\ NoDup (concat (map snd out)) /\
    forall c, In c (map snd out) -> c <> [] /\ incl c hits /\ (exists e, In e pre /\ forall h, In h c -> p_key pc h = fst e) /\
      match p_merge pc with None => minSize (p_cfg pc) <= length c | Some mc => minMerge mc <= length c end) b l s0) as (out & E & H1 & H2 & H3) end.
  - simpl. split; [reflexivity|]. split; [constructor|intros c []].
  - intros pre e post out El (H1 & H2 & H3). assert (Hin : In e (plane_map (p_key pc) hits)) by (rewrite El; apply in_or_app; right; left; reflexivity).
    destruct (final_ok pc (snd e) Hset (Hnn e Hin)) as (fin & Ef & F1 & F2 & F3). rewrite Ef. cbn [obind].
    destruct (write_all fin out H1) as [W1 W2]. cbn zeta in W1, W2. eexists. split; [reflexivity|]. split; [exact W1|]. rewrite W2.
    assert (Hkey : forall h, In h (concat fin) -> In h hits /\ p_key pc h = fst e).
    { intros h Hh. apply F2 in Hh. rewrite (plane_group _ _ _ Hin) in Hh. apply filter_In in Hh. destruct Hh as [Ha Hb].
      apply same_key_spec in Hb. auto. }
    split.
    + rewrite concat_app, concat_nonnil. apply CMComb_Proofs.NoDup_app_intro; [exact H2|exact F1|].
      intros h Ha Hb. apply in_concat in Ha. destruct Ha as (c & Hc & Ha). destruct (H3 c Hc) as (_ & _ & (e' & He' & Hk) & _).
      specialize (Hk h Ha). destruct (Hkey h Hb) as [_ Hk2].
      assert (Hlt : klt e' e).
      { clear -El Hs He'. rewrite El in Hs. clear El. induction pre as [|a pre IH]; [destruct He'|]. simpl in Hs. inversion_clear Hs as [|? ? S1 S2].
        destruct He' as [<-|He']; [rewrite Forall_forall in S2; apply S2, in_or_app; right; left; reflexivity|apply IH; assumption]. }
      unfold klt in Hlt. rewrite <- Hk, <- Hk2, key_irr in Hlt. discriminate.
    + intros c Hc. apply in_app_iff in Hc. destruct Hc as [Hc|Hc].
      * destruct (H3 c Hc) as (G1 & G2 & (e' & He' & Hk) & G4). split; [exact G1|]. split; [exact G2|]. split; [|exact G4]. exists e'. split; [apply in_or_app; left; exact He'|exact Hk].
      * apply filter_In in Hc. destruct Hc as [Hc Hnc]. assert (Hne : c <> []) by (intros ->; discriminate).
        assert (Hsub : forall h, In h c -> In h (concat fin)) by (intros h Hh; apply in_concat; eauto).
        split; [exact Hne|]. split; [intros h Hh; apply Hkey, Hsub, Hh|]. split.
        -- exists e. split; [apply in_or_app; right; left; reflexivity|]. intros h Hh. apply Hkey, Hsub, Hh.
        -- destruct (F3 c Hc) as [->|F]; [congruence|exact F].
  - exists out. split; [exact E|]. split; [exact H1|]. split; [exact H2|]. intros c Hc. destruct (H3 c Hc) as (G1 & G2 & (e & _ & Hk) & G4).
    split; [exact G1|]. split; [exact G2|]. split; [exists (fst e); exact Hk|exact G4].
Qed.
Print Assumptions produce_ok.

(** the clusters written are those of the planes, plane by plane in the order of their numbers; a plane's clusters depend on its own hits only *)
Theorem produce_by_plane pc hits : sound_setup pc ->
  exists ks fins out, produce pc hits = Ok out /\
    StronglySorted (fun a b => (fst a < fst b \/ (fst a = fst b /\ snd a < snd b))%Z) ks /\
    (forall k, In k ks <-> exists h, In h hits /\ p_key pc h = k) /\
    Forall2 (fun k fin => final_clusters pc (filter (fun h => same_key (p_key pc h) k) hits) = Ok fin) ks fins /\
    map snd out = filter nonnil (concat fins).
Proof.
  intros Hset. unfold produce. destruct (plane_map_ok (p_key pc) hits) as (Hs & Hat & Hnn).
  exists (map fst (plane_map (p_key pc) hits)).
  match goal with |- context [foreach ?l ?b ?s0] =>
  destruct (foreach_pre (fun pre (out : list (nat * list bhit)) => map fst out = seq 0 (length out) /\ exists fins,
    Forall2 (fun k fin => final_clusters pc (filter (fun h => same_key (p_key pc h) k) hits) = Ok fin) (map fst pre) fins /\
    map snd out = filter nonnil (concat fins)) b l s0) as (out & E & H1 & fins & H2 & H3) end.
  - split; [reflexivity|]. exists []. split; [constructor|reflexivity].
  - intros pre e post out El (H1 & fins & H2 & H3). assert (Hin : In e (plane_map (p_key pc) hits)) by (rewrite El; apply in_or_app; right; left; reflexivity).
    destruct (final_ok pc (snd e) Hset (Hnn e Hin)) as (fin & Ef & _). rewrite Ef. cbn [obind].
    destruct (write_all fin out H1) as [W1 W2]. cbn zeta in W1, W2. eexists. split; [reflexivity|]. split; [exact W1|]. exists (fins ++ [fin]). split.
    + rewrite map_app. apply Forall2_app; [exact H2|]. repeat constructor. rewrite <- (plane_group _ _ _ Hin). exact Ef.
    + rewrite W2, H3, concat_app, filter_app. simpl. rewrite app_nil_r. reflexivity.
  - exists fins, out. split; [exact E|]. split; [|split; [|split; assumption]].
    + clear -Hs. induction Hs as [|e m _ IH Hf]; simpl; constructor; [exact IH|]. rewrite Forall_forall in *. intros k Hk. apply in_map_iff in Hk.
      destruct Hk as (e' & <- & He'). apply key_lt_spec, (Hf e' He').
    + intros k. split.
      * intros Hk. apply in_map_iff in Hk. destruct Hk as (e & <- & He). pose proof (Hnn e He) as Hne. rewrite (plane_group _ _ _ He) in Hne.
        destruct (filter (fun h => same_key (p_key pc h) (fst e)) hits) as [|h l] eqn:F; [congruence|].
        assert (Hh : In h (filter (fun h => same_key (p_key pc h) (fst e)) hits)) by (rewrite F; left; reflexivity).
        apply filter_In in Hh. destruct Hh as [Hh Hk]. apply same_key_spec in Hk. eauto.
      * intros (h & Hh & <-). assert (F : In h (hits_at (plane_map (p_key pc) hits) (p_key pc h))).
        { rewrite Hat. apply filter_In. split; [exact Hh|]. apply same_key_spec. reflexivity. }
        unfold hits_at in F. apply in_flat_map in F. destruct F as (e & He & F). apply in_map_iff. exists e. split; [|exact He].
        destruct (key_lt (fst e) (p_key pc h)) eqn:E1; [destruct F|]. destruct (key_lt (p_key pc h) (fst e)) eqn:E2; [destruct F|]. apply key_eq; assumption.
Qed.
Print Assumptions produce_by_plane.

(** the premises hold for a concrete set-up *)
Definition pc0 : prodcfg := {| p_cfg := cf0; p_blur := fun _ => bc0 1 1; p_dead := all_alive; p_sort := isort before; p_maxWires := 100; p_readout := 1000;
  p_merge := Some mc0; p_msort := isort by_size; p_key := fun h => (Z.rem (h_wire h) 3, 0%Z) |}.
Example pc0_sound : sound_setup pc0.
Proof.
  split; [apply isort_falls|]. split; [apply by_size_ok|]. split; [vm_compute; reflexivity|]. split; [intros hs; right; exact blur_fits_ex|exact all_alive_ok].
Qed.
