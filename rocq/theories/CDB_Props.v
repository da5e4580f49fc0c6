(** Theorem C49 *)
From Coq Require Import QArith Qcanon Relations.
From Verif Require Import Base Util QcUtil Solver_Model Triplet_Spec MCBT_Proofs KD_Model KD_Spec KD_Proofs KD_Props CDB_Model CDB_Spec CDB_Proofs.
Local Open Scope nat_scope.

Lemma in_firstn {A} (x : A) k l : In x (firstn k l) -> exists j, j < k /\ nth_error l j = Some x.
Proof.
  revert k. induction l as [|y l IH]; intros [|k] H; cbn in H; try (destruct H; fail). destruct H as [->|H]; [exists 0; split; [lia|reflexivity]|]. destruct (IH k H) as (j & Hj & E). exists (S j). split; [lia|exact E].
Qed.
Lemma clustering_earlier nb m hits cs : clustering nb m hits cs -> forall k c, nth_error cs k = Some c -> forall j c', nth_error cs j = Some c' -> j <> k -> forall x, In x c -> ~ In x c'.
Proof.
  intros Hc. assert (X : forall j k c c', j < k -> nth_error cs j = Some c' -> nth_error cs k = Some c -> forall x, In x c -> ~ In x c').
  { intros j k c c' Hjk Ej Ek x Hx Hx'. destruct (cl_grown _ _ _ _ Hc k c Ek) as (s & rest & pre & post & _ & _ & _ & _ & _ & H). apply H in Hx. apply (proj2 Hx). apply in_concat. exists c'. split; [|exact Hx'].
    rewrite <- (firstn_skipn k cs) in Ej. rewrite nth_error_app1 in Ej; [eapply nth_error_In; exact Ej|]. rewrite firstn_length. assert (k < length cs) by (apply nth_error_Some; congruence). lia. }
  intros k c Ek j c' Ej Hne x Hx Hx'. destruct (Nat.lt_total j k) as [L|[L|L]]; [exact (X j k c c' L Ej Ek x Hx Hx')|contradiction|exact (X k j c' c L Ek Ej x Hx' Hx)].
Qed.
Lemma reach_connected nb m s x : reach nb m s x -> core nb m s -> core nb m x -> connected nb m s x.
Proof.
  intros H Hs. induction H as [|x y Hx IH Cx Hy]; intros Cy; [apply rt_refl|]. eapply rt_trans; [exact (IH Cx)|]. apply rt_step. repeat split; assumption.
Qed.
(** when the neighbourhood relation is symmetric, core hits are in the same cluster iff they are density connected *)
Theorem c49_connected nb m hits cs : clustering nb m hits cs -> (forall h, In h hits -> incl (nb h) hits) -> (forall h k, In h hits -> In k hits -> In k (nb h) -> In h (nb k)) ->
  forall x y, In x hits -> In y hits -> core nb m x -> core nb m y -> (together cs x y <-> connected nb m x y).
Proof.
  intros Hc Hnb Hsym x y Hx Hy Cx Cy.
  assert (Csym : forall a b, In a hits -> connected nb m a b -> connected nb m b a).
  { intros a b Ha H. apply clos_rt_rt1n in H. induction H as [z|z w y' (A & B & C) _ IH]; [apply rt_refl|]. assert (Hw := Hnb z Ha w C). eapply rt_trans; [exact (IH Hw)|]. apply rt_step. repeat split; auto. }
  split.
  - intros (c & Hi & Hxc & Hyc). apply In_nth_error in Hi. destruct Hi as [k Ek]. destruct (cl_grown _ _ _ _ Hc k c Ek) as (s & rest & pre & post & _ & E2 & Cs & _ & _ & H).
    assert (Is : In s hits) by (rewrite E2; apply in_app_iff; right; left; reflexivity). apply H in Hxc, Hyc. eapply rt_trans; [apply Csym; [exact Is|apply (reach_connected nb m s x); tauto]|apply (reach_connected nb m s y); tauto].
  - intros H. apply clos_rt_rt1n in H. induction H as [z|z w y Hl _ IH].
    + assert (Z := cl_all _ _ _ _ Hc z Hx Cx). apply in_concat in Z. destruct Z as (c & A & B). exists c. auto.
    + destruct Hl as (Cz & Cw & Hw). assert (Hwh : In w hits) by (apply (Hnb z Hx), Hw). destruct (IH Hwh Hy Cw Cy) as (c & Hi & Hwc & Hyc). exists c. split; [exact Hi|]. split; [|exact Hyc].
      assert (Z := cl_all _ _ _ _ Hc z Hx Cz). apply in_concat in Z. destruct Z as (c' & A & B). apply In_nth_error in Hi, A. destruct Hi as [k Ek], A as [j Ej].
      destruct (cl_grown _ _ _ _ Hc k c Ek) as (s & rest & pre & post & _ & _ & Cs & _ & _ & H1). destruct (cl_grown _ _ _ _ Hc j c' Ej) as (s' & rest' & pre' & post' & _ & _ & Cs' & _ & _ & H2).
      assert (Rz : reach nb m s z) by (apply reach_step with w; [apply H1, Hwc|exact Cw|exact (Hsym z w Hx Hwh Hw)]). assert (Rw : reach nb m s' w) by (apply reach_step with z; [apply H2, B|exact Cz|exact Hw]).
      assert (P : forall i, i <> j -> forall d, nth_error cs i = Some d -> ~ In z d) by (intros i Hij d Ed X; exact (clustering_earlier _ _ _ _ Hc j c' Ej i d Ed Hij z B X)).
      assert (Q : forall i, i <> k -> forall d, nth_error cs i = Some d -> ~ In w d) by (intros i Hik d Ed X; exact (clustering_earlier _ _ _ _ Hc k c Ek i d Ed Hik w Hwc X)).
      destruct (Nat.lt_total j k) as [L|[L|L]].
      * exfalso. apply (Q j ltac:(lia) c' Ej). apply H2. split; [exact Rw|]. intros X. apply in_concat in X. destruct X as (d & Hd & Hwd). apply in_firstn in Hd. destruct Hd as (i & Hi & Ed). exact (Q i ltac:(lia) d Ed Hwd).
      * subst j. congruence.
      * apply H1. split; [exact Rz|]. intros X. apply in_concat in X. destruct X as (d & Hd & Hzd). apply in_firstn in Hd. destruct Hd as (i & Hi & Ed). exact (P i ltac:(lia) d Ed Hzd).
Qed.
Print Assumptions c49_connected.

Section P.
Context (hit : nat -> hit3) (sort : (nat -> nat -> bool) -> list nat -> list nat) (root : Qc -> Qc) (sigmas refdist : Qc) (minpts : nat).
Notation around := (around hit root sigmas refdist).
Notation cluster3d_list := (cluster3d_list hit sort root sigmas refdist minpts).
Notation cluster3d_ptr := (cluster3d_ptr hit sort root sigmas refdist minpts).

(** the neighbourhoods used: other, compatible hits of the list closer than RefLeafBestDist, none twice; and what the search guarantees to find *)
Theorem c49_neighbours hits t h : sorts hit sort -> NoDup hits -> build_tree hit sort hits = Some t -> In h hits ->
  (exists c b, neighbours hit root sigmas refdist h t ([], Far) = Ok (c, b) /\ around t h = map snd c) /\ NoDup (around t h) /\
  (forall k, In k (around t h) -> In k hits /\ k <> h /\ compatible hit sigmas h k /\ (yz_sep hit root h k < refdist)%Qc) /\
  ((forall k a, In k hits -> k <> h -> a < 3 -> coord (hit k) a <> coord (hit h) a) -> forall k, In k hits -> close_to hit root sigmas refdist h k -> In k (around t h)).
Proof.
  intros Hs Hn Et Hh. assert (Hne : hits <> []) by (intros ->; destruct Hh).
  destruct (c36_sound hit sort root sigmas refdist hits t h [] Far Hs Hne Hn Et I) as (new & b & E & N & S). cbn [app] in E.
  assert (Ea : around t h = map snd new) by (unfold CDB_Model.around; rewrite E; reflexivity). split; [exists new, b; split; assumption|]. rewrite Ea. split; [exact N|]. split.
  - intros k Hk. apply in_map_iff in Hk. destruct Hk as ([d k'] & <- & Hi). cbn [snd]. destruct (S d k' Hi) as (A & B & C & D & _). split; [exact A|]. split; [exact B|]. split; [exact C|].
    destruct (c36_max_sound hit sort root sigmas refdist hits t h [] new b Hs Hne Et E d k' Hi) as [[]|X]. rewrite <- D. exact X.
  - intros Hd k Hk Hc. apply (in_map snd) with (x := (yz_sep hit root h k, k)). apply (c36_max_complete_partial hit sort root sigmas refdist hits t h [] new b Hs Hn Et Hh Hd E k Hk Hc).
Qed.

(** C49: on hits with all three bits clear, the call ends and appends the DBSCAN clustering of the hits to the clusters it was given; afterwards every hit is
    visited, attached iff in a new cluster, flagged noise only if it is not a core hit, and flagged noise if it is in no cluster; no other hit's bits change *)
Theorem c49_clustering hits old b fuel : sorts hit sort -> NoDup hits -> (forall h, In h hits -> visited b h = false /\ attached b h = false /\ noise b h = false) -> length hits * length hits <= fuel ->
  exists t cs b', build_tree hit sort hits = Some t /\ cluster3d_list fuel hits old b = Some (old ++ cs, b') /\ clustering (around t) minpts hits cs /\ incl (concat cs) hits /\
    (forall h, In h hits -> visited b' h = true /\ (attached b' h = true <-> In h (concat cs)) /\ (noise b' h = true -> ~ core (around t) minpts h) /\ (~ In h (concat cs) -> noise b' h = true)) /\
    (forall h, ~ In h hits -> visited b' h = visited b h /\ attached b' h = attached b h /\ noise b' h = noise b h).
Proof.
  intros Hs Hn Hb Hf. unfold CDB_Model.cluster3d_list.
  destruct hits as [|h0 l0] eqn:Eh. { exists Null, [], b. cbn. rewrite app_nil_r. split; [reflexivity|]. split; [reflexivity|]. split; [split; cbn; [constructor|intros [|k] c E; discriminate|intros ? []]|]. split; [intros ? []|]. split; [intros ? []|auto]. }
  rewrite <- Eh in *. assert (Hne : hits <> []) by (rewrite Eh; discriminate). clear Eh h0 l0. destruct (c35_build hit sort hits Hs Hne) as (t & Et & _). rewrite Et.
  assert (Hnb : forall h, In h hits -> incl (around t h) hits). { intros h Hh k Hk. destruct (c49_neighbours hits t h Hs Hn Et Hh) as (_ & _ & X & _). apply X, Hk. }
  assert (Hsum : list_sum (map (fun h => length (around t h)) hits) <= fuel).
  { eapply Nat.le_trans; [|exact Hf]. assert (X : forall l, incl l hits -> list_sum (map (fun h => length (around t h)) l) <= length l * length hits).
    { induction l as [|x l IH]; intros Hl; [cbn; lia|]. cbn [map length]. rewrite ls_cons. assert (length (around t x) <= length hits). { destruct (c49_neighbours hits t x Hs Hn Et (Hl x (or_introl eq_refl))) as (_ & N & _). apply NoDup_incl_length; [exact N|apply Hnb, Hl; left; reflexivity]. }
      specialize (IH (fun k Hk => Hl k (or_intror Hk))). lia. }
    apply X, incl_refl. }
  set (b0 := mkBits (fun _ => false) (fun _ => false) (fun _ => false)).
  destruct (loop_ok (around t) minpts hits Hnb Hn fuel Hsum hits [] [] b0 eq_refl) as (cs & b1 & E & I & G & V & _).
  { constructor; cbn; try (intros; discriminate); [intros h; split; [discriminate|intros []]|constructor]. }
  { intros [|k] c X; discriminate. }
  { intros h []. }
  destruct (loop_agree (around t) minpts hits Hnb fuel hits [] b0 b cs b1 (incl_refl _)) as (b2 & E2 & A2 & U2); [|exact E|].
  { intros h Hh. destruct (Hb h Hh) as (X & Y & Z). unfold same_at. cbn. auto. }
  exists t, cs, b2. split; [reflexivity|]. assert (Ep := loop_prefix (around t) minpts fuel old hits [] b). rewrite app_nil_r, E2 in Ep. split; [exact Ep|].
  split; [|split; [|split]].
  - split; [apply (i_once _ _ _ _ _ _ I)|exact G|]. intros h Hh Ch. apply (i_list _ _ _ _ _ _ I). apply (i_core _ _ _ _ _ _ I h (V h Hh) Ch).
  - intros h Hh. apply (i_list _ _ _ _ _ _ I) in Hh. apply (i_av _ _ _ _ _ _ I) in Hh. apply (i_in _ _ _ _ _ _ I h Hh).
  - intros h Hh. destruct (A2 h Hh) as (X & Y & Z). rewrite <- X, <- Y, <- Z. split; [apply V, Hh|]. split; [apply (i_list _ _ _ _ _ _ I)|]. split; [intros N; apply (i_noise _ _ _ _ _ _ I h N)|].
    intros Nh. apply (i_rest _ _ _ _ _ _ I h (V h Hh)). destruct (attached b1 h) eqn:Ea; [|reflexivity]. apply (i_list _ _ _ _ _ _ I) in Ea. contradiction.
  - intros h Hh. destruct (U2 h Hh) as (X & Y & Z). auto.
Qed.
(** the pointer overload clears the bits first, so it clusters whatever the bits were *)
Theorem c49_clustering_ptr hits old b fuel : sorts hit sort -> NoDup hits -> length hits * length hits <= fuel ->
  exists t cs b', build_tree hit sort hits = Some t /\ cluster3d_ptr fuel hits old b = Some (old ++ cs, b') /\ clustering (around t) minpts hits cs /\ incl (concat cs) hits.
Proof.
  intros Hs Hn Hf. destruct (c49_clustering hits old (clear hits b) fuel Hs Hn) as (t & cs & b' & A & B & C & D & _); [|exact Hf|exists t, cs, b'; auto].
  intros h Hh. cbn. destruct (in_dec Nat.eq_dec h hits); [auto|contradiction].
Qed.
(** the other overload does not: called again on the same hits it finds nothing *)
Theorem c49_rerun hits old b fuel : sorts hit sort -> hits <> [] -> (forall h, In h hits -> visited b h = true) -> cluster3d_list fuel hits old b = Some (old, b).
Proof. intros Hs Hne Hv. unfold CDB_Model.cluster3d_list. destruct (c35_build hit sort hits Hs Hne) as (t & -> & _). apply loop_seen, Hv. Qed.
(** with no shared coordinates, and no compatible hits that are close in the y-z plane but not in x, two core hits are in one cluster iff density connected *)
Theorem c49_connected_kd hits t cs : sorts hit sort -> NoDup hits -> build_tree hit sort hits = Some t -> clustering (around t) minpts hits cs ->
  (forall h k a, In h hits -> In k hits -> k <> h -> a < 3 -> coord (hit k) a <> coord (hit h) a) ->
  (forall h k, In h hits -> In k hits -> k <> h -> compatible hit sigmas h k -> (yz_sep hit root h k < refdist)%Qc -> near_all hit refdist h k) ->
  (forall h k, In h hits -> (In k (around t h) <-> In k hits /\ close_to hit root sigmas refdist h k)) /\
  forall x y, In x hits -> In y hits -> core (around t) minpts x -> core (around t) minpts y -> (together cs x y <-> connected (around t) minpts x y).
Proof.
  intros Hs Hn Et Hc Hd Hx.
  assert (Q : forall h k, In h hits -> (In k (around t h) <-> In k hits /\ close_to hit root sigmas refdist h k)).
  { intros h k Hh. destruct (c49_neighbours hits t h Hs Hn Et Hh) as (_ & _ & X & Y). split.
    - intros Hk. destruct (X k Hk) as (A & B & C & D). split; [exact A|]. split; [exact B|]. split; [exact C|]. split; [exact D|]. apply Hx; assumption.
    - intros [A B]. apply Y; [|exact A|exact B]. intros k' a Hk'. apply Hd; assumption. }
  split; [exact Q|]. intros x y Ix Iy Cx Cy.
  assert (Hnb : forall h, In h hits -> incl (around t h) hits) by (intros h Hh k Hk; apply Q in Hk; tauto).
  apply (c49_connected (around t) minpts hits cs Hc Hnb); try assumption.
  intros h k Hh Hk Hi. apply (Q k h Hk). split; [exact Hh|]. apply close_sym, (Q h k Hh). exact Hi.
Qed.
End P.
Print Assumptions c49_neighbours. Print Assumptions c49_clustering. Print Assumptions c49_clustering_ptr. Print Assumptions c49_rerun. Print Assumptions c49_connected_kd.

(* ================================================================== examples *)
Definition clean : bits := mkBits (fun _ => false) (fun _ => false) (fun _ => false).
(** hits on a diagonal: 0 1 2 close together, 3 4 5 close together, 6 alone *)
Definition line_hit (h : nat) : hit3 := let x := if h <? 3 then Z.of_nat h else if h <? 6 then (10 + Z.of_nat h)%Z else 40%Z in mkH3 (q x 10) (q x 5) (q x 4) 0 0 0 1 (100 + x) (100 - x) x.
Definition ex_run := cluster3d_list line_hit ex_sort ex_root (q 3 1) (q 1 1) 2 49 [6; 0; 4; 1; 5; 2; 3] [[77]] clean.
Example c49_nonvacuous : match ex_run with Some (cs, b) => Some (cs, map (fun h => (visited b h, attached b h, noise b h)) [0; 3; 6]) | None => None end =
  Some ([[77]; [0; 1; 2]; [4; 3; 5]], [(true, true, false); (true, true, false); (true, false, true)]).
Proof. vm_compute. reflexivity. Qed.
(** a hit flagged noise before a cluster reaches it stays flagged although it is then in the cluster *)
Definition ex_run2 := cluster3d_list line_hit ex_sort ex_root (q 3 1) (q 3 10) 2 49 [0; 1; 2] [] clean.
Example c49_noise_in_cluster : match ex_run2 with Some (cs, b) => Some (cs, map (noise b) [0; 1; 2]) | None => None end = Some ([[1; 2; 0]], [true; false; false]).
Proof. vm_compute. reflexivity. Qed.
