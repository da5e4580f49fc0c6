(** TrackShowerHits with FindHugeShowers: exactly which hits are written, and together with which *)
From Coq Require Import QArith Qcanon Permutation Sorted Lqa.
From Verif Require Import Base QcUtil Solver_Model Solver_Proofs SEG_Model SEG_Spec SEG_Simple SEG_Split SEG_Run SEG_Tag SEG_Dense SEG_Whole SEG_Props SEG_Prod TJ_Proofs SPA_Loop.
Import SEG_Model.
Local Open Scope nat_scope.
Section A.
Variable cf : cfg.
Variable srt : pt -> list hit -> list hit.
Hypothesis So : sorts srt.
Lemma in_out fh fm geom hits : (fm = true -> usable cf) -> distinct hits -> exists o, returns (fun n => produce srt cf fh fm n geom hits) (Ok o) /\
  forall c, In c (map o_hits o) <-> exists v g d, In v (flat_map (fun t => by_view t hits) geom) /\ returns (fun n => one_view srt cf fh fm n v) (Ok g) /\ In d g /\ em d = true /\ hs d <> [] /\ hs d = c.
Proof.
  intros U D. set (L := flat_map (fun t => by_view t hits) geom).
  assert (Dv : forall v, In v L -> distinct v) by (intros v I; apply by_view_in in I as (t & w & _ & -> & _); apply distinct_filter, D).
  destruct (all_views_ok cf srt So fh fm U L [] Dv) as (gs & o & F & R & N & E & V); [intros k x X; destruct k; discriminate|]. exists o. split; [exact R|]. intros c. rewrite E. cbn [map app]. clear -F. induction F as [|v g L gs (Rv & _) F IH].
  - cbn. split; [intros []|intros (v & g & d & [] & _)].
  - cbn [map concat]. rewrite in_app_iff, IH, in_map_iff. split.
    + intros [(d & Hd & Id)|(v' & g' & d & Iv & X)].
      * apply filter_In in Id as [Id Od]. unfold is_out in Od. apply andb_true_iff in Od as [O1 O2]. exists v, g, d. split; [left; reflexivity|]. split; [exact Rv|]. split; [exact Id|]. split; [exact O1|]. split; [|exact Hd]. destruct (hs d); [discriminate|congruence].
      * exists v', g', d. split; [right; exact Iv|exact X].
    + intros (v' & g' & d & [<-|Iv] & Rv' & Id & Em & Nd & Hd); [left|right; exists v', g', d; auto 10]. exists d. split; [exact Hd|]. assert (g' = g) by (pose proof (returns_fun _ _ _ Rv Rv'); congruence). subst g'. apply filter_In. split; [exact Id|]. unfold is_out. rewrite Em. destruct (hs d); [congruence|reflexivity].
Qed.
Lemma plane_linked geom hits v h b : In v (flat_map (fun t => by_view t hits) geom) -> In h v -> linked v h b <-> linked_in_plane hits h b.
Proof.
  intros Iv Ih. apply by_view_in in Iv as (t & w & _ & -> & _). set (v := filter (fun h => in_tpc t h && (view h =? w)) hits) in *.
  assert (Iv : forall x, In x v <-> In x hits /\ t = (cryo x, tpc x) /\ view x = w) by (intros x; unfold v; rewrite filter_In, andb_true_iff, Nat.eqb_eq; rewrite tpc_eq; tauto). clearbody v. split.
  - intros X. clear Ih. induction X as [x y (A & B & C)|x|x y z _ IH1 _ IH2]; [apply rt_step|apply rt_refl|apply (rt_trans _ _ _ y); assumption]. apply Iv in A as (A1 & A2 & A3), B as (B1 & B2 & B3). split; [exact A1|]. split; [exact B1|]. split; [|exact C]. unfold same_plane. split; [congruence|]. split; congruence.
  - intros X. apply clos_rt_rt1n in X. induction X as [x|x y z (A & B & (P1 & P2 & P3) & C) X IH]; [apply rt_refl|]. assert (Iy : In y v) by (apply Iv; apply Iv in Ih as (A1 & A2 & A3); split; [exact B|]; split; congruence). apply (rt_trans _ _ _ y); [apply rt_step; auto|apply IH, Iy].
Qed.
Lemma in_nothing v g : returns (fun n => one_view srt cf false false n v) (Ok g) -> forall d, In d g -> em d = false.
Proof.
  intros R d I. destruct (simple_partition v) as (cls & (n1 & R1) & _). assert (R2 : returns (fun n => one_view srt cf false false n v) (Ok (map fresh cls))) by (exists n1; intros n L; unfold one_view; rewrite R1 by lia; reflexivity). assert (g = map fresh cls) by (pose proof (returns_fun _ _ _ R R2); congruence). subst g. apply in_map_iff in I as (c & <- & _). reflexivity.
Qed.
(** C156: with both searches off nothing is written *)
Theorem produce_nothing geom hits : distinct hits -> returns (fun n => produce srt cf false false n geom hits) (Ok []).
Proof.
  intros D. destruct (in_out false false geom hits ltac:(discriminate) D) as (o & R & I). destruct o as [|x o]; [exact R|]. exfalso. destruct (proj1 (I (o_hits x)) (or_introl eq_refl)) as (v & g & d & _ & Rv & Id & Em & _). rewrite (in_nothing v g Rv d Id) in Em. discriminate.
Qed.
Lemma view_huge v g : distinct v -> (forall h, In h v -> sane h) -> returns (fun n => one_view srt cf true false n v) (Ok g) ->
  forall h b, In h v -> (exists d, In d g /\ em d = true /\ In h (hs d) /\ In b (hs d)) <-> linked v h b /\ (exists c, (forall x, In x c <-> linked v h x) /\ crowded (f_hrad cf) (f_minH cf) c h) /\ (exists c, (forall x, In x c <-> linked v h x) /\ crowded (f_hrad cf) (f_minH cf) c b).
Proof.
  intros D Sn R h b Ih. destruct (view_ok cf srt So true false v ltac:(discriminate) D) as (cls & Rc & g' & R' & _ & E). assert (g' = g) by (pose proof (returns_fun _ _ _ R R'); congruence). subst g'. rewrite (E eq_refl), huge_eq. cbn [app]. clear R R' E.
  destruct (simple_partition v) as (cls' & Rc' & P & Nn). assert (cls' = cls) by (apply (returns_fun _ _ _ Rc' Rc)). subst cls'. pose proof (simple_components_partial v cls Sn Rc) as Cm.
  assert (Dc : forall c, In c cls -> distinct c). { intros c Ic. apply in_split in Ic as (a & z & ->). rewrite concat_app in P. cbn [concat] in P. apply (distinct_perm _ _ (Permutation_sym P)), distinct_app in D as (_ & D). apply distinct_app in D as (D & _). exact D. }
  assert (Class : forall c, In c cls -> forall h, In h c -> forall x, In x c <-> linked v h x).
  { intros c Ic k Hk x. assert (Ik : In k v) by (apply (Permutation_in _ P), in_concat; eauto). rewrite <- (Cm k x Ik). split; [intros X; exists c; auto|]. intros (c' & Ic' & A & B). assert (c' = c); [|subst; exact B].
    destruct (In_nth_error _ _ Ic) as (i & Ei). destruct (In_nth_error _ _ Ic') as (j & Ej). destruct (Nat.eq_dec i j) as [<-|N]; [congruence|]. exfalso.
    assert (Nd : NoDup (map key (concat (map hs (map fresh cls))))) by (rewrite map_map; cbn; rewrite map_id; apply (distinct_perm _ _ (Permutation_sym P)), D).
    apply (nodup_two (map fresh cls) i j (fresh c) (fresh c') k Nd); [apply map_nth_error, Ei|apply map_nth_error, Ej|exact N|exact Hk|exact A]. }
  assert (Same : forall c c' x, (forall y, In y c <-> linked v h y) -> (forall y, In y c' <-> linked v h y) -> crowded (f_hrad cf) (f_minH cf) c x -> crowded (f_hrad cf) (f_minH cf) c' x).
  { intros c c' x A B (s & N & Ls & I). exists s. split; [exact N|]. split; [exact Ls|]. intros y Y. destruct (I y Y) as (I1 & I2). split; [apply B, A, I1|exact I2]. }
  assert (Out : forall c k, In c cls -> In k (snd (split_naive cf c)) <-> In k c /\ crowded (f_hrad cf) (f_minH cf) c k).
  { intros c k Ic. destruct (naive_split_exact cf c (Dc c Ic)) as (f & Hf & ->). cbn [snd]. rewrite filter_In. split; intros (A & B); (split; [exact A|]); apply (Hf k A); exact B. }
  split.
  - intros (d & Id & Em & Hh & Hb). apply in_app_or in Id as [Id|Id].
    + apply filter_In in Id as [Id _]. apply in_map_iff in Id as (c & <- & _). discriminate.
    + apply in_flat_map in Id as (k & Ik & Id). apply in_map_iff in Ik as (c & <- & Ic). cbn [hs fresh] in Id. destruct (length c <? 2); [destruct Id|]. destruct Id as [<-|[<-|[]]]; [discriminate|]. cbn [hs set_em fresh] in Hh, Hb. apply (Out c h Ic) in Hh as (A & B). apply (Out c b Ic) in Hb as (A' & B').
      split; [apply (Class c Ic h A), A'|]. split; exists c; (split; [apply (Class c Ic h A)|assumption]).
  - intros (Lb & (c1 & K1 & C1) & (c2 & K2 & C2)). destruct (proj2 (Cm h h Ih) (rt_refl _ _ _)) as (c & Ic & Hc & _). pose proof (Class c Ic h Hc) as Kc. exists (set_em (fresh (snd (split_naive cf c)))). split; [|split; [reflexivity|]].
    + apply in_or_app. right. apply in_flat_map. exists (fresh c). split; [apply in_map, Ic|]. cbn [hs fresh]. destruct (length c <? 2) eqn:Lc; [|right; left; reflexivity]. exfalso. apply Nat.ltb_lt in Lc. destruct (Same c1 c h K1 Kc C1) as (s & _ & Ls & I). destruct s as [|y s]; [discriminate|]. destruct (I y (or_introl eq_refl)) as (Iy & Ny & _). destruct c as [|a [|a2 c]]; [destruct Hc| |cbn in Lc; lia]. destruct Hc as [->|[]], Iy as [->|[]]. congruence.
    + cbn [hs set_em fresh]. split; apply (Out c _ Ic); (split; [apply Kc; [apply rt_refl||exact Lb]|]); [apply (Same c1 c h K1 Kc C1)|apply (Same c2 c b K2 Kc C2)].
Qed.
(** C156: with FindHugeShowers alone two hits are written into one cluster exactly when both are in a TPC of the geometry, chains of touching hits of their plane connect them, and each is near to more than DenseMinNHits hits so connected *)
Theorem produce_showers geom hits : distinct hits -> (forall h, In h hits -> sane h) ->
  exists o, returns (fun n => produce srt cf true false n geom hits) (Ok o) /\
    forall h b, (exists x, In x o /\ In h (o_hits x) /\ In b (o_hits x)) <->
      In h hits /\ In (cryo h, tpc h) geom /\ linked_in_plane hits h b /\ in_shower (f_hrad cf) (f_minH cf) hits h /\ in_shower (f_hrad cf) (f_minH cf) hits b.
Proof.
  intros D Sn. destruct (in_out true false geom hits ltac:(discriminate) D) as (o & R & I). exists o. split; [exact R|]. intros h b.
  assert (Dv : forall v, In v (flat_map (fun t => by_view t hits) geom) -> distinct v /\ forall x, In x v -> In x hits) by (intros v Iv; apply by_view_in in Iv as (t & w & _ & -> & _); split; [apply distinct_filter, D|intros x X; apply filter_In in X; tauto]).
  assert (Sym : forall v x y, linked v x y -> linked v y x) by (intros v x y X; apply (linked_sym v), X).
  assert (Sh : forall v x y, In v (flat_map (fun t => by_view t hits) geom) -> In x v -> In y v -> linked v x y -> (exists c, (forall z, In z c <-> linked v x z) /\ crowded (f_hrad cf) (f_minH cf) c y) <-> in_shower (f_hrad cf) (f_minH cf) hits y).
  { intros v x y Iv Ix Iy Lxy. assert (T : forall z, linked v x z <-> linked_in_plane hits y z) by (intros z; rewrite <- (plane_linked geom hits v y z Iv Iy); split; intros X; [apply (rt_trans _ _ _ x); [apply Sym, Lxy|exact X]|apply (rt_trans _ _ _ y); assumption]). split.
    - intros (c & Kc & (s & N & Ls & Hs)). exists s. split; [exact N|]. split; [exact Ls|]. intros z Z. destruct (Hs z Z) as (A & B). split; [apply T, Kc, A|exact B].
    - intros (s & N & Ls & Hs). destruct (simple_partition v) as (cls & Rc & P & _). destruct (Dv v Iv) as (D1 & S1). pose proof (simple_components_partial v cls (fun q Q => Sn q (S1 q Q)) Rc) as Cm.
      destruct (proj2 (Cm x x Ix) (rt_refl _ _ _)) as (c & Ic & Hc & _). 
      assert (K : exists c, forall z, In z c <-> linked v x z). { exists (concat (filter (fun k => existsb (fun u => key u =? key x) k) cls)). intros z. rewrite <- (Cm x z Ix), in_concat. split.
        - intros (k & Ik & Iz). apply filter_In in Ik as [Ik Ek]. apply existsb_exists in Ek as (u & Iu & Eu). apply Nat.eqb_eq in Eu. assert (u = x) by (apply (distinct_eq v u x D1); [apply (Permutation_in _ P), in_concat; eauto|exact Ix|exact Eu]). subst u. exists k. auto.
        - intros (k & Ik & Kx & Kz). exists k. split; [|exact Kz]. apply filter_In. split; [exact Ik|]. apply existsb_exists. exists x. split; [exact Kx|apply Nat.eqb_refl]. }
      destruct K as (k & K). exists k. split; [exact K|]. exists s. split; [exact N|]. split; [exact Ls|]. intros z Z. destruct (Hs z Z) as (A & B). split; [apply K, T, A|exact B]. }
  split.
  - intros (x & Ix & Hh & Hb). destruct (proj1 (I (o_hits x)) (in_map _ _ _ Ix)) as (v & g & d & Iv & Rv & Id & Em & Nd & Hd). rewrite <- Hd in Hh, Hb. destruct (Dv v Iv) as (D1 & S1).
    assert (In h v /\ In b v) as (Vh & Vb). { destruct (view_ok cf srt So true false v ltac:(discriminate) D1) as (cls & _ & g' & R' & (rest & K) & _). assert (g' = g) by (pose proof (returns_fun _ _ _ Rv R'); congruence). subst g'. split; apply (Permutation_in _ K), in_or_app; left; apply in_concat; exists (hs d); (split; [apply in_map, Id|assumption]). }
    destruct (proj1 (view_huge v g D1 (fun q Q => Sn q (S1 q Q)) Rv h b Vh)) as (Lb & C1 & C2); [exists d; auto|]. assert (Ih : In h hits /\ In (cryo h, tpc h) geom) by (apply in_planes, in_concat; exists v; auto).
    split; [apply Ih|]. split; [apply Ih|]. split; [apply (plane_linked geom hits v h b Iv Vh), Lb|]. split; [apply (Sh v h h Iv Vh Vh (rt_refl _ _ _)), C1|apply (Sh v h b Iv Vh Vb Lb), C2].
  - intros (Ih & Ig & Lb & C1 & C2). destruct (proj1 (in_concat _ _) (proj2 (in_planes geom hits h) (conj Ih Ig))) as (v & Iv & Vh). destruct (Dv v Iv) as (D1 & S1). apply (plane_linked geom hits v h b Iv Vh) in Lb.
    assert (Vb : In b v) by (clear -Lb Vh; induction Lb as [x y (_ & B & _)|x|x y z _ IH1 _ IH2]; auto).
    destruct (view_ok cf srt So true false v ltac:(discriminate) D1) as (cls & _ & g & Rg & _). destruct (proj2 (view_huge v g D1 (fun q Q => Sn q (S1 q Q)) Rg h b Vh)) as (d & Id & Em & Hh & Hb); [split; [exact Lb|]; split; [apply (Sh v h h Iv Vh Vh (rt_refl _ _ _)), C1|apply (Sh v h b Iv Vh Vb Lb), C2]|].
    assert (X : In (hs d) (map o_hits o)) by (apply I; exists v, g, d; split; [exact Iv|]; split; [exact Rg|]; split; [exact Id|]; split; [exact Em|]; split; [intros Y; rewrite Y in Hh; destruct Hh|reflexivity]). apply in_map_iff in X as (x & Ex & Ix). exists x. rewrite Ex. auto.
Qed.
End A.
Print Assumptions produce_nothing.
Print Assumptions produce_showers.
(** the hypotheses can be met: four hits close together, with a search for more than two neighbours, and one far off; three hits of the first four and the module's cluster *)
Definition cf_s : cfg := Cfg (q 1 10) (q 6 10) (q 2 10) (q 1 1) 5 (q 5 1) 2.
Definition five : list hit := [mk 0 4 0 9 (q 0 1) (q 0 1); mk 1 5 5 20 (q 3 10) (q 0 1); mk 2 6 10 30 (q 6 10) (q 0 1); mk 3 7 15 40 (q 9 10) (q 0 1); mk 4 30 900 910 (q 9 1) (q 9 1)].
Example produce_case : distinct five /\ (forall h, In h five -> sane h) /\
  returns (fun n => produce nearest_first cf_s true false n [(0, 0)] five) (Ok [Out 65536 0 (firstn 4 five)]).
Proof.
  split; [unfold distinct; cbn; repeat constructor; cbn; intuition lia|]. split; [intros h I; cbn in I; repeat (destruct I as [<-|I]; [split; cbn; lia|]); destruct I|]. exists 5. intros n L. do 5 (destruct n; [lia|]). vm_compute. reflexivity.
Qed.
