(** Polygon2D: the vertices of the common polygon, and cases that meet the hypotheses of the theorems *)
From Coq Require Import QArith Qcanon Permutation Lqa Znumtheory.
From Verif Require Import Base QcUtil Solver_Model Solver_Proofs POL_Model POL_Spec POL_Area POL_Cross POL_Props POL_Inside.
Local Open Scope nat_scope.
Lemma points_all (v : poly) : map (point v) (range 0 (length v)) = v.
Proof.
  rewrite <- (map_nth_range v origin0) at 3. apply map_ext_in. intros i I. apply in_range in I. unfold point. replace (i <? length v) with true by (symmetry; apply Nat.ltb_lt; lia). reflexivity.
Qed.
(** Contained asks for all vertices; the interior of the sides is not looked at *)
Theorem contained_exact v w : contained v w = true <-> forall p, In p w -> point_inside v p = true.
Proof.
  unfold contained. rewrite forallb_forall. split.
  - intros H p I. rewrite <- (points_all w) in I. apply in_map_iff in I as (i & <- & I). apply H, I.
  - intros H i I. apply H. rewrite <- (points_all w) at 2. apply in_map, I.
Qed.
Theorem contained_nothing v : contained v [] = true.
Proof. apply contained_exact. intros p []. Qed.
(** the constructor of the common part: the vertices of each that are inside the other, in order, and the crossings of the sides; nothing when PolyOverlap says no *)
Theorem common_vertices tan sin cos v w : poly_overlap tan sin cos v w = true -> exists x,
  common tan sin cos v w = map Some (filter (point_inside w) v) ++ map Some (filter (point_inside v) w) ++ x /\
  forall o, In o x <-> exists s t, In s (sides_of v) /\ In t (sides_of w) /\ seg_overlap (fst s) (snd s) (fst t) (snd t) = true /\ o = intersection (fst s) (snd s) (fst t) (snd t).
Proof.
  intros H. unfold common. rewrite H, !points_all. eexists. split; [reflexivity|]. intros o. rewrite in_flat_map. split.
  - intros (i & Ii & I). apply in_flat_map in I as (j & Ij & I). destruct (seg_overlap _ _ _ _) eqn:X; [|destruct I]. destruct I as [<-|[]]. exists (point v i, point v (i + 1)), (point w j, point w (j + 1)).
    split; [rewrite <- sides_points; apply (in_map (fun i => (point v i, point v (i + 1)))), Ii|]. split; [rewrite <- sides_points; apply (in_map (fun i => (point w i, point w (i + 1)))), Ij|]. split; [exact X|reflexivity].
  - intros (s & t & Is & It & X & ->). rewrite <- sides_points in Is, It. apply in_map_iff in Is as (i & <- & Ii). apply in_map_iff in It as (j & <- & Ij). exists i. split; [exact Ii|]. apply in_flat_map. exists j. split; [exact Ij|]. cbn [fst snd] in X |- *. rewrite X. left. reflexivity.
Qed.
Theorem common_none tan sin cos v w : poly_overlap tan sin cos v w = false -> common tan sin cos v w = [].
Proof. unfold common. intros ->. reflexivity. Qed.
(** * Cases *)
Example area_case : area arrow = Q2Qc (51 # 2) /\ area unit_square = q 1.
Proof. split; apply Qc_is_canon; vm_compute; reflexivity. Qed.
Example perimeter_case : is_perimeter unit_square (q 4) /\ (0 <= q 2)%Qc /\ (q 2 * q 2)%Qc = qsum len2 (sides_of unit_square).
Proof. split; [exact square_perimeter|]. split; [vm_compute; discriminate|]. apply Qc_is_canon. vm_compute. reflexivity. Qed.
(** a function that returns the root of every square *)
Definition root (x : Qc) : Qc := Q2Qc (Z.sqrt (Qnum (this x)) # Z.to_pos (Z.sqrt (Z.pos (Qden (this x))))).
Example root_case : is_sqrt root.
Proof.
  intros x H. unfold root. assert (E : this (x * x)%Qc = (Qnum (this x) * Qnum (this x) # Qden (this x) * Qden (this x))%Q).
  { change (this (x * x)%Qc) with (Qred (this x * this x)%Q). apply Qred_iff. cbn [Qnum Qden]. pose proof (canon x) as C. apply Qred_iff in C. rewrite Pos2Z.inj_mul.
    apply Zgcd_1_rel_prime. apply Zgcd_1_rel_prime in C. assert (D : rel_prime (Qnum (this x)) (Z.pos (Qden (this x)) * Z.pos (Qden (this x)))) by (apply rel_prime_mult; exact C). apply rel_prime_sym. apply rel_prime_sym in D. apply rel_prime_mult; exact D. }
  rewrite E. cbn [Qnum Qden]. rewrite Pos2Z.inj_mul. rewrite !Z.sqrt_square by (try lia; unfold Qcle, Qle in H; cbn in H; lia). apply Qc_is_canon. cbn [this Q2Qc]. rewrite Qred_correct. rewrite Pos2Z.id. destruct (this x). reflexivity.
Qed.
Definition tri1 : poly := [(q 0, q 0); (q 4, q 1); (q 2, q 5)].
Definition tri2 : poly := [(q 1, q 1); (q 5, q 2); (q 0, q 3)].
Example hulls_case : in_hull tri1 (q 2, q 2) /\ in_hull tri2 (q 2, q 2) /\ ~ vertical_side tri1 /\ ~ vertical_side tri2.
Proof.
  assert (W : forall x, In x [Q2Qc (1 # 3); Q2Qc (1 # 3); Q2Qc (1 # 3)] -> (0 <= x)%Qc) by (intros x I; cbn in I; repeat (destruct I as [<-|I]; [vm_compute; discriminate|]); destruct I).
  assert (E : forall a b c d : Qc, Qc_eq_bool a c && Qc_eq_bool b d = true -> (a, b) = (c, d)) by (intros a b c d X; apply andb_true_iff in X as [X Y]; apply eqb_qc in X, Y; congruence).
  assert (V : forall v, forallb (fun s => negb (Qc_eq_bool (fst (fst s)) (fst (snd s)))) (sides_of v) = true -> ~ vertical_side v) by (intros v X (s & I & Y); rewrite forallb_forall in X; specialize (X s I); apply eqb_qc in Y; rewrite Y in X; discriminate).
  split; [|split; [|split; apply V; vm_compute; reflexivity]]; (exists [Q2Qc (1 # 3); Q2Qc (1 # 3); Q2Qc (1 # 3)]; split; [reflexivity|]; split; [exact W|]; split; [apply eqb_qc; vm_compute; reflexivity|apply E; vm_compute; reflexivity]).
Qed.
Example seg_case : seg_overlap (q 0, q 0) (q 4, q 4) (q 0, q 3) (q 5, q 1) = true /\ apart (q 0, q 0) (q 4, q 4) (q 0, q 3) (q 5, q 1).
Proof. split; [vm_compute; reflexivity|]. repeat split; apply nz_spec; vm_compute; reflexivity. Qed.
Example intersection_case : seg_overlap (q 0, q 1) (q 4, q 4) (q 0, q 3) (q 5, q 1) = true /\ intersection (q 0, q 1) (q 4, q 4) (q 0, q 3) (q 5, q 1) <> None.
Proof. split; [vm_compute; reflexivity|]. vm_compute. discriminate. Qed.
(** the square given in a wrong order is untangled *)
Definition bowtie : poly := z2 [(0, 0); (4, 4); (4, 0); (0, 3)]%Z.
Lemma sides_mono rec rec' v w : (forall x y, rec x = Some y -> rec' x = Some y) -> sides rec v = Some w -> sides rec' v = Some w.
Proof.
  intros H. unfold sides. assert (T : forall a b i l s w, fold_left (turn rec a b i) l s = Some w -> fold_left (turn rec' a b i) l s = Some w).
  { intros a b i. induction l as [|j l IH]; intros s u E; [exact E|]. cbn [fold_left] in *. destruct s as [s|]; [|cbn [turn] in *; rewrite turn_None in E; discriminate]. unfold turn at 2. unfold turn at 2 in E. destruct (pt_eqb _ _); [apply IH, E|]. destruct (seg_overlap _ _ _ _); [|apply IH, E]. destruct (rec (swap s (i + 1) j)) as [y|] eqn:R; [|rewrite turn_None in E; discriminate]. rewrite (H _ _ R). apply IH, E. }
  generalize (range 0 (length v - 1)) as l. intros l. generalize (Some v) as s. induction l as [|i l IH]; intros s E; [exact E|]. cbn [fold_left] in *. destruct s as [s|]; [|apply IH, E]. destruct (fold_left (turn rec _ _ i) _ (Some s)) as [y|] eqn:F; [rewrite (T _ _ _ _ _ _ F); apply IH, E|rewrite sides_None in E; discriminate].
Qed.
Lemma untangle_mono n m v w : n <= m -> untangle' n v = Some w -> untangle' m v = Some w.
Proof. intros L. revert n L v w. induction m as [|m IH]; intros n L v w E; [replace n with 0 in E by lia; discriminate|]. destruct n as [|n]; [discriminate|]. cbn [untangle'] in *. apply (sides_mono (untangle' n)); [|exact E]. intros x y. apply IH. lia. Qed.
(** the result does not depend on how it is reached: a call that ends returns *)
Theorem untangle_ends n v w : untangle n v = Some (Ok w) -> returns (fun n => untangle n v) (Ok w).
Proof. unfold untangle. destruct v as [|a r]; [discriminate|]. destruct (untangle' n (a :: r)) as [u|] eqn:E; [|discriminate]. cbn [option_map]. intros X. exists n. intros m L. rewrite (untangle_mono n m _ _ L E). exact X. Qed.
Definition untied : poly := z2 [(0, 0); (4, 0); (4, 4); (0, 3)]%Z.
Lemma bowtie_calm : match untangle' 3 bowtie with Some w => poly_eqb w untied | None => false end = true.
Proof. vm_compute. reflexivity. Qed.
Example untangle_case : returns (fun n => untangle n bowtie) (Ok untied).
Proof. pose proof bowtie_calm as H. destruct (untangle' 3 bowtie) as [w|] eqn:E; [|discriminate]. apply poly_eqb_eq in H. apply (untangle_ends 3). unfold untangle. change (option_map (@Ok poly) (untangle' 3 bowtie) = Some (Ok untied)). rewrite E, H. reflexivity. Qed.
Print Assumptions area_exact.
Print Assumptions area_rotate.
Print Assumptions area_reverse.
Print Assumptions area_translate.
Print Assumptions area_cut.
Print Assumptions perimeter_refuted.
Print Assumptions perimeter_partial.
Print Assumptions seg_overlap_sym.
Print Assumptions seg_overlap_sound_partial.
Print Assumptions seg_overlap_exact_partial.
Print Assumptions seg_overlap_refuted.
Print Assumptions intersection_partial.
Print Assumptions intersection_refuted.
Print Assumptions poly_overlap_hulls_partial.
Print Assumptions poly_overlap_vertical.
Print Assumptions poly_overlap_no_refuted.
Print Assumptions poly_overlap_yes_refuted.
Print Assumptions segments_sym.
Print Assumptions segments_sound.
Print Assumptions untangle_partial.
Print Assumptions untangle_refuted.
Print Assumptions untangle_empty.
Print Assumptions untangle_ends.
Print Assumptions point_inside_partial.
Print Assumptions point_inside_rotate.
Print Assumptions point_inside_refuted.
Print Assumptions contained_exact.
Print Assumptions common_vertices.
Print Assumptions common_none.
