(** Polygon2D: overlap of polygons, untangling *)
From Coq Require Import QArith Qcanon Permutation Lqa.
From Verif Require Import Base QcUtil Solver_Model Solver_Proofs POL_Model POL_Spec POL_Area POL_Cross.
Local Open Scope nat_scope.
Lemma eqb_qc (x y : Qc) : Qc_eq_bool x y = true <-> x = y.
Proof. split; [apply Qc_eq_bool_correct|intros ->; unfold Qc_eq_bool; destruct (Qc_eq_dec y y); congruence]. Qed.
Lemma map_nth_range {A} (v : list A) d : map (fun i => nth i v d) (range 0 (length v)) = v.
Proof. apply (nth_ext_length d); [rewrite map_length; unfold range; rewrite seq_length; lia|]. intros i L. rewrite map_length in L. unfold range in *. rewrite seq_length in L. rewrite Nat.sub_0_r in *. rewrite nth_map_seq by exact L. reflexivity. Qed.
Lemma fold_map' {A B C} (f : A -> B -> A) (g : C -> B) l : forall s, fold_left f (map g l) s = fold_left (fun s x => f s (g x)) l s.
Proof. induction l as [|x l IH]; intros s; [reflexivity|]. cbn [map fold_left]. apply IH. Qed.
Section T.
Variables tan sin cos : Qc -> Qc.
Notation project := (project sin cos). Notation overlap := (overlap tan sin cos). Notation poly_overlap := (poly_overlap tan sin cos).
Lemma project_none v p : project v p None = (far, 0%Qc).
Proof. unfold POL_Model.project. induction (range 0 (length v)) as [|i l IH]; [reflexivity|exact IH]. Qed.
Definition ab (o : pt) (t : Qc) (a : pt) : Qc := ((fst a - fst o) * cos t + (snd a - snd o) * sin t)%Qc.
Lemma project_some v o t : forall a, In a v -> (fst (project v o (Some t)) <= ab o t a /\ ab o t a <= snd (project v o (Some t)))%Qc.
Proof.
  unfold POL_Model.project. set (g := fun (r : Qc * Qc) (a : pt) => let x := ab o t a in let r1 := if qc_lt x (fst r) then (x, snd r) else r in if qc_lt (snd r1) x then (fst r1, x) else r1).
  assert (E : forall r, fold_left (fun r i => g r (nth i v origin0)) (range 0 (length v)) r = fold_left g v r) by (intros r; transitivity (fold_left g (map (fun i => nth i v origin0) (range 0 (length v))) r); [rewrite fold_map'; reflexivity|rewrite map_nth_range; reflexivity]). unfold g, ab in E. rewrite E. clear E.
  fold (ab o t). assert (St : forall r a, (fst (g r a) <= fst r /\ snd r <= snd (g r a) /\ fst (g r a) <= ab o t a /\ ab o t a <= snd (g r a))%Qc).
  { intros r a. unfold g. cbv zeta. generalize (ab o t a). intros x. destruct r as [l h]. cbn [fst snd]. destruct (qc_lt x l) eqn:A; cbn [fst snd]; destruct (qc_lt h x) eqn:B; cbn [fst snd]; repeat match goal with H : qc_lt _ _ = true |- _ => apply qc_lt_spec in H | H : qc_lt _ _ = false |- _ => apply qc_lt_false in H end; repeat split; qclra. }
  change (forall a, In a v -> (fst (fold_left g v (far, 0%Qc)) <= ab o t a /\ ab o t a <= snd (fold_left g v (far, 0%Qc)))%Qc). generalize (far, 0%Qc) as r0. intros r0.
  assert (Mo : forall v r, (fst (fold_left g v r) <= fst r /\ snd r <= snd (fold_left g v r))%Qc). { clear v r0. induction v as [|x v IH]; intros r; cbn [fold_left]; [split; apply Qcle_refl|]. destruct (IH (g r x)) as (A & B). destruct (St r x) as (C & D & _). split; eapply Qcle_trans; eassumption. }
  revert r0. induction v as [|x v IH]; intros r a I; [destruct I|]. cbn [fold_left]. destruct I as [<-|I]; [|apply IH, I]. destruct (Mo v (g r x)) as (A & B). destruct (St r x) as (_ & _ & C & D). split; eapply Qcle_trans; eassumption.
Qed.
Lemma hull_ab v p o t l h : in_hull v p -> (forall a, In a v -> (l <= ab o t a /\ ab o t a <= h)%Qc) -> (l <= ab o t p /\ ab o t p <= h)%Qc.
Proof.
  intros (w & L & P & One & ->) Bd.
  assert (E : forall w v, length w = length v -> (qsum (fun z : Qc * pt => fst z * ab o t (snd z)) (combine w v) = (qsum (fun z => fst z * fst (snd z)) (combine w v) - qsum (fun x => x) w * fst o) * cos t + (qsum (fun z => fst z * snd (snd z)) (combine w v) - qsum (fun x => x) w * snd o) * sin t)%Qc).
  { clear. induction w as [|x w IH]; intros [|a v] L; try discriminate; [cbn; ring|]. cbn [combine]. rewrite !qsum_cons. cbn [fst snd]. rewrite IH by (injection L; auto). unfold ab. ring. }
  assert (Ep : ab o t (qsum (fun z => fst z * fst (snd z)) (combine w v), qsum (fun z => fst z * snd (snd z)) (combine w v))%Qc = qsum (fun z : Qc * pt => fst z * ab o t (snd z))%Qc (combine w v)) by (rewrite (E w v L), One; unfold ab; cbn [fst snd]; ring). rewrite Ep. clear E Ep.
  assert (G : forall w v, length w = length v -> (forall x, In x w -> 0 <= x)%Qc -> (forall a, In a v -> (l <= ab o t a /\ ab o t a <= h)%Qc) -> (l * qsum (fun x => x) w <= qsum (fun z : Qc * pt => fst z * ab o t (snd z)) (combine w v) /\ qsum (fun z : Qc * pt => fst z * ab o t (snd z)) (combine w v) <= h * qsum (fun x => x) w)%Qc).
  { clear. induction w as [|x w IH]; intros [|a v] L P B; try discriminate; [cbn; split; qclra|]. cbn [combine]. rewrite !qsum_cons. cbn [fst snd]. destruct (IH v) as (I1 & I2); [injection L; auto|intros y Y; apply P; right; exact Y|intros y Y; apply B; right; exact Y|]. destruct (B a (or_introl eq_refl)) as (B1 & B2). pose proof (P x (or_introl eq_refl)) as X. revert I1 I2 B1 B2 X. generalize (ab o t a) (qsum (fun z : Qc * pt => fst z * ab o t (snd z))%Qc (combine w v)) (qsum (fun x => x) w). clear. intros y s u I1 I2 B1 B2 X.
    assert (l * x <= x * y)%Qc by (clear I1 I2; qcnra). assert (x * y <= h * x)%Qc by (clear I1 I2 H; qcnra). rewrite !Qcmult_plus_distr_r. revert H H0 I1 I2. generalize (l * x)%Qc (x * y)%Qc (h * x)%Qc (l * u)%Qc (h * u)%Qc. clear. intros. split; qclra. }
  destruct (G w v L P Bd) as (A & B). rewrite One in A, B. replace (l * 1)%Qc with l in A by ring. replace (h * 1)%Qc with h in B by ring. auto.
Qed.
Lemma overlap_at v sl w o : overlap v (Some sl) w o = true <-> exists x, (fst (project v o (Some (tan sl))) <= x /\ x <= snd (project v o (Some (tan sl))) /\ fst (project w o (Some (tan sl))) <= x /\ x <= snd (project w o (Some (tan sl))))%Qc \/ overlap v (Some sl) w o = true.
Proof.
  split; [intros H; exists 0%Qc; auto|]. intros (x & [H|H]); [|exact H]. revert H. unfold POL_Model.overlap. generalize (project v o (Some (tan sl))) (project w o (Some (tan sl))). intros [a b] [c d]. cbn [fst snd]. intros (A & B & C & D). unfold lef.
  assert (G : forall x y, (x <= y)%Qc -> qc_lt y x = false) by (intros u w' H; apply qc_lt_false, H).
  destruct (Qclt_le_dec a c) as [L|L]; [rewrite (G c b), (G a c) by qclra; cbn; rewrite !orb_true_r; reflexivity|rewrite (G a d), (G c a) by qclra; reflexivity].
Qed.
Lemma forallb_points (f : pt -> pt -> bool) v : forallb (fun i => f (point v i) (point v (i + 1))) (range 0 (length v)) = forallb (fun s => f (fst s) (snd s)) (sides_of v).
Proof. rewrite <- sides_points. induction (range 0 (length v)) as [|i l IH]; [reflexivity|]. cbn [map forallb fst snd]. rewrite IH. reflexivity. Qed.
(** C160: if the convex hulls have a point in common and no side is vertical, PolyOverlap says so *)
Theorem poly_overlap_hulls_partial v w p : in_hull v p -> in_hull w p -> ~ vertical_side v -> ~ vertical_side w -> poly_overlap v w = true.
Proof.
  intros Hv Hw Nv Nw. unfold POL_Model.poly_overlap. rewrite (forallb_points (fun a b => overlap v (slope a b) w a) v), (forallb_points (fun a b => overlap w (slope a b) v a) w), andb_true_iff, !forallb_forall.
  assert (G : forall v w, in_hull v p -> in_hull w p -> ~ vertical_side v -> forall s, In s (sides_of v) -> overlap v (slope (fst s) (snd s)) w (fst s) = true).
  { clear. intros v w Hv Hw N s I. unfold slope. destruct (Qc_eq_bool (fst (snd s) - fst (fst s))%Qc 0%Qc) eqn:E.
    - apply eqb_qc in E. exfalso. apply N. exists s. split; [exact I|]. revert E. generalize (fst (snd s)) (fst (fst s)). clear. intros x y E. replace x with (x - y + y)%Qc by ring. rewrite E. ring.
    - apply overlap_at. set (t := tan _). exists (ab (fst s) t p). left. destruct (hull_ab v p (fst s) t _ _ Hv (project_some v (fst s) t)). destruct (hull_ab w p (fst s) t _ _ Hw (project_some w (fst s) t)). auto. }
  split; [apply (G v w Hv Hw Nv)|apply (G w v Hw Hv Nw)].
Qed.
(** with a vertical side the answer is always no *)
Theorem poly_overlap_vertical v w : vertical_side v \/ vertical_side w -> poly_overlap v w = false.
Proof.
  intros H. unfold POL_Model.poly_overlap. rewrite (forallb_points (fun a b => overlap v (slope a b) w a) v), (forallb_points (fun a b => overlap w (slope a b) v a) w).
  assert (G : forall v w, vertical_side v -> forallb (fun s => overlap v (slope (fst s) (snd s)) w (fst s)) (sides_of v) = false).
  { clear. intros v w (s & I & E). destruct (forallb _ _) eqn:F; [|reflexivity]. rewrite forallb_forall in F. specialize (F s I). unfold slope in F. replace (fst (snd s) - fst (fst s))%Qc with 0%Qc in F by (rewrite E; ring). unfold POL_Model.overlap in F. change (Qc_eq_bool 0%Qc 0%Qc) with true in F. cbv iota beta in F. rewrite !project_none in F. vm_compute in F. discriminate. }
  destruct H as [H|H]; rewrite (G _ _ H); [reflexivity|apply andb_false_r].
Qed.
Lemma square_hull : in_hull unit_square (q 0, q 0).
Proof. exists [q 1; q 0; q 0; q 0]. split; [reflexivity|]. split; [intros x [<-|[<-|[<-|[<-|[]]]]]; vm_compute; discriminate|]. split; [apply Qc_is_canon; vm_compute; reflexivity|]. f_equal; apply Qc_is_canon; vm_compute; reflexivity. Qed.
(** the unit square does not overlap with itself *)
Theorem poly_overlap_no_refuted : ~ (forall v w p, in_hull v p -> in_hull w p -> poly_overlap v w = true).
Proof.
  intros G. specialize (G unit_square unit_square _ square_hull square_hull). rewrite poly_overlap_vertical in G; [discriminate|]. left. exists ((q 1, q 0), (q 1, q 1)). split; [right; left; reflexivity|reflexivity].
Qed.
(** two parallel segments, one above the other *)
Theorem poly_overlap_yes_refuted : tan 0%Qc = 0%Qc -> cos 0%Qc = 1%Qc -> sin 0%Qc = 0%Qc -> ~ (forall v w, poly_overlap v w = true -> exists p, in_hull v p /\ in_hull w p).
Proof.
  intros Ht Hc Hs G. set (v := [(q 0, q 0); (q 1, q 0)]). set (w := [(q 0, q 5); (q 1, q 5)]). destruct (G v w) as (p & (w1 & L1 & P1 & O1 & E1) & (w2 & L2 & P2 & O2 & E2)).
  - assert (Sl : forall s, In s (sides_of v) \/ In s (sides_of w) -> slope (fst s) (snd s) = Some 0%Qc).
    { intros s [I|I]; cbn in I; repeat (destruct I as [<-|I]; [unfold slope; cbn [fst snd]; destruct (Qc_eq_bool _ _) eqn:Z; [vm_compute in Z; discriminate|f_equal; apply Qc_is_canon; vm_compute; reflexivity]|]); destruct I. }
    unfold POL_Model.poly_overlap. rewrite (forallb_points (fun a b => overlap v (slope a b) w a) v), (forallb_points (fun a b => overlap w (slope a b) v a) w), andb_true_iff, !forallb_forall.
    assert (K : forall v w, (exists a b, In a v /\ In b w /\ fst a = fst b) -> forall o, overlap v (Some 0%Qc) w o = true).
    { clear -Ht Hc Hs. intros v w (a & b & Ia & Ib & E) o. apply overlap_at. rewrite Ht. exists (ab o 0%Qc a). left. destruct (project_some v o 0%Qc a Ia). destruct (project_some w o 0%Qc b Ib). replace (ab o 0%Qc b) with (ab o 0%Qc a) in * by (unfold ab; rewrite Hc, Hs, E; ring). auto. }
    split; intros s I; (rewrite Sl by auto); apply K; [exists (q 0, q 0), (q 0, q 5)|exists (q 0, q 5), (q 0, q 0)]; (split; [left; reflexivity|]; split; [left; reflexivity|reflexivity]).
  - assert (Y1 : snd p = 0%Qc). { rewrite E1. cbn [snd]. destruct w1 as [|x [|y [|z l]]]; try discriminate. unfold v. cbn [combine]. rewrite !qsum_cons. cbn [qsum fold_right fst snd]. change (q 0) with 0%Qc. ring. }
    assert (Y2 : snd p = q 5). { rewrite E2. cbn [snd]. destruct w2 as [|x [|y [|z l]]]; try discriminate. unfold w. cbn [combine]. rewrite !qsum_cons in *. cbn [qsum fold_right fst snd] in *. replace (x * q 5 + (y * q 5 + 0))%Qc with ((x + (y + 0)) * q 5)%Qc by ring. rewrite O2. ring. }
    rewrite Y1 in Y2. apply (f_equal this) in Y2. vm_compute in Y2. discriminate.
Qed.
End T.
(** PolyOverlapSegments does not depend on which polygon asks *)
Lemma existsb_swap {A B} (f : A -> B -> bool) l m : existsb (fun x => existsb (f x) m) l = existsb (fun y => existsb (fun x => f x y) l) m.
Proof.
  destruct (existsb (fun y => existsb (fun x => f x y) l) m) eqn:E.
  - apply existsb_exists in E as (y & Iy & E). apply existsb_exists in E as (x & Ix & E). apply existsb_exists. exists x. split; [exact Ix|]. apply existsb_exists. eauto.
  - destruct (existsb _ l) eqn:F; [|reflexivity]. apply existsb_exists in F as (x & Ix & F). apply existsb_exists in F as (y & Iy & F). rewrite <- E. symmetry. apply existsb_exists. exists y. split; [exact Iy|]. apply existsb_exists. eauto.
Qed.
Lemma existsb_ext' {A} (f g : A -> bool) l : (forall x, f x = g x) -> existsb f l = existsb g l.
Proof. intros E. induction l as [|x l IH]; [reflexivity|]. cbn. rewrite E, IH. reflexivity. Qed.
Theorem segments_sym v w : poly_overlap_segments v w = poly_overlap_segments w v.
Proof.
  unfold poly_overlap_segments. rewrite (orb_comm (contained w v)). destruct (contained v w || contained w v); [reflexivity|]. rewrite existsb_swap. apply existsb_ext'. intros j. apply existsb_ext'. intros i. apply seg_overlap_sym.
Qed.
(** a yes without containment comes from two sides that have a point in common *)
Theorem segments_sound v w : poly_overlap_segments v w = true -> contained v w = true \/ contained w v = true \/ exists s t, In s (sides_of v) /\ In t (sides_of w) /\ meet (fst s) (snd s) (fst t) (snd t).
Proof.
  unfold poly_overlap_segments. destruct (contained v w) eqn:A; [auto|]. destruct (contained w v) eqn:B; [auto|]. cbn [orb]. intros H. right. right. apply existsb_exists in H as (i & Ii & H). apply existsb_exists in H as (j & Ij & H). exists (point v i, point v (i + 1)), (point w j, point w (j + 1)).
  split; [rewrite <- sides_points; apply (in_map (fun i => (point v i, point v (i + 1)))), Ii|]. split; [rewrite <- sides_points; apply (in_map (fun i => (point w i, point w (i + 1)))), Ij|]. apply seg_overlap_sound_partial, H.
Qed.
(** * UntanglePolygon *)
Definition calm (v : poly) : Prop := forall i j, i + 2 <= j -> j + 1 < length v -> pt_eqb (nth i v origin0) (nth (j + 1) v origin0) = true \/ seg_overlap (nth i v origin0) (nth (i + 1) v origin0) (nth j v origin0) (nth (j + 1) v origin0) = false.
Lemma swap_perm v i j : i < length v -> j < length v -> i <> j -> Permutation (swap v i j) v.
Proof.
  intros Li Lj N. assert (G : forall i j, i < j -> i < length v -> j < length v -> forall x y, nth i v origin0 = x -> nth j v origin0 = y -> Permutation (upd (upd v i y) j x) v /\ Permutation (upd (upd v j x) i y) v).
  { clear. intros i j L Li Lj x y Ex Ey. assert (D : exists a b c, v = a ++ x :: b ++ y :: c /\ length a = i /\ length a + S (length b) = j).
    { apply (nth_split v origin0) in Li as (a & r & E & La). rewrite Ex in E. assert (Lr : j - S i < length r) by (rewrite E, app_length in Lj; cbn in Lj; lia). apply (nth_split r origin0) in Lr as (b & c & Er & Lb). assert (Ey' : nth (j - S i) r origin0 = y) by (rewrite E in Ey; rewrite app_nth2 in Ey by lia; replace (j - length a) with (S (j - S i)) in Ey by lia; exact Ey). rewrite Ey' in Er. exists a, b, c. split; [congruence|]. lia. }
    destruct D as (a & b & c & -> & La & Lb). subst i j.
    assert (U : forall (a : poly) x z c, upd (a ++ x :: c) (length a) z = a ++ z :: c) by (clear; induction a as [|h a IH]; intros; [reflexivity|]; cbn; f_equal; apply IH).
    assert (U2 : forall z, upd (a ++ z :: b ++ y :: c) (length a + S (length b)) x = a ++ z :: b ++ x :: c) by (intros z; rewrite app_comm_cons, app_assoc; replace (length a + S (length b)) with (length (a ++ z :: b)) by (rewrite app_length; reflexivity); rewrite U, <- app_assoc; reflexivity).
    assert (P : Permutation (a ++ y :: b ++ x :: c) (a ++ x :: b ++ y :: c)) by (apply Permutation_app_head; rewrite (app_comm_cons b _ y), (app_comm_cons b _ x); rewrite <- Permutation_middle, <- Permutation_middle; cbn; apply perm_swap).
    split; [rewrite U, U2; exact P|]. rewrite U2, U. exact P. }
  unfold swap. destruct (Nat.lt_trichotomy i j) as [L|[L|L]]; [|lia|].
  - apply (G i j L Li Lj _ _ eq_refl eq_refl).
  - apply (G j i L Lj Li _ _ eq_refl eq_refl).
Qed.
Lemma turn_None rec a b i l : fold_left (turn rec a b i) l None = None.
Proof. induction l as [|j l IH]; [reflexivity|exact IH]. Qed.
Section U.
Variable rec : poly -> option poly.
Hypothesis Hr : forall v w, rec v = Some w -> Permutation w v /\ calm w.
Lemma inner (v0 : poly) a b i : forall l s w, (forall j, In j l -> i + 1 < j < length v0 - 1) -> length s = length v0 -> fold_left (turn rec a b i) l (Some s) = Some w -> Permutation w s /\ (calm s -> calm w) /\ (calm w \/ w = s /\ (a = nth i s origin0 -> b = nth (i + 1) s origin0 -> forall j, In j l -> pt_eqb (nth i s origin0) (nth (j + 1) s origin0) = true \/ seg_overlap (nth i s origin0) (nth (i + 1) s origin0) (nth j s origin0) (nth (j + 1) s origin0) = false)).
Proof.
  induction l as [|j l IH]; intros s w B L E; cbn [fold_left] in E.
  - assert (w = s) by congruence. subst. split; [reflexivity|]. split; [auto|]. right. split; [reflexivity|]. intros _ _ j [].
  - assert (Bj : i + 1 < j < length v0 - 1) by (apply B; left; reflexivity). assert (Bl : forall j, In j l -> i + 1 < j < length v0 - 1) by (intros k K; apply B; right; exact K). unfold turn at 2 in E. destruct (pt_eqb _ _) eqn:Q.
    + destruct (IH s w Bl L E) as (P & C & D). split; [exact P|]. split; [exact C|]. destruct D as [D|(D & F)]; [auto|]. right. split; [exact D|]. intros Ea Eb k [<-|K]; [auto|apply F; auto].
    + destruct (seg_overlap a b _ _) eqn:X.
      * destruct (rec (swap s (i + 1) j)) as [s'|] eqn:R; [|rewrite turn_None in E; discriminate]. apply Hr in R as (P & C). assert (P' : Permutation s' s) by (rewrite P; apply swap_perm; lia). destruct (IH s' w Bl ltac:(rewrite (Permutation_length P'); exact L) E) as (P2 & C2 & _). split; [rewrite P2; exact P'|]. split; [intros _; apply C2, C|]. left. apply C2, C.
      * destruct (IH s w Bl L E) as (P & C & D). split; [exact P|]. split; [exact C|]. destruct D as [D|(D & F)]; [auto|]. right. split; [exact D|]. intros Ea Eb k [<-|K]; [right; congruence|apply F; auto].
Qed.
Lemma sides_None l : fold_left (fun s i => match s with None => None | Some v => fold_left (turn rec (nth i v origin0) (nth (i + 1) v origin0) i) (range (i + 2) (length v - 1)) (Some v) end) l None = None.
Proof. induction l as [|j l IH]; [reflexivity|exact IH]. Qed.
Lemma sides_ok v w : sides rec v = Some w -> Permutation w v /\ calm w.
Proof.
  unfold sides. assert (G : forall l s w, length s = length v -> (forall i, In i l -> i < length v - 1) -> fold_left (fun s i => match s with None => None | Some v => fold_left (turn rec (nth i v origin0) (nth (i + 1) v origin0) i) (range (i + 2) (length v - 1)) (Some v) end) l (Some s) = Some w ->
    Permutation w s /\ (calm s -> calm w) /\ (calm w \/ w = s /\ forall i j, In i l -> i + 2 <= j -> j + 1 < length s -> pt_eqb (nth i s origin0) (nth (j + 1) s origin0) = true \/ seg_overlap (nth i s origin0) (nth (i + 1) s origin0) (nth j s origin0) (nth (j + 1) s origin0) = false)).
  { induction l as [|i l IH]; intros s w' L B E; cbn [fold_left] in E.
    - assert (w' = s) by congruence. subst. split; [reflexivity|]. split; [auto|]. right. split; [reflexivity|]. intros i j [].
    - destruct (fold_left (turn rec _ _ i) _ (Some s)) as [s'|] eqn:F; [|rewrite sides_None in E; discriminate]. assert (Bd : forall j, In j (range (i + 2) (length s - 1)) -> i + 1 < j < length s - 1) by (intros j J; apply in_range in J; lia). destruct (inner s _ _ i _ s s' Bd eq_refl F) as (P & C & D).
      destruct (IH s' w' ltac:(rewrite (Permutation_length P); exact L) ltac:(intros k K; apply B; right; exact K) E) as (P2 & C2 & D2). split; [rewrite P2; exact P|]. split; [auto|]. destruct D as [D|(D & Fj)]; [left; apply C2, D|]. subst s'. destruct D2 as [D2|(-> & D2)]; [auto|]. right. split; [reflexivity|]. intros k j [<-|K] Lk Lj; [apply Fj; auto; apply in_range; lia|apply D2; assumption]. }
  intros E. assert (Bd : forall i, In i (range 0 (length v - 1)) -> i < length v - 1) by (intros i I; apply in_range in I; lia). destruct (G _ v w eq_refl Bd E) as (P & _ & D). split; [exact P|]. destruct D as [D|(-> & D)]; [exact D|]. intros i j Li Lj. apply D; [apply in_range; lia|exact Li|exact Lj].
Qed.
End U.
Lemma untangle_ok n : forall v w, untangle' n v = Some w -> Permutation w v /\ calm w.
Proof. induction n as [|n IH]; intros v w E; [discriminate|]. apply (sides_ok _ IH v w E). Qed.
(** C163: when UntanglePolygon ends, the vertices are the same, and no two sides of the chain that do not follow each other cross (the closing side is not looked at; sides that would form a loop back to the same point are left out) *)
Theorem untangle_partial v w : v <> [] -> returns (fun n => untangle n v) (Ok w) -> Permutation w v /\
  forall i j s t, i + 1 < j -> chain w i s -> chain w j t -> fst s <> snd t -> apart (fst s) (snd s) (fst t) (snd t) -> ~ meet (fst s) (snd s) (fst t) (snd t).
Proof.
  intros N (n & E). specialize (E n (le_n _)). cbv beta in E. unfold untangle in E. destruct v as [|a r] eqn:Ev; [congruence|]. rewrite <- Ev in *. destruct (untangle' n v) as [u|] eqn:U; [|discriminate]. cbn in E. assert (u = w) by congruence. subst u. destruct (untangle_ok n v w U) as (P & C). split; [exact P|].
  intros i j s t L (S1 & S2) (T1 & T2) Nst Ap Me. apply (proj2 (seg_overlap_exact_partial _ _ _ _ Ap)) in Me. apply not_false_iff_true in Me. apply Me. clear Me Ap. assert (Lj : S j < length w) by (apply nth_error_Some; congruence). destruct (C i j ltac:(lia) ltac:(lia)) as [X|X].
  - exfalso. apply Nst. unfold pt_eqb in X. apply andb_true_iff in X as [X Y]. apply eqb_qc in X, Y. replace (j + 1) with (S j) in * by lia. rewrite (nth_error_nth _ _ _ S1), (nth_error_nth _ _ _ T2) in X, Y. rewrite (surjective_pairing (fst s)), (surjective_pairing (snd t)). congruence.
  - replace (j + 1) with (S j) in X by lia. replace (i + 1) with (S i) in X by lia. rewrite (nth_error_nth _ _ _ S1), (nth_error_nth _ _ _ S2), (nth_error_nth _ _ _ T1), (nth_error_nth _ _ _ T2) in X. exact X.
Qed.
(** the first crossing that is found *)
Definition crossing (v : poly) (i j : nat) : bool := negb (pt_eqb (nth i v origin0) (nth (j + 1) v origin0)) && seg_overlap (nth i v origin0) (nth (i + 1) v origin0) (nth j v origin0) (nth (j + 1) v origin0).
Lemma inner_find rec v i : forall l, match find (crossing v i) l with
  | None => fold_left (turn rec (nth i v origin0) (nth (i + 1) v origin0) i) l (Some v) = Some v
  | Some j => rec (swap v (i + 1) j) = None -> fold_left (turn rec (nth i v origin0) (nth (i + 1) v origin0) i) l (Some v) = None end.
Proof.
  induction l as [|j l IH]; [reflexivity|]. cbn [find fold_left]. unfold turn at 2 4. unfold crossing at 1. destruct (pt_eqb (nth i v origin0) (nth (j + 1) v origin0)); cbn [negb andb]; [exact IH|]. destruct (seg_overlap _ _ _ _); [|exact IH]. intros ->. apply turn_None.
Qed.
Fixpoint first_crossing (v : poly) (l : list nat) : option (nat * nat) :=
  match l with [] => None | i :: l => match find (crossing v i) (range (i + 2) (length v - 1)) with Some j => Some (i, j) | None => first_crossing v l end end.
Lemma sides_find rec v i j : first_crossing v (range 0 (length v - 1)) = Some (i, j) -> rec (swap v (i + 1) j) = None -> sides rec v = None.
Proof.
  unfold sides. generalize (range 0 (length v - 1)) as l. induction l as [|k l IH]; intros E R; [discriminate|]. cbn [first_crossing] in E. cbn [fold_left]. pose proof (inner_find rec v k (range (k + 2) (length v - 1))) as F. destruct (find _ _) as [j'|]; [|rewrite F; apply IH; assumption]. assert (k = i /\ j' = j) as (-> & ->) by (split; congruence). rewrite (F R). apply sides_None.
Qed.
(** nine distinct vertices for which the recursion never ends *)
Definition z2 (l : list (Z * Z)) : poly := map (fun '(x, y) => (q x, q y)) l.
Definition knot : poly := z2 [(2, 2); (4, 1); (0, 0); (2, 5); (3, 4); (4, 2); (4, 0); (2, 0); (2, 1)]%Z.
Definition after (v : poly) : poly := match first_crossing v (range 0 (length v - 1)) with Some (i, j) => swap v (i + 1) j | None => v end.
Definition crosses (v : poly) : bool := match first_crossing v (range 0 (length v - 1)) with Some _ => true | None => false end.
Lemma after_none n v : crosses v = true -> untangle' n (after v) = None -> untangle' (S n) v = None.
Proof. unfold crosses, after. intros C E. destruct (first_crossing v (range 0 (length v - 1))) as [(i, j)|] eqn:F; [|discriminate]. apply (sides_find _ v i j F E). Qed.
Definition poly_eqb (v w : poly) : bool := (length v =? length w) && forallb (fun '(a, b) => pt_eqb a b) (combine v w).
Lemma poly_eqb_eq v w : poly_eqb v w = true -> v = w.
Proof.
  unfold poly_eqb. rewrite andb_true_iff, Nat.eqb_eq. revert w. induction v as [|a v IH]; intros [|b w] (L & F); try discriminate; [reflexivity|]. cbn [combine forallb] in F. apply andb_true_iff in F as [A F]. unfold pt_eqb in A. apply andb_true_iff in A as [A B]. apply eqb_qc in A, B. f_equal; [rewrite (surjective_pairing a), (surjective_pairing b); congruence|apply IH; split; [injection L; auto|exact F]].
Qed.
Fixpoint iter (k : nat) (v : poly) : poly := match k with 0 => v | S k => after (iter k v) end.
Theorem untangle_refuted : NoDup knot /\ hangs (fun n => untangle n knot).
Proof.
  split.
  - assert (G : forall l : list pt, (fix nd (l : list pt) := match l with [] => true | a :: r => negb (existsb (pt_eqb a) r) && nd r end) l = true -> NoDup l).
    { induction l as [|a r IH]; intros H; constructor; apply andb_true_iff in H as [H1 H2]; [|apply IH, H2]. intros I. apply negb_true_iff in H1. assert (existsb (pt_eqb a) r = true); [|congruence]. apply existsb_exists. exists a. split; [exact I|]. unfold pt_eqb. rewrite andb_true_iff. split; apply eqb_qc; reflexivity. }
    apply G. vm_compute. reflexivity.
  - assert (E8 : iter 8 knot = knot) by (apply poly_eqb_eq; vm_compute; reflexivity). assert (C : forall k, k < 8 -> crosses (iter k knot) = true) by (intros k K; do 8 (destruct k as [|k]; [vm_compute; reflexivity|]); lia).
    assert (G : forall n k, k < 8 -> untangle' n (iter k knot) = None).
    { induction n as [|n IH]; intros k K; [reflexivity|]. apply after_none; [apply C, K|]. change (after (iter k knot)) with (iter (S k) knot). destruct (Nat.eq_dec (S k) 8) as [E|E]; [rewrite E, E8; apply (IH 0); lia|apply IH; lia]. }
    intros n. unfold untangle. change (match knot with [] => Some (Throw RangeExn) | _ => option_map Ok (untangle' n knot) end) with (option_map (@Ok poly) (untangle' n (iter 0 knot))). rewrite G by lia. reflexivity.
Qed.
(** without vertices it throws *)
Theorem untangle_empty : returns (fun n => untangle n []) (Throw RangeExn).
Proof. exists 0. reflexivity. Qed.
