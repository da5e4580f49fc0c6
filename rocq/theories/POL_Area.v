(** Polygon2D: area, perimeter, crossing of segments *)
From Coq Require Import QArith Qcanon Permutation Lqa.
From Verif Require Import Base QcUtil Solver_Model Solver_Proofs POL_Model POL_Spec.
Local Open Scope nat_scope.
Notation O0 := origin0.
(** * the sides *)
Lemma sides_length v : length (sides_of v) = length v.
Proof. destruct v as [|a r]; [reflexivity|]. unfold sides_of. rewrite combine_length, app_length. cbn [length]. lia. Qed.
Definition nxt (v : poly) (i : nat) : nat := if i =? length v - 1 then 0 else i + 1.
Lemma nth_side v i : i < length v -> nth i (sides_of v) (O0, O0) = (nth i v O0, nth (nxt v i) v O0).
Proof.
  destruct v as [|a r]; [cbn; lia|]. intros L. unfold sides_of. rewrite combine_nth by (rewrite app_length; cbn [length]; lia). f_equal. unfold nxt. cbn [length] in *. destruct (i =? S (length r) - 1) eqn:E.
  - apply Nat.eqb_eq in E. rewrite app_nth2 by lia. replace (i - length r) with 0 by lia. reflexivity.
  - apply Nat.eqb_neq in E. rewrite app_nth1 by lia. replace (i + 1) with (S i) by lia. reflexivity.
Qed.
Lemma sides_map v : map (fun i => (nth i v O0, nth (nxt v i) v O0)) (range 0 (length v)) = sides_of v.
Proof.
  apply (nth_ext_length (O0, O0)); [rewrite map_length, sides_length; unfold range; rewrite seq_length; lia|]. intros i L. rewrite map_length in L. unfold range in *. rewrite seq_length in L. rewrite Nat.sub_0_r in *. rewrite nth_map_seq by exact L. symmetry. apply nth_side, L.
Qed.
Lemma point_nth v i : i < length v -> point v i = nth i v O0 /\ point v (i + 1) = nth (nxt v i) v O0.
Proof.
  intros L. unfold point, nxt. destruct (i <? length v) eqn:E; [|apply Nat.ltb_ge in E; lia]. split; [reflexivity|]. destruct (i + 1 <? length v) eqn:E1; destruct (i =? length v - 1) eqn:E2; try reflexivity; [apply Nat.ltb_lt in E1; apply Nat.eqb_eq in E2; lia|apply Nat.ltb_ge in E1; apply Nat.eqb_neq in E2; lia].
Qed.
Lemma sides_points v : map (fun i => (point v i, point v (i + 1))) (range 0 (length v)) = sides_of v.
Proof. rewrite <- sides_map. apply map_ext_in. intros i I. apply in_range in I. destruct (point_nth v i) as (A & B); [lia|]. rewrite A, B. reflexivity. Qed.
Lemma fold_sum {A} (f : A -> Qc) l : forall s, fold_left (fun s x => s + f x)%Qc l s = (s + qsum f l)%Qc.
Proof. induction l as [|x l IH]; intros s; cbn [fold_left qsum fold_right]; [ring|]. rewrite IH. unfold qsum. ring. Qed.
Lemma fold_ext_in {A B} (f g : A -> B -> A) l : (forall s x, In x l -> f s x = g s x) -> forall s, fold_left f l s = fold_left g l s.
Proof. induction l as [|x l IH]; intros E s; [reflexivity|]. cbn [fold_left]. rewrite E by (left; reflexivity). apply IH. intros; apply E; right; assumption. Qed.
Lemma loop_sum (f : pt -> pt -> Qc) v :
  fold_left (fun s i => let s1 := if i <? length v - 1 then (s + f (nth i v O0) (nth (i + 1) v O0))%Qc else s in if i =? length v - 1 then (s1 + f (nth i v O0) (nth 0 v O0))%Qc else s1) (range 0 (length v)) 0%Qc = qsum (fun s => f (fst s) (snd s)) (sides_of v).
Proof.
  rewrite <- sides_map, qsum_map. cbn [fst snd]. rewrite (fold_ext_in _ (fun s i => s + f (nth i v O0) (nth (nxt v i) v O0))%Qc).
  - rewrite fold_sum. ring.
  - intros s i I. apply in_range in I. cbv zeta. unfold nxt. destruct (i <? length v - 1) eqn:A, (i =? length v - 1) eqn:B; try reflexivity; [apply Nat.ltb_lt in A; apply Nat.eqb_eq in B; lia|apply Nat.ltb_ge in A; apply Nat.eqb_neq in B; lia].
Qed.
Lemma qsum_fst (g : pt -> Qc) : forall a b : list pt, length a = length b -> qsum (fun s => g (fst s)) (combine a b) = qsum g a.
Proof. induction a as [|x a IH]; intros [|y b] L; try discriminate; [reflexivity|]. cbn [combine qsum fold_right fst]. f_equal. apply IH. injection L; auto. Qed.
Lemma qsum_snd (g : pt -> Qc) : forall a b : list pt, length a = length b -> qsum (fun s => g (snd s)) (combine a b) = qsum g b.
Proof. induction a as [|x a IH]; intros [|y b] L; try discriminate; [reflexivity|]. cbn [combine qsum fold_right snd]. f_equal. apply IH. injection L; auto. Qed.
(** around a polygon differences cancel *)
Lemma telescope (g : pt -> Qc) v : qsum (fun s => g (fst s) - g (snd s))%Qc (sides_of v) = 0%Qc.
Proof.
  destruct v as [|a r]; [reflexivity|]. unfold sides_of. assert (L : length (a :: r) = length (r ++ [a])) by (rewrite app_length; cbn; lia). rewrite (qsum_minus (fun s => g (fst s)) (fun s => g (snd s))), qsum_fst, qsum_snd by exact L. rewrite (qsum_perm g (a :: r) (r ++ [a])) by apply Permutation_cons_append. ring.
Qed.
(** * Area *)
Lemma area_shoelace p v : area_sum v = signed_area p v.
Proof.
  unfold area_sum. rewrite (loop_sum (fun a b => (snd a + snd b) * (fst a - fst b) * Q2Qc (1 # 2))%Qc). unfold signed_area. rewrite (Qcmult_comm _ (Q2Qc (1 # 2))), <- qsum_scal.
  set (g := fun a : pt => (Q2Qc (1 # 2) * (fst a * snd a + (fst p * snd a - snd p * fst a) + (fst p * snd a - snd p * fst a) * 0))%Qc).
  assert (E : qsum (fun s => (snd (fst s) + snd (snd s)) * (fst (fst s) - fst (snd s)) * Q2Qc (1 # 2))%Qc (sides_of v) = (qsum (fun s => Q2Qc (1 # 2) * turn_of p (fst s) (snd s))%Qc (sides_of v) + qsum (fun s => (Q2Qc (1 # 2) * (fst (fst s) * snd (fst s) - (fst p * snd (fst s) - snd p * fst (fst s)))) - (Q2Qc (1 # 2) * (fst (snd s) * snd (snd s) - (fst p * snd (snd s) - snd p * fst (snd s)))))%Qc (sides_of v))%Qc).
  { rewrite <- (qsum_plus (fun s => Q2Qc (1 # 2) * turn_of p (fst s) (snd s))%Qc). apply qsum_ext. intros [a b] _. unfold turn_of. cbn [fst snd]. ring. }
  rewrite E, (telescope (fun a => Q2Qc (1 # 2) * (fst a * snd a - (fst p * snd a - snd p * fst a)))%Qc). ring.
Qed.
(** C158: Area is the absolute value of the signed sum of the triangles over the sides, from whatever point they are drawn *)
Theorem area_exact p v : (0 <= area v)%Qc /\ (area v = signed_area p v \/ area v = - signed_area p v)%Qc.
Proof.
  rewrite <- (area_shoelace p v). unfold area. destruct (qc_lt (area_sum v) 0) eqn:E; [apply qc_lt_spec in E|apply qc_lt_false in E]; split; auto. generalize (area_sum v) E. clear. intros; qclra.
Qed.
Lemma area_by (v w : poly) : (signed_area O0 v = signed_area O0 w \/ signed_area O0 v = - signed_area O0 w)%Qc -> area v = area w.
Proof.
  intros H. destruct (area_exact O0 v) as (A & B). destruct (area_exact O0 w) as (C & D). revert H A B C D. generalize (area v) (area w) (signed_area O0 v) (signed_area O0 w). clear. intros x y s t H A B C D. destruct H as [H|H], B as [B|B], D as [D|D]; subst; qclra.
Qed.
(** the vertex the list starts with and the sense of rotation do not matter *)
Theorem area_rotate a v : area (v ++ [a]) = area (a :: v).
Proof.
  apply area_by. left. unfold signed_area. f_equal. assert (P : Permutation (sides_of (v ++ [a])) (sides_of (a :: v))); [|apply qsum_perm, P]. destruct v as [|b r]; [reflexivity|]. unfold sides_of. cbn [app].
  assert (C : forall (x y : list pt) (u w : pt), length x = length y -> combine (x ++ [u]) (y ++ [w]) = combine x y ++ [(u, w)]) by (clear; induction x as [|? x IH]; intros [|? y] u w L; try discriminate; [reflexivity|]; cbn [app combine]; f_equal; apply IH; injection L; auto).
  replace ((r ++ [a]) ++ [b]) with (r ++ a :: [b]) by (rewrite <- app_assoc; reflexivity).
  assert (E : combine (b :: r ++ [a]) (r ++ a :: [b]) = combine (b :: r) (r ++ [a]) ++ [(a, b)]) by (change (b :: r ++ [a]) with ((b :: r) ++ [a]); change (r ++ a :: [b]) with (r ++ [a] ++ [b]); rewrite app_assoc; apply C; rewrite app_length; cbn; lia).
  rewrite E. cbn [combine]. apply Permutation_sym. apply Permutation_cons_append.
Qed.
Lemma sides_cons a r : sides_of (a :: r) = combine (a :: r) (r ++ [a]). Proof. reflexivity. Qed.
Definition chain_sum (f : pt -> pt -> Qc) : list pt -> Qc := fix go l := match l with a :: ((b :: _) as r) => (f a b + go r)%Qc | _ => 0%Qc end.
Lemma chain_cycle f a : forall r x, qsum (fun s => f (fst s) (snd s)) (combine (x :: r) (r ++ [a])) = chain_sum f (x :: r ++ [a]).
Proof. induction r as [|y r IH]; intros x; [cbn; ring|]. cbn [app combine qsum fold_right fst snd]. cbn [chain_sum]. f_equal. apply IH. Qed.
Lemma chain_snoc f x y : forall l, chain_sum f ((l ++ [x]) ++ [y]) = (chain_sum f (l ++ [x]) + f x y)%Qc.
Proof. induction l as [|a l IH]; [cbn; ring|]. cbn [app]. destruct (l ++ [x]) as [|b m] eqn:E; [destruct l; discriminate|]. cbn [app] in IH |- *. cbn [chain_sum] in IH |- *. rewrite IH. ring. Qed.
Lemma chain_rev f (An : forall a b, f b a = (- f a b)%Qc) : forall l, chain_sum f (rev l) = (- chain_sum f l)%Qc.
Proof.
  induction l as [|a l IH]; [cbn; ring|]. cbn [rev]. destruct l as [|b l]; [cbn; ring|]. cbn [rev] in *. rewrite chain_snoc, IH, An. cbn [chain_sum]. ring.
Qed.
Theorem area_reverse v : area (rev v) = area v.
Proof.
  destruct v as [|a r]; [reflexivity|]. rewrite <- (area_rotate a (r)). assert (R : rev (a :: r) = rev r ++ [a]) by reflexivity. rewrite R, area_rotate, area_rotate. apply area_by. right. unfold signed_area. rewrite !sides_cons, !chain_cycle.
  replace (a :: rev r ++ [a]) with (rev (a :: r ++ [a])) by (cbn; rewrite rev_app_distr; reflexivity). rewrite (chain_rev (turn_of O0)); [ring|]. intros x y. unfold turn_of. ring.
Qed.
(** moving the polygon does not change it *)
Theorem area_translate d v : area (map (fun a => (fst a + fst d, snd a + snd d)%Qc) v) = area v.
Proof.
  destruct (area_exact d (map (fun a => (fst a + fst d, snd a + snd d)%Qc) v)) as (A & B). destruct (area_exact O0 v) as (C & D).
  assert (E : signed_area d (map (fun a => (fst a + fst d, snd a + snd d)%Qc) v) = signed_area O0 v).
  { unfold signed_area. f_equal. destruct v as [|a r]; [reflexivity|]. cbn [map]. rewrite !sides_cons. change [(fst a + fst d, snd a + snd d)%Qc] with (map (fun a => (fst a + fst d, snd a + snd d)%Qc) [a]). change ((fst a + fst d, snd a + snd d)%Qc :: map (fun a => (fst a + fst d, snd a + snd d)%Qc) r) with (map (fun a => (fst a + fst d, snd a + snd d)%Qc) (a :: r)). rewrite <- map_app.
    generalize (a :: r) (r ++ [a]). induction l as [|x l IH]; intros [|y m]; try reflexivity. cbn [map combine qsum fold_right]. f_equal; [unfold turn_of; cbn [fst snd origin0]; ring|apply IH]. }
  rewrite E in B. revert A B C D. generalize (area (map (fun a => (fst a + fst d, snd a + snd d)%Qc) v)) (area v) (signed_area O0 v). clear. intros x y s A B C D. destruct B as [B|B], D as [D|D]; subst; qclra.
Qed.
(** cutting along the segment between two vertices: the signed parts add up *)
Theorem area_cut p a b u w : signed_area p (a :: u ++ b :: w) = (signed_area p (a :: u ++ [b]) + signed_area p (b :: w ++ [a]))%Qc.
Proof.
  unfold signed_area. rewrite !sides_cons, !chain_cycle. assert (G : forall f m x, chain_sum f ((m ++ [x]) ++ w ++ [a]) = (chain_sum f (m ++ [x]) + chain_sum f (x :: w ++ [a]))%Qc).
  { clear. intros f m x. induction m as [|y m IH]; [cbn [app]; destruct (w ++ [a]) eqn:E; [destruct w; discriminate|]; cbn [chain_sum]; ring|]. cbn [app]. destruct (m ++ [x]) as [|z k] eqn:E; [destruct m; discriminate|]. cbn [app] in IH |- *. cbn [chain_sum] in IH |- *. rewrite IH. ring. }
  replace (a :: (u ++ b :: w) ++ [a]) with (((a :: u) ++ [b]) ++ w ++ [a]) by (cbn; rewrite <- !app_assoc; reflexivity). rewrite G.
  change (a :: (u ++ [b]) ++ [a]) with (((a :: u) ++ [b]) ++ [a]). change (b :: (w ++ [a]) ++ [b]) with (((b :: w) ++ [a]) ++ [b]). rewrite (chain_snoc (turn_of p) b a (a :: u)), (chain_snoc (turn_of p) a b (b :: w)). cbn [app].
  assert (An : turn_of p b a = (- turn_of p a b)%Qc) by (unfold turn_of; ring). rewrite An. ring.
Qed.
(** * Perimeter *)
Lemma perimeter_sum_sides v : perimeter_sum v = qsum len2 (sides_of v).
Proof. unfold perimeter_sum. rewrite (loop_sum side2). apply qsum_ext. intros [a b] _. unfold side2, len2. cbn [fst snd]. ring. Qed.
(** what the claim would be *)
Definition is_sqrt (sqrt : Qc -> Qc) : Prop := forall x, (0 <= x)%Qc -> sqrt (x * x)%Qc = x.
Definition is_perimeter (v : poly) (x : Qc) : Prop := exists l : list Qc, length l = length (sides_of v) /\ (forall s r, In (s, r) (combine l (sides_of v)) -> (0 <= s)%Qc /\ (s * s)%Qc = len2 r) /\ x = qsum (fun s => s) l.
Definition q (n : Z) : Qc := Q2Qc (n # 1).
Definition unit_square : poly := [(q 0, q 0); (q 1, q 0); (q 1, q 1); (q 0, q 1)].
Lemma square_perimeter : is_perimeter unit_square (q 4).
Proof. exists [q 1; q 1; q 1; q 1]. split; [reflexivity|]. split; [|apply Qc_is_canon; vm_compute; reflexivity]. cbn. intros s r I. repeat (destruct I as [I|I]; [injection I as <- <-; split; [vm_compute; discriminate|apply Qc_is_canon; vm_compute; reflexivity]|]). destruct I. Qed.
(** C159: the perimeter of the unit square comes out as 2 *)
Theorem perimeter_refuted sqrt : is_sqrt sqrt -> perimeter sqrt unit_square = q 2 /\ ~ (forall v x, is_perimeter v x -> perimeter sqrt v = x).
Proof.
  intros Sq. assert (E : perimeter sqrt unit_square = q 2).
  { unfold perimeter. replace (perimeter_sum unit_square) with (q 2 * q 2)%Qc by (apply Qc_is_canon; vm_compute; reflexivity). apply Sq. vm_compute. discriminate. }
  split; [exact E|]. intros G. specialize (G unit_square (q 4) square_perimeter). rewrite E in G. apply (f_equal this) in G. vm_compute in G. discriminate.
Qed.
(** what holds: it is the root of the sum of the squares of the sides, so at most the perimeter, and zero only if all vertices coincide *)
Lemma qsum_sq (l : list Qc) : (forall x, In x l -> 0 <= x)%Qc -> (0 <= qsum (fun x => x) l /\ qsum (fun x => x * x) l <= qsum (fun x => x) l * qsum (fun x => x) l)%Qc.
Proof.
  induction l as [|x l IH]; intros P; [cbn [qsum fold_right]; split; qclra|]. rewrite !qsum_cons. destruct IH as (A & B); [intros y Y; apply P; right; exact Y|]. pose proof (P x (or_introl eq_refl)) as C. revert A B C. generalize (qsum (fun x => x) l) (qsum (fun x => x * x)%Qc l). clear. intros s t A B C. split; [qclra|].
  assert (0 <= x * s)%Qc by (clear B; qcnra). replace ((x + s) * (x + s))%Qc with (x * x + s * s + (x * s + x * s))%Qc by ring. revert H B. generalize (x * s)%Qc (x * x)%Qc (s * s)%Qc. intros; qclra.
Qed.
Theorem perimeter_partial sqrt v x : is_sqrt sqrt -> is_perimeter v x -> forall r, (0 <= r)%Qc -> (r * r)%Qc = qsum len2 (sides_of v) -> perimeter sqrt v = r /\ (r <= x)%Qc /\ (r = 0%Qc -> x = 0%Qc).
Proof.
  intros Sq (l & L & Hl & ->) r R E. assert (Ep : perimeter sqrt v = r) by (unfold perimeter; rewrite perimeter_sum_sides, <- E; apply Sq, R). split; [exact Ep|].
  assert (P : forall s, In s l -> (0 <= s)%Qc) by (intros s I; apply (In_nth _ _ 0%Qc) in I as (k & Hk & <-); apply (Hl _ (nth k (sides_of v) (O0, O0))); rewrite <- combine_nth by exact L; apply nth_In; rewrite combine_length; lia).
  assert (Q : qsum (fun s => s * s)%Qc l = (r * r)%Qc). { rewrite E. clear -L Hl. revert L Hl. generalize (sides_of v). induction l as [|s l IH]; intros [|a m] L Hl; try discriminate; [reflexivity|]. rewrite !qsum_cons. rewrite (proj2 (Hl s a (or_introl eq_refl))). f_equal. apply IH; [injection L; auto|]. intros t b I. apply Hl. right. exact I. }
  destruct (qsum_sq l P) as (A & B). rewrite Q in B. split.
  - revert A B R. generalize (qsum (fun s => s) l). clear. intros x A B R. destruct (Qclt_le_dec x r) as [C|C]; [|exact C]. exfalso. assert (x * x < r * r)%Qc by (clear B; qcnra). revert H B. generalize (x * x)%Qc (r * r)%Qc. intros; qclra.
  - intros ->. assert (Z : forall s, In s l -> s = 0%Qc).
    { clear -Q P. replace (0 * 0)%Qc with 0%Qc in Q by ring. intros s I. induction l as [|y l IH]; [destruct I|]. rewrite qsum_cons in Q. assert (0 <= qsum (fun s => s * s) l)%Qc by (apply qsum_nonneg; intros z _; clear; qcnra). assert (0 <= y * y)%Qc by (clear; qcnra).
      assert (y * y = 0 /\ qsum (fun s => s * s) l = 0)%Qc as (Y & Z) by (revert Q H H0; generalize (y * y)%Qc (qsum (fun s => s * s)%Qc l); clear; intros a b ? ? ?; split; qclra). destruct I as [<-|I]; [apply Qcmult_integral in Y; tauto|]. apply IH; auto. intros t T. apply P. right. exact T. }
    clear -Z. induction l as [|y l IH]; [reflexivity|]. rewrite qsum_cons, (Z y (or_introl eq_refl)), IH; [ring|]. intros; apply Z; right; assumption.
Qed.
