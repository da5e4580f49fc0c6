(** C63-C66: the convex hull of Cluster3D *)
From Coq Require Import QArith Qcanon Lqa.
From Verif Require Import Base QcUtil Solver_Model Solver_Proofs HULL_Model HULL_Spec HULL_Proofs HULL_Half HULL_Whole HULL_Hull.
Local Open Scope nat_scope.

(** ** C63 *)
Theorem c63_convex_hull (l : list point) : l <> [] -> ascending l -> exists h, convex_hull l = Ok h /\
  (forall v, In v h -> In v l) /\
  (exists v h', h = v :: h' ++ [v]) /\
  (forall a b p, is_edge h a b -> In p l -> (0 <= side a b p)%Qc) /\
  (~ collinear l -> forall a b b' c, is_edge h a b -> is_edge h b' c -> same b b' -> ~ same a b -> ~ same b c -> (0 < side a b c)%Qc) /\
  (exists out back, h = out ++ back /\ ascending out /\ descending back).
Proof.
  intros N S. destruct (hull_pieces l N S) as (h & _ & _ & _ & _ & E & _). exists h. split; [exact E|].
  destruct (hull_edge l h N S E) as (mm & MM & A & B & WA & WB & Ed & Hin & (s1 & F1 & F2) & (s2 & F3) & OB & _).
  assert (WBi : forall x, In x B -> In x l).
  { intros x Hx. assert (G := w_in _ _ WB (neg x) (proj2 (neg_in' x B) Hx)). apply (proj1 (neg_in' _ _)) in G. apply in_rev. exact G. }
  assert (WBc : forall x y p, is_edge B x y -> In p l -> (0 <= side x y p)%Qc).
  { intros x y p Hx Hp. rewrite <- side_neg. apply (w_cov _ _ WB); [apply edge_map_neg; exact Hx|]. apply neg_in'. apply -> in_rev. exact Hp. }
  assert (Cov : forall a b p, is_edge h a b -> In p l -> (0 <= side a b p)%Qc).
  { intros a b p He Hp. destruct (Ed a b He) as (a' & Sa & [G|G]); rewrite (side_cong a b p a' b p Sa (same_refl _) (same_refl _)); [apply (w_cov _ _ WA); assumption|apply WBc; assumption]. }
  assert (Hl : forall v, In v h -> In v l) by (intros v Hv; destruct (Hin v Hv) as [G|G]; [apply (w_in _ _ WA); exact G|apply WBi; exact G]).
  split; [exact Hl|]. split.
  { destruct s2 as [|u s2]; [rewrite F1 in F3; injection F3 as F3; contradiction|]. rewrite F1 in F3. injection F3 as <- F3. exists mm, s2. rewrite F1, F3. reflexivity. }
  split; [exact Cov|]. split; [|exact OB].
  intros NC a b b' c E1 E2 Sb N1 N2. destruct (Ed a b E1) as (a' & Sa & G1). destruct (Ed b' c E2) as (b2 & Sb2 & G2).
  assert (Sbb : same b b2) by (apply (same_trans _ b'); assumption).
  assert (N1' : ~ same a' b) by (intros X; apply N1; apply (same_trans _ a'); assumption).
  assert (NCn : ~ collinear (map neg (rev l))).
  { intros X. apply NC. intros p q r Hp Hq Hr. apply collinear_neg in X. apply X; apply -> in_rev; assumption. }
  assert (Cab : forall p, In p l -> (0 <= side a' b p)%Qc).
  { intros p Hp. rewrite <- (side_cong a b p a' b p Sa (same_refl _) (same_refl _)). apply Cov; assumption. }
  assert (Cbc : forall p, In p l -> (0 <= side b c p)%Qc).
  { intros p Hp. rewrite (side_cong b c p b' c p Sb (same_refl _) (same_refl _)). apply Cov; assumption. }
  assert (Hc : In c l) by (apply Hl; apply (edge_in h _ _ E2)).
  rewrite (side_cong a b c a' b c Sa (same_refl _) (same_refl _)).
  assert (Z : side a' b c = 0%Qc -> (lexle a' b /\ lexle c b) \/ (lexle b a' /\ lexle b c) -> False).
  { intros Z [(L1 & L2)|(L1 & L2)]; [apply NC; apply (opposite l a' b c); assumption|]. apply NCn.
    apply (opposite _ (neg a') (neg b) (neg c)); [apply lexle_neg; exact L1|rewrite same_neg; exact N1'|apply lexle_neg; exact L2|rewrite same_neg; exact N2|rewrite side_neg; exact Z| |];
      intros p Hp; apply neg_in in Hp; apply in_rev in Hp; rewrite <- (neg_neg p), side_neg; [apply Cab|apply Cbc]; exact Hp. }
  assert (Oc : (0 <= side a' b c)%Qc) by (apply Cab; exact Hc).
  assert (AscB : forall x y, is_edge B x y -> lexle y x) by (intros x y Hx; apply lexle_neg; apply (asc_edge (map neg B)); [apply (w_asc _ _ WB)|apply edge_map_neg; exact Hx]).
  assert (lc : lexle b2 c -> lexle b c) by (intros X; apply (lexle_trans _ b2); [apply same_le; exact Sbb|exact X]).
  assert (cl : lexle c b2 -> lexle c b) by (intros X; apply (lexle_trans _ b2); [exact X|apply same_le, same_sym; exact Sbb]).
  destruct G1 as [G1|G1], G2 as [G2|G2].
  - apply (w_turn _ _ WA NC a' b b2 c); assumption.
  - destruct (Qcle_lt_or_eq _ _ Oc) as [X|X]; [exact X|]. exfalso. apply Z; [congruence|]. left. split; [apply (asc_edge A); [apply (w_asc _ _ WA)|exact G1]|apply cl, AscB; exact G2].
  - destruct (Qcle_lt_or_eq _ _ Oc) as [X|X]; [exact X|]. exfalso. apply Z; [congruence|]. right. split; [apply AscB; exact G1|apply lc, (asc_edge A); [apply (w_asc _ _ WA)|exact G2]].
  - rewrite <- side_neg. apply (w_turn _ _ WB NCn (neg a') (neg b) (neg b2) (neg c)); [apply edge_map_neg; exact G1|apply edge_map_neg; exact G2|apply same_neg; exact Sbb| |]; rewrite same_neg; assumption.
Qed.

(** the list that the callers hand over (MinSpanTreeAlg_tool.cc:468-473 and the path finders) is in this order when no two x values are closer
    than [eps] without being equal *)
Definition callers_less (eps : Qc) (a b : point) : bool :=
  if qc_lt eps (if qc_lt (px a) (px b) then px b - px a else px a - px b)%Qc then qc_lt (px a) (px b) else qc_lt (py a) (py b).
Lemma c63_callers_order eps l : (0 <= eps)%Qc ->
  (forall a b, In a l -> In b l -> px a = px b \/ (eps < px b - px a)%Qc \/ (eps < px a - px b)%Qc) ->
  StronglySorted (fun a b => callers_less eps b a = false) l -> ascending l.
Proof.
  intros He Hg. induction 1 as [|x l S IH F]; [constructor|]. constructor; [apply IH; intros; apply Hg; right; assumption|].
  rewrite Forall_forall in *. intros y Hy. specialize (F y Hy). unfold callers_less in F.
  destruct (Hg x y (or_introl eq_refl) (or_intror Hy)) as [E|[E|E]].
  - rewrite E in F. destruct (qc_lt (px y) (px y)) eqn:Q; [apply qc_lt_spec in Q; exfalso; apply (Qclt_not_le _ _ Q); apply Qcle_refl|].
    destruct (qc_lt eps (px y - px y)) eqn:Q2; [apply qc_lt_spec in Q2; exfalso; replace (px y - px y)%Qc with 0%Qc in Q2 by ring; apply (Qclt_not_le _ _ Q2); exact He|].
    right. split; [exact E|apply qc_lt_false; exact F].
  - left. clear - He E. qclra.
  - exfalso. assert (X : (px y < px x)%Qc) by (clear - He E; qclra). rewrite (proj2 (qc_lt_spec _ _) X) in F.
    rewrite (proj2 (qc_lt_spec _ _) E) in F. discriminate.
Qed.

Definition P (x y : Z) (h : nat) : point := mkP (Q2Qc (inject_Z x)) (Q2Qc (inject_Z y)) h.
Definition show (p : point) : Q * Q * nat := (this (px p), this (py p), ph p).
Definition square : list point := [P 0 0 1; P 0 2 2; P 0 4 3; P 2 2 4; P 3 1 5; P 4 0 6; P 4 4 7].
Lemma asc_check l : (forallb (fun ab => let '(a, b) := ab in qc_lt (px a) (px b) || (qc_eqb (px a) (px b) && negb (qc_lt (py b) (py a)))) (combine l (tl l))) = true -> ascending l.
Proof.
  intros H. apply ss_linked; [intros x y z; apply lexle_trans|]. intros h1 a b h2 ->.
  assert (I : In (a, b) (combine (h1 ++ a :: b :: h2) (tl (h1 ++ a :: b :: h2)))).
  { clear. induction h1 as [|x h1 IH]; [left; reflexivity|]. simpl. destruct h1 as [|y h1]; [right; left; reflexivity|right; exact IH]. }
  rewrite forallb_forall in H. specialize (H _ I). simpl in H. apply orb_true_iff in H. destruct H as [H|H]; [left; apply qc_lt_spec; exact H|].
  apply andb_true_iff in H. destruct H as (A & B). right. split; [apply qc_eqb_spec; exact A|]. apply negb_true_iff, qc_lt_false in B. exact B.
Qed.
Example c63_square_sorted : square <> [] /\ ascending square /\ ~ collinear square.
Proof.
  split; [discriminate|]. split; [apply asc_check; vm_compute; reflexivity|].
  intros C. assert (E := C (P 0 0 1) (P 4 0 6) (P 4 4 7)). simpl in E. specialize (E ltac:(tauto) ltac:(tauto) ltac:(tauto)).
  apply (f_equal this) in E. vm_compute in E. discriminate.
Qed.
Example c63_square_hull : match convex_hull square with Ok h => map show h | _ => [] end =
  map show [P 0 0 1; P 4 0 6; P 4 4 7; P 0 4 3; P 0 0 1].
Proof. vm_compute. reflexivity. Qed.
(** coincident points, and all points on a vertical line *)
Example c63_degenerate :
  (match convex_hull [P 1 1 1] with Ok h => map show h | _ => [] end = map show [P 1 1 1; P 1 1 1; P 1 1 1]) /\
  (match convex_hull [P 1 1 1; P 1 2 2; P 1 3 3] with Ok h => map show h | _ => [] end = map show [P 1 1 1; P 1 3 3; P 1 3 3; P 1 1 1; P 1 1 1]).
Proof. split; vm_compute; reflexivity. Qed.
Print Assumptions c63_convex_hull.
Print Assumptions c63_callers_order.
