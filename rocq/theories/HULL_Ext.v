(** C66: the extreme points of the hull *)
From Coq Require Import QArith Qcanon Lqa.
From Verif Require Import Base QcUtil Solver_Model Solver_Proofs HULL_Model HULL_Spec HULL_Proofs HULL_Half HULL_Whole HULL_Hull HULL_Props HULL_Near.
Local Open Scope nat_scope.

Lemma dot_add fe a b c : (dot fe (edge a b) + dot fe (edge b c) = dot fe (edge a c))%Qc.
Proof. unfold dot, edge; simpl. ring. Qed.
Lemma dot_0 fe a : dot fe (edge a a) = 0%Qc.
Proof. unfold dot, edge; simpl. ring. Qed.
Lemma turnaround_ok fe : forall l next k p b, turnaround fe next l = (k, p, b) ->
  nth_error (next :: l) k = Some p /\ (0 <= dot fe (edge next p))%Qc /\ (b = true -> k < length l) /\ (b = false -> k = length l /\ p = last l next).
Proof.
  induction l as [|e l IH]; intros next k p b H.
  - injection H as <- <- <-. split; [reflexivity|]. split; [rewrite dot_0; apply Qcle_refl|]. split; [discriminate|]. intros _. split; reflexivity.
  - cbn [turnaround] in H. destruct (qc_lt (dot fe (edge next e)) 0) eqn:Q.
    + injection H as <- <- <-. split; [reflexivity|]. split; [rewrite dot_0; apply Qcle_refl|]. split; [intros _; simpl; lia|discriminate].
    + apply qc_lt_false in Q. destruct (turnaround fe e l) as ((k' & p') & b') eqn:E. injection H as <- <- <-. destruct (IH _ _ _ _ E) as (A & B & C & D).
      split; [exact A|]. split; [rewrite <- (dot_add fe next e p'); apply add_nn; assumption|]. split; [intros X; specialize (C X); simpl; lia|].
      intros X. destruct (D X) as (D1 & D2). split; [simpl; lia|]. rewrite last_cons. exact D2.
Qed.
Definition good_pair (h : list point) (bp : point * point) (mx : Qc) : Prop :=
  In (fst bp) h /\ In (snd bp) h /\ mx = sep2 (fst bp) (snd bp) /\ (0 < mx)%Qc.
Lemma nth_skip' {A} (l : list A) n k x : nth_error l n = Some x -> nth_error (x :: skipn (S n) l) k = nth_error l (n + k).
Proof.
  revert n. induction l as [|y l IH]; intros [|n] H; try discriminate.
  - injection H as ->. reflexivity.
  - simpl in H. apply (IH n H).
Qed.
(** one turn of the outer loop *)
Lemma extremes_step fuel h fi ni best mx : fi < ni -> ni < length h -> exists first next after,
  nth_error h fi = Some first /\ nth_error h ni = Some next /\ nth_error h (S fi) = Some after /\
  exists k p b, turnaround (edge first after) next (skipn (S ni) h) = (k, p, b) /\ nth_error h (ni + k) = Some p /\ (b = true -> ni + k < length h) /\
  extremes (S fuel) h fi ni best mx =
    if b then extremes fuel h (S fi) (if S fi =? ni + k then S (ni + k) else ni + k) (if qc_lt mx (sep2 first p) then (first, p) else best) (if qc_lt mx (sep2 first p) then sep2 first p else mx)
    else Ok (Some best).
Proof.
  intros L1 L2. destruct (nth_error h fi) as [first|] eqn:E1; [|apply nth_error_None in E1; lia]. destruct (nth_error h ni) as [next|] eqn:E2; [|apply nth_error_None in E2; lia].
  destruct (nth_error h (S fi)) as [after|] eqn:E3; [|apply nth_error_None in E3; lia]. exists first, next, after. repeat split; auto.
  destruct (turnaround (edge first after) next (skipn (S ni) h)) as ((k & p) & b) eqn:T. exists k, p, b. split; [reflexivity|].
  destruct (turnaround_ok _ _ _ _ _ _ T) as (A & _ & C & _). rewrite (nth_skip' h ni k next E2) in A. split; [exact A|].
  split. { intros X. specialize (C X). rewrite skipn_length in C. lia. }
  cbn [extremes]. destruct (ni =? length h) eqn:Q; [apply Nat.eqb_eq in Q; lia|]. unfold idx. rewrite E1, E2, E3. cbn [obind]. rewrite T. destruct b; reflexivity.
Qed.
Lemma extremes_good h : forall fuel fi ni best mx, length h - fi <= fuel -> 1 <= fuel -> fi < ni <= length h -> good_pair h best mx ->
  exists bp mx', extremes fuel h fi ni best mx = Ok (Some bp) /\ good_pair h bp mx'.
Proof.
  induction fuel as [|fuel IH]; intros fi ni best mx F F1 L G; [lia|]. destruct (Nat.eq_dec ni (length h)) as [E|E].
  - exists best, mx. cbn [extremes]. rewrite (proj2 (Nat.eqb_eq _ _) E). split; [reflexivity|exact G].
  - destruct (extremes_step fuel h fi ni best mx) as (first & next & after & E1 & E2 & E3 & k & p & b & _ & E4 & E5 & ->); [lia|lia|].
    destruct b; [|exists best, mx; split; [reflexivity|exact G]]. specialize (E5 eq_refl). apply IH; [lia|lia| |].
    + destruct (S fi =? ni + k) eqn:Q; [apply Nat.eqb_eq in Q; lia|apply Nat.eqb_neq in Q; lia].
    + destruct (qc_lt mx (sep2 first p)) eqn:Q; [|exact G]. apply qc_lt_spec in Q. split; [apply (nth_error_In _ _ E1)|]. split; [apply (nth_error_In _ _ E4)|]. split; [reflexivity|].
      destruct G as (_ & _ & _ & G). apply (Qclt_trans _ mx); assumption.
Qed.
Lemma extremes_ends h : forall fuel fi ni best mx, length h - fi <= fuel -> 1 <= fuel -> fi < ni <= length h -> exists bp, extremes fuel h fi ni best mx = Ok (Some bp).
Proof.
  induction fuel as [|fuel IH]; intros fi ni best mx F F1 L; [lia|]. destruct (Nat.eq_dec ni (length h)) as [E|E].
  - exists best. cbn [extremes]. rewrite (proj2 (Nat.eqb_eq _ _) E). reflexivity.
  - destruct (extremes_step fuel h fi ni best mx) as (first & next & after & E1 & E2 & E3 & k & p & b & _ & E4 & E5 & ->); [lia|lia|].
    destruct b; [|exists best; reflexivity]. specialize (E5 eq_refl). apply IH; [lia|lia|].
    destruct (S fi =? ni + k) eqn:Q; [apply Nat.eqb_eq in Q; lia|apply Nat.eqb_neq in Q; lia].
Qed.
(** the call always returns, whatever the list of vertices *)
Theorem c66_returns (h : list point) : h <> [] -> exists bp, extreme_points h = Ok (Some bp).
Proof.
  intros N. unfold extreme_points. destruct h as [|a t] eqn:E; [contradiction|]. apply extremes_ends; simpl; lia.
Qed.
Lemma last_default {A} (l : list A) d d' : l <> [] -> last l d = last l d'.
Proof. induction l as [|x [|y l] IH]; intros N; [contradiction|reflexivity|]. apply IH. discriminate. Qed.
(** two vertices at different places, unless all the points are at one place *)
Theorem c66_extreme_points_partial (l : list point) : ascending l -> (exists a b, In a l /\ In b l /\ ~ same a b) ->
  exists h x y, convex_hull l = Ok h /\ extreme_points h = Ok (Some (x, y)) /\ In x h /\ In y h /\ In x l /\ In y l /\ ~ same x y.
Proof.
  intros Srt (u & v & Hu & Hv & Nuv). assert (N : l <> []) by (intros ->; contradiction).
  destruct (c63_convex_hull l N Srt) as (h & E & Hin & (v0 & h' & Ev) & _).
  destruct (hull_edge l h N Srt E) as (mm & MM & _ & _ & _ & _ & _ & _ & _ & _ & _ & _ & _ & _ & _ & _ & (y & s & Ey & Hy)).
  assert (Ns : ~ same mm y) by (intros X; apply Nuv; apply (same_trans _ mm); [apply same_sym; apply Hy; assumption|apply Hy; assumption]).
  assert (Ev' : v0 = mm) by (rewrite Ey in Ev; injection Ev as E1 _; congruence). subst v0.
  assert (Es : exists s', y :: s = s' ++ [mm]) by (exists h'; rewrite Ey in Ev; injection Ev as Ev; exact Ev). destruct Es as (s' & Es).
  assert (Ls : last s y = mm) by (rewrite <- (last_cons y s no_point), Es; apply last_snoc).
  assert (G : exists bp mx, extreme_points h = Ok (Some bp) /\ good_pair h bp mx).
  { unfold extreme_points. rewrite Ey. rewrite <- Ey. set (n := length h). assert (Hn : n = S (S (length s))) by (unfold n; rewrite Ey; reflexivity).
    destruct (extremes_step (S (length s)) h 0 1 (no_point, no_point) 0) as (first & next & after & E1 & E2 & E3 & k & p & b & T & E4 & E5 & EX); [lia|fold n; lia|].
    rewrite Ey in E1, E2, E3. injection E1 as <-. injection E2 as <-. injection E3 as <-.
    rewrite Hn, EX. rewrite Ey in T. cbn [skipn] in T. destruct (turnaround_ok _ _ _ _ _ _ T) as (A & B & C & D).
    assert (Fp : (0 < dot (edge mm y) (edge mm y))%Qc). { destruct (Qcle_lt_or_eq _ _ (len2_nn mm y)) as [X|X]; [exact X|]. exfalso. apply Ns, len2. congruence. }
    destruct b.
    - specialize (E5 eq_refl). fold n in E5. assert (Pp : ~ same mm p).
      { intros X. assert (Z := dot_add (edge mm y) mm y p). assert (Z' : dot (edge mm y) (edge mm p) = 0%Qc) by (destruct X as (X1 & X2); unfold dot, edge; simpl; rewrite X1, X2; ring).
        rewrite Z' in Z. set (f1 := dot (edge mm y) (edge mm y)) in *. set (f2 := dot (edge mm y) (edge y p)) in *. clearbody f1 f2. clear - Fp B Z. qclra. }
      assert (Sp : (0 < sep2 mm p)%Qc). { unfold sep2. destruct (Qcle_lt_or_eq _ _ (len2_nn mm p)) as [X|X]; [exact X|]. exfalso. apply Pp, len2. congruence. }
      rewrite (proj2 (qc_lt_spec _ _) Sp). apply extremes_good; [fold n; lia|lia| |].
      + fold n. destruct (1 =? 1 + k) eqn:Q; [apply Nat.eqb_eq in Q; lia|apply Nat.eqb_neq in Q; lia].
      + split; [rewrite Ey; left; reflexivity|]. split; [apply (nth_error_In _ _ E4)|]. split; [reflexivity|exact Sp].
    - exfalso. destruct (D eq_refl) as (_ & Dp). rewrite Ls in Dp. subst p. assert (Z := dot_add (edge mm y) mm y mm).
      assert (Z' : dot (edge mm y) (edge mm mm) = 0%Qc) by (unfold dot, edge; simpl; ring). rewrite Z' in Z.
      set (f1 := dot (edge mm y) (edge mm y)) in *. set (f2 := dot (edge mm y) (edge y mm)) in *. clearbody f1 f2. clear - Fp B Z. qclra. }
  destruct G as ((x & z) & mx & Ex & Gx & Gz & Gm & Gp). exists h, x, z. split; [exact E|]. split; [exact Ex|]. cbn [fst snd] in *.
  repeat split; auto. intros X. apply len2 in X. unfold sep2 in Gm. rewrite X in Gm. rewrite Gm in Gp. apply (Qclt_not_le _ _ Gp). apply Qcle_refl.
Qed.
Definition tri : list point := [P 0 0 1; P 0 3 2; P 2 1 3].
(** they are not the two points that are furthest apart *)
Theorem c66_extreme_points_refuted : ~ (forall l h x y, l <> [] -> ascending l -> convex_hull l = Ok h -> extreme_points h = Ok (Some (x, y)) ->
  forall a b, In a h -> In b h -> (sqdist a b <= sqdist x y)%Qc).
Proof.
  intros H. assert (S : ascending tri) by (apply asc_check; vm_compute; reflexivity).
  destruct (c66_extreme_points_partial tri S) as (h & x & y & E & Ex & _).
  { exists (P 0 0 1), (P 0 3 2). split; [left; reflexivity|]. split; [right; left; reflexivity|]. intros (_ & X). apply (f_equal this) in X. vm_compute in X. discriminate. }
  assert (T : qc_lt (sqdist x y) (Q2Qc 9) = true).
  { assert (X : match convex_hull tri with Ok h => match extreme_points h with Ok (Some (x, y)) => qc_lt (sqdist x y) (Q2Qc 9) | _ => false end | _ => false end = true) by (vm_compute; reflexivity).
    rewrite E, Ex in X. exact X. }
  apply qc_lt_spec in T.
  assert (Eh : exists t, rev h = P 0 0 1 :: P 0 3 2 :: t).
  { assert (X : match convex_hull tri with Ok h => match rev h with x :: y :: _ => peqb x (P 0 0 1) && peqb y (P 0 3 2) | _ => false end | _ => false end = true) by (vm_compute; reflexivity).
    rewrite E in X. destruct (rev h) as [|x0 [|y0 t]]; try discriminate. apply andb_true_iff in X. destruct X as (X & Y). apply peqb_spec in X, Y. subst. exists t. reflexivity. }
  destruct Eh as (t & Eh). assert (Z := H tri h x y ltac:(discriminate) S E Ex (P 0 0 1) (P 0 3 2)).
  assert (Q : sqdist (P 0 0 1) (P 0 3 2) = Q2Qc 9) by (apply Qc_is_canon; vm_compute; reflexivity). rewrite Q in Z.
  apply (Qclt_not_le _ _ T). apply Z; apply in_rev; rewrite Eh; [left; reflexivity|right; left; reflexivity].
Qed.
(** when all the points are at one place a point that was never given comes back *)
Theorem c66_single_point_refuted : ~ (forall l h x y, l <> [] -> ascending l -> convex_hull l = Ok h -> extreme_points h = Ok (Some (x, y)) -> In x l).
Proof.
  intros H. set (l := [P 1 1 1]). assert (S : ascending l) by (repeat constructor).
  destruct (convex_hull l) as [h| |] eqn:E; [|vm_compute in E; discriminate|vm_compute in E; discriminate].
  destruct (c66_returns h) as ((x & y) & Ex). { intros ->. vm_compute in E. discriminate. }
  assert (Z := H l h x y ltac:(discriminate) S E Ex).
  assert (X : match convex_hull l with Ok h => match extreme_points h with Ok (Some (x, _)) => qc_eqb (px x) 0 | _ => false end | _ => false end = true) by (vm_compute; reflexivity).
  rewrite E, Ex in X. apply qc_eqb_spec in X. destruct Z as [Z|[]]. rewrite <- Z in X. apply (f_equal this) in X. vm_compute in X. discriminate.
Qed.
Example c66_example : match convex_hull square with Ok h => match extreme_points h with Ok (Some (x, y)) => Some (show x, show y) | _ => None end | _ => None end = Some (show (P 0 0 1), show (P 4 4 7)).
Proof. vm_compute. reflexivity. Qed.
Print Assumptions c66_returns.
Print Assumptions c66_extreme_points_partial.
Print Assumptions c66_extreme_points_refuted.
Print Assumptions c66_single_point_refuted.
