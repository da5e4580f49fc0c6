(** The two halves put together *)
From Coq Require Import QArith Qcanon Lqa.
From Verif Require Import Base QcUtil Solver_Model Solver_Proofs HULL_Model HULL_Spec HULL_Proofs HULL_Half.
Local Open Scope nat_scope.

(** the plane turned by half a turn *)
Definition neg (p : point) : point := mkP (- px p) (- py p) (ph p).
Lemma neg_neg p : neg (neg p) = p.
Proof. destruct p. unfold neg; simpl. rewrite !Qcopp_involutive. reflexivity. Qed.
Lemma side_neg a b p : side (neg a) (neg b) (neg p) = side a b p.
Proof. unfold side, neg; simpl. ring. Qed.
Lemma left_neg a b p : is_left (neg a) (neg b) (neg p) = is_left a b p.
Proof. unfold is_left. rewrite !side_cross, side_neg. reflexivity. Qed.
Lemma lexle_neg a b : lexle (neg a) (neg b) <-> lexle b a.
Proof.
  unfold lexle, neg; simpl. split; (intros [A|(A & B)]; [left; qclra|right; split; [|qclra]]).
  - rewrite <- (Qcopp_involutive (px b)), <- A, Qcopp_involutive. reflexivity.
  - rewrite A. reflexivity.
Qed.
Lemma same_neg a b : same (neg a) (neg b) <-> same a b.
Proof.
  unfold same, neg; simpl. split; [|intros (-> & ->); split; reflexivity].
  intros (A & B). apply (f_equal Qcopp) in A, B. rewrite !Qcopp_involutive in *. split; assumption.
Qed.
Lemma unwind_neg c st : unwind (map neg st) (neg c) = map neg (unwind st c).
Proof. induction st as [|y [|x r] IH]; [reflexivity|reflexivity|]. cbn [map unwind] in *. rewrite left_neg. destruct (is_left x y c); [reflexivity|exact IH]. Qed.
Lemma half_neg pts a b : half_hull (map neg pts) (neg a) (neg b) = map neg (half_hull pts a b).
Proof.
  unfold half_hull. rewrite map_rev. f_equal. change [neg a] with (map neg [a]). generalize [a]. induction pts as [|c pts IH]; intros st; simpl; [reflexivity|].
  rewrite <- IH. f_equal. unfold add_point. rewrite left_neg. destruct (is_left a b c); [reflexivity|]. simpl. rewrite unwind_neg. reflexivity.
Qed.
Lemma ss_map {A B} (R : B -> B -> Prop) (f : A -> B) l : StronglySorted (fun x y => R (f x) (f y)) l -> StronglySorted R (map f l).
Proof.
  induction 1 as [|x l H IH F]; simpl; [constructor|]. constructor; [exact IH|]. apply Forall_forall. intros y Hy. apply in_map_iff in Hy.
  destruct Hy as (z & <- & Hz). rewrite Forall_forall in F. apply F, Hz.
Qed.
Lemma ss_impl {A} (R R' : A -> A -> Prop) l : (forall x y, R x y -> R' x y) -> StronglySorted R l -> StronglySorted R' l.
Proof. intros H. induction 1 as [|x l S IH F]; constructor; auto. rewrite Forall_forall in *. auto. Qed.
Lemma neg_sorted l : ascending l -> ascending (map neg (rev l)).
Proof. intros H. apply ss_map. apply ss_rev in H. revert H. apply ss_impl. intros x y. apply lexle_neg. Qed.
Lemma neg_in p l : In p (map neg l) <-> In (neg p) l.
Proof.
  rewrite in_map_iff. split; [intros (q & <- & H); rewrite neg_neg; exact H|]. intros H. exists (neg p). split; [apply neg_neg|exact H].
Qed.
Lemma neg_in' p l : In (neg p) (map neg l) <-> In p l.
Proof. rewrite neg_in, neg_neg. reflexivity. Qed.
Lemma edge_map_neg h a b : is_edge h a b -> is_edge (map neg h) (neg a) (neg b).
Proof. intros (h1 & h2 & ->). exists (map neg h1), (map neg h2). rewrite map_app. reflexivity. Qed.

Lemma tw_filter {A} (R : A -> A -> Prop) f l : StronglySorted R l -> (forall x y, In x l -> In y l -> R x y -> f x = false -> f y = false) -> take_while f l = filter f l.
Proof.
  induction 1 as [|x l S IH F]; intros M; simpl; [reflexivity|]. destruct (f x) eqn:E.
  - f_equal. apply IH. intros u v Hu Hv. apply M; right; assumption.
  - symmetry. rewrite Forall_forall in F. assert (G : forall y, In y l -> f y = false) by (intros y Hy; apply (M x y); [left; reflexivity|right; exact Hy|apply F; exact Hy|exact E]).
    clear - G. induction l as [|y l IH]; simpl; [reflexivity|]. rewrite (G y (or_introl eq_refl)). apply IH. intros z Hz. apply G. right. exact Hz.
Qed.
Lemma same_x_t p q : same_x p q = true <-> px q = px p. Proof. apply qc_eqb_spec. Qed.
(** pMinMax *)
Lemma min_max a rest : ascending (a :: rest) -> let z := last (take_while (same_x a) (a :: rest)) a in
  In z (a :: rest) /\ px z = px a /\ forall p, In p (a :: rest) -> px p = px a -> (py p <= py z)%Qc.
Proof.
  intros S z. assert (Am : forall p, In p (a :: rest) -> lexle a p).
  { apply StronglySorted_inv in S. destruct S as (_ & F). rewrite Forall_forall in F. intros p [->|Hp]; [apply lexle_refl|apply F; exact Hp]. }
  assert (Ez : z = last (filter (same_x a) (a :: rest)) a).
  { unfold z. f_equal. apply (tw_filter lexle); [exact S|]. intros x y Hx Hy Hxy Fx. destruct (same_x a y) eqn:Fy; [|reflexivity]. exfalso.
    apply same_x_t in Fy. assert (X1 := lex_x _ _ (Am x Hx)). assert (X2 := lex_x _ _ Hxy). rewrite Fy in X2.
    assert (px x = px a) by (apply Qcle_antisym; assumption). rewrite (proj2 (same_x_t a x) H) in Fx. discriminate. }
  assert (Fa : filter (same_x a) (a :: rest) = a :: filter (same_x a) rest) by (simpl; rewrite (proj2 (same_x_t a a) eq_refl); reflexivity).
  assert (SF := ss_filter _ (same_x a) _ S). rewrite Fa in SF, Ez.
  assert (El : last (a :: filter (same_x a) rest) a = last (filter (same_x a) rest) a) by (destruct (filter (same_x a) rest); reflexivity).
  rewrite El in Ez. assert (Zin : In z (a :: filter (same_x a) rest)) by (rewrite Ez; apply last_in). rewrite <- Fa in Zin. apply filter_In in Zin. destruct Zin as (Zin & Zx). apply same_x_t in Zx.
  split; [exact Zin|]. split; [exact Zx|]. intros p Hp Px. assert (L : lexle p z).
  { rewrite Ez. apply (ss_last _ _ SF). rewrite <- Fa. apply filter_In. split; [exact Hp|apply same_x_t; exact Px]. }
  destruct L as [F|(_ & F)]; [exfalso; rewrite Zx, Px in F; apply (Qclt_not_le _ _ F); apply Qcle_refl|exact F].
Qed.
Lemma tw_map {A B} (f : B -> bool) (g : A -> B) l : take_while f (map g l) = map g (take_while (fun x => f (g x)) l).
Proof. induction l as [|x l IH]; simpl; [reflexivity|]. destruct (f (g x)); [simpl; rewrite IH; reflexivity|reflexivity]. Qed.
Lemma tw_ext {A} (f g : A -> bool) l : (forall x, f x = g x) -> take_while f l = take_while g l.
Proof. intros E. induction l as [|x l IH]; simpl; [reflexivity|]. rewrite E, IH. reflexivity. Qed.
Lemma last_map {A B} (g : A -> B) l d : last (map g l) (g d) = g (last l d).
Proof. induction l as [|x [|y l] IH]; simpl in *; auto. Qed.

Record facts (l : list point) (mm mX Mm MM : point) : Prop := {
  f_mm : forall p, In p l -> lexle mm p; f_MM : forall p, In p l -> lexle p MM;
  f_in1 : In mm l; f_in2 : In mX l; f_in3 : In Mm l; f_in4 : In MM l;
  f_mX : px mX = px mm /\ (forall p, In p l -> px p = px mm -> (py p <= py mX)%Qc);
  f_Mm : px Mm = px MM /\ (forall p, In p l -> px p = px MM -> (py Mm <= py p)%Qc) }.

Lemma corners_ok l : l <> [] -> ascending l -> exists mm mX Mm MM, corners l = Ok (mm, mX, (Mm, MM)) /\ facts l mm mX Mm MM /\ (exists t, l = mm :: t) /\ (exists t, rev l = MM :: t).
Proof.
  intros N S. destruct l as [|a rest]; [contradiction|]. clear N. destruct (rev (a :: rest)) as [|z t] eqn:R; [apply (f_equal (@length _)) in R; rewrite rev_length in R; discriminate|].
  unfold corners. rewrite R. do 4 eexists. split; [reflexivity|]. split; [|split; [eexists; reflexivity|eexists; reflexivity]].
  destruct (min_max a rest S) as (A1 & A2 & A3).
  assert (Sn := neg_sorted _ S). rewrite R in Sn. cbn [map] in Sn. destruct (min_max (neg z) (map neg t) Sn) as (B1 & B2 & B3).
  change (neg z :: map neg t) with (map neg (z :: t)) in *.
  assert (Ez : last (take_while (same_x (neg z)) (map neg (z :: t))) (neg z) = neg (last (take_while (same_x z) (z :: t)) z)).
  { rewrite tw_map, last_map. f_equal. f_equal. apply tw_ext. intros x. apply Bool.eq_true_iff_eq. rewrite !same_x_t. unfold neg; simpl. split; [|congruence].
    intros E. apply (f_equal Qcopp) in E. rewrite !Qcopp_involutive in E. exact E. }
  rewrite Ez in B1, B2, B3. apply (proj1 (neg_in' _ _)) in B1. set (Mm := last (take_while (same_x z) (z :: t)) z) in *.
  assert (I : forall p, In p (z :: t) <-> In p (a :: rest)) by (intros p; rewrite <- R; symmetry; apply in_rev).
  assert (MmMM : px Mm = px z) by (unfold neg in B2; simpl in B2; apply (f_equal Qcopp) in B2; rewrite !Qcopp_involutive in B2; exact B2).
  split; auto.
  - intros p Hp. apply StronglySorted_inv in S. destruct S as (_ & F). rewrite Forall_forall in F. destruct Hp as [->|Hp]; [apply lexle_refl|apply F; exact Hp].
  - intros p Hp. apply I in Hp. apply StronglySorted_inv in Sn. destruct Sn as (_ & F). rewrite Forall_forall in F. destruct Hp as [->|Hp]; [apply lexle_refl|].
    apply lexle_neg. apply F. apply in_map. exact Hp.
  - left; reflexivity.
  - apply I. exact B1.
  - apply I. left. reflexivity.
  - split; [exact MmMM|]. intros p Hp Px. apply I in Hp. assert (Q : px (neg p) = px (neg z)) by (unfold neg; simpl; congruence).
    specialize (B3 (neg p) (proj2 (neg_in' p (z :: t)) Hp) Q). unfold neg in B3; simpl in B3. qclra.
Qed.

Section Nums.
Local Open Scope Qc_scope.
Lemma par1 ux uy wx wy zx zy : pos ux uy -> pos wx wy -> ux * wy - uy * wx = 0 -> 0 <= ux * zy - uy * zx -> wx * zy - wy * zx <= 0 -> ux * zy - uy * zx = 0.
Proof.
  intros U W E A B. destruct U as [U|(-> & U)].
  - destruct W as [W|(-> & W)]; [|exfalso; assert (0 < ux * wy) by qcnra; qclra].
    assert (I : wx * (ux * zy - uy * zx) = ux * (wx * zy - wy * zx) + zx * (ux * wy - uy * wx)) by ring. rewrite E in I.
    apply Qcle_antisym; [|exact A]. apply Qcnot_lt_le. intros F.
    assert (0 < wx * (ux * zy - uy * zx)) by (clear - W F; set (k := ux * zy - uy * zx) in *; clearbody k; qcnra).
    assert (ux * (wx * zy - wy * zx) <= 0) by (clear - U B; set (k := wx * zy - wy * zx) in *; clearbody k; qcnra).
    clear - I H H0. set (k := wx * (ux * zy - uy * zx)) in *. set (k' := ux * (wx * zy - wy * zx)) in *. clearbody k k'. qclra.
  - destruct W as [W|(-> & W)]; [exfalso; assert (0 < uy * wx) by qcnra; qclra|].
    assert (Z : zx = 0). { apply Qcle_antisym; apply Qcnot_lt_le; intros F; [assert (0 < uy * zx) by qcnra; qclra|]. assert (wy * zx < 0) by qcnra. qclra. }
    rewrite Z. ring.
Qed.
Lemma mul_eq0 (x y : Qc) : 0 < x -> x * y = 0 -> y = 0.
Proof. intros A B. destruct (Qcmult_integral _ _ B) as [E|E]; [exfalso; rewrite E in A; apply (Qclt_not_le _ _ A); apply Qcle_refl|exact E]. Qed.
Lemma par2 ux uy sx sy tx ty : pos ux uy -> ux * sy - uy * sx = 0 -> ux * ty - uy * tx = 0 -> sx * ty - sy * tx = 0.
Proof.
  intros [U|(-> & U)] A B.
  - apply (mul_eq0 ux); [exact U|]. transitivity (sx * (ux * ty - uy * tx) - tx * (ux * sy - uy * sx)); [ring|]. rewrite A, B. ring.
  - apply (mul_eq0 uy); [exact U|]. transitivity (sy * (0 * ty - uy * tx) - ty * (0 * sy - uy * sx)); [ring|]. rewrite A, B. ring.
Qed.
End Nums.

(** out along an edge and straight back: everything is on one line *)
Lemma opposite l x y w : lexle x y -> ~ same x y -> lexle w y -> ~ same y w -> side x y w = 0%Qc ->
  (forall p, In p l -> (0 <= side x y p)%Qc) -> (forall p, In p l -> (0 <= side y w p)%Qc) -> collinear l.
Proof.
  intros L1 N1 L2 N2 E A B.
  assert (U := lexlt_pos _ _ L1 N1). assert (W := lexlt_pos _ _ L2 (fun H => N2 (same_sym _ _ H))).
  assert (E' : ((px y - px x) * (py y - py w) - (py y - py x) * (px y - px w) = 0)%Qc).
  { transitivity (- side x y w)%Qc; [unfold side; ring|rewrite E; ring]. }
  assert (Z : forall p, In p l -> ((px y - px x) * (py p - py y) - (py y - py x) * (px p - px y) = 0)%Qc).
  { intros p Hp. apply (par1 _ _ _ _ _ _ U W E').
    - replace ((px y - px x) * (py p - py y) - (py y - py x) * (px p - px y))%Qc with (side x y p) by (unfold side; ring). apply A, Hp.
    - replace ((px y - px w) * (py p - py y) - (py y - py w) * (px p - px y))%Qc with (- side y w p)%Qc by (unfold side; ring).
      assert (C := B p Hp). slra. }
  intros a b c Ha Hb Hc. unfold side. apply (par2 _ _ _ _ _ _ U).
  - transitivity (((px y - px x) * (py b - py y) - (py y - py x) * (px b - px y)) - ((px y - px x) * (py a - py y) - (py y - py x) * (px a - px y)))%Qc; [ring|]. rewrite (Z a Ha), (Z b Hb). ring.
  - transitivity (((px y - px x) * (py c - py y) - (py y - py x) * (px c - px y)) - ((px y - px x) * (py a - py y) - (py y - py x) * (px a - px y)))%Qc; [ring|]. rewrite (Z a Ha), (Z c Hc). ring.
Qed.
Lemma collinear_neg l : collinear (map neg l) -> collinear l.
Proof.
  intros H a b c Ha Hb Hc. rewrite <- side_neg. apply H; apply neg_in'; assumption.
Qed.
