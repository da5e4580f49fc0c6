(** C64: the area of the hull *)
From Coq Require Import QArith Qcanon Lqa.
From Verif Require Import Base QcUtil Solver_Model Solver_Proofs Solver_Sched HULL_Model HULL_Spec HULL_Proofs HULL_Half HULL_Whole HULL_Hull HULL_Props.
Local Open Scope nat_scope.

(** a sum over the edges *)
Fixpoint esum (f : point -> point -> Qc) (h : list point) : Qc :=
  match h with
  | a :: r => match r with b :: _ => (f a b + esum f r)%Qc | [] => 0%Qc end
  | [] => 0%Qc
  end.
Lemma esum_2 f a b r : esum f (a :: b :: r) = (f a b + esum f (b :: r))%Qc. Proof. reflexivity. Qed.
Lemma shoe_2 a b r : shoelace (a :: b :: r) = (px a * py b - px b * py a + shoelace (b :: r))%Qc. Proof. reflexivity. Qed.
Lemma esum_ext f g h : (forall a b, is_edge h a b -> f a b = g a b) -> esum f h = esum g h.
Proof.
  induction h as [|a [|b r] IH]; intros H; [reflexivity|reflexivity|]. rewrite !esum_2. rewrite (H a b), IH; [reflexivity| |exists [], r; reflexivity].
  intros x y E. apply H. apply is_edge_cons. right. exact E.
Qed.
Lemma esum_nonneg f h : (forall a b, is_edge h a b -> (0 <= f a b)%Qc) -> (0 <= esum f h)%Qc.
Proof.
  induction h as [|a [|b r] IH]; intros H; [apply Qcle_refl|apply Qcle_refl|]. rewrite esum_2. apply add_nn; [apply H; exists [], r; reflexivity|].
  apply IH. intros x y E. apply H. apply is_edge_cons. right. exact E.
Qed.
Lemma esum_pos f h a b : (forall a b, is_edge h a b -> (0 <= f a b)%Qc) -> is_edge h a b -> (0 < f a b)%Qc -> (0 < esum f h)%Qc.
Proof.
  induction h as [|x [|y r] IH]; intros H E Hp; [destruct E as ([|] & ? & E); discriminate|destruct E as ([|? [|]] & ? & E); discriminate|]. rewrite esum_2.
  assert (Hr : forall u v, is_edge (y :: r) u v -> (0 <= f u v)%Qc) by (intros u v G; apply H; apply is_edge_cons; right; exact G).
  apply is_edge_cons in E. destruct E as [(-> & t & Et)|E].
  - injection Et as -> ->. assert (G := esum_nonneg f _ Hr). set (k := esum f (b :: t)) in *. clearbody k. qclra.
  - specialize (IH Hr E Hp). assert (G := H x y ltac:(exists [], r; reflexivity)). set (k := esum f (y :: r)) in *. clearbody k. qclra.
Qed.
Lemma esum_shoelace h : shoelace h = esum (fun a b => px a * py b - px b * py a)%Qc h.
Proof. induction h as [|a [|b r] IH]; [reflexivity|reflexivity|]. rewrite shoe_2, esum_2, <- IH. reflexivity. Qed.
Lemma esum_telescope (g : point -> Qc) h x t z : h = x :: t -> last h no_point = z -> esum (fun a b => (g b - g a)%Qc) h = (g z - g x)%Qc.
Proof.
  revert x t. induction h as [|a [|b r] IH]; intros x t E L; [discriminate| |].
  - injection E as -> _. simpl in L. subst z. cbn [esum]. ring.
  - injection E as -> <-. rewrite esum_2. rewrite (IH b r eq_refl); [ring|exact L].
Qed.
Lemma esum_plus f g h : esum (fun a b => (f a b + g a b)%Qc) h = (esum f h + esum g h)%Qc.
Proof. induction h as [|a [|b r] IH]; [cbn [esum]; ring|cbn [esum]; ring|]. rewrite !esum_2. rewrite IH. ring. Qed.
Lemma esum_scale c f h : esum (fun a b => (c * f a b)%Qc) h = (c * esum f h)%Qc.
Proof. induction h as [|a [|b r] IH]; [cbn [esum]; ring|cbn [esum]; ring|]. rewrite !esum_2. rewrite IH. ring. Qed.

Definition ctr (h : list point) : point := mkP (qsum px h / qc_nat (length h)) (qsum py h / qc_nat (length h)) 0.
Lemma fold_qsum (f : point -> Qc) h : forall s, fold_left (fun s p => (s + f p)%Qc) h s = (s + qsum f h)%Qc.
Proof. induction h as [|p h IH]; intros s; simpl; [ring|]. rewrite IH. ring. Qed.
Lemma area_fold c : forall h s f, fst (fold_left (fun s p => (if peqb p (snd s) then fst s else (fst s + Q2Qc (1 # 2) * cross c (snd s) p)%Qc, p)) h (s, f)) =
  (s + Q2Qc (1 # 2) * esum (fun a b => side c a b) (f :: h))%Qc.
Proof.
  induction h as [|p h IH]; intros s f; [cbn [fold_left fst esum]; ring|]. cbn [fold_left]. rewrite IH. cbn [fst snd].
  change (esum (fun a b => side c a b) (f :: p :: h)) with (side c f p + esum (fun a b => side c a b) (p :: h))%Qc.
  destruct (peqb p f) eqn:E.
  - apply peqb_spec in E. subst p. replace (side c f f) with 0%Qc by (unfold side; ring). ring.
  - rewrite side_cross. ring.
Qed.
Lemma area_esum h : h <> [] -> area h = Ok (Q2Qc (1 # 2) * esum (fun a b => side (ctr h) a b) h)%Qc.
Proof.
  intros N. unfold area. rewrite !fold_qsum. destruct h as [|f t] eqn:Eh; [contradiction|]. rewrite <- Eh. clear N.
  f_equal. replace (0 + qsum px h)%Qc with (qsum px h) by ring. replace (0 + qsum py h)%Qc with (qsum py h) by ring. fold (ctr h). rewrite area_fold.
  assert (X : forall c, esum (fun a b => side c a b) (f :: h) = esum (fun a b => side c a b) h).
  { intros c. rewrite Eh, esum_2. replace (side c f f) with 0%Qc by (unfold side; ring). ring. }
  rewrite X. ring.
Qed.
(** the centre is the mean of the vertices *)
Lemma qc_nat_sum {A} (l : list A) : qsum (fun _ => 1%Qc) l = qc_nat (length l).
Proof. rewrite qsum_const. ring. Qed.
Lemma ctr_side h a b : h <> [] -> (qc_nat (length h) * side (ctr h) a b = qsum (side a b) h)%Qc.
Proof.
  intros N. assert (Pn : (0 < qc_nat (length h))%Qc) by (apply qc_nat_pos; destruct h; [contradiction|simpl; lia]).
  assert (Nz : qc_nat (length h) <> 0%Qc) by (intros E; rewrite E in Pn; apply (Qclt_not_le _ _ Pn); apply Qcle_refl).
  assert (E : qsum (side a b) h = ((px b - px a) * (qsum py h - py a * qc_nat (length h)) - (py b - py a) * (qsum px h - px a * qc_nat (length h)))%Qc).
  { rewrite <- qc_nat_sum. clear. induction h as [|p h IH]; [cbn [qsum fold_right]; ring|]. rewrite !qsum_cons, IH. unfold side. ring. }
  rewrite E. set (n := qc_nat (length h)) in *. unfold side, ctr. cbn [px py]. fold n. set (sx := qsum px h). set (sy := qsum py h). clearbody sx sy n.
  assert (Ex : (n * (sx / n) = sx)%Qc) by (field; exact Nz). assert (Ey : (n * (sy / n) = sy)%Qc) by (field; exact Nz).
  set (u := (sx / n)%Qc) in *. set (v := (sy / n)%Qc) in *. clearbody u v. rewrite <- Ex, <- Ey. ring.
Qed.

Lemma moves (h : list point) y : (exists z, In z h /\ ~ same y z) -> forall s, same y s -> exists y' c, is_edge (s :: h) y' c /\ same y y' /\ ~ same y c.
Proof.
  induction h as [|x h IH]; intros (z & Hz & Nz) s Ss; [contradiction|]. destruct (same_dec y x) as [E|E].
  - destruct (IH ltac:(exists z; split; [destruct Hz as [->|Hz]; [contradiction|exact Hz]|exact Nz]) x E) as (y' & c & G1 & G2).
    exists y', c. split; [apply is_edge_cons; right; exact G1|exact G2].
  - exists s, x. split; [exists [], h; reflexivity|split; assumption].
Qed.

Theorem c64_area (l : list point) : l <> [] -> ascending l -> exists h A, convex_hull l = Ok h /\ area h = Ok A /\
  A = (shoelace h / (1 + 1))%Qc /\ (0 <= A)%Qc /\ (collinear l -> A = 0%Qc) /\ (~ collinear l -> (0 < A)%Qc).
Proof.
  intros N S. destruct (c63_convex_hull l N S) as (h & E & Hin & (v & h' & Ev) & Cov & Turn & _).
  destruct (hull_edge l h N S E) as (mm & MM & _ & _ & _ & _ & _ & _ & _ & _ & _ & _ & _ & _ & _ & _ & (y & s & Ey & Hy)).
  exists h. assert (Nh : h <> []) by (rewrite Ev; discriminate). eexists. split; [exact E|]. split; [apply area_esum; exact Nh|].
  assert (Pn : (0 < qc_nat (length h))%Qc) by (apply qc_nat_pos; destruct h; [contradiction|simpl; lia]).
  assert (Hn : (0 < Q2Qc (1 # 2))%Qc) by reflexivity.
  assert (T : forall a b, is_edge h a b -> (0 <= side (ctr h) a b)%Qc).
  { intros a b Eab. apply (div_nn _ _ Pn). rewrite (ctr_side h a b Nh). apply qsum_nonneg. intros x Hx. apply Cov; [exact Eab|apply Hin; exact Hx]. }
  assert (NN : (0 <= esum (fun a b => side (ctr h) a b) h)%Qc) by (apply esum_nonneg; exact T).
  split; [|split; [|split]].
  - assert (Sh : esum (fun a b => side (ctr h) a b) h = shoelace h).
    { rewrite esum_shoelace. set (c := ctr h).
      rewrite (esum_ext _ (fun a b => (px a * py b - px b * py a + (py c * (px b - px a) + (0 - px c) * (py b - py a)))%Qc)) by (intros; unfold side; ring).
      rewrite !esum_plus, !esum_scale.
      assert (L : last h no_point = v) by (rewrite Ev; apply (last_snoc (v :: h') v)).
      rewrite (esum_telescope px h v (h' ++ [v]) v Ev L), (esum_telescope py h v (h' ++ [v]) v Ev L). ring. }
    rewrite Sh. assert (H2 : Q2Qc (1 # 2) = (1 / (1 + 1))%Qc) by (apply Qc_is_canon; vm_compute; reflexivity). rewrite H2. field. intros X. apply (f_equal this) in X. discriminate.
  - apply mul_nn; [apply Qclt_le_weak; exact Hn|exact NN].
  - intros C. rewrite (esum_ext _ (fun a b => (0 * 0)%Qc)).
    + rewrite esum_scale. ring.
    + intros a b Eab. transitivity 0%Qc; [|ring]. apply (mul_eq0 (qc_nat (length h))); [exact Pn|]. rewrite (ctr_side h a b Nh). apply qsum_zero'. intros x Hx.
      destruct (edge_in h a b Eab) as (Ha & Hb). apply C; apply Hin; assumption.
  - intros NC. assert (Ny : ~ same mm y).
    { intros Sy. apply NC. assert (Sa := Hy Sy). intros p q r Hp Hq Hr. rewrite (side_same_l p q r); [reflexivity|]. apply (same_trans _ mm); [apply same_sym, Sa, Hp|apply Sa, Hq]. }
    assert (Ev' : v = mm) by (rewrite Ey in Ev; injection Ev as E1 _; congruence). subst v.
    assert (Es : exists s', y :: s = s' ++ [mm]) by (exists h'; rewrite Ey in Ev; injection Ev as Ev; exact Ev). destruct Es as (s' & Es).
    destruct (moves s y) with (s := y) as (y' & c & G1 & G2 & G3).
    { exists mm. split; [|intros X; apply Ny; apply same_sym; exact X]. assert (Hm : In mm (y :: s)) by (rewrite Es; apply in_app_iff; right; left; reflexivity).
      destruct Hm as [Hm|Hm]; [exfalso; apply Ny; rewrite Hm; apply same_refl|exact Hm]. }
    { apply same_refl. }
    assert (E1 : is_edge h mm y) by (exists [], s; exact Ey). assert (E2 : is_edge h y' c) by (rewrite Ey; apply is_edge_cons; right; exact G1).
    assert (St := Turn NC mm y y' c E1 E2 G2 Ny G3).
    assert (Hp : (0 < esum (fun a b => side (ctr h) a b) h)%Qc).
    { apply (esum_pos _ h mm y T E1). apply Qcnot_le_lt. intros X. assert (Hc : In c h) by (apply (edge_in h _ _ E2)).
      assert (Q : (0 < qsum (side mm y) h)%Qc).
      { apply in_split in Hc. destruct Hc as (k1 & k2 & Ek). rewrite Ek, qsum_app, qsum_cons.
        assert (K1 : (0 <= qsum (side mm y) k1)%Qc) by (apply qsum_nonneg; intros x Hx; apply Cov; [exact E1|apply Hin; rewrite Ek; apply in_app_iff; left; exact Hx]).
        assert (K2 : (0 <= qsum (side mm y) k2)%Qc) by (apply qsum_nonneg; intros x Hx; apply Cov; [exact E1|apply Hin; rewrite Ek; apply in_app_iff; right; right; exact Hx]).
        set (u1 := qsum (side mm y) k1) in *. set (u2 := qsum (side mm y) k2) in *. clearbody u1 u2. clear - St K1 K2. slra. }
      rewrite <- (ctr_side h mm y Nh) in Q. set (k := side (ctr h) mm y) in *. clearbody k. clear - Q Pn X. set (n := qc_nat (length h)) in *. clearbody n. qcnra. }
    set (k := esum _ h) in *. clearbody k. clear - Hp Hn. set (w := Q2Qc (1 # 2)) in *. clearbody w. qcnra.
Qed.
Example c64_square_area : match convex_hull square with Ok h => match area h with Ok a => this a | _ => 0%Q end | _ => 0%Q end = 16%Q.
Proof. vm_compute. reflexivity. Qed.
Print Assumptions c64_area.
