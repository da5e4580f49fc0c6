(** the position of a point is the least-squares fit *)
From Coq Require Import QArith Qcanon Lqa.
From Verif Require Import Base QcUtil Solver_Model Solver_Proofs SPS_Model SPA_Model SPA_Spec SPA_Compat.
Import SPA_Model.
Local Open Scope Qc_scope.

Lemma fsum_total {A} (f : A -> Qc) l : fsum f l = total f l.
Proof.
  unfold fsum. assert (G : forall l a, fold_left (fun s x => s + f x) l a = a + total f l).
  { clear l. induction l as [|x l IH]; intros a; cbn [fold_left total fold_right]; [ring|]. rewrite IH. unfold total. ring. }
  rewrite G. ring.
Qed.
Lemma total_ext {A} (f h : A -> Qc) l : (forall x, In x l -> f x = h x) -> total f l = total h l.
Proof. induction l as [|x l IH]; intros H; cbn [total fold_right]; [reflexivity|]. rewrite (H x (or_introl eq_refl)). f_equal. apply IH. intros y Y; apply H; right; exact Y. Qed.
Lemma total_plus {A} (f h : A -> Qc) l : total (fun x => f x + h x) l = total f l + total h l.
Proof. induction l as [|x l IH]; cbn; [ring|]. unfold total in IH. rewrite IH. ring. Qed.
Lemma total_scal {A} k (f : A -> Qc) l : total (fun x => k * f x) l = k * total f l.
Proof. induction l as [|x l IH]; cbn; [ring|]. unfold total in IH. rewrite IH. ring. Qed.
Lemma total_nonneg {A} (f : A -> Qc) l : (forall x, In x l -> 0 <= f x) -> 0 <= total f l.
Proof.
  induction l as [|x l IH]; intros H; cbn [total fold_right]; [qclra|].
  pose proof (H x (or_introl eq_refl)). assert (0 <= total f l) by (apply IH; intros y Y; apply H; right; exact Y).
  change (fold_right (fun x s => f x + s) 0 l) with (total f l). revert H0 H1. generalize (f x) (total f l). intros. qclra.
Qed.
Lemma total_zero {A} (f : A -> Qc) l : (forall x, In x l -> 0 <= f x) -> total f l = 0 -> forall x, In x l -> f x = 0.
Proof.
  induction l as [|y l IH]; intros H E x I; [destruct I|]. cbn [total fold_right] in E.
  change (fold_right (fun x s => f x + s) 0 l) with (total f l) in E.
  pose proof (H y (or_introl eq_refl)) as H0. assert (H1 : 0 <= total f l) by (apply total_nonneg; intros z Z; apply H; right; exact Z).
  assert (f y = 0 /\ total f l = 0) as (E1 & E2).
  { revert H0 H1 E. generalize (f y) (total f l). intros q q0 A1 A2 A3. split; qclra. }
  destruct I as [<-|I]; [exact E1|]. apply IH; auto. intros z Z; apply H; right; exact Z.
Qed.
Lemma total_pos {A} (f : A -> Qc) l : l <> [] -> (forall x, In x l -> 0 < f x) -> 0 < total f l.
Proof.
  destruct l as [|x l]; [congruence|]. intros _ H. cbn [total fold_right]. pose proof (H x (or_introl eq_refl)).
  assert (0 <= total f l). { apply total_nonneg. intros y Y. apply Qclt_le_weak, H. right; exact Y. }
  change (fold_right (fun x s => f x + s) 0 l) with (total f l). revert H0 H1. generalize (f x) (total f l). intros. qclra.
Qed.
Lemma sq_nonneg x : 0 <= sq x. Proof. unfold sq. qcnra. Qed.
Lemma sq_zero x : sq x = 0 -> x = 0.
Proof. unfold sq. intros H. apply Qcmult_integral in H. tauto. Qed.
Lemma mul_nonneg x y : 0 <= x -> 0 <= y -> 0 <= x * y. Proof. intros. qcnra. Qed.
Lemma mul_pos x y : 0 < x -> 0 < y -> 0 < x * y. Proof. intros. qcnra. Qed.

(** weighted mean *)
Lemma mean_min {A} (w t : A -> Qc) l : (forall x, In x l -> 0 < w x) -> l <> [] ->
  let W := total w l in let d := total (fun x => w x * t x) l / W in
  W <> 0 /\ total (fun x => w x * t x * t x) l - total (fun x => w x * t x) l * d = total (fun x => w x * sq (t x - d)) l /\
  forall d', total (fun x => w x * sq (t x - d)) l <= total (fun x => w x * sq (t x - d')) l.
Proof.
  intros H N W d. assert (P : 0 < W) by (apply total_pos; assumption).
  assert (E : forall e, total (fun x => w x * sq (t x - e)) l = total (fun x => w x * t x * t x) l - (1 + 1) * e * total (fun x => w x * t x) l + e * e * W).
  { intros e. unfold W. rewrite (total_ext _ (fun x => (w x * t x * t x + (- (1 + 1) * e) * (w x * t x)) + (e * e) * w x)).
    - rewrite !total_plus, !total_scal. ring.
    - intros x _. unfold sq. ring. }
  assert (D : total (fun x => w x * t x) l = d * W) by (unfold d; field; apply pos_ne; exact P).
  split; [apply pos_ne; exact P|]. split.
  - rewrite E, D. ring.
  - intros d'. rewrite !E, D. clear E D. clearbody d. revert P. generalize W. clear. intros W P.
    generalize (total (fun x => w x * t x * t x) l). intros q.
    assert (X : 0 <= W * sq (d - d')) by (apply mul_nonneg; [apply Qclt_le_weak; exact P|apply sq_nonneg]). unfold sq in X.
    revert X. set (X := W * ((d - d') * (d - d'))). intros X0.
    assert (Y : q - (1 + 1) * d' * (d * W) + d' * d' * W = q - (1 + 1) * d * (d * W) + d * d * W + X) by (unfold X; ring).
    rewrite Y. clear Y. clearbody X. revert X0. generalize (q - (1 + 1) * d * (d * W) + d * d * W). intros. qclra.
Qed.

(** the linear fit in two unknowns *)
Section lin.
Context {A : Type} (v u s c : A -> Qc) (l : list A).
Hypothesis vpos : forall x, In x l -> 0 < v x.
Let sus := total (fun x => v x * u x * s x) l.
Let suc := total (fun x => v x * u x * c x) l.
Let sc2 := total (fun x => v x * c x * c x) l.
Let ss2 := total (fun x => v x * s x * s x) l.
Let ssc := total (fun x => v x * s x * c x) l.
Definition form (y z : Qc) : Qc := total (fun x => v x * sq (z * s x - y * c x)) l.
Lemma form_eq y z : form y z = z * z * ss2 - (1 + 1) * y * z * ssc + y * y * sc2.
Proof.
  unfold form, ss2, ssc, sc2.
  rewrite (total_ext _ (fun x => ((z * z) * (v x * s x * s x) + (- (1 + 1) * y * z) * (v x * s x * c x)) + (y * y) * (v x * c x * c x))).
  - rewrite !total_plus, !total_scal. ring.
  - intros x _. unfold sq. ring.
Qed.
Lemma denom_ne a b : In a l -> In b l -> s a * c b <> s b * c a -> sc2 * ss2 - ssc * ssc <> 0.
Proof.
  intros Ia Ib X D.
  assert (V : forall y z x, form y z = 0 -> In x l -> z * s x = y * c x).
  { intros y z x F I. unfold form in F. pose proof (total_zero _ l (fun x0 I0 => mul_nonneg _ _ (Qclt_le_weak _ _ (vpos x0 I0)) (sq_nonneg _)) F x I) as Z.
    cbv beta in Z. apply Qcmult_integral in Z. destruct Z as [Z|Z]; [exfalso; apply (pos_ne _ (vpos x I)); exact Z|].
    apply sq_zero in Z. assert (T : z * s x = (z * s x - y * c x) + y * c x) by ring. rewrite T, Z. ring. }
  assert (F : form ss2 ssc = 0).
  { rewrite form_eq. assert (T : ssc * ssc * ss2 - (1 + 1) * ss2 * ssc * ssc + ss2 * ss2 * sc2 = ss2 * (sc2 * ss2 - ssc * ssc)) by ring. rewrite T, D. ring. }
  pose proof (V _ _ a F Ia) as Va. pose proof (V _ _ b F Ib) as Vb.
  assert (Z : ss2 = 0).
  { destruct (Qc_eq_dec ss2 0) as [E|E]; [exact E|]. exfalso. apply X.
    assert (T : ss2 * (s a * c b - s b * c a) = 0).
    { assert (T : ss2 * (s a * c b - s b * c a) = s a * (ss2 * c b) - s b * (ss2 * c a)) by ring. rewrite T, <- Va, <- Vb. ring. }
    apply Qcmult_integral in T. destruct T as [T|T]; [contradiction|].
    assert (T' : s a * c b = (s a * c b - s b * c a) + s b * c a) by ring. rewrite T', T. ring. }
  assert (S0 : forall x, In x l -> s x = 0).
  { intros x I. unfold ss2 in Z.
    assert (Zx : v x * s x * s x = 0).
    { apply (total_zero (fun x => v x * s x * s x) l); [|exact Z|exact I]. intros x0 I0. rewrite <- Qcmult_assoc. apply mul_nonneg; [apply Qclt_le_weak, vpos; exact I0|apply (sq_nonneg (s x0))]. }
    rewrite <- Qcmult_assoc in Zx. apply Qcmult_integral in Zx. destruct Zx as [Zx|Zx]; [exfalso; apply (pos_ne _ (vpos x I)); exact Zx|].
    apply (sq_zero (s x)). exact Zx. }
  apply X. rewrite (S0 a Ia), (S0 b Ib). ring.
Qed.
Let den := sc2 * ss2 - ssc * ssc.
Let y0 := (- suc * ss2 + sus * ssc) / den.
Let z0 := (sus * sc2 - suc * ssc) / den.
Definition resid (y z : Qc) : Qc := total (fun x => v x * sq (z * s x - y * c x - u x)) l.
Lemma resid_min : den <> 0 -> forall y z, resid y0 z0 <= resid y z.
Proof.
  intros D y z.
  assert (E1 : suc - z0 * ssc + y0 * sc2 = 0) by (unfold z0, y0, den in *; field; exact D).
  assert (E2 : sus - z0 * ss2 + y0 * ssc = 0) by (unfold z0, y0, den in *; field; exact D).
  assert (E : resid y z = resid y0 z0 + form (y - y0) (z - z0)).
  { assert (R : forall y z, resid y z = total (fun x => v x * u x * u x) l - (1 + 1) * z * sus + (1 + 1) * y * suc + (z * z * ss2 - (1 + 1) * y * z * ssc + y * y * sc2)).
    { clear. intros y z. unfold resid, sus, suc, ss2, ssc, sc2.
      rewrite (total_ext _ (fun x => ((v x * u x * u x + (- (1 + 1) * z) * (v x * u x * s x)) + ((1 + 1) * y) * (v x * u x * c x)) + (((z * z) * (v x * s x * s x) + (- (1 + 1) * y * z) * (v x * s x * c x)) + (y * y) * (v x * c x * c x)))).
      - rewrite !total_plus, !total_scal. ring.
      - intros x _. unfold sq. ring. }
    rewrite !R, form_eq.
    assert (A1 : suc = z0 * ssc - y0 * sc2) by (assert (T : suc = (suc - z0 * ssc + y0 * sc2) + (z0 * ssc - y0 * sc2)) by ring; rewrite T, E1; ring).
    assert (A2 : sus = z0 * ss2 - y0 * ssc) by (assert (T : sus = (sus - z0 * ss2 + y0 * ssc) + (z0 * ss2 - y0 * ssc)) by ring; rewrite T, E2; ring).
    clearbody y0 z0. rewrite A1, A2. ring. }
  rewrite E. assert (F : 0 <= form (y - y0) (z - z0)).
  { unfold form. apply total_nonneg. intros x I. apply mul_nonneg; [apply Qclt_le_weak, vpos; exact I|apply sq_nonneg]. }
  revert F. generalize (form (y - y0) (z - z0)) (resid y0 z0). intros. qclra.
Qed.
Lemma err_inv : den <> 0 ->
  let eyy := ss2 / den in let eyz := ssc / den in let ezz := sc2 / den in
  eyy * sc2 - eyz * ssc = 1 /\ eyz * ss2 - eyy * ssc = 0 /\ ezz * ss2 - eyz * ssc = 1 /\ eyz * sc2 - ezz * ssc = 0.
Proof. intros D eyy eyz ezz. unfold eyy, eyz, ezz, den in *. repeat split; field; exact D. Qed.
End lin.

Lemma twelve_ne : Q2Qc 12 <> 0. Proof. intros H. apply (f_equal this) in H. vm_compute in H. discriminate. Qed.
Lemma div_pos x y : 0 < x -> 0 < y -> 0 < x / y.
Proof.
  intros X Y. assert (I : 0 < / y).
  { destruct (Qclt_le_dec 0 (/ y)) as [H|H]; [exact H|]. exfalso.
    assert (E : y * / y = 1) by (apply Qcmult_inv_r, pos_ne; exact Y).
    revert E H Y. generalize (/ y). intros q E H Y. qcnra. }
  unfold Qcdiv. apply mul_pos; assumption.
Qed.

Lemma point_fitted g wt vart hits id : fittable g hits -> hits <> [] -> (forall h, In h hits -> 0 < wt h) ->
  fitted g wt hits (point g wt vart hits id).
Proof.
  intros F N Wp.
  set (w := fun h => wt h / (hsig h * hsig h)).
  set (v := fun h => wt h * (Q2Qc 12 / (pitch_of g h * pitch_of g h))).
  assert (Hw : forall h, In h hits -> 0 < w h).
  { intros h I. destruct (F h I) as (S & _). apply div_pos; [apply Wp; exact I|apply mul_pos; exact S]. }
  assert (Hv : forall h, In h hits -> 0 < v h).
  { intros h I. destruct (F h I) as (_ & _ & P). apply mul_pos; [apply Wp; exact I|]. apply div_pos; [vm_compute; reflexivity|apply mul_pos; exact P]. }
  assert (C : crossing g hits ->
     let s h := sin_of (wire_of g h) in let c h := cos_of (wire_of g h) in
     total (fun h => v h * c h * c h) hits * total (fun h => v h * s h * s h) hits - total (fun h => v h * s h * c h) hits * total (fun h => v h * s h * c h) hits <> 0).
  { intros (a & b & Ia & Ib & X). cbv zeta. apply (denom_ne v (fun h => sin_of (wire_of g h)) (fun h => cos_of (wire_of g h)) hits Hv a b Ia Ib).
    change (wire_of g a) with (wr g a). change (wire_of g b) with (wr g b).
    rewrite !sin_sn, !cos_cs by (apply (F a Ia) || apply (F b Ib)). exact X. }
  constructor.
  - destruct (mean_min w (tm g) hits Hw N) as (M0 & M1 & M2).
    exists (total (fun x => w x * tm g x) hits / total w hits).
    assert (E : forall t, time_chi2 g wt hits t = total (fun x => w x * sq (tm g x - t)) hits).
    { intros t. unfold time_chi2. apply total_ext. intros h I. destruct (F h I) as (S & _). unfold w, sq. field. apply pos_ne; exact S. }
    assert (Gx : sp_x (point g wt vart hits id) = (if qc_eqb (total w hits) 0 then 0 else total (fun x => w x * tm g x) hits / total w hits) * g_x g)
      by (unfold point; cbn [sp_x]; rewrite !fsum_total; reflexivity).
    assert (Gc : sp_chi (point g wt vart hits id) = if qc_eqb (total w hits) 0 then 0 else
        let k := total (fun x => w x * tm g x * tm g x) hits - total (fun x => w x * tm g x) hits * (if qc_eqb (total w hits) 0 then 0 else total (fun x => w x * tm g x) hits / total w hits) in if qc_lt k 0 then 0 else k)
      by (unfold point; cbn [sp_chi]; rewrite !fsum_total; reflexivity).
    rewrite Gx, Gc. destruct (qc_eqb (total w hits) 0) eqn:Z; [apply qc_eqb_spec in Z; contradiction|]. cbv zeta.
    split; [reflexivity|]. split.
    + rewrite M1. destruct (qc_lt _ 0) eqn:L.
      * apply qc_lt_spec in L. exfalso. pose proof (total_nonneg (fun x => w x * sq (tm g x - total (fun x0 => w x0 * tm g x0) hits / total w hits)) hits) as P.
        cbv beta in P. specialize (P (fun x I => mul_nonneg _ _ (Qclt_le_weak _ _ (Hw x I)) (sq_nonneg _))).
        apply (Qclt_not_le _ _ L). exact P.
      * symmetry. apply E.
    + intros t'. rewrite !E. apply M2.
  - intros X y z. specialize (C X). cbv zeta in C. unfold point. cbn [sp_y sp_z]. rewrite !fsum_total. fold v.
    change (fun h => wt h * (Q2Qc 12 / (g_pitch g (hcryo h) (htpc h) (hplane h) * g_pitch g (hcryo h) (htpc h) (hplane h)))) with v.
    assert (E : forall y z, wire_chi2 g wt hits y z = resid v (fun h => dist_of (wire_of g h)) (fun h => sin_of (wire_of g h)) (fun h => cos_of (wire_of g h)) hits y z).
    { intros y1 z1. unfold wire_chi2, resid. apply total_ext. intros h I. destruct (F h I) as (_ & S & P).
      change (wire_of g h) with (wr g h). rewrite sin_sn, cos_cs, dist_off by exact S. unfold v, sq, coord. field. split; [apply pos_ne; exact P|exact twelve_ne]. }
    rewrite !E. change (fun h => wt h * (Q2Qc 12 / (g_pitch g (hcryo h) (htpc h) (hplane h) * g_pitch g (hcryo h) (htpc h) (hplane h)))) with v in *.
    destruct (qc_eqb _ 0) eqn:Z; [apply qc_eqb_spec in Z; contradiction|].
    apply resid_min; assumption.
  - intros X. specialize (C X). cbv zeta in C. cbv beta zeta.
    set (sc2 := total (fun h => v h * cos_of (wire_of g h) * cos_of (wire_of g h)) hits) in *.
    set (ss2 := total (fun h => v h * sin_of (wire_of g h) * sin_of (wire_of g h)) hits) in *.
    set (ssc := total (fun h => v h * sin_of (wire_of g h) * cos_of (wire_of g h)) hits) in *.
    assert (Ecc : total (fun h => wt h / (sq (pitch_of g h) / Q2Qc 12) * sq (cs (wr g h))) hits = sc2).
    { unfold sc2. apply total_ext. intros h I. destruct (F h I) as (_ & S & P). change (wire_of g h) with (wr g h). rewrite cos_cs by exact S. unfold v, sq. field. split; [apply pos_ne; exact P|exact twelve_ne]. }
    assert (Ess : total (fun h => wt h / (sq (pitch_of g h) / Q2Qc 12) * sq (sn (wr g h))) hits = ss2).
    { unfold ss2. apply total_ext. intros h I. destruct (F h I) as (_ & S & P). change (wire_of g h) with (wr g h). rewrite sin_sn by exact S. unfold v, sq. field. split; [apply pos_ne; exact P|exact twelve_ne]. }
    assert (Esc : total (fun h => wt h / (sq (pitch_of g h) / Q2Qc 12) * (sn (wr g h) * cs (wr g h))) hits = ssc).
    { unfold ssc. apply total_ext. intros h I. destruct (F h I) as (_ & S & P). change (wire_of g h) with (wr g h). rewrite sin_sn, cos_cs by exact S. unfold v, sq. field. split; [apply pos_ne; exact P|exact twelve_ne]. }
    rewrite Ecc, Ess, Esc. unfold point. cbn [sp_eyy sp_eyz sp_ezz]. rewrite !fsum_total.
    change (fun h => wt h * (Q2Qc 12 / (g_pitch g (hcryo h) (htpc h) (hplane h) * g_pitch g (hcryo h) (htpc h) (hplane h)))) with v.
    change (total (fun h => wt h * (Q2Qc 12 / (g_pitch g (hcryo h) (htpc h) (hplane h) * g_pitch g (hcryo h) (htpc h) (hplane h))) * cos_of (wire_of g h) * cos_of (wire_of g h)) hits) with sc2.
    change (total (fun h => wt h * (Q2Qc 12 / (g_pitch g (hcryo h) (htpc h) (hplane h) * g_pitch g (hcryo h) (htpc h) (hplane h))) * sin_of (wire_of g h) * sin_of (wire_of g h)) hits) with ss2.
    change (total (fun h => wt h * (Q2Qc 12 / (g_pitch g (hcryo h) (htpc h) (hplane h) * g_pitch g (hcryo h) (htpc h) (hplane h))) * sin_of (wire_of g h) * cos_of (wire_of g h)) hits) with ssc.
    destruct (qc_eqb (sc2 * ss2 - ssc * ssc) 0) eqn:Z; [apply qc_eqb_spec in Z; contradiction|].
    clearbody sc2 ss2 ssc. repeat split; field; exact C.
Qed.

(** two hits: the point is on both wires *)
Lemma two_wires g wt a b p : fittable g [a; b] -> 0 < wt a -> 0 < wt b -> fitted g wt [a; b] p ->
  sn (wr g a) * cs (wr g b) <> sn (wr g b) * cs (wr g a) -> on_wire (wr g a) (sp_y p) (sp_z p) /\ on_wire (wr g b) (sp_y p) (sp_z p).
Proof.
  intros F Wa Wb Fi X. destruct (F a (or_introl eq_refl)) as (_ & _ & Pa). destruct (F b (or_intror (or_introl eq_refl))) as (_ & _ & Pb).
  assert (C : crossing g [a; b]) by (exists a, b; repeat split; [left; reflexivity|right; left; reflexivity|exact X]).
  pose proof (f_yz _ _ _ _ Fi C) as M.
  set (sa := sn (wr g a)) in *. set (ca := cs (wr g a)) in *. set (sb := sn (wr g b)) in *. set (cb := cs (wr g b)) in *.
  set (ua := off (wr g a)). set (ub := off (wr g b)).
  assert (D : sa * cb - sb * ca <> 0) by (intros E; apply X; assert (T : sa * cb = (sa * cb - sb * ca) + sb * ca) by ring; rewrite T, E; ring).
  set (y1 := (sb * ua - sa * ub) / (sa * cb - sb * ca)). set (z1 := (cb * ua - ca * ub) / (sa * cb - sb * ca)).
  specialize (M y1 z1). unfold wire_chi2 in M. cbn [total fold_right] in M.
  assert (Z1 : coord (wr g a) y1 z1 - off (wr g a) = 0).
  { unfold coord. fold sa ca ua. unfold y1, z1. field. exact D. }
  assert (Z2 : coord (wr g b) y1 z1 - off (wr g b) = 0).
  { unfold coord. fold sb cb ub. unfold y1, z1. field. exact D. }
  rewrite Z1, Z2 in M. unfold on_wire.
  set (ra := coord (wr g a) (sp_y p) (sp_z p) - off (wr g a)) in *. set (rb := coord (wr g b) (sp_y p) (sp_z p) - off (wr g b)) in *.
  assert (Q0 : forall h x, 0 < wt h -> 0 < pitch_of g h -> wt h * (sq x / (sq (pitch_of g h) / Q2Qc 12)) = (wt h * (Q2Qc 12 / (pitch_of g h * pitch_of g h))) * sq x).
  { intros h x Hw Hp. unfold sq. field. split; [apply pos_ne; exact Hp|exact twelve_ne]. }
  rewrite !Q0 in M by assumption. clear Q0.
  assert (Ka : 0 < wt a * (Q2Qc 12 / (pitch_of g a * pitch_of g a))) by (apply mul_pos; [exact Wa|apply div_pos; [vm_compute; reflexivity|apply mul_pos; exact Pa]]).
  assert (Kb : 0 < wt b * (Q2Qc 12 / (pitch_of g b * pitch_of g b))) by (apply mul_pos; [exact Wb|apply div_pos; [vm_compute; reflexivity|apply mul_pos; exact Pb]]).
  assert (R : sq ra = 0 /\ sq rb = 0).
  { revert M Ka Kb. generalize (wt a * (Q2Qc 12 / (pitch_of g a * pitch_of g a))) (wt b * (Q2Qc 12 / (pitch_of g b * pitch_of g b))).
    pose proof (sq_nonneg ra) as Na. pose proof (sq_nonneg rb) as Nb. intros ka kb M Ka Kb. revert Na Nb M.
    generalize (sq ra) (sq rb). intros qa qb Na Nb M. assert (Z0 : sq 0 = 0) by (vm_compute; reflexivity). rewrite Z0 in M.
    assert (E : ka * qa + (kb * qb + 0) <= 0) by (replace (ka * 0 + (kb * 0 + 0)) with 0 in M by ring; exact M).
    pose proof (mul_nonneg ka qa (Qclt_le_weak _ _ Ka) Na) as E1. pose proof (mul_nonneg kb qb (Qclt_le_weak _ _ Kb) Nb) as E2.
    assert (E3 : ka * qa = 0 /\ kb * qb = 0) by (revert E E1 E2; generalize (ka * qa) (kb * qb); clear; intros; split; qclra).
    destruct E3 as (E3 & E4). apply Qcmult_integral in E3, E4. split.
    - destruct E3 as [E3|E3]; [exfalso; apply (pos_ne _ Ka); exact E3|exact E3].
    - destruct E4 as [E4|E4]; [exfalso; apply (pos_ne _ Kb); exact E4|exact E4]. }
  destruct R as (Ra & Rb). apply sq_zero in Ra, Rb. unfold ra, rb in Ra, Rb.
  split; [assert (T : coord (wr g a) (sp_y p) (sp_z p) = (coord (wr g a) (sp_y p) (sp_z p) - off (wr g a)) + off (wr g a)) by ring; rewrite T, Ra; ring|
          assert (T : coord (wr g b) (sp_y p) (sp_z p) = (coord (wr g b) (sp_y p) (sp_z p) - off (wr g b)) + off (wr g b)) by ring; rewrite T, Rb; ring].
Qed.
