(** wires that cross are in reach *)
From Coq Require Import QArith Qcanon Lqa.
From Verif Require Import Base QcUtil Solver_Model SPA_Model SPA_Spec SPA_Compat SPA_Fit SPA_Geom SPA_Make SPA_Out.
Import SPA_Model.
Local Open Scope nat_scope.

Lemma segment_on w y z : straight w -> on_segment w y z -> on_wire w y z.
Proof.
  intros (P & _) (l & _ & _ & -> & ->). unfold on_wire, off, coord, sn, cs.
  assert (N : (Q2Qc 2 * hl w <> 0)%Qc) by (intros X; apply pos_ne in P; apply P; apply Qcmult_integral in X as [X|X]; [apply (f_equal this) in X; vm_compute in X; discriminate|exact X]).
  field. split; [intros X; apply N; rewrite X; ring|intros X; apply (f_equal this) in X; vm_compute in X; discriminate].
Qed.
Section reach.
Context (g : geo) (R : regular g).
Lemma coord_par h y z : coord (wr g h) y z = coord (g_wire g (hcryo h) (htpc h) (hplane h) 0) y z.
Proof. unfold coord, wr. destruct (r_parallel g R (hcryo h) (htpc h) (hplane h) (hwire h)) as (-> & ->). reflexivity. Qed.
Lemma number_coord h y z : (coord (wr g h) y z - off (wr g h) = (number g h y z - nat_q (hwire h)) * pitch_of g h)%Qc.
Proof.
  rewrite coord_par. unfold number, pitch_of, wr. rewrite (r_spaced g R). pose proof (pos_ne _ (r_pitch g R (hcryo h) (htpc h) (hplane h))). field. exact H.
Qed.
Lemma number_line h w l : number g h (ys w + l * (ye w - ys w))%Qc (zs w + l * (ze w - zs w))%Qc = (number g h (ys w) (zs w) + l * (number g h (ye w) (ze w) - number g h (ys w) (zs w)))%Qc.
Proof. unfold number, coord. pose proof (pos_ne _ (r_pitch g R (hcryo h) (htpc h) (hplane h))). field. exact H. Qed.
Lemma between_le (x1 x2 l n : Qc) : (0 <= l)%Qc -> (l <= 1)%Qc -> (n = x1 + l * (x2 - x1))%Qc -> (x1 <= n \/ x2 <= n)%Qc /\ (n <= x1 \/ n <= x2)%Qc.
Proof.
  intros A B E. destruct (Qclt_le_dec x1 x2) as [L|L].
  - assert (0 <= l * (x2 - x1))%Qc by (apply mul_nonneg; [exact A|clear -L; qclra]). assert (0 <= (1 - l) * (x2 - x1))%Qc by (apply mul_nonneg; [clear -B; qclra|clear -L; qclra]).
    split; [left|right]; [subst n; clear -H; revert H; generalize (l * (x2 - x1))%Qc; intros; qclra|]. replace x2 with (n + (1 - l) * (x2 - x1))%Qc at 1 by (subst n; ring). revert H0. generalize ((1 - l) * (x2 - x1))%Qc. clear. intros; qclra.
  - assert (0 <= l * (x1 - x2))%Qc by (apply mul_nonneg; [exact A|clear -L; qclra]). assert (0 <= (1 - l) * (x1 - x2))%Qc by (apply mul_nonneg; [clear -B; qclra|clear -L; qclra]).
    split; [right|left]; [replace n with (x2 + (1 - l) * (x1 - x2))%Qc by (subst n; ring); revert H0; generalize ((1 - l) * (x1 - x2))%Qc; clear; intros; qclra|]. replace x1 with (n + l * (x1 - x2))%Qc at 1 by (subst n; ring). revert H. generalize (l * (x1 - x2))%Qc. clear. intros; qclra.
Qed.

Theorem cross_reaches a b : cross g a b -> reaches g a b.
Proof.
  intros (y & z & (l & A & B & -> & ->) & Sb). apply segment_on in Sb; [|apply (r_straight g R)]. unfold on_wire in Sb.
  assert (E : number g b (ys (wr g a) + l * (ye (wr g a) - ys (wr g a)))%Qc (zs (wr g a) + l * (ze (wr g a) - zs (wr g a)))%Qc = nat_q (hwire b)).
  { pose proof (number_coord b (ys (wr g a) + l * (ye (wr g a) - ys (wr g a)))%Qc (zs (wr g a) + l * (ze (wr g a) - zs (wr g a)))%Qc) as X. rewrite Sb in X.
    pose proof (pos_ne _ (r_pitch g R (hcryo b) (htpc b) (hplane b))) as P. fold (pitch_of g b) in P. assert (Y : ((number g b (ys (wr g a) + l * (ye (wr g a) - ys (wr g a))) (zs (wr g a) + l * (ze (wr g a) - zs (wr g a))) - nat_q (hwire b)) * pitch_of g b = 0)%Qc) by (rewrite <- X; ring).
    apply Qcmult_integral in Y as [Y|Y]; [|contradiction]. revert Y. generalize (number g b (ys (wr g a) + l * (ye (wr g a) - ys (wr g a))) (zs (wr g a) + l * (ze (wr g a) - zs (wr g a))))%Qc. intros q Y. replace q with (q - nat_q (hwire b) + nat_q (hwire b))%Qc by ring. rewrite Y. ring. }
  rewrite number_line in E. unfold reaches. cbv zeta. symmetry in E. destruct (between_le _ _ _ _ A B E) as (H1 & H2). revert H1 H2. generalize (number g b (ys (wr g a)) (zs (wr g a))) (number g b (ye (wr g a)) (ze (wr g a))) (nat_q (hwire b)). clear. intros x1 x2 n H1 H2.
  split; [destruct H1 as [H1|H1]; [left|right]; qclra|right; destruct H2 as [H2|H2]; [left|right]; qclra].
Qed.

Theorem reaches_near a b : hwire b <> 0 -> reaches g a b -> near_wire g a b.
Proof.
  intros Nz (H1 & [X|H2]); [contradiction|]. set (x1 := number g b (ys (wr g a)) (zs (wr g a))) in *. set (x2 := number g b (ye (wr g a)) (ze (wr g a))) in *. set (n := nat_q (hwire b)) in *.
  assert (G : exists l, (0 <= l /\ l <= 1 /\ upto 1 (x1 + l * (x2 - x1) - n))%Qc).
  { clearbody x1 x2 n. clear -H1 H2. unfold upto.
    assert (T : forall l, (upto 1 (x1 + l * (x2 - x1) - n) -> 0 <= l -> l <= 1 -> exists l, 0 <= l /\ l <= 1 /\ upto 1 (x1 + l * (x2 - x1) - n))%Qc) by (intros l A B C; exists l; auto).
    destruct (Qclt_le_dec (x1 - n) (-(1))) as [A|A].
    - (* x1 too low *) assert (Hx : (n <= x2 + 1)%Qc) by (destruct H2 as [H2|H2]; [exfalso; qclra|exact H2]).
      destruct (Qclt_le_dec 1 (x2 - n)) as [B|B].
      + assert (D : (0 < x2 - x1)%Qc) by qclra. apply (T ((n - x1) / (x2 - x1))%Qc).
        * assert (E : (x1 + (n - x1) / (x2 - x1) * (x2 - x1) - n = 0)%Qc) by (field; apply pos_ne; exact D). rewrite E. split; qclra.
        * apply Qclt_le_weak, div_pos; [qclra|exact D].
        * assert (E : (1 - (n - x1) / (x2 - x1) = (x2 - n) / (x2 - x1))%Qc) by (field; apply pos_ne; exact D). assert (0 < (x2 - n) / (x2 - x1))%Qc by (apply div_pos; [qclra|exact D]). rewrite <- E in H. revert H. generalize ((n - x1) / (x2 - x1))%Qc. clear. intros; qclra.
      + apply (T 1%Qc); [|qclra|qclra]. replace (x1 + 1 * (x2 - x1) - n)%Qc with (x2 - n)%Qc by ring. split; qclra.
    - destruct (Qclt_le_dec 1 (x1 - n)) as [B|B].
      + assert (Hx : (x2 < n + 1)%Qc) by (destruct H1 as [H1|H1]; [exfalso; qclra|exact H1]).
        destruct (Qclt_le_dec (x2 - n) (-(1))) as [C|C].
        * assert (D : (0 < x1 - x2)%Qc) by qclra. apply (T ((x1 - n) / (x1 - x2))%Qc).
          -- assert (E : (x1 + (x1 - n) / (x1 - x2) * (x2 - x1) - n = 0)%Qc) by (field; apply pos_ne; exact D). rewrite E. split; qclra.
          -- apply Qclt_le_weak, div_pos; [qclra|exact D].
          -- assert (E : (1 - (x1 - n) / (x1 - x2) = (n - x2) / (x1 - x2))%Qc) by (field; apply pos_ne; exact D). assert (0 < (n - x2) / (x1 - x2))%Qc by (apply div_pos; [qclra|exact D]). rewrite <- E in H. revert H. generalize ((x1 - n) / (x1 - x2))%Qc. clear. intros; qclra.
        * apply (T 1%Qc); [|qclra|qclra]. replace (x1 + 1 * (x2 - x1) - n)%Qc with (x2 - n)%Qc by ring. split; qclra.
      + apply (T 0%Qc); [|qclra|qclra]. replace (x1 + 0 * (x2 - x1) - n)%Qc with (x1 - n)%Qc by ring. split; qclra. }
  destruct G as (l & A & B & U). eexists. eexists. split; [exists l; split; [exact A|]; split; [exact B|]; split; reflexivity|]. rewrite number_coord, number_line. fold x1 x2 n.
  pose proof (r_pitch g R (hcryo b) (htpc b) (hplane b)) as P. fold (pitch_of g b) in P. revert U P. generalize (x1 + l * (x2 - x1) - n)%Qc (pitch_of g b). clear. intros q p (U1 & U2) P. split.
  - assert (0 <= (q + 1) * p)%Qc by (apply mul_nonneg; qclra). replace (q * p)%Qc with ((q + 1) * p + - p)%Qc by ring. revert H. generalize ((q + 1) * p)%Qc. clear. intros; qclra.
  - assert (0 <= (1 - q) * p)%Qc by (apply mul_nonneg; qclra). replace p with (q * p + (1 - q) * p)%Qc at 2 by ring. revert H. generalize ((1 - q) * p)%Qc. clear. intros; qclra.
Qed.
End reach.
