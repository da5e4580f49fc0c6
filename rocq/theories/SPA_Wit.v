(** a detector with unit pitch and planes in different directions, for the examples *)
From Coq Require Import QArith Qcanon Lqa.
From Verif Require Import Base QcUtil Solver_Model SPA_Model SPA_Spec SPA_Compat SPA_Geom.
Import SPA_Model.
Local Open Scope nat_scope.

(** plane p: direction (2 p, 1 - p^2) / (1 + p^2): planes 0, 1, 2 along z, along y, and at (4/5, -3/5) *)
Definition nrm (p : nat) : Qc := (1 + nat_q p * nat_q p)%Qc.
Definition dsn (p : nat) : Qc := (Q2Qc 2 * nat_q p / nrm p)%Qc.
Definition dcs (p : nat) : Qc := ((1 - nat_q p * nat_q p) / nrm p)%Qc.
Definition len : Qc := Q2Qc 100.
Definition wwire (p w : nat) : wire :=
  let y := (- dcs p * nat_q w)%Qc in let z := (dsn p * nat_q w)%Qc in
  Wire (y - len * dsn p)%Qc (z - len * dcs p)%Qc (y + len * dsn p)%Qc (z + len * dcs p)%Qc y z len.
Definition wgeo (shape : list (list nat)) : geo :=
  Geo shape (fun _ _ p w => wwire p w) (fun _ _ _ => 1%Qc) (fun _ _ p => p =? 2) (fun _ _ _ => 0%Qc) 1%Qc.

Lemma nrm_pos p : (0 < nrm p)%Qc.
Proof. unfold nrm. pose proof (nat_q_nonneg p). generalize dependent (nat_q p). intros x H. assert (0 <= x * x)%Qc by (replace 0%Qc with (0 * x)%Qc by ring; apply Qcmult_le_compat_r; assumption). revert H0. generalize (x * x)%Qc. clear. intros; qclra. Qed.
Lemma two_ne : Q2Qc 2 <> 0%Qc.
Proof. intros X. apply (f_equal this) in X. vm_compute in X. discriminate. Qed.
Lemma len_pos : (0 < len)%Qc. Proof. reflexivity. Qed.
Lemma sn_w p w : sn (wwire p w) = dsn p.
Proof. unfold sn, wwire. cbn [ye ys hl]. pose proof two_ne as T. rewrite two_q in *. field. split; [apply pos_ne, len_pos|exact T]. Qed.
Lemma cs_w p w : cs (wwire p w) = dcs p.
Proof. unfold cs, wwire. cbn [ze zs hl]. pose proof two_ne as T. rewrite two_q in *. field. split; [apply pos_ne, len_pos|exact T]. Qed.
Lemma unit_d p : (dsn p * dsn p + dcs p * dcs p = 1)%Qc.
Proof. unfold dsn, dcs. pose proof (pos_ne _ (nrm_pos p)) as N. unfold nrm in *. replace (Q2Qc 2) with (1 + 1)%Qc by (apply Qc_is_canon; reflexivity). field. exact N. Qed.
Lemma off_w p w : off (wwire p w) = nat_q w.
Proof.
  unfold off, coord. rewrite sn_w, cs_w. unfold wwire. cbn [ys zs]. transitivity (nat_q w * (dsn p * dsn p + dcs p * dcs p))%Qc; [ring|rewrite unit_d; ring].
Qed.
Lemma nat_q_inj p q : nat_q p = nat_q q -> p = q.
Proof. unfold nat_q. intros E. apply (proj1 (Q2Qc_eq_iff _ _)) in E. unfold Qeq, inject_Z in E. cbn [Qnum Qden] in E. lia. Qed.
Lemma wgeo_regular shape : (forall c ts t np, nth_error shape c = Some ts -> nth_error ts t = Some np -> np <= 3) -> regular (wgeo shape).
Proof.
  intros H. constructor; cbn [wgeo g_wire g_pitch g_shape].
  - intros _ _ p w. split; [reflexivity|]. split; unfold wwire; cbn [yc ys ye zc zs ze]; rewrite two_q; ring.
  - intros _ _ p w. rewrite !sn_w, !cs_w. auto.
  - intros _ _ p w. rewrite !off_w. change (nat_q 0) with 0%Qc. ring.
  - intros; reflexivity.
  - intros _ _ p q D X. rewrite !sn_w, !cs_w in X. unfold dsn, dcs in X. pose proof (nrm_pos p) as Np. pose proof (nrm_pos q) as Nq.
    assert (E : (Q2Qc 2 * ((nat_q p - nat_q q) * (1 + nat_q p * nat_q q)) = 0)%Qc).
    { transitivity ((Q2Qc 2 * nat_q p / nrm p * ((1 - nat_q q * nat_q q) / nrm q) - Q2Qc 2 * nat_q q / nrm q * ((1 - nat_q p * nat_q p) / nrm p)) * (nrm p * nrm q))%Qc; [|rewrite X; ring].
      field. split; apply pos_ne; assumption. }
    apply Qcmult_integral in E as [E|E]; [exact (two_ne E)|]. apply Qcmult_integral in E as [E|E].
    + apply D, nat_q_inj. replace (nat_q p) with (nat_q p - nat_q q + nat_q q)%Qc by ring. rewrite E. ring.
    + pose proof (nat_q_nonneg p) as A. pose proof (nat_q_nonneg q) as B. revert E A B. generalize (nat_q p) (nat_q q). clear. intros x y E A B. assert (0 <= x * y)%Qc by (replace 0%Qc with (0 * y)%Qc by ring; apply Qcmult_le_compat_r; assumption). revert E H. generalize (x * y)%Qc. intros; qclra.
  - exact H.
Qed.

Definition wcfg (mv : nat) (f mg pr : bool) : cfg := Cfg 1%Qc 1%Qc mv true true true f mg pr 0%Qc 0%Qc 0%Qc.
(** a hit of plane p has view p *)
Definition whit (id t p w : nat) : hit := Hit id 0 t p w (match p with 0 => VU | 1 => VV | _ => VW end) (Q2Qc 100) 1%Qc.
(** the wires 5, 10, 5 of the three planes meet *)
Definition trip (id t : nat) : list hit := [whit id t 0 5; whit (id + 1) t 1 10; whit (id + 2) t 2 5].
Definition two (id t : nat) : list hit := [whit id t 0 5; whit (id + 1) t 1 10].

Lemma wgeo_ok shape : forallb (forallb (fun n => n <=? 3)) shape = true -> regular (wgeo shape).
Proof.
  intros F. apply wgeo_regular. intros c ts t np A B. rewrite forallb_forall in F. apply nth_error_In in A, B. specialize (F ts A). rewrite forallb_forall in F. apply Nat.leb_le. apply F. exact B.
Qed.
