(** C23, C24 *)
From Coq Require Import QArith Qcanon.
From Verif Require Import Base Util QcUtil Solver_Model Solver_Proofs DBScan_Model DBScan_Spec DBScan_Proofs.
Local Open Scope nat_scope.

(** C23: whatever labels dbscan ends with are a DBSCAN clustering of the points *)
Theorem c23_dbscan_correct C fuel lab : dbscan C fuel = Some lab -> clustering C lab.
Proof.
  intros H. destruct (dbscan_ok C (Nat.max fuel (2 * length (c_pts C))) ltac:(lia)) as (l & k & E & Hc & _).
  rewrite (dbscan_mono C fuel (Nat.max fuel (2 * length (c_pts C))) lab (Nat.le_max_l _ _) H) in E. inversion E; subst. exact Hc.
Qed.
Print Assumptions c23_dbscan_correct.

(** C23: in particular every point has a final label *)
Theorem c23_no_unclassified C fuel lab i :
  dbscan C fuel = Some lab -> i < length (c_pts C) -> nth i lab UNCLASSIFIED = NOISE \/ (0 <= nth i lab UNCLASSIFIED)%Z.
Proof.
  intros H Hi. destruct (dbscan_ok C (Nat.max fuel (2 * length (c_pts C))) ltac:(lia)) as (l & k & E & _ & Hn & _).
  rewrite (dbscan_mono C fuel (Nat.max fuel (2 * length (c_pts C))) lab (Nat.le_max_l _ _) H) in E. inversion E; subst. destruct (Hn i Hi) as [X|X]; [left; exact X|right; lia].
Qed.
Print Assumptions c23_no_unclassified.

(** C24: it terminates: the seed list is walked to its end within twice the number of points steps, for every input *)
Theorem c24_terminates C : exists lab, forall fuel, 2 * length (c_pts C) <= fuel -> dbscan C fuel = Some lab.
Proof.
  destruct (dbscan_ok C (2 * length (c_pts C)) ltac:(lia)) as (l & k & E & _). exists l. intros fuel Hf.
  apply (dbscan_mono C _ _ l Hf E).
Qed.
Print Assumptions c24_terminates.

(** C24: cluster ids are 0..k-1 without gaps, in the order of their first core point *)
Theorem c24_numbering C fuel lab : dbscan C fuel = Some lab -> exists k, numbered C lab k.
Proof.
  intros H. destruct (dbscan_ok C (Nat.max fuel (2 * length (c_pts C))) ltac:(lia)) as (l & k & E & _ & Hn).
  rewrite (dbscan_mono C fuel (Nat.max fuel (2 * length (c_pts C))) lab (Nat.le_max_l _ _) H) in E. inversion E; subst. exists k. exact Hn.
Qed.
Print Assumptions c24_numbering.

(** non-trivial case: points on a line at 0,1,2, 10,11,12, 30 and 4 (a border point that is first noise): two clusters, one noise *)
Definition onx (q : nat) : pt := mkPt (qc_nat q) 0%Qc 0%Qc 0.
Definition ex_cfg : cfg := mkCfg (qc_nat 4) 2 0%Qc (map onx [30; 4; 0; 1; 2; 10; 11; 12]).
Example c23_nonvacuous : dbscan ex_cfg 16 = Some [-2; 0; 0; 0; 0; 1; 1; 1]%Z.
Proof. vm_compute. reflexivity. Qed.
(** a border point in reach of two clusters ends in the later one: 0 1 2 | 4 | 6 7 8 with minpts 3 *)
Definition ex_cfg2 : cfg := mkCfg (qc_nat 4) 3 0%Qc (map onx [0; 1; 2; 4; 6; 7; 8]).
Example c23_border_stolen : dbscan ex_cfg2 14 = Some [0; 0; 0; 1; 1; 1; 1]%Z.
Proof. vm_compute. reflexivity. Qed.
(** bad channels widen the reach *)
Example c23_bad_channels : dbscan (mkCfg 1%Qc 1 (qc_nat 1) [mkPt 0%Qc 0%Qc 0%Qc 1; mkPt (qc_nat 2) 0%Qc 0%Qc 1; mkPt (qc_nat 4) 0%Qc 0%Qc 0]) 6 = Some [0; 0; -2]%Z.
Proof. vm_compute. reflexivity. Qed.
