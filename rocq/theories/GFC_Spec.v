(** Vocabulary of C38 *)
From Coq Require Import QArith Qcanon.
From Verif Require Import Base QcUtil Solver_Model GFC_Model.
Local Open Scope nat_scope.

(** the Gaussian with the given coefficient, mean and sigma *)
Definition bell (exp : Qc -> Qc) (a m s x : Qc) : Qc := (a * exp (- (/ (1 + 1)) * (((x - m) / s) * ((x - m) / s))))%Qc.
(** cut off at [cut] sigmas *)
Definition bell_cut (exp : Qc -> Qc) (cut : nat) (a m s x : Qc) : Qc :=
  if qc_lt (- qc_nat cut) ((x - m) / s)%Qc && qc_lt ((x - m) / s)%Qc (qc_nat cut) then bell exp a m s x else 0%Qc.
Definition shape (exp : Qc -> Qc) (k : kind) := match k with Truncated _ cut => bell_cut exp cut | _ => bell exp end.
(** how many Gaussians a cache supports *)
Definition supports (k : kind) (n : nat) : Prop := match k with RunTime => True | Compiled m => n <= m | Truncated m _ => n <= m end.
(** [f] is the sum of n such Gaussians, with parameters coefficient, mean, sigma of the first, then of the second, ... *)
Definition sum_of (exp : Qc -> Qc) (k : kind) (n : nat) (f : tf1) : Prop :=
  nparams f = 3 * n /\ forall x p, eval exp f x p = qsum (fun i => shape exp k (nth (3 * i) p (0%Qc)) (nth (3 * i + 1) p (0%Qc)) (nth (3 * i + 2) p (0%Qc)) x) (seq 0 n).
