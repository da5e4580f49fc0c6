(** Vocabulary of C26-C28 *)
From Coq Require Import QArith Qcanon.
From Verif Require Import Base Solver_Model CandHit_Model.
Local Open Scope nat_scope.

(** tick [j] is where a pulse going down towards earlier / later times ends: the signal is below minus the threshold, or it turns up again by at least
    the configured step *)
Definition left_edge (w : list Qc) (thr nadc : Qc) (j : nat) : Prop :=
  (nth j w 0 < - thr)%Qc \/ (nth j w 0 < nth (j + 1) w 0 /\ nadc <= nth (j - 1) w 0 - nth j w 0)%Qc.
Definition right_edge (w : list Qc) (thr nadc : Qc) (j : nat) : Prop :=
  (nth j w 0 < - thr)%Qc \/ (nth j w 0 < nth (j - 1) w 0 /\ nadc <= nth (j + 1) w 0 - nth j w 0)%Qc.

(** candidate [c] describes the pulse over the samples [f..l] with its peak at [m] *)
Definition peak (w : list Qc) (thr nadc : Qc) (c : cand) (f m l : nat) : Prop :=
  h_maxT c = h_start c /\ h_minT c = h_stop c /\ h_maxD c = nth f w 0%Qc /\ h_minD c = nth l w 0%Qc /\
  h_height c = nth m w 0%Qc /\ (thr < nth m w 0)%Qc /\
  (forall j, f <= j <= l -> (nth j w 0 <= nth m w 0)%Qc) /\ (forall j, f <= j < m -> (nth j w 0 < nth m w 0)%Qc) /\
  h_sigma c = qmax (qc_nat 2) (qc_nat (l - f) / qc_nat 6)%Qc /\
  (2 < m - f -> forall j, f < j < m -> ~ left_edge w thr nadc j) /\ (2 < l - m -> forall j, m < j < l -> ~ right_edge w thr nadc j).

(** time order: the next candidate starts no earlier than the stop tick of the one before, and has a later peak *)
Definition before (c d : cand) : Prop := h_stop c <= h_start d /\ h_center c < h_center d.

(** successive elements satisfy [R] *)
Fixpoint chain {A} (R : A -> A -> Prop) (l : list A) : Prop :=
  match l with
  | x :: (y :: _) as l' => R x y /\ chain R l'
  | _ => True
  end.
(** gap between the stop of one candidate and the start of the next *)
Definition gap (c d : cand) : Z := (Z.of_nat (h_start d) - Z.of_nat (h_stop c))%Z.
