(** Vocabulary of C29, over plain rationals *)
From Coq Require Import QArith Qcanon.
From Verif Require Import Base QcUtil Solver_Model GaussElim_Model CandHit_Spec.
Local Open Scope nat_scope.

(** logarithmic derivative of the signal at tick [i] (0 before the first one used) *)
Definition dev (s : list Qc) (i : nat) : Qc := if Nat.eqb i 0 then 0%Qc else ((nth (i + 1) s 0 - nth (i - 1) s 0) / (qc_nat 2 * nth i s 0))%Qc.
Definition slope (s : list Qc) (i : nat) : Qc := (dev s i - dev s (i - 1))%Qc.
(** estimates (mean, sigma) from the inner ticks at which the derivative falls *)
Definition estimates (sq : Qc -> Qc) (s : list Qc) (ticks : list nat) : list (Qc * Qc) :=
  map (fun i => (qc_nat i - dev s i / slope s i, sq (- (1) / slope s i))%Qc) (filter (fun i => qc_lt (slope s i) 0%Qc) ticks).
Definition avg (l : list Qc) : Qc := (qsum (fun x => x) l / qc_nat (length l))%Qc.
Definition err (sq : Qc -> Qc) (l : list Qc) : Qc := (sq (qsum (fun x => (x - avg l) * (x - avg l)) l) / qc_nat (length l))%Qc.
Definition gmean (g : list (Qc * Qc)) : Qc := avg (map fst g).
(** estimates closer than the match threshold / further apart *)
Definition close (thr : Qc) (a b : Qc * Qc) : Prop := (qabs (fst b - fst a) <= thr)%Qc.
Definition apart (thr : Qc) (g g' : list (Qc * Qc)) : Prop := exists g0 c d g1, g = g0 ++ [c] /\ g' = d :: g1 /\ (thr < qabs (fst d - fst c))%Qc.
Record grouping (thr : Qc) (set : list (Qc * Qc)) (gs : list (list (Qc * Qc))) : Prop := {
  gr_split : concat gs = set;
  gr_nonempty : forall g, In g gs -> g <> [];
  gr_close : forall g, In g gs -> chain (close thr) g;
  gr_apart : chain (apart thr) gs }.
(** enough members and an average inside the signal *)
Definition accepted (multi size : nat) (g : list (Qc * Qc)) : bool :=
  (multi <=? length g) && negb (qc_lt (gmean g) 0%Qc) && negb (qc_lt (qc_nat (size - 1)) (gmean g)).
(** the signal interpolated at [q] *)
Definition interp (s : list Qc) (q : Qc) : Qc := let b := qfloor q in ((1 - (q - qc_nat b)) * nth b s 0 + (q - qc_nat b) * nth (b + 1) s 0)%Qc.
(** [l'] is [l] with some elements left out *)
Inductive subseq {A} : list A -> list A -> Prop :=
| ss_nil : subseq [] []
| ss_keep x l' l : subseq l' l -> subseq (x :: l') (x :: l)
| ss_drop x l' l : subseq l' l -> subseq l' (x :: l).
