(** Vocabulary of C55-C58: windows of a waveform and their extreme values *)
From Coq Require Import QArith Qcanon.
From Verif Require Import Base.
Local Open Scope Qc_scope.

(** [v] is the least (greatest) of the samples [lo], ..., [hi] *)
Definition least_in (w : list Qc) (lo hi : nat) (v : Qc) : Prop :=
  (exists j, (lo <= j <= hi)%nat /\ nth_error w j = Some v) /\ forall j x, (lo <= j <= hi)%nat -> nth_error w j = Some x -> v <= x.
Definition greatest_in (w : list Qc) (lo hi : nat) (v : Qc) : Prop :=
  (exists j, (lo <= j <= hi)%nat /\ nth_error w j = Some v) /\ forall j x, (lo <= j <= hi)%nat -> nth_error w j = Some x -> x <= v.
(** the window of tick [i] of [n], half width [h]: i-h+1 ... i+h cut to the waveform; the last h ticks share the last complete window *)
Definition win_lo (n h i : nat) : nat := Nat.min i (n - 1 - h) + 1 - h.
Definition win_hi (n h i : nat) : nat := Nat.min (i + h) (n - 1).
(** [v] is a median of the odd number of samples [l]: at most half of them are less, at most half are greater *)
Definition median_of (l : list Qc) (v : Qc) : Prop :=
  In v l /\ (2 * length (filter (fun x => if Qclt_le_dec x v then true else false) l) <= length l)%nat /\ (2 * length (filter (fun x => if Qclt_le_dec v x then true else false) l) <= length l)%nat.
