(** Model of larreco/HitFinder/GaussianEliminationAlg.{h,cxx}.
    Doubles and floats are exact rationals; the exponential is an arbitrary function [ex x] standing for exp(-x*x/2).
    A division by zero is not an IEEE one here (Qc gives 0): the theorems only speak of runs in which every divisor is non-zero. *)
From Coq Require Import QArith Qcanon Qround.
From Verif Require Import Base Solver_Model.
Local Open Scope nat_scope.

(** one result per element, in order, stopping at the first failure *)
Fixpoint traverse {A B} (f : A -> outcome B) (l : list A) : outcome (list B) :=
  match l with
  | [] => Ok []
  | a :: l' => do b <- f a; do bs <- traverse f l'; Ok (b :: bs)
  end.

Section Table.
Variable ex : Qc -> Qc.
(** GaussianEliminationAlg.cxx:35-42: the while loop from [x] on and the final push; [fuel] bounds the number of iterations ([None]: exceeded) *)
Fixpoint table_loop (fuel : nat) (step mx x : Qc) : option (list Qc) :=
  match fuel with
  | O => None
  | S fuel' =>
      if qc_lt (mx + step)%Qc x then Some [ex x]
      else match table_loop fuel' step mx (x + step)%Qc with Some t => Some (ex x :: t) | None => None end
  end.
(** GaussianEliminationAlg.cxx:17-27, 29-43: the constructor; throws on negative parameters *)
Definition construct (fuel : nat) (step mx : Qc) : option (outcome (list Qc)) :=
  if qc_lt step 0%Qc || qc_lt mx 0%Qc then Some (Throw UserExn)
  else match table_loop fuel step mx 0%Qc with Some t => Some (Ok t) | None => None end.
End Table.

(** an object: step size, maximal distance, lookup table *)
Record alg := mkAlg { a_step : Qc; a_max : Qc; a_table : list Qc }.
Definition qabs (x : Qc) : Qc := if qc_lt x 0%Qc then (- x)%Qc else x.
(** std::floor and conversion to size_t, for a non-negative argument *)
Definition qfloor (x : Qc) : nat := Z.to_nat (Qfloor x).

(** GaussianEliminationAlg.cxx:45-54 GetDistance *)
Definition get_distance (a : alg) (d : Qc) : outcome Qc :=
  let da := qabs d in
  if qc_lt (a_max a) da then Ok 0%Qc
  else
    let u := (da / a_step a)%Qc in
    let low := qfloor u in
    do t0 <- idx (a_table a) low;
    do t1 <- idx (a_table a) (low + 1);
    Ok (t0 - (u - qc_nat low) * (t0 - t1))%Qc.

(** GaussianEliminationAlg.cxx:80-88 one matrix element; [eps] is numeric_limits<float>::epsilon() *)
Definition element (a : alg) (eps : Qc) (means sigmas : list Qc) (i j : nat) : outcome Qc :=
  do sj <- idx sigmas j;
  if qc_lt sj eps then Ok (if Nat.eqb i j then 1%Qc else 0%Qc)
  else do mi <- idx means i; do mj <- idx means j; get_distance a ((mi - mj) / sj)%Qc.
(** GaussianEliminationAlg.cxx:71-92 FillAugmentedMatrix: every entry is overwritten, so the old content does not matter *)
Definition fill_matrix (a : alg) (eps : Qc) (means sigmas heights : list Qc) : outcome (list (list Qc)) :=
  traverse (fun i => do r <- traverse (element a eps means sigmas i) (seq 0 (length means));
                     do h <- idx heights i; Ok (r ++ [h])) (seq 0 (length means)).

Definition mget (m : list (list Qc)) (i j : nat) : outcome Qc := do r <- idx m i; idx r j.
Definition mset (m : list (list Qc)) (i j : nat) (v : Qc) : outcome (list (list Qc)) :=
  do r <- idx m i; do r' <- set_idx r j v; set_idx m i r'.
(** GaussianEliminationAlg.cxx:102-104 *)
Definition elim_row (m : list (list Qc)) (i j : nat) : outcome (list (list Qc)) :=
  do mji <- mget m j i;
  do mii <- mget m i i;
  let scale := (mji / mii)%Qc in
  do ri <- idx m i;
  for_ (range i (length ri)) (fun m k => do a <- mget m j k; do b <- mget m i k; mset m j k (a - b * scale)%Qc) m.
(** GaussianEliminationAlg.cxx:99-107 *)
Definition eliminate (m : list (list Qc)) : outcome (list (list Qc)) :=
  for_ (range 0 (length m)) (fun m i => do ri <- idx m i; for_ (range (i + 1) (length ri - 1)) (fun m j => elim_row m i j) m) m.
(** GaussianEliminationAlg.cxx:110-115: vector::back() of an empty row is Undef *)
Definition back_row (m : list (list Qc)) (sol : list Qc) (i : nat) : outcome (list Qc) :=
  do ri <- idx m i;
  do b <- idx ri (length ri - 1);
  do sol <- set_idx sol i b;
  do sol <- for_ (range (i + 1) (length m)) (fun sol j => do si <- idx sol i; do mij <- mget m i j; do sj <- idx sol j; set_idx sol i (si - mij * sj)%Qc) sol;
  do si <- idx sol i; do mii <- mget m i i; set_idx sol i (si / mii)%Qc.
(** vector::resize *)
Definition resize (l : list Qc) (n : nat) : list Qc := firstn n l ++ repeat 0%Qc (n - length l).
(** GaussianEliminationAlg.cxx:94-117 GaussianElimination; [old] is fSolutions before the call; also returns the matrix it leaves behind *)
Definition gauss (m : list (list Qc)) (old : list Qc) : outcome (list (list Qc) * list Qc) :=
  do m' <- eliminate m;
  do sol <- for_ (rev (range 0 (length m'))) (fun sol i => back_row m' sol i) (resize old (length m));
  Ok (m', sol).
(** GaussianEliminationAlg.cxx:56-69 SolveEquations *)
Definition solve_equations (a : alg) (eps : Qc) (old : list Qc) (means sigmas heights : list Qc) : outcome (list (list Qc) * list Qc) :=
  if negb (Nat.eqb (length means) (length sigmas)) || negb (Nat.eqb (length means) (length heights)) then Throw UserExn
  else do m <- fill_matrix a eps means sigmas heights; gauss m old.
