(** Model of larreco/RecoAlg/LinFitAlg.cxx (LinFit): weighted fit of a straight line.
    float and double are exact rationals; an error of exactly zero gives an infinite weight, which is outside the model ([Undef]); sqrt is an
    oracle.  The loop counter is an unsigned short, as in the code; a loop that does not end within the fuel gives [None]. *)
From Coq Require Import QArith Qcanon.
From Verif Require Import Base Solver_Model.
Local Open Scope nat_scope.

(** the reference arguments of LinFit: Intercept, Slope, InterceptError, SlopeError, ChiDOF *)
Record fit := mkFit { f_a : Qc; f_b : Qc; f_ea : Qc; f_eb : Qc; f_chi : Qc }.
(** sum, sumx, sumy, sumxy, sumx2, sumy2 *)
Record sums := mkS { s_1 : Qc; s_x : Qc; s_y : Qc; s_xy : Qc; s_x2 : Qc; s_y2 : Qc }.

Local Open Scope Qc_scope.
Definition qnat (n : nat) : Qc := Q2Qc (inject_Z (Z.of_nat n)).
(** LinFitAlg.cxx:42-50 body *)
Definition add_point (x y ey2 : list Qc) (s : sums) (ii : nat) : outcome sums :=
  do e <- idx ey2 ii; do a <- idx x ii; do b <- idx y ii;
  if qc_eqb e 0 then Undef
  else let w := 1 / e in
       Ok (mkS (s_1 s + w) (s_x s + w * a) (s_y s + w * b) (s_xy s + w * a * b) (s_x2 s + w * a * a) (s_y2 s + w * b * b)).
(** LinFitAlg.cxx:75-78 body *)
Definition add_chi (x y ey2 : list Qc) (A B : Qc) (s : Qc) (ii : nat) : outcome Qc :=
  do e <- idx ey2 ii; do a <- idx x ii; do b <- idx y ii;
  if qc_eqb e 0 then Undef else let arg := b - A - B * a in Ok (s + arg * arg / e).
(** for (ii = 0; ii < y.size(); ++ii) with unsigned short ii *)
Fixpoint ushort_loop {S} (fuel : nat) (size : nat) (ii : N) (body : S -> nat -> outcome S) (s : S) : outcome (option S) :=
  match fuel with
  | O => Ok None
  | Datatypes.S fuel' =>
      if (ii <? N.of_nat size)%N
      then do s' <- body s (N.to_nat ii); ushort_loop fuel' size ((ii + 1) mod 65536)%N body s'
      else Ok (Some s)
  end.
(** LinFitAlg.cxx:16-80 LinFit *)
Definition lin_fit (sq : Qc -> Qc) (fuel : nat) (x y ey2 : list Qc) (out : fit) : outcome (option fit) :=
  let o1 := mkFit (f_a out) (f_b out) (f_ea out) (f_eb out) (Q2Qc 999) in
  if Nat.ltb (length y) 2 then Ok (Some o1)
  else if Nat.ltb (length x) (length y) || Nat.ltb (length ey2) (length y) then Ok (Some o1)
  else
    do r <- ushort_loop fuel (length y) 0 (add_point x y ey2) (mkS 0 0 0 0 0 0);
    match r with
    | None => Ok None
    | Some s =>
        let delta := s_1 s * s_x2 s - s_x s * s_x s in
        if qc_eqb delta 0 then Ok (Some o1)
        else
          let A := (s_x2 s * s_y s - s_x s * s_xy s) / delta in
          let B := (s_xy s * s_1 s - s_x s * s_y s) / delta in
          if Nat.eqb (length x) 2 then Ok (Some (mkFit A B (f_ea out) (f_eb out) 0))
          else
            let ndof := qnat (length x - 2) in
            let varnce := (s_y2 s + A * A * s_1 s + B * B * s_x2 s - two * (A * s_y s + B * s_xy s - A * B * s_x s)) / ndof in
            let ea := if qc_lt 0 varnce then sq (varnce * s_x2 s / delta) else 0 in
            let eb := if qc_lt 0 varnce then sq (varnce * s_1 s / delta) else 0 in
            do c <- ushort_loop fuel (length y) 0 (add_chi x y ey2 A B) 0;
            match c with
            | None => Ok None
            | Some chi => Ok (Some (mkFit A B ea eb (chi / ndof)))
            end
    end.
