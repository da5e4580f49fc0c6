(** Vocabulary of C54: data points with errors, and the chi-square of a line *)
From Coq Require Import QArith Qcanon.
From Verif Require Import Base QcUtil.
Local Open Scope Qc_scope.

(** (x, y, squared error) of the points *)
Definition point : Type := Qc * Qc * Qc.
Definition px (p : point) : Qc := fst (fst p).
Definition py (p : point) : Qc := snd (fst p).
Definition pw (p : point) : Qc := 1 / snd p.
Definition points (x y ey2 : list Qc) : list point := List.combine (List.combine x y) ey2.
(** chi-square of the line y = a + b x *)
Definition chi2 (ps : list point) (a b : Qc) : Qc := qsum (fun p => pw p * ((py p - (a + b * px p)) * (py p - (a + b * px p)))) ps.
(** determinant of the normal equations *)
Definition det (ps : list point) : Qc :=
  qsum pw ps * qsum (fun p => pw p * (px p * px p)) ps - qsum (fun p => pw p * px p) ps * qsum (fun p => pw p * px p) ps.
