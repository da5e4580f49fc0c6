(** Model of larreco/RecoAlg/GausFitCache.{h,cxx}.
    A TF1 is what it was made from: a formula (the offsets k of its "gaus(k)" terms, joined by " + ") or a compiled function.
    TF1 objects live on a heap and are never freed before the cache is.  Doubles are exact rationals, exp is an oracle; a
    parameter array is a list, pointer arithmetic on it drops elements.  Function names are not modelled. *)
From Coq Require Import QArith Qcanon.
From Verif Require Import Base Solver_Model.
Local Open Scope nat_scope.

Inductive tf1 := Formula (offsets : list nat) | NGaus (n : nat) | FuncSum (n cutoff : nat).
(** what kind of cache: run-time formulas, compiled with at most [m] Gaussians, compiled truncated ones *)
Inductive kind := RunTime | Compiled (m : nat) | Truncated (m cutoff : nat).
Record cache := mkCache { funcs : list (option nat); heap : list tf1 }.

(** vector::resize(n, nullptr), growing *)
Definition resize_null (l : list (option nat)) (n : nat) : list (option nat) := l ++ repeat None (n - length l).
(** new TF1 *)
Definition alloc (f : tf1) (h : list tf1) : nat * list tf1 := (length h, h ++ [f]).
(** GausFitCache.cxx:65-80 CreateFunction of the run-time cache: the offsets written into the formula; "0" for no Gaussian *)
Definition formula (n : nat) : list nat := if Nat.eqb n 0 then [] else 0 :: map (fun i => i * 3) (range 1 n).
(** CreateFunction of each kind: GausFitCache.cxx:65-80; GausFitCache.h:277, 310 (CannotCreateFunction, GausFitCache.cxx:104-110) *)
Definition create (k : kind) (n : nat) : outcome tf1 := match k with RunTime => Ok (Formula (formula n)) | _ => Throw UserExn end.
(** GausFitCache.cxx:44-56 Get; the list stays expanded when CreateFunction throws *)
Definition get (k : kind) (c : cache) (n : nat) : outcome nat * cache :=
  let fs := if length (funcs c) <=? n then resize_null (funcs c) (n + 1) else funcs c in
  match nth n fs None with
  | Some p => (Ok p, mkCache fs (heap c))
  | None =>
      match create k n with
      | Ok f => let '(p, h) := alloc f (heap c) in (Ok p, mkCache (upd fs n (Some p)) h)
      | Throw e => (Throw e, mkCache fs (heap c))
      | Undef => (Undef, mkCache fs (heap c))
      end
  end.
(** GausFitCache.cxx:59-62 and 98-102 GetClone: not for compiled functions *)
Definition get_clone (k : kind) (c : cache) (n : nat) : outcome nat * cache :=
  match k with
  | RunTime =>
      match get k c n with
      | (Ok p, c1) => match nth_error (heap c1) p with Some f => let '(q, h) := alloc f (heap c1) in (Ok q, mkCache (funcs c1) h) | None => (Undef, c1) end
      | r => r
      end
  | _ => (Throw UserExn, c)
  end.
(** GausFitCache.h:358-362 AppendFunction: push_back(new TF1(...)) *)
Definition append_function (f : tf1) (c : cache) : cache := let '(p, h) := alloc f (heap c) in mkCache (funcs c ++ [Some p]) h.
(** GausFitCache.h:345-355 InitializeCompiledGausFitVector<n> *)
Fixpoint init_compiled (n : nat) (c : cache) : cache :=
  match n with 0 => append_function (NGaus 0) c | S n' => append_function (NGaus n) (init_compiled n' c) end.
(** GausFitCache.h:383-398 InitializeFuncSumVector<n>::fill *)
Fixpoint init_truncated (cut n : nat) (c : cache) : cache :=
  match n with 0 => append_function (FuncSum 0 cut) c | S n' => append_function (FuncSum n cut) (init_truncated cut n' c) end.
(** the constructors *)
Definition new_cache (k : kind) : cache :=
  match k with RunTime => mkCache [] [] | Compiled m => init_compiled m (mkCache [] []) | Truncated m cut => init_truncated cut m (mkCache [] []) end.

(** number of parameters: of a formula ROOT finds the highest index used; GausFitCache.h:361 (3 * NGaus), 126, 133 (NParams) *)
Definition nparams (f : tf1) : nat := match f with Formula os => fold_left (fun m k => Nat.max m (k + 3)) os 0 | NGaus n => 3 * n | FuncSum n _ => n * 3 end.

Section Eval.
Variable (exp : Qc -> Qc).
Local Open Scope Qc_scope.
(** GausFitCache.cxx:93-96 gaus *)
Definition gaus (x : Qc) (p : list Qc) : Qc :=
  let z := (x - nth 1 p 0) / nth 2 p 0 in nth 0 p 0 * exp (- (/ (1 + 1)) * (z * z)).
(** GausFitCache.h:365-371 gaus_trunc *)
Definition gaus_trunc (cut : nat) (x : Qc) (p : list Qc) : Qc :=
  let z := (x - nth 1 p 0) / nth 2 p 0 in
  if qc_lt (- qc_nat cut) z && qc_lt z (qc_nat cut) then nth 0 p 0 * exp (- (/ (1 + 1)) * (z * z)) else 0.
(** GausFitCache.h:192-195, 374-378 ngaus *)
Fixpoint ngaus (n : nat) (x : Qc) (p : list Qc) : Qc := match n with O => 0 | S n' => gaus x p + ngaus n' x (skipn 3 p) end.
(** GausFitCache.h:329-340 FuncSum::eval, with 3 parameters each *)
Fixpoint funcsum (f : Qc -> list Qc -> Qc) (n : nat) (x : Qc) (p : list Qc) : Qc := match n with O => 0 | S n' => f x (skipn (3 * n') p) + funcsum f n' x p end.
(** value of a function: a formula is the sum of its terms, the term gaus(k) using parameters k, k+1, k+2 (ROOT) *)
Definition eval (f : tf1) (x : Qc) (p : list Qc) : Qc :=
  match f with
  | Formula os => fold_left (fun s k => s + gaus x (skipn k p)) os 0
  | NGaus n => ngaus n x p
  | FuncSum n cut => funcsum (gaus_trunc cut) n x p
  end.
End Eval.

(** histories: calls of Get and GetClone (results, which may be exceptions, are not needed for what follows) *)
Inductive call := Get (n : nat) | GetClone (n : nat).
Definition do_call (k : kind) (c : cache) (o : call) : cache := match o with Get n => snd (get k c n) | GetClone n => snd (get_clone k c n) end.
Definition after (k : kind) (os : list call) (c : cache) : cache := fold_left (do_call k) os c.
