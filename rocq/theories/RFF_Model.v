(** Model of larreco/HitFinder/RFFHitFitter.{h,cxx}.
    Floats are exact rationals extended with the two infinities and NaN (a zero is +0); the square root on non-negative numbers is an arbitrary
    function [sq]; the amplitude solver (GaussianEliminationAlg::SolveEquations, modelled in GaussElim_Model.v) is an arbitrary function of the number of
    the call and its three arguments, since its state may matter. *)
From Coq Require Import QArith Qcanon Qround.
From Verif Require Import Base Solver_Model GaussElim_Model.
Local Open Scope nat_scope.

(* ------------------------------------------------------------------ IEEE arithmetic without rounding *)
Inductive xf := Fin (q : Qc) | PInf | NInf | NaN.
Definition xneg (a : xf) : xf := match a with Fin q => Fin (- q)%Qc | PInf => NInf | NInf => PInf | NaN => NaN end.
Definition xadd (a b : xf) : xf :=
  match a, b with
  | NaN, _ | _, NaN => NaN
  | Fin p, Fin q => Fin (p + q)%Qc
  | PInf, NInf | NInf, PInf => NaN
  | PInf, _ | _, PInf => PInf
  | NInf, _ | _, NInf => NInf
  end.
Definition xsub (a b : xf) : xf := xadd a (xneg b).
(** an infinity with the sign of [q]; 0 gives NaN *)
Definition inf_sign (q : Qc) : xf := if qc_lt 0%Qc q then PInf else if qc_lt q 0%Qc then NInf else NaN.
Definition xmul (a b : xf) : xf :=
  match a, b with
  | NaN, _ | _, NaN => NaN
  | Fin p, Fin q => Fin (p * q)%Qc
  | Fin p, PInf | PInf, Fin p => inf_sign p
  | Fin p, NInf | NInf, Fin p => inf_sign (- p)%Qc
  | PInf, PInf | NInf, NInf => PInf
  | PInf, NInf | NInf, PInf => NInf
  end.
Definition xdiv (a b : xf) : xf :=
  match a, b with
  | NaN, _ | _, NaN => NaN
  | Fin p, Fin q => if qc_eqb q 0%Qc then inf_sign p else Fin (p / q)%Qc
  | Fin p, _ => Fin 0%Qc
  | PInf, Fin q => if qc_lt q 0%Qc then NInf else PInf
  | NInf, Fin q => if qc_lt q 0%Qc then PInf else NInf
  | _, _ => NaN
  end.
Definition xlt (a b : xf) : bool :=
  match a, b with
  | Fin p, Fin q => qc_lt p q
  | NInf, Fin _ | NInf, PInf | Fin _, PInf => true
  | _, _ => false
  end.
(** x >= 0 *)
Definition xge0 (a : xf) : bool := match a with Fin q => negb (qc_lt q 0%Qc) | PInf => true | _ => false end.
Definition xabs (a : xf) : xf := match a with Fin q => Fin (qabs q) | PInf | NInf => PInf | NaN => NaN end.
Definition is_nan (a : xf) : bool := match a with NaN => true | _ => false end.

Section Fitter.
Variables (sq : Qc -> Qc) (solver : nat -> list xf -> list xf -> list Qc -> list xf).
(** SetFitterParams arguments: RFFHitFitter.cxx:32-42 (a multiplicity 0 becomes 1 there) *)
Variables (mthr : Qc) (multi0 : nat) (athr : Qc).
Definition multi : nat := if Nat.eqb multi0 0 then 1 else multi0.
Definition xsqrt (a : xf) : xf := match a with Fin q => if qc_lt q 0%Qc then NaN else Fin (sq q) | PInf => PInf | _ => NaN end.
Definition half : Qc := (1 / qc_nat 2)%Qc.

(** std::multiset<MeanSigmaPair, SignalSetComp>::insert, RFFHitFitter.h:23-28: after the elements not greater. A comparison involving NaN is false both
    ways, so with NaN in the set the comparator is no strict weak ordering and the behaviour is undefined *)
Fixpoint place (x : xf * xf) (l : list (xf * xf)) : list (xf * xf) :=
  match l with
  | [] => [x]
  | y :: l' => if xlt (fst x) (fst y) then x :: l else y :: place x l'
  end.
Definition insert (x : xf * xf) (l : list (xf * xf)) : outcome (list (xf * xf)) :=
  match l with
  | [] => Ok [x]
  | _ => if is_nan (fst x) || existsb (fun y => is_nan (fst y)) l then Undef else Ok (place x l)
  end.
(** RFFHitFitter.cxx:63-77 the loop body, on (prev_dev, fSignalSet) *)
Definition tick (signal : list Qc) (st : xf * list (xf * xf)) (i : nat) : outcome (xf * list (xf * xf)) :=
  do sp <- idx signal (i + 1); do sm <- idx signal (i - 1); do s <- idx signal i;
  let dev := xdiv (Fin (half * (sp - sm))%Qc) (Fin s) in
  let slope := xsub dev (fst st) in
  if xge0 slope then Ok (dev, snd st)
  else
    let sigma := xsqrt (xdiv (Fin (- (1))%Qc) slope) in
    let intercept := xsub dev (xmul slope (Fin (qc_nat i))) in
    let mean := xdiv (xmul (Fin (- (1))%Qc) intercept) slope in
    do set <- insert (mean, sigma) (snd st);
    Ok (dev, set).
(** RFFHitFitter.cxx:53-78 CalculateAllMeansAndSigmas *)
Definition all_means (signal : list Qc) : outcome (list (xf * xf)) :=
  if length signal <=? 2 then Ok []
  else do st <- for_ (range 1 (length signal - 1)) (tick signal) (Fin 0%Qc, []); Ok (snd st).

(** RFFHitFitter.cxx:85-93 CreateMergeVector: [groups] is fMergeVector, [prev] the previous mean; vector::back() is the last element *)
Fixpoint push_last {A} (gs : list (list A)) (x : A) : list (list A) :=
  match gs with
  | [] => []
  | [g] => [g ++ [x]]
  | g :: gs' => g :: push_last gs' x
  end.
Fixpoint merge_groups (set : list (xf * xf)) (prev : xf) (groups : list (list (xf * xf))) : list (list (xf * xf)) :=
  match set with
  | [] => groups
  | x :: set' =>
      let groups' := if xlt (Fin mthr) (xabs (xsub (fst x) prev)) || Nat.eqb (length groups) 0 then groups ++ [[x]] else push_last groups x in
      merge_groups set' (fst x) groups'
  end.
(** RFFHitFitter.cxx:80-94; -9e6 is the start value of prev_mean *)
Definition create_merge (set : list (xf * xf)) : list (list (xf * xf)) := merge_groups set (Fin (Q2Qc (inject_Z (-9000000)))) [].

(** the result vectors and heightVector *)
Record res := mkRes { r_mean : list xf; r_sigma : list xf; r_merr : list xf; r_serr : list xf; r_amp : list xf; r_height : list Qc }.
Definition xmean (l : list xf) : xf := xdiv (fold_left xadd l (Fin 0%Qc)) (Fin (qc_nat (length l))).
Definition xerr (l : list xf) (c : xf) : xf :=
  xdiv (xsqrt (fold_left (fun a x => xadd a (xmul (xsub x c) (xsub x c))) l (Fin 0%Qc))) (Fin (qc_nat (length l))).
(** RFFHitFitter.cxx:103-136 one group *)
Definition merged (size : nat) (r : res) (g : list (xf * xf)) : res :=
  if length g <? multi then r
  else
    let m := xmean (map fst g) in
    let s := xmean (map snd g) in
    if xlt m (Fin 0%Qc) || xlt (Fin (qc_nat (size - 1))) m then r
    else mkRes (r_mean r ++ [m]) (r_sigma r ++ [s]) (r_merr r ++ [xerr (map fst g) m]) (r_serr r ++ [xerr (map snd g) s]) (r_amp r) (r_height r).
(** RFFHitFitter.cxx:96-136 CalculateMergedMeansAndSigmas on cleared vectors *)
Definition calc_merged (size : nat) (gs : list (list (xf * xf))) : res := fold_left (merged size) gs (mkRes [] [] [] [] [] []).

(** RFFHitFitter.cxx:143-160 one height; size_t arithmetic (size - 1 wraps for an empty signal, which has no means). The conversion of NaN or infinity to
    size_t is undefined *)
Definition height (signal : list Qc) (mean : xf) : outcome Qc :=
  let size := length signal in
  do bin <- (if xlt mean (Fin 0%Qc) then Ok 0
             else if xlt (Fin (qc_nat size)) (xadd mean (Fin 1%Qc)) then Ok (size - 2)
             else match mean with Fin q => Ok (qfloor q) | _ => Undef end);
  if size - 1 <=? bin then Throw UserExn
  else match mean with
       | Fin q => do a <- idx signal bin; do b <- idx signal (bin + 1); Ok (a - (q - qc_nat bin) * (a - b))%Qc
       | _ => Undef
       end.

(** vector::erase(begin() + i) *)
Definition erase {A} (l : list A) (i : nat) : outcome (list A) := if i <? length l then Ok (firstn i l ++ skipn (S i) l) else Undef.
(** RFFHitFitter.cxx:165-174 the for loop from [i] on; [n] bounds the number of iterations, the size of fAmpVector is always enough *)
Fixpoint prune_pass (n : nat) (i : nat) (r : res) : outcome res :=
  match n with
  | O => Ok r
  | S n' =>
      if i <? length (r_amp r) then
        do a <- idx (r_amp r) i;
        if xlt a (Fin athr) then
          do vm <- erase (r_mean r) i; do vme <- erase (r_merr r) i; do vs <- erase (r_sigma r) i; do vse <- erase (r_serr r) i;
          do va <- erase (r_amp r) i; do vh <- erase (r_height r) i;
          prune_pass n' (S i) (mkRes vm vs vme vse va vh)
        else prune_pass n' (S i) r
      else Ok r
  end.
(** RFFHitFitter.cxx:179-184 HitsBelowThreshold *)
Definition hits_below (r : res) : bool := existsb (fun a => xlt a (Fin athr)) (r_amp r).
Definition set_amp (r : res) (a : list xf) : res := mkRes (r_mean r) (r_sigma r) (r_merr r) (r_serr r) a (r_height r).
(** RFFHitFitter.cxx:164-176 the while loop; [None]: more than [fuel] iterations *)
Fixpoint prune (fuel k : nat) (r : res) : option (outcome res) :=
  match fuel with
  | O => None
  | S fuel' =>
      if hits_below r then
        match prune_pass (length (r_amp r)) 0 r with
        | Ok r' => prune fuel' (S k) (set_amp r' (solver k (r_mean r') (r_sigma r') (r_height r')))
        | Throw e => Some (Throw e)
        | Undef => Some Undef
        end
      else Some (Ok r)
  end.
(** RFFHitFitter.cxx:138-178 CalculateAmplitudes: the result also gives fAmpErrorVector *)
Definition amplitudes (fuel : nat) (signal : list Qc) (r : res) : option (outcome (res * list xf)) :=
  match traverse (height signal) (r_mean r) with
  | Ok hs =>
      let r1 := mkRes (r_mean r) (r_sigma r) (r_merr r) (r_serr r) (solver 0 (r_mean r) (r_sigma r) hs) hs in
      match prune fuel 1 r1 with
      | Some (Ok r2) => Some (Ok (r2, repeat (Fin 0%Qc) (length (r_amp r2))))
      | Some (Throw e) => Some (Throw e)
      | Some Undef => Some Undef
      | None => None
      end
  | Throw e => Some (Throw e)
  | Undef => Some Undef
  end.
(** RFFHitFitter.cxx:44-51 RunFitter *)
Definition run_fitter (fuel : nat) (signal : list Qc) : option (outcome (res * list xf)) :=
  match all_means signal with
  | Ok set => amplitudes fuel signal (calc_merged (length signal) (create_merge set))
  | Throw e => Some (Throw e)
  | Undef => Some Undef
  end.
End Fitter.
