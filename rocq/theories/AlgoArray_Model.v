(** Model of cmtool::CBAlgoArray and cmtool::CPAlgoArray.
    Sources: larreco/RecoAlg/CMTool/CMTAlgMerge/CBAlgoArray.{h,cxx},
             larreco/RecoAlg/CMTool/CMTAlgPriority/CPAlgoArray.{h,cxx}.
    An algorithm is represented by the answer it would give for the clusters at hand (scores are
    exact rationals); besides the result the model returns how many algorithms were asked. *)
From Coq Require Import QArith Qcanon.
From Verif Require Import Base.
Local Open Scope nat_scope.

(** CBAlgoArray.h: _algo_array with _ask_and, and _last_and_algo_index ([None]: never written;
    the constructor does not initialise it) *)
Record balgo := mkBA { ba_algos : list (bool * bool) (* (ask_and, answer) *); ba_last_and : option nat }.

(** CBAlgoArray.cxx:5-9 constructor; CBAlgoArray.h:43-48 AddAlgo *)
Definition ba_new : balgo := mkBA [] None.
Definition ba_add (a : balgo) (ask_and answer : bool) : balgo :=
  mkBA (ba_algos a ++ [(ask_and, answer)]) (if ask_and then Some (length (ba_algos a)) else ba_last_and a).
Definition ba_make (l : list (bool * bool)) : balgo :=
  fold_left (fun a x => ba_add a (fst x) (snd x)) l ba_new.

(** CBAlgoArray.cxx:43-87 Bool: the loop from index [i], with its three breaks *)
Fixpoint ba_loop (last_and : option nat) (i : nat) (l : list (bool * bool)) (status : bool) (asked : nat)
    : outcome (bool * nat) :=
  match l with
  | [] => Ok (status, asked)
  | (ask, ans) :: rest =>
      if i =? 0 then ba_loop last_and (S i) rest ans (S asked)
      else if ask && negb status then Ok (status, asked)
      else if negb ask && status then Ok (status, asked)
      else match last_and with
           | None => Undef                                   (* uninitialised member read *)
           | Some k =>
               if (k <? i) && status then Ok (status, asked)
               else if ask then ba_loop last_and (S i) rest (status && ans) (if status then S asked else asked)
               else ba_loop last_and (S i) rest (status || ans) (if status then asked else S asked)
           end
  end.
Definition ba_bool (a : balgo) : outcome (bool * nat) := ba_loop (ba_last_and a) 0 (ba_algos a) true 0.

(** CPAlgoArray.h:36-63 *)
Inductive pmode := PositiveAddition | SimpleAddition | Multiplication | LastAlgo.
Definition is_simple (m : pmode) : bool := match m with SimpleAddition => true | _ => false end.

(** CPAlgoArray.cxx:24-32: collecting the scores; [inl] = early return *)
Fixpoint pa_collect (m : pmode) (scores acc : list Qc) : Qc + list Qc :=
  match scores with
  | [] => inr acc
  | s :: rest =>
      if negb (is_simple m) && (if Qclt_le_dec s 0 then true else false) then inl s
      else pa_collect m rest (acc ++ [s])
  end.

(** CPAlgoArray.cxx:15-56 Priority *)
Definition pa_priority (m : pmode) (scores : list Qc) : outcome Qc :=
  match pa_collect m scores [] with
  | inl s => Ok s
  | inr l =>
      match m with
      | LastAlgo => match rev l with [] => Undef | x :: _ => Ok x end
      | SimpleAddition | PositiveAddition => Ok (fold_left Qcplus l 0%Qc)
      | Multiplication => Ok (fold_left Qcmult l 0%Qc)
      end
  end.
