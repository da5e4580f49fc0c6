(** Model of larreco/RecoAlg/TrackCreationBookKeeper.h, TrackTrajectoryCreationBookKeeper.h and the optional outputs of
    larreco/TrackFinder/TrackMaker.h.  Points, vectors, hits, flags, fit infos and space points are of any types; chi2 is an
    exact rational or NaN ([None]).  recob::Track and recob::TrackTrajectory are the tuple of what they are constructed from (the
    checks of their constructors, which are in another package, are not modelled).  References to the caller's hit vector and
    optional outputs are part of the state.  A moved-from vector is empty. *)
From Coq Require Import QArith Qcanon.
From Verif Require Import Base Solver_Model.
Local Open Scope nat_scope.

Section BK.
Context {P V H F I S C : Type}.
(** TrackMaker.h:44-87 OptionalPointElement *)
Record ope := mkOpe { e_info : option I; e_sp : option S }.
(** TrackMaker.h:108-172 OptionalOutputs *)
Record opts := mkOpts { o_infos : option (list I); o_sps : option (list (S * H)) }.
(** TrackMaker.h:113-118 addPoint; the element's info is moved out *)
Definition o_add (o : opts) (e : ope) : opts * ope :=
  match o_infos o, e_info e with
  | Some l, Some x => (mkOpts (Some (l ++ [x])) (o_sps o), mkOpe None (e_sp e))
  | _, _ => (o, e)
  end.
(** TrackMaker.h:120-126 addPoint with a hit *)
Definition o_add_hit (o : opts) (e : ope) (h : H) : opts * ope :=
  match o_sps o, e_sp e with
  | Some l, Some x => o_add (mkOpts (o_infos o) (Some (l ++ [(x, h)]))) (mkOpe (e_info e) None)
  | _, _ => o_add o e
  end.
(** TrackMaker.h:128-138 reset *)
Definition o_reset (o : opts) : opts :=
  mkOpts (match o_infos o with Some _ => Some [] | None => None end) (match o_sps o with Some _ => Some [] | None => None end).
(** TrackMaker.h:151-158, 160-167: get and release *)
Definition o_take_infos (o : opts) : outcome (list I * opts) := match o_infos o with Some l => Ok (l, mkOpts None (o_sps o)) | None => Throw UserExn end.
Definition o_take_sps (o : opts) : outcome (list (S * H) * opts) := match o_sps o with Some l => Ok (l, mkOpts (o_infos o) None) | None => Throw UserExn end.

(** TrackCreationBookKeeper.h:136-143 and TrackTrajectoryCreationBookKeeper.h: data members and what they refer to *)
Record keeper := mkK { k_hits : list H; k_opts : opts; k_pos : list P; k_mom : list V; k_flags : list F; k_hasmom : bool; k_id : Z; k_pdg : Z; k_chi2 : option Qc; k_chi2v : list (option Qc); k_npar : Z }.
(** TrackCreationBookKeeper.h:35-49 and TrackTrajectoryCreationBookKeeper.h:36-40 *)
Definition start (hits : list H) (o : opts) (id pdg : Z) (hasmom : bool) (npar : Z) : keeper := mkK [] (o_reset o) [] [] [] hasmom id pdg (Some 0%Qc) [] npar.
(** chi2 >= 0, false for NaN *)
Definition nonneg (x : option Qc) : bool := match x with Some c => negb (qc_lt c 0) | None => false end.
Definition fadd (a b : option Qc) : option Qc := match a, b with Some x, Some y => Some (x + y)%Qc | _, _ => None end.
(** TrackTrajectoryCreationBookKeeper.h:52-69, TrackCreationBookKeeper.h:61-72, 83-94 addPoint *)
Definition add_point (k : keeper) (p : P) (v : V) (h : H) (f : F) (chi2 : option Qc) : keeper :=
  let c := if nonneg chi2 then (fadd (k_chi2 k) chi2, k_chi2v k ++ [chi2]) else (k_chi2 k, k_chi2v k) in
  mkK (k_hits k ++ [h]) (k_opts k) (k_pos k ++ [p]) (k_mom k ++ [v]) (k_flags k ++ [f]) (k_hasmom k) (k_id k) (k_pdg k) (fst c) (snd c) (k_npar k).
(** TrackCreationBookKeeper.h:73-82, 95-104: with an optional element; the overload without the hit is called *)
Definition add_point_opt (k : keeper) (p : P) (v : V) (h : H) (f : F) (chi2 : option Qc) (e : ope) : keeper * ope :=
  let k' := add_point k p v h f chi2 in
  let r := o_add (k_opts k') e in
  (mkK (k_hits k') (fst r) (k_pos k') (k_mom k') (k_flags k') (k_hasmom k') (k_id k') (k_pdg k') (k_chi2 k') (k_chi2v k') (k_npar k'), snd r).
(** TrackCreationBookKeeper.h:108 setTotChi2 *)
Definition set_chi2 (k : keeper) (x : option Qc) : keeper := mkK (k_hits k) (k_opts k) (k_pos k) (k_mom k) (k_flags k) (k_hasmom k) (k_id k) (k_pdg k) x (k_chi2v k) (k_npar k).
(** recob::Track *)
Record track := mkT { t_pos : list P; t_mom : list V; t_flags : list F; t_hasmom : bool; t_pdg : Z; t_chi2 : option Qc; t_ndof : Z; t_cov : C * C; t_id : Z }.
(** TrackCreationBookKeeper.h:112-133 finalizeTrack, TrackTrajectoryCreationBookKeeper.h:72-76 *)
Definition finalize (k : keeper) (c1 c2 : C) : track * keeper :=
  (mkT (k_pos k) (k_mom k) (k_flags k) (k_hasmom k) (k_pdg k) (k_chi2 k) (Z.of_nat (length (k_chi2v k)) - k_npar k)%Z (c1, c2) (k_id k),
   mkK (k_hits k) (k_opts k) [] [] [] (k_hasmom k) (k_id k) (k_pdg k) (k_chi2 k) (k_chi2v k) (k_npar k)).

(** histories between construction and finalizeTrack *)
Inductive op := Add (p : P) (v : V) (h : H) (f : F) (chi2 : option Qc) (e : option ope) | SetChi2 (x : option Qc).
Definition step (k : keeper) (o : op) : keeper :=
  match o with
  | Add p v h f c None => add_point k p v h f c
  | Add p v h f c (Some e) => fst (add_point_opt k p v h f c e)
  | SetChi2 x => set_chi2 k x
  end.
Definition run (k : keeper) (ops : list op) : keeper := fold_left step ops k.
End BK.
Arguments track : clear implicits. Arguments keeper : clear implicits. Arguments op : clear implicits. Arguments opts : clear implicits. Arguments ope : clear implicits.
