(** Model of larreco/Calorimetry/TrackCalorimetryAlg.{h,cxx}. Numbers are exact rationals (float and double in the code). The projection of a trajectory point into a plane
    (nearest wire, tick), the wire pitch, the distance between two trajectory points, Track::Length, TrackPitchInView and dEdx_AREA are given. A position is the number
    of its trajectory point. A quotient by zero is zero (infinity or not-a-number in the code): the theorems about it ask for a length that is not zero. *)
From Coq Require Import QArith Qcanon.
From Verif Require Import Base QcUtil Solver_Model.
Local Open Scope nat_scope.

Record hit := { h_plane : nat; h_wire : Z; h_time : Qc; h_charge : Qc }.
(** [t_step i]: the distance from point i - 1 to point i; [t_proj p i]: wire and tick of point i in plane p *)
Record track := { t_pts : nat; t_step : nat -> Qc; t_len : Qc; t_proj : nat -> nat -> Z * Qc }.
(** HitProperties, TrackCalorimetryAlg.h 59-76 *)
Record props := { p_charge : Qc; p_dqdx : Qc; p_dedx : Qc; p_pitch : Qc; p_xyz : nat; p_frac : Qc }.
Record calo := { c_energy : Qc; c_dedx : list Qc; c_dqdx : list Qc; c_range : list Qc; c_dead : list Qc; c_len : Qc; c_pitch : list Qc; c_xyz : list nat; c_plane : nat }.

Section TCA.
Variable nplanes nstart : nat.            (* Nplanes(), fNHitsToDetermineStart *)
Variable wpitch : nat -> Qc.              (* WirePitch of a plane *)
Variable pitch_at : track -> hit -> nat -> Qc. (* TrackPitchInView *)
Variable dedx_of : hit -> Qc -> Qc.       (* dEdx_AREA *)

(** HitPropertySorter and multiset::emplace, TrackCalorimetryAlg.h 77-84: after the elements that are equivalent to it *)
Fixpoint emplace (x : props) (l : list props) : list props :=
  match l with [] => [x] | y :: r => if qc_lt (p_frac x) (p_frac y) then x :: l else y :: emplace x r end.
(** CreatePathLengthFractionVector, TrackCalorimetryAlg.cxx 106-119 *)
Definition fractions (t : track) : list Qc :=
  snd (fold_left (fun s i => let cum := (fst s + t_step t i)%Qc in (cum, upd (snd s) i (cum / t_len t)%Qc)) (range 1 (t_pts t)) (0%Qc, repeat 0%Qc (t_pts t))).
(** dist_projected, 85-104: hypot is compared, so its square will do *)
Definition dist2 (p : nat) (h : hit) (x : Z * Qc) : Qc :=
  let dw := (Q2Qc (inject_Z (fst x - h_wire h)) * wpitch p)%Qc in let dt := (snd x - h_time h)%Qc in (dw * dw + dt * dt)%Qc.
(** std::min_element and std::distance, 131-134: the first of the smallest, 0 for an empty range *)
Fixpoint min_from (f : Z * Qc -> Qc) (best i : nat) (bv : Qc) (l : list (Z * Qc)) : nat :=
  match l with [] => best | x :: r => if qc_lt (f x) bv then min_from f i (i + 1) (f x) r else min_from f best (i + 1) bv r end.
Definition min_element (f : Z * Qc -> Qc) (l : list (Z * Qc)) : nat := match l with [] => 0 | x :: r => min_from f 0 1 (f x) r end.
(** AnalyzeHit, 121-144 *)
Definition analyze (t : track) (p : nat) (h : hit) (points : list (Z * Qc)) (fr : list Qc) (m : list props) : outcome (list props) :=
  let k := min_element (dist2 p h) points in
  let pitch := pitch_at t h k in
  do f <- idx fr k;
  Ok (emplace {| p_charge := h_charge h; p_dqdx := (h_charge h / pitch)%Qc; p_dedx := dedx_of h pitch; p_pitch := pitch; p_xyz := k; p_frac := f |} m).
(** IsInvertedTrack, 146-168: the charge of the first elements; with nstart = 0 the counter never matches *)
Fixpoint charge_of (counter : nat) (s : Qc) (l : list props) : Qc :=
  match l with [] => s | x :: r => let s1 := (s + p_charge x)%Qc in if counter + 1 =? nstart then s1 else charge_of (counter + 1) s1 r end.
Definition inverted (m : list props) : bool :=
  if length m <=? nstart then false else qc_lt (charge_of 0 0%Qc (rev m)) (charge_of 0 0%Qc m).
(** MakeCalorimetryObject, 170-220 *)
Definition make_calo (t : track) (p : nat) (m : list props) : calo :=
  let push (rng : props -> Qc) (c : calo) (x : props) :=
    {| c_energy := (c_energy c + p_dedx x * p_pitch x)%Qc; c_dedx := c_dedx c ++ [p_dedx x]; c_dqdx := c_dqdx c ++ [p_dqdx x]; c_range := c_range c ++ [rng x];
       c_dead := c_dead c; c_len := c_len c; c_pitch := c_pitch c ++ [p_pitch x]; c_xyz := c_xyz c ++ [p_xyz x]; c_plane := c_plane c |} in
  let c0 := {| c_energy := 0%Qc; c_dedx := []; c_dqdx := []; c_range := []; c_dead := []; c_len := t_len t; c_pitch := []; c_xyz := []; c_plane := p |} in
  if inverted m then fold_left (push (fun x => p_frac x * t_len t)%Qc) m c0 else fold_left (push (fun x => (1 - p_frac x) * t_len t)%Qc) (rev m) c0.
(** the hits of a track by plane, 46-48 *)
Definition by_plane (hits : list hit) (l : list nat) : outcome (list (list nat)) :=
  foreach l (fun v i => do h <- idx hits i; do c <- idx v (h_plane h); set_idx v (h_plane h) (c ++ [i])) (repeat [] nplanes).
(** one plane, 51-77 *)
Definition one_plane (hits : list hit) (t : track) (fr : list Qc) (v : list (list nat)) (p : nat) : outcome calo :=
  do l <- idx v p;
  do m <- foreach l (fun m i => do h <- idx hits i; analyze t p h (map (t_proj t p) (range 0 (t_pts t))) fr m) [];
  Ok (make_calo t p m).
(** ExtractCalorimetry, 31-83 *)
Definition extract (tracks : list track) (hits : list hit) (idxs : list (list nat)) : outcome (list calo * list nat) :=
  for_ (range 0 (length tracks)) (fun s i =>
    do t <- idx tracks i; do l <- idx idxs i; do v <- by_plane hits l;
    for_ (range 0 nplanes) (fun s p => do c <- one_plane hits t (fractions t) v p; Ok (fst s ++ [c], snd s ++ [i])) s) ([], []).
End TCA.
