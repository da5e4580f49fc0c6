(** TrackCalorimetryAlg: what the theorems say *)
From Coq Require Import QArith Qcanon.
From Verif Require Import Base QcUtil TCA_Model.
Local Open Scope nat_scope.
(** the length of the track up to point k *)
Definition path (t : track) (k : nat) : Qc := qsum (t_step t) (seq 1 k).
(** the square of the distance of a hit to a trajectory point, in the plane p *)
Definition away2 (wp : nat -> Qc) (t : track) (p : nat) (h : hit) (k : nat) : Qc :=
  let dw := (Q2Qc (inject_Z (fst (t_proj t p k) - h_wire h)) * wp p)%Qc in let dt := (snd (t_proj t p k) - h_time h)%Qc in (dw * dw + dt * dt)%Qc.
(** k is the first of the points of the track that are nearest to the hit *)
Definition nearest (wp : nat -> Qc) (t : track) (p : nat) (h : hit) (k : nat) : Prop :=
  k < t_pts t /\ (forall j, j < t_pts t -> (away2 wp t p h k <= away2 wp t p h j)%Qc) /\ (forall j, j < k -> (away2 wp t p h k < away2 wp t p h j)%Qc).
(** every hit index is valid, every hit is on a plane, a track with hits has points *)
Definition sound (np : nat) (tracks : list track) (hits : list hit) (idxs : list (list nat)) : Prop :=
  length tracks <= length idxs /\
  forall i t l, nth_error tracks i = Some t -> nth_error idxs i = Some l -> (l <> [] -> 0 < t_pts t) /\ forall j, In j l -> exists h, nth_error hits j = Some h /\ h_plane h < np.
(** the steps are not negative and Length() is their sum, not zero *)
Definition proper (t : track) : Prop := (forall k, 0 <= t_step t k)%Qc /\ t_len t = path t (t_pts t - 1) /\ (0 < t_len t)%Qc.
(** the hits of the list that are on plane p, in order *)
Definition hits_on (hits : list hit) (l : list nat) (p : nat) (r : list hit) : Prop :=
  r = flat_map (fun j => match nth_error hits j with Some h => if h_plane h =? p then [h] else [] | None => [] end) l.
(** the entries of an object: hits with their nearest points, in the order of the track from its first point, or the other way round *)
Record describes (ns : nat) (wp : nat -> Qc) (pitch_at : track -> hit -> nat -> Qc) (dedx_of : hit -> Qc -> Qc) (t : track) (p : nat) (on : list hit) (c : calo) (es : list (hit * nat)) (inv : bool) : Prop := {
  d_hits : Permutation (map fst es) on;
  d_near : forall h k, In (h, k) es -> nearest wp t p h k;
  d_inv : inv = true <-> ns < length es /\ (qsum (fun e => h_charge (fst e)) (firstn ns (rev es)) < qsum (fun e => h_charge (fst e)) (firstn ns es))%Qc;
  d_pitch : c_pitch c = map (fun e => pitch_at t (fst e) (snd e)) (if inv then es else rev es);
  d_dqdx : c_dqdx c = map (fun e => h_charge (fst e) / pitch_at t (fst e) (snd e))%Qc (if inv then es else rev es);
  d_dedx : c_dedx c = map (fun e => dedx_of (fst e) (pitch_at t (fst e) (snd e))) (if inv then es else rev es);
  d_xyz : c_xyz c = map snd (if inv then es else rev es);
  d_energy : c_energy c = qsum (fun e => dedx_of (fst e) (pitch_at t (fst e) (snd e)) * pitch_at t (fst e) (snd e))%Qc es;
  d_rest : c_dead c = [] /\ c_len c = t_len t /\ c_plane c = p;
  d_order : proper t -> StronglySorted (fun a b => path t (snd a) <= path t (snd b))%Qc es;
  d_range : proper t -> c_range c = map (fun e => if inv then path t (snd e) else t_len t - path t (snd e))%Qc (if inv then es else rev es) }.
