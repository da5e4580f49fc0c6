(** Vocabulary of the properties of GnocchiCalorimetry (C141-C147), independent of the model's helpers. *)
From Coq Require Import QArith Qcanon.
From Verif Require Import Base QcUtil GNO_Model.
Local Open Scope nat_scope.

(** hit [i] of the track is on plane [p] and has a valid trajectory point *)
Definition listed (hs : hits) (t : track) (p i : nat) : Prop :=
  exists h m, nth_error hs i = Some (h, m) /\ h_plane h = p /\ m <> 2147483647%Z /\ t_valid t m = true.
(** hits [i] and [j] have the wire number and the first and last tick in common *)
Definition same_snippet (hs : hits) (i j : nat) : Prop :=
  exists h m h' m', nth_error hs i = Some (h, m) /\ nth_error hs j = Some (h', m') /\ h_wire h = h_wire h' /\ h_start h = h_start h' /\ h_end h = h_end h'.
Definition integral (hs : hits) (i : nat) : Qc := match nth_error hs i with Some (h, _) => h_integral h | None => 0%Qc end.
(** hit [i] is the largest of its snippet on plane [p]: the first of the largest *)
Definition largest (hs : hits) (t : track) (p i : nat) : Prop :=
  listed hs t p i /\ forall j, listed hs t p j -> same_snippet hs i j -> (integral hs j < integral hs i)%Qc \/ (integral hs j = integral hs i /\ i <= j).
(** all hits of an entry of OrganizeHits *)
Definition members (o : nat * list nat) : list nat := fst o :: snd o.
(** the charge is taken per hit with the methods 0 and 1 *)
Definition per_hit (e : env) : Prop := e_method e = 0 \/ e_method e = 1.

(** the hits that give the points of a plane *)
Definition stands (e : env) (hs : hits) (t : track) (p i : nat) : Prop := listed hs t p i /\ (per_hit e \/ largest hs t p i).
(** where a hit is put: the trajectory point, moved by the calibration offsets when distortions are on and the track is not corrected for them *)
Definition spot (e : env) (t : track) (h : hit) (m : Z) : vec :=
  let p := t_loc t m in
  match e_corrected e, e_spatial e, e_fd e with
  | false, true, true => let o := e_cal e p (h_tpc h) in V (vx p + e_xsign e * vx o)%Qc (vy p + vy o)%Qc (vz p + vz o)%Qc
  | _, _, _ => p
  end.
(** the size of the electric field there *)
Definition field_at (e : env) (t : track) (h : hit) (m : Z) : Qc :=
  match e_simE e, e_fde e with
  | true, true => let o := e_eoff e (spot e t h m) in e_norm e (V (e_field e * (vx o + 1)) (e_field e * (vy o + 0)) (e_field e * (vz o + 0)))%Qc
  | _, _ => e_field e
  end.
(** the charge of the snippet of hit [i]: amplitude, integral, summed ADC, or the integrals of all hits of the snippet *)
Definition has_charge (e : env) (hs : hits) (t : track) (p i : nat) (q : Qc) : Prop :=
  exists h m, nth_error hs i = Some (h, m) /\
  ((e_method e = 0 /\ q = h_amp h) \/ (e_method e = 1 /\ q = h_integral h) \/ (e_method e = 2 /\ q = h_roi h) \/
   (e_method e = 3 /\ exists l, NoDup l /\ (forall j, In j l <-> listed hs t p j /\ same_snippet hs i j) /\ q = qsum (integral hs) l) \/
   (4 <= e_method e /\ q = 0%Qc)).
(** the T0 of a track: none without a T0 label; otherwise the first one of its first PFParticle or its own first one *)
Definition t0_of (e : env) (x : input) : Qc :=
  if e_t0 e then
    match (if e_pfp e then match n_pfps x with l :: _ => l | [] => [] end else n_t0s x) with t :: _ => t | [] => 0%Qc end
  else 0%Qc.
Definition size (x : Qc) : Qc := if Qclt_le_dec x 0 then (0 - x)%Qc else x.
(** point [k] of a calorimetry object comes from hit [i] *)
Definition point_from (e : env) (x : input) (p : nat) (c : calo) (k i : nat) : Prop :=
  exists h m pt dq q, nth_error (n_hits x) i = Some (h, m) /\
    nth_error (c_tp c) k = Some (h_key h) /\ nth_error (c_xyz c) k = Some (spot e (n_track x) h m) /\
    nth_error (c_ef c) k = Some (field_at e (n_track x) h m) /\ nth_error (c_phi c) k = Some (e_acos e (size (vx (t_dir (n_track x) m)))) /\
    nth_error (c_pitch c) k = Some pt /\ has_charge e (n_hits x) (n_track x) p i q /\
    dq = fold_left (fun v (f : Qc -> hit -> vec -> vec -> Qc -> Qc) => f v h (t_loc (n_track x) m) (t_dir (n_track x) m) (t0_of e x)) (e_tools e) (e_quot e q pt) /\
    nth_error (c_dqdx c) k = Some dq /\
    nth_error (c_dedx c) k = Some ((if Nat.eq_dec (e_method e) 0 then e_amp e else e_area e) dq (h_peak h) p (t0_of e x) (field_at e (n_track x) h m) (e_acos e (size (vx (t_dir (n_track x) m))))).
Definition bogus (e : env) (p : nat) (c : calo) : Prop :=
  c = Calo (e_bogus e) [] [] [] [] (e_bogus e) [] [] [] (e_cryo e, 0, p) [] [].
(** the event is acceptable: every track has a PFParticle when PFPModuleLabel is set, and all hits with valid points are on planes of the detector *)
Definition pfps_ok (e : env) (ts : list input) : Prop := e_pfp e = true -> forall x, In x ts -> n_pfps x <> [].
Definition planes_ok (e : env) (ts : list input) : Prop := forall x p i, In x ts -> listed (n_hits x) (n_track x) p i -> p < e_np e.
(** the length of a polyline *)
Fixpoint path (n : vec -> Qc) (v : vec) (l : list vec) : Qc :=
  match l with [] => 0%Qc | w :: r => (n (V (vx w - vx v) (vy w - vy v) (vz w - vz v)) + path n w r)%Qc end.
Definition dist (e : env) (a b : vec) : Qc := e_norm e (V (vx a - vx b) (vy a - vy b) (vz a - vz b))%Qc.
