(** Model of larreco/Calorimetry/GnocchiCalorimetry_module.cc.
    Numbers are exact rationals. The services, the norm of a vector (a square root), the quotient of two floating point numbers, the angle from the
    arc cosine, the dE/dx of CalorimetryAlg and the normalisation tools are arbitrary functions: fields of [env]. *)
From Coq Require Import QArith Qcanon.
From Verif Require Import Base QcUtil Solver_Model.
Local Open Scope nat_scope.

(** geo::Point_t and geo::Vector_t *)
Record vec := V { vx : Qc; vy : Qc; vz : Qc }.
Definition vadd (a b : vec) : vec := V (vx a + vx b)%Qc (vy a + vy b)%Qc (vz a + vz b)%Qc.
Definition vsub (a b : vec) : vec := V (vx a - vx b)%Qc (vy a - vy b)%Qc (vz a - vz b)%Qc.
Definition vscale (k : Qc) (a : vec) : vec := V (k * vx a)%Qc (k * vy a)%Qc (k * vz a)%Qc.
Definition half (x : Qc) : Qc := (x * Q2Qc (1 # 2))%Qc.

(** an art::Ptr<recob::Hit>: StartTick, EndTick, WireID (wire, TPC, plane), Integral, PeakAmplitude, ROISummedADC, PeakTime and the key *)
Record hit := Hit { h_start : Z; h_end : Z; h_wire : Z; h_tpc : Z; h_plane : nat; h_integral : Qc; h_amp : Qc; h_roi : Qc; h_peak : Qc; h_key : nat }.
(** recob::Track: HasValidPoint, LocationAtPoint, DirectionAtPoint, Trajectory().Start(), Trajectory().End() *)
Record track := Trk { t_valid : Z -> bool; t_loc : Z -> vec; t_dir : Z -> vec; t_start : vec; t_end : vec }.
(** the configuration (67-132) and the services *)
Record env := Env {
  e_np : nat;                     (* wireReadoutGeom.Nplanes() *)
  e_method : nat;                 (* ChargeMethod *)
  e_t0 : bool; e_pfp : bool;      (* whether T0ModuleLabel and PFPModuleLabel are set *)
  e_fd : bool; e_fde : bool; e_corrected : bool; e_cryo : nat; e_xsign : Qc; (* FieldDistortion, FieldDistortionEfield, TrackIsFieldDistortionCorrected, Cryostat, FieldDistortionCorrectionXSign *)
  e_spatial : bool; e_simE : bool; (* EnableCalSpatialSCE, EnableSimEfieldSCE *)
  e_cal : vec -> Z -> vec;        (* GetCalPosOffsets *)
  e_off : vec -> vec;             (* GetPosOffsets *)
  e_eoff : vec -> vec;            (* GetEfieldOffsets *)
  e_drift : Z -> Z;               (* int(TPC(tpc).DriftDir().X()) *)
  e_field : Qc;                   (* Efield() *)
  e_sin : hit -> Qc; e_cos : hit -> Qc; (* sine and cosine of WireAngleToVertical(view, plane) - pi/2 *)
  e_wp : hit -> Qc;               (* WirePitch of the plane of the hit *)
  e_norm : vec -> Qc;             (* .r() *)
  e_quot : Qc -> Qc -> Qc;        (* floating point division *)
  e_acos : Qc -> Qc;              (* acos(x) * 180 / pi *)
  e_amp : Qc -> Qc -> nat -> Qc -> Qc -> Qc -> Qc;  (* dEdx_AMP: dQdx, time, plane, T0, Efield, phi *)
  e_area : Qc -> Qc -> nat -> Qc -> Qc -> Qc -> Qc; (* dEdx_AREA *)
  e_tools : list (Qc -> hit -> vec -> vec -> Qc -> Qc); (* INormalizeCharge tools: dQdx, hit, location, direction, t0 *)
  e_bogus : Qc                    (* util::kBogusD *) }.

(** OrganizedHits, 60 *)
Notation org := (nat * list nat)%type.
(** the hits of a track with the Index() of their recob::TrackHitMeta (FindManyP gives two vectors of one length, 248-249) *)
Notation hits := (list (hit * Z)).

Section Alg.
Variable e : env.

(** HitIsValid, 525-529 *)
Definition valid (t : track) (m : Z) : bool := if (m =? 2147483647)%Z then false else t_valid t m.

(** OrganizeHitsIndividual, 444-456 *)
Definition individual (hs : hits) (t : track) : outcome (list (list org)) :=
  for_ (range 0 (length hs)) (fun ret i =>
    do x <- idx hs i;
    if valid t (snd x) then do l <- idx ret (h_plane (fst x)); set_idx ret (h_plane (fst x)) (l ++ [(i, [])]) else Ok ret) (repeat [] (e_np e)).

(** HitIdentifier, 469-491 *)
Record ident := Id { i_start : Z; i_end : Z; i_wire : Z; i_integral : Qc }.
Definition ident_of (h : hit) : ident := Id (h_start h) (h_end h) (h_wire h) (h_integral h).
Definition ident_eq (a b : ident) : bool := ((i_start a =? i_start b)%Z && (i_end a =? i_end b)%Z && (i_wire a =? i_wire b)%Z)%bool.
Definition ident_gt (a b : ident) : bool := qc_lt (i_integral b) (i_integral a).
(** the search of 502-515 with its break: the first entry with this snippet *)
Fixpoint search (ids : list ident) (x : ident) (js : list nat) : outcome (option nat) :=
  match js with
  | [] => Ok None
  | j :: js => do y <- idx ids j; if ident_eq x y then Ok (Some j) else search ids x js
  end.
(** the body of 496-520 for one plane *)
Definition snip_step (ret : list org) (ids : list ident) (i : nat) (x : ident) : outcome (list org * list ident) :=
  do r <- search ids x (range 0 (length ret));
  match r with
  | Some j =>
    do o <- idx ret j; do y <- idx ids j;
    if ident_gt x y
    then do ret <- set_idx ret j (i, snd o ++ [fst o]); do ids <- set_idx ids j x; Ok (ret, ids)
    else do ret <- set_idx ret j (fst o, snd o ++ [i]); Ok (ret, ids)
  | None => Ok (ret ++ [(i, [])], ids ++ [x])
  end.
(** OrganizeHitsSnippets, 458-523 *)
Definition snippets (hs : hits) (t : track) : outcome (list (list org)) :=
  do s <- for_ (range 0 (length hs)) (fun (s : list (list org) * list (list ident)) i =>
    do x <- idx hs i;
    if valid t (snd x) then
      do l <- idx (fst s) (h_plane (fst x)); do ids <- idx (snd s) (h_plane (fst x));
      do r <- snip_step l ids i (ident_of (fst x));
      do ret <- set_idx (fst s) (h_plane (fst x)) (fst r); do idents <- set_idx (snd s) (h_plane (fst x)) (snd r); Ok (ret, idents)
    else Ok s) (repeat [] (e_np e), repeat [] (e_np e));
  Ok (fst s).
(** OrganizeHits, 427-442 *)
Definition organize (hs : hits) (t : track) : outcome (list (list org)) :=
  if (e_method e =? 1) || (e_method e =? 0) then individual hs t else snippets hs t.

(** WireToTrajectoryPosition, 540-556 *)
Definition wire_to_traj (p : vec) (tpc : Z) : vec :=
  if e_spatial e && e_fd e then let o := e_cal e p tpc in V (vx p + e_xsign e * vx o)%Qc (vy p + vy o)%Qc (vz p + vz o)%Qc else p.
(** TrajectoryToWirePosition, 567-587 *)
Definition traj_to_wire (p : vec) (tpc : Z) : vec :=
  if e_spatial e && e_fd e then let o := e_off e p in
    V (vx p + Q2Qc (inject_Z (e_drift e tpc)) * e_xsign e * vx o)%Qc (vy p + vy o)%Qc (vz p + vz o)%Qc else p.
(** GetLocation, 531-538 *)
Definition location (t : track) (h : hit) (m : Z) : vec := if e_corrected e then t_loc t m else wire_to_traj (t_loc t m) (h_tpc h).
(** GetLocationAtWires, 558-565 *)
Definition location_wires (t : track) (h : hit) (m : Z) : vec := if e_corrected e then traj_to_wire (t_loc t m) (h_tpc h) else t_loc t m.
Definition qabs (x : Qc) : Qc := if qc_lt x 0 then (- x)%Qc else x.
(** GetPitch, 589-640 *)
Definition pitch (t : track) (h : hit) (m : Z) : Qc :=
  let dir := if e_spatial e && e_fd e && e_corrected e then
      let mdx := traj_to_wire (vsub (t_loc t m) (vscale (half (e_wp e h)) (t_dir t m))) (h_tpc h) in
      let pdx := traj_to_wire (vadd (t_loc t m) (vscale (half (e_wp e h)) (t_dir t m))) (h_tpc h) in
      let d := vsub pdx mdx in let n := e_norm e (vsub mdx pdx) in V (e_quot e (vx d) n) (e_quot e (vy d) n) (e_quot e (vz d) n)
    else t_dir t m in
  let cosgamma := qabs (e_sin e h * vy dir + e_cos e h * vz dir)%Qc in
  let p := if Qc_eq_dec cosgamma 0%Qc then 0%Qc else e_quot e (e_wp e h) cosgamma in
  let w := location_wires t h m in
  e_norm e (vsub (wire_to_traj (vadd w (vscale p dir)) (h_tpc h)) (wire_to_traj w (h_tpc h))).
(** GetCharge, 642-658 (the sum in exact arithmetic; its accumulator is a float) *)
Definition charge (h : hit) (shared : list hit) : Qc :=
  match e_method e with
  | 0 => h_amp h
  | 1 => h_integral h
  | 2 => h_roi h
  | 3 => fold_left (fun s x => (s + h_integral x)%Qc) shared (h_integral h)
  | _ => 0%Qc
  end.
(** Normalize, 660-673 *)
Definition normalize (q : Qc) (h : hit) (loc dir : vec) (t0 : Qc) : Qc := fold_left (fun r (f : Qc -> hit -> vec -> vec -> Qc -> Qc) => f r h loc dir t0) (e_tools e) q.
(** GetEfield, 675-694 *)
Definition efield (t : track) (h : hit) (m : Z) : Qc :=
  if e_simE e && e_fde e then e_norm e (vscale (e_field e) (vadd (e_eoff e (location t h m)) (V 1%Qc 0%Qc 0%Qc))) else e_field e.

(** the vectors of 268-287 *)
Record acc := Acc { a_ke : Qc; a_dedx : list Qc; a_dqdx : list Qc; a_pitch : list Qc; a_xyz : list vec; a_tp : list nat; a_ef : list Qc; a_phi : list Qc; a_len : list Qc }.
(** 288-365: one hit *)
Definition one (hs : hits) (t : track) (t0 : Qc) (a : acc) (o : org) : outcome acc :=
  do shared <- foreach (snd o) (fun l j => do x <- idx hs j; Ok (l ++ [fst x])) [];
  do x <- idx hs (fst o);
  let h := fst x in let m := snd x in
  let loc := location t h m in let p := pitch t h m in let q := charge h shared in let ef := efield t h m in
  let phi := e_acos e (qabs (vx (t_dir t m))) in
  let dq := normalize (e_quot e q p) h (t_loc t m) (t_dir t m) t0 in
  let de := if e_method e =? 0 then e_amp e dq (h_peak h) (h_plane h) t0 ef phi else e_area e dq (h_peak h) (h_plane h) t0 ef phi in
  let len := match rev (a_xyz a) with [] => 0%Qc | b :: _ => e_norm e (vsub loc b) end in
  Ok (Acc (a_ke a + de * p)%Qc (a_dedx a ++ [de]) (a_dqdx a ++ [dq]) (a_pitch a ++ [p]) (a_xyz a ++ [loc]) (a_tp a ++ [h_key h]) (a_ef a ++ [ef]) (a_phi a ++ [phi]) (a_len a ++ [len])).

(** 373-376 *)
Definition downstream (t : track) (first last : vec) : bool :=
  qc_lt (e_norm e (vsub (t_start t) first) + e_norm e (vsub (t_end t) last))%Qc (e_norm e (vsub (t_end t) first) + e_norm e (vsub (t_start t) last))%Qc.
(** 379-384 *)
Definition res_down (ls : list Qc) : outcome (list Qc) :=
  let n := length ls in
  do r <- set_idx (repeat 0%Qc n) (n - 1) (half (nth (n - 1) ls 0%Qc));
  for_ (rev (range 0 (n - 1))) (fun r i => do a <- idx r (i + 1); do b <- idx ls (i + 1); set_idx r i (a + b)%Qc) r.
(** 385-390 *)
Definition res_up (ls : list Qc) : outcome (list Qc) :=
  let n := length ls in
  do l1 <- idx ls 1;
  do r <- set_idx (repeat 0%Qc n) 0 (half l1);
  for_ (range 1 n) (fun r i => do a <- idx r (i - 1); do b <- idx ls i; set_idx r i (a + b)%Qc) r.

(** anab::Calorimetry; the plane id has TPC 0 and the configured cryostat (281-285); the dead wire ranges are always empty (272) *)
Record calo := Calo { c_ke : Qc; c_dedx : list Qc; c_dqdx : list Qc; c_res : list Qc; c_dead : list Qc; c_range : Qc; c_pitch : list Qc; c_xyz : list vec; c_tp : list nat; c_plane : nat * nat * nat; c_ef : list Qc; c_phi : list Qc }.
(** 266-413: one plane *)
Definition one_plane (hs : hits) (t : track) (t0 : Qc) (orgs : list (list org)) (p : nat) : outcome calo :=
  do os <- idx orgs p;
  do a <- foreach os (one hs t t0) (Acc 0%Qc [] [] [] [] [] [] [] []);
  let pl := (e_cryo e, 0, p) in
  if 1 <? length (a_len a) then
    let range := fold_left Qcplus (a_len a) 0%Qc in
    do f <- idx (a_xyz a) 0; do l <- idx (a_xyz a) (length (a_xyz a) - 1);
    do res <- (if downstream t f l then res_down (a_len a) else res_up (a_len a));
    Ok (Calo (a_ke a) (a_dedx a) (a_dqdx a) res [] range (a_pitch a) (a_xyz a) (a_tp a) pl (a_ef a) (a_phi a))
  else Ok (Calo (e_bogus e) [] [] [] [] (e_bogus e) [] [] [] pl [] []).

(** a track of the event: its hits, the times of its T0s, and the times of the T0s of each of its PFParticles *)
Record input := In_ { n_track : track; n_hits : hits; n_t0s : list Qc; n_pfps : list (list Qc) }.
(** 251-261: [pfpt0] are the T0s of the PFParticles, one per track *)
Definition pick_t0 (pfpt0 : list (list Qc)) (i : nat) (x : input) : outcome Qc :=
  if e_t0 e then
    do l <- (if e_pfp e then at_ pfpt0 i else Ok (n_t0s x));
    Ok (match l with [] => 0%Qc | t :: _ => t end)
  else Ok 0%Qc.
(** produce, 200-425: the calorimetry objects and the associations, each with a track and an index of an object *)
Definition produce (ts : list input) : outcome (list calo * list (nat * nat)) :=
  do pfpt0 <- (if e_pfp e then foreach ts (fun l x => do p <- at_ (n_pfps x) 0; Ok (l ++ [p])) [] else Ok []);
  for_ (range 0 (length ts)) (fun s i =>
    do x <- idx ts i;
    do t0 <- pick_t0 pfpt0 i x;
    do orgs <- organize (n_hits x) (n_track x);
    for_ (range 0 (e_np e)) (fun (s : list calo * list (nat * nat)) p =>
      do c <- one_plane (n_hits x) (n_track x) t0 orgs p;
      Ok (fst s ++ [c], snd s ++ [(i, length (fst s))])) s) ([], []).
End Alg.
