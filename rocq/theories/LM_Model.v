(** Model of larreco/ClusterFinder/LineMerger_module.cc.
    Numbers are exact rationals; [atan] is an arbitrary function; distances are compared by their squares. The charge sums computed by
    ClusterParamsImportWrapper from the final hits (465, 482-487) and the logging are left out. *)
From Coq Require Import QArith Qcanon.
From Verif Require Import Base QcUtil Solver_Model.
Local Open Scope nat_scope.

(** one end of a recob::Cluster: wire, tick, angle; [e_rest] stands for the two uncertainties, the charge and the opening angle *)
Record cend := E { e_wire : Qc; e_tick : Qc; e_angle : Qc; e_rest : nat }.
Inductive view := VU | VV | VZ | VOther (n : nat).
Definition view_eqb (a b : view) : bool := match a, b with VU, VU | VV, VV | VZ, VZ => true | VOther n, VOther m => n =? m | _, _ => false end.
(** a recob::Cluster; no plane: an invalid PlaneID *)
Record clu := C { c_id : nat; c_valid : bool; c_start : cend; c_end : cend; c_width : Qc; c_view : view; c_plane : option nat }.
(** Slope, EndpointWindow, 341-342 *)
Record cfg := Cfg { f_slope : Qc; f_window : Qc }.

(** a ClusterAndHitMerger that is not empty: 184-211, 317 *)
Record merger := M { m_start : cend; m_end : cend; m_width : Qc; m_view : view; m_plane : option nat; m_hits : list nat }.

Definition qlt (a b : Qc) : bool := qc_lt a b.
(** the first Add, 244-252; an invalid cluster leaves the members uninitialised, 242 *)
Definition first (c : clu) (hits : list nat) : option merger :=
  if c_valid c then Some (M (c_start c) (c_end c) (c_width c) (c_view c) (c_plane c) hits) else None.
Definition plane_clash (a b : option nat) : bool := match a, b with Some p, Some q => negb (p =? q) | _, _ => false end.
(** Add, 240-272 and 326-335: whether it succeeded, and the object *)
Definition add (m : merger) (c : clu) (hits : list nat) (prepend : bool) : bool * merger :=
  if negb (c_valid c) then (false, m)
  else if negb (view_eqb (c_view c) (m_view m)) then (false, m)
  else if plane_clash (c_plane c) (m_plane m) then (false, m)
  else (true, M (if qlt (e_wire (c_start c)) (e_wire (m_start m)) then c_start c else m_start m)
                (if qlt (e_wire (c_end c)) (e_wire (m_end m)) then c_end c else m_end m)
                (if qlt (m_width m) (c_width c) then c_width c else m_width m)
                (m_view m)
                (match m_plane m with None => c_plane c | p => p end)
                (if prepend then hits ++ m_hits m else m_hits m ++ hits)).

Section Alg.
Variables (atan : Qc -> Qc) (cf : cfg).
Definition qabs (x : Qc) : Qc := if qc_lt x 0 then (- x)%Qc else x.
(** SlopeCompatibility, 512-519 *)
Definition slope_ok (a b : Qc) : bool := qlt (qabs (atan a - atan b)) (f_slope cf).
(** the square of the distance of 532-537 *)
Definition dist2 (a b : cend) : Qc := ((e_wire a - e_wire b) * (e_wire a - e_wire b) * Q2Qc (27 # 2) + (e_tick a - e_tick b) * (e_tick a - e_tick b))%Qc.
Definition near (a b : cend) : bool := qlt 0 (f_window cf) && qlt (dist2 a b) (f_window cf * f_window cf)%Qc.
(** EndpointCompatibility, 521-546: 1, -1 or 0 *)
Inductive comp := Plus | Minus | Zero.
Definition endpoint (s e : cend) (c2 : clu) : comp := if near e (c_start c2) then Plus else if near s (c_end c2) then Minus else Zero.
(** 434-435 *)
Definition same_slope (m : merger) (c2 : clu) : bool := slope_ok (e_angle (m_start m)) (e_angle (c_end c2)) || slope_ok (e_angle (m_end m)) (e_angle (c_start c2)).

(** one turn of the loop over c2, 421-461: the flags of Cls_matches and cl1. [hits_of]: the association FindManyP *)
Definition turn2 (cls : list clu) (hits_of : list (list nat)) (ixs : list nat) (s : list bool * merger) (c2 : nat) : outcome (list bool * merger) :=
  let '(done, m) := s in
  do d <- idx done c2;
  if d : bool then Ok s else
  do i <- idx ixs c2;
  do cl2 <- at_ cls i;
  do h <- at_ hits_of i;
  match endpoint (m_start m) (m_end m) cl2 with
  | Zero => Ok s
  | p => if same_slope m cl2 then
           do done <- set_idx done c2 true;
           Ok (done, snd (add m cl2 h (match p with Plus => true | _ => false end)))
         else Ok s
  end.
(** one output: the id and what was merged *)
Definition sclu := (nat * merger)%type.
(** one turn of the loop over c, 404-498 *)
Definition turn1 (cls : list clu) (hits_of : list (list nat)) (ixs : list nat) (s : list bool * list sclu) (c : nat) : outcome (list bool * list sclu) :=
  let '(done, out) := s in
  do d <- idx done c;
  if d : bool then Ok s else
  do i <- idx ixs c;
  do cl <- at_ cls i;
  do h <- at_ hits_of i;
  do done <- set_idx done c true;
  match first cl h with
  | None => Undef
  | Some m =>
    do r <- foreach (seq 0 (length ixs)) (turn2 cls hits_of ixs) (done, m);
    Ok (fst r, out ++ [(c_id cl, snd r)])
  end.
(** one view, 399-499 *)
Definition one_view (cls : list clu) (hits_of : list (list nat)) (out : list sclu) (v : view) : outcome (list sclu) :=
  let ixs := filter (fun i => match nth_error cls i with Some c => view_eqb (c_view c) v | None => false end) (seq 0 (length cls)) in
  do r <- foreach (seq 0 (length ixs)) (turn1 cls hits_of ixs) (repeat false (length ixs), out);
  Ok (snd r).
(** produce, 349-508: the clusters with their hits *)
Definition produce (cls : list clu) (hits_of : list (list nat)) : outcome (list sclu) := foreach [VU; VV; VZ] (one_view cls hits_of) [].
End Alg.
