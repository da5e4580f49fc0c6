(** What merging lines should do, independently of how it is done *)
From Coq Require Import QArith Qcanon Permutation.
From Verif Require Import Base LM_Model.
Local Open Scope nat_scope.

Section Spec.
Variables (atan : Qc -> Qc) (cf : cfg) (cls : list clu) (hits_of : list (list nat)).

(** two ends inside the window (13.5 ticks per wire, as documented in the code) *)
Definition meets (a b : cend) : Prop :=
  let w := (e_wire a - e_wire b)%Qc in let t := (e_tick a - e_tick b)%Qc in (0 < f_window cf)%Qc /\ (w * w * Q2Qc (27 # 2) + t * t < f_window cf * f_window cf)%Qc.
Definition parallel (a b : cend) : Prop := (- f_slope cf < atan (e_angle a) - atan (e_angle b))%Qc /\ (atan (e_angle a) - atan (e_angle b) < f_slope cf)%Qc.
(** a cluster continues a line that starts at [s] and ends at [e] *)
Definition continues (s e : cend) (c : clu) : Prop := (meets e (c_start c) \/ meets s (c_end c)) /\ (parallel s (c_end c) \/ parallel e (c_start c)).

Definition is (i : nat) (c : clu) : Prop := nth_error cls i = Some c.
(** input clusters of the three views of the module, by view *)
Definition wanted (c : clu) : Prop := c_view c = VU \/ c_view c = VV \/ c_view c = VZ.
(** every member but the first continues a line between the start of an earlier member and the end of an earlier member *)
Definition linked (g : list nat) : Prop :=
  forall k i c, 0 < k -> nth_error g k = Some i -> is i c -> exists a b ca cb, In a (firstn k g) /\ In b (firstn k g) /\ is a ca /\ is b cb /\ continues (c_start ca) (c_end cb) c.
(** members of one view and of one plane, as far as they have one *)
Definition alike (g : list nat) : Prop :=
  forall i j c d, In i g -> In j g -> is i c -> is j d -> c_view c = c_view d /\ (c_plane c = None \/ c_plane d = None \/ c_plane c = c_plane d).
(** an output made of the clusters [g], the first of which gives the id *)
Definition made_of (g : list nat) (o : sclu) : Prop :=
  (exists i r c, g = i :: r /\ is i c /\ fst o = c_id c /\ m_view (snd o) = c_view c) /\ alike g /\ linked g /\
  (exists g', Permutation g' g /\ m_hits (snd o) = concat (map (fun i => nth i hits_of []) g')) /\
  (exists i c, In i g /\ is i c /\ c_width c = m_width (snd o)) /\ (forall i c, In i g -> is i c -> (c_width c <= m_width (snd o))%Qc).
(** the start is that of a member with the least start wire *)
Definition starts_first (g : list nat) (o : sclu) : Prop :=
  (exists i c, In i g /\ is i c /\ m_start (snd o) = c_start c) /\ (forall i c, In i g -> is i c -> (e_wire (m_start (snd o)) <= e_wire (c_start c))%Qc).
(** the end is that of a member with the greatest end wire *)
Definition ends_last (g : list nat) (o : sclu) : Prop :=
  (exists i c, In i g /\ is i c /\ m_end (snd o) = c_end c) /\ (forall i c, In i g -> is i c -> (e_wire (c_end c) <= e_wire (m_end (snd o)))%Qc).
(** the inputs are valid and have hits *)
Definition healthy : Prop := (forall c, In c cls -> c_valid c = true) /\ length hits_of = length cls.
(** one plane for each view: a single TPC *)
Definition one_tpc : Prop := forall c d p q, In c cls -> In d cls -> c_view c = c_view d -> c_plane c = Some p -> c_plane d = Some q -> p = q.
End Spec.
