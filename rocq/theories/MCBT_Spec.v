(** Vocabulary of C31-C34 *)
From Coq Require Import QArith Qcanon.
From Verif Require Import Base QcUtil Solver_Model MCBT_Model.
Local Open Scope nat_scope.

(** a deposit: channel, time, track id, electrons *)
Record dep := mkDep { d_ch : nat; d_t : nat; d_id : Z; d_q : Qc }.
(** all deposits of the input, in order *)
Definition deps (chs : list simch) : list dep :=
  flat_map (fun s => flat_map (fun ti => map (fun ide => mkDep (sc_ch s) (fst ti) (fst ide) (snd ide)) (snd ti)) (sc_map s)) chs.
(** charge of the deposits selected by [P] *)
Definition charge (P : dep -> bool) (ds : list dep) : Qc := qsum (fun d => if P d then d_q d else 0%Qc) ds.

(** [id] is the [k]-th (from 0) new id in the list of registrations *)
Definition position (ids : list nat) (id k : nat) : Prop := exists pre post, ids = pre ++ id :: post /\ ~ In id pre /\ k = length (nodup Nat.eq_dec pre).

(** deposit [d] counts for entry [k] of the charge vectors of [b]: its particle is registered under index [k], or it is unregistered and [k] is the last entry *)
Definition belongs (b : bt) (k : nat) (d : dep) : bool :=
  match index b (Z.to_nat (d_id d)) with
  | Ok (Some i) => Nat.eqb i k
  | _ => Nat.eqb k (num_parts b)
  end.

(** [b] is the state after a call of Reset on the deposits [chs] (either form of registration, whatever the object held before) *)
Definition built (nplanes : nat) (plane_of : nat -> nat) (b : bt) (chs : list simch) : Prop :=
  (exists old ids, reset nplanes plane_of old ids chs = Ok b) \/ (exists old groups, reset_groups nplanes plane_of old groups chs = Ok b).
(** the input Reset is meant for: no negative track id, all channels on existing planes *)
Definition proper (nplanes : nat) (plane_of : nat -> nat) (chs : list simch) : Prop :=
  Forall (fun d => 0 <= d_id d)%Z (deps chs) /\ Forall (fun s => plane_of (sc_ch s) < nplanes) chs.

(** deposit [d] lies in the range [lo, hi + 1] of channel [ch] *)
Definition within (ch lo hi : nat) (d : dep) : bool := Nat.eqb (d_ch d) ch && (lo <=? d_t d) && (d_t d <=? hi + 1).
(** charge of entry [m] collected by the hits of a cluster *)
Definition cluster_charge (chs : list simch) (b : bt) (m : nat) (c : list rhit) : Qc := qsum (fun h => charge (fun d => within (h_ch h) (h_lo h) (h_hi h) d && belongs b m d) (deps chs)) c.
(** charge collected by the hits of a cluster, whichever particle it is from *)
Definition cluster_total (chs : list simch) (c : list rhit) : Qc := qsum (fun h => charge (within (h_ch h) (h_lo h) (h_hi h)) (deps chs)) c.
(** the plane of a cluster: that of its first hit *)
Definition plane_of_cluster (c : list rhit) : nat := match c with h :: _ => h_plane h | [] => 0 end.
(** clusters with hits, on existing planes, none with an inverted range *)
Definition proper_cluster (nplanes : nat) (c : list rhit) : Prop := c <> [] /\ Forall (fun h => h_plane h < nplanes /\ h_lo h <= h_hi h + 2) c.

(** [z] is the first of the clusters [0..n-1] on plane [p] with the largest positive value of [q], or -1 if all are non-positive *)
Definition first_best (q : nat -> Qc) (plane : nat -> nat) (n p : nat) (z : Z) : Prop :=
  (z = (-1)%Z /\ forall c, c < n -> plane c = p -> (q c <= 0)%Qc) \/
  (exists c, z = Z.of_nat c /\ c < n /\ plane c = p /\ (0 < q c)%Qc /\ (forall c', c' < n -> plane c' = p -> (q c' <= q c)%Qc) /\ (forall c', c' < c -> plane c' = p -> (q c' < q c)%Qc)).
