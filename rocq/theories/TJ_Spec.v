(** What a user of the TrajCluster trajectory list relies on, in terms of the slice contents only. *)
From Verif Require Import Base TJ_Model.
Local Open Scope nat_scope.

(** trajectory [t] uses hit [h]: some point lists [h] with its UseHit bit set *)
Definition uses (t : traj) (h : nat) : Prop := exists p, In p (pts t) /\ In (h, true) (thits p).
(** hit [h]'s InTraj is [x] *)
Definition holds (s : slc) (h : nat) (x : Z) : Prop := nth_error (own s) h = Some x.
(** a stored trajectory that has not been made obsolete *)
Definition live (s : slc) (t : traj) : Prop := In t (tjs s) /\ killed t = false.
(** no hit is used at two places of the same trajectory *)
Definition once (t : traj) : Prop :=
  forall i p k h i' p' k',
    nth_error (pts t) i = Some p -> nth_error (thits p) k = Some (h, true) ->
    nth_error (pts t) i' = Some p' -> nth_error (thits p') k' = Some (h, true) -> i = i' /\ k = k'.

(** ---- the promise ---- *)
Record consistent (s : slc) : Prop := {
  c_id   : forall i t, nth_error (tjs s) i = Some t -> tid t = Z.of_nat (i + 1);
  c_used : forall t h, live s t -> uses t h -> holds s h (tid t);
  c_own  : forall h x, holds s h x -> (0 < x)%Z -> exists t, live s t /\ tid t = x /\ uses t h;
  c_once : forall t, live s t -> once t }.

(** [a], [b] are the first and last charged points of [l] *)
Definition ends_of (l : list tp) (a b : nat) : Prop :=
  (exists p, nth_error l a = Some p /\ chg p <> 0%Z) /\ (exists p, nth_error l b = Some p /\ chg p <> 0%Z) /\
  forall i p, nth_error l i = Some p -> chg p <> 0%Z -> a <= i <= b.
(** a point with a used hit has charge *)
Definition charged_pts (t : traj) : Prop :=
  forall p h, In p (pts t) -> In (h, true) (thits p) -> chg p <> 0%Z.
(** an ordinary trajectory (not a shower or halo one) whose points are well formed *)
Definition ordinary (t : traj) : Prop := shower t = false /\ halo t = false /\ charged_pts t.
(** the working copy a caller may hand to StoreTraj: ordinary, not killed, with a negative (work) ID *)
Definition work (t : traj) : Prop := ordinary t /\ killed t = false /\ (tid t < 0)%Z.
(** no point lists more hits than UseHit has bits *)
Definition small_pts (t : traj) : Prop := forall p, In p (pts t) -> length (thits p) <= 16.
(** stored trajectories, obsolete or not *)
Definition stored_ok (t : traj) : Prop :=
  ordinary t /\ (wid t < 0)%Z /\ ep0 t < ep1 t /\ ends_of (pts t) (ep0 t) (ep1 t) /\ once t /\ small_pts t.

(** a healthy slice *)
Definition healthy (s : slc) : Prop := consistent s /\ forall t, In t (tjs s) -> stored_ok t.

(** the hits marked with the working ID are the used ones: what stepping leaves behind *)
Definition claimed (s : slc) (t : traj) : Prop :=
  once t /\
  (forall h, uses t h -> exists x, holds s h x /\ (x <= 0)%Z) /\
  (forall h, holds s h (tid t) -> uses t h).

(** nobody is half-way through building a trajectory *)
Definition idle (s : slc) : Prop := forall h x, holds s h x -> (0 <= x)%Z.

(** the hit marks may change freely among "free" and "being worked on", never touching owned hits
    (what stepping does between two book-keeping calls) *)
Definition worked (s s' : slc) : Prop :=
  s' = set_own s (own s') /\ length (own s') = length (own s) /\
  forall h x, (0 < x)%Z -> (holds s h x <-> holds s' h x).

Section Steps.
Variable pdg_of : traj -> Z.
Variable attach : slc -> option (bool * nat).

(** one careful use of the interface *)
Inductive careful : slc -> slc -> Prop :=
| s_work s s' : worked s s' -> careful s s'
| s_store_ok s t s' : work t -> store_traj s t = Ok (true, s') -> careful s s'
| s_store_no s t s' : work t -> claimed s t -> store_traj s t = Ok (false, s') -> careful s s'
| s_kill s i s' : make_obsolete s i = Ok s' -> careful s s'
| s_restore s i t s' :
    nth_error (tjs s) i = Some t -> (forall h, uses t h -> holds s h 0%Z) ->
    restore_obsolete s i = Ok s' -> careful s s'
| s_split s i t p v b s' :
    nth_error (tjs s) i = Some t -> killed t = false ->
    split_traj pdg_of s i p v = Ok (b, s') -> careful s s'
| s_merge s i j b s' :
    idle s -> (N.of_nat (length (tjs s)) < 65535)%N ->
    merge_and_store pdg_of attach s i j = Ok (b, s') -> careful s s'.

(** any use of the interface *)
Inductive any_step : slc -> slc -> Prop :=
| a_work s s' : worked s s' -> any_step s s'
| a_store s t b s' : store_traj s t = Ok (b, s') -> any_step s s'
| a_kill s i s' : make_obsolete s i = Ok s' -> any_step s s'
| a_restore s i s' : restore_obsolete s i = Ok s' -> any_step s s'
| a_split s i p v b s' : split_traj pdg_of s i p v = Ok (b, s') -> any_step s s'
| a_merge s i j b s' : merge_and_store pdg_of attach s i j = Ok (b, s') -> any_step s s'.

Inductive history (R : slc -> slc -> Prop) : slc -> slc -> Prop :=
| h_nil s : history R s s
| h_cons s1 s2 s3 : history R s1 s2 -> R s2 s3 -> history R s1 s3.
End Steps.

(** ---- what a merge does to the points ---- *)
Definition dist2 (a b : tp) : Z :=
  ((fst (pos a) - fst (pos b)) ^ 2 + (snd (pos a) - snd (pos b)) ^ 2)%Z.
(** point [p] lists hit [h], used or not *)
Definition lists (p : tp) (h : nat) : Prop := exists u, In (h, u) (thits p).
(** [n] is the point list made from [ta] and [tb]: one of them ([x], put first) up to its last charged point,
    then the other ([y]) from point [c] on. One is turned around exactly when the step directions differ; the
    two are joined at the nearer pair of ends; [c] is the first point, from the one nearest to the join on,
    that shares no hit with the last eleven points of the first part (or the last point). No hit is listed twice. *)
Definition joined (ta tb : traj) (w : Z) (n : list tp) : Prop :=
  exists x y p1 p2 a1 b1 a2 b2 c0 c,
    ((x = ta /\ y = tb) \/ (x = tb /\ y = ta)) /\ w = wid x /\
    (dir ta = dir tb -> p1 = pts x /\ p2 = pts y) /\
    (dir ta <> dir tb -> (p1 = rev (pts x) /\ p2 = pts y) \/ (p1 = pts x /\ p2 = rev (pts y))) /\
    ends_of p1 a1 b1 /\ ends_of p2 a2 b2 /\
    (forall f1 l1 f2 l2, nth_error p1 a1 = Some f1 -> nth_error p1 b1 = Some l1 ->
       nth_error p2 a2 = Some f2 -> nth_error p2 b2 = Some l2 -> (dist2 l1 f2 <= dist2 l2 f1)%Z) /\
    a2 <= c0 <= c /\ c <= b2 /\
    (forall l1 k0, nth_error p1 b1 = Some l1 -> nth_error p2 c0 = Some k0 ->
       (dist2 k0 l1 < 1000 * 1000)%Z /\
       forall k pk, a2 <= k <= b2 -> nth_error p2 k = Some pk -> (dist2 k0 l1 <= dist2 pk l1)%Z) /\
    (forall k pk, c0 <= k < c -> nth_error p2 k = Some pk ->
       exists h r pr, lists pk h /\ r <= b1 < r + 11 /\ nth_error p1 r = Some pr /\ lists pr h) /\
    (c < b2 -> forall pc h r pr, nth_error p2 c = Some pc -> lists pc h -> r <= b1 < r + 11 ->
       nth_error p1 r = Some pr -> ~ lists pr h) /\
    n = firstn (b1 + 1) p1 ++ skipn c p2 /\
    NoDup (flat_map (fun p => map fst (thits p)) n).

(** the slice before any trajectory is made: every hit is free *)
Definition fresh (s : slc) : Prop :=
  tjs s = [] /\ forall h x, holds s h x -> (x <= 0)%Z.

(** numbering facts that hold whatever the caller does *)
Definition numbered (s : slc) : Prop :=
  (forall i t, nth_error (tjs s) i = Some t -> tid t = Z.of_nat (i + 1)) /\
  (forall i j t u, nth_error (tjs s) i = Some t -> nth_error (tjs s) j = Some u -> uid t = uid u -> i = j) /\
  (forall t, In t (tjs s) -> (uid t <= gid s)%Z).
