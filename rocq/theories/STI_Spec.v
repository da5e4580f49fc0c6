(** What track stitching should do, independently of how it is done *)
From Coq Require Import QArith Qcanon.
From Verif Require Import Base STI_Model.
Local Open Scope nat_scope.

Definition end_at (t : trk) (e : tend) : vec := match e with HD => t_start t | TL => t_end t end.
Definition dir_at (t : trk) (e : tend) : vec := match e with HD => t_sdir t | TL => t_edir t end.
(** two track ends within the tolerances of the configuration: the directions parallel or antiparallel up to the cosine, the distance below the tolerance *)
Definition touch (c : cfg) (t : trk) (e : tend) (u : trk) (f : tend) : Prop :=
  let a := dir_at t e in let b := dir_at u f in let p := end_at t e in let q := end_at u f in
  let cosine := (vx a * vx b + vy a * vy b + vz a * vz b)%Qc in
  let gap := (V (vx p - vx q) (vy p - vy q) (vz p - vz q))%Qc in
  ((c_cos c < cosine)%Qc \/ (c_cos c < - cosine)%Qc) /\ (0 < c_sep c)%Qc /\ (vx gap * vx gap + vy gap * vy gap + vz gap * vz gap < c_sep c * c_sep c)%Qc.
(** the same for input tracks [i] and [j] *)
Definition touches (c : cfg) (ts : list trk) (i : nat) (e : tend) (j : nat) (f : tend) : Prop :=
  exists t u, nth_error ts i = Some t /\ nth_error ts j = Some u /\ touch c t e u f.
Definition tied (c : cfg) (ts : list trk) (i j : nat) : Prop := exists e f, touches c ts i e j f \/ touches c ts j f i e.

(** the points of the components one after the other, each walked forwards (false) or backwards (true) *)
Inductive laid (ts : list trk) : list (nat * bool) -> list nat -> Prop :=
  | laid_nil : laid ts [] []
  | laid_cons i t (r : bool) l pts : nth_error ts i = Some t -> laid ts l pts -> laid ts ((i, r) :: l) ((if r then rev (t_pts t) else t_pts t) ++ pts).
(** where a component walked forwards or backwards is entered and left *)
Definition entered (r : bool) : tend := if r then TL else HD.
Definition left_by (r : bool) : tend := if r then HD else TL.
(** no jumps: each component is left at an end within tolerance of the end where the next one is entered *)
Definition smooth (c : cfg) (ts : list trk) (l : list (nat * bool)) : Prop :=
  forall k i r j r', nth_error l k = Some (i, r) -> nth_error l (S k) = Some (j, r') -> touches c ts i (left_by r) j (entered r') \/ touches c ts j (entered r') i (left_by r).

(** the points of a track are its own *)
Definition proper_points (ts : list trk) : Prop := forall t, In t ts -> t_pts t <> [].
(** events in which each track meets at most one later and at most one earlier track, at one end each *)
Definition in_line (c : cfg) (ts : list trk) : Prop :=
  (forall i e j f e' j' f', i < j -> i < j' -> touches c ts i e j f -> touches c ts i e' j' f' -> (e, j, f) = (e', j', f')) /\
  (forall i e j f i' e' f', i < j -> i' < j -> touches c ts i e j f -> touches c ts i' e' j f' -> (i, e, f) = (i', e', f')) /\
  (forall i e j f k g, i < j -> j < k -> touches c ts i e j f -> touches c ts j f k g -> False).
