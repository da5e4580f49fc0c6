(** What a user of the TrajCluster vertices relies on, in terms of the slice contents only. *)
From Verif Require Import Base TV_Model.
From Coq Require Import QArith Qcanon Relations.
Local Open Scope nat_scope.

(** the object with identifier [id] (identifiers start at 1) *)
Definition nth1 {A} (l : list A) (id : nat) : option A :=
  match id with O => None | S i => nth_error l i end.

(** trajectory / 2D vertex / 3D vertex number [x], not obsolete *)
Definition is_tj (s : slice) (x : nat) (t : tj) : Prop := nth1 (tjs s) x = Some t /\ dead t = false.
Definition is_2V (s : slice) (x : nat) (v : vx) : Prop := nth1 (vs s) x = Some v /\ vid v = x.
Definition is_3V (s : slice) (x : nat) (w : vx3) : Prop := nth1 (ws s) x = Some w /\ wid w = x.

(** one of the ends of [t] is attached to 2D vertex [x] *)
Definition on (t : tj) (x : nat) : Prop := x <> 0 /\ (e0 t = x \/ e1 t = x).

(** ---- the associations are consistent ---- *)
Record sound (npl : nat) (s : slice) : Prop := {
  (* identifiers are positions, or 0 when obsolete *)
  s_tid  : forall i t, nth_error (tjs s) i = Some t -> tid t = S i;
  s_vid  : forall i v, nth_error (vs s) i = Some v -> vid v = 0 \/ vid v = S i;
  s_wid  : forall k w, nth_error (ws s) k = Some w -> wid w = 0 \/ wid w = S k;
  (* planes exist *)
  s_pl   : forall v, In v (vs s) -> vctp v mod 10 < npl;
  s_len  : forall w, In w (ws s) -> length (w2 w) = npl;
  (* halo trajectories have no vertices *)
  s_halo : forall t, In t (tjs s) -> halo t = true -> e0 t = 0 /\ e1 t = 0;
  (* trajectory -> 2D vertex: it exists, is not obsolete, and lies in the same plane *)
  s_t2   : forall t x, In t (tjs s) -> dead t = false -> on t x -> exists v, is_2V s x v /\ vctp v = tctp t;
  (* 2D -> 3D and 3D -> 2D vertex associations are mutual *)
  s_23   : forall x v, is_2V s x v -> v3 v <> 0 ->
             exists w, is_3V s (v3 v) w /\ nth_error (w2 w) (vctp v mod 10) = Some x;
  s_32   : forall k w p x, is_3V s k w -> nth_error (w2 w) p = Some x -> x <> 0 ->
             exists v, is_2V s x v /\ v3 v = k /\ vctp v mod 10 = p;
  (* even an obsolete 2D vertex names a 3D vertex that was stored *)
  s_ref  : forall v, In v (vs s) -> v3 v <= length (ws s) }.

(** two 2D vertices at the two ends of a trajectory *)
Definition linked (s : slice) (x y : nat) : Prop :=
  exists id t, is_tj s id t /\ on t x /\ on t y.
Definition connected (s : slice) : nat -> nat -> Prop := clos_refl_trans nat (linked s).

(** ---- the effect of making 2D vertex [x] = [v] obsolete ---- *)
Definition hi_of (s : slice) (x : nat) : bool :=
  match nth1 (vs s) x with Some u => vhi u | None => false end.

(** one trajectory before and after *)
Definition tj_after (s : slice) (x : nat) (t t' : tj) : Prop :=
  if dead t || halo t then t' = t
  else tid t' = tid t /\ tctp t' = tctp t /\ dead t' = dead t /\ halo t' = halo t /\
       e0 t' = (if e0 t =? x then 0 else e0 t) /\
       e1 t' = (if e1 t =? x then 0 else e1 t) /\
       pho t' = (if (e0 t =? x) || (e1 t =? x) then false else pho t) /\
       (* the high-score flag goes when the vertex at the other end is not a high-score one *)
       thi t' = thi t && (if (e0 t =? x) && (0 <? e1 t) then hi_of s (e1 t) else true)
                      && (if (e1 t =? x) && (0 <? e0 t) && negb (e0 t =? x) then hi_of s (e0 t) else true).

Record obsoleted (s : slice) (x : nat) (v : vx) (s' : slice) : Prop := {
  o_tj  : Forall2 (tj_after s x) (tjs s) (tjs s');
  o_len2 : length (vs s') = length (vs s);
  o_2V  : forall y, nth1 (vs s') y = if y =? x then Some (V 0 (vctp v) (v3 v) (vuid v) (nt v) (vsc v) (vhi v) (vwire v))
                                     else nth1 (vs s) y;
  o_len3 : length (ws s') = length (ws s);
  o_3V  : forall k w, nth1 (ws s) k = Some w -> exists w', nth1 (ws s') k = Some w' /\
            wid w' = wid w /\ wsc w' = wsc w /\ wire w' = wire w /\ prim w' = prim w /\ neu w' = neu w /\ wuid w' = wuid w /\
            length (w2 w') = length (w2 w) /\
            (forall p y, nth_error (w2 w) p = Some y ->
               nth_error (w2 w') p = Some (if (k =? v3 v) && (y =? x) then 0 else y));
  o_pf  : ps s' = ps s;
  o_g   : g2 s' = g2 s /\ g3 s' = g3 s }.

(** the identity of a trajectory *)
Definition tj_fixed (t : tj) := (tid t, tctp t, dead t, halo t).

(** ---- the same associations: only scores, flags and counters differ ---- *)
Definition tj_shape (t : tj) := (tid t, tctp t, dead t, halo t, e0 t, e1 t).
Definition vx_shape (v : vx) := (vid v, vctp v, v3 v).
Definition w_shape (w : vx3) := (wid w, w2 w).
Definition same (s s' : slice) : Prop :=
  map tj_shape (tjs s) = map tj_shape (tjs s') /\ map vx_shape (vs s) = map vx_shape (vs s') /\
  map w_shape (ws s) = map w_shape (ws s').

(** the sum of the scores of 2D vertices [ids] (0 stands for no vertex) *)
Definition score_sum (s : slice) (ids : list nat) : Qc :=
  fold_right (fun x acc => ((match nth1 (vs s) x with Some v => vsc v | None => 0 end) + acc)%Qc) 0%Qc ids.

(** a 2D vertex of a 3D vertex with a score above the cut *)
Definition high_seed (cut : Qc) (s : slice) (u : nat) : Prop :=
  u <> 0 /\ exists k w, is_3V s k w /\ (cut < wsc w)%Qc /\ In u (w2 w).

(** ---- a vertex under construction: references to [id] are not looked at ---- *)
Definition forget (id : nat) (t : tj) : tj :=
  T (tid t) (tctp t) (dead t) (halo t) (if e0 t =? id then 0 else e0 t) (if e1 t =? id then 0 else e1 t) (thi t) (pho t).
Definition sound_but (npl id : nat) (s : slice) : Prop :=
  sound npl (set_tjs s (map (forget id) (tjs s))) /\
  forall t, In t (tjs s) -> halo t = true -> e0 t = 0 /\ e1 t = 0.

(** ---- exactly the 2D vertices [D2] and the 3D vertices [D3] become obsolete ---- *)
Record kills (D2 D3 : nat -> Prop) (s s' : slice) : Prop := {
  k_tj : forall i t, nth_error (tjs s) i = Some t -> exists t', nth_error (tjs s') i = Some t' /\
           tid t' = tid t /\ tctp t' = tctp t /\ dead t' = dead t /\ halo t' = halo t /\
           (dead t = true -> t' = t) /\
           (dead t = false -> (D2 (e0 t) -> e0 t' = 0) /\ (~ D2 (e0 t) -> e0 t' = e0 t) /\
                              (D2 (e1 t) -> e1 t' = 0) /\ (~ D2 (e1 t) -> e1 t' = e1 t));
  k_ltj : length (tjs s') = length (tjs s);
  k_2V : forall x v, nth1 (vs s) x = Some v ->
           (D2 x -> nth1 (vs s') x = Some (V 0 (vctp v) (v3 v) (vuid v) (nt v) (vsc v) (vhi v) (vwire v))) /\
           (~ D2 x -> nth1 (vs s') x = Some v);
  k_l2 : length (vs s') = length (vs s);
  k_3V : forall k w, is_3V s k w -> exists w', nth1 (ws s') k = Some w' /\
           (D3 k -> wid w' = 0) /\ (~ D3 k -> wid w' = k) /\
           wsc w' = wsc w /\ wire w' = wire w /\ prim w' = prim w /\ neu w' = neu w /\ wuid w' = wuid w /\
           length (w2 w') = length (w2 w) /\
           (forall p y, nth_error (w2 w) p = Some y ->
              (D2 y -> nth_error (w2 w') p = Some 0) /\ (~ D2 y -> nth_error (w2 w') p = Some y));
  k_3dead : forall k w, nth1 (ws s) k = Some w -> wid w = 0 -> nth1 (ws s') k = Some w;
  k_l3 : length (ws s') = length (ws s);
  k_pf : ps s' = ps s;
  k_g : g2 s' = g2 s /\ g3 s' = g3 s }.

(** ---- the clusters of close 2D vertices of plane [p] ---- *)
Definition in_plane (s : slice) (p x : nat) : Prop := exists v, is_2V s x v /\ vctp v mod 10 = p.
Definition near_pair (close : nat -> nat -> bool) (s : slice) (p x y : nat) : Prop :=
  x < y /\ in_plane s p x /\ in_plane s p y /\ close (x - 1) (y - 1) = true.
