(** What the properties of SpacePointAlg are stated with; nothing here uses the model's functions, only its records. *)
From Coq Require Import QArith Qcanon.
From Verif Require Import Base SPA_Model.
Local Open Scope nat_scope.

(* ---------------------------------------------------------------- geometry *)
Section geometry.
Local Open Scope Qc_scope.

(** |x| < b and |x| <= b *)
Definition within (b x : Qc) : Prop := - b < x /\ x < b.
Definition upto (b x : Qc) : Prop := - b <= x /\ x <= b.

(** direction of a wire and its signed distance from the origin: a point (y, z) is on the (infinite) wire when [z sin - y cos = off] *)
Definition sn (w : wire) : Qc := (ye w - ys w) / (Q2Qc 2 * hl w).
Definition cs (w : wire) : Qc := (ze w - zs w) / (Q2Qc 2 * hl w).
Definition coord (w : wire) (y z : Qc) : Qc := z * sn w - y * cs w.
Definition off (w : wire) : Qc := coord w (ys w) (zs w).
Definition on_wire (w : wire) (y z : Qc) : Prop := coord w y z = off w.
(** a wire with a positive length whose centre is half way *)
Definition straight (w : wire) : Prop := 0 < hl w /\ yc w * Q2Qc 2 = ys w + ye w /\ zc w * Q2Qc 2 = zs w + ze w.
Definition nat_q (n : nat) : Qc := Q2Qc (inject_Z (Z.of_nat n)).

(** the wire of a hit *)
Definition wr (g : geo) (h : hit) : wire := g_wire g (hcryo h) (htpc h) (hplane h) (hwire h).
(** the time of a hit without the offset of its plane *)
Definition tm (g : geo) (h : hit) : Qc := htime h - g_off g (hcryo h) (htpc h) (hplane h).

(** equally spaced parallel wires in every plane; different planes of a TPC not parallel; at most three planes *)
Record regular (g : geo) : Prop := {
  r_straight : forall c t p w, straight (g_wire g c t p w);
  r_parallel : forall c t p w, sn (g_wire g c t p w) = sn (g_wire g c t p 0) /\ cs (g_wire g c t p w) = cs (g_wire g c t p 0);
  r_spaced : forall c t p w, off (g_wire g c t p w) = off (g_wire g c t p 0) + nat_q w * g_pitch g c t p;
  r_pitch : forall c t p, 0 < g_pitch g c t p;
  r_cross : forall c t p q, p <> q -> sn (g_wire g c t p 0) * cs (g_wire g c t q 0) - sn (g_wire g c t q 0) * cs (g_wire g c t p 0) <> 0;
  r_three : forall c ts t np, nth_error (g_shape g) c = Some ts -> nth_error ts t = Some np -> (np <= 3)%nat }.

(** two hits agree: same TPC, different views, times within MaxDT *)
Definition agree (g : geo) (c : cfg) (a b : hit) : Prop :=
  htpc a = htpc b /\ hcryo a = hcryo b /\ hview a <> hview b /\ upto (maxdt c) (tm g a - tm g b).
(** the separation of three wires: zero when they meet in a point *)
Definition sep3 (a b d : wire) : Qc :=
  (sn b * cs d - cs b * sn d) * off a + (sn d * cs a - cs d * sn a) * off b + (sn a * cs b - cs a * sn b) * off d.
(** the hits can make a point *)
Inductive fits (g : geo) (c : cfg) : list hit -> Prop :=
| fits2 a b : agree g c a b -> fits g c [a; b]
| fits3 a b d : agree g c a b -> agree g c a d -> agree g c b d -> within (maxs c) (sep3 (wr g a) (wr g b) (wr g d)) -> fits g c [a; b; d].

(** the wire of [b] is in reach of the wire of [a]: its number is at least the whole part of the lowest wire number (a fraction) met along [a],
    and at most one more than the highest; wire 0 is always below the upper limit *)
Definition number (g : geo) (h : hit) (y z : Qc) : Qc :=
  let w0 := g_wire g (hcryo h) (htpc h) (hplane h) 0%nat in (coord w0 y z - off w0) / g_pitch g (hcryo h) (htpc h) (hplane h).
Definition reaches (g : geo) (a b : hit) : Prop :=
  let x1 := number g b (ys (wr g a)) (zs (wr g a)) in
  let x2 := number g b (ye (wr g a)) (ze (wr g a)) in
  (x1 < nat_q (hwire b) + 1 \/ x2 < nat_q (hwire b) + 1) /\
  (hwire b = 0%nat \/ nat_q (hwire b) <= x1 + 1 \/ nat_q (hwire b) <= x2 + 1).
End geometry.

(* ---------------------------------------------------------------- hits and planes *)

(** the hits used: those of an enabled view *)
Definition used (c : cfg) (h : hit) : Prop :=
  match hview h with VU => enu c = true | VV => env c = true | VW => enw c = true | VX => False end.
(** the hits exist in the detector, each once *)
Definition planes_in (g : geo) (c t np : nat) : Prop := exists ts, nth_error (g_shape g) c = Some ts /\ nth_error ts t = Some np.
Definition placed (g : geo) (hits : list hit) : Prop :=
  NoDup (map hid hits) /\ forall h, In h hits -> exists np, planes_in g (hcryo h) (htpc h) np /\ hplane h < np.
Definition at_plane (cr t p : nat) (h : hit) : Prop := hcryo h = cr /\ htpc h = t /\ hplane h = p.
(** [n] elements of a list satisfy P *)
Inductive counts {A} (P : A -> Prop) : list A -> nat -> Prop :=
| cnil : counts P [] 0
| cyes x l n : P x -> counts P l n -> counts P (x :: l) (S n)
| cno x l n : ~ P x -> counts P l n -> counts P (x :: l) n.
Definition used_at (c : cfg) (cr t p : nat) (h : hit) : Prop := used c h /\ at_plane cr t p h.

(** an order of the planes: with PreferColl the collection planes last; the others by number of used hits *)
Definition last_plane (g : geo) (c : cfg) (cr t p : nat) : Prop := prefer c = true /\ g_coll g cr t p = true.
Definition plane_order (g : geo) (c : cfg) (hits : list hit) (cr t np : nat) (ord : list nat) : Prop :=
  Permutation ord (seq 0 np) /\
  forall i j p q, i < j -> nth_error ord i = Some p -> nth_error ord j = Some q ->
    (last_plane g c cr t p -> last_plane g c cr t q) /\
    (~ last_plane g c cr t p -> ~ last_plane g c cr t q ->
     forall n m, counts (used_at c cr t p) hits n -> counts (used_at c cr t q) hits m -> n <= m).

(** two planes only have hits, or there are only two planes *)
Definition has_hits (c : cfg) (hits : list hit) (cr t p : nat) : Prop := exists h, In h hits /\ used_at c cr t p h.
Definition two_only (c : cfg) (hits : list hit) (cr t np : nat) : Prop :=
  np = 2 \/ counts (fun p => has_hits c hits cr t p) (seq 0 np) 2.

(** the combinations of hits of TPC (cr, t) with planes ordered as [ord]: pairs and triplets *)
Definition pair_of (g : geo) (c : cfg) (hits : list hit) (cr t np : nat) (ord : list nat) (hs : list hit) : Prop :=
  minviews c <= 2 /\ two_only c hits cr t np /\
  exists i j p q a b, i < j /\ nth_error ord i = Some p /\ nth_error ord j = Some q /\ hs = [a; b] /\
    In a hits /\ used_at c cr t p a /\ In b hits /\ used_at c cr t q b /\ reaches g a b /\ fits g c hs.
Definition triple_of (g : geo) (c : cfg) (hits : list hit) (cr t np : nat) (ord : list nat) (hs : list hit) : Prop :=
  minviews c <= 3 /\ 3 <= np /\
  exists p q r a b d, nth_error ord 0 = Some p /\ nth_error ord 1 = Some q /\ nth_error ord 2 = Some r /\ hs = [a; b; d] /\
    In a hits /\ used_at c cr t p a /\ In b hits /\ used_at c cr t q b /\ In d hits /\ used_at c cr t r d /\ reaches g a b /\ fits g c hs.

(** the TPCs in the order they are visited: cryostat by cryostat *)
Inductive visited : list (list nat) -> nat -> list (nat * nat * nat) -> Prop :=
| v_nil c : visited [] c []
| v_cons ts shape c l rest : length l = length ts -> (forall t np, nth_error ts t = Some np <-> nth_error l t = Some (c, t, np)) ->
    visited shape (S c) rest -> visited (ts :: shape) c (l ++ rest).

(** what is remembered for a point *)
Definition hits_of (m : hmap) (p : sp) (hs : list hit) : Prop := In (sp_id p, hs) m.
(** no identifier is remembered twice *)
Definition single (m : hmap) : Prop := NoDup (map fst m).

(* ---------------------------------------------------------------- the fit of one point *)
Section fit.
Local Open Scope Qc_scope.
Definition total {A} (f : A -> Qc) (l : list A) : Qc := fold_right (fun x s => f x + s) 0 l.
Definition sq (x : Qc) : Qc := x * x.
(** the chisquare of a drift time; the chisquare of a position in (y, z): a wire is known to its pitch over the root of 12 *)
Definition time_chi2 (g : geo) (wt : hit -> Qc) (hits : list hit) (t : Qc) : Qc := total (fun h => wt h * sq ((tm g h - t) / hsig h)) hits.
Definition pitch_of (g : geo) (h : hit) : Qc := g_pitch g (hcryo h) (htpc h) (hplane h).
Definition wire_chi2 (g : geo) (wt : hit -> Qc) (hits : list hit) (y z : Qc) : Qc :=
  total (fun h => wt h * (sq (coord (wr g h) y z - off (wr g h)) / (sq (pitch_of g h) / Q2Qc 12))) hits.
(** some two of the wires are not parallel *)
Definition crossing (g : geo) (hits : list hit) : Prop :=
  exists a b, In a hits /\ In b hits /\ sn (wr g a) * cs (wr g b) <> sn (wr g b) * cs (wr g a).
(** hits that can be fitted *)
Definition fittable (g : geo) (hits : list hit) : Prop :=
  forall h, In h hits -> 0 < hsig h /\ straight (wr g h) /\ 0 < pitch_of g h.
(** the point (x, y, z) with its errors and chisquare is the weighted least-squares fit *)
Record fitted (g : geo) (wt : hit -> Qc) (hits : list hit) (p : sp) : Prop := {
  f_time : exists t, sp_x p = t * g_x g /\ sp_chi p = time_chi2 g wt hits t /\ forall t', time_chi2 g wt hits t <= time_chi2 g wt hits t';
  f_yz : crossing g hits -> forall y z, wire_chi2 g wt hits (sp_y p) (sp_z p) <= wire_chi2 g wt hits y z;
  f_err : crossing g hits ->
    let v h := wt h / (sq (pitch_of g h) / Q2Qc 12) in
    let cc := total (fun h => v h * sq (cs (wr g h))) hits in
    let sc := total (fun h => v h * (sn (wr g h) * cs (wr g h))) hits in
    let ss := total (fun h => v h * sq (sn (wr g h))) hits in
    sp_eyy p * cc - sp_eyz p * sc = 1 /\ sp_eyz p * ss - sp_eyy p * sc = 0 /\
    sp_ezz p * ss - sp_eyz p * sc = 1 /\ sp_eyz p * cc - sp_ezz p * sc = 0 }.
End fit.

(* ---------------------------------------------------------------- runs of hits along a track *)
(** the hits of a track that lie on wires *)
Fixpoint on_wires (track : list (option hit)) : list hit :=
  match track with [] => [] | Some h :: r => h :: on_wires r | None :: r => on_wires r end.
(** a run: every beginning of it of two hits or more can make a point *)
Definition run (g : geo) (c : cfg) (s : list hit) : Prop := s <> [] /\ forall n, 2 <= n <= length s -> fits g c (firstn n s).
(** the hits cut into runs, each as long as it can be *)
Definition cut_in_runs (g : geo) (c : cfg) (ws : list hit) (segs : list (list hit)) : Prop :=
  concat segs = ws /\ (forall s, In s segs -> run g c s) /\
  forall i s s' h, nth_error segs i = Some s -> nth_error segs (S i) = Some s' -> hd_error s' = Some h -> ~ fits g c (s ++ [h]).
(** the hits of a TPC in one plane have one view; at most three planes; straight wires *)
Definition proper (g : geo) (hits : list hit) : Prop :=
  (forall h, In h hits -> hplane h < 3 /\ straight (wr g h)) /\
  forall a b, In a hits -> In b hits -> hcryo a = hcryo b -> htpc a = htpc b -> hplane a = hplane b -> hview a = hview b.

(* ---------------------------------------------------------------- the points made *)
(** the combinations of one TPC, each once, for an order of its planes *)
Definition combinations (g : geo) (c : cfg) (hits : list hit) (v : nat * nat * nat) (C : list (list hit)) : Prop :=
  exists ord, plane_order g c hits (fst (fst v)) (snd (fst v)) (snd v) ord /\ NoDup C /\
    forall hs, In hs C <-> pair_of g c hits (fst (fst v)) (snd (fst v)) (snd v) ord hs \/ triple_of g c hits (fst (fst v)) (snd (fst v)) (snd v) ord hs.
(** a TPC with a triplet after a TPC with a pair *)
Definition late_triplet (Cs : list (list (list hit))) : Prop :=
  exists i j C C' hs hs', i < j /\ nth_error Cs i = Some C /\ nth_error Cs j = Some C' /\ In hs C /\ length hs = 2 /\ In hs' C' /\ length hs' = 3.
(** the remembered hits of the point end with [d] *)
Definition ends_with (m : hmap) (d : hit) (p : sp) : Prop := exists pre, hits_of m p (pre ++ [d]).
(** all the hits of the combinations that end with [d], by number, each once *)
Definition union_of (C : list (list hit)) (d : hit) (hs : list hit) : Prop :=
  StronglySorted (fun a b => hid a < hid b) hs /\ forall h, In h hs <-> exists pre, In (pre ++ [d]) C /\ In h (pre ++ [d]).
(** the merged point of [d]: a hit weighs one over the cube of the number of hits of its plane *)
Definition merged (g : geo) (m : hmap) (C : list (list hit)) (d : hit) (p : sp) : Prop :=
  exists hs wt, hits_of m p hs /\ union_of C d hs /\
    (forall h n, In h hs -> counts (fun k => hplane k = hplane h) hs n -> wt h = (1 / (nat_q n * nat_q n * nat_q n))%Qc) /\ fitted g wt hs p.
(** the point (y, z) is on the wire, between its ends *)
Definition on_segment (w : wire) (y z : Qc) : Prop :=
  (exists l, 0 <= l /\ l <= 1 /\ y = ys w + l * (ye w - ys w) /\ z = zs w + l * (ze w - zs w))%Qc.
(** the wires of two hits cross *)
Definition cross (g : geo) (a b : hit) : Prop := exists y z, on_segment (wr g a) y z /\ on_segment (wr g b) y z.
(** a point of the wire of [a] is at most one wire spacing from the wire of [b] *)
Definition near_wire (g : geo) (a b : hit) : Prop :=
  exists y z, on_segment (wr g a) y z /\ upto (pitch_of g b) (coord (wr g b) y z - off (wr g b)).
