(** Vocabulary of C70-C73, independent of how the code computes it.  From the model only the data types ([peak], [hit], [event], [config]) and the
    sort orders' keys are used. *)
From Coq Require Import QArith Qround Qcanon String.
From Verif Require Import Base QcUtil GHF_Model.
Local Open Scope nat_scope.

(** sum of the samples of the ticks lo, lo+1, ..., hi-1 *)
Definition sum_ticks (sig : list Qc) (lo hi : Z) : Qc := qsum (fun t => nth t sig 0%Qc) (seq (Z.to_nat lo) (Z.to_nat (hi - lo))).
Definition flo (q : Qc) : Z := Qfloor (this q).

(* ------------------------------------------------------------------ C71 *)
(** non-empty intervals, each starting where the one before stops, from [a] to [z] *)
Inductive consecutive : Z -> list (Z * Z) -> Z -> Prop :=
| con_nil a : consecutive a [] a
| con_cons a b l z : (a < b)%Z -> consecutive b l z -> consecutive a ((a, b) :: l) z.
(** ticks at the end of a pulse of length [len] that no interval covers *)
Definition lost (len w mx : Z) : Z := if (mx <? len / w)%Z then Z.max 0 (len mod mx - len / mx) else 0%Z.
(** number of intervals *)
Definition pieces (len w mx : Z) : Z := if (mx <? len / w)%Z then (if len mod mx =? 0 then mx else mx + 1)%Z else ((len + w - 1) / w)%Z.
(** the peak that stands for an interval: centre in the middle, width a third, area 0.3989 of the charge *)
Definition flat_peak (sig : list Qc) (iv : Z * Z) : peak :=
  let len := Q2Qc (inject_Z (snd iv - fst iv)) in
  mkPeak (Q2Qc (inject_Z (fst iv + snd iv)) / Q2Qc (2 # 1))%Qc (len / Q2Qc (3 # 1))%Qc (Some (Q2Qc (3989 # 10000) * sum_ticks sig (fst iv) (snd iv) / (len / Q2Qc (3 # 1)))%Qc).

(* ------------------------------------------------------------------ C72 *)
(** peaks as a successful fit should return them: in time order, of positive width, inside the pulse, with an amplitude *)
Record tidy (startT endT : Z) (peaks : list peak) : Prop := {
  ti_order : StronglySorted (fun a b => p_mean a <= p_mean b)%Qc peaks;
  ti_width : forall p, In p peaks -> (0 < p_sigma p)%Qc;
  ti_inside : forall p, In p peaks -> (Q2Qc (inject_Z startT) <= p_mean p)%Qc /\ (p_mean p <= Q2Qc (inject_Z endT))%Qc;
  ti_amp : forall p, In p peaks -> p_amp p <> None }.
(** the two-sigma ranges of successive peaks overlap; the tick at which they are then cut *)
Definition overlap (p q : peak) : Prop := (p_mean q - Q2Qc (2 # 1) * p_sigma q < p_mean p + Q2Qc (2 # 1) * p_sigma p)%Qc.
Definition cut (p q : peak) : Z := (flo (p_mean p) + flo ((p_mean q - p_mean p) * (p_sigma p / (p_sigma p + p_sigma q))))%Z.
Definition reach_left (p : peak) : Z := (flo (p_mean p) - flo (Q2Qc (2 # 1) * p_sigma p))%Z.
Definition reach_right (p : peak) : Z := (flo (p_mean p) + flo (Q2Qc (2 # 1) * p_sigma p))%Z.
Definition left_edge (prev : option peak) (p : peak) (x : Z) : Prop :=
  match prev with Some q => (overlap q p /\ x = cut q p) \/ (~ overlap q p /\ x = reach_left p) | None => x = reach_left p end.
Definition right_edge (p : peak) (next : option peak) (x : Z) : Prop :=
  match next with Some q => (overlap p q /\ x = cut p q) \/ (~ overlap p q /\ x = reach_right p) | None => x = reach_right p end.
(** window of peak number [i]: the two-sigma range, cut where it meets a neighbour's and at the ends of the pulse *)
Definition window_of (startT endT : Z) (peaks : list peak) (i : nat) (w : Z * Z) : Prop :=
  exists p l r, nth_error peaks i = Some p /\ left_edge (match i with O => None | S j => nth_error peaks j end) p l /\ right_edge p (nth_error peaks (i + 1)) r /\
    w = (Z.max startT l, Z.min endT r).
(** windows in order, without overlap, between [a] and [z] *)
Inductive apart_in : Z -> list (Z * Z) -> Z -> Prop :=
| ap_nil a z : (a <= z)%Z -> apart_in a [] z
| ap_cons a lo hi l z : (a <= lo <= hi)%Z -> apart_in hi l z -> apart_in a ((lo, hi) :: l) z.

(* ------------------------------------------------------------------ C73 *)
(** amplitude and width above the minima of the plane, planes without minima are not filtered *)
Definition passes_minima (minPH minSig : list Qc) (h : hit) : Prop :=
  forall a s, nth_error minPH (h_plane h) = Some a -> nth_error minSig (h_plane h) = Some s -> (a < h_amp h)%Qc /\ (s < h_rms h)%Qc.
(** not a small hit beside a large one *)
Definition not_small (thr : Qc) (top h : hit) : Prop := (Q2Qc (8 # 1) <= h_amp h)%Qc \/ (thr * h_amp top <= h_amp h)%Qc.

(* ------------------------------------------------------------------ C70 *)
Definition all_of (evs : list event) : list hit := flat_map (fun e => match e with PushAll h => [h] | PushFilt _ => [] end) evs.
Definition filt_of (evs : list event) : list hit := flat_map (fun e => match e with PushFilt h => [h] | PushAll _ => [] end) evs.
(** [res] is a merge of the lists [per] (one per task): it can be split among the tasks so that each gets its own list in its own order *)
Definition merge_of {A} (per : list (list A)) (res : list A) : Prop :=
  exists who : list nat, List.length who = List.length res /\ (forall k, In k who -> k < List.length per) /\
    forall k l, nth_error per k = Some l -> map snd (filter (fun x => fst x =? k) (List.combine who res)) = l.
