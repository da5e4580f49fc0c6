(** What the triplet finder should return (C20-C22), by plain enumeration. *)
From Coq Require Import QArith Qcanon.
From Verif Require Import Base QcUtil Solver_Model Triplet_Model.
Local Open Scope Qc_scope.

Definition real (h : hoc) : bool := match hc_hit h with Some _ => true | None => false end.
Definition near (thr xa xb : Qc) : bool := qc_lt (xa - xb) thr && qc_lt (xb - xa) thr.
Definition points_near (thr : Qc) (p q : point) : bool :=
  qc_lt 0 thr && qc_lt ((fst p - fst q) * (fst p - fst q) + (snd p - snd q) * (snd p - snd q)) (thr * thr).
Definition mean (l : list Qc) : Qc := qsum (fun x => x) l / qc_nat (length l).

(** all doublets of two views: hit with near hit, hit with bad channel, bad channel with hit, when the wires cross *)
Definition crossing (isect : nat -> nat -> option point) (mk : point -> doublet) (c1 c2 : nat) : list doublet :=
  match isect c1 c2 with Some p => [mk p] | None => [] end.
Definition hit_hit thr (isect : nat -> nat -> option point) (xs os : list hoc) : list doublet :=
  flat_map (fun x => flat_map (fun o => if near thr (hc_x x) (hc_x o) then crossing isect (mkD x o) (hc_chan x) (hc_chan o) else []) os) xs.
Definition hit_bad (isect : nat -> nat -> option point) (xs : list hoc) (bads : list nat) : list doublet :=
  flat_map (fun x => flat_map (fun c => crossing isect (mkD x (bad_chan c)) (hc_chan x) c) bads) xs.
Definition bad_hit (isect : nat -> nat -> option point) (bads : list nat) (os : list hoc) : list doublet :=
  flat_map (fun o => flat_map (fun c => crossing isect (mkD (bad_chan c) o) (hc_chan o) c) bads) os.
Definition all_doublets thr (isect : nat -> nat -> option point) (xs os : list hoc) (xbad obad : list nat) : list doublet :=
  hit_hit thr isect xs os ++ hit_bad isect xs obad ++ bad_hit isect xbad os.

(** the triplet made of an XU and an XV doublet with the same X, if they are compatible *)
Definition same_first (a b : doublet) : bool :=
  match hc_hit (d_a a), hc_hit (d_a b) with
  | Some p, Some q => Nat.eqb p q
  | None, None => Nat.eqb (hc_chan (d_a a)) (hc_chan (d_a b))
  | _, _ => false
  end.
Definition spec_triplet (thr thrD : Qc) (isect : nat -> nat -> option point) (xu xv : doublet) : option triplet :=
  let x := d_a xu in let u := d_b xu in let v := d_b xv in
  match isect (hc_chan u) (hc_chan v) with
  | Some uv =>
      if same_first xu xv
         && Nat.leb 2 (length (filter real [x; u; v]))
         && (if real u && real v then near thrD (hc_x u) (hc_x v) else true)
         && points_near thr (d_pt xu) (d_pt xv) && points_near thr (d_pt xu) uv && points_near thr (d_pt xv) uv
      then Some (mkT (hc_hit x) (hc_hit u) (hc_hit v)
                     (mean (map hc_x (filter real [x; u; v])))
                     (mean [fst (d_pt xu); fst (d_pt xv); fst uv]) (mean [snd (d_pt xu); snd (d_pt xv); snd uv]))
      else None
  | None => None
  end.
Definition all_triplets thr thrD (isect : nat -> nat -> option point) (xus xvs : list doublet) : list triplet :=
  flat_map (fun xu => flat_map (fun xv => opt_list (spec_triplet thr thrD isect xu xv)) xvs) xus.

(** what std::sort guarantees *)
Definition sorts_by {A} (less : A -> A -> bool) (srt : list A -> list A) : Prop :=
  forall l, Permutation (srt l) l /\ StronglySorted (fun a b => less b a = false) (srt l).
Definition hoc_less (a b : hoc) : bool := qc_lt (hc_x a) (hc_x b).

(** the enumeration for a whole detector: per TPC with at least one X hit, hits and bad channels of that TPC *)
Definition tpc_hits (I : input) (hits : list (nat * nat)) (tpc : nat) : list hoc :=
  flat_map (fun h => map (fun _ => mkHoc (snd h) (Some (fst h)) (in_xpos I (fst h) tpc)) (filter (Nat.eqb tpc) (in_tpcs I (snd h)))) hits.
Definition spec_xu (I : input) (tpc : nat) : list doublet :=
  all_doublets (in_thrD I) (in_isect I tpc) (tpc_hits I (in_xhits I) tpc) (tpc_hits I (in_uhits I) tpc) (bads_in I (in_xbad I) tpc) (bads_in I (in_ubad I) tpc).
Definition spec_xv (I : input) (tpc : nat) : list doublet :=
  all_doublets (in_thrD I) (in_isect I tpc) (tpc_hits I (in_xhits I) tpc) (tpc_hits I (in_vhits I) tpc) (bads_in I (in_xbad I) tpc) (bads_in I (in_vbad I) tpc).
Definition spec_triplets_of (I : input) (tpc : nat) : list triplet :=
  all_triplets (in_thr I) (in_thrD I) (in_isect I tpc) (spec_xu I tpc) (spec_xv I tpc).
