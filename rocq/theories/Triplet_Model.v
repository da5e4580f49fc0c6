(** Model of larreco/SpacePointSolver/TripletFinder.{h,cxx}.
    The wire geometry and drift conversion are oracles (which TPCs a channel serves, the drift position of a hit in a
    TPC, where two channels cross in a TPC); coordinates are exact rationals; hit addresses and channels are numbers.
    std::sort is an arbitrary function argument, constrained in the theorems to return a sorted permutation.
    IntersectionCache is a memo table of a pure function; it is modelled and shown transparent in Triplet_Proofs. *)
From Coq Require Import QArith Qcanon.
From Verif Require Import Base Solver_Model.
Local Open Scope Qc_scope.

(** TripletFinder.h:24-31 HitOrChan; WireIDIntersection: y, z *)
Record hoc := mkHoc { hc_chan : nat; hc_hit : option nat; hc_x : Qc }.
Definition point : Type := Qc * Qc.
(** TripletFinder.h:33-38 ChannelDoublet *)
Record doublet := mkD { d_a : hoc; d_b : hoc; d_pt : point }.
(** TripletFinder.h:44-47 HitTriplet *)
Record triplet := mkT { t_x : option nat; t_u : option nat; t_v : option nat; t_px : Qc; t_py : Qc; t_pz : Qc }.
(** HitOrChan(chan): TripletFinder.h:25 *)
Definition bad_chan (c : nat) : hoc := mkHoc c None 0.

(** TripletFinder.cxx:114-117 CloseDrift *)
Definition close_drift (thr : Qc) (xa xb : Qc) : bool := qc_lt (qc_abs (xa - xb)) thr.
(** TripletFinder.cxx:120-126 CloseSpace: sqrt(dy^2+dz^2) < thr *)
Definition close_space (thr : Qc) (ra rb : point) : bool :=
  qc_lt 0 thr && qc_lt ((fst ra - fst rb) * (fst ra - fst rb) + (snd ra - snd rb) * (snd ra - snd rb)) (thr * thr).

(** TripletFinder.cxx:128-140 *)
Definition less_x (a b : doublet) : bool :=
  match hc_hit (d_a a), hc_hit (d_a b) with
  | None, None => Nat.ltb (hc_chan (d_a a)) (hc_chan (d_a b))
  | None, Some _ => true
  | Some _, None => false
  | Some p, Some q => Nat.ltb p q
  end.
Definition same_x (a b : doublet) : bool :=
  match hc_hit (d_a a), hc_hit (d_a b) with
  | None, None => Nat.eqb (hc_chan (d_a a)) (hc_chan (d_a b))
  | None, Some _ => false
  | Some _, None => false
  | Some p, Some q => Nat.eqb p q
  end.

(* -------------------------------------------------------------- IntersectionCache *)
(** TripletFinder.cxx:73-111 *)
Definition cache := list ((nat * nat) * option point).
Definition cache_find (c : cache) (k : nat * nat) : option (option point) :=
  match List.find (fun e => Nat.eqb (fst (fst e)) (fst k) && Nat.eqb (snd (fst e)) (snd k)) c with Some e => Some (snd e) | None => None end.
Definition cache_ask (isect : nat -> nat -> option point) (c : cache) (a b : nat) : cache * option point :=
  match cache_find c (a, b) with
  | Some r => (c, r)
  | None => (((a, b), isect a b) :: c, isect a b)
  end.

(* -------------------------------------------------------------- DoubletHelper *)
(** TripletFinder.cxx:307-308: the while loop advancing b_begin *)
Fixpoint advance (thr xa : Qc) (bs : list hoc) : list hoc :=
  match bs with
  | [] => []
  | b :: bs' => if qc_lt (hc_x b) xa && negb (close_drift thr (hc_x b) xa) then advance thr xa bs' else bs
  end.
(** TripletFinder.cxx:310-319: the for loop from b_begin, with its break and continue *)
Fixpoint scan (thr : Qc) (isect : nat -> nat -> option point) (a : hoc) (bs : list hoc) : list doublet :=
  match bs with
  | [] => []
  | b :: bs' =>
      if qc_lt (hc_x a) (hc_x b) && negb (close_drift thr (hc_x b) (hc_x a)) then []
      else match isect (hc_chan a) (hc_chan b) with
           | None => scan thr isect a bs'
           | Some pt => mkD a b pt :: scan thr isect a bs'
           end
  end.
(** TripletFinder.cxx:303-305: bad channels *)
Fixpoint scan_bad (isect : nat -> nat -> option point) (a : hoc) (bads : list nat) : list doublet :=
  match bads with
  | [] => []
  | b :: bads' => match isect (hc_chan a) b with
                  | Some pt => mkD a (bad_chan b) pt :: scan_bad isect a bads'
                  | None => scan_bad isect a bads'
                  end
  end.
(** TripletFinder.cxx:289-323 DoubletHelper *)
Fixpoint doublet_helper (thr : Qc) (isect : nat -> nat -> option point) (ahits bhits : list hoc) (bbads : list nat) : list doublet :=
  match ahits with
  | [] => []
  | a :: ahits' =>
      let bs := advance thr (hc_x a) bhits in
      scan_bad isect a bbads ++ scan thr isect a bs ++ doublet_helper thr isect ahits' bs bbads
  end.
(** TripletFinder.cxx:261-286 DoubletsXU / DoubletsXV: [other] are the U (V) hits *)
Definition flip (d : doublet) : doublet := mkD (d_b d) (d_a d) (d_pt d).
Definition doublets (thr : Qc) (isect : nat -> nat -> option point) (xs others : list hoc) (xbad obad : list nat) : list doublet :=
  doublet_helper thr isect xs others obad ++ map flip (doublet_helper thr isect others [] xbad).

(* -------------------------------------------------------------- Triplets *)
(** TripletFinder.cxx:175-211: the checks and the triplet made from one XU and one XV doublet *)
Definition is_bad (h : hoc) : bool := match hc_hit h with None => true | Some _ => false end.
Definition make_triplet (thr thrD : Qc) (isect : nat -> nat -> option point) (xu xv : doublet) : option triplet :=
  let x := d_a xu in let u := d_b xu in let v := d_b xv in
  if is_bad x && is_bad u then None
  else if is_bad x && is_bad v then None
  else if is_bad u && is_bad v then None
  else if negb (is_bad u) && negb (is_bad v) && negb (close_drift thrD (hc_x u) (hc_x v)) then None
  else match isect (hc_chan u) (hc_chan v) with
       | None => None
       | Some uv =>
           if negb (close_space thr (d_pt xu) (d_pt xv)) || negb (close_space thr (d_pt xu) uv) || negb (close_space thr (d_pt xv) uv) then None
           else
             let step (acc : Qc * nat) (h : hoc) := if is_bad h then acc else (fst acc + hc_x h, S (snd acc)) in
             let sn := step (step (step (0, 0%nat) x) u) v in
             Some (mkT (hc_hit x) (hc_hit u) (hc_hit v) (fst sn / qc_nat (snd sn))
                       ((fst (d_pt xu) + fst (d_pt xv) + fst uv) / qc_nat 3)
                       ((snd (d_pt xu) + snd (d_pt xv) + snd uv) / qc_nat 3))
       end.

(** TripletFinder.cxx:169-170: catching up *)
Fixpoint catch_up (xu : doublet) (xvs : list doublet) : list doublet :=
  match xvs with
  | [] => []
  | xv :: xvs' => if less_x xv xu then catch_up xu xvs' else xvs
  end.
(** the limit test (maxTriplets = 0: no limit); int comparison *)
Definition over (maxT : nat) (n : nat) : bool := Nat.ltb 0 maxT && Nat.ltb maxT n.
(** TripletFinder.cxx:173-214: the inner loop; returns the triplets added and the new counter *)
Fixpoint inner (thr thrD : Qc) (isect : nat -> nat -> option point) (maxT : nat) (xu : doublet) (xvs : list doublet) (n : nat) : list triplet * nat :=
  match xvs with
  | [] => ([], n)
  | xv :: xvs' =>
      if negb (same_x xv xu) then ([], n)
      else if over maxT n then ([], n)
      else match make_triplet thr thrD isect xu xv with
           | None => inner thr thrD isect maxT xu xvs' n
           | Some t =>
               if over maxT (S n) then ([t], S n)
               else let r := inner thr thrD isect maxT xu xvs' (S n) in (t :: fst r, snd r)
           end
  end.
(** TripletFinder.cxx:161-215 *)
Fixpoint join (thr thrD : Qc) (isect : nat -> nat -> option point) (maxT : nat) (xus xvs : list doublet) (n : nat) : list triplet :=
  match xus with
  | [] => []
  | xu :: xus' =>
      let xvs' := catch_up xu xvs in
      let r := inner thr thrD isect maxT xu xvs' n in
      fst r ++ join thr thrD isect maxT xus' xvs' (snd r)
  end.

(* -------------------------------------------------------------- constructor and the loop over TPCs *)
Record input := mkIn {
  in_tpcs : nat -> list nat;               (* ROPtoTPCs(ChannelToROP(channel)) *)
  in_xpos : nat -> nat -> Qc;              (* hit, TPC -> drift position *)
  in_isect : nat -> nat -> nat -> option point;   (* TPC, channel, channel *)
  in_thr : Qc; in_thrD : Qc; in_max : nat;
  in_xhits : list (nat * nat); in_uhits : list (nat * nat); in_vhits : list (nat * nat);   (* (address, channel) *)
  in_xbad : list nat; in_ubad : list nat; in_vbad : list nat }.

(** TripletFinder.cxx:39-59 FillHitMap: entry of one TPC before sorting *)
Definition hits_in (I : input) (hits : list (nat * nat)) (tpc : nat) : list hoc :=
  flat_map (fun h => map (fun t => mkHoc (snd h) (Some (fst h)) (in_xpos I (fst h) t))
                         (filter (Nat.eqb tpc) (in_tpcs I (snd h)))) hits.
(** TripletFinder.cxx:62-70 FillBadMap *)
Definition bads_in (I : input) (bads : list nat) (tpc : nat) : list nat :=
  flat_map (fun c => map (fun _ => c) (filter (Nat.eqb tpc) (in_tpcs I c))) bads.
(** keys of fX_by_tpc, in some order *)
Definition x_tpcs (I : input) : list nat := nodup Nat.eq_dec (flat_map (fun h => in_tpcs I (snd h)) (in_xhits I)).

Section Sorts.
Variables (sort_hits : list hoc -> list hoc) (sort_doublets : list doublet -> list doublet).
(** TripletFinder.cxx:261-286 *)
Definition doublets_xu (I : input) (tpc : nat) : list doublet :=
  doublets (in_thrD I) (in_isect I tpc) (sort_hits (hits_in I (in_xhits I) tpc)) (sort_hits (hits_in I (in_uhits I) tpc))
           (bads_in I (in_xbad I) tpc) (bads_in I (in_ubad I) tpc).
Definition doublets_xv (I : input) (tpc : nat) : list doublet :=
  doublets (in_thrD I) (in_isect I tpc) (sort_hits (hits_in I (in_xhits I) tpc)) (sort_hits (hits_in I (in_vhits I) tpc))
           (bads_in I (in_xbad I) tpc) (bads_in I (in_vbad I) tpc).
(** TripletFinder.cxx:143-225 Triplets: the triplets of one TPC, and all *)
Definition triplets_of (I : input) (tpc : nat) : list triplet :=
  join (in_thr I) (in_thrD I) (in_isect I tpc) (in_max I) (sort_doublets (doublets_xu I tpc)) (sort_doublets (doublets_xv I tpc)) 0.
Definition triplets (I : input) : list triplet := flat_map (triplets_of I) (x_tpcs I).
(** TripletFinder.cxx:228-258 TripletsTwoView *)
Definition two_view_triplet (xu : doublet) : triplet :=
  let x := d_a xu in let u := d_b xu in
  let sn := if is_bad u then (hc_x x, 1%nat) else (hc_x x + hc_x u, 2%nat) in
  mkT (hc_hit x) (hc_hit u) None (fst sn / qc_nat (snd sn)) (fst (d_pt xu)) (snd (d_pt xu)).
Definition triplets_two_view (I : input) : list triplet :=
  flat_map (fun tpc => map two_view_triplet (doublets_xu I tpc)) (x_tpcs I).
End Sorts.
