(** Model of larreco/Genfit/GFTrackCand.{h,cxx}: the vectors of hits.  unsigned int is nat; rho values are of any type [R] with a value 0.
    Curvature, seeds and other scalar members, which have nothing to do with the hits, and Print are not modelled. *)
From Verif Require Import Base.
Local Open Scope nat_scope.

Section TC.
Context {R : Type}.
Variable (r0 : R).
(** GFTrackCand.h:219-222 *)
Record cand := mkC { f_det : list nat; f_hit : list nat; f_plane : list nat; f_rho : list R }.
(** GFTrackCand.cxx:28-29 *)
Definition new0 : cand := mkC [] [] [] [].
(** GFTrackCand.cxx:33-50 *)
Definition new5 (ds hs : list nat) : outcome cand :=
  if Nat.eqb (length ds) (length hs) then Ok (mkC ds hs [] (repeat r0 (length ds))) else Throw UserExn.
(** GFTrackCand.cxx:51-72: the second test repeats the first *)
Definition new6 (ds hs : list nat) (rs : list R) : outcome cand :=
  if Nat.eqb (length ds) (length hs) then (if Nat.eqb (length ds) (length hs) then Ok (mkC ds hs [] rs) else Throw UserExn) else Throw UserExn.
(** GFTrackCand.cxx:74-83 *)
Definition add_hit (c : cand) (d h : nat) (r : R) (p : nat) : cand := mkC (f_det c ++ [d]) (f_hit c ++ [h]) (f_plane c ++ [p]) (f_rho c ++ [r]).
(** GFTrackCand.cxx:100-104 *)
Definition reset (c : cand) : cand := mkC [] [] (f_plane c) (f_rho c).
(** GFTrackCand.h:134 *)
Definition nhits (c : cand) : nat := length (f_det c).
(** GFTrackCand.h:92-101 *)
Definition get2 (c : cand) (i : nat) : outcome (nat * nat) :=
  if nhits c <=? i then Throw UserExn else do d <- at_ (f_det c) i; do h <- at_ (f_hit c) i; Ok (d, h).
(** GFTrackCand.h:105-116 *)
Definition get3 (c : cand) (i : nat) : outcome (nat * nat * R) :=
  if nhits c <=? i then Throw UserExn else do d <- at_ (f_det c) i; do h <- at_ (f_hit c) i; do r <- at_ (f_rho c) i; Ok (d, h, r).
(** GFTrackCand.h:120-132 *)
Definition get_plane (c : cand) (i : nat) : outcome (nat * nat * nat) :=
  if nhits c <=? i then Throw UserExn else do d <- at_ (f_det c) i; do h <- at_ (f_hit c) i; do p <- at_ (f_plane c) i; Ok (d, h, p).
(** GFTrackCand.cxx:85-98 GetHitIDs; [None]: a negative argument, all detectors *)
Definition hit_ids (c : cand) (d : option nat) : outcome (list nat) :=
  match d with
  | None => Ok (f_hit c)
  | Some d => for_ (range 0 (length (f_hit c))) (fun res i => do x <- idx (f_det c) i; if Nat.eqb x d then do h <- idx (f_hit c) i; Ok (res ++ [h]) else Ok res) []
  end.
(** GFTrackCand.cxx:106-113 HitInTrack: the loop from [i] *)
Fixpoint in_track_from (n i : nat) (c : cand) (d h : nat) : outcome bool :=
  match n with
  | 0 => Ok false
  | S n' => do x <- idx (f_det c) i; if Nat.eqb d x then do y <- idx (f_hit c) i; if Nat.eqb h y then Ok true else in_track_from n' (i + 1) c d h else in_track_from n' (i + 1) c d h
  end.
Definition in_track (c : cand) (d h : nat) : outcome bool := in_track_from (length (f_det c)) 0 c d h.
(** std::equal(first1, last1, first2): reads as many elements of the second range as there are in the first *)
Fixpoint equal_range (a b : list nat) : outcome bool :=
  match a, b with
  | [], _ => Ok true
  | x :: a', y :: b' => if Nat.eqb x y then equal_range a' b' else Ok false
  | _ :: _, [] => Undef
  end.
(** GFTrackCand.cxx:115-121 operator== *)
Definition eq_cand (a b : cand) : outcome bool :=
  if negb (Nat.eqb (nhits a) (nhits b)) then Ok false else do x <- equal_range (f_det a) (f_det b); do y <- equal_range (f_hit a) (f_hit b); Ok (x && y).
(** GFTrackCand.cxx:138-146 append, of another object *)
Definition append (c rhs : cand) : outcome cand :=
  for_ (range 0 (nhits rhs)) (fun c i => do x <- get3 rhs i; Ok (add_hit c (fst (fst x)) (snd (fst x)) (snd x) 0)) c.
(** the same, of the object itself: the number of hits is read again in every turn; [fuel] bounds the turns ([None]: still running) *)
Fixpoint self_append (fuel i : nat) (c : cand) : option (outcome cand) :=
  match fuel with
  | 0 => None
  | S fuel' =>
      if i <? nhits c then
        match get3 c i with
        | Ok x => self_append fuel' (i + 1) (add_hit c (fst (fst x)) (snd (fst x)) (snd x) 0)
        | Throw e => Some (Throw e)
        | Undef => Some Undef
        end
      else Some (Ok c)
  end.

(** histories over a population of candidates; objects are numbered in the order of construction.  Appending a candidate with
    hits to itself does not return (see self_append): no result *)
Inductive op := New0 | New5 (ds hs : list nat) | New6 (ds hs : list nat) (rs : list R) | AddHit (k d h : nat) (r : R) (p : nat) | Append (k j : nat) | Reset (k : nat).
Definition step (w : list cand) (o : op) : outcome (list cand) :=
  match o with
  | New0 => Ok (w ++ [new0])
  | New5 ds hs => do c <- new5 ds hs; Ok (w ++ [c])
  | New6 ds hs rs => do c <- new6 ds hs rs; Ok (w ++ [c])
  | AddHit k d h r p => do c <- idx w k; set_idx w k (add_hit c d h r p)
  | Append k j => do c <- idx w k; do x <- idx w j; if Nat.eqb k j && (0 <? nhits c) then Undef else do c' <- append c x; set_idx w k c'
  | Reset k => do c <- idx w k; set_idx w k (reset c)
  end.
Definition run (ops : list op) : outcome (list cand) := foreach ops step [].
End TC.
