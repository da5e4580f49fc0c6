(** Model of larreco/RecoAlg/StitchAlg.cxx and of larreco/TrackFinder/TrackStitcher_module.cc.
    Distances (TVector3::Mag) are represented by their squares: the code only compares them with each other, with the tolerance and with
    zero. Numbers are exact rationals. The cosines stored in the tuples are never read and are left out. *)
From Coq Require Import QArith Qcanon.
From Verif Require Import Base QcUtil Solver_Model.
Local Open Scope nat_scope.

Definition qabs (x : Qc) : Qc := if qc_lt x 0 then (- x)%Qc else x.
Record vec := V { vx : Qc; vy : Qc; vz : Qc }.
(** a recob::Track: Vertex, End, VertexDirection, EndDirection and its trajectory points (named by numbers) *)
Record trk := Trk { t_start : vec; t_end : vec; t_sdir : vec; t_edir : vec; t_pts : list nat }.
(** CosAngTolerance, SpptSepTolerance, cxx:39-40 *)
Record cfg := Cfg { c_cos : Qc; c_sep : Qc }.

Definition dist2 (a b : vec) : Qc := ((vx a - vx b) * (vx a - vx b) + (vy a - vy b) * (vy a - vy b) + (vz a - vz b) * (vz a - vz b))%Qc.
Definition dot (a b : vec) : Qc := (vx a * vx b + vy a * vy b + vz a * vz b)%Qc.
(** abs(dir.Dot(dir)) > fCosAngTol && Mag() < fSepTol, cxx:86-92 *)
Definition match_ends (c : cfg) (d1 d2 p1 p2 : vec) : bool :=
  qc_lt (c_cos c) (qabs (dot d1 d2)) && (qc_lt 0 (c_sep c) && qc_lt (dist2 p1 p2) (c_sep c * c_sep c)%Qc).

(** "H" and "T" *)
Inductive tend := HD | TL.
Definition tend_eqb (a b : tend) : bool := match a, b with HD, HD | TL, TL => true | _, _ => false end.
(** a tuple of fh or ft without its own index (its position): (sHT2, ii, jj, cos, sep); None is ("NA", ii, -12, 0., 0.) *)
Definition entry := (tend * nat * Qc)%type.
Definition link := option entry.

(** the state inside the loop over jj: fh, ft, headvv, tailvv, the one element of matchhead and of matchtail, head, tail *)
Record fst_ := FS { f_h : list link; f_t : list link; f_hv : list entry; f_tv : list entry; f_mh : option (Qc * Qc); f_mt : option (Qc * Qc); f_head : bool; f_tail : bool }.

(** push the new candidate: keep the old one too (two deep), cxx:140, 174 *)
Definition push2 (v : list entry) (e : entry) : list entry := (if 1 <? length v then tl v else v) ++ [e].
(** matchhead/matchtail: the candidate replaces the old one if it is nearer at one of the ends, cxx:134-139, 168-173 *)
Definition better (m : Qc * Qc) (old : option (Qc * Qc)) : bool :=
  match old with None => true | Some o => qc_lt (fst m) (fst o) || qc_lt (snd m) (snd o) end.

(** the part of the loop body that looks for a match of track jj, cxx:77-198 *)
Definition look (c : cfg) (t1 t2 : trk) (jj : nat) (s : fst_) : fst_ :=
  let s1 := t_start t1 in let e1 := t_end t1 in let s2 := t_start t2 in let e2 := t_end t2 in
  let c12 := match_ends c (t_sdir t1) (t_edir t2) s1 e2 in
  let c21 := match_ends c (t_edir t1) (t_sdir t2) s2 e1 in
  let c11 := match_ends c (t_sdir t1) (t_sdir t2) s1 s2 in
  let c22 := match_ends c (t_edir t1) (t_edir t2) e1 e2 in
  if c12 || c21 || c11 || c22 then
    let head := f_head s || (c12 || c11) in
    let tail := f_tail s || (c21 || c22) in
    let ht := if c21 then HD else if c22 then TL else if c11 then HD else TL in
    let nearer := qc_lt (dist2 s1 e2) (dist2 s2 e1) || qc_lt (dist2 s1 e2) (dist2 s2 e2) || qc_lt (dist2 s1 s2) (dist2 s2 e1) || qc_lt (dist2 s1 s2) (dist2 s2 e2) in
    let '(head, tail) := if head && tail then (nearer, negb nearer) else (head, tail) in
    if head then
      let m := (dist2 s1 s2, dist2 s1 e2) in
      if better m (f_mh s) then FS (f_h s) (f_t s) (push2 (f_hv s) (ht, jj, if tend_eqb ht HD then fst m else snd m)) (f_tv s) (Some m) (f_mt s) head tail
      else FS (f_h s) (f_t s) (f_hv s) (f_tv s) (f_mh s) (f_mt s) head tail
    else if tail then
      let m := (dist2 s2 e1, dist2 e1 e2) in
      if better m (f_mt s) then FS (f_h s) (f_t s) (f_hv s) (push2 (f_tv s) (ht, jj, if tend_eqb ht TL then fst m else snd m)) (f_mh s) (Some m) head tail
      else FS (f_h s) (f_t s) (f_hv s) (f_tv s) (f_mh s) (f_mt s) head tail
    else FS (f_h s) (f_t s) (f_hv s) (f_tv s) (f_mh s) (f_mt s) head tail
  else s.

(** the loop over kk, cxx:202-222 and 223-242 *)
Fixpoint resolve (b : entry) (ks : list nat) (f : list link) (v : list entry) : outcome (list link * list entry) :=
  match ks with
  | [] => Ok (f, v)
  | k :: ks =>
    let '(e, j, sep) := b in
    do l <- at_ f k;
    match l with
    | Some (e', j', sep') =>
      if (j' =? j) && tend_eqb e e' then
        if qc_lt sep sep' && negb (qc_eqb sep 0) then do f <- set_at f k None; resolve b ks f v
        else if negb (qc_eqb sep 0) then Ok (f, removelast v)
        else resolve b ks f v
      else resolve b ks f v
    | None => resolve b ks f v
    end
  end.
Definition back {A} (v : list A) : option A := nth_error v (length v - 1).
Definition resolve_back (ii : nat) (f : list link) (v : list entry) : outcome (list link * list entry) :=
  match back v with None => Ok (f, v) | Some b => resolve b (seq 0 ii) f v end.

(** the body of the loop over jj, cxx:77-244 *)
Definition jj_step (c : cfg) (ts : list trk) (ii : nat) (t1 : trk) (s : fst_) (jj : nat) : outcome fst_ :=
  do t2 <- idx ts jj;
  let s := look c t1 t2 jj s in
  do h <- resolve_back ii (f_h s) (f_hv s);
  do t <- resolve_back ii (f_t s) (f_tv s);
  Ok (FS (fst h) (fst t) (snd h) (snd t) (f_mh s) (f_mt s) (f_head s) (f_tail s)).
(** the body of the loop over ii, cxx:59-254 *)
Definition ii_step (c : cfg) (ts : list trk) (s : list link * list link) (ii : nat) : outcome (list link * list link) :=
  do t1 <- idx ts ii;
  do r <- for_ (range (ii + 1) (length ts)) (jj_step c ts ii t1) (FS (fst s) (snd s) [] [] None None false false);
  Ok (f_h r ++ [back (f_hv r)], f_t r ++ [back (f_tv r)]).
(** FindHeadsAndTails, cxx:43-257: fh and ft *)
Definition find_ht (c : cfg) (ts : list trk) : outcome (list link * list link) :=
  for_ (seq 0 (length ts)) (ii_step c ts) ([], []).

(* ---------------------------------------------------------------- WalkStitch *)

(** compTrack (indices of tracks) and HT2 *)
Definition comp := (list nat * list (tend * tend))%type.
(** follow the link of end [e1], cxx:365-381, 404-420 *)
Definition grow (front : bool) (e1 : tend) (l : link) (c : comp) (w : nat) : comp * nat :=
  match l with
  | Some (e, j, _) => (if front then (j :: fst c, (e, e1) :: snd c) else (fst c ++ [j], snd c ++ [(e1, e)]), j)
  | None => (c, w)
  end.
(** one "while (chain)" loop, cxx:349-388 ([front] = false) and 390-427 ([front] = true). [fuel] bounds the iterations. *)
Fixpoint chain (fuel : nat) (front : bool) (fh ft : list link) (ii walk : nat) (sh st : link) (c : comp) (done : list bool) : outcome (comp * list bool) :=
  match fuel with
  | 0 => Undef
  | S fuel =>
    do l <- (if walk =? ii then Ok (sh, st) else do a <- at_ fh walk; do b <- at_ ft walk; Ok (a, b));
    let '(sh, st) := l in
    let '(c, w) := grow front HD sh c walk in
    let '(c, w) := grow front TL st c w in
    do done <- set_at done w true;
    match sh, st with
    | None, None => Ok (c, done)
    | _, _ => chain fuel front fh ft ii w sh st c done
    end
  end.

Fixpoint remove_at {A} (i : nat) (l : list A) : list A :=
  match l, i with [], _ => [] | _ :: r, 0 => r | x :: r, S i => x :: remove_at i r end.
(** the position of the first element equal to [x] *)
Fixpoint pos (x : nat) (l : list nat) : option nat :=
  match l with [] => None | y :: r => if y =? x then Some 0 else match pos x r with Some p => Some (S p) | None => None end end.
(** removal of repeated components, cxx:430-447: for component [i] the first later occurrence, at distance cjit + 1 *)
Fixpoint dedup (fuel i : nat) (c : comp) : outcome comp :=
  match fuel with
  | 0 => Ok c
  | S fuel =>
    match nth_error (fst c) i with
    | None => Ok c
    | Some x =>
      match pos x (skipn (i + 1) (fst c)) with
      | None => dedup fuel (i + 1) c
      | Some cjit => if cjit <? length (snd c) then dedup fuel (i + 1) (remove_at (i + 1 + cjit) (fst c), remove_at cjit (snd c)) else Undef
      end
    end
  end.

(** a stitched track: its ID and its points *)
Definition strk := (nat * list nat)%type.
(** is component [k] (from 0) walked backwards? cxx:291-296 *)
Definition backwards (ht : list (tend * tend)) (k : nat) : outcome bool :=
  if length ht =? 0 then Ok false
  else match k with
  | 0 => do x <- at_ ht 0; Ok (tend_eqb (fst x) HD)
  | S k => do x <- at_ ht k; Ok (tend_eqb (snd x) TL)
  end.
(** FirstStitch, cxx:259-332: the points of the new track. Momenta, flags and covariances go with the points; cov.front() needs a point. *)
Definition first_stitch (ts : list trk) (c : comp) : outcome (list nat) :=
  do r <- foreach (seq 0 (length (fst c))) (fun acc k =>
    do i <- idx (fst c) k;
    do t <- idx ts i;
    if length (t_pts t) =? 0 then Ok acc else
    do b <- backwards (snd c) k;
    Ok (acc ++ if b : bool then rev (t_pts t) else t_pts t)) [];
  if length r =? 0 then Undef else Ok r.

(** fTrackComposite with fHT, fTrackVec, ftNo *)
Record st := St { s_comps : list comp; s_trks : list strk; s_no : nat }.
(** the body of the loop over ii, cxx:341-465 *)
Definition walk_one (ts : list trk) (fh ft : list link) (s : st * list bool) (ii : nat) : outcome (st * list bool) :=
  let '(s, done) := s in
  do d <- at_ done ii;
  if d : bool then Ok (s, done) else
  do h <- at_ fh ii;
  do a <- chain (S (length fh)) false fh ft ii ii h None ([ii], []) done;
  do t <- at_ ft ii;
  do b <- chain (S (length fh)) true fh ft ii ii None t (fst a) (snd a);
  do c <- dedup (length (fst (fst b))) 0 (fst b);
  do p <- first_stitch ts c;
  Ok (St (s_comps s ++ [c]) (s_trks s ++ [(s_no s, p)]) (S (s_no s)), snd b).
(** WalkStitch, cxx:334-466 *)
Definition walk_stitch (ts : list trk) (no : nat) (f : list link * list link) : outcome st :=
  do r <- foreach (seq 0 (length (fst f))) (walk_one ts (fst f) (snd f)) (St [] [] no, repeat false (length (fst f)));
  Ok (fst r).

(* ---------------------------------------------------------------- CommonComponentStitch *)

(** the positions (iit, jit, iiit, jjit) in the order of the four loops, cxx:479-504 *)
Definition quads (cs : list comp) : list (nat * nat * nat * nat) :=
  flat_map (fun i => flat_map (fun j => flat_map (fun a => map (fun b => (i, j, a, b)) (seq 0 (length (fst (nth j cs ([], []))))))
    (seq 0 (length (fst (nth i cs ([], [])))))) (range (i + 1) (length cs))) (seq 0 (length cs)).
Definition same (cs : list comp) (q : nat * nat * nat * nat) : bool :=
  let '(i, j, a, b) := q in nth a (fst (nth i cs ([], []))) 0 =? nth b (fst (nth j cs ([], []))) 0.
(** CommonComponentStitch, cxx:472-562: None when there is no match *)
Definition common (ts : list trk) (s : st) : outcome (option st) :=
  match find (same (s_comps s)) (quads (s_comps s)) with
  | None => Ok None
  | Some (i, j, a, b) =>
    do ci <- idx (s_comps s) i;
    do cj <- idx (s_comps s) j;
    let rest := remove_at a (fst ci) in
    do c <- (if b =? 0 then if length rest <=? length (snd ci) then Ok (rest ++ fst cj, firstn (length rest) (snd ci) ++ snd cj) else Undef
      else if b =? length (fst cj) - 1 then if length rest <=? length (snd ci) then Ok (fst cj ++ rest, snd cj ++ firstn (length rest) (snd ci)) else Undef
      else Ok cj);
    do p <- first_stitch ts c;
    Ok (Some (St (remove_at i (upd (s_comps s) j c)) (remove_at i (upd (s_trks s) j (s_no s, p))) (S (s_no s))))
  end.
(** "while (stizatch)", TrackStitcher_module.cc:140-143. [fuel] bounds the iterations. *)
Fixpoint common_all (fuel : nat) (ts : list trk) (s : st) : outcome st :=
  match fuel with
  | 0 => Undef
  | S fuel => do r <- common ts s; match r with None => Ok s | Some s' => common_all fuel ts s' end
  end.

(** the calls of produce, TrackStitcher_module.cc:135-148; [no] is ftNo, [both] is CommonComponentStitch of the configuration *)
Definition stitch (c : cfg) (both : bool) (no : nat) (ts : list trk) : outcome st :=
  do f <- find_ht c ts;
  do s <- walk_stitch ts no f;
  if both then common_all (S (length (s_comps s))) ts s else Ok s.
(** GetTracks, GetTrackComposites, StitchAlg.h *)
Definition composites (s : st) : list (list nat) := map fst (s_comps s).
Definition tracks (s : st) : list strk := s_trks s.

(* ---------------------------------------------------------------- TrackStitcher::produce *)

(** the space points of the event, module.cc:106-131. [nested]: vector of PtrVectors; the inner loop advances ii instead of jj, so it takes the
    first space point of each vector until one is empty or at() throws. The catch reads the flat vector after what was read already;
    an invalid handle throws. *)
Fixpoint read_nested (inner : bool) (l : list (list nat)) (acc : list nat) : list nat * bool :=
  match l with
  | [] => (acc, inner)
  | [] :: r => read_nested false r acc
  | (x :: _) :: r => read_nested true r (acc ++ [x])
  end.
Definition read_points (nested : option (list (list nat))) (flat : option (list nat)) : outcome (list nat) :=
  let '(acc, caught) := match nested with None => ([], true) | Some l => read_nested false l [] end in
  if caught then match flat with None => Throw UserExn | Some f => Ok (acc ++ f) end else Ok acc.

(** the association lists: track-hit, track-space point, space point-hit *)
Record assns := As { a_th : list (nat * nat); a_ts : list (nat * nat); a_sh : list (nat * nat) }.
(** GetHitsFromComponentTracks and GetSpacePointsFromComponentTracks, module.cc:229-262 *)
Definition of_components (per_track : list (list nat)) (c : list nat) : outcome (list nat) :=
  foreach c (fun acc i => do l <- idx per_track i; Ok (acc ++ l)) [].
(** one stitched track, module.cc:161-219: [hits_of], [points_of]: per input track; [hits_at]: the hits of a space point *)
Definition associate (hits_of points_of : list (list nat)) (hits_at : nat -> list nat) (scol : list nat) (cs : list (list nat)) (a : assns) (ii : nat) : outcome assns :=
  do c <- idx cs ii;
  do hs <- of_components hits_of c;
  do ps <- of_components points_of c;
  Ok (As (a_th a ++ map (pair ii) hs) (a_ts a ++ map (pair ii) ps)
         (a_sh a ++ flat_map (fun p => if existsb (Nat.eqb p) scol then map (pair p) (hits_at p) else []) ps)).
(** produce, module.cc:85-227 *)
Definition produce (c : cfg) (both : bool) (no : nat) (ts : list trk) (hits_of points_of : list (list nat)) (hits_at : nat -> list nat)
  (nested : option (list (list nat))) (flat : option (list nat)) : outcome (st * assns) :=
  do scol <- read_points nested flat;
  do s <- stitch c both no ts;
  if negb (length (tracks s) =? length (composites s)) then Throw UserExn else
  do a <- foreach (seq 0 (length (composites s))) (associate hits_of points_of hits_at scol (composites s)) (As [] [] []);
  Ok (s, a).
