(** Model of larreco/HitFinder/HitFinderTools/WaveformTools_tool.cc (the function templates with T = float or double; the FFT is left out,
    and so are the optional histograms).  Samples are exact rationals.  An iterator is an index; forming one outside its vector, or
    reading there, is [Undef].  std::sort is an argument [srt]. *)
From Coq Require Import QArith Qcanon.
From Verif Require Import Base Solver_Model.
Local Open Scope nat_scope.

(* ------------------------------------------------------------ element searches of the standard library *)
(** std::min_element / std::max_element on [s, s+n): the leftmost best one, or [s] = last if the range is empty *)
Fixpoint best_from (better : Qc -> Qc -> bool) (w : list Qc) (b i n : nat) : outcome nat :=
  match n with
  | O => Ok b
  | S n' => do vb <- idx w b; do vi <- idx w i; best_from better w (if better vi vb then i else b) (S i) n'
  end.
Definition best_elem (better : Qc -> Qc -> bool) (w : list Qc) (s e : nat) : outcome nat := if s <? e then best_from better w s (S s) (e - s - 1) else Ok s.
Definition smaller (a b : Qc) : bool := qc_lt a b.
Definition larger (a b : Qc) : bool := qc_lt b a.
(** the maximum returned by std::minmax_element is the rightmost one *)
Definition larger_eq (a b : Qc) : bool := negb (qc_lt a b).

(* ------------------------------------------------------------ erosion and dilation *)
(** WaveformTools_tool.cc:628-640, 730-736, 766-772: the element kept for tick [i], given the one kept before *)
Definition next_el (better : Qc -> Qc -> bool) (w : list Qc) (h i el : nat) : outcome nat :=
  if h <? length w - i then
    if h + el <=? i then best_elem better w (i + 1 - h) (i + h + 1)
    else do v <- idx w (i + h); do b <- idx w el; Ok (if better v b then i + h else el)
  else Ok el.
(** structuringElement / 2 *)
Definition half (se : Z) : Z := Z.quot se 2.
(** WaveformTools_tool.cc:588-660: (erosionVec, dilationVec, averageVec, differenceVec) *)
Definition erosion_dilation (w : list Qc) (se : Z) : outcome (list Qc * list Qc * list Qc * list Qc) :=
  let hz := Z.min (half se) (Z.of_nat (length w)) in
  if (hz <? 0)%Z then Undef
  else
    let h := Z.to_nat hz in
    do mn0 <- best_elem smaller w 0 h;
    do mx0 <- best_elem larger_eq w 0 h;
    do r <- foreach (seq 0 (length w)) (fun st i =>
        match st with (mn, mx, (ero, dil, ave, dif)) =>
          do mn' <- next_el smaller w h i mn; do mx' <- next_el larger w h i mx;
          do a <- idx w mn'; do b <- idx w mx';
          Ok (mn', mx', (ero ++ [a], dil ++ [b], ave ++ [((b + a) / two)%Qc], dif ++ [(b - a)%Qc]))
        end) (mn0, mx0, ([], [], [], []));
    Ok (snd r).
(** one of the loops of getOpeningAndClosing: WaveformTools_tool.cc:713-746 (better = larger), 749-783 (better = smaller) *)
Definition slide (better : Qc -> Qc -> bool) (w : list Qc) (se : Z) : outcome (list Qc) :=
  let hz := half se in
  if (hz <? 0)%Z || (Z.of_nat (length w) <? hz)%Z then Undef
  else
    let h := Z.to_nat hz in
    do el0 <- best_elem better w 0 h;
    do r <- foreach (seq 0 (length w)) (fun st i => do el <- next_el better w h i (fst st); do v <- idx w el; Ok (el, snd st ++ [v])) (el0, []);
    Ok (snd r).
(** WaveformTools_tool.cc:702-786 getOpeningAndClosing *)
Definition opening_closing (ero dil : list Qc) (se : Z) : outcome (list Qc * list Qc) :=
  do op <- slide larger ero se; do cl <- slide smaller dil se; Ok (op, cl).

(* ------------------------------------------------------------ smoothing *)
Local Open Scope Qc_scope.
(** WaveformTools_tool.cc:186-188: the smoothed value at tick [c] *)
Definition five (w : list Qc) (c : nat) : outcome Qc :=
  do a <- idx w (c - 2); do b <- idx w (c - 1); do v <- idx w c; do d <- idx w (c + 1); do e <- idx w (c + 2);
  Ok ((a + Q2Qc 2 * b + Q2Qc 3 * v + Q2Qc 2 * d + e) / Q2Qc 9).
(** WaveformTools_tool.cc:169-197 triangleSmooth; the loop [while (curInItr++ != stopInItr)] runs past the end if it starts
    behind its stop; [out0] is smoothVec on entry *)
Definition triangle_smooth (w out0 : list Qc) (low : nat) : outcome (list Qc) :=
  let n := length w in
  if (4 <? n)%nat then
    if (n <? 2 + low)%nat then Undef
    else if (n - 3 <? 1 + low)%nat then Undef
    else
      let sized := firstn n out0 ++ repeat 0 (n - length out0) in
      let sm := firstn (2 + low) w ++ firstn (n - 2 - (2 + low)) (skipn (2 + low) sized) ++ skipn (n - 2) w in
      foreach (range (2 + low) (n - 2)) (fun out c => do v <- five w c; set_idx out c v) sm
  else Ok w.
(** WaveformTools_tool.cc:218-256 medianSmooth; all elements of smoothVec are overwritten, so it is built up from nothing *)
Definition median_smooth (srt : list Qc -> list Qc) (w : list Qc) (nb0 : nat) : outcome (list Qc) :=
  let nb := (if Nat.even nb0 then nb0 + 1 else nb0)%nat in
  let n := length w in
  if (n <? nb)%nat then Undef
  else
    let m := (nb / 2)%nat in
    do mid <- foreach (seq 0 (n - nb)) (fun out s => do v <- idx (srt (firstn nb (skipn s w))) m; Ok (out ++ [v])) [];
    Ok (firstn m w ++ mid ++ skipn (n - nb + m) w).
(** WaveformTools_tool.cc:361-370 firstDerivative; [d0] is derivVec on entry; with size_t arithmetic size() - 1 of an empty vector is 2^64 - 1 *)
Definition first_derivative (w d0 : list Qc) : outcome (list Qc) :=
  let n := length w in
  let d := firstn n d0 ++ repeat 0 (n - length d0) in
  match n with
  | O => do b <- at_ w 2; do a <- at_ w 0; set_at d 1 ((b - a) / two)
  | _ => foreach (range 1 (n - 1)) (fun d i => do b <- at_ w (i + 1); do a <- at_ w (i - 1); set_at d i ((b - a) / two)) d
  end.

(* ------------------------------------------------------------ findPeaks *)
Definition fabs (q : Qc) : Qc := if qc_lt q 0 then - q else q.
Definition larger_abs (a b : Qc) : bool := qc_lt (fabs b) (fabs a).
(** WaveformTools_tool.cc:422-428: (tempItr, secondItr) from [t], [d] steps before stopItr *)
Fixpoint lobe_fwd (w : list Qc) (thr : Qc) (first t second d : nat) : outcome nat :=
  match d with
  | O => Ok second
  | S d' =>
      do v <- idx w (S t);
      if qc_lt v (- thr) then do vs <- idx w second; lobe_fwd w thr first (S t) (if qc_lt v vs then S t else second) d'
      else if negb (Nat.eqb second first) then Ok second
      else lobe_fwd w thr first (S t) second d'
  end.
(** WaveformTools_tool.cc:434-440: tempItr = s + d *)
Fixpoint lobe_back (w : list Qc) (thr : Qc) (first s second d : nat) : outcome nat :=
  match d with
  | O => Ok second
  | S d' =>
      do v <- idx w (s + d')%nat;
      if qc_lt thr v then do vs <- idx w second; lobe_back w thr first s (if qc_lt vs v then s + d' else second)%nat d'
      else if negb (Nat.eqb second first) then Ok second
      else lobe_back w thr first s second d'
  end.
(** WaveformTools_tool.cc:452-453: firstItr = s + d *)
Fixpoint cross_back (w : list Qc) (s d : nat) : outcome nat :=
  match d with
  | O => Ok s
  | S d' => do v <- idx w (s + d')%nat; if qc_lt v 0 then Ok (s + d')%nat else cross_back w s d'
  end.
(** WaveformTools_tool.cc:454-455 *)
Fixpoint cross_fwd (w : list Qc) (i d : nat) : outcome nat :=
  match d with
  | O => Ok i
  | S d' => do v <- idx w (S i); if qc_lt 0 v then Ok (S i) else cross_fwd w (S i) d'
  end.
Local Open Scope nat_scope.
(** WaveformTools_tool.cc:395-478 findPeaks on [s, e): the peaks appended, as (first, peak, last) ticks; [None]: recursion deeper than [fuel] *)
Fixpoint find_peaks (w : list Qc) (thr : Qc) (fuel : nat) (s e tick : nat) : outcome (option (list (nat * nat * nat))) :=
  match fuel with
  | O => Ok None
  | S fuel' =>
      if negb (4 <? e - s) then Ok (Some [])
      else
        do f <- best_elem larger_abs w s e;
        do v <- idx w f;
        if negb (qc_lt thr (fabs v)) then Ok (Some [])
        else
          do fs <- (if qc_lt 0 v then do g <- lobe_fwd w thr f f f (e - f); Ok (f, g) else do g <- lobe_back w thr f s f (f - s); Ok (g, f));
          let first := fst fs in let second := snd fs in
          if Nat.eqb first second then Ok (Some [])
          else
            let peak := first - s + (second - first) / 2 in
            do a <- cross_back w s (first - s);
            do b <- cross_fwd w second (e - second);
            do l <- find_peaks w thr fuel' s a tick;
            do r <- find_peaks w thr fuel' b e (tick + (b - s));
            match l, r with Some l, Some r => Ok (Some (l ++ (a - s + tick, peak + tick, b - s + tick) :: r)) | _, _ => Ok None end
  end.
