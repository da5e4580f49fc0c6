(** isCleanShower, the two planes with most hits, the best plane. *)
From Coq Require Import QArith Qcanon Lqa.
From Verif Require Import Base QcUtil Solver_Model Solver_Proofs CMgr_Proofs CCB_Hist EMS_Model EMS_Map EMS_Spec.
Local Open Scope nat_scope.

Lemma mincr_keys (v : list hit) m0 : ordered m0 -> let m := fold_left (fun m h => mincr (Z.of_nat (hwi h)) m) v m0 in
  ordered m /\ forall k, In k (keys m) <-> In k (keys m0) \/ In k (map (fun h => Z.of_nat (hwi h)) v).
Proof.
  revert m0. induction v as [|h v IH]; intros m0 O; cbv zeta; cbn [fold_left map]; [split; [exact O|cbn; tauto]|].
  destruct (IH (mincr (Z.of_nat (hwi h)) m0) (ordered_mset _ _ _ O)) as [A B]. cbv zeta in A, B. split; [exact A|]. intros k. rewrite B. unfold mincr. rewrite keys_mset. cbn [In]. intuition.
Qed.
Lemma clean_eq v : clean_shower v = true <-> v <> [] /\ (length v < 20 \/ (2000 < N.of_nat (length v))%N \/ 13 <= length (nodup Nat.eq_dec (map hwi (skipn 2 (firstn 20 v))))).
Proof.
  unfold clean_shower. cbv zeta. destruct (Nat.eqb_spec (length v) 0) as [E|E].
  - split; [discriminate|]. intros [N _]. destruct v; [contradiction|discriminate].
  - assert (Nv : v <> []) by (intros ->; apply E; reflexivity). destruct (N.ltb_spec 2000 (N.of_nat (length v))) as [L|L]; [tauto|]. destruct (Nat.ltb_spec (length v) 20) as [L2|L2]; [tauto|].
    set (w := skipn 2 (firstn 20 v)). destruct (mincr_keys w [] ltac:(constructor)) as [O K]. cbv zeta in O, K. set (ws := fold_left (fun m h => mincr (Z.of_nat (hwi h)) m) w []) in *.
    assert (Eq : length ws = length (nodup Nat.eq_dec (map hwi w))).
    { rewrite <- (map_length fst ws). rewrite <- (map_length Z.of_nat (nodup Nat.eq_dec (map hwi w))). apply Permutation_length. apply NoDup_Permutation; [apply (ordered_nodup ws O)|apply FinFun.Injective_map_NoDup; [intros a b; apply Nat2Z.inj|apply NoDup_nodup]|].
      intros k. fold (keys ws). rewrite K. cbn [keys map In]. rewrite !in_map_iff. split.
      - intros [ []|(h & <- & Hh)]. exists (hwi h). split; [reflexivity|]. apply nodup_In, in_map, Hh.
      - intros (n & <- & Hn). right. apply nodup_In in Hn. apply in_map_iff in Hn. destruct Hn as (h & <- & Hh). eauto. }
    rewrite Eq. clear -L L2 Nv. set (n := length (nodup Nat.eq_dec (map hwi w))). clearbody n. rewrite negb_true_iff, qc_lt_false.
    assert (Q : (qn 18 <= Q2Qc (7 # 5) * qn n)%Qc <-> 13 <= n).
    { rewrite Qcle_this, this_mult. unfold qn. rewrite !this_Q2Qc. unfold Qle, Qmult, inject_Z. cbn [Qnum Qden]. lia. }
    rewrite Q. split; [intros X; split; [exact Nv|auto]|]. intros [_ [X|[X|X] ] ]; [lia|lia|exact X].
Qed.

Definition tstep (s : Z * nat * (Z * nat)) (e : Z * nat) : Z * nat * (Z * nat) :=
  match s with (p0, m0, (p1, m1)) =>
    if m0 <? snd e then (if (p0 =? -1)%Z then (fst e, snd e, (p1, m1)) else (fst e, snd e, (p0, m0)))
    else if m1 <? snd e then (p0, m0, (fst e, snd e)) else s
  end.
Definition tinv (l : list (Z * nat)) (s : Z * nat * (Z * nat)) : Prop :=
  match s with (p0, m0, (p1, m1)) =>
    match l with
    | [] => p0 = (-1)%Z /\ m0 = 0 /\ p1 = (-1)%Z /\ m1 = 0
    | [_] => In (p0, m0) l /\ p1 = (-1)%Z /\ m1 = 0
    | _ => In (p0, m0) l /\ In (p1, m1) l /\ p0 <> p1 /\ m1 <= m0 /\ forall p n, In (p, n) l -> p <> p0 -> n <= m1
    end
  end.
Lemma two_planes_ok l : NoDup (map fst l) -> (forall p n, In (p, n) l -> (0 <= p)%Z /\ 0 < n) ->
  tinv l (fold_left tstep l ((-1)%Z, 0, ((-1)%Z, 0))).
Proof.
  induction l as [|[q n] l IH] using rev_ind; intros N P; [cbn; auto|]. rewrite map_app in N. rewrite fold_left_app. cbn [fold_left].
  assert (N1 : NoDup (map fst l)) by (clear -N; induction l as [|x l IH]; cbn in *; [constructor|inversion N; subst; constructor; [intros Z; apply H1, in_app_iff; auto|auto] ]).
  assert (Nq : ~ In q (map fst l)) by (apply NoDup_remove_2 in N; rewrite app_nil_r in N; exact N).
  specialize (IH N1 (fun p k H => P p k (proj2 (in_app_iff _ _ _) (or_introl H)))). destruct (P q n) as [Pq Pn]; [apply in_app_iff; right; left; reflexivity|].
  set (s := fold_left tstep l ((-1)%Z, 0, ((-1)%Z, 0))) in *. clearbody s. destruct s as [ [p0 m0] [p1 m1] ].
  destruct l as [|[a k] [|[b j] l] ]; cbn [tinv app] in *.
  - destruct IH as (-> & -> & -> & ->). cbn [tstep snd fst]. destruct (Nat.ltb_spec 0 n); [|lia]. cbn. auto.
  - destruct IH as ([Ea|[] ] & -> & ->). injection Ea as -> ->. destruct (P p0 m0 (or_introl eq_refl)) as [P0 M0]. cbn [tstep fst snd].
    destruct (Nat.ltb_spec m0 n); [destruct (Z.eqb_spec p0 (-1)); [lia|]|destruct (Nat.ltb_spec 0 n); [|lia] ].
    + split; [right; left; reflexivity|]. split; [left; reflexivity|]. split; [intros ->; apply Nq; left; reflexivity|]. split; [lia|]. intros p x [E|[E|[] ] ] D; injection E as <- <-; [lia|contradiction].
    + split; [left; reflexivity|]. split; [right; left; reflexivity|]. split; [intros ->; apply Nq; left; reflexivity|]. split; [lia|]. intros p x [E|[E|[] ] ] D; injection E as <- <-; [contradiction|lia].
  - destruct IH as (I0 & I1 & D & L & M). set (l' := (a, k) :: (b, j) :: l) in *. change ((a, k) :: (b, j) :: l ++ [(q, n)]) with (l' ++ [(q, n)]) in *.
    enough (X : match tstep (p0, m0, (p1, m1)) (q, n) with (p0, m0, (p1, m1)) => In (p0, m0) (l' ++ [(q, n)]) /\ In (p1, m1) (l' ++ [(q, n)]) /\ p0 <> p1 /\ m1 <= m0 /\ forall p n0, In (p, n0) (l' ++ [(q, n)]) -> p <> p0 -> n0 <= m1 end) by exact X.
    clearbody l'.
    assert (Q0 : p0 <> q) by (intros ->; apply Nq; apply (in_map fst) in I0; exact I0). assert (Q1 : p1 <> q) by (intros ->; apply Nq; apply (in_map fst) in I1; exact I1).
    assert (U : forall p x, In (p, x) l' -> p = p0 -> x = m0).
    { intros p x Hx ->. clear -N1 I0 Hx. induction l' as [|[c d] l' IH]; [destruct Hx|]. cbn [map fst] in N1. inversion N1 as [|? ? H1 H2]; subst.
      destruct I0 as [E0|I0], Hx as [Ex|Hx]; [congruence| | |apply IH; assumption]; exfalso; apply H1; [injection E0 as -> ->|injection Ex as -> ->]; [apply (in_map fst) in Hx; exact Hx|apply (in_map fst) in I0; exact I0]. }
    cbn [tstep fst snd]. destruct (Nat.ltb_spec m0 n) as [A|A]; [|destruct (Nat.ltb_spec m1 n) as [B|B] ].
    + destruct (Z.eqb_spec p0 (-1)) as [E|_]; [destruct (P p0 m0); [apply in_app_iff; auto|lia]|].
      split; [apply in_app_iff; right; left; reflexivity|]. split; [apply in_app_iff; auto|]. split; [auto|]. split; [lia|].
      intros p x Hx Dp. apply in_app_iff in Hx. destruct Hx as [Hx|[E|[] ] ]; [|injection E as <- <-; contradiction]. destruct (Z.eq_dec p p0) as [->|Dq]; [rewrite (U p0 x Hx eq_refl); lia|specialize (M p x Hx Dq); lia].
    + split; [apply in_app_iff; auto|]. split; [apply in_app_iff; right; left; reflexivity|]. split; [auto|]. split; [lia|].
      intros p x Hx Dp. apply in_app_iff in Hx. destruct Hx as [Hx|[E|[] ] ]; [specialize (M p x Hx Dp); lia|injection E as <- <-; lia].
    + split; [apply in_app_iff; auto|]. split; [apply in_app_iff; auto|]. split; [auto|]. split; [lia|].
      intros p x Hx Dp. apply in_app_iff in Hx. destruct Hx as [Hx|[E|[] ] ]; [specialize (M p x Hx Dp); lia|injection E as <- <-; lia].
Qed.
Lemma two_planes_main l : NoDup (map fst l) -> (forall p n, In (p, n) l -> (0 <= p)%Z /\ 0 < n) -> 2 <= length l ->
  exists n0 n1, In (fst (two_planes l), n0) l /\ In (snd (two_planes l), n1) l /\ fst (two_planes l) <> snd (two_planes l) /\ n1 <= n0 /\
    forall p n, In (p, n) l -> p <> fst (two_planes l) -> n <= n1.
Proof.
  intros N P L. pose proof (two_planes_ok l N P) as T. change (two_planes l) with (match fold_left tstep l ((-1)%Z, 0, ((-1)%Z, 0)) with (p0, _, (p1, _)) => (p0, p1) end). destruct (fold_left tstep l ((-1)%Z, 0, ((-1)%Z, 0))) as [ [p0 m0] [p1 m1] ] eqn:E.
  cbn [fst snd]. destruct l as [|x [|y l] ]; [cbn in L; lia|cbn in L; lia|]. cbn [tinv] in T. destruct T as (A & B & C & D & M). exists m0, m1. auto.
Qed.

Lemma nth_error_firstn' {A} (l : list A) k j : j < k -> nth_error (firstn k l) j = nth_error l j.
Proof. revert k j. induction l as [|x l IH]; intros [|k] [|j] L; try lia; cbn; [reflexivity|reflexivity|reflexivity|apply IH; lia]. Qed.
Lemma best_inv init l : (forall i, i < length l -> 0 < nth i l 0 -> In (Z.of_nat i) init) ->
  exists p, best_plane init l = Ok p /\
    ((p = (-1)%Z /\ forall n, In n l -> n = 0) \/
     exists i n, p = Z.of_nat i /\ nth_error l i = Some n /\ 0 < n /\ (forall j k, nth_error l j = Some k -> k <= n) /\ forall j, j < i -> nth_error l j <> Some n).
Proof.
  intros H. unfold best_plane.
  assert (G : forall k, k <= length l -> exists p m, foreach (List.combine (seq 0 k) (firstn k l)) (fun (s : Z * nat) e =>
    if 0 <? snd e
    then if negb (zmem (Z.of_nat (fst e)) init) then Throw RangeExn
         else if snd s <? snd e then Ok (Z.of_nat (fst e), snd e) else Ok s
    else Ok s) ((-1)%Z, 0) = Ok (p, m) /\
    ((p = (-1)%Z /\ m = 0 /\ forall n, In n (firstn k l) -> n = 0) \/
     exists i, p = Z.of_nat i /\ i < k /\ nth_error l i = Some m /\ 0 < m /\ (forall j n, j < k -> nth_error l j = Some n -> n <= m) /\ forall j, j < i -> nth_error l j <> Some m)).
  { induction k as [|k IH]; intros L; [exists (-1)%Z, 0; split; [reflexivity|left; split; [reflexivity|split; [reflexivity|intros ? [] ] ] ]|]. destruct (IH ltac:(lia)) as (p & m & E & C). clear IH.
    assert (Hk : exists n, nth_error l k = Some n) by (destruct (nth_error l k) eqn:X; [eauto|apply nth_error_None in X; lia]). destruct Hk as (n & En).
    assert (Ef : firstn (S k) l = firstn k l ++ [n]).
    { clear -En. revert l En. induction k as [|k IH]; intros [|y l] E; try discriminate; cbn in *; [injection E as ->; reflexivity|]. f_equal. apply IH, E. }
    assert (Ec : List.combine (seq 0 (S k)) (firstn (S k) l) = List.combine (seq 0 k) (firstn k l) ++ [(k, n)]).
    { rewrite seq_S, Ef. cbn [plus]. assert (Ll : length (seq 0 k) = length (firstn k l)) by (rewrite seq_length, firstn_length; lia). revert Ll. generalize (seq 0 k) (firstn k l). clear.
      induction l as [|x l IH]; intros [|y l0] Ll; try discriminate; [reflexivity|]. cbn. f_equal. apply IH. cbn in Ll. lia. }
    rewrite Ec, foreach_app, E. cbn [obind foreach fst snd].
    assert (Hn : forall i x, nth_error l i = Some x -> nth i l 0 = x) by (intros i x X; apply nth_error_nth, X).
    destruct (Nat.ltb_spec 0 n) as [Pn|Pn].
    - assert (Hi : zmem (Z.of_nat k) init = true) by (apply zmem_spec, H; [lia|rewrite (Hn k n En); exact Pn]). rewrite Hi. cbn [negb].
      destruct (Nat.ltb_spec m n) as [Lm|Lm]; cbn [obind]; eexists; eexists; (split; [reflexivity|]); right.
      + exists k. split; [reflexivity|]. split; [lia|]. split; [exact En|]. split; [lia|]. destruct C as [(-> & -> & Z)|(i & -> & Li & Ei & Pm & Mx & Fs)].
        * assert (Zz : forall j x, j < k -> nth_error l j = Some x -> x = 0) by (intros j x Lj Ej; apply Z; apply (nth_error_In _ j); rewrite nth_error_firstn' by exact Lj; exact Ej).
          split; [intros j x Lj Ej; destruct (Nat.eq_dec j k) as [->|]; [rewrite En in Ej; injection Ej as <-; lia|rewrite (Zz j x ltac:(lia) Ej); lia]|]. intros j Lj Ej. rewrite (Zz j n Lj Ej) in Pn. lia.
        * split; [intros j x Lj Ej; destruct (Nat.eq_dec j k) as [->|]; [rewrite En in Ej; injection Ej as <-; lia|specialize (Mx j x ltac:(lia) Ej); lia]|]. intros j Lj Ej. specialize (Mx j n Lj Ej). lia.
      + destruct C as [(-> & -> & Z)|(i & -> & Li & Ei & Pm & Mx & Fs)]; [lia|]. exists i. split; [reflexivity|]. split; [lia|]. split; [exact Ei|]. split; [exact Pm|]. split; [|exact Fs].
        intros j x Lj Ej. destruct (Nat.eq_dec j k) as [->|]; [rewrite En in Ej; injection Ej as <-; lia|apply (Mx j x); [lia|exact Ej] ].
    - cbn [obind]. exists p, m. split; [reflexivity|]. destruct C as [(-> & -> & Z)|(i & -> & Li & Ei & Pm & Mx & Fs)].
      + left. split; [reflexivity|]. split; [reflexivity|]. intros x Hx. rewrite Ef in Hx. apply in_app_iff in Hx. destruct Hx as [Hx|[<-|[] ] ]; [apply Z, Hx|lia].
      + right. exists i. split; [reflexivity|]. split; [lia|]. split; [exact Ei|]. split; [exact Pm|]. split; [|exact Fs]. intros j x Lj Ej. destruct (Nat.eq_dec j k) as [->|]; [rewrite En in Ej; injection Ej as <-; lia|apply (Mx j x); [lia|exact Ej] ]. }
  destruct (G (length l) (le_n _)) as (p & m & E & C). rewrite firstn_all in E. rewrite E. cbn [obind fst]. exists p. split; [reflexivity|]. rewrite firstn_all in C.
  destruct C as [(-> & _ & Z)|(i & -> & Li & Ei & Pm & Mx & Fs)]; [left; auto|right]. exists i, m. split; [reflexivity|]. split; [exact Ei|]. split; [exact Pm|]. split; [|exact Fs]. intros j k Ej. apply (Mx j k); [apply nth_error_Some; congruence|exact Ej].
Qed.
