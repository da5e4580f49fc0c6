(** Proofs about CheckIsolatedHits_. *)
From Coq Require Import QArith Qcanon.
From Verif Require Import Base CMgr_Proofs EMS_Model EMS_Map EMS_Spec EMS_Assoc EMS_Planes.
Local Open Scope nat_scope.

Definition ftpc (v : list hit) : Z := match v with h :: _ => Z.of_nat (htp h) | [] => (-1)%Z end.
Lemma first_ok l : (forall p v, In (p, v) l -> v <> []) -> forall f0, ordered f0 -> exists f,
  foreach l (fun (f : zmap (list Z)) (e : Z * list hit) => do h <- at_ (snd e) 0; Ok (mpush (Z.of_nat (htp h)) (fst e) f)) f0 = Ok f /\ ordered f /\
  (forall t, mvec t f = mvec t f0 ++ map fst (filter (fun e : Z * list hit => (ftpc (snd e) =? t)%Z) l)) /\
  (forall t, In t (keys f) <-> In t (keys f0) \/ exists e, In e l /\ ftpc (snd e) = t).
Proof.
  induction l as [|[p v] l IH]; intros H f0 O; cbn [foreach].
  - exists f0. split; [reflexivity|]. split; [exact O|]. split; [intros t; cbn; rewrite app_nil_r; reflexivity|]. intros t. split; [auto|intros [X|(e & [] & _)]; exact X].
  - destruct v as [|h r]; [exfalso; exact (H p [] (or_introl eq_refl) eq_refl)|]. cbn [at_ nth_error snd obind].
    destruct (IH (fun q w Hq => H q w (or_intror Hq)) (mpush (Z.of_nat (htp h)) p f0) (ordered_mset _ _ _ O)) as (f & E & Of & F & K).
    exists f. split; [exact E|]. split; [exact Of|]. split.
    + intros t. rewrite F, mvec_mpush. cbn [filter snd ftpc]. rewrite (Z.eqb_sym (Z.of_nat (htp h)) t).
      destruct (Z.eqb_spec t (Z.of_nat (htp h))) as [->|]; [|reflexivity]. rewrite <- app_assoc. reflexivity.
    + intros t. rewrite K. unfold mpush. rewrite keys_mset. split.
      * intros [ [->|X]|(e & He & X)]; [right; exists (p, h :: r); split; [left; reflexivity|reflexivity]|auto|right; exists e; split; [right; exact He|exact X] ].
      * intros [X|(e & [<-|He] & X)]; [auto|left; left; symmetry; exact X|right; exists e; auto].
Qed.

(** keys of [tpcs] *)
Lemma tpcs_keys v : ordered (tpcs v) /\ forall k, In k (keys (tpcs v)) <-> exists h, In h v /\ k = Z.of_nat (htp h).
Proof.
  unfold tpcs. assert (G : forall m0, ordered m0 -> ordered (fold_left (fun m h => mincr (Z.of_nat (htp h)) m) v m0) /\
    forall k, In k (keys (fold_left (fun m h => mincr (Z.of_nat (htp h)) m) v m0)) <-> In k (keys m0) \/ exists h, In h v /\ k = Z.of_nat (htp h)).
  { induction v as [|h v IH]; intros m0 O; cbn [fold_left].
    - split; [exact O|]. intros k. split; [auto|intros [X|(h & [] & _)]; exact X].
    - destruct (IH (mincr (Z.of_nat (htp h)) m0) (ordered_mset _ _ _ O)) as [A B]. split; [exact A|]. intros k. rewrite B. unfold mincr. rewrite keys_mset.
      split.
      + intros [ [->|X]|(x & Hx & E)]; [right; exists h; split; [left; reflexivity|reflexivity]|auto|right; exists x; split; [right; exact Hx|exact E] ].
      + intros [X|(x & [<-|Hx] & E)]; [auto|left; left; exact E|right; eauto]. }
  destruct (G [] ltac:(constructor)) as [A B]. split; [exact A|]. intros k. rewrite B. cbn. intuition.
Qed.
Lemma tpcs_le1 v : length (tpcs v) <= 1 <-> forall a b, In a v -> In b v -> htp a = htp b.
Proof.
  destruct (tpcs_keys v) as [O K]. split.
  - intros L a b Ha Hb. assert (In (Z.of_nat (htp a)) (keys (tpcs v)) /\ In (Z.of_nat (htp b)) (keys (tpcs v))) as [Xa Xb] by (split; apply K; eauto).
    destruct (tpcs v) as [|e [|e' r] ]; cbn in *; lia.
  - intros H. destruct (tpcs v) as [|e [|e' r] ] eqn:E; cbn; try lia. exfalso.
    assert (Xa : In (fst e) (keys (e :: e' :: r))) by (left; reflexivity). assert (Xb : In (fst e') (keys (e :: e' :: r))) by (right; left; reflexivity).
    apply K in Xa, Xb. destruct Xa as (a & Ha & Ea), Xb as (b & Hb & Eb). specialize (H a b Ha Hb).
    unfold ordered in O. cbn in O. inversion O as [|? ? _ F]; subst. inversion F as [|? ? L _]; subst. lia.
Qed.
Lemma tpcs_one v t : (exists n, tpcs v = [(t, n)]) <-> v <> [] /\ forall a, In a v -> Z.of_nat (htp a) = t.
Proof.
  destruct (tpcs_keys v) as [O K]. split.
  - intros (n & E). rewrite E in K. split.
    + intros ->. cbn in E. discriminate.
    + intros a Ha. assert (X : In (Z.of_nat (htp a)) (keys [(t, n)])) by (apply K; eauto). destruct X as [X|[] ]. cbn in X. auto.
  - intros [N H]. destruct v as [|a v']; [contradiction|]. assert (L : length (tpcs (a :: v')) <= 1).
    { apply tpcs_le1. intros x y Hx Hy. apply H in Hx, Hy. lia. }
    assert (X : In t (keys (tpcs (a :: v')))) by (apply K; exists a; split; [left; reflexivity|symmetry; apply H; left; reflexivity]).
    destruct (tpcs (a :: v')) as [|[k n] [|e r] ]; cbn [length keys map fst In] in *; [destruct X| |lia]. destruct X as [-> |[] ]. eauto.
Qed.

Lemma leading_spec t v : leading t v <= length v /\ (forall i h, nth_error v i = Some h -> i < leading t v -> htp h = t) /\
  (forall h, nth_error v (leading t v) = Some h -> htp h <> t).
Proof.
  induction v as [|a v (L & A & B)]; cbn [leading].
  - split; [cbn; lia|]. split; [intros i h _ X; lia|intros h; discriminate].
  - destruct (Nat.eqb_spec (htp a) t) as [E|N]; cbn [length].
    + split; [lia|]. split; [|exact B]. intros [|i] h X Y; [injection X as <-; exact E|apply (A i h X); lia].
    + split; [lia|]. split; [intros i h _ X; lia|]. intros h [= <-]. exact N.
Qed.
Lemma leading_unique t v n : (forall i h, nth_error v i = Some h -> i < n -> htp h = t) -> (exists h, nth_error v n = Some h /\ htp h <> t) -> leading t v = n.
Proof.
  intros A (h & E & N). destruct (leading_spec t v) as (L & B & C). destruct (Nat.lt_trichotomy (leading t v) n) as [X|[X|X] ]; [|exact X|].
  - exfalso. destruct (nth_error v (leading t v)) as [x|] eqn:Q.
    + apply (C x eq_refl). apply (A _ _ Q X).
    + apply nth_error_None in Q. assert (n < length v) by (apply nth_error_Some; congruence). lia.
  - exfalso. apply N. apply (B n h E X).
Qed.

Lemma starts_ftpc m p t : starts_in m p t <-> exists v, In (p, v) m /\ ftpc v = Z.of_nat t.
Proof.
  split.
  - intros (h & r & Hi & E). exists (h :: r). split; [exact Hi|cbn; lia].
  - intros ([|h r] & Hi & E); cbn in E; [lia|]. exists h, r. split; [exact Hi|lia].
Qed.

Definition the_problem (f : zmap (list Z)) : Z := fold_left (fun p e => match snd e with [x] => x | _ => p end) f (-1)%Z.
Definition picked (m : hmap) (p : Z) (t : nat) : Prop := two_tpcs m /\ lone m p t /\ forall q u, lone m q u -> u <= t.

Section I.
Variables (np : nat) (m : hmap).
Hypothesis Fu : full m.
Hypothesis L3 : length m <= 3.

Lemma m_nodup : NoDup (map fst m). Proof. exact (ordered_nodup m (proj1 Fu)). Qed.
Lemma in_same p v w : In (p, v) m -> In (p, w) m -> v = w.
Proof. intros A B. apply (mfind_in p v m (proj1 Fu)) in A. apply (mfind_in p w m (proj1 Fu)) in B. congruence. Qed.

(** groups of planes *)
Lemma picked_iff f : ordered f -> (forall t, mvec t f = map fst (filter (fun e => (ftpc (snd e) =? t)%Z) m)) ->
  (forall t, In t (keys f) <-> exists e, In e m /\ ftpc (snd e) = t) ->
  (length f = 2 <-> two_tpcs m) /\
  (length f = 2 -> exists t, picked m (the_problem f) t /\ forall p u, picked m p u -> p = the_problem f /\ u = t).
Proof.
  intros O F K.
  assert (Kn : forall k, In k (keys f) -> exists t, k = Z.of_nat t /\ exists p, starts_in m p t).
  { intros k Hk. apply K in Hk. destruct Hk as ([p v] & He & E). cbn [snd] in E. destruct v as [|h r]; [exfalso; exact (proj2 Fu p [] He eq_refl)|].
    cbn in E. exists (htp h). split; [auto|]. exists p, h, r. auto. }
  assert (Sk : forall p t, starts_in m p t -> In (Z.of_nat t) (keys f)).
  { intros p t S. apply starts_ftpc in S. destruct S as (v & Hv & E). apply K. exists (p, v). auto. }
  assert (Sv : forall p t, starts_in m p t <-> In p (mvec (Z.of_nat t) f)).
  { intros p t. rewrite starts_ftpc, F, in_map_iff. split.
    - intros (v & Hv & E). exists (p, v). split; [reflexivity|]. apply filter_In. split; [exact Hv|]. cbn. apply Z.eqb_eq, E.
    - intros ([q v] & <- & Hi). apply filter_In in Hi. destruct Hi as [Hi E]. apply Z.eqb_eq in E. exists v. auto. }
  split.
  - split.
    + intros L. destruct f as [|[k1 l1] [|[k2 l2] [|? ?] ] ] eqn:Ef; cbn in L; try lia.
      destruct (Kn k1) as (t1 & E1 & p1 & S1); [left; reflexivity|]. destruct (Kn k2) as (t2 & E2 & p2 & S2); [right; left; reflexivity|].
      exists t1, t2, p1, p2. unfold ordered in O. cbn in O. inversion O as [|? ? _ Fo]; subst. inversion Fo as [|? ? Lt _]; subst.
      split; [lia|]. split; [exact S1|]. split; [exact S2|]. intros q t S. apply Sk in S. destruct S as [S|[S|[] ] ]; cbn in S; [left|right]; lia.
    + intros (t1 & t2 & p1 & p2 & N & S1 & S2 & A). apply Sk in S1, S2.
      assert (Hk : forall k, In k (keys f) -> k = Z.of_nat t1 \/ k = Z.of_nat t2).
      { intros k Hk. destruct (Kn k Hk) as (t & -> & q & S). destruct (A q t S) as [->| ->]; auto. }
      pose proof (ordered_nodup f O) as Nf.
      assert (length (keys f) <= 2).
      { change 2 with (length [Z.of_nat t1; Z.of_nat t2]). apply NoDup_incl_length; [exact Nf|]. intros k Hki. destruct (Hk k Hki) as [->| ->]; cbn; auto. }
      assert (2 <= length (keys f)).
      { change 2 with (length [Z.of_nat t1; Z.of_nat t2]). apply NoDup_incl_length; [repeat constructor; cbn; intuition; lia|]. intros k [<-|[<-|[] ] ]; assumption. }
      unfold keys in *. rewrite map_length in *. lia.
  - intros L.
    assert (Lo : forall p t, lone m p t <-> mvec (Z.of_nat t) f = [p]).
    { intros p t. unfold lone. rewrite Sv. assert (Nv : NoDup (mvec (Z.of_nat t) f)).
      { rewrite F. pose proof m_nodup as N. clear -N. induction m as [|e r IH]; cbn [filter map]; [constructor|]. cbn [map] in N. apply NoDup_cons_iff in N. destruct N as [Na N].
        destruct (ftpc (snd e) =? Z.of_nat t)%Z; [|apply IH, N]. cbn [map]. constructor; [|apply IH, N]. intros X. apply Na. apply in_map_iff in X. destruct X as (x & E & Hx). apply filter_In in Hx. rewrite <- E. apply in_map, Hx. }
      split.
      - intros [Hp A]. destruct (mvec (Z.of_nat t) f) as [|a [|b r] ] eqn:E; [destruct Hp| |].
        + rewrite (A a); [reflexivity|]. apply Sv. rewrite E. left; reflexivity.
        + exfalso. apply NoDup_cons_iff in Nv. apply (proj1 Nv). assert (a = p) by (apply A, Sv; rewrite E; left; reflexivity).
          assert (b = p) by (apply A, Sv; rewrite E; right; left; reflexivity). subst. left; reflexivity.
      - intros E. rewrite E. split; [left; reflexivity|]. intros q S. apply Sv in S. rewrite E in S. destruct S as [S|[] ]. auto. }
    assert (Tw : two_tpcs m).
    { clear Lo. destruct f as [|[k1 l1] [|[k2 l2] [|? ?] ] ] eqn:Ef; cbn in L; try lia.
      destruct (Kn k1) as (t1 & E1 & p1 & S1); [left; reflexivity|]. destruct (Kn k2) as (t2 & E2 & p2 & S2); [right; left; reflexivity|].
      exists t1, t2, p1, p2. unfold ordered in O. cbn in O. inversion O as [|? ? _ Fo]; subst. inversion Fo as [|? ? Lt _]; subst.
      split; [lia|]. split; [exact S1|]. split; [exact S2|]. intros q t S. apply Sk in S. destruct S as [S|[S|[] ] ]; cbn in S; [left|right]; lia. }
    assert (Pk : forall p t, picked m p t <-> mvec (Z.of_nat t) f = [p] /\ forall q u, mvec (Z.of_nat u) f = [q] -> u <= t).
    { intros p t. unfold picked. rewrite Lo. split.
      - intros (_ & A & B). split; [exact A|]. intros q u E. apply (B q u), Lo, E.
      - intros (A & B). split; [exact Tw|]. split; [exact A|]. intros q u E. apply (B q u), Lo, E. }
    clear Lo Tw.
    destruct f as [|[k1 l1] [|[k2 l2] [|? ?] ] ] eqn:Ef; cbn in L; try lia. clear L.
    destruct (Kn k1) as (t1 & -> & p1 & S1); [left; reflexivity|]. destruct (Kn k2) as (t2 & -> & p2 & S2); [right; left; reflexivity|].
    assert (Lt : t1 < t2). { unfold ordered in O. cbn in O. inversion O as [|? ? _ Fo]; subst. inversion Fo as [|? ? Lt _]; subst. lia. }
    assert (V : forall t, mvec (Z.of_nat t) f = if t =? t1 then l1 else if t =? t2 then l2 else []).
    { intros t. rewrite Ef. unfold mvec. cbn [mfind].
      destruct (Nat.eqb_spec t t1) as [->|N1]; [rewrite Z.eqb_refl; reflexivity|]. destruct (Z.eqb_spec (Z.of_nat t) (Z.of_nat t1)); [lia|].
      destruct (Nat.eqb_spec t t2) as [->|N2]; [rewrite Z.eqb_refl; reflexivity|]. destruct (Z.eqb_spec (Z.of_nat t) (Z.of_nat t2)); [lia|reflexivity]. }
    rewrite <- Ef in *.
    assert (V1 : mvec (Z.of_nat t1) f = l1) by (rewrite V, Nat.eqb_refl; reflexivity).
    assert (V2 : mvec (Z.of_nat t2) f = l2). { rewrite V, Nat.eqb_refl. destruct (Nat.eqb_spec t2 t1); [lia|reflexivity]. }
    assert (Le : length l1 + length l2 <= length m).
    { rewrite <- V1, <- V2, !F, !map_length. assert (X : (Z.of_nat t1 <> Z.of_nat t2)) by lia. revert X. generalize (Z.of_nat t1), (Z.of_nat t2). clear. intros a b N.
      induction m as [|e r IH]; cbn [filter length]; [lia|]. destruct (Z.eqb_spec (ftpc (snd e)) a), (Z.eqb_spec (ftpc (snd e)) b); cbn [length]; try lia. }
    assert (P1 : l1 <> []) by (intros E; apply Sv in S1; rewrite V1, E in S1; destruct S1).
    assert (P2 : l2 <> []) by (intros E; apply Sv in S2; rewrite V2, E in S2; destruct S2).
    assert (Sg : forall p t, mvec (Z.of_nat t) f = [p] -> (t = t1 /\ l1 = [p]) \/ (t = t2 /\ l2 = [p])).
    { intros p t E. rewrite V in E. destruct (Nat.eqb_spec t t1); [auto|]. destruct (Nat.eqb_spec t t2); [auto|discriminate]. }
    assert (Pr : the_problem f = match l2 with [y] => y | _ => match l1 with [x] => x | _ => (-1)%Z end end) by (rewrite Ef; reflexivity).
    rewrite Pr. destruct l2 as [|y [|z r2] ]; [contradiction| |].
    + exists t2. split.
      * apply Pk. split; [exact V2|]. intros q u E. apply Sg in E. destruct E as [ [-> _]|[-> _] ]; lia.
      * intros p u H. apply Pk in H. destruct H as [E A]. specialize (A y t2 V2). apply Sg in E. destruct E as [ [-> _]|[-> E] ]; [lia|]. injection E as ->. auto.
    + destruct l1 as [|x [|w r1] ]; [contradiction| |cbn in Le; lia]. exists t1. split.
      * apply Pk. split; [exact V1|]. intros q u E. apply Sg in E. destruct E as [ [-> _]|[_ E] ]; [lia|discriminate].
      * intros p u H. apply Pk in H. destruct H as [E A]. apply Sg in E. destruct E as [ [-> E]|[_ E] ]; [|discriminate]. injection E as ->. auto.
Qed.

Lemma in_upto q : In q (map Z.of_nat (seq 0 np)) <-> (0 <= q < Z.of_nat np)%Z.
Proof.
  rewrite in_map_iff. split; [intros (x & <- & H); apply in_seq in H; lia|]. intros H. exists (Z.to_nat q). split; [lia|]. apply in_seq. lia.
Qed.
Lemma in_others problem q : In q (filter (fun p => negb (p =? problem)%Z && match mfind p m with Some w => 3 <=? length w | None => false end) (map Z.of_nat (seq 0 np)))
  <-> q <> problem /\ (0 <= q < Z.of_nat np)%Z /\ exists w, In (q, w) m /\ 3 <= length w.
Proof.
  rewrite filter_In, in_upto, andb_true_iff, negb_true_iff, Z.eqb_neq. split.
  - intros (A & B & D). destruct (mfind q m) as [w|] eqn:E; [|discriminate]. apply Nat.leb_le in D. apply (mfind_in q w m (proj1 Fu)) in E. eauto 6.
  - intros (B & A & w & Hw & D). apply (mfind_in q w m (proj1 Fu)) in Hw. rewrite Hw. apply Nat.leb_le in D. auto.
Qed.
Lemma seconds_ok others : (forall q, In q others -> exists w, In (q, w) m /\ 3 <= length w) -> forall l0, exists l,
  foreach others (fun l p => do w <- mat p m; Ok (l ++ firstn 1 (skipn 1 w))) l0 = Ok l /\
  (forall h, In h l <-> In h l0 \/ exists q w, In q others /\ In (q, w) m /\ nth_error w 1 = Some h) /\ (l = [] -> others = [] ).
Proof.
  induction others as [|q others IH]; intros H l0; cbn [foreach].
  - exists l0. split; [reflexivity|]. split; [|auto]. intros h. split; [auto|]. intros [X|(q & w & [] & _)]. exact X.
  - destruct (H q (or_introl eq_refl)) as (w & Hw & L). unfold mat. rewrite (proj2 (mfind_in q w m (proj1 Fu)) Hw). cbn [obind].
    destruct w as [|a [|b w'] ]; cbn in L; try lia. cbn [skipn firstn].
    destruct (IH (fun x Hx => H x (or_intror Hx)) (l0 ++ [b])) as (l & E & A & B). exists l. split; [exact E|]. split.
    + intros h. rewrite A, in_app_iff. split.
      * intros [ [X|[<-|[] ] ]|(x & u & Hx & Hu & Eu)]; [auto|right; exists q, (a :: b :: w'); split; [left; reflexivity|split; [exact Hw|reflexivity] ]|right; exists x, u; split; [right; exact Hx|auto] ].
      * intros [X|(x & u & [<-|Hx] & Hu & Eu)]; [auto| |right; exists x, u; auto]. rewrite (in_same q _ _ Hu Hw) in Eu. injection Eu as <-. left; right; left; reflexivity.
    + intros ->. exfalso. assert (X : In b []) by (apply A; left; apply in_app_iff; right; left; reflexivity). destruct X.
Qed.

Lemma naughty_ok v n : 3 <= length v -> (n = 1 \/ n = 2) -> moved n v (fst (naughty (length v) 0 n v []) ++ snd (naughty (length v) 0 n v [])).
Proof.
  intros L N. destruct v as [|a [|b [|c r] ] ]; cbn in L; try lia. destruct N as [-> | ->]; cbn; constructor.
Qed.

Theorem isolated_main : exists m', isolated np m = Ok m' /\
  ((exists p n t t' v w, stray np m p n t t' v /\ moved n v w /\ m' = mset p w m) \/ ((forall p n t t' v, ~ stray np m p n t t' v) /\ m' = m)).
Proof.
  unfold isolated, first_tpc. destruct (first_ok m (proj2 Fu) [] ltac:(constructor)) as (f & E & Of & Ff & Kf). rewrite E. cbn [obind]. clear E.
  destruct (picked_iff f Of Ff) as [L2 Pk]. { intros t. rewrite Kf. cbn. intuition. }
  destruct (Nat.eqb_spec (length f) 2) as [Lf|Lf]; cbn [negb].
  2: { exists m. split; [reflexivity|]. right. split; [|reflexivity]. intros p n t t' v S. apply Lf, L2, S. }
  destruct (Pk Lf) as (t & Pt & Pu). fold (the_problem f). set (p := the_problem f) in *. clearbody p. clear L2 Pk Of Ff Kf Lf f.
  assert (St : forall p' n t0 t' v, stray np m p' n t0 t' v -> p' = p /\ t0 = t).
  { intros p' n t0 t' v S. apply Pu. split; [apply S|]. split; [apply S|apply S]. }
  destruct Pt as (Tw & Lo & Gr). destruct (proj1 Lo) as (h0 & r0 & Hv & Eh). remember (h0 :: r0) as v eqn:Ev.
  assert (Fv : mfind p m = Some v) by (apply (mfind_in p v m (proj1 Fu)), Hv). unfold mat at 1. rewrite Fv. cbn [obind].
  assert (Vv : forall p' n t0 t' v', stray np m p' n t0 t' v' -> v' = v).
  { intros p' n t0 t' v' S. destruct (St _ _ _ _ _ S) as [-> _]. apply (in_same p); [apply S|exact Hv]. }
  destruct (Nat.ltb_spec (length v) 3) as [Lv|Lv].
  { exists m. split; [reflexivity|]. right. split; [|reflexivity]. intros p' n t0 t' v' S. rewrite (Vv _ _ _ _ _ S) in S. destruct S as (_ & _ & _ & _ & X & _). lia. }
  cbv zeta. remember (filter (fun p0 => negb (p0 =? p)%Z && match mfind p0 m with Some w => 3 <=? length w | None => false end) (map Z.of_nat (seq 0 np))) as others eqn:Eo.
  assert (Io : forall q, In q others <-> q <> p /\ (0 <= q < Z.of_nat np)%Z /\ exists w, In (q, w) m /\ 3 <= length w) by (intros q; rewrite Eo; apply in_others).
  assert (No : others = [] -> exists m', Ok m = Ok m' /\ ((exists p n t t' v w, stray np m p n t t' v /\ moved n v w /\ m' = mset p w m) \/ ((forall p n t t' v, ~ stray np m p n t t' v) /\ m' = m))).
  { intros Z. exists m. split; [reflexivity|]. right. split; [|reflexivity]. intros p' n t0 t' v' S. destruct (St _ _ _ _ _ S) as [-> _].
    destruct S as (_ & _ & _ & _ & _ & _ & _ & _ & _ & (q & w & A & B & D & F) & _). assert (X : In q others) by (apply Io; eauto 6). rewrite Z in X. destruct X. }
  destruct others as [|o os] eqn:Eos; [exact (No eq_refl)|]. rewrite <- Eos in *. clear No.
  assert (A0 : at_ v 0 = Ok h0) by (rewrite Ev; reflexivity). rewrite A0. cbn [obind].
  set (n := leading (htp h0) v).
  destruct (leading_spec (htp h0) v) as (Ln & An & Bn). fold n in Ln, An, Bn.
  assert (Sn : forall p' k t0 t' v', stray np m p' k t0 t' v' -> k = n).
  { intros p' k t0 t' v' S. destruct (St _ _ _ _ _ S) as [_ ->]. pose proof (Vv _ _ _ _ _ S) as ->.
    destruct S as (_ & _ & _ & _ & L3' & K12 & Ntt & A & B & _). symmetry. unfold n. rewrite Eh. apply leading_unique; [exact A|].
    destruct (nth_error v k) as [x|] eqn:Q; [|apply nth_error_None in Q; lia]. exists x. split; [reflexivity|]. rewrite (B k x Q) by lia. congruence. }
  destruct (Nat.ltb_spec 2 n) as [Gn|Gn].
  { exists m. split; [reflexivity|]. right. split; [|reflexivity]. intros p' k t0 t' v' S. pose proof (Sn _ _ _ _ _ S) as ->. destruct S as (_ & _ & _ & _ & _ & X & _). lia. }
  assert (N1 : 1 <= n) by (unfold n; rewrite Ev; cbn [leading]; rewrite Nat.eqb_refl; lia).
  assert (Hn : exists hn, nth_error v n = Some hn). { destruct (nth_error v n) as [x|] eqn:Q; [eauto|apply nth_error_None in Q; lia]. }
  destruct Hn as (hn & Hn).
  assert (Inx : forall h, In h (firstn (4 * n) (skipn n v)) <-> exists i, nth_error v i = Some h /\ n <= i < n + 4 * n).
  { intros h. split.
    - intros Hi. apply In_nth_error in Hi. destruct Hi as (i & Ei). assert (Li : i < 4 * n).
      { apply Nat.nle_gt. intros X. rewrite (proj2 (nth_error_None _ _)) in Ei; [discriminate|]. rewrite firstn_length. lia. }
      exists (n + i). split; [|lia].
      rewrite <- (firstn_skipn n v), nth_error_app2; rewrite firstn_length, Nat.min_l by lia; [|lia]. replace (n + i - n) with i by lia.
      rewrite <- (firstn_skipn (4 * n) (skipn n v)), nth_error_app1; [exact Ei|]. apply nth_error_Some. congruence.
    - intros (i & Ei & Hi). rewrite <- (firstn_skipn n v), nth_error_app2 in Ei; rewrite firstn_length, Nat.min_l in * by lia; [|lia].
      rewrite <- (firstn_skipn (4 * n) (skipn n v)) in Ei. rewrite nth_error_app1 in Ei; [eapply nth_error_In, Ei|].
      assert (i - n < length (skipn n v)). { rewrite <- (firstn_skipn (4 * n) (skipn n v)). apply nth_error_Some. congruence. }
      rewrite firstn_length. lia. }
  destruct (Nat.ltb_spec 1 (length (tpcs (firstn (4 * n) (skipn n v))))) as [Gt|Gt].
  { exists m. split; [reflexivity|]. right. split; [|reflexivity]. intros p' k t0 t' v' S. pose proof (Sn _ _ _ _ _ S) as ->. pose proof (Vv _ _ _ _ _ S) as ->.
    assert (length (tpcs (firstn (4 * n) (skipn n v))) <= 1); [|lia]. apply tpcs_le1. intros a b Ha Hb. apply Inx in Ha, Hb.
    destruct Ha as (i & Ei & Hi), Hb as (j & Ej & Hj). destruct S as (_ & _ & _ & _ & _ & _ & _ & _ & B & _). rewrite (B i a Ei Hi), (B j b Ej Hj). reflexivity. }
  pose proof (proj1 (tpcs_le1 _) Gt) as Same. clear Gt.
  destruct (seconds_ok others) with (l0 := @nil hit) as (se & Es & Is & Ns). { intros q Hq. apply Io in Hq. apply Hq. }
  rewrite Es. cbn [obind].
  assert (Sne : se <> []) by (intros X; apply Ns in X; rewrite X in Eos; discriminate).
  assert (I2 : forall h, In h se <-> exists q w, q <> p /\ (0 <= q < Z.of_nat np)%Z /\ In (q, w) m /\ 3 <= length w /\ nth_error w 1 = Some h).
  { intros h. rewrite Is. split.
    - intros [ []|(q & w & Hq & Hw & X)]. apply Io in Hq. destruct Hq as (A & B & w' & Hw' & D). rewrite (in_same q w' w Hw' Hw) in D. exists q, w. auto 6.
    - intros (q & w & A & B & D & F & X). right. exists q, w. split; [apply Io; eauto 6|auto]. }
  assert (Oth : exists q w, q <> p /\ (0 <= q < Z.of_nat np)%Z /\ In (q, w) m /\ 3 <= length w).
  { assert (X : In o others) by (rewrite Eos; left; reflexivity). apply Io in X. destruct X as (A & B & w & X). exists o, w. auto. }
  assert (Key : forall tz cn, tpcs se = [(tz, cn)] -> (tz = Z.of_nat (htp hn)) -> stray np m p n t (htp hn) v).
  { intros tz cn Et Etz. assert (H1 : forall a, In a se -> Z.of_nat (htp a) = tz) by (apply tpcs_one; eauto).
    split; [exact Tw|]. split; [exact Lo|]. split; [exact Gr|]. split; [exact Hv|]. split; [exact Lv|]. split; [lia|].
    split; [rewrite <- Eh; intros X; exact (Bn hn Hn (eq_sym X))|]. split; [rewrite <- Eh; exact An|].
    split; [|split; [exact Oth|] ].
    - intros i h Ei Hi. apply Same; apply Inx; [exists i; auto|exists n; split; [exact Hn|lia] ].
    - intros q w h A B D F X. assert (Hs : In h se) by (apply I2; exists q, w; auto 6). apply H1 in Hs. lia. }
  assert (Nok : (forall cn, tpcs se <> [(Z.of_nat (htp hn), cn)]) -> forall p' k t0 t' v', ~ stray np m p' k t0 t' v').
  { intros X p' k t0 t' v' S. pose proof (Sn _ _ _ _ _ S) as ->. pose proof (Vv _ _ _ _ _ S) as ->. destruct (St _ _ _ _ _ S) as [-> ->].
    destruct S as (_ & _ & _ & _ & _ & _ & _ & _ & B & _ & D).
    assert (Et : htp hn = t') by (apply (B n hn Hn); lia).
    destruct (proj2 (tpcs_one se (Z.of_nat (htp hn)))) as (cn & Q); [|exact (X cn Q)]. split; [exact Sne|]. intros a Ha. apply I2 in Ha.
    destruct Ha as (q & w & A1 & A2 & A3 & A4 & A5). rewrite (D q w a A1 A2 A3 A4 A5), Et. reflexivity. }
  destruct (tpcs se) as [|[tz cn] [|e2 r2] ] eqn:Et.
  - exists m. split; [reflexivity|]. right. split; [|reflexivity]. apply Nok. intros cn. discriminate.
  - unfold idx. rewrite Hn. cbn [obind]. destruct (Z.eqb_spec tz (Z.of_nat (htp hn))) as [Ez|Nz].
    + eexists. split; [reflexivity|]. left. exists p, n, t, (htp hn), v. eexists. split; [exact (Key tz cn eq_refl Ez)|]. split; [|reflexivity].
      apply naughty_ok; [exact Lv|lia].
    + exists m. split; [reflexivity|]. right. split; [|reflexivity]. apply Nok. intros c [= X _]. exact (Nz X).
  - exists m. split; [reflexivity|]. right. split; [|reflexivity]. apply Nok. intros cn'. discriminate.
Qed.
End I.

Lemma moved_perm n v w : moved n v w -> Permutation v w.
Proof.
  destruct 1; [apply Permutation_cons_append|]. change (a :: b :: c :: r) with ([a] ++ [b] ++ [c] ++ r). cbn [app].
  rewrite perm_swap. constructor. rewrite (Permutation_app_comm r [a; c]). cbn. reflexivity.
Qed.
Lemma mset_replaced (m : hmap) p (v w : list hit) : ordered m -> In (p, v) m -> replaced m (mset p w m) p w.
Proof.
  intros O Hp. assert (Hk : In p (keys m)) by (apply (in_map fst) in Hp; exact Hp). pose proof (ordered_mset p w m O) as O'.
  split; [apply (keys_mset_same p w m O Hk)|]. split.
  - apply (mfind_in _ _ _ O'). rewrite mfind_mset, Z.eqb_refl. reflexivity.
  - intros q u N. rewrite <- (mfind_in q u _ O'), <- (mfind_in q u _ O), mfind_mset. destruct (Z.eqb_spec q p); [contradiction|reflexivity].
Qed.
