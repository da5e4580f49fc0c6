From Coq Require Import QArith Qcanon Qround Lqa.
From Verif Require Import Base Util QcUtil Solver_Model Solver_Proofs GaussElim_Model GaussElim_Spec.
Local Open Scope nat_scope.

Definition shape (n : nat) (m : list (list Qc)) : Prop := length m = n /\ forall i, i < n -> length (nth i m []) = n + 1.
Lemma augmented_shape m : augmented m <-> shape (length m) m.
Proof.
  split.
  - intros H. split; [reflexivity|]. intros i Hi. apply H, nth_In, Hi.
  - intros [_ H] r Hr. destruct (In_nth m r [] Hr) as (i & Hi & <-). apply H, Hi.
Qed.
Lemma mget_ok n m i j : shape n m -> i < n -> j <= n -> mget m i j = Ok (get m i j).
Proof. intros [H1 H2] Hi Hj. unfold mget. rewrite (idx_ok m i []) by lia. cbn [obind]. rewrite (idx_ok _ j 0%Qc) by (rewrite H2; lia). reflexivity. Qed.
Lemma mset_ok n m i j v : shape n m -> i < n -> j <= n ->
  exists m', mset m i j v = Ok m' /\ shape n m' /\ forall r c, get m' r c = if (r =? i) && (c =? j) then v else get m r c.
Proof.
  intros [H1 H2] Hi Hj. unfold mset. rewrite (idx_ok m i []) by lia. cbn [obind]. rewrite set_idx_ok by (rewrite H2; lia). cbn [obind]. rewrite set_idx_ok by lia.
  eexists. split; [reflexivity|]. split.
  - split; [rewrite upd_length; exact H1|]. intros r Hr. rewrite nth_upd. destruct ((r =? i) && (i <? length m)); [rewrite upd_length; apply H2, Hi|apply H2, Hr].
  - intros r c. unfold get. rewrite nth_upd. destruct (Nat.eqb_spec r i) as [->|]; cbn [andb]; [|reflexivity].
    destruct (Nat.ltb_spec i (length m)); [|lia]. rewrite nth_upd. rewrite H2 by exact Hi. destruct (Nat.eqb_spec c j); cbn [andb]; [|reflexivity].
    destruct (Nat.ltb_spec j (n + 1)); [reflexivity|lia].
Qed.

Lemma elim_row_ok n m i j : shape n m -> i < j -> j < n ->
  exists m', elim_row m i j = Ok m' /\ shape n m' /\
    forall r c, get m' r c = if (r =? j) && (i <=? c) && (c <=? n) then (get m j c - get m i c * (get m j i / get m i i))%Qc else get m r c.
Proof.
  intros Hs Hij Hj. unfold elim_row. rewrite !(mget_ok n) by (assumption || lia). cbn [obind]. set (sc := (get m j i / get m i i)%Qc).
  rewrite (idx_ok m i []) by (destruct Hs; lia). cbn [obind]. destruct Hs as [Hs1 Hs2]. rewrite Hs2 by lia.
  destruct (for_range_inv (fun k m' => shape n m' /\ forall r c, get m' r c = if (r =? j) && (i <=? c) && (c <? k) then (get m j c - get m i c * sc)%Qc else get m r c)
    (fun m k => do a <- mget m j k; do b <- mget m i k; mset m j k (a - b * sc)%Qc) i (n + 1) m) as (m' & E & Hm' & Hg).
  - lia.
  - split; [split; assumption|]. intros r c. destruct ((r =? j) && (i <=? c) && (c <? i)) eqn:E; [|reflexivity].
    apply andb_true_iff in E. destruct E as [E E2]. apply andb_true_iff in E. destruct E as [_ E1]. apply Nat.leb_le in E1. apply Nat.ltb_lt in E2. lia.
  - intros k m1 Hk [Hsh Hg]. rewrite !(mget_ok n) by (assumption || lia). cbn [obind].
    destruct (mset_ok n m1 j k (get m1 j k - get m1 i k * sc)%Qc) as (m2 & E2 & Hsh2 & Hg2); [exact Hsh|lia|lia|]. exists m2. split; [exact E2|]. split; [exact Hsh2|].
    intros r c. rewrite Hg2, !Hg, !Nat.eqb_refl. destruct (Nat.eqb_spec i j); [lia|].
    destruct (Nat.eqb_spec r j) as [->|]; cbn [andb]; [|reflexivity].
    destruct (Nat.eqb_spec c k) as [->|].
    + destruct (Nat.ltb_spec k k); [lia|]. destruct (Nat.leb_spec i k); [|lia]. destruct (Nat.ltb_spec k (S k)); [|lia]. cbn [andb]. reflexivity.
    + destruct (Nat.leb_spec i c); cbn [andb]; [|reflexivity]. destruct (Nat.ltb_spec c k), (Nat.ltb_spec c (S k)); try lia; reflexivity.
  - exists m'. split; [exact E|]. split; [exact Hm'|]. intros r c. rewrite Hg. destruct ((r =? j) && (i <=? c)); cbn [andb]; [|reflexivity].
    destruct (Nat.ltb_spec c (n + 1)), (Nat.leb_spec c n); try lia; reflexivity.
Qed.

(** one outer step: all rows below [i] *)
Lemma elim_col_ok n m i : shape n m -> i < n ->
  exists m', (do ri <- idx m i; for_ (range (i + 1) (length ri - 1)) (fun m j => elim_row m i j) m) = Ok m' /\ shape n m' /\
    forall r c, get m' r c = if (i <? r) && (r <? n) && (i <=? c) && (c <=? n) then (get m r c - get m i c * (get m r i / get m i i))%Qc else get m r c.
Proof.
  intros Hs Hi. rewrite (idx_ok m i []) by (destruct Hs; lia). cbn [obind]. replace (length (nth i m []) - 1) with n by (destruct Hs as [_ Hs]; rewrite Hs; lia).
  destruct (for_range_inv (fun j m' => shape n m' /\ forall r c, get m' r c = if (i <? r) && (r <? j) && (i <=? c) && (c <=? n) then (get m r c - get m i c * (get m r i / get m i i))%Qc else get m r c)
    (fun m j => elim_row m i j) (i + 1) n m) as (m' & E & H1 & H2).
  - lia.
  - split; [exact Hs|]. intros r c. destruct (Nat.ltb_spec i r), (Nat.ltb_spec r (i + 1)); try lia; reflexivity.
  - intros j m1 Hj [Hsh Hg]. destruct (elim_row_ok n m1 i j) as (m2 & E2 & Hsh2 & Hg2); [exact Hsh|lia|lia|]. exists m2. split; [exact E2|]. split; [exact Hsh2|].
    intros r c. rewrite Hg2, !Hg. destruct (Nat.ltb_spec i i); [lia|]. cbn [andb].
    destruct (Nat.eqb_spec r j) as [->|Hne]; cbn [andb].
    + destruct (Nat.ltb_spec j j); [lia|]. rewrite !andb_false_r. cbn [andb]. destruct (Nat.ltb_spec i j); [|lia]. destruct (Nat.ltb_spec j (S j)); [|lia]. cbn [andb]. reflexivity.
    + destruct (Nat.ltb_spec r j), (Nat.ltb_spec r (S j)); try lia; reflexivity.
  - exists m'. split; [exact E|]. split; [exact H1|]. intros r c. rewrite H2. reflexivity.
Qed.

Lemma eliminate_inv n (P : nat -> list (list Qc) -> Prop) m : shape n m -> P 0 m ->
  (forall i m m', i < n -> shape n m -> P i m -> shape n m' ->
     (forall r c, get m' r c = if (i <? r) && (r <? n) && (i <=? c) && (c <=? n) then (get m r c - get m i c * (get m r i / get m i i))%Qc else get m r c) -> P (S i) m') ->
  exists m', eliminate m = Ok m' /\ shape n m' /\ P n m'.
Proof.
  intros Hs H0 Hstep. unfold eliminate. destruct Hs as [Hl Hr]. rewrite Hl.
  destruct (for_range_inv (fun i m => shape n m /\ P i m) (fun m i => do ri <- idx m i; for_ (range (i + 1) (length ri - 1)) (fun m j => elim_row m i j) m) 0 n m) as (m' & E & H1 & H2).
  - lia.
  - split; [split; assumption|exact H0].
  - intros i m1 Hi [Hsh HP]. destruct (elim_col_ok n m1 i Hsh) as (m2 & E2 & Hsh2 & Hg2); [lia|]. exists m2. split; [exact E2|]. split; [exact Hsh2|].
    apply (Hstep i m1 m2); try assumption. lia.
  - exists m'. split; [exact E|]. split; assumption.
Qed.

Definition row (m : list (list Qc)) (n i : nat) (x : nat -> Qc) : Qc := qsum (fun j => get m i j * x j)%Qc (seq 0 n).
Definition satn (n : nat) (m : list (list Qc)) (x : nat -> Qc) : Prop := forall i, i < n -> row m n i x = get m i n.
Definition zeros (i : nat) (m : list (list Qc)) : Prop := forall r c, c < i -> c < r -> r < length m -> get m r c = 0%Qc.

Lemma qcdiv_cancel a b : b <> 0%Qc -> (b * (a / b) = a)%Qc.
Proof. intros H. field. exact H. Qed.

(** eliminating keeps the solutions and makes the matrix triangular, as long as the pivots met are not zero *)
Lemma eliminate_ok n m : shape n m ->
  exists m', eliminate m = Ok m' /\ shape n m' /\
    ((forall r, r < n -> get m' r r <> 0%Qc) -> zeros n m' /\ forall x, satn n m' x <-> satn n m x).
Proof.
  intros Hs.
  destruct (eliminate_inv n (fun i m' => (forall r, r < i -> get m' r r <> 0%Qc) -> zeros i m' /\ forall x, satn n m' x <-> satn n m x) m Hs) as (m' & E & Hs' & HP).
  - intros _. split; [intros r c Hc; lia|intros; reflexivity].
  - intros i m1 m2 Hi Hs1 HP Hs2 Hg Hpiv.
    assert (Hdiag : forall r, r < i + 1 -> get m2 r r = get m1 r r). { intros r Hr. rewrite Hg. destruct (Nat.ltb_spec i r); [lia|reflexivity]. }
    destruct HP as [HZ HS]. { intros r Hr. rewrite <- Hdiag by lia. apply Hpiv. lia. }
    assert (Hp : get m1 i i <> 0%Qc) by (rewrite <- Hdiag by lia; apply Hpiv; lia).
    assert (Hrow : forall r x, i < r < n -> row m2 n r x = (row m1 n r x - (get m1 r i / get m1 i i) * row m1 n i x)%Qc).
    { intros r x Hr. unfold row. rewrite <- qsum_scal, <- qsum_minus. apply qsum_ext. intros c Hc. apply in_seq in Hc. rewrite Hg.
      destruct (Nat.ltb_spec i r); [|lia]. destruct (Nat.ltb_spec r n); [|lia]. destruct (Nat.leb_spec c n); [|lia]. cbn [andb].
      destruct (Nat.leb_spec i c); cbn [andb]; [ring|]. rewrite (HZ i c) by (destruct Hs1; lia). ring. }
    assert (Hrhs : forall r, i < r < n -> get m2 r n = (get m1 r n - (get m1 r i / get m1 i i) * get m1 i n)%Qc).
    { intros r Hr. rewrite Hg. destruct (Nat.ltb_spec i r); [|lia]. destruct (Nat.ltb_spec r n); [|lia]. destruct (Nat.leb_spec n n); [|lia]. destruct (Nat.leb_spec i n); [|lia]. cbn [andb]. ring. }
    assert (Hsame : forall r c, r <= i -> get m2 r c = get m1 r c). { intros r c Hr. rewrite Hg. destruct (Nat.ltb_spec i r); [lia|reflexivity]. }
    assert (Hrow' : forall r x, r <= i -> row m2 n r x = row m1 n r x). { intros r x Hr. apply qsum_ext. intros c _. rewrite Hsame by exact Hr. reflexivity. }
    split.
    + intros r c Hc Hcr Hr. destruct Hs2 as [Hl2 _]. rewrite Hl2 in Hr. rewrite Hg. destruct Hs1 as [Hl1 _].
      destruct (Nat.leb_spec i c).
      * assert (c = i) by lia. subst c. destruct (Nat.ltb_spec i r); [|lia]. destruct (Nat.ltb_spec r n); [|lia]. destruct (Nat.leb_spec i n); [|lia]. cbn [andb].
        rewrite (qcdiv_cancel _ _ Hp). ring.
      * rewrite !andb_false_r. cbn [andb]. apply HZ; lia.
    + intros x. rewrite <- HS. split; intros H r Hr.
      * destruct (le_lt_dec r i) as [Hri|Hri]; [rewrite <- Hrow', <- Hsame by exact Hri; apply H, Hr|].
        assert (A := H r Hr). rewrite Hrow, Hrhs in A by lia. assert (B := H i Hi). rewrite Hrow', Hsame in B by lia. rewrite B in A.
        set (q := (get m1 r i / get m1 i i * get m1 i n)%Qc) in *. clearbody q. qclra.
      * destruct (le_lt_dec r i) as [Hri|Hri]; [rewrite Hrow', Hsame by exact Hri; apply H, Hr|].
        rewrite Hrow, Hrhs by lia. rewrite (H r Hr), (H i Hi). reflexivity.
  - exists m'. split; [exact E|]. split; [exact Hs'|]. exact HP.
Qed.

Lemma for_rev_inv {S} (P : nat -> S -> Prop) body n s : P n s ->
  (forall i s, i < n -> P (Datatypes.S i) s -> exists s', body s i = Ok s' /\ P i s') ->
  exists s', for_ (rev (range 0 n)) body s = Ok s' /\ P 0 s'.
Proof.
  unfold range. rewrite Nat.sub_0_r. revert s. induction n as [|n IH]; intros s H0 Hstep.
  - exists s. split; [reflexivity|exact H0].
  - rewrite seq_S, rev_app_distr, Nat.add_0_l. cbn [rev app for_]. destruct (Hstep n s) as (s1 & E1 & H1); [lia|exact H0|]. rewrite E1. cbn [obind].
    apply IH; [exact H1|]. intros i s' Hi HP. apply Hstep; [lia|exact HP].
Qed.

(** the part of the sum right of the diagonal *)
Definition tail_sum (m : list (list Qc)) (n i lo : nat) (x : nat -> Qc) : Qc := qsum (fun j => get m i j * x j)%Qc (seq lo (n - lo)).
Lemma row_split m n i x : i < n -> (forall c, c < i -> get m i c = 0%Qc) -> row m n i x = (get m i i * x i + tail_sum m n i (i + 1) x)%Qc.
Proof.
  intros Hi HZ. unfold row, tail_sum. replace n with (i + S (n - (i + 1))) at 1 by lia. rewrite seq_app, qsum_app. cbn [seq Nat.add]. rewrite qsum_cons.
  replace (S i) with (i + 1) by lia. rewrite (qsum_zero' _ (seq 0 i)); [ring|]. intros c Hc. apply in_seq in Hc. rewrite HZ by lia. ring.
Qed.

Definition fn (sol : list Qc) : nat -> Qc := fun j => nth j sol 0%Qc.
Lemma back_row_ok n m sol i : shape n m -> length sol = n -> i < n ->
  exists sol', back_row m sol i = Ok sol' /\ length sol' = n /\ (forall r, r <> i -> fn sol' r = fn sol r) /\
    fn sol' i = ((get m i n - tail_sum m n i (i + 1) (fn sol)) / get m i i)%Qc.
Proof.
  intros Hs Hl Hi. unfold back_row. destruct (Hs) as [Hm Hr]. rewrite (idx_ok m i []) by lia. cbn [obind].
  rewrite (idx_ok _ (length (nth i m []) - 1) 0%Qc) by (rewrite Hr; lia). cbn [obind]. replace (length (nth i m []) - 1) with n by (rewrite Hr; lia).
  change (nth n (nth i m []) 0%Qc) with (get m i n). rewrite set_idx_ok by lia. cbn [obind]. rewrite Hm.
  destruct (for_range_inv (fun k s => length s = n /\ (forall r, r <> i -> fn s r = fn sol r) /\ fn s i = (get m i n - qsum (fun j => get m i j * fn sol j)%Qc (seq (i + 1) (k - (i + 1))))%Qc)
    (fun sol j => do si <- idx sol i; do mij <- mget m i j; do sj <- idx sol j; set_idx sol i (si - mij * sj)%Qc) (i + 1) n (upd sol i (get m i n))) as (s & E & Hls & Ho & Hv).
  - lia.
  - split; [rewrite upd_length; exact Hl|]. split.
    + intros r Hne. unfold fn. rewrite nth_upd. destruct (Nat.eqb_spec r i); [contradiction|reflexivity].
    + unfold fn at 1. rewrite nth_upd, Nat.eqb_refl. destruct (Nat.ltb_spec i (length sol)); [|lia]. cbn [andb]. replace (i + 1 - (i + 1)) with 0 by lia. cbn. ring.
  - intros k s Hk (Hls & Ho & Hv). rewrite (idx_ok s i 0%Qc) by lia. cbn [obind]. rewrite (mget_ok n) by (assumption || lia). cbn [obind]. rewrite (idx_ok s k 0%Qc) by lia. cbn [obind].
    rewrite set_idx_ok by lia. eexists. split; [reflexivity|]. split; [rewrite upd_length; exact Hls|]. split.
    + intros r Hne. unfold fn. rewrite nth_upd. destruct (Nat.eqb_spec r i); [contradiction|]. cbn [andb]. apply Ho. exact Hne.
    + unfold fn at 1. rewrite nth_upd, Nat.eqb_refl. destruct (Nat.ltb_spec i (length s)); [|lia]. cbn [andb]. change (nth i s 0%Qc) with (fn s i). change (nth k s 0%Qc) with (fn s k). rewrite Hv, (Ho k) by lia.
      replace (S k - (i + 1)) with (S (k - (i + 1))) by lia. rewrite seq_S, qsum_app. cbn [qsum fold_right]. replace (i + 1 + (k - (i + 1))) with k by lia. ring.
  - rewrite E. cbn [obind]. rewrite (idx_ok s i 0%Qc) by lia. cbn [obind]. rewrite (mget_ok n) by (assumption || lia). cbn [obind]. rewrite set_idx_ok by lia. eexists. split; [reflexivity|].
    split; [rewrite upd_length; exact Hls|]. split.
    + intros r Hne. unfold fn. rewrite nth_upd. destruct (Nat.eqb_spec r i); [contradiction|]. cbn [andb]. apply Ho. exact Hne.
    + unfold fn at 1. rewrite nth_upd, Nat.eqb_refl. destruct (Nat.ltb_spec i (length s)); [|lia]. cbn [andb]. change (nth i s 0%Qc) with (fn s i). rewrite Hv. reflexivity.
Qed.

Lemma resize_length l n : length (resize l n) = n.
Proof. unfold resize. rewrite app_length, firstn_length, repeat_length. lia. Qed.

Lemma gauss_ok n m old : shape n m ->
  exists m' sol, gauss m old = Ok (m', sol) /\ shape n m' /\ eliminate m = Ok m' /\ length sol = n /\
    ((forall r, r < n -> get m' r r <> 0%Qc) -> satn n m (fn sol) /\ forall y, satn n m y -> forall r, r < n -> y r = fn sol r).
Proof.
  intros Hs. destruct (eliminate_ok n m Hs) as (m' & E & Hs' & HP). unfold gauss. rewrite E. cbn [obind]. destruct (Hs') as [Hl' _]. destruct (Hs) as [Hl _]. rewrite Hl', Hl.
  destruct (for_rev_inv (fun i s => length s = n /\ ((forall r, r < n -> get m' r r <> 0%Qc) -> (forall r, i <= r < n -> (get m' r r * fn s r + tail_sum m' n r (r + 1) (fn s) = get m' r n)%Qc)))
    (fun sol i => back_row m' sol i) n (resize old n)) as (sol & Es & Hls & Hsol).
  - split; [apply resize_length|]. intros; lia.
  - intros i s Hi (Hls & Hv). destruct (back_row_ok n m' s i Hs' Hls Hi) as (s' & Es & Hls' & Ho & Hi'). exists s'. split; [exact Es|]. split; [exact Hls'|].
    intros Hpiv r Hr. assert (T : forall r, i <= r -> tail_sum m' n r (r + 1) (fn s') = tail_sum m' n r (r + 1) (fn s)).
    { intros r' Hr'. apply qsum_ext. intros c Hc. apply in_seq in Hc. rewrite Ho by lia. reflexivity. }
    rewrite T by lia. destruct (Nat.eq_dec r i) as [->|Hne].
    + rewrite Hi'. rewrite (qcdiv_cancel _ _ (Hpiv i Hi)). ring.
    + rewrite Ho by exact Hne. apply Hv; [exact Hpiv|lia].
  - rewrite Es. cbn [obind]. exists m', sol. split; [reflexivity|]. split; [exact Hs'|]. split; [reflexivity|]. split; [exact Hls|].
    intros Hpiv. destruct (HP Hpiv) as [HZ HS]. specialize (Hsol Hpiv).
    assert (HZ' : forall r c, r < n -> c < r -> get m' r c = 0%Qc) by (intros r c Hr Hc; apply HZ; lia).
    split.
    + apply HS. intros r Hr. rewrite row_split by (auto). apply Hsol. lia.
    + intros y Hy. apply HS in Hy.
      assert (X : forall k r, n - r <= k -> r < n -> y r = fn sol r).
      { induction k as [|k IH]; intros r Hk Hr; [lia|].
        assert (A := Hy r Hr). rewrite row_split in A by auto. assert (B := Hsol r ltac:(lia)).
        assert (T : tail_sum m' n r (r + 1) y = tail_sum m' n r (r + 1) (fn sol)). { apply qsum_ext. intros c Hc. apply in_seq in Hc. rewrite (IH c) by lia. reflexivity. }
        rewrite T in A. assert (C : (get m' r r * y r = get m' r r * fn sol r)%Qc) by (set (u := (get m' r r * y r)%Qc) in *; set (v := (get m' r r * fn sol r)%Qc) in *; clearbody u v; qclra).
        rewrite <- (qcdiv_cancel (y r) (get m' r r) (Hpiv r Hr)), <- (qcdiv_cancel (fn sol r) (get m' r r) (Hpiv r Hr)).
        assert (N := Hpiv r Hr). transitivity ((get m' r r * y r) / get m' r r)%Qc; [field; exact N|]. rewrite C. field. exact N. }
      intros r Hr. apply (X (n - r)); lia.
Qed.

(* ------------------------------------------------------------------ absolute values *)
Lemma qabs_cases x : ((0 <= x)%Qc /\ qabs x = x) \/ ((x < 0)%Qc /\ qabs x = (- x)%Qc).
Proof. unfold qabs. destruct (qc_lt x 0%Qc) eqn:E; [apply qc_lt_spec in E; right; auto|apply qc_lt_false in E; left; auto]. Qed.
Lemma qabs_nonneg x : (0 <= qabs x)%Qc.
Proof. destruct (qabs_cases x) as [[H E]|[H E]]; rewrite E; qclra. Qed.
Lemma qabs_opp x : qabs (- x) = qabs x.
Proof. destruct (qabs_cases x) as [[H E]|[H E]], (qabs_cases (- x)) as [[H' E']|[H' E']]; rewrite E, E'; qclra. Qed.
Lemma qabs_tri a b : (qabs (a - b) <= qabs a + qabs b)%Qc.
Proof. destruct (qabs_cases a) as [[H E]|[H E]], (qabs_cases b) as [[H' E']|[H' E']], (qabs_cases (a - b)) as [[H'' E'']|[H'' E'']]; rewrite E, E', E''; qclra. Qed.
Lemma qabs_rev a b : (qabs a - qabs b <= qabs (a - b))%Qc.
Proof. destruct (qabs_cases a) as [[H E]|[H E]], (qabs_cases b) as [[H' E']|[H' E']], (qabs_cases (a - b)) as [[H'' E'']|[H'' E'']]; rewrite E, E', E''; qclra. Qed.
Lemma qabs_mult a b : qabs (a * b) = (qabs a * qabs b)%Qc.
Proof. destruct (qabs_cases a) as [[H E]|[H E]], (qabs_cases b) as [[H' E']|[H' E']], (qabs_cases (a * b)) as [[H'' E'']|[H'' E'']]; rewrite E, E', E''; try ring; qcnra. Qed.
Lemma qabs_0 : qabs 0%Qc = 0%Qc.
Proof. reflexivity. Qed.
Lemma qsum_le {A} (f g : A -> Qc) l : (forall x, In x l -> (f x <= g x)%Qc) -> (qsum f l <= qsum g l)%Qc.
Proof.
  induction l as [|x l IH]; intros H; [apply Qcle_refl|]. rewrite !qsum_cons.
  assert (A1 := H x (or_introl eq_refl)). assert (A2 : (qsum f l <= qsum g l)%Qc) by (apply IH; intros; apply H; right; assumption). qclra.
Qed.
(** taking one index out of a sum *)
Lemma qsum_out (f : nat -> Qc) l r : NoDup l -> In r l -> qsum f l = (f r + qsum (fun j => if Nat.eqb j r then 0 else f j) l)%Qc.
Proof.
  induction l as [|x l IH]; intros Hnd Hin; [destruct Hin|]. inversion Hnd as [|? ? Hx Hnd']; subst. rewrite !qsum_cons. destruct Hin as [->|Hin].
  - rewrite Nat.eqb_refl. rewrite (qsum_ext (fun j => if Nat.eqb j r then 0%Qc else f j) f l); [ring|]. intros j Hj. destruct (Nat.eqb_spec j r); [subst; contradiction|reflexivity].
  - destruct (Nat.eqb_spec x r) as [->|]; [contradiction|]. rewrite IH by assumption. ring.
Qed.

Definition off (m : list (list Qc)) (n i r : nat) : Qc := qsum (fun c => if Nat.eqb c r then 0%Qc else qabs (get m r c)) (seq i (n - i)).
Definition domi (n i : nat) (m : list (list Qc)) : Prop := forall r, i <= r < n -> (off m n i r < qabs (get m r r))%Qc.

Lemma dom_arith (pii q T rr ir U o new : Qc) :
  (pii * q + T < rr)%Qc -> (ir + U < pii)%Qc -> (o <= T + q * U)%Qc -> (rr - ir * q <= new)%Qc -> (0 <= q)%Qc -> (o < new)%Qc.
Proof. intros H1 H2 H3 H4 H5. assert (H6 : (q * (ir + U) <= q * pii)%Qc) by (clear - H2 H5; qcnra). clear H2. qc2q. lra. Qed.
Lemma dom_step n i m m' : i < n -> domi n i m ->
  (forall r c, get m' r c = if (i <? r) && (r <? n) && (i <=? c) && (c <=? n) then (get m r c - get m i c * (get m r i / get m i i))%Qc else get m r c) ->
  get m i i <> 0%Qc /\ domi n (S i) m'.
Proof.
  intros Hi Hd Hg. assert (Hii := Hd i ltac:(lia)).
  assert (Eseq : seq i (n - i) = i :: seq (S i) (n - S i)) by (replace (n - i) with (S (n - S i)) by lia; reflexivity).
  assert (Hoff : off m n i i = qsum (fun c => qabs (get m i c)) (seq (S i) (n - S i))).
  { unfold off. rewrite Eseq, qsum_cons, Nat.eqb_refl. rewrite (qsum_ext _ (fun c => qabs (get m i c)) (seq (S i) (n - S i))); [ring|].
    intros c Hc. apply in_seq in Hc. destruct (Nat.eqb_spec c i); [lia|reflexivity]. }
  assert (Hp : get m i i <> 0%Qc).
  { intros E. rewrite E, qabs_0, Hoff in Hii. assert (X := qsum_nonneg (fun c => qabs (get m i c)) (seq (S i) (n - S i)) (fun c _ => qabs_nonneg _)). qclra. }
  split; [exact Hp|]. intros r Hr. assert (Hrr := Hd r ltac:(lia)).
  set (q := (get m r i / get m i i)%Qc).
  assert (Eq : get m r i = (get m i i * q)%Qc) by (unfold q; symmetry; apply qcdiv_cancel, Hp).
  set (T := qsum (fun c => if Nat.eqb c r then 0%Qc else qabs (get m r c)) (seq (S i) (n - S i))).
  set (U := qsum (fun c => if Nat.eqb c r then 0%Qc else qabs (get m i c)) (seq (S i) (n - S i))).
  assert (HT : off m n i r = (qabs (get m r i) + T)%Qc). { unfold off. rewrite Eseq, qsum_cons. destruct (Nat.eqb_spec i r); [lia|reflexivity]. }
  assert (HU : off m n i i = (qabs (get m i r) + U)%Qc). { rewrite Hoff. exact (qsum_out (fun c => qabs (get m i c)) (seq (S i) (n - S i)) r (seq_NoDup _ _) ltac:(apply in_seq; lia)). }
  assert (Hnew : forall c, S i <= c < n -> get m' r c = (get m r c - get m i c * q)%Qc).
  { intros c Hc. rewrite Hg. destruct (Nat.ltb_spec i r); [|lia]. destruct (Nat.ltb_spec r n); [|lia]. destruct (Nat.leb_spec i c); [|lia]. destruct (Nat.leb_spec c n); [|lia]. reflexivity. }
  assert (Hle : (off m' n (S i) r <= T + qabs q * U)%Qc).
  { unfold off, T, U. rewrite <- qsum_scal, <- qsum_plus. apply qsum_le. intros c Hc. apply in_seq in Hc. destruct (Nat.eqb_spec c r); [qclra|].
    rewrite Hnew by lia. eapply Qcle_trans; [apply qabs_tri|]. rewrite qabs_mult. qclra. }
  assert (Hdg : (qabs (get m r r) - qabs (get m i r) * qabs q <= qabs (get m' r r))%Qc). { rewrite Hnew by lia. rewrite <- qabs_mult. apply qabs_rev. }
  rewrite HT in Hrr. rewrite HU in Hii. rewrite Eq, qabs_mult in Hrr.
  exact (dom_arith _ _ _ _ _ _ _ _ Hrr Hii Hle Hdg (qabs_nonneg q)).
Qed.

Lemma dominant_pivots n m m' : shape n m -> dominant m -> eliminate m = Ok m' -> forall r, r < n -> get m' r r <> 0%Qc.
Proof.
  intros Hs Hd E.
  destruct (eliminate_inv n (fun i m' => (forall r, r < i -> get m' r r <> 0%Qc) /\ domi n i m') m Hs) as (m2 & E2 & _ & H & _).
  - split; [intros; lia|]. intros r Hr. unfold off. rewrite Nat.sub_0_r. destruct Hs as [Hl _]. rewrite <- Hl. apply Hd. lia.
  - intros i m1 m2 Hi Hs1 [Hnz Hdm] Hs2 Hg. destruct (dom_step n i m1 m2 Hi Hdm Hg) as [Hp Hd2]. split; [|exact Hd2].
    intros r Hr. rewrite Hg. destruct (Nat.ltb_spec i r); [lia|]. cbn [andb]. destruct (Nat.eq_dec r i) as [->|]; [exact Hp|apply Hnz; lia].
  - rewrite E in E2. inversion E2; subst. exact H.
Qed.

(* ------------------------------------------------------------------ the lookup table *)
From Verif Require Import Solver_Sched.
Lemma qc_nat_le a b : a <= b <-> (qc_nat a <= qc_nat b)%Qc.
Proof. unfold qc_nat. rewrite Qcle_this, !this_Q2Qc, <- Zle_Qle. lia. Qed.
Lemma qc_nat_lt a b : a < b <-> (qc_nat a < qc_nat b)%Qc.
Proof. unfold qc_nat. rewrite Qclt_this, !this_Q2Qc, <- Zlt_Qlt. lia. Qed.
Lemma qfloor_spec u : (0 <= u)%Qc -> (qc_nat (qfloor u) <= u)%Qc /\ (u < qc_nat (S (qfloor u)))%Qc.
Proof.
  intros H. unfold qfloor, qc_nat. assert (P : (0 <= Qfloor u)%Z). { change 0%Z with (Qfloor 0). apply Qfloor_resp_le. exact H. }
  split.
  - rewrite Qcle_this, this_Q2Qc, Z2Nat.id by exact P. apply Qfloor_le.
  - rewrite Qclt_this, this_Q2Qc, Nat2Z.inj_succ, Z2Nat.id by exact P. apply Qlt_floor.
Qed.
Lemma qfloor_ge u k : (0 <= u)%Qc -> ((qc_nat k <= u)%Qc <-> k <= qfloor u).
Proof.
  intros H. destruct (qfloor_spec u H) as [H1 H2]. split; intros Hk.
  - apply Nat.lt_succ_r, qc_nat_lt. eapply Qcle_lt_trans; eassumption.
  - apply qc_nat_le in Hk. eapply Qcle_trans; eassumption.
Qed.
Lemma div_le a b s : (0 < s)%Qc -> ((a * s <= b)%Qc <-> (a <= b / s)%Qc).
Proof.
  intros Hs. assert (E : b = (b / s * s)%Qc) by (field; intros X; rewrite X in Hs; qclra). set (u := (b / s)%Qc) in *. clearbody u. subst b. split; intros H; qcnra.
Qed.
Lemma div_nonneg b s : (0 < s)%Qc -> (0 <= b)%Qc -> (0 <= b / s)%Qc.
Proof. intros Hs Hb. apply div_le; [exact Hs|]. qclra. Qed.

Section Table.
Variables (ex : Qc -> Qc) (step mx : Qc).
Hypothesis Hstep : (0 < step)%Qc.
Hypothesis Hmx : (0 <= mx)%Qc.
Definition tlast : nat := S (qfloor ((mx + step) / step)%Qc).
Definition entries (k : nat) : list Qc := map (fun j => ex (qc_nat j * step)%Qc) (seq k (S (tlast - k))).
Lemma tquot : (0 <= (mx + step) / step)%Qc.
Proof using Hstep Hmx. apply div_nonneg; [exact Hstep|]. qclra. Qed.
Lemma table_loop_ok : forall fuel k, k <= tlast -> tlast - k < fuel -> table_loop ex fuel step mx (qc_nat k * step)%Qc = Some (entries k).
Proof using Hstep Hmx.
  induction fuel as [|fuel IH]; intros k Hk Hf; [lia|]. cbn [table_loop].
  destruct (qc_lt (mx + step)%Qc (qc_nat k * step)%Qc) eqn:E.
  - apply qc_lt_spec in E. assert (k = tlast); [|subst k; unfold entries; rewrite Nat.sub_diag; reflexivity].
    destruct (Nat.eq_dec k tlast) as [H|H]; [exact H|exfalso]. assert (H' : k <= qfloor ((mx + step) / step)%Qc) by (unfold tlast in *; lia).
    apply (qfloor_ge _ _ tquot) in H'. apply (div_le _ _ _ Hstep) in H'. qclra.
  - apply qc_lt_false in E. assert (k < tlast). { apply (div_le _ _ _ Hstep), (qfloor_ge _ _ tquot) in E. unfold tlast. lia. }
    replace (qc_nat k * step + step)%Qc with (qc_nat (S k) * step)%Qc by (rewrite qc_nat_S; ring). rewrite IH by lia.
    unfold entries. replace (S (tlast - k)) with (S (S (tlast - S k))) by lia. reflexivity.
Qed.
Definition tab : list Qc := entries 0.
Lemma tab_length : length tab = tlast + 1.
Proof using. unfold tab, entries. rewrite map_length, seq_length. lia. Qed.
Lemma tab_nth k : k <= tlast -> nth k tab 0%Qc = ex (qc_nat k * step)%Qc.
Proof using. intros Hk. unfold tab, entries. rewrite (nth_map_seq (fun j => ex (qc_nat j * step)%Qc)) by lia. reflexivity. Qed.

Lemma get_distance_ok d : exists v, get_distance (mkAlg step mx tab) d = Ok v /\
  ((mx < qabs d)%Qc -> v = 0%Qc) /\
  ((qabs d <= mx)%Qc -> exists k fr, (qc_nat k * step <= qabs d)%Qc /\ (qabs d < qc_nat (S k) * step)%Qc /\ qabs d = ((qc_nat k + fr) * step)%Qc /\
     v = ((1 - fr) * ex (qc_nat k * step) + fr * ex (qc_nat (S k) * step))%Qc).
Proof using Hstep Hmx.
  unfold get_distance. cbn [a_max a_step a_table]. set (da := qabs d). assert (Hda : (0 <= da)%Qc) by apply qabs_nonneg.
  destruct (qc_lt mx da) eqn:E.
  - apply qc_lt_spec in E. eexists. split; [reflexivity|]. split; [reflexivity|]. intros H. qclra.
  - apply qc_lt_false in E. set (u := (da / step)%Qc). assert (Eu : da = (u * step)%Qc) by (unfold u; field; intros X; rewrite X in Hstep; qclra).
    assert (Hu : (0 <= u)%Qc) by (apply div_nonneg; assumption). destruct (qfloor_spec u Hu) as [F1 F2].
    assert (Hl : qfloor u + 1 < tlast + 1).
    { assert (X : (qc_nat (S (qfloor u)) <= (mx + step) / step)%Qc).
      { apply (div_le _ _ _ Hstep). rewrite qc_nat_S. rewrite Eu in E. clear - F1 E Hstep. set (f := qc_nat (qfloor u)) in *. clearbody f. qcnra. }
      apply (qfloor_ge _ _ tquot) in X. unfold tlast. lia. }
    rewrite !(idx_ok tab _ 0%Qc) by (rewrite tab_length; lia). cbn [obind]. rewrite !tab_nth by lia. eexists. split; [reflexivity|]. split; [intros H; qclra|].
    intros _. exists (qfloor u), (u - qc_nat (qfloor u))%Qc. replace (qfloor u + 1) with (S (qfloor u)) by lia. rewrite Eu.
    split; [clear - F1 Hstep; set (f := qc_nat (qfloor u)) in *; clearbody f; qcnra|]. split; [clear - F2 Hstep; set (f := qc_nat (S (qfloor u))) in *; clearbody f; qcnra|].
    split; ring.
Qed.
End Table.

Lemma table_step0 ex mx fuel x : (x <= mx)%Qc -> table_loop ex fuel 0%Qc mx x = None.
Proof.
  revert x; induction fuel as [|fuel IH]; intros x Hx; cbn [table_loop]; [reflexivity|].
  destruct (qc_lt (mx + 0)%Qc x) eqn:E; [apply qc_lt_spec in E; qclra|]. rewrite IH; [reflexivity|qclra].
Qed.

(* ------------------------------------------------------------------ the matrix *)
Lemma traverse_ok {A B} (f : A -> outcome B) (g : A -> B) l : (forall a, In a l -> f a = Ok (g a)) -> traverse f l = Ok (map g l).
Proof. induction l as [|a l IH]; intros H; cbn [traverse map]; [reflexivity|]. rewrite (H a) by (left; reflexivity). cbn [obind]. rewrite IH; [reflexivity|]. intros; apply H; right; assumption. Qed.
Lemma fill_ok a eps means sigmas heights G : length sigmas = length means -> length heights = length means ->
  (forall i j, i < length means -> j < length means -> element a eps means sigmas i j = Ok (G i j)) ->
  exists m, fill_matrix a eps means sigmas heights = Ok m /\ shape (length means) m /\
    (forall i j, i < length means -> j < length means -> get m i j = G i j) /\ (forall i, i < length means -> get m i (length means) = nth i heights 0%Qc).
Proof.
  intros Hs Hh HG. set (n := length means) in *.
  exists (map (fun i => map (G i) (seq 0 n) ++ [nth i heights 0%Qc]) (seq 0 n)). split.
  - unfold fill_matrix. fold n. apply traverse_ok. intros i Hi. apply in_seq in Hi.
    rewrite (traverse_ok _ (G i)) by (intros j Hj; apply in_seq in Hj; apply HG; lia). cbn [obind]. rewrite (idx_ok heights i 0%Qc) by lia. reflexivity.
  - split; [|split].
    + split; [rewrite map_length, seq_length; reflexivity|]. intros i Hi. rewrite nth_map_seq by exact Hi. rewrite app_length, map_length, seq_length. reflexivity.
    + intros i j Hi Hj. unfold get. rewrite nth_map_seq by exact Hi. rewrite app_nth1 by (rewrite map_length, seq_length; exact Hj). apply nth_map_seq. exact Hj.
    + intros i Hi. unfold get. rewrite nth_map_seq by exact Hi. rewrite app_nth2 by (rewrite map_length, seq_length; lia). rewrite map_length, seq_length, Nat.sub_diag. reflexivity.
Qed.
