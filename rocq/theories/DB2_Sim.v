(** Proofs about the distance matrices and the neighbours of a point. *)
From Coq Require Import QArith Qcanon Qround Lqa.
From Verif Require Import Base QcUtil Solver_Model Solver_Proofs SPS_Model CMergeBK_Hist EMS_Orient DB2_Model DB2_Spec DB2_FN.
Import DB2_Model DB2_Spec. Local Open Scope nat_scope.

(* ---------------------------------------------------------------- the matrices *)

Definition g (m : matrix) (i j : nat) : Qc := nth j (nth i m []) (Q2Qc 0).
Definition square (n : nat) (m : matrix) : Prop := length m = n /\ forall i, i < n -> length (nth i m []) = n.
Lemma mget_ok n m i j : square n m -> i < n -> j < n -> mget m i j = Ok (g m i j).
Proof. intros [L R] Hi Hj. unfold mget. rewrite (idx_ok m i []) by lia. cbn [obind]. rewrite (idx_ok _ j (Q2Qc 0)) by (rewrite R; assumption). reflexivity. Qed.
Lemma mput_ok n m i j v : square n m -> i < n -> j < n ->
  exists m', mput m i j v = Ok m' /\ square n m' /\ forall a b, g m' a b = if (a =? i) && (b =? j) then v else g m a b.
Proof.
  intros [L R] Hi Hj. unfold mput. rewrite (idx_ok m i []) by lia. cbn [obind]. rewrite set_idx_ok by (rewrite R; assumption). cbn [obind]. rewrite set_idx_ok by lia.
  eexists. split; [reflexivity|]. split.
  - split; [rewrite upd_length; exact L|]. intros a Ha. rewrite nth_upd. destruct (Nat.eqb_spec a i) as [->|]; cbn [andb]; [|apply R, Ha]. destruct (Nat.ltb_spec i (length m)); [rewrite upd_length; apply R, Ha|lia].
  - intros a b. unfold g. rewrite nth_upd. destruct (Nat.eqb_spec a i) as [->|]; cbn [andb]; [|reflexivity]. destruct (Nat.ltb_spec i (length m)); [|lia]. rewrite nth_upd. destruct (Nat.eqb_spec b j) as [->|]; cbn [andb]; [|reflexivity]. destruct (Nat.ltb_spec j (length (nth i m []))) as [|X]; [reflexivity|]. rewrite R in X by exact Hi. lia.
Qed.
Definition entry (f : pt -> pt -> Qc) (ps : list pt) (i j : nat) : Qc :=
  if i <? j then f (nth i ps pt0) (nth j ps pt0) else if j <? i then f (nth j ps pt0) (nth i ps pt0) else Q2Qc 0.
Definition upto (f : pt -> pt -> Qc) (ps : list pt) (i j a b : nat) : Qc :=
  if (Nat.min a b <? i) || ((Nat.min a b =? i) && (Nat.max a b <? j)) then entry f ps a b else Q2Qc 0.
Lemma compute_ok f ps : exists m, compute f ps = Ok m /\ square (length ps) m /\ forall i j, i < length ps -> j < length ps -> g m i j = entry f ps i j.
Proof.
  unfold compute. set (n := length ps).
  destruct (for_seq_inv (fun i (m : matrix) => square n m /\ forall a b, a < n -> b < n -> g m a b = upto f ps i 0 a b)
    (fun m i => for_ (range (S i) n) (fun m j =>
      do a <- idx ps i; do b <- idx ps j;
      do m <- mput m i j (f a b); mput m j i (f a b)) m) 0 n (repeat (repeat (Q2Qc 0) n) n)) as (m & E & Sq & H).
  - split.
    + split; [apply repeat_length|]. intros i Hi. rewrite (nth_indep _ [] (repeat (Q2Qc 0) n)) by (rewrite repeat_length; exact Hi). rewrite nth_repeat. apply repeat_length.
    + intros a b Ha Hb. unfold g, upto. rewrite (nth_indep _ [] (repeat (Q2Qc 0) n)) by (rewrite repeat_length; exact Ha). rewrite !nth_repeat. destruct (Nat.ltb_spec (Nat.min a b) 0); [lia|]. destruct (Nat.ltb_spec (Nat.max a b) 0); [lia|]. rewrite Bool.andb_false_r. reflexivity.
  - intros i m [_ Hi] [Sq H]. cbn in Hi.
    destruct (for_range_inv (fun j (m : matrix) => square n m /\ forall a b, a < n -> b < n -> g m a b = upto f ps i j a b)
      (fun m j => do a <- idx ps i; do b <- idx ps j; do m <- mput m i j (f a b); mput m j i (f a b)) (S i) n m) as (m' & E & Sq' & H').
    + lia.
    + split; [exact Sq|]. intros a b Ha Hb. rewrite (H a b Ha Hb). unfold upto. destruct (Nat.ltb_spec (Nat.min a b) i); cbn [orb]; [reflexivity|].
      destruct (Nat.ltb_spec (Nat.max a b) 0); [lia|]. destruct (Nat.eqb_spec (Nat.min a b) i); cbn [andb]; [|reflexivity]. destruct (Nat.ltb_spec (Nat.max a b) (S i)); [|reflexivity]. unfold entry. destruct (Nat.ltb_spec a b); [lia|]. destruct (Nat.ltb_spec b a); [lia|reflexivity].
    + intros j m1 [J1 J2] [Sq1 H1]. rewrite (idx_ok ps i pt0) by (fold n; lia). cbn [obind]. rewrite (idx_ok ps j pt0) by (fold n; lia). cbn [obind].
      destruct (mput_ok n m1 i j (f (nth i ps pt0) (nth j ps pt0)) Sq1 Hi J2) as (m2 & E2 & Sq2 & H2). rewrite E2. cbn [obind].
      destruct (mput_ok n m2 j i (f (nth i ps pt0) (nth j ps pt0)) Sq2 J2 Hi) as (m3 & E3 & Sq3 & H3). rewrite E3. exists m3. split; [reflexivity|]. split; [exact Sq3|].
      intros a b Ha Hb. rewrite H3, H2, (H1 a b Ha Hb). unfold upto, entry.
      destruct (Nat.eqb_spec a j) as [->|Da]; destruct (Nat.eqb_spec b i) as [->|Db]; cbn [andb].
      * destruct (Nat.ltb_spec (Nat.min j i) i); [lia|]. destruct (Nat.eqb_spec (Nat.min j i) i); [|lia]. destruct (Nat.ltb_spec (Nat.max j i) (S j)); [|lia]. cbn [orb andb]. destruct (Nat.ltb_spec j i); [lia|]. destruct (Nat.ltb_spec i j); [reflexivity|lia].
      * destruct (Nat.eqb_spec j i); [lia|]. cbn [andb]. destruct (Nat.ltb_spec (Nat.min j b) i); cbn [orb]; [reflexivity|]. destruct (Nat.eqb_spec (Nat.min j b) i); cbn [andb]; [lia|reflexivity].
      * destruct (Nat.eqb_spec a i) as [->|Di]; cbn [andb].
        -- destruct (Nat.eqb_spec i j); [lia|]. cbn [andb]. destruct (Nat.ltb_spec (Nat.min i i) i); [lia|]. destruct (Nat.eqb_spec (Nat.min i i) i); [|lia]. cbn [orb andb]. destruct (Nat.ltb_spec (Nat.max i i) j); [|lia]. destruct (Nat.ltb_spec (Nat.max i i) (S j)); [reflexivity|lia].
        -- destruct (Nat.ltb_spec (Nat.min a i) i); cbn [orb]; [reflexivity|]. destruct (Nat.eqb_spec (Nat.min a i) i); cbn [andb]; [|reflexivity]. destruct (Nat.ltb_spec (Nat.max a i) j); destruct (Nat.ltb_spec (Nat.max a i) (S j)); try reflexivity; lia.
      * destruct (Nat.eqb_spec a i) as [->|Di]; cbn [andb].
        -- destruct (Nat.eqb_spec b j) as [->|Dj].
           ++ destruct (Nat.ltb_spec (Nat.min i j) i); [lia|]. destruct (Nat.eqb_spec (Nat.min i j) i); [|lia]. destruct (Nat.ltb_spec (Nat.max i j) (S j)); [|lia]. cbn [orb andb]. destruct (Nat.ltb_spec i j); [reflexivity|lia].
           ++ destruct (Nat.ltb_spec (Nat.min i b) i); cbn [orb]; [reflexivity|]. destruct (Nat.eqb_spec (Nat.min i b) i); cbn [andb]; [|reflexivity]. destruct (Nat.ltb_spec (Nat.max i b) j); destruct (Nat.ltb_spec (Nat.max i b) (S j)); try reflexivity; lia.
        -- destruct (Nat.ltb_spec (Nat.min a b) i); cbn [orb]; [reflexivity|]. destruct (Nat.eqb_spec (Nat.min a b) i); cbn [andb]; [|reflexivity]. lia.
    + exists m'. split; [exact E|]. split; [exact Sq'|]. intros a b Ha Hb. rewrite (H' a b Ha Hb). unfold upto.
      destruct (Nat.ltb_spec (Nat.max a b) 0); [lia|]. destruct (Nat.ltb_spec (Nat.max a b) n); [|lia]. rewrite Bool.andb_false_r, Bool.andb_true_r, Bool.orb_false_r.
      destruct (Nat.ltb_spec (Nat.min a b) i); destruct (Nat.ltb_spec (Nat.min a b) (S i)); destruct (Nat.eqb_spec (Nat.min a b) i); try reflexivity; lia.
  - exists m. split; [exact E|]. split; [exact Sq|]. intros i j Hi Hj. rewrite (H i j Hi Hj). unfold upto. destruct (Nat.ltb_spec (Nat.min i j) (0 + n)); [reflexivity|lia].
Qed.

Definition test (s1 s2 s3 : matrix) (eps eps2 : Qc) (i j : nat) : bool :=
  qc_lt (g s1 i j / (eps * eps) + g s2 i j / (eps2 * eps2 * g s3 i j))%Qc (Q2Qc 1).
Lemma filter_snoc {A} (f : A -> bool) l x : filter f (l ++ [x]) = filter f l ++ (if f x then [x] else []).
Proof. rewrite filter_app. cbn. destruct (f x); reflexivity. Qed.
Lemma neighbours_ok n s1 s2 s3 eps eps2 pid : square n s1 -> square n s2 -> square n s3 -> pid < n ->
  find_neighbours s1 s2 s3 eps eps2 pid = Ok (filter (fun j => negb (pid =? j) && test s1 s2 s3 eps eps2 pid j) (seq 0 n)).
Proof.
  intros Q1 Q2 Q3 Hp. unfold find_neighbours. rewrite (proj1 Q1).
  destruct (for_seq_inv (fun k (ne : list nat) => ne = filter (fun j => negb (pid =? j) && test s1 s2 s3 eps eps2 pid j) (seq 0 k))
    (fun ne j => if pid =? j then Ok ne
    else do a <- mget s1 pid j; do b <- mget s2 pid j; do w <- mget s3 pid j;
         if qc_lt (a / (eps * eps) + b / (eps2 * eps2 * w))%Qc (Q2Qc 1) then Ok (ne ++ [j]) else Ok ne) 0 n []) as (ne & E & H).
  - reflexivity.
  - intros j ne [_ Hj] ->. cbn in Hj. rewrite seq_S, filter_snoc. cbn [plus]. destruct (pid =? j); cbn [negb andb]; [exists (filter (fun j0 => negb (pid =? j0) && test s1 s2 s3 eps eps2 pid j0) (seq 0 j)); split; [reflexivity|symmetry; apply app_nil_r]|].
    rewrite (mget_ok n s1), (mget_ok n s2), (mget_ok n s3) by assumption. cbn [obind]. fold (test s1 s2 s3 eps eps2 pid j).
    destruct (test s1 s2 s3 eps eps2 pid j); eexists; (split; [reflexivity|]); [reflexivity|symmetry; apply app_nil_r].
  - rewrite E, H. reflexivity.
Qed.

(* ---------------------------------------------------------------- the ellipse *)

Lemma absq_eq x : qabs x = absq x.
Proof. unfold qabs, absq, qc_lt. destruct (Qclt_le_dec x (Q2Qc 0)); reflexivity. Qed.
Lemma absq_opp x y : absq (x - y) = absq (y - x).
Proof. unfold absq. destruct (Qclt_le_dec (x - y) (Q2Qc 0)); destruct (Qclt_le_dec (y - x) (Q2Qc 0)); try ring; [exfalso; qclra|]. assert (E : x = y) by (apply Qcle_antisym; qclra). subst. ring. Qed.
Lemma widen_eq ex a b : width_factor ex a b = widen ex a b.
Proof.
  unfold width_factor, widen, qc_lt. cbv zeta. generalize (ex (Q2Qc (46 # 10) * (pw a * pw a + pw b * pw b)) * Q2Qc (1 # 10))%Qc. intros v.
  destruct (Qclt_le_dec (Q2Qc 1) v); destruct (Qclt_le_dec v (Q2Qc 1)); destruct (Qclt_le_dec v (Q2Qc (625 # 100))); destruct (Qclt_le_dec (Q2Qc (625 # 100)) v); try reflexivity; try (exfalso; qclra); apply Qcle_antisym; qclra.
Qed.
Lemma widen_sym ex a b : widen ex a b = widen ex b a.
Proof. unfold widen. rewrite (Qcplus_comm (pw a * pw a)). reflexivity. Qed.
Lemma widen_pos ex a b : (Q2Qc 0 < widen ex a b)%Qc.
Proof. unfold widen. cbv zeta. generalize (ex (Q2Qc (46 # 10) * (pw a * pw a + pw b * pw b)) * Q2Qc (1 # 10))%Qc. intros v. destruct (Qclt_le_dec v (Q2Qc 1)); [reflexivity|]. destruct (Qclt_le_dec (Q2Qc (625 # 100)) v); [reflexivity|qclra]. Qed.
Lemma QcUtil_inv y : (Q2Qc 0 < y)%Qc -> (Q2Qc 0 < / y)%Qc.
Proof.
  intros Y. assert (M : (y * / y = Q2Qc 1)%Qc) by (apply Qcmult_inv_r; intros X; subst; exact (Qclt_not_eq _ _ Y eq_refl)).
  destruct (Qclt_le_dec (Q2Qc 0) (/ y)) as [H|H]; [exact H|exfalso]. generalize dependent (/ y)%Qc. intros z M H. assert (X : (y * z <= 0)%Qc) by (clear M; qcnra). rewrite M in X. exact (X eq_refl).
Qed.
Lemma QcUtil_inv_le y : (Q2Qc 0 <= y)%Qc -> (Q2Qc 0 <= / y)%Qc.
Proof. intros Y. destruct (Qcle_lt_or_eq _ _ Y) as [L|L]; [apply Qclt_le_weak, QcUtil_inv, L|]. rewrite <- L. discriminate. Qed.
Lemma div_nonneg x y : (Q2Qc 0 <= x -> Q2Qc 0 < y -> Q2Qc 0 <= x / y)%Qc.
Proof. intros X Y. assert (I : (Q2Qc 0 < / y)%Qc) by (apply QcUtil_inv; exact Y). unfold Qcdiv. generalize dependent (/ y)%Qc. intros. qcnra. Qed.
Lemma wire_of_eq pitch x : (Q2Qc 0 < pitch)%Qc -> (Q2Qc 0 <= x)%Qc -> wire_of pitch x = Z.to_nat (nwire pitch x).
Proof. intros P X. unfold wire_of, nwire. rewrite trunc_floor; [reflexivity|]. pose proof (div_nonneg x pitch X P) as D. revert D. generalize (x / pitch)%Qc. intros d D. qclra. Qed.
Lemma to_bridge_eq bad pitch a b : (Q2Qc 0 < pitch)%Qc -> (Q2Qc 0 <= px a)%Qc -> (Q2Qc 0 <= px b)%Qc -> to_bridge bad pitch a b = dead (fun w => existsb (Nat.eqb w) bad) pitch a b.
Proof.
  intros P A B. unfold to_bridge, dead, range. rewrite (wire_of_eq pitch (px a) P A), (wire_of_eq pitch (px b) P B). generalize (nwire pitch (px a)) (nwire pitch (px b)). intros u v.
  destruct (Nat.ltb_spec (Z.to_nat v) (Z.to_nat u)).
  - rewrite Z.min_r, Z.max_l by lia. reflexivity.
  - destruct (Z.le_gt_cases u v); [rewrite Z.min_l, Z.max_r by lia; reflexivity|]. rewrite Z.min_r, Z.max_l by lia. replace (Z.to_nat u) with (Z.to_nat v) by lia. reflexivity.
Qed.
Lemma dead_sym d pitch a b : dead d pitch a b = dead d pitch b a.
Proof. unfold dead. rewrite Z.min_comm, Z.max_comm. reflexivity. Qed.
Lemma inv_opp y : y <> Q2Qc 0 -> (/ - y = - / y)%Qc.
Proof. intros H. field. split; [exact H|]. intros X. apply H. rewrite <- (Qcopp_involutive y), X. reflexivity. Qed.
Lemma absq_div x y : absq (x / y) = (absq x / absq y)%Qc.
Proof.
  unfold absq. destruct (Qclt_le_dec y (Q2Qc 0)) as [Y|Y].
  - assert (N : y <> Q2Qc 0) by (intros W; subst y; exact (Qclt_not_eq _ _ Y eq_refl)). assert (I : (/ y < Q2Qc 0)%Qc). { assert (E : (/ y = - / (- y))%Qc) by (rewrite (inv_opp y N), Qcopp_involutive; reflexivity). rewrite E. assert (0 < / - y)%Qc by (apply QcUtil_inv; qclra). qclra. }
    unfold Qcdiv. destruct (Qclt_le_dec x (Q2Qc 0)) as [X|X]; destruct (Qclt_le_dec (x * / y) (Q2Qc 0)) as [Z|Z].
    + exfalso. assert (0 < x * / y)%Qc by (generalize dependent (/ y)%Qc; intros; qcnra). qclra.
    + rewrite (inv_opp y N). ring.
    + rewrite (inv_opp y N). ring.
    + assert (x * / y <= 0)%Qc by (clear Z; generalize dependent (/ y)%Qc; intros; qcnra). assert (E : (x * / y = Q2Qc 0)%Qc) by (apply Qcle_antisym; assumption). replace (x * / - y)%Qc with (- (x * / y))%Qc by (rewrite (inv_opp y N); ring). rewrite E. reflexivity.
  - assert (I : (Q2Qc 0 <= / y)%Qc). { apply QcUtil_inv_le. exact Y. }
    unfold Qcdiv. destruct (Qclt_le_dec x (Q2Qc 0)) as [X|X]; destruct (Qclt_le_dec (x * / y) (Q2Qc 0)) as [Z|Z]; try ring.
    + assert (x * / y <= 0)%Qc by (clear Z; generalize dependent (/ y)%Qc; intros; qcnra). assert (E : (x * / y = Q2Qc 0)%Qc) by (apply Qcle_antisym; assumption). replace (- x * / y)%Qc with (- (x * / y))%Qc by ring. rewrite E. reflexivity.
    + exfalso. assert (0 <= x * / y)%Qc by (clear Z; generalize dependent (/ y)%Qc; intros; qcnra). qclra.
Qed.
Lemma ellipse_test A B e e2 w : (Q2Qc 0 < e -> Q2Qc 0 < e2 -> Q2Qc 0 < w ->
  (qc_lt (A / (e * e) + B / (e2 * e2 * w)) (Q2Qc 1) = true <-> A * (e2 * e2 * w) + B * (e * e) < e * e * (e2 * e2 * w)))%Qc.
Proof.
  intros He He2 Hw. rewrite qc_lt_spec.
  assert (P1 : (0 < e * e)%Qc) by qcnra. assert (P2' : (0 < e2 * e2)%Qc) by qcnra. assert (P2 : (0 < e2 * e2 * w)%Qc) by (generalize dependent (e2 * e2)%Qc; intros; qcnra).
  revert P1 P2. generalize (e * e)%Qc (e2 * e2 * w)%Qc. clear. intros p q P Q.
  assert (E : (A * q + B * p = (A / p + B / q) * (p * q))%Qc) by (field; split; intros X; subst; discriminate).
  rewrite E. generalize (A / p + B / q)%Qc. intros t. assert (0 < p * q)%Qc by qcnra. generalize dependent (p * q)%Qc. intros. split; intros; qcnra.
Qed.
Lemma ellipse_sym d pitch eps eps2 ex a b : in_ellipse d pitch eps eps2 ex a b -> in_ellipse d pitch eps eps2 ex b a.
Proof. unfold in_ellipse. rewrite (absq_opp (px a)), (absq_opp (py a)), (dead_sym d pitch b a), (widen_sym ex b a). auto. Qed.

Section N.
Variables (bad : list nat) (pitch eps eps2 : Qc) (ex : Qc -> Qc) (ps : list pt).
Hypothesis Hpitch : (Q2Qc 0 < pitch)%Qc.
Hypothesis Heps : (Q2Qc 0 < eps)%Qc.
Hypothesis Heps2 : (Q2Qc 0 < eps2)%Qc.
Hypothesis Hpx : forall a, In a ps -> (Q2Qc 0 <= px a)%Qc.
Notation near := (near_pts (fun w => existsb (Nat.eqb w) bad) pitch eps eps2 ex ps).

Lemma near_sym i j : near i j -> near j i.
Proof. intros (a & b & A & B & D & E). exists b, a. split; [exact B|]. split; [exact A|]. split; [congruence|apply ellipse_sym, E]. Qed.
Lemma pair_test a b : In a ps -> In b ps ->
  (qc_lt (similarity bad pitch a b / (eps * eps) + similarity2 bad pitch a b / (eps2 * eps2 * width_factor ex a b))%Qc (Q2Qc 1) = true <->
   in_ellipse (fun w => existsb (Nat.eqb w) bad) pitch eps eps2 ex a b).
Proof.
  intros A B. rewrite widen_eq, ellipse_test by (assumption || apply widen_pos). unfold in_ellipse, similarity, similarity2. cbv zeta. rewrite to_bridge_eq by auto. unfold qc_nat. rewrite !absq_eq, absq_div. unfold qc_lt.
  destruct (Qclt_le_dec (Q2Qc (1 # 10000000000)) (absq (px b - px a))); reflexivity.
Qed.
Lemma neighbours_spec : exists (nbl : nat -> list nat) (s1 s2 s3 : matrix),
  compute (similarity bad pitch) ps = Ok s1 /\ compute (similarity2 bad pitch) ps = Ok s2 /\ compute (width_factor ex) ps = Ok s3 /\ (forall i, i < length ps -> find_neighbours s1 s2 s3 eps eps2 i = Ok (nbl i)) /\ (forall i, i < length ps -> StronglySorted lt (nbl i)) /\ (forall i j, i < length ps -> In j (nbl i) <-> j < length ps /\ near i j).
Proof.
  destruct (compute_ok (similarity bad pitch) ps) as (s1 & E1 & Q1 & H1). destruct (compute_ok (similarity2 bad pitch) ps) as (s2 & E2 & Q2 & H2). destruct (compute_ok (width_factor ex) ps) as (s3 & E3 & Q3 & H3).
  exists (fun i => filter (fun j => negb (i =? j) && test s1 s2 s3 eps eps2 i j) (seq 0 (length ps))), s1, s2, s3.
  split; [exact E1|]. split; [exact E2|]. split; [exact E3|]. split; [intros i Hi; apply neighbours_ok; assumption|].
  split; [intros i Hi; apply CMergeBK_Hist.sorted_filter_seq|].
  intros i j Hi. rewrite filter_In, in_seq, Bool.andb_true_iff, Bool.negb_true_iff, Nat.eqb_neq.
  assert (T : i <> j -> j < length ps -> (test s1 s2 s3 eps eps2 i j = true <-> in_ellipse (fun w => existsb (Nat.eqb w) bad) pitch eps eps2 ex (nth i ps pt0) (nth j ps pt0))).
  { intros D Hj. unfold test. rewrite (H1 i j Hi Hj), (H2 i j Hi Hj), (H3 i j Hi Hj). unfold entry. destruct (Nat.ltb_spec i j).
    - apply pair_test; apply nth_In; assumption.
    - destruct (Nat.ltb_spec j i); [|lia]. rewrite pair_test by (apply nth_In; assumption). split; apply ellipse_sym. }
  split.
  - intros ((_ & Hj) & D & X). split; [exact Hj|]. exists (nth i ps pt0), (nth j ps pt0). split; [apply nth_error_nth'; exact Hi|]. split; [apply nth_error_nth'; exact Hj|]. split; [exact D|]. apply T; assumption.
  - intros (Hj & a & b & A & B & D & E). split; [lia|]. split; [exact D|]. apply T; [exact D|exact Hj|]. rewrite (nth_error_nth ps i pt0 A), (nth_error_nth ps j pt0 B). exact E.
Qed.
End N.
