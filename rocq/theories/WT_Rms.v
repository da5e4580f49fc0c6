(** Model of WaveformTools_tool.cc getTruncatedMeanRMS, and C59 *)
From Coq Require Import QArith Qround Qcanon Lqa.
From Verif Require Import Base Util QcUtil SortUtil Solver_Model Solver_Proofs Solver_Sched CMgr_Proofs WT_Model WT_Spec WT_Morph WT_Props WT_Smooth.
Local Open Scope nat_scope.

(** std::round: to the nearest integer, half away from zero *)
Definition round (q : Qc) : Z := if qc_lt q 0 then Z.opp (Qfloor (Qplus (this (- q)%Qc) (1 # 2))) else Qfloor (Qplus (this q) (1 # 2)).
(** std::map<int,int> as a function, with the number of its keys *)
Definition hist : Type := list (Z * Z).
Fixpoint incr (m : hist) (k : Z) : hist := match m with [] => [(k, 1%Z)] | (a, c) :: m' => if Z.eqb a k then (a, c + 1)%Z :: m' else (a, c) :: incr m' k end.
Fixpoint look (m : hist) (k : Z) : option Z := match m with [] => None | (a, c) :: m' => if Z.eqb a k then Some c else look m' k end.
(** WaveformTools_tool.cc:291-300: (frequencyMap, mpCount, mpVal); ints do not overflow *)
Definition count_step (st : hist * Z * Z) (val : Qc) : hist * Z * Z :=
  match st with (m, cnt, mp) =>
    let k := round (Q2Qc 4 * val)%Qc in
    let m' := incr m k in
    match look m' k with Some c => if (cnt <? c)%Z then (m', c, k) else (m', cnt, mp) | None => (m', cnt, mp) end
  end.
(** WaveformTools_tool.cc:305: binRange *)
Definition bin_range (m : hist) : Z := Z.min 16 (Z.of_nat (length m / 2 + 1)).
(** WaveformTools_tool.cc:307-314 *)
Definition mean_step (m : hist) (cnt mp : Z) (st : Z * Z) (idx : Z) : Z * Z :=
  match look m (mp + idx)%Z with Some c => if (cnt <? 5 * c)%Z then (fst st + (mp + idx) * c, snd st + c)%Z else st | None => st end.
Definition zrange (r : Z) : list Z := map (fun k => (Z.of_nat k - r)%Z) (seq 0 (Z.to_nat (2 * r + 1))).
Local Open Scope Qc_scope.
Definition qz (z : Z) : Qc := Q2Qc (inject_Z z).
Definition less_abs (a b : Qc) : bool := qc_lt (fabs a) (fabs b).
Definition qmax0 (q : Qc) : Qc := if qc_lt 0 q then q else 0.
(** WaveformTools_tool.cc:277-342: (mean, rmsFull, rmsTrunc, nTrunc); [Undef] stands for not-a-number results (no samples);
    [srt] is std::sort with the absolute value, [sq] std::sqrt *)
Definition truncated_mean_rms (srt : list Qc -> list Qc) (sq : Qc -> Qc) (w : list Qc) : outcome (Qc * Qc * Qc * nat) :=
  match fold_left count_step w ([], 0%Z, 0%Z) with (m, cnt, mp) =>
    let r := fold_left (mean_step m cnt mp) (zrange (bin_range m)) (0%Z, 0%Z) in
    if (snd r =? 0)%Z then Undef
    else
      let mean := Q2Qc (1 # 4) * qz (fst r) / qz (snd r) in
      let loc := srt (map (fun x => x - mean) w) in
      let k := Z.to_nat (snd r) in
      if (length loc <? k)%nat then Undef
      else
        let full := qsum (fun x => x * x) loc in
        let tr := qsum (fun x => x * x) (firstn k loc) in
        Ok (mean, sq (qmax0 (full / qc_nat (length loc))), sq (qmax0 (tr / qz (snd r))), k)
  end.

(* ------------------------------------------------------------ the histogram *)
Local Open Scope nat_scope.
Definition bin (x : Qc) : Z := round (Q2Qc 4 * x)%Qc.
Definition occ (w : list Qc) (k : Z) : nat := length (filter (fun x => Z.eqb (bin x) k) w).
Definition hist_ok (w : list Qc) (m : hist) : Prop := NoDup (map fst m) /\ (forall k, look m k = if occ w k =? 0 then None else Some (Z.of_nat (occ w k))) /\ (forall k c, In (k, c) m <-> look m k = Some c).
Lemma look_incr m k j : look (incr m k) j = if Z.eqb j k then Some (match look m k with Some c => c + 1 | None => 1 end)%Z else look m j.
Proof.
  induction m as [|[a c] m IH]; cbn [incr look].
  - rewrite (Z.eqb_sym k j). reflexivity.
  - destruct (Z.eqb_spec a k) as [->|Ha]; cbn [look]; rewrite ?IH.
    + rewrite (Z.eqb_sym k j). destruct (Z.eqb_spec j k); reflexivity.
    + destruct (Z.eqb_spec a j) as [->|]; [|reflexivity]. destruct (Z.eqb_spec j k); [contradiction|reflexivity].
Qed.
Lemma incr_keys m k x : In x (map fst (incr m k)) <-> x = k \/ In x (map fst m).
Proof. induction m as [|[a c] m IH]; cbn; [intuition|]. destruct (Z.eqb_spec a k) as [->|]; cbn; [intuition|]. rewrite IH. intuition. Qed.
Lemma incr_nodup m k : NoDup (map fst m) -> NoDup (map fst (incr m k)).
Proof.
  induction m as [|[a c] m IH]; cbn; intros H; [constructor; [intros []|constructor]|]. inversion H; subst. destruct (Z.eqb_spec a k) as [->|Hn]; cbn; [constructor; assumption|]. constructor; [|apply IH; assumption]. intros X. apply incr_keys in X. destruct X as [X|X]; [congruence|contradiction].
Qed.
Lemma look_in m k c : NoDup (map fst m) -> In (k, c) m <-> look m k = Some c.
Proof.
  induction m as [|[a d] m IH]; cbn; intros H; [split; [intros []|discriminate]|]. inversion H; subst. destruct (Z.eqb_spec a k) as [->|Hn].
  - split; [intros [E|E]; [congruence|exfalso; apply H2; apply in_map_iff; exists (k, c); auto]|intros E; left; congruence].
  - rewrite <- (IH H3). split; [intros [E|E]; [congruence|exact E]|auto].
Qed.
Lemma occ_snoc w x k : occ (w ++ [x]) k = occ w k + (if Z.eqb (bin x) k then 1 else 0).
Proof. unfold occ. rewrite filter_app, app_length. cbn [filter]. destruct (Z.eqb (bin x) k); reflexivity. Qed.
Definition st_ok (w : list Qc) (st : hist * Z * Z) : Prop :=
  match st with (m, cnt, mp) => hist_ok w m /\ (forall k, (Z.of_nat (occ w k) <= cnt)%Z) /\ cnt = Z.of_nat (occ w mp) end.
Lemma count_ok : forall w w0 st, st_ok w0 st -> st_ok (w0 ++ w) (fold_left count_step w st).
Proof.
  induction w as [|x w IH]; intros w0 st H; cbn [fold_left]; [rewrite app_nil_r; exact H|]. replace (w0 ++ x :: w) with ((w0 ++ [x]) ++ w) by (rewrite <- app_assoc; reflexivity). apply IH. destruct st as [[m cnt] mp]. destruct H as ((Nd & Hl & _) & Hc & Hm).
  cbn [count_step]. fold (bin x). set (k := bin x). assert (L : look (incr m k) k = Some (Z.of_nat (occ (w0 ++ [x]) k))).
  { rewrite look_incr, Z.eqb_refl, Hl, occ_snoc. fold k. rewrite Z.eqb_refl. destruct (Nat.eqb_spec (occ w0 k) 0) as [->|]; f_equal; lia. }
  assert (Hk : hist_ok (w0 ++ [x]) (incr m k)).
  { assert (Nd' := incr_nodup m k Nd). split; [exact Nd'|]. split; [|intros; apply look_in, Nd']. intros j. rewrite look_incr, occ_snoc. fold k. rewrite (Z.eqb_sym k j). destruct (Z.eqb_spec j k) as [->|Hj]; [|rewrite Nat.add_0_r; apply Hl]. rewrite Hl. destruct (Nat.eqb_spec (occ w0 k) 0) as [->|]; [reflexivity|]. destruct (Nat.eqb_spec (occ w0 k + 1) 0); [lia|]. f_equal. lia. }
  assert (O : forall j, occ (w0 ++ [x]) j = if Z.eqb j k then occ w0 k + 1 else occ w0 j) by (intros j; rewrite occ_snoc; fold k; rewrite (Z.eqb_sym k j); destruct (Z.eqb_spec j k) as [->|]; [reflexivity|lia]).
  rewrite L. destruct (Z.ltb_spec cnt (Z.of_nat (occ (w0 ++ [x]) k))) as [C|C].
  - split; [exact Hk|]. split; [|reflexivity]. intros j. rewrite (O j). destruct (Z.eqb_spec j k) as [->|]; [rewrite O, Z.eqb_refl; lia|]. specialize (Hc j). lia.
  - split; [exact Hk|]. rewrite O, Z.eqb_refl in C. split; [intros j; rewrite (O j); destruct (Z.eqb_spec j k) as [->|]; [lia|apply Hc]|]. rewrite O. destruct (Z.eqb_spec mp k) as [->|]; [lia|exact Hm].
Qed.
Lemma bins_length w m : hist_ok w m -> length m = length (nodup Z.eq_dec (map bin w)).
Proof.
  intros (Nd & Hl & Hi). rewrite <- (map_length fst m). assert (K : forall k, In k (map fst m) <-> In k (map bin w)).
  { intros k. assert (O : occ w k <> 0 <-> In k (map bin w)).
    { unfold occ. rewrite in_map_iff. split.
      - intros H. destruct (filter _ w) as [|x l] eqn:E; [cbn in H; lia|]. exists x. assert (X : In x (filter (fun y => Z.eqb (bin y) k) w)) by (rewrite E; left; reflexivity). apply filter_In in X. destruct X as [X Y]. apply Z.eqb_eq in Y. auto.
      - intros (x & <- & Hx) H. assert (X : In x (filter (fun y => Z.eqb (bin y) (bin x)) w)) by (apply filter_In; split; [exact Hx|apply Z.eqb_refl]). apply length_zero_iff_nil in H. rewrite H in X. destruct X. }
    rewrite <- O. rewrite in_map_iff. split.
    - intros ((a & c) & <- & X). apply Hi in X. cbn. rewrite Hl in X. destruct (Nat.eqb_spec (occ w a) 0); [discriminate|assumption].
    - intros X. exists (k, Z.of_nat (occ w k)). split; [reflexivity|]. apply Hi. rewrite Hl. destruct (Nat.eqb_spec (occ w k) 0); [contradiction|reflexivity]. }
  apply Nat.le_antisymm; apply NoDup_incl_length; try assumption; try apply NoDup_nodup; intros k X.
  - apply nodup_In, K, X.
  - apply K. eapply nodup_In. exact X.
Qed.

(* ------------------------------------------------------------ the average *)
Definition zsum {A} (f : A -> Z) (l : list A) : Z := fold_right (fun x a => (f x + a)%Z) 0%Z l.
Lemma zsum_cons {A} (f : A -> Z) x l : zsum f (x :: l) = (f x + zsum f l)%Z.
Proof. reflexivity. Qed.
Lemma zsum_or {A} (p q : A -> bool) f l : (forall x, p x = true -> q x = false) -> zsum f (filter (fun x => p x || q x) l) = (zsum f (filter p l) + zsum f (filter q l))%Z.
Proof. intros H. induction l as [|x l IH]; [reflexivity|]. cbn [filter]. specialize (H x). destruct (p x), (q x); cbn [orb]; rewrite ?zsum_cons, ?IH; try lia; discriminate (H eq_refl). Qed.
Lemma zsum_const {A} (f : A -> Z) c l : (forall x, In x l -> f x = c) -> zsum f l = (c * Z.of_nat (length l))%Z.
Proof. induction l as [|x l IH]; intros H; [cbn; lia|]. cbn [zsum fold_right length]. unfold zsum in IH. rewrite IH by (intros; apply H; right; assumption). rewrite (H x) by (left; reflexivity). lia. Qed.
Lemma zsum_one {A} (l : list A) : zsum (fun _ => 1%Z) l = Z.of_nat (length l).
Proof. rewrite (zsum_const _ 1%Z) by reflexivity. lia. Qed.
(** the samples that are averaged: in a bin at most [r] from [mp] with more than a fifth as many samples *)
Definition enough (w : list Qc) (mp : Z) (k : Z) : bool := occ w mp <? 5 * occ w k.
Lemma mean_ok w m mp : hist_ok w m -> forall L s0 c0, NoDup L ->
  fold_left (mean_step m (Z.of_nat (occ w mp)) mp) L (s0, c0) =
  let used := filter (fun x => existsb (fun i => Z.eqb (bin x) (mp + i)) L && enough w mp (bin x)) w in ((s0 + zsum bin used)%Z, (c0 + Z.of_nat (length used))%Z).
Proof.
  intros (_ & Hl & _). induction L as [|i L IH]; intros s0 c0 Nd.
  - cbn [fold_left existsb andb]. cbv zeta. assert (E : forall l, filter (fun _ : Qc => false) l = []) by (induction l; auto). rewrite E. cbn. f_equal; lia.
  - inversion Nd as [|? ? Hi Nd']; subst. cbn [fold_left]. set (used := filter (fun x => existsb (fun i => Z.eqb (bin x) (mp + i)) L && enough w mp (bin x)) w).
    assert (F : forall f, zsum f (filter (fun x => existsb (fun i0 => Z.eqb (bin x) (mp + i0)) (i :: L) && enough w mp (bin x)) w) = (zsum f (filter (fun x => Z.eqb (bin x) (mp + i) && enough w mp (bin x)) w) + zsum f used)%Z).
    { intros f. unfold used. rewrite <- zsum_or.
      - f_equal. apply filter_ext. intros x. cbn [existsb]. destruct (Z.eqb (bin x) (mp + i)), (existsb _ L), (enough w mp (bin x)); reflexivity.
      - intros x X. apply andb_prop in X. destruct X as [X _]. apply Z.eqb_eq in X. apply andb_false_intro1. apply not_true_is_false. intros Y. apply existsb_exists in Y. destruct Y as (j & Hj & Y). apply Z.eqb_eq in Y. apply Hi. assert (i = j) by lia. subst. exact Hj. }
    assert (G : filter (fun x => Z.eqb (bin x) (mp + i) && enough w mp (bin x)) w = if enough w mp (mp + i) then filter (fun x => Z.eqb (bin x) (mp + i)) w else []).
    { set (e := enough w mp) at 1. assert (E : forall l, filter (fun x => Z.eqb (bin x) (mp + i) && e (bin x)) l = if e (mp + i)%Z then filter (fun x => Z.eqb (bin x) (mp + i)) l else []).
      { induction l as [|x l IHl]; [destruct (e (mp + i)%Z); reflexivity|]. cbn [filter]. rewrite IHl. destruct (Z.eqb_spec (bin x) (mp + i)) as [->|]; destruct (e (mp + i)%Z); reflexivity. }
      exact (E w). }
    cbv zeta. rewrite <- !zsum_one, !F, G. unfold mean_step. cbn [fst snd]. rewrite Hl. change (enough w mp (mp + i)) with (occ w mp <? 5 * occ w (mp + i)). destruct (Nat.eqb_spec (occ w (mp + i)) 0) as [E0|E0].
    + rewrite E0. rewrite Nat.mul_0_r. cbn [Nat.ltb Nat.leb]. cbn [zsum fold_right]. rewrite IH by assumption. cbv zeta. fold used. rewrite zsum_one. f_equal; lia.
    + destruct (Z.ltb_spec (Z.of_nat (occ w mp)) (5 * Z.of_nat (occ w (mp + i)))) as [C|C]; destruct (Nat.ltb_spec (occ w mp) (5 * occ w (mp + i))) as [C'|C']; try lia; rewrite IH by assumption; cbv zeta; fold used; rewrite !zsum_one.
      * rewrite (zsum_const bin (mp + i)%Z (filter (fun x => bin x =? mp + i)%Z w)); [fold (occ w (mp + i)); f_equal; lia|]. intros x X. apply filter_In in X. destruct X as [_ X]. apply Z.eqb_eq in X. exact X.
      * change (zsum bin (@nil Qc)) with 0%Z. cbn [length]. f_equal; lia.
Qed.

(* ------------------------------------------------------------ the truncated sum *)
Lemma abs_sq (x : Qc) : (fabs x * fabs x = x * x)%Qc.
Proof. unfold fabs. destruct (qc_lt x 0); ring. Qed.
Lemma abs_nonneg (x : Qc) : (0 <= fabs x)%Qc.
Proof. unfold fabs. destruct (qc_lt x 0) eqn:E; [apply qc_lt_spec in E|apply qc_lt_false in E]; qclra. Qed.
Lemma sq_mono (a b : Qc) : (fabs a <= fabs b)%Qc -> (a * a <= b * b)%Qc.
Proof. intros H. rewrite <- (abs_sq a), <- (abs_sq b). assert (A := abs_nonneg a). qcnra. Qed.
Lemma sum_le c (l : list Qc) : (forall x, In x l -> (x * x <= c)%Qc) -> (qsum (fun x => x * x) l <= qc_nat (length l) * c)%Qc.
Proof.
  induction l as [|x l IH]; intros H; [change (qc_nat (length [])) with 0%Qc; rewrite Qcmult_0_l; apply Qcle_refl|]. rewrite qsum_cons. specialize (IH ltac:(intros; apply H; right; assumption)). specialize (H x ltac:(left; reflexivity)). cbn [length].
  assert (E : (qc_nat (S (length l)) = qc_nat (length l) + 1)%Qc) by (rewrite qc_nat_S; ring). rewrite E. qclra.
Qed.
Lemma sum_ge c (l : list Qc) : (forall x, In x l -> (c <= x * x)%Qc) -> (qc_nat (length l) * c <= qsum (fun x => x * x) l)%Qc.
Proof.
  induction l as [|x l IH]; intros H; [change (qc_nat (length [])) with 0%Qc; rewrite Qcmult_0_l; apply Qcle_refl|]. rewrite qsum_cons. specialize (IH ltac:(intros; apply H; right; assumption)). specialize (H x ltac:(left; reflexivity)). cbn [length].
  assert (E : (qc_nat (S (length l)) = qc_nat (length l) + 1)%Qc) by (rewrite qc_nat_S; ring). rewrite E. qclra.
Qed.
Lemma first_le (l : list Qc) k : StronglySorted (fun a b => (fabs a <= fabs b)%Qc) l -> (1 <= k <= length l) ->
  (qsum (fun x => x * x) (firstn k l) / qc_nat k <= qsum (fun x => x * x) l / qc_nat (length l))%Qc.
Proof.
  intros Hs Hk. destruct (skipn k l) as [|c r] eqn:Er.
  - assert (length l = k) by (assert (X := skipn_length k l); rewrite Er in X; cbn in X; lia). subst k. rewrite firstn_all. apply Qcle_refl.
  - assert (El : l = firstn k l ++ c :: r) by (rewrite <- Er; symmetry; apply firstn_skipn). assert (Lf : length (firstn k l) = k) by (rewrite firstn_length; lia). set (f := firstn k l) in *.
    rewrite El in Hs. assert (Hf : forall x, In x f -> (x * x <= c * c)%Qc).
    { intros x Hx. apply sq_mono. clear - Hs Hx. induction f as [|y f IH]; [destruct Hx|]. cbn in Hs. inversion Hs as [|? ? S1 F1]; subst. destruct Hx as [->|Hx]; [|exact (IH S1 Hx)]. rewrite Forall_forall in F1. apply F1. apply in_or_app. right. left. reflexivity. }
    assert (Hr : forall x, In x (c :: r) -> (c * c <= x * x)%Qc).
    { intros x Hx. apply sq_mono. clear - Hs Hx. induction f as [|y f IH]; cbn in Hs; inversion Hs as [|? ? S1 F1]; subst; [|exact (IH S1)]. destruct Hx as [->|Hx]; [apply Qcle_refl|]. rewrite Forall_forall in F1. apply F1. exact Hx. }
    assert (A := sum_le (c * c)%Qc f Hf). assert (B := sum_ge (c * c)%Qc (c :: r) Hr). assert (Ln : length l = k + length (c :: r)) by (rewrite El, app_length; lia). assert (Eq : qsum (fun x => (x * x)%Qc) l = (qsum (fun x => x * x) f + qsum (fun x => x * x) (c :: r))%Qc) by (rewrite El; apply qsum_app). rewrite Eq, Ln. rewrite Lf in A.
    set (m := length (c :: r)) in *. assert (Em : qc_nat (k + m) = (qc_nat k + qc_nat m)%Qc) by (clear; induction k as [|k IH]; [cbn [plus]; change (qc_nat 0) with 0%Qc; ring|]; cbn [plus]; rewrite !qc_nat_S, IH; ring). rewrite Em.
    assert (P1 := qc_nat_pos k ltac:(lia)). assert (P2 : (0 < qc_nat m)%Qc) by (apply qc_nat_pos; unfold m; cbn; lia). set (F := qsum _ f) in *. set (R := qsum _ (c :: r)) in *. set (K := qc_nat k) in *. set (M := qc_nat m) in *. clearbody F R K M. clear - A B P1 P2.
    assert (Hn : forall a b, (0 < b -> a / b * b = a)%Qc) by (intros a b Hb; field; intros ->; apply (Qclt_not_eq 0 0 Hb); reflexivity).
    assert (E1 := Hn F K P1). assert (E2 := Hn (F + R)%Qc (K + M)%Qc ltac:(qclra)). set (u := (F / K)%Qc) in *. set (v := ((F + R) / (K + M))%Qc) in *. clearbody u v. assert (U : (u <= c * c)%Qc) by (apply Qcnot_lt_le; intros X; subst F; qcnra). apply Qcnot_lt_le. intros X. assert (M * u <= M * (c * c))%Qc by qcnra. assert (K * v < K * u)%Qc by qcnra. assert (M * v < M * u)%Qc by qcnra. qclra.
Qed.

(* ------------------------------------------------------------ C59 *)
Lemma zrange_in r i : (0 <= r)%Z -> In i (zrange r) <-> (- r <= i <= r)%Z.
Proof.
  intros Hr. unfold zrange. rewrite in_map_iff. split.
  - intros (k & <- & H). apply in_seq in H. lia.
  - intros H. exists (Z.to_nat (i + r)). split; [lia|]. apply in_seq. lia.
Qed.
Lemma zrange_nodup r : NoDup (zrange r).
Proof. unfold zrange. apply FinFun.Injective_map_NoDup; [intros a b H; lia|apply seq_NoDup]. Qed.
Lemma occ_pos (w : list Qc) x : In x w -> 1 <= occ w (bin x).
Proof. intros Hx. unfold occ. assert (X : In x (filter (fun y => Z.eqb (bin y) (bin x)) w)) by (apply filter_In; split; [exact Hx|apply Z.eqb_refl]). destruct (filter (fun y => Z.eqb (bin y) (bin x)) w); [destruct X|cbn; lia]. Qed.
Lemma qz_plus a b : qz (a + b) = (qz a + qz b)%Qc.
Proof. unfold qz. apply Qc_is_canon. rewrite this_plus, !this_Q2Qc, inject_Z_plus. reflexivity. Qed.
Lemma qz_nat n : qz (Z.of_nat n) = qc_nat n.
Proof. reflexivity. Qed.
Lemma zsum_qsum (l : list Qc) : qz (zsum bin l) = qsum (fun x => qz (bin x)) l.
Proof. induction l as [|x l IH]; [reflexivity|]. rewrite zsum_cons, qsum_cons, qz_plus, IH. reflexivity. Qed.
Lemma filter_len_le {A} (p : A -> bool) l : length (filter p l) <= length l.
Proof. induction l as [|x l IH]; cbn; [lia|]. destruct (p x); cbn; lia. Qed.
(** [k] samples are used: those whose quarter-unit bin is at most [r] from a most frequent bin [mp] and holds more than a fifth as many
    samples; [mean] is the average of the centres of their bins; the rms of the [k] samples nearest to it does not exceed that of all *)
Theorem c59_truncated_mean_rms srt sq w :
  (forall l, Permutation (srt l) l /\ StronglySorted (fun a b => (fabs a <= fabs b)%Qc) (srt l)) -> (forall a b, (0 <= a)%Qc -> (a <= b)%Qc -> (sq a <= sq b)%Qc) -> w <> [] ->
  exists mean full tr k mp r, truncated_mean_rms srt sq w = Ok (mean, full, tr, k) /\
    (forall j, occ w j <= occ w mp) /\ r = Z.min 16 (Z.of_nat (length (nodup Z.eq_dec (map bin w)) / 2 + 1)) /\
    (let used := filter (fun x => (Z.abs (bin x - mp) <=? r)%Z && enough w mp (bin x)) w in
     k = length used /\ (Q2Qc 4 * qc_nat k * mean = qsum (fun x => qz (bin x)) used)%Qc) /\
    1 <= occ w mp <= k /\ k <= length w /\
    full = sq (qsum (fun x => (x - mean) * (x - mean)) w / qc_nat (length w))%Qc /\
    (exists kept others, Permutation (kept ++ others) w /\ length kept = k /\ (forall x y, In x kept -> In y others -> (fabs (x - mean) <= fabs (y - mean))%Qc) /\ tr = sq (qsum (fun x => (x - mean) * (x - mean)) kept / qc_nat k)%Qc) /\
    (tr <= full)%Qc.
Proof.
  intros Hs Hq Hw. unfold truncated_mean_rms. assert (S := count_ok w [] ([], 0%Z, 0%Z)). cbn [app] in S. destruct (fold_left count_step w ([], 0%Z, 0%Z)) as [[m cnt] mp] eqn:Ef.
  destruct S as (Hh & Hmax & Hcnt).
  { split; [|split; [intros k; reflexivity|reflexivity]]. split; [constructor|]. split; [intros k; reflexivity|]. intros k c. cbn. split; [intros []|discriminate]. }
  assert (Mx : forall j, occ w j <= occ w mp) by (intros j; specialize (Hmax j); lia). assert (P : 1 <= occ w mp) by (destruct w as [|x w']; [congruence|]; specialize (Mx (bin x)); assert (X := occ_pos (x :: w') x ltac:(left; reflexivity)); lia).
  subst cnt. rewrite (mean_ok w m mp Hh _ _ _ (zrange_nodup _)). cbv zeta. cbn [fst snd]. set (r := bin_range m). assert (Hr : (1 <= r)%Z) by (unfold r, bin_range; lia).
  set (used := filter (fun x => existsb (fun i => (bin x =? mp + i)%Z) (zrange r) && enough w mp (bin x)) w).
  assert (Eu : used = filter (fun x => (Z.abs (bin x - mp) <=? r)%Z && enough w mp (bin x)) w).
  { apply filter_ext. intros x. f_equal. apply eq_true_iff_eq. rewrite existsb_exists. split.
    - intros (i & Hi & E). apply zrange_in in Hi; [|lia]. apply Z.eqb_eq in E. apply Z.leb_le. lia.
    - intros E. apply Z.leb_le in E. exists (bin x - mp)%Z. split; [apply zrange_in; lia|apply Z.eqb_eq; lia]. }
  assert (Lo : occ w mp <= length used).
  { unfold occ. rewrite Eu. assert (F : forall l, length (filter (fun x => (bin x =? mp)%Z) l) <= length (filter (fun x => (Z.abs (bin x - mp) <=? r)%Z && enough w mp (bin x)) l)).
    { induction l as [|x l IH]; [cbn; lia|]. cbn [filter]. destruct (Z.eqb_spec (bin x) mp) as [->|].
      - rewrite Z.sub_diag. cbn [Z.abs]. destruct (Z.leb_spec 0 r); [|lia]. unfold enough at 1. destruct (Nat.ltb_spec (occ w mp) (5 * occ w mp)); [|lia]. cbn [andb length]. lia.
      - destruct (_ && _); cbn [length]; lia. }
    apply F. }
  assert (Lw : length used <= length w) by apply filter_len_le.
  rewrite !Z.add_0_l. destruct (Z.eqb_spec (Z.of_nat (length used)) 0) as [X|_]; [lia|]. rewrite Nat2Z.id, qz_nat. set (mean := (Q2Qc (1 # 4) * qz (zsum bin used) / qc_nat (length used))%Qc).
  destruct (Hs (map (fun x => x - mean) w)%Qc) as [Pm St]. set (loc := srt (map (fun x => x - mean) w)%Qc) in *. assert (Ll : length loc = length w) by (rewrite (Permutation_length Pm); apply map_length). rewrite Ll. destruct (Nat.ltb_spec (length w) (length used)); [lia|].
  assert (Hf := first_le loc (length used) St ltac:(lia)). rewrite Ll in Hf.
  assert (Sq0 : forall l, (0 <= qsum (fun x => x * x) l)%Qc) by (intros l; apply qsum_nonneg; intros x _; rewrite <- abs_sq; assert (A := abs_nonneg x); qcnra).
  assert (Dv : forall l n, 0 < n -> (0 <= qsum (fun x => x * x) l / qc_nat n)%Qc) by (intros l n Hn; apply share_nonneg; [exact Hn|apply Sq0]).
  assert (Q0 : forall q, (0 <= q)%Qc -> qmax0 q = q) by (intros q Hq0; unfold qmax0; destruct (qc_lt 0 q) eqn:E; [reflexivity|]; apply qc_lt_false in E; apply Qcle_antisym; assumption).
  rewrite !Q0 by (apply Dv; lia). do 4 eexists. exists mp, r. split; [reflexivity|]. split; [exact Mx|]. split; [rewrite <- (bins_length w m Hh); reflexivity|]. rewrite <- Eu. split.
  { split; [reflexivity|]. rewrite <- zsum_qsum. unfold mean. assert (Hp := qc_nat_pos (length used) ltac:(lia)). assert (E4 : (Q2Qc 4 * Q2Qc (1 # 4) = 1)%Qc) by (apply Qc_is_canon; reflexivity). transitivity ((Q2Qc 4 * Q2Qc (1 # 4)) * qz (zsum bin used) * (qc_nat (length used) * / qc_nat (length used)))%Qc; [unfold Qcdiv; ring|]. rewrite E4, Qcmult_inv_r; [ring|]. intros X. rewrite X in Hp. exact (Qclt_not_eq _ _ Hp eq_refl). }
  split; [lia|]. split; [lia|]. split.
  { f_equal. f_equal. rewrite (qsum_perm _ _ _ Pm), qsum_map. reflexivity. }
  split; [|apply Hq; [apply Dv; lia|exact Hf]].
  exists (map (fun x => x + mean)%Qc (firstn (length used) loc)), (map (fun x => x + mean)%Qc (skipn (length used) loc)). split; [|split; [|split]].
  - rewrite <- map_app, firstn_skipn. rewrite Pm, map_map. rewrite (map_ext _ (fun x => x)) by (intros; ring). rewrite map_id. reflexivity.
  - rewrite map_length, firstn_length. lia.
  - intros x y Hx Hy. apply in_map_iff in Hx, Hy. destruct Hx as (a & <- & Ha). destruct Hy as (b & <- & Hb). replace (a + mean - mean)%Qc with a by ring. replace (b + mean - mean)%Qc with b by ring.
    rewrite <- (firstn_skipn (length used) loc) in St. revert St Ha Hb. generalize (firstn (length used) loc) (skipn (length used) loc). intros f g. induction f as [|z f IH]; intros St Ha Hb; [destruct Ha|]. cbn in St. inversion St as [|? ? S1 F1]; subst. destruct Ha as [->|Ha]; [|exact (IH S1 Ha Hb)]. rewrite Forall_forall in F1. apply F1. apply in_or_app. right. exact Hb.
  - f_equal. f_equal. rewrite qsum_map. apply qsum_ext. intros x _. ring.
Qed.
(** refuted for no samples: 0 / 0 *)
Theorem c59_empty_refuted srt sq : truncated_mean_rms srt sq [] = Undef.
Proof. vm_compute. reflexivity. Qed.
Print Assumptions c59_truncated_mean_rms. Print Assumptions c59_empty_refuted.
(* ------------------------------------------------------------ non-vacuity *)
Example ex_rms : match truncated_mean_rms (isort (fun a b => qc_lt (fabs a) (fabs b))) (fun q => q) (qs [1; 1; 1; 9; 1; -7]%Z) with Ok (m, f, t, k) => (this m, this f, this t, k) | _ => (0%Q, 0%Q, 0%Q, 0) end = (1%Q, 64 # 3, 0%Q, 4).
Proof. vm_compute. reflexivity. Qed.
Example ex_round : (round (Q2Qc (-3 # 2)), round (Q2Qc (3 # 2)), round (Q2Qc (5 # 4))) = (-2, 2, 1)%Z.
Proof. vm_compute. reflexivity. Qed.
