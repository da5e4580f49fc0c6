From Coq Require Import QArith Qcanon.
From Verif Require Import Base Util QcUtil Solver_Model Solver_Proofs DBScan_Model DBScan_Spec.
Local Open Scope nat_scope.

Section DB.
Variable C : cfg.
Let n := length (c_pts C).
Definition isnb (i j : nat) : Prop := In j (neighbours C i).

Lemma within_dist i j : i < n -> j < n ->
  (qc_lt (c_eps2 C) (dist C (nth i (c_pts C) pt0) (nth j (c_pts C) pt0)) = false <-> within C i j).
Proof.
  intros Hi Hj. rewrite qc_lt_false. unfold within, dist.
  set (a := nth i (c_pts C) pt0). set (b := nth j (c_pts C) pt0).
  assert (Ea : nth_error (c_pts C) i = Some a) by (apply nth_error_nth'; exact Hi).
  assert (Eb : nth_error (c_pts C) j = Some b) by (apply nth_error_nth'; exact Hj).
  fold (sq_dist a b). set (d := (sq_dist a b - _)%Qc).
  split.
  - intros H. exists a, b. split; [exact Ea|]. split; [exact Eb|]. fold d.
    destruct (qc_lt d 0) eqn:E; [apply qc_lt_spec in E|apply qc_lt_false in E]; split; qclra.
  - intros (a' & b' & Ha & Hb & H1 & H2). rewrite Ea in Ha. rewrite Eb in Hb. inversion Ha; inversion Hb; subst a' b'. fold d in H1.
    destruct (qc_lt d 0); assumption.
Qed.
Lemma within_lt i j : within C i j -> i < n /\ j < n.
Proof. intros (a & b & Ha & Hb & _). split; apply nth_error_Some; congruence. Qed.
Lemma within_sym i j : within C i j -> within C j i.
Proof.
  intros (a & b & Ha & Hb & H1 & H2). exists b, a. split; [exact Hb|]. split; [exact Ha|]. split; [|exact H2].
  replace (p_bad b + p_bad a) with (p_bad a + p_bad b) by lia. replace (sq_dist b a) with (sq_dist a b); [exact H1|]. unfold sq_dist. ring.
Qed.
Lemma isnb_spec i j : i < n -> (isnb i j <-> j <> i /\ within C i j).
Proof.
  intros Hi. unfold isnb, neighbours. rewrite filter_In, in_seq, andb_true_iff, !negb_true_iff, Nat.eqb_neq. fold n. split.
  - intros (H1 & H2 & H3). split; [exact H2|]. apply within_dist; [exact Hi|lia|exact H3].
  - intros (H1 & H2). destruct (within_lt _ _ H2). split; [lia|]. split; [exact H1|]. apply within_dist; auto.
Qed.
Lemma isnb_lt i j : isnb i j -> j < n.
Proof. unfold isnb, neighbours. rewrite filter_In, in_seq. fold n. lia. Qed.
Lemma nb_nodup i : NoDup (neighbours C i).
Proof. unfold neighbours. apply NoDup_filter, seq_NoDup. Qed.
Lemma isnb_sym i j : i < n -> isnb i j -> isnb j i.
Proof. intros Hi H. assert (Hj := isnb_lt _ _ H). apply isnb_spec in H; [|exact Hi]. apply isnb_spec; [exact Hj|]. destruct H. split; [auto|apply within_sym; assumption]. Qed.

Definition coreb (i : nat) : bool := Nat.leb (c_minpts C) (length (neighbours C i)).
Lemma core_spec i : core C i <-> i < n /\ coreb i = true.
Proof.
  unfold core, coreb. fold n. rewrite Nat.leb_le. split.
  - intros (Hi & l & Hnd & Hl & Hm). split; [exact Hi|]. assert (length l <= length (neighbours C i)); [|lia].
    apply NoDup_incl_length; [exact Hnd|]. intros j Hj. apply Hl in Hj. apply isnb_spec; assumption.
  - intros (Hi & Hm). split; [exact Hi|]. exists (neighbours C i). split; [apply nb_nodup|]. split; [|exact Hm].
    intros j. apply (isnb_spec i j Hi).
Qed.

Definition lb (l : list Z) (i : nat) : Z := nth i l UNCLASSIFIED.
Definition cc (i : nat) : Prop := i < n /\ coreb i = true.
Definition link (i j : nat) : Prop := cc i /\ cc j /\ isnb i j.
Definition conn := clos_refl_trans nat link.
Lemma link_sym i j : link i j -> link j i.
Proof. intros (H1 & H2 & H3). split; [exact H2|]. split; [exact H1|]. apply isnb_sym; [apply H1|exact H3]. Qed.
Lemma conn_sym i j : conn i j -> conn j i.
Proof. induction 1 as [x y H| |x y z _ IH1 _ IH2]; [apply rt_step, link_sym, H|apply rt_refl|eapply rt_trans; eassumption]. Qed.
Lemma conn_cc i j : cc i -> conn i j -> cc j.
Proof. intros H. induction 1 as [x y (_ & H2 & _)| |x y z _ IH1 _ IH2]; auto. Qed.

(* ---------------------------------------------------------------- lists of labels *)
Lemma lb_upd l i j v : i < length l -> lb (upd l i v) j = if Nat.eqb j i then v else lb l j.
Proof. intros H. unfold lb. rewrite nth_upd. apply Nat.ltb_lt in H. rewrite H, andb_true_r. reflexivity. Qed.

Lemma mark_length ls (l : list Z) (c : Z) : length (fold_left (fun l h => upd l h c) ls l) = length l.
Proof. revert l; induction ls as [|h ls IH]; intros l; simpl; [reflexivity|]. rewrite IH. apply upd_length. Qed.
Lemma mark_lb (c : Z) : forall ls l j, (forall h, In h ls -> h < length l) ->
  lb (fold_left (fun l h => upd l h c) ls l) j = if existsb (Nat.eqb j) ls then c else lb l j.
Proof.
  induction ls as [|h ls IH]; intros l j H; cbn [fold_left existsb]; [reflexivity|].
  rewrite IH by (intros; rewrite upd_length; apply H; right; assumption). rewrite lb_upd by (apply H; left; reflexivity).
  destruct (Nat.eqb j h), (existsb (Nat.eqb j) ls); reflexivity.
Qed.
Lemma existsb_eqb j ls : existsb (Nat.eqb j) ls = true <-> In j ls.
Proof. rewrite existsb_exists. split; [intros (x & H & E); apply Nat.eqb_eq in E; subst; exact H|intros H; exists j; split; [exact H|apply Nat.eqb_refl]]. Qed.

Definition fresh (z : Z) : bool := ((z =? NOISE) || (z =? UNCLASSIFIED))%Z.
Lemma spread_loop_spec c : (0 <= c)%Z -> forall nb l, NoDup nb -> (forall h, In h nb -> h < length l) ->
  length (fst (spread_loop nb c l)) = length l /\
  (forall j, lb (fst (spread_loop nb c l)) j = if existsb (Nat.eqb j) nb && fresh (lb l j) then c else lb l j) /\
  snd (spread_loop nb c l) = filter (fun j => (lb l j =? UNCLASSIFIED)%Z) nb.
Proof.
  intros Hc. induction nb as [|h nb IH]; intros l Hnd Hlt; cbn [spread_loop]; [repeat split; reflexivity|].
  inversion Hnd as [|? ? Hh Hnd']; subst. change (nth h l UNCLASSIFIED) with (lb l h). fold (fresh (lb l h)).
  destruct (fresh (lb l h)) eqn:E.
  - destruct (IH (upd l h c) Hnd') as (I1 & I2 & I3); [intros; rewrite upd_length; apply Hlt; right; assumption|].
    assert (Hhl : h < length l) by (apply Hlt; left; reflexivity). cbn [fst snd].
    split; [rewrite I1, upd_length; reflexivity|]. split.
    + intros j. rewrite I2, lb_upd by exact Hhl. cbn [existsb]. destruct (Nat.eqb_spec j h) as [->|Hne]; cbn [orb].
      * rewrite E. cbn [andb]. destruct (_ && _); reflexivity.
      * reflexivity.
    + rewrite I3. cbn [filter]. assert (X : filter (fun j => (lb (upd l h c) j =? UNCLASSIFIED)%Z) nb = filter (fun j => (lb l j =? UNCLASSIFIED)%Z) nb).
      { apply filter_ext_in. intros j Hj. rewrite lb_upd by exact Hhl. destruct (Nat.eqb_spec j h) as [->|]; [contradiction|reflexivity]. }
      rewrite X. destruct (lb l h =? UNCLASSIFIED)%Z; reflexivity.
  - destruct (IH l Hnd') as (I1 & I2 & I3); [intros; apply Hlt; right; assumption|].
    split; [exact I1|]. split.
    + intros j. rewrite I2. cbn [existsb]. destruct (Nat.eqb_spec j h) as [->|Hne]; cbn [orb]; [rewrite E, !andb_false_r; reflexivity|reflexivity].
    + rewrite I3. cbn [filter]. unfold fresh in E. apply orb_false_elim in E. destruct E as [_ E]. rewrite E. reflexivity.
Qed.

Definition uncl (l : list Z) : nat := length (filter (fun j => (lb l j =? UNCLASSIFIED)%Z) (seq 0 n)).
Lemma filter_split {A} (P Q : A -> bool) l : length (filter P l) = length (filter (fun x => P x && Q x) l) + length (filter (fun x => P x && negb (Q x)) l).
Proof. induction l as [|x l IH]; simpl; [reflexivity|]. destruct (P x), (Q x); simpl; rewrite IH; lia. Qed.

Lemma spread_spec h c l : (0 <= c)%Z -> length l = n ->
  let r := spread C h c l in
  length (fst r) = n /\
  (forall j, lb (fst r) j = if coreb h && (existsb (Nat.eqb j) (neighbours C h) && fresh (lb l j)) then c else lb l j) /\
  (forall j, In j (snd r) <-> coreb h = true /\ isnb h j /\ lb l j = UNCLASSIFIED) /\
  length (snd r) + uncl (fst r) <= uncl l.
Proof.
  intros Hc Hl r. subst r. unfold spread. fold (coreb h). destruct (coreb h).
  - destruct (spread_loop_spec c Hc (neighbours C h) l (nb_nodup h)) as (I1 & I2 & I3); [intros j Hj; rewrite Hl; apply (isnb_lt h j Hj)|].
    split; [lia|]. split; [exact I2|]. split.
    + intros j. rewrite I3, filter_In, Z.eqb_eq. unfold isnb. tauto.
    + rewrite I3. unfold uncl. rewrite (filter_split (fun j => (lb l j =? UNCLASSIFIED)%Z) (fun j => existsb (Nat.eqb j) (neighbours C h)) (seq 0 n)).
      apply Nat.add_le_mono.
      * apply NoDup_incl_length; [apply NoDup_filter, nb_nodup|]. intros j Hj. apply filter_In in Hj. destruct Hj as [H1 H2].
        apply filter_In. split; [apply in_seq; assert (X := isnb_lt h j H1); lia|]. rewrite H2. cbn [andb]. apply existsb_eqb, H1.
      * apply NoDup_incl_length; [apply NoDup_filter, seq_NoDup|]. intros j Hj. apply filter_In in Hj. destruct Hj as [H1 H2].
        rewrite I2 in H2. apply filter_In. split; [exact H1|].
        destruct (existsb (Nat.eqb j) (neighbours C h)) eqn:Ex; cbn [andb] in H2.
        -- exfalso. destruct (fresh (lb l j)) eqn:Ef; [apply Z.eqb_eq in H2; unfold UNCLASSIFIED in H2; lia|].
           unfold fresh in Ef. rewrite H2, orb_true_r in Ef. discriminate.
        -- rewrite H2. reflexivity.
  - cbn [fst snd andb length]. split; [exact Hl|]. split; [reflexivity|]. split; [|lia].
    intros j. split; [intros []|intros (H & _); discriminate].
Qed.

(* ---------------------------------------------------------------- one cluster *)
(** main loop invariant: [i] points visited, [c] clusters made *)
Record Inv (i c : nat) (l : list Z) : Prop := mkInv {
  iv_len : length l = n;
  iv_rng : forall j, j < n -> lb l j = UNCLASSIFIED \/ lb l j = NOISE \/ (0 <= lb l j < Z.of_nat c)%Z;
  iv_seen : forall j, j < i -> j < n -> lb l j <> UNCLASSIFIED;
  iv_noise : forall j, cc j -> lb l j <> NOISE;
  iv_nb : forall j k, cc j -> (0 <= lb l j)%Z -> isnb j k -> (0 <= lb l k)%Z;
  iv_conn : forall j k, cc j -> cc k -> lb l j = lb l k -> (0 <= lb l j)%Z -> conn j k;
  iv_link : forall j k, link j k -> (0 <= lb l j)%Z -> lb l k = lb l j;
  iv_bord : forall j, j < n -> coreb j = false -> (0 <= lb l j)%Z -> exists k, cc k /\ isnb k j /\ lb l k = lb l j;
  iv_first : forall d, d < c -> exists r, cc r /\ lb l r = Z.of_nat d /\
     forall j, cc j -> (Z.of_nat d <= lb l j)%Z \/ lb l j = UNCLASSIFIED -> r <= j }.

(** seed loop invariant for the cluster [c] started at core point [i], from labels [l0] *)
Record WInv (i c : nat) (l0 : list Z) (q : list nat) (l : list Z) : Prop := mkW {
  w_len : length l = n;
  w_mono : forall k, k < n -> lb l k = Z.of_nat c \/ (lb l k = lb l0 k);
  w_old : forall k, cc k -> (0 <= lb l0 k)%Z -> lb l k = lb l0 k;
  w_conn : forall k, cc k -> lb l k = Z.of_nat c -> conn i k;
  w_bord : forall k, k < n -> coreb k = false -> lb l k = Z.of_nat c -> exists m, cc m /\ isnb m k /\ lb l m = Z.of_nat c;
  w_done : forall k, cc k -> lb l k = Z.of_nat c -> ~ In k q -> forall m, isnb k m -> (0 <= lb l m)%Z /\ (cc m -> lb l m = Z.of_nat c);
  w_q : forall k, In k q -> k < n /\ lb l k = Z.of_nat c;
  w_start : lb l i = Z.of_nat c }.

Lemma cc_dec k : k < n -> cc k \/ coreb k = false.
Proof. intros H. unfold cc. destruct (coreb k); auto. Qed.
Lemma fresh_spec z : fresh z = true <-> z = NOISE \/ z = UNCLASSIFIED.
Proof. unfold fresh. rewrite orb_true_iff, !Z.eqb_eq. reflexivity. Qed.

Section Cluster.
Variables (i c : nat) (l0 : list Z).
Hypothesis HI : Inv i c l0.
Hypothesis Hi : cc i.
Hypothesis Hun : lb l0 i = UNCLASSIFIED.

Lemma conn_fresh k : conn i k -> lb l0 k = UNCLASSIFIED.
Proof.
  intros H. apply clos_rt_rtn1 in H. induction H as [|y z Hyz Hiy IH]; [exact Hun|].
  destruct Hyz as (Hy & Hz & Hnb). destruct (iv_rng _ _ _ HI z (proj1 Hz)) as [E|[E|E]]; [exact E| |].
  - exfalso. apply (iv_noise _ _ _ HI z Hz E).
  - exfalso. assert (X : (0 <= lb l0 y)%Z) by (apply (iv_nb _ _ _ HI z y Hz); [lia|apply isnb_sym; [apply Hy|exact Hnb]]).
    rewrite IH in X. unfold UNCLASSIFIED in X. lia.
Qed.

Lemma w_step h q l : WInv i c l0 (h :: q) l -> WInv i c l0 (q ++ snd (spread C h (Z.of_nat c) l)) (fst (spread C h (Z.of_nat c) l)).
Proof.
  intros W. destruct (spread_spec h (Z.of_nat c) l ltac:(lia) (w_len _ _ _ _ _ W)) as (S1 & S2 & S3 & _).
  set (r := spread C h (Z.of_nat c) l) in *. clearbody r. destruct (w_q _ _ _ _ _ W h (or_introl eq_refl)) as [Hh Hlh].
  assert (K : forall k, lb (fst r) k = Z.of_nat c \/ lb (fst r) k = lb l k).
  { intros k. rewrite S2. destruct (_ && _); auto. }
  assert (Kc : forall k, lb l k = Z.of_nat c -> lb (fst r) k = Z.of_nat c).
  { intros k E. rewrite S2. destruct (_ && _); auto. }
  (* newly labelled points are neighbours of the core point h *)
  assert (New : forall k, lb (fst r) k = Z.of_nat c -> lb l k = Z.of_nat c \/ (cc h /\ isnb h k /\ (lb l k = NOISE \/ lb l k = UNCLASSIFIED))).
  { intros k E. rewrite S2 in E. destruct (coreb h && _) eqn:Ec in E; [right|left; exact E].
    apply andb_prop in Ec. destruct Ec as [E1 E2]. apply andb_prop in E2. destruct E2 as [E2 E3].
    apply existsb_eqb in E2. apply fresh_spec in E3. split; [split; assumption|]. split; assumption. }
  assert (Hch : cc h -> conn i h) by (intros X; apply (w_conn _ _ _ _ _ W h X Hlh)).
  split.
  - exact S1.
  - intros k Hk. destruct (K k) as [E|E]; [left; exact E|]. rewrite E. apply (w_mono _ _ _ _ _ W k Hk).
  - intros k Hk E. rewrite S2. destruct (coreb h && _) eqn:Ec; [|apply (w_old _ _ _ _ _ W k Hk E)].
    exfalso. apply andb_prop in Ec. destruct Ec as [_ E2]. apply andb_prop in E2. destruct E2 as [_ E3]. apply fresh_spec in E3.
    rewrite (w_old _ _ _ _ _ W k Hk E) in E3. unfold NOISE, UNCLASSIFIED in E3. lia.
  - intros k Hk E. destruct (New k E) as [E'|(X1 & X2 & _)]; [apply (w_conn _ _ _ _ _ W k Hk E')|].
    eapply rt_trans; [apply Hch, X1|]. apply rt_step. split; [exact X1|]. split; [exact Hk|exact X2].
  - intros k Hk Hnc E. destruct (New k E) as [E'|(X1 & X2 & _)].
    + destruct (w_bord _ _ _ _ _ W k Hk Hnc E') as (m & M1 & M2 & M3). exists m. split; [exact M1|]. split; [exact M2|]. apply Kc, M3.
    + exists h. split; [exact X1|]. split; [exact X2|]. apply Kc, Hlh.
  - intros k Hk E Hnq m Hm. rewrite in_app_iff in Hnq.
    assert (Pos : forall m, (0 <= lb l m)%Z -> (0 <= lb (fst r) m)%Z) by (intros m' Hm'; destruct (K m') as [E'|E']; lia).
    destruct (New k E) as [E'|(X1 & X2 & [X3|X3])].
    + destruct (Nat.eq_dec k h) as [->|Hne].
      * (* h itself, just processed *)
        assert (Hm' : m < n) by (apply (isnb_lt h m Hm)).
        assert (V : lb (fst r) m = if fresh (lb l m) then Z.of_nat c else lb l m).
        { rewrite S2. replace (coreb h) with true by (symmetry; apply Hk). replace (existsb (Nat.eqb m) (neighbours C h)) with true by (symmetry; apply existsb_eqb, Hm). reflexivity. }
        assert (Rng : lb l m = UNCLASSIFIED \/ lb l m = NOISE \/ (0 <= lb l m)%Z).
        { destruct (w_mono _ _ _ _ _ W m Hm') as [X|X]; [right; right; lia|]. rewrite X. destruct (iv_rng _ _ _ HI m Hm') as [Y|[Y|Y]]; auto. right; right; lia. }
        split.
        -- rewrite V. destruct (fresh (lb l m)) eqn:Ef; [lia|]. destruct Rng as [Y|[Y|Y]]; [| |exact Y]; exfalso; rewrite Y in Ef; discriminate.
        -- intros Hcm. rewrite V. destruct (fresh (lb l m)) eqn:Ef; [reflexivity|].
           assert (Cm : conn i m) by (eapply rt_trans; [apply Hch, Hk|apply rt_step; split; [exact Hk|split; [exact Hcm|exact Hm]]]).
           destruct (w_mono _ _ _ _ _ W m Hm') as [X|X]; [exact X|]. rewrite (conn_fresh m Cm) in X. rewrite X in Ef. discriminate.
      * destruct (w_done _ _ _ _ _ W k Hk E') with (m := m) as [D1 D2]; [intros [->|Hin]; [congruence|apply Hnq; left; exact Hin]|exact Hm|].
        split; [apply Pos, D1|]. intros Hcm. apply Kc, D2, Hcm.
    + exfalso. (* a core point is never noise *)
      destruct (w_mono _ _ _ _ _ W k (proj1 Hk)) as [Y|Y]; [rewrite Y in X3; unfold NOISE in X3; lia|].
      rewrite Y in X3. apply (iv_noise _ _ _ HI k Hk X3).
    + exfalso. apply Hnq. right. apply S3. split; [apply X1|]. split; [exact X2|exact X3].
  - intros k Hin. apply in_app_or in Hin. destruct Hin as [Hin|Hin].
    + destruct (w_q _ _ _ _ _ W k (or_intror Hin)) as [Q1 Q2]. split; [exact Q1|apply Kc, Q2].
    + apply S3 in Hin. destruct Hin as (E1 & E2 & E3). split; [apply (isnb_lt h k E2)|]. rewrite S2, E1.
      replace (existsb (Nat.eqb k) (neighbours C h)) with true by (symmetry; apply existsb_eqb, E2).
      replace (fresh (lb l k)) with true by (rewrite E3; reflexivity). reflexivity.
  - apply Kc, (w_start _ _ _ _ _ W).
Qed.

Lemma run_seeds_inv : forall fuel q l, WInv i c l0 q l -> length q + uncl l <= fuel ->
  exists l', run_seeds C fuel (Z.of_nat c) q l = Some l' /\ WInv i c l0 [] l'.
Proof.
  induction fuel as [|fuel IH]; intros q l W Hf.
  - destruct q as [|h q]; [|simpl in Hf; lia]. exists l. split; [reflexivity|exact W].
  - destruct q as [|h q]; [exists l; split; [reflexivity|exact W]|]. cbn [run_seeds].
    apply IH; [apply w_step, W|]. destruct (spread_spec h (Z.of_nat c) l ltac:(lia) (w_len _ _ _ _ _ W)) as (_ & _ & _ & S4).
    rewrite app_length. simpl in Hf. lia.
Qed.

Lemma w_init : WInv i c l0 (neighbours C i) (fold_left (fun l h => upd l h (Z.of_nat c)) (neighbours C i) (upd l0 i (Z.of_nat c))).
Proof.
  assert (Hlen := iv_len _ _ _ HI).
  assert (V : forall k, lb (fold_left (fun l h => upd l h (Z.of_nat c)) (neighbours C i) (upd l0 i (Z.of_nat c))) k =
     if existsb (Nat.eqb k) (neighbours C i) then Z.of_nat c else if Nat.eqb k i then Z.of_nat c else lb l0 k).
  { intros k. rewrite mark_lb; [|intros h Hh; rewrite upd_length, Hlen; apply (isnb_lt i h Hh)]. rewrite lb_upd by (rewrite Hlen; apply Hi). reflexivity. }
  set (l := fold_left _ _ _) in *.
  assert (Hl : length l = n) by (unfold l; rewrite mark_length, upd_length; exact Hlen). clearbody l.
  assert (New : forall k, lb l k = Z.of_nat c -> k < n -> k = i \/ isnb i k).
  { intros k E Hk. rewrite V in E. destruct (existsb _ _) eqn:Ex; [right; apply existsb_eqb, Ex|]. destruct (Nat.eqb_spec k i) as [->|]; [left; reflexivity|].
    exfalso. destruct (iv_rng _ _ _ HI k Hk) as [Y|[Y|Y]]; rewrite E in Y; unfold UNCLASSIFIED, NOISE in Y; lia. }
  assert (Vi : lb l i = Z.of_nat c) by (rewrite V, Nat.eqb_refl; destruct (existsb _ _); reflexivity).
  assert (Vn : forall k, isnb i k -> lb l k = Z.of_nat c).
  { intros k Hk. rewrite V. replace (existsb (Nat.eqb k) (neighbours C i)) with true by (symmetry; apply existsb_eqb, Hk). reflexivity. }
  split.
  - exact Hl.
  - intros k Hk. rewrite V. destruct (existsb _ _); auto. destruct (Nat.eqb k i); auto.
  - intros k Hk E. rewrite V. destruct (existsb _ _) eqn:Ex.
    + exfalso. apply existsb_eqb in Ex. assert (X : conn i k) by (apply rt_step; split; [exact Hi|split; [exact Hk|exact Ex]]).
      rewrite (conn_fresh k X) in E. unfold UNCLASSIFIED in E. lia.
    + destruct (Nat.eqb_spec k i) as [->|]; [|reflexivity]. rewrite Hun in E. unfold UNCLASSIFIED in E. lia.
  - intros k Hk E. destruct (New k E (proj1 Hk)) as [->|Hnb]; [apply rt_refl|]. apply rt_step. split; [exact Hi|split; [exact Hk|exact Hnb]].
  - intros k Hk Hnc E. destruct (New k E Hk) as [->|Hnb]; [destruct Hi; congruence|]. exists i. split; [exact Hi|]. split; [exact Hnb|exact Vi].
  - intros k Hk E Hnq m Hm. destruct (New k E (proj1 Hk)) as [->|Hnb]; [|contradiction]. rewrite (Vn m Hm). split; [lia|reflexivity].
  - intros k Hk. split; [apply (isnb_lt i k Hk)|apply Vn, Hk].
  - exact Vi.
Qed.

Lemma w_final l : (forall j, j < i -> j < n -> lb l0 j <> UNCLASSIFIED) -> WInv i c l0 [] l -> Inv (S i) (S c) l.
Proof.
  intros Hseen W. assert (Hi' := proj1 Hi).
  assert (D : forall k, cc k -> lb l k = Z.of_nat c -> forall m, isnb k m -> (0 <= lb l m)%Z /\ (cc m -> lb l m = Z.of_nat c)).
  { intros k Hk E m Hm. apply (w_done _ _ _ _ _ W k Hk E (fun x => x) m Hm). }
  assert (Old : forall k, k < n -> lb l k <> Z.of_nat c -> lb l k = lb l0 k).
  { intros k Hk Hne. destruct (w_mono _ _ _ _ _ W k Hk); [contradiction|assumption]. }
  assert (Pos : forall k, k < n -> (0 <= lb l0 k)%Z -> (0 <= lb l k)%Z).
  { intros k Hk Hp. destruct (w_mono _ _ _ _ _ W k Hk) as [E|E]; lia. }
  (* a core point not in cluster c keeps an old label *)
  assert (Cl : forall k, cc k -> lb l k <> Z.of_nat c -> lb l k = lb l0 k) by (intros k Hk; apply Old, Hk).
  split.
  - apply (w_len _ _ _ _ _ W).
  - intros j Hj. destruct (w_mono _ _ _ _ _ W j Hj) as [E|E]; [right; right; lia|]. rewrite E.
    destruct (iv_rng _ _ _ HI j Hj) as [Y|[Y|Y]]; auto. right; right; lia.
  - intros j Hj Hjn. destruct (w_mono _ _ _ _ _ W j Hjn) as [E|E]; [rewrite E; unfold UNCLASSIFIED; lia|].
    destruct (Nat.eq_dec j i) as [->|]; [rewrite (w_start _ _ _ _ _ W); unfold UNCLASSIFIED; lia|]. rewrite E. apply Hseen; lia.
  - intros j Hj E. destruct (w_mono _ _ _ _ _ W j (proj1 Hj)) as [Y|Y]; [rewrite Y in E; unfold NOISE in E; lia|].
    rewrite Y in E. apply (iv_noise _ _ _ HI j Hj E).
  - intros j k Hj E Hnb. destruct (Z.eq_dec (lb l j) (Z.of_nat c)) as [Ec|Ec]; [apply (D j Hj Ec k Hnb)|].
    rewrite (Cl j Hj Ec) in E. apply Pos; [apply (isnb_lt j k Hnb)|]. apply (iv_nb _ _ _ HI j k Hj E Hnb).
  - intros j k Hj Hk E Hp. destruct (Z.eq_dec (lb l j) (Z.of_nat c)) as [Ec|Ec].
    + eapply rt_trans; [apply conn_sym, (w_conn _ _ _ _ _ W j Hj Ec)|]. apply (w_conn _ _ _ _ _ W k Hk). congruence.
    + assert (Ek : lb l k <> Z.of_nat c) by congruence. rewrite (Cl j Hj Ec) in E, Hp. rewrite (Cl k Hk Ek) in E. apply (iv_conn _ _ _ HI j k Hj Hk E Hp).
  - intros j k Hjk Hp. destruct Hjk as (Hj & Hk & Hnb). destruct (Z.eq_dec (lb l j) (Z.of_nat c)) as [Ec|Ec].
    + rewrite Ec. apply (D j Hj Ec k Hnb), Hk.
    + destruct (Z.eq_dec (lb l k) (Z.of_nat c)) as [Ek|Ek].
      * exfalso. apply Ec. apply (D k Hk Ek j); [|exact Hj]. apply isnb_sym; [apply Hj|exact Hnb].
      * rewrite (Cl j Hj Ec) in Hp. rewrite (Cl j Hj Ec), (Cl k Hk Ek). apply (iv_link _ _ _ HI j k); [split; [exact Hj|split; [exact Hk|exact Hnb]]|exact Hp].
  - intros j Hj Hnc Hp. destruct (Z.eq_dec (lb l j) (Z.of_nat c)) as [Ec|Ec].
    + rewrite Ec. apply (w_bord _ _ _ _ _ W j Hj Hnc Ec).
    + rewrite (Old j Hj Ec) in Hp. destruct (iv_bord _ _ _ HI j Hj Hnc Hp) as (k & K1 & K2 & K3).
      exists k. split; [exact K1|]. split; [exact K2|]. rewrite (Old j Hj Ec). rewrite (w_old _ _ _ _ _ W k K1); [exact K3|lia].
  - intros d Hd. destruct (Nat.eq_dec d c) as [->|Hne].
    + exists i. split; [exact Hi|]. split; [apply (w_start _ _ _ _ _ W)|]. intros j Hj Hor.
      destruct (le_lt_dec i j) as [|Hlt]; [assumption|exfalso]. assert (Hs := Hseen j Hlt (proj1 Hj)).
      destruct (iv_rng _ _ _ HI j (proj1 Hj)) as [Y|[Y|Y]]; [contradiction|apply (iv_noise _ _ _ HI j Hj Y)|].
      rewrite (w_old _ _ _ _ _ W j Hj) in Hor by lia. destruct Hor as [Z|Z]; [lia|contradiction].
    + destruct (iv_first _ _ _ HI d) as (r & R1 & R2 & R3); [lia|]. exists r. split; [exact R1|]. split; [rewrite (w_old _ _ _ _ _ W r R1); [exact R2|lia]|].
      intros j Hj Hor. apply R3; [exact Hj|]. destruct (w_mono _ _ _ _ _ W j (proj1 Hj)) as [E|E].
      * destruct (iv_rng _ _ _ HI j (proj1 Hj)) as [Y|[Y|Y]]; [right; exact Y|exfalso; apply (iv_noise _ _ _ HI j Hj Y)|].
        exfalso. assert (X := w_old _ _ _ _ _ W j Hj). lia.
      * rewrite <- E. exact Hor.
Qed.
End Cluster.

Lemma uncl_le l : uncl l <= n.
Proof. unfold uncl. transitivity (length (seq 0 n)); [|rewrite seq_length; lia]. induction (seq 0 n) as [|x s IH]; simpl; [lia|]. destruct (_ =? _)%Z; simpl; lia. Qed.

Lemma expand_inv fuel i c l : 2 * n <= fuel -> i < n -> Inv i c l -> lb l i = UNCLASSIFIED ->
  exists l' b, expand C fuel i (Z.of_nat c) l = Some (l', b) /\ Inv (S i) (if b then S c else c) l'.
Proof.
  intros Hf Hi HI Hun. unfold expand. rewrite Nat.ltb_antisym. fold (coreb i). destruct (coreb i) eqn:Ec; cbn [negb].
  - assert (Hcc : cc i) by (split; assumption).
    destruct (run_seeds_inv i c l HI Hun fuel (neighbours C i) _ (w_init i c l HI Hcc Hun)) as (l' & E & W).
    + assert (X := uncl_le (fold_left (fun l h => upd l h (Z.of_nat c)) (neighbours C i) (upd l i (Z.of_nat c)))).
      assert (Y : length (neighbours C i) <= length (seq 0 n)). { apply NoDup_incl_length; [apply nb_nodup|]. intros j Hj. apply in_seq. assert (Z := isnb_lt i j Hj). lia. }
      rewrite seq_length in Y. lia.
    + rewrite E. exists l', true. split; [reflexivity|]. apply (w_final i c l HI Hcc); [apply (iv_seen _ _ _ HI)|exact W].
  - exists (upd l i NOISE), false. split; [reflexivity|]. assert (Hl := iv_len _ _ _ HI).
    assert (V : forall k, lb (upd l i NOISE) k = if Nat.eqb k i then NOISE else lb l k) by (intros; apply lb_upd; rewrite Hl; exact Hi).
    assert (Nc : forall k, cc k -> lb (upd l i NOISE) k = lb l k).
    { intros k Hk. rewrite V. destruct (Nat.eqb_spec k i) as [->|]; [destruct Hk; congruence|reflexivity]. }
    (* a neighbour of a labelled core point is labelled, hence not i *)
    assert (Nl : forall k, (0 <= lb l k)%Z -> lb (upd l i NOISE) k = lb l k).
    { intros k Hk. rewrite V. destruct (Nat.eqb_spec k i) as [->|]; [rewrite Hun in Hk; unfold UNCLASSIFIED in Hk; lia|reflexivity]. }
    split.
    + rewrite upd_length. exact Hl.
    + intros j Hj. rewrite V. destruct (Nat.eqb j i); [auto|]. apply (iv_rng _ _ _ HI j Hj).
    + intros j Hj Hjn. rewrite V. destruct (Nat.eqb_spec j i); [unfold NOISE, UNCLASSIFIED; lia|]. apply (iv_seen _ _ _ HI); lia.
    + intros j Hj. rewrite (Nc j Hj). apply (iv_noise _ _ _ HI j Hj).
    + intros j k Hj Hp Hnb. rewrite (Nc j Hj) in Hp. assert (X := iv_nb _ _ _ HI j k Hj Hp Hnb). rewrite (Nl k X). exact X.
    + intros j k Hj Hk. rewrite (Nc j Hj), (Nc k Hk). apply (iv_conn _ _ _ HI j k Hj Hk).
    + intros j k Hjk. assert (Hj := proj1 Hjk). assert (Hk := proj1 (proj2 Hjk)). rewrite (Nc j Hj), (Nc k Hk). apply (iv_link _ _ _ HI j k Hjk).
    + intros j Hj Hnc Hp. assert (X : (0 <= lb l j)%Z).
      { rewrite V in Hp. destruct (Nat.eqb_spec j i); [unfold NOISE in Hp; lia|exact Hp]. }
      rewrite (Nl j X). destruct (iv_bord _ _ _ HI j Hj Hnc X) as (k & K1 & K2 & K3). exists k. rewrite (Nc k K1). auto.
    + intros d Hd. destruct (iv_first _ _ _ HI d Hd) as (r & R1 & R2 & R3). exists r. rewrite (Nc r R1). split; [exact R1|]. split; [exact R2|].
      intros j Hj. rewrite (Nc j Hj). apply (R3 j Hj).
Qed.

Lemma loop_inv fuel : 2 * n <= fuel -> forall m i c l, i + m = n -> Inv i c l ->
  exists l' k, dbscan_loop C fuel (seq i m) c l = Some l' /\ Inv n k l'.
Proof.
  intros Hf. induction m as [|m IH]; intros i c l Hm HI; cbn [seq dbscan_loop].
  - exists l, c. split; [reflexivity|]. replace n with i by lia. exact HI.
  - change (nth i l UNCLASSIFIED) with (lb l i). destruct (Z.eqb_spec (lb l i) UNCLASSIFIED) as [E|E].
    + destruct (expand_inv fuel i c l Hf ltac:(lia) HI E) as (l' & b & Ex & HI'). rewrite Ex. destruct b; apply IH; try lia; exact HI'.
    + apply IH; [lia|]. destruct HI. split; auto. intros j Hj Hjn. destruct (Nat.eq_dec j i) as [->|]; [exact E|]. apply iv_seen0; lia.
Qed.

Lemma inv0 : Inv 0 0 (repeat UNCLASSIFIED n).
Proof.
  assert (V : forall j, lb (repeat UNCLASSIFIED n) j = UNCLASSIFIED).
  { intros j. unfold lb. destruct (lt_dec j n) as [H|H]; [|rewrite nth_overflow; [reflexivity|rewrite repeat_length; lia]].
    assert (X := nth_In (repeat UNCLASSIFIED n) UNCLASSIFIED (n := j)). rewrite repeat_length in X. apply (repeat_spec n _ _ (X H)). }
  split; try (intros; rewrite ?V in *; unfold UNCLASSIFIED, NOISE in *; lia).
  apply repeat_length.
Qed.

Lemma conn_spec i j : conn i j <-> connected C i j.
Proof.
  assert (L : forall i j, link i j <-> linked C i j).
  { intros a b. unfold link, linked. rewrite !core_spec. unfold cc. split.
    - intros (H1 & H2 & H3). apply isnb_spec in H3; [|apply H1]. destruct H3. repeat split; try tauto. congruence.
    - intros (H1 & H2 & H3 & H4). split; [exact H1|]. split; [exact H2|]. apply isnb_spec; [apply H1|]. split; [congruence|exact H4]. }
  unfold conn, connected. split; (induction 1; [apply rt_step, L; assumption|apply rt_refl|eapply rt_trans; eassumption]).
Qed.

Lemma inv_final k l : Inv n k l -> clustering C l /\ numbered C l k.
Proof.
  intros HI. assert (CC : forall i, core C i <-> cc i) by (intros i; apply core_spec).
  assert (Cpos : forall i, cc i -> (0 <= lb l i)%Z).
  { intros i H. destruct (iv_rng _ _ _ HI i (proj1 H)) as [Y|[Y|Y]]; [exfalso; apply (iv_seen _ _ _ HI i (proj1 H) (proj1 H) Y)|exfalso; apply (iv_noise _ _ _ HI i H Y)|lia]. }
  split.
  - split.
    + apply (iv_len _ _ _ HI).
    + intros i Hi. apply Cpos, CC, Hi.
    + intros i j Hi Hj. apply CC in Hi. apply CC in Hj. rewrite <- conn_spec. split.
      * intros E. apply (iv_conn _ _ _ HI i j Hi Hj E), Cpos, Hi.
      * intros H. assert (G : forall x y, conn x y -> cc x -> lb l x = lb l y).
        { intros x y Hxy. apply clos_rt_rt1n in Hxy. induction Hxy as [x|x y z Hxy Hyz IH]; intros Hx; [reflexivity|].
          rewrite <- IH by apply Hxy. symmetry. apply (iv_link _ _ _ HI x y Hxy), Cpos, Hx. }
        apply (G i j H Hi).
    + intros i Hi Hnc (j & Hj & Hw). assert (Hb : coreb i = false).
      { destruct (coreb i) eqn:E; [|reflexivity]. exfalso. apply Hnc, CC. split; assumption. }
      apply CC in Hj. assert (Hne : i <> j) by (intros ->; destruct Hj; congruence).
      assert (Hnb : isnb j i) by (apply isnb_spec; [apply Hj|]; split; [exact Hne|apply within_sym, Hw]).
      assert (Hp := iv_nb _ _ _ HI j i Hj (Cpos j Hj) Hnb).
      destruct (iv_bord _ _ _ HI i Hi Hb Hp) as (m & M1 & M2 & M3). exists m. split; [apply CC, M1|].
      apply isnb_spec in M2; [|apply M1]. split; [apply within_sym, M2|]. unfold lb in M3. symmetry. exact M3.
    + intros i Hi Hnc Hno. assert (Hb : coreb i = false).
      { destruct (coreb i) eqn:E; [|reflexivity]. exfalso. apply Hnc, CC. split; assumption. }
      destruct (iv_rng _ _ _ HI i Hi) as [Y|[Y|Y]]; [exfalso; apply (iv_seen _ _ _ HI i Hi Hi Y)|exact Y|].
      destruct (iv_bord _ _ _ HI i Hi Hb) as (m & M1 & M2 & M3); [lia|]. exfalso. apply Hno. exists m. split; [apply CC, M1|].
      apply isnb_spec in M2; [|apply M1]. apply within_sym, M2.
  - split.
    + intros i Hi. destruct (iv_rng _ _ _ HI i Hi) as [Y|[Y|Y]]; [exfalso; apply (iv_seen _ _ _ HI i Hi Hi Y)|left; exact Y|right; exact Y].
    + intros c Hc. destruct (iv_first _ _ _ HI c Hc) as (r & R1 & R2 & R3). exists r. split; [apply CC, R1|]. split; [exact R2|].
      intros j Hj E. apply R3; [apply CC, Hj|left; exact E].
Qed.

Lemma dbscan_ok fuel : 2 * n <= fuel -> exists l k, dbscan C fuel = Some l /\ clustering C l /\ numbered C l k.
Proof.
  intros Hf. unfold dbscan. fold n. destruct (loop_inv fuel Hf n 0 0 _ ltac:(lia) inv0) as (l & k & E & HI).
  exists l, k. split; [exact E|]. apply inv_final, HI.
Qed.

Lemma run_seeds_mono c : forall f q l l', run_seeds C f c q l = Some l' -> forall f', f <= f' -> run_seeds C f' c q l = Some l'.
Proof.
  induction f as [|f IH]; intros q l l' H f' Hf; destruct q as [|h q]; cbn [run_seeds] in *; try discriminate; try (destruct f'; exact H).
  destruct f' as [|f']; [lia|]. cbn [run_seeds]. apply (IH _ _ _ H). lia.
Qed.
Lemma dbscan_mono f f' l : f <= f' -> dbscan C f = Some l -> dbscan C f' = Some l.
Proof.
  intros Hf. unfold dbscan. generalize (repeat UNCLASSIFIED (length (c_pts C))). generalize 0 at 2 4. generalize (seq 0 (length (c_pts C))).
  intros is. induction is as [|i is IH]; intros c s H; cbn [dbscan_loop] in *; [exact H|].
  destruct (_ =? _)%Z; [|apply IH, H]. unfold expand in *. destruct (Nat.ltb _ _); [apply IH, H|].
  destruct (run_seeds C f (Z.of_nat c) (neighbours C i) _) as [l1|] eqn:E; [|discriminate]. rewrite (run_seeds_mono _ _ _ _ _ E f' Hf). apply IH, H.
Qed.
End DB.
