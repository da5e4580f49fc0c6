(** Proofs about the CMergeBookKeeper model. *)
From Verif Require Import Base CMergeBK_Model.

(* ---------------------------------------------------------------- *)
(** ** The triangular table *)

Definition shape (n : nat) (t : list (list bool)) : Prop :=
  length t = n /\ forall i, i < n -> length (nth i t []) = n - i.

Definition tget (t : list (list bool)) (i j : nat) : bool := nth j (nth i t []) false.

Lemma at2_ok n t i j : shape n t -> i < n -> j < n - i -> at2 t i j = Ok (tget t i j).
Proof.
  intros [Hl Hr] Hi Hj. unfold at2, tget.
  rewrite (at_ok t i []) by lia. simpl. apply at_ok. rewrite Hr by lia. lia.
Qed.

Lemma set2_ok n t i j b : shape n t -> i < n -> j < n - i ->
  exists t', set2 t i j b = Ok t' /\ shape n t' /\
    forall x y, tget t' x y = if (x =? i) && (y =? j) then b else tget t x y.
Proof.
  intros [Hl Hr] Hi Hj. unfold set2, tget.
  rewrite (at_ok t i []) by lia. cbn [obind].
  rewrite set_at_ok by (rewrite Hr by lia; lia). cbn [obind].
  rewrite set_at_ok by lia.
  eexists; split; [reflexivity|]. split.
  - split; [rewrite upd_length; exact Hl|].
    intros k Hk. rewrite nth_upd. destruct (Nat.eqb_spec k i) as [->|Hne]; cbn [andb].
    + destruct (Nat.ltb_spec i (length t)); [|lia]. rewrite upd_length. apply Hr; lia.
    + apply Hr; lia.
  - intros x y. rewrite nth_upd.
    destruct (Nat.eqb_spec x i) as [->|Hne]; cbn [andb]; [|reflexivity].
    destruct (Nat.ltb_spec i (length t)); [|lia].
    rewrite nth_upd. rewrite Hr by lia.
    destruct (Nat.ltb_spec j (n - i)); [|lia].
    rewrite andb_true_r. reflexivity.
Qed.

Lemma shape_reset n : shape n (proh (reset n)).
Proof.
  unfold reset; simpl. split; [rewrite map_length, seq_length; reflexivity|].
  intros i Hi. rewrite nth_map_seq by lia. apply repeat_length.
Qed.

Lemma tget_reset n i j : tget (proh (reset n)) i j = false.
Proof.
  unfold tget, reset; simpl. destruct (Nat.lt_ge_cases i n) as [Hi|Hi].
  - rewrite nth_map_seq by lia.
    destruct (Nat.lt_ge_cases j (n - i)) as [Hj|Hj].
    + apply nth_repeat.
    + apply nth_overflow. rewrite repeat_length. lia.
  - rewrite (nth_overflow (map _ _)) by (rewrite map_length, seq_length; lia). apply nth_nil.
Qed.

(** the inner "shift left" loop of a row *)
Lemma shift_loop n t i lo hi : shape n t -> i < n -> lo <= hi -> hi < n - i ->
  exists t', for_ (range lo hi) (fun t k => do v <- at2 t i (k + 1); set2 t i k v) t = Ok t' /\
    shape n t' /\
    forall x y, tget t' x y =
      if (x =? i) && (lo <=? y) && (y <? hi) then tget t i (y + 1) else tget t x y.
Proof.
  intros Hs Hi Hlo Hhi.
  destruct (for_range_inv
    (fun k t' => shape n t' /\ forall x y, tget t' x y =
        if (x =? i) && (lo <=? y) && (y <? k) then tget t i (y + 1) else tget t x y)
    (fun t k => do v <- at2 t i (k + 1); set2 t i k v) lo hi t Hlo) as (t' & E & Hs' & Hg).
  - split; [exact Hs|]. intros x y.
    destruct (x =? i), (Nat.leb_spec lo y), (Nat.ltb_spec y lo); simpl; try reflexivity; lia.
  - intros k t1 Hk [Hs1 Hg1].
    rewrite (at2_ok n) by (try assumption; lia). cbn [obind].
    destruct (set2_ok n t1 i k (tget t1 i (k + 1)) Hs1) as (t2 & E2 & Hs2 & Hg2); [lia|lia|].
    exists t2. split; [exact E2|]. split; [exact Hs2|].
    intros x y. rewrite Hg2, !Hg1. rewrite Nat.eqb_refl.
    destruct (Nat.eqb_spec x i) as [->|Hx]; cbn [andb]; [|reflexivity].
    destruct (Nat.eqb_spec y k) as [->|Hy].
    + destruct (Nat.leb_spec lo (k+1)), (Nat.ltb_spec (k+1) k), (Nat.leb_spec lo k), (Nat.ltb_spec k (S k));
        simpl; try reflexivity; lia.
    + destruct (Nat.leb_spec lo y), (Nat.ltb_spec y k), (Nat.ltb_spec y (S k)); simpl; try reflexivity; lia.
  - exists t'. split; [exact E|]. split; assumption.
Qed.

(** entry (a,b), a<b<c, of the table, in coordinates of output clusters *)
Definition ent (t : list (list bool)) (a b : nat) : bool := tget t a (b - a).

Ltac bcase :=
  repeat match goal with
  | |- context[?a =? ?b] => destruct (Nat.eqb_spec a b); try lia
  | |- context[?a <=? ?b] => destruct (Nat.leb_spec a b); try lia
  | |- context[?a <? ?b] => destruct (Nat.ltb_spec a b); try lia
  end; cbn [andb orb negb].

(** what loop1 does to cells of the active part *)
Lemma loop1_ok n c o1 o2 t : shape n t -> o1 < o2 -> o2 < c -> c <= n ->
  exists t', loop1 o1 o2 c t = Ok t' /\ shape n t' /\
    (forall x y, x < o1 -> x + y < c - 1 -> tget t' x y =
       if y =? o1 - x then tget t x (o1 - x) || tget t x (o2 - x)
       else if o2 - x <=? y then tget t x (y + 1) else tget t x y) /\
    (forall x y, o1 <= x -> tget t' x y = tget t x y).
Proof.
  intros Hs H12 H2c Hcn. unfold loop1.
  destruct (for_range_inv
    (fun k t' => shape n t' /\
      (forall x y, x < k -> x + y < c - 1 -> tget t' x y =
        if y =? o1 - x then tget t x (o1 - x) || tget t x (o2 - x)
        else if o2 - x <=? y then tget t x (y + 1) else tget t x y) /\
      (forall x y, k <= x -> tget t' x y = tget t x y))
    (fun t index =>
    do x1 <- at2 t index (o1 - index);
    do x2 <- at2 t index (o2 - index);
    do t <- set2 t index (o1 - index) (x1 || x2);
    do t <- for_ (range (o2 - index) (c - index - 1)) (fun t k =>
              do v <- at2 t index (k + 1);
              set2 t index k v) t;
    set2 t index (c - index - 1) false) 0 o1 t (Nat.le_0_l _)) as (t' & E & Hs' & Ha & Hb).
  - split; [exact Hs|]. split; [intros; lia|reflexivity].
  - intros i t1 Hi (Hs1 & Hlt & Hge).
    rewrite (at2_ok n) by (try assumption; lia). cbn [obind].
    rewrite (at2_ok n) by (try assumption; lia). cbn [obind].
    destruct (set2_ok n t1 i (o1 - i) (tget t1 i (o1 - i) || tget t1 i (o2 - i)) Hs1)
      as (t2 & E2 & Hs2 & Hg2); [lia|lia|]. rewrite E2; cbn [obind].
    destruct (shift_loop n t2 i (o2 - i) (c - i - 1) Hs2) as (t3 & E3 & Hs3 & Hg3); [lia|lia|lia|].
    rewrite E3; cbn [obind].
    destruct (set2_ok n t3 i (c - i - 1) false Hs3) as (t4 & E4 & Hs4 & Hg4); [lia|lia|].
    exists t4. split; [exact E4|]. split; [exact Hs4|]. split.
    + intros x y Hx Hxy. rewrite Hg4.
      destruct (Nat.eq_dec x i) as [->|Hne].
      * rewrite !Hg3, !Hg2, !Hge by lia. bcase; try reflexivity; subst; try lia.
      * rewrite Hg3, !Hg2. bcase; rewrite Hlt by lia; bcase; try reflexivity.
    + intros x y Hx. rewrite Hg4, Hg3, !Hg2. bcase; apply Hge; lia.
  - exists t'. auto.
Qed.

Lemma loop2_ok n c o1 o2 t : shape n t -> o1 < o2 -> o2 < c -> c <= n ->
  exists t', loop2 o1 o2 c t = Ok t' /\ shape n t' /\
    (forall y, 1 <= y -> o1 + y < c - 1 -> tget t' o1 y =
       if y + o1 <? o2 then tget t o1 y || tget t (y + o1) (o2 - (y + o1))
       else tget t o1 (y + 1) || tget t o2 (y + 1 + o1 - o2)) /\
    (forall x y, x <> o1 -> tget t' x y = tget t x y).
Proof.
  intros Hs H12 H2c Hcn. unfold loop2.
  destruct (for_range_inv
    (fun k t' => shape n t' /\
      (forall y, 1 <= y -> y < k -> tget t' o1 y =
        if y + o1 <? o2 then tget t o1 y || tget t (y + o1) (o2 - (y + o1))
        else tget t o1 (y + 1) || tget t o2 (y + 1 + o1 - o2)) /\
      (forall x y, x <> o1 \/ k <= y -> tget t' x y = tget t x y))
    (fun t k =>
    if k + o1 <? o2 then
      do x1 <- at2 t o1 k;
      do x2 <- at2 t (k + o1) (o2 - (k + o1));
      set2 t o1 k (x1 || x2)
    else
      do x1 <- at2 t o1 (k + 1);
      do x2 <- at2 t o2 (k + 1 + o1 - o2);
      set2 t o1 k (x1 || x2)) 1 (c - o1 - 1) t) as (t1 & E & Hs1 & Ha & Hb); [lia| | |].
  - split; [exact Hs|]. split; [intros; lia|reflexivity].
  - intros k t1 Hk (Hs1 & Hlt & Hge).
    destruct (Nat.ltb_spec (k + o1) o2) as [Hc|Hc].
    + rewrite (at2_ok n) by (try assumption; lia). cbn [obind].
      rewrite (at2_ok n) by (try assumption; lia). cbn [obind].
      destruct (set2_ok n t1 o1 k (tget t1 o1 k || tget t1 (k + o1) (o2 - (k + o1))) Hs1)
        as (t2 & E2 & Hs2 & Hg2); [lia|lia|].
      exists t2. split; [exact E2|]. split; [exact Hs2|]. split.
      * intros y Hy1 Hy2. rewrite Hg2, Nat.eqb_refl. cbn [andb].
        destruct (Nat.eqb_spec y k) as [->|Hne].
        -- rewrite !Hge by lia. bcase; reflexivity.
        -- apply Hlt; lia.
      * intros x y Hxy. rewrite Hg2.
        destruct (Nat.eqb_spec x o1), (Nat.eqb_spec y k); cbn [andb]; try lia; apply Hge; lia.
    + rewrite (at2_ok n) by (try assumption; lia). cbn [obind].
      rewrite (at2_ok n) by (try assumption; lia). cbn [obind].
      destruct (set2_ok n t1 o1 k (tget t1 o1 (k + 1) || tget t1 o2 (k + 1 + o1 - o2)) Hs1)
        as (t2 & E2 & Hs2 & Hg2); [lia|lia|].
      exists t2. split; [exact E2|]. split; [exact Hs2|]. split.
      * intros y Hy1 Hy2. rewrite Hg2, Nat.eqb_refl. cbn [andb].
        destruct (Nat.eqb_spec y k) as [->|Hne].
        -- rewrite !Hge by lia. bcase; reflexivity.
        -- apply Hlt; lia.
      * intros x y Hxy. rewrite Hg2.
        destruct (Nat.eqb_spec x o1), (Nat.eqb_spec y k); cbn [andb]; try lia; apply Hge; lia.
  - rewrite E; cbn [obind].
    destruct (set2_ok n t1 o1 (c - o1 - 1) false Hs1) as (t2 & E2 & Hs2 & Hg2); [lia|lia|].
    exists t2. split; [exact E2|]. split; [exact Hs2|]. split.
    + intros y Hy1 Hy2. rewrite Hg2. destruct (Nat.eqb_spec y (c - o1 - 1)); [lia|].
      rewrite andb_false_r. apply Ha; lia.
    + intros x y Hx. rewrite Hg2. destruct (Nat.eqb_spec x o1); [lia|]. cbn [andb]. apply Hb; lia.
Qed.

Lemma loop3_ok n c o1 o2 t : shape n t -> o1 < o2 -> o2 < c -> c <= n ->
  exists t', loop3 o1 o2 c t = Ok t' /\ shape n t' /\
    (forall x y, o1 < x < o2 -> x + y < c - 1 -> tget t' x y =
       if o2 - x <=? y then tget t x (y + 1) else tget t x y) /\
    (forall x y, x <= o1 \/ o2 <= x -> tget t' x y = tget t x y).
Proof.
  intros Hs H12 H2c Hcn. unfold loop3.
  destruct (for_range_inv
    (fun k t' => shape n t' /\
      (forall x y, o1 < x < k -> x + y < c - 1 -> tget t' x y =
        if o2 - x <=? y then tget t x (y + 1) else tget t x y) /\
      (forall x y, x <= o1 \/ k <= x -> tget t' x y = tget t x y))
    (fun t index =>
    do t <- for_ (range (o2 - index) (c - index - 1)) (fun t k =>
              do v <- at2 t index (k + 1);
              set2 t index k v) t;
    set2 t index (c - index - 1) false) (o1 + 1) o2 t) as (t' & E & Hs' & Ha & Hb); [lia| | |].
  - split; [exact Hs|]. split; [intros; lia|reflexivity].
  - intros i t1 Hi (Hs1 & Hlt & Hge).
    destruct (shift_loop n t1 i (o2 - i) (c - i - 1) Hs1) as (t3 & E3 & Hs3 & Hg3); [lia|lia|lia|].
    rewrite E3; cbn [obind].
    destruct (set2_ok n t3 i (c - i - 1) false Hs3) as (t4 & E4 & Hs4 & Hg4); [lia|lia|].
    exists t4. split; [exact E4|]. split; [exact Hs4|]. split.
    + intros x y Hx Hxy. rewrite Hg4.
      destruct (Nat.eq_dec x i) as [->|Hne].
      * rewrite !Hg3, !Hge by lia. bcase; reflexivity.
      * rewrite Hg3. bcase; rewrite Hlt by lia; bcase; reflexivity.
    + intros x y Hx. rewrite Hg4, Hg3. bcase; apply Hge; lia.
  - exists t'. split; [exact E|]. split; [exact Hs'|]. split; [intros; apply Ha; lia|intros; apply Hb; lia].
Qed.

Lemma loop4_ok n c o1 o2 t : shape n t -> o1 < o2 -> o2 < c -> c <= n ->
  exists t', loop4 o1 o2 c t = Ok t' /\ shape n t' /\
    (forall x y, o2 <= x -> x + y < c - 1 -> tget t' x y = tget t (x + 1) y) /\
    (forall x y, x < o2 -> tget t' x y = tget t x y).
Proof.
  intros Hs H12 H2c Hcn. unfold loop4.
  destruct (for_range_inv
    (fun k t' => shape n t' /\
      (forall x y, o2 <= x < k -> x + y < c - 1 -> tget t' x y = tget t (x + 1) y) /\
      (forall x y, x < o2 \/ k <= x -> tget t' x y = tget t x y))
    (fun t index =>
    do row <- at_ t index;
    for_ (range 0 (length row)) (fun t k =>
      do next <- at_ t (index + 1);
      if k <? length next then
        do v <- at2 t (index + 1) k;
        set2 t index k v
      else set2 t index k false) t) o2 (c - 1) t) as (t' & E & Hs' & Ha & Hb); [lia| | |].
  - split; [exact Hs|]. split; [intros; lia|reflexivity].
  - intros i t1 Hi (Hs1 & Hlt & Hge).
    rewrite (at_ok t1 i []) by (destruct Hs1; lia). cbn [obind].
    assert (Hrow : length (nth i t1 []) = n - i) by (apply Hs1; lia). rewrite Hrow.
    destruct (for_range_inv
      (fun k t' => shape n t' /\
        (forall y, y < k -> tget t' i y = if y <? n - (i + 1) then tget t1 (i + 1) y else false) /\
        (forall x y, x <> i -> tget t' x y = tget t1 x y))
      (fun t k =>
        do next <- at_ t (i + 1);
        if k <? length next then
          do v <- at2 t (i + 1) k;
          set2 t i k v
        else set2 t i k false) 0 (n - i) t1 (Nat.le_0_l _)) as (t2 & E2 & Hs2 & Ha2 & Hb2).
    + split; [exact Hs1|]. split; [intros; lia|reflexivity].
    + intros k t2 Hk (Hs2 & Hlt2 & Hne2).
      rewrite (at_ok t2 (i + 1) []) by (destruct Hs2; lia). cbn [obind].
      assert (Hrow2 : length (nth (i + 1) t2 []) = n - (i + 1)) by (apply Hs2; lia). rewrite Hrow2.
      destruct (Nat.ltb_spec k (n - (i + 1))) as [Hk2|Hk2].
      * rewrite (at2_ok n) by (try assumption; lia). cbn [obind].
        destruct (set2_ok n t2 i k (tget t2 (i + 1) k) Hs2) as (t3 & E3 & Hs3 & Hg3); [lia|lia|].
        exists t3. split; [exact E3|]. split; [exact Hs3|]. split.
        -- intros y Hy. rewrite Hg3, Nat.eqb_refl. cbn [andb].
           destruct (Nat.eqb_spec y k) as [->|Hn].
           ++ rewrite Hne2 by lia. bcase; reflexivity.
           ++ apply Hlt2; lia.
        -- intros x y Hx. rewrite Hg3. destruct (Nat.eqb_spec x i); [lia|]. cbn [andb]. apply Hne2; lia.
      * destruct (set2_ok n t2 i k false Hs2) as (t3 & E3 & Hs3 & Hg3); [lia|lia|].
        exists t3. split; [exact E3|]. split; [exact Hs3|]. split.
        -- intros y Hy. rewrite Hg3, Nat.eqb_refl. cbn [andb].
           destruct (Nat.eqb_spec y k) as [->|Hn].
           ++ bcase; reflexivity.
           ++ apply Hlt2; lia.
        -- intros x y Hx. rewrite Hg3. destruct (Nat.eqb_spec x i); [lia|]. cbn [andb]. apply Hne2; lia.
    + exists t2. split; [exact E2|]. split; [exact Hs2|]. split.
      * intros x y Hx Hxy. destruct (Nat.eq_dec x i) as [->|Hn].
        -- rewrite Ha2 by lia. rewrite Hge by lia. bcase; reflexivity.
        -- rewrite Hb2 by lia. apply Hlt; lia.
      * intros x y Hx. rewrite Hb2 by lia. apply Hge; lia.
  - exists t'. split; [exact E|]. split; [exact Hs'|]. split; [intros; apply Ha; lia|intros; apply Hb; lia].
Qed.

(** the symmetric reading of the table *)
Definition sym (t : list (list bool)) (x y : nat) : bool :=
  if x <? y then ent t x y else if y <? x then ent t y x else false.

Lemma sym_comm t x y : sym t x y = sym t y x.
Proof. unfold sym. bcase; reflexivity. Qed.

(** the four loops together: the new table is the image of the old one under [relabel] *)
Lemma loops_ok n c o1 o2 t : shape n t -> o1 < o2 -> o2 < c -> c <= n ->
  exists t1 t2 t3 t4,
    loop1 o1 o2 c t = Ok t1 /\ loop2 o1 o2 c t1 = Ok t2 /\ loop3 o1 o2 c t2 = Ok t3 /\
    loop4 o1 o2 c t3 = Ok t4 /\ shape n t4 /\
    (forall a b, a < b -> b < c - 1 ->
       (ent t4 a b = true <->
        exists x y, x < c /\ y < c /\ relabel o1 o2 x = a /\ relabel o1 o2 y = b /\ sym t x y = true)).
Proof.
  intros Hs H12 H2c Hcn.
  destruct (loop1_ok n c o1 o2 t Hs H12 H2c Hcn) as (t1 & E1 & Hs1 & A1 & B1).
  destruct (loop2_ok n c o1 o2 t1 Hs1 H12 H2c Hcn) as (t2 & E2 & Hs2 & A2 & B2).
  destruct (loop3_ok n c o1 o2 t2 Hs2 H12 H2c Hcn) as (t3 & E3 & Hs3 & A3 & B3).
  destruct (loop4_ok n c o1 o2 t3 Hs3 H12 H2c Hcn) as (t4 & E4 & Hs4 & A4 & B4).
  exists t1, t2, t3, t4. repeat (split; [assumption|]).
  intros a b Hab Hbc.
  (* preimages of a point under relabel *)
  assert (Hpre : forall x v, x < c -> relabel o1 o2 x = v ->
            (v = o1 /\ (x = o1 \/ x = o2)) \/ (v <> o1 /\ v < o2 /\ x = v) \/ (v <> o1 /\ o2 <= v /\ x = v + 1)).
  { intros x v Hx. unfold relabel. bcase; lia. }
  assert (Hr1 : relabel o1 o2 o1 = o1) by (unfold relabel; bcase; lia).
  assert (Hr2 : relabel o1 o2 o2 = o1) by (unfold relabel; bcase; lia).
  assert (Hrlt : forall v, v < o2 -> v <> o1 -> relabel o1 o2 v = v) by (intros v ? ?; unfold relabel; bcase; lia).
  assert (Hrge : forall v, o2 <= v -> relabel o1 o2 (v + 1) = v) by (intros v ?; unfold relabel; bcase; lia).
  (* compute the entry *)
  destruct (Nat.lt_trichotomy a o1) as [Ha|[Ha|Ha]].
  - (* a < o1 *)
    assert (Hent : ent t4 a b = if b =? o1 then ent t a o1 || ent t a o2
                               else if o2 <=? b then ent t a (b + 1) else ent t a b).
    { unfold ent. rewrite B4 by lia. rewrite B3 by lia. rewrite B2 by lia. rewrite A1 by lia.
      bcase; try reflexivity. f_equal; lia. }
    rewrite Hent. split.
    + destruct (Nat.eqb_spec b o1) as [->|Hb].
      * rewrite orb_true_iff. intros [H|H].
        -- exists a, o1. rewrite (Hrlt a) by lia. repeat split; try lia; auto. unfold sym; bcase; exact H.
        -- exists a, o2. rewrite (Hrlt a) by lia. repeat split; try lia; auto. unfold sym; bcase; exact H.
      * destruct (Nat.leb_spec o2 b); intros H'.
        -- exists a, (b + 1). rewrite (Hrlt a), Hrge by lia. repeat split; try lia. unfold sym; bcase; exact H'.
        -- exists a, b. rewrite !Hrlt by lia. repeat split; try lia. unfold sym; bcase; exact H'.
    + intros (x & y & Hx & Hy & Hxa & Hyb & H).
      apply Hpre in Hxa; [|lia]. apply Hpre in Hyb; [|lia]. unfold sym in H.
      destruct Hxa as [?|[?|?]]; try lia. assert (x = a) by lia; subst x.
      destruct Hyb as [[Hb [Hy2|Hy2]]|[?|?]].
      * subst. rewrite Nat.eqb_refl. revert H; bcase; intros ->; reflexivity.
      * subst. rewrite Nat.eqb_refl. revert H; bcase. intros ->. apply orb_true_r.
      * assert (y = b) by lia; subst y. revert H; bcase; auto.
      * assert (y = b + 1) by lia; subst y. revert H; bcase; auto.
  - (* a = o1 *)
    subst a.
    assert (Hent : ent t4 o1 b = if b <? o2 then ent t o1 b || ent t b o2
                                 else ent t o1 (b + 1) || ent t o2 (b + 1)).
    { unfold ent. rewrite B4 by lia. rewrite B3 by lia. rewrite A2 by lia. rewrite !B1 by lia.
      replace (b - o1 + o1) with b by lia. bcase; [reflexivity|].
      replace (b - o1 + 1) with (b + 1 - o1) by lia. replace (b + 1 - o1 + o1 - o2) with (b + 1 - o2) by lia.
      reflexivity. }
    rewrite Hent. split.
    + destruct (Nat.ltb_spec b o2); rewrite orb_true_iff; intros [H'|H'].
      * exists o1, b. rewrite (Hrlt b) by lia. repeat split; try lia; auto. unfold sym; bcase; exact H'.
      * exists o2, b. rewrite (Hrlt b) by lia. repeat split; try lia; auto. unfold sym; bcase; exact H'.
      * exists o1, (b + 1). rewrite Hrge by lia. repeat split; try lia; auto. unfold sym; bcase; exact H'.
      * exists o2, (b + 1). rewrite Hrge by lia. repeat split; try lia; auto. unfold sym; bcase; exact H'.
    + intros (x & y & Hx & Hy & Hxa & Hyb & H).
      apply Hpre in Hxa; [|lia]. apply Hpre in Hyb; [|lia]. unfold sym in H.
      destruct Hyb as [?|[?|?]]; try lia.
      * assert (y = b) by lia; subst y. destruct Hxa as [[_ [->| ->]]|[?|?]]; try lia;
          revert H; bcase; intros ->; [reflexivity|apply orb_true_r].
      * assert (y = b + 1) by lia; subst y. destruct Hxa as [[_ [->| ->]]|[?|?]]; try lia;
          revert H; bcase; intros ->; [reflexivity|apply orb_true_r].
  - (* o1 < a *)
    assert (Hent : ent t4 a b = if a <? o2 then (if o2 <=? b then ent t a (b + 1) else ent t a b)
                                else ent t (a + 1) (b + 1)).
    { unfold ent. destruct (Nat.ltb_spec a o2).
      - rewrite B4 by lia. rewrite A3 by lia. rewrite !B2 by lia. rewrite !B1 by lia.
        bcase; try reflexivity. f_equal; lia.
      - rewrite A4 by lia. rewrite B3 by lia. rewrite B2 by lia. rewrite B1 by lia. f_equal; lia. }
    rewrite Hent. split.
    + destruct (Nat.ltb_spec a o2); [destruct (Nat.leb_spec o2 b)|]; intros H'.
      * exists a, (b + 1). rewrite Hrlt, Hrge by lia. repeat split; try lia. unfold sym; bcase; exact H'.
      * exists a, b. rewrite !Hrlt by lia. repeat split; try lia. unfold sym; bcase; exact H'.
      * exists (a + 1), (b + 1). rewrite !Hrge by lia. repeat split; try lia. unfold sym; bcase; exact H'.
    + intros (x & y & Hx & Hy & Hxa & Hyb & H).
      apply Hpre in Hxa; [|lia]. apply Hpre in Hyb; [|lia]. unfold sym in H.
      destruct Hxa as [?|[?|?]]; try lia; destruct Hyb as [?|[?|?]]; try lia.
      * assert (x = a) by lia; assert (y = b) by lia; subst; revert H; bcase; auto.
      * assert (x = a) by lia; assert (y = b + 1) by lia; subst; revert H; bcase; auto.
      * assert (x = a + 1) by lia; assert (y = b + 1) by lia; subst; revert H; bcase; auto.
Qed.

(* ---------------------------------------------------------------- *)
(** ** Equivalence closures *)
From Verif Require Import CMergeBK_Spec.

Lemma rst_mono {A} (R S : A -> A -> Prop) x y :
  (forall a b, R a b -> S a b) -> clos_refl_sym_trans A R x y -> clos_refl_sym_trans A S x y.
Proof. intros H; induction 1; [apply rst_step|apply rst_refl|apply rst_sym|eapply rst_trans]; eauto. Qed.

Lemma rst_add {A} (R S : A -> A -> Prop) i j :
  (forall a b, S a b <-> R a b \/ (a = i /\ b = j)) ->
  forall p q, clos_refl_sym_trans A S p q <->
    clos_refl_sym_trans A R p q \/
    (clos_refl_sym_trans A R p i /\ clos_refl_sym_trans A R j q) \/
    (clos_refl_sym_trans A R p j /\ clos_refl_sym_trans A R i q).
Proof.
  intros HS p q. set (E := clos_refl_sym_trans A R).
  assert (Es : forall a b, E a b -> E b a) by (intros; apply rst_sym; assumption).
  assert (Et : forall a b c, E a b -> E b c -> E a c) by (intros; eapply rst_trans; eassumption).
  split.
  - induction 1 as [a b H|a|a b _ IH|a b c _ IH1 _ IH2].
    + apply HS in H. destruct H as [H|[-> ->]]; [left; apply rst_step; exact H|].
      right; left. split; apply rst_refl.
    + left. apply rst_refl.
    + destruct IH as [H|[[H1 H2]|[H1 H2]]]; eauto 8.
    + destruct IH1 as [H|[[H1 H2]|[H1 H2]]], IH2 as [H'|[[H1' H2']|[H1' H2']]]; eauto 9.
  - assert (Hm : forall a b, E a b -> clos_refl_sym_trans A S a b).
    { intros a b; apply rst_mono. intros; apply HS; auto. }
    assert (Hij : clos_refl_sym_trans A S i j) by (apply rst_step, HS; auto).
    intros [H|[[H1 H2]|[H1 H2]]].
    + auto.
    + eapply rst_trans; [apply Hm, H1|]. eapply rst_trans; [exact Hij|]. auto.
    + eapply rst_trans; [apply Hm, H1|]. eapply rst_trans; [apply rst_sym, Hij|]. auto.
Qed.

Lemma linked_refl lg i : linked lg i i. Proof. apply rst_refl. Qed.
Lemma linked_sym lg i j : linked lg i j -> linked lg j i. Proof. apply rst_sym. Qed.
Lemma linked_trans lg i j k : linked lg i j -> linked lg j k -> linked lg i k.
Proof. apply rst_trans. Qed.

Lemma linked_app_other lg e i j :
  (forall a b, e <> (OMerge a b, ADone)) -> (linked (lg ++ [e]) i j <-> linked lg i j).
Proof.
  intros He. unfold linked. split; apply rst_mono; intros a b; rewrite in_app_iff; simpl; [|tauto].
  intros [H|[H|[]]]; [exact H|]. exfalso; eapply He; exact H.
Qed.

Lemma linked_app_merge lg a b i j :
  linked (lg ++ [(OMerge a b, ADone)]) i j <->
  linked lg i j \/ (linked lg i a /\ linked lg b j) \/ (linked lg i b /\ linked lg a j).
Proof.
  apply rst_add. intros x y. rewrite in_app_iff; simpl. split.
  - intros [H|[H|[]]]; [auto|]. inversion H; auto.
  - intros [H|[-> ->]]; auto.
Qed.

Lemma prohibited_sym lg a b : prohibited lg a b -> prohibited lg b a.
Proof. unfold prohibited; tauto. Qed.

Lemma prohibited_app_other lg e a b :
  (forall x y, e <> (OProhibit x y, ADone)) -> (prohibited (lg ++ [e]) a b <-> prohibited lg a b).
Proof.
  intros He. unfold prohibited. rewrite !in_app_iff; simpl. split; [|tauto].
  intros [[H|[H|[]]]|[H|[H|[]]]]; auto; exfalso; eapply He; exact H.
Qed.

Lemma prohibited_app_prohibit lg x y a b :
  prohibited (lg ++ [(OProhibit x y, ADone)]) a b <->
  prohibited lg a b \/ (a = x /\ b = y) \/ (a = y /\ b = x).
Proof.
  unfold prohibited. rewrite !in_app_iff; simpl. split.
  - intros [[H|[H|[]]]|[H|[H|[]]]]; auto; inversion H; subst; auto.
  - intros [[H|H]|[[-> ->]|[-> ->]]]; auto.
Qed.

(* ---------------------------------------------------------------- *)
(** ** The representation invariant *)

Definition o (s : bk) (i : nat) : nat := nth i (out s) 0.

Record Inv (n : nat) (s : bk) (lg : log) : Prop := mkInv {
  i_len : length (out s) = n;
  i_cnt : cnt s <= n;
  i_shape : shape n (proh s);
  i_lt : forall i, i < n -> o s i < cnt s;
  i_surj : forall v, v < cnt s -> exists i, i < n /\ o s i = v;
  i_canon : forall i v, i < n -> v < o s i -> exists i', i' < i /\ o s i' = v;
  i_link : forall i j, i < n -> j < n -> (o s i = o s j <-> linked lg i j);
  i_range : forall i j, linked lg i j -> i <> j -> i < n /\ j < n;
  i_prange : forall a b, prohibited lg a b -> a < n /\ b < n /\ o s a <> o s b;
  i_tab : forall x y, x < cnt s -> y < cnt s ->
      (sym (proh s) x y = true <-> exists p q, prohibited lg p q /\ o s p = x /\ o s q = y)
}.

Lemma inv_init n : Inv n (reset n) [].
Proof.
  constructor; unfold o; simpl.
  - apply seq_length.
  - lia.
  - apply shape_reset.
  - intros i Hi. rewrite seq_nth by lia. lia.
  - intros v Hv. exists v. rewrite seq_nth by lia. lia.
  - intros i v Hi. rewrite seq_nth by lia. intros Hv. exists v. rewrite seq_nth by lia. lia.
  - intros i j Hi Hj. rewrite !seq_nth by lia. split.
    + simpl; intros ->. apply linked_refl.
    + intros H. simpl. induction H as [a b []| | |a b c H1 IH1 H2 IH2]; auto.
      * symmetry; auto.
      * assert (a = b) by (clear - H1; induction H1 as [x y []| | | ]; congruence).
        subst. auto.
  - intros i j H Hne. exfalso. apply Hne. clear Hne.
    induction H as [a b []| | |]; congruence.
  - intros a b [[]|[]].
  - intros x y _ _. split.
    + unfold sym, ent. intros H.
      destruct (x <? y), (y <? x); try discriminate; rewrite (tget_reset n) in H; discriminate.
    + intros (p & q & [[]|[]] & _).
Qed.

(** the checks and reads at the beginning of each call *)
Lemma reads n s lg i j : Inv n s lg -> i < n -> j < n ->
  at_ (out s) i = Ok (o s i) /\ at_ (out s) j = Ok (o s j).
Proof.
  intros I Hi Hj. split; apply at_ok; rewrite (i_len n s lg I); assumption.
Qed.

Lemma check_spec n s lg i j : Inv n s lg ->
  (i <> j /\ i < n /\ j < n /\ check_args s i j = Ok tt) \/
  ((i = j \/ n <= i \/ n <= j) /\ check_args s i j = Throw UserExn).
Proof.
  intros I. unfold check_args. rewrite (i_len n s lg I).
  destruct (Nat.eqb_spec i j); [right; auto|].
  destruct (Nat.leb_spec n i), (Nat.leb_spec n j); simpl; auto.
Qed.

Lemma at2_minmax n s lg a b : Inv n s lg -> a < cnt s -> b < cnt s -> a <> b ->
  at2 (proh s) (Nat.min a b) (Nat.max a b - Nat.min a b) = Ok (sym (proh s) a b).
Proof.
  intros I Ha Hb Hne. pose proof (i_cnt n s lg I).
  rewrite (at2_ok n) by (try apply I; lia). f_equal.
  unfold sym, ent. bcase; f_equal; lia.
Qed.

(** MergeAllowed *)
Lemma merge_allowed_spec n s lg i j : Inv n s lg -> i <> j -> i < n -> j < n ->
  exists b, merge_allowed s i j = Ok b /\ (b = false <-> blocked lg i j).
Proof.
  intros I Hne Hi Hj. unfold merge_allowed.
  destruct (check_spec n s lg i j I) as [(_ & _ & _ & ->)|[Hbad _]]; [|lia]. cbn [obind].
  destruct (reads n s lg i j I Hi Hj) as [-> ->]. cbn [obind].
  assert (Hb : blocked lg i j <-> o s i <> o s j /\ sym (proh s) (o s i) (o s j) = true).
  { rewrite (i_tab n s lg I) by (eapply i_lt; eauto). split.
    - intros (a & b & Hp & Ha & Hb). destruct (i_prange n s lg I a b Hp) as (La & Lb & Hd).
      apply (i_link n s lg I) in Ha; [|assumption..]. apply (i_link n s lg I) in Hb; [|assumption..].
      split; [congruence|]. exists a, b. auto.
    - intros (_ & a & b & Hp & Ha & Hb). destruct (i_prange n s lg I a b Hp) as (La & Lb & Hd).
      exists a, b. split; [exact Hp|]. split; apply (i_link n s lg I); assumption. }
  destruct (Nat.eqb_spec (o s i) (o s j)) as [E|E].
  - exists true. split; [reflexivity|]. split; [discriminate|]. intros H; apply Hb in H. tauto.
  - rewrite (at2_minmax n s lg) by (try assumption; eapply i_lt; eauto). cbn [obind].
    eexists; split; [reflexivity|]. rewrite Hb, negb_false_iff. tauto.
Qed.

(** ProhibitMerge *)
Lemma prohibit_spec n s lg i j : Inv n s lg -> i <> j -> i < n -> j < n ->
  (linked lg i j /\ prohibit s i j = Throw UserExn) \/
  (~ linked lg i j /\ exists s', prohibit s i j = Ok s' /\ Inv n s' (lg ++ [(OProhibit i j, ADone)]) /\
      out s' = out s /\ cnt s' = cnt s).
Proof.
  intros I Hne Hi Hj. unfold prohibit.
  destruct (check_spec n s lg i j I) as [(_ & _ & _ & ->)|[Hbad _]]; [|lia]. cbn [obind].
  destruct (reads n s lg i j I Hi Hj) as [-> ->]. cbn [obind].
  destruct (Nat.eqb_spec (o s i) (o s j)) as [E|E].
  { left. split; [|reflexivity]. apply (i_link n s lg I); assumption. }
  right. split. { intros H. apply (i_link n s lg I) in H; auto. }
  pose proof (i_lt n s lg I i Hi) as Hvi. pose proof (i_lt n s lg I j Hj) as Hvj.
  pose proof (i_cnt n s lg I) as Hc.
  set (a := o s i) in *. set (b := o s j) in *.
  destruct (set2_ok n (proh s) (Nat.min a b) (Nat.max a b - Nat.min a b) true (i_shape n s lg I))
    as (t & Et & Hst & Hg); [lia|lia|].
  rewrite Et. cbn [obind]. eexists; split; [reflexivity|]. split; [|auto].
  assert (Hlk : forall x y, linked (lg ++ [(OProhibit i j, ADone)]) x y <-> linked lg x y).
  { intros; apply linked_app_other; discriminate. }
  constructor; cbn [out proh cnt]; try apply I; try assumption.
  - intros x y Hx Hy. rewrite Hlk. apply (i_link n s lg I); assumption.
  - intros x y H. apply Hlk in H. apply (i_range n s lg I); exact H.
  - intros x y H. apply prohibited_app_prohibit in H. destruct H as [H|[[-> ->]|[-> ->]]].
    + apply (i_prange n s lg I); exact H.
    + repeat split; try assumption.
    + repeat split; try assumption. intros H; apply E; symmetry; exact H.
  - intros x y Hx Hy.
    assert (Hsym : sym t x y = true <-> sym (proh s) x y = true \/ (x = a /\ y = b) \/ (x = b /\ y = a)).
    { unfold sym, ent. destruct (Nat.ltb_spec x y); [|destruct (Nat.ltb_spec y x)].
      - rewrite Hg. destruct (Nat.eqb_spec x (Nat.min a b)), (Nat.eqb_spec (y - x) (Nat.max a b - Nat.min a b));
          cbn [andb]; split; try tauto; try lia; intros [?|?]; try tauto; lia.
      - rewrite Hg. destruct (Nat.eqb_spec y (Nat.min a b)), (Nat.eqb_spec (x - y) (Nat.max a b - Nat.min a b));
          cbn [andb]; split; try tauto; try lia; intros [?|?]; try tauto; lia.
      - split; [discriminate|]. intros [H'|H']; [discriminate|]. lia. }
    rewrite Hsym, (i_tab n s lg I) by assumption. split.
    + intros [(p & q & Hp & Hpx & Hqy)|[[-> ->]|[-> ->]]].
      * exists p, q. split; [apply prohibited_app_prohibit; auto|auto].
      * exists i, j. split; [apply prohibited_app_prohibit; auto|auto].
      * exists j, i. split; [apply prohibited_app_prohibit; auto|auto].
    + intros (p & q & Hp & Hpx & Hqy). apply prohibited_app_prohibit in Hp.
      destruct Hp as [Hp|[[-> ->]|[-> ->]]].
      * left. exists p, q. auto.
      * right; left. auto.
      * right; right. auto.
Qed.

Lemma relabel_inj c o1 o2 x y : o1 < o2 -> x < c -> y < c ->
  (relabel o1 o2 x = relabel o1 o2 y <->
   x = y \/ ((x = o1 \/ x = o2) /\ (y = o1 \/ y = o2))).
Proof. intros. unfold relabel. bcase; lia. Qed.

(** Merge *)
Lemma merge_spec n s lg i j : Inv n s lg -> i <> j -> i < n -> j < n ->
  (blocked lg i j /\ merge s i j = (s, Throw UserExn)) \/
  (~ blocked lg i j /\ exists s', merge s i j = (s', Ok tt) /\ Inv n s' (lg ++ [(OMerge i j, ADone)])).
Proof.
  intros I Hne Hi Hj.
  destruct (merge_allowed_spec n s lg i j I Hne Hi Hj) as (ab & Eall & Hall).
  unfold merge_allowed in Eall. unfold merge, merge_pre.
  destruct (check_spec n s lg i j I) as [(_ & _ & _ & Ec)|[Hbad _]]; [|lia].
  rewrite Ec in *. cbn [obind] in *.
  destruct (reads n s lg i j I Hi Hj) as [Ei Ej]. rewrite Ei, Ej in *. cbn [obind] in *.
  pose proof (i_lt n s lg I i Hi) as Hvi. pose proof (i_lt n s lg I j Hj) as Hvj.
  pose proof (i_cnt n s lg I) as Hc.
  destruct (Nat.eqb_spec (o s i) (o s j)) as [E|E].
  { (* already merged: nothing happens *)
    inversion Eall; subst ab. right. split. { intros H; apply Hall in H; discriminate. }
    exists s. split; [reflexivity|].
    assert (Hl : linked lg i j) by (apply (i_link n s lg I); assumption).
    assert (Hlk : forall x y, linked (lg ++ [(OMerge i j, ADone)]) x y <-> linked lg x y).
    { intros x y. rewrite linked_app_merge. split; [|auto]. intros [H|[[H1 H2]|[H1 H2]]]; auto.
      - eapply linked_trans; [exact H1|]. eapply linked_trans; [exact Hl|exact H2].
      - eapply linked_trans; [exact H1|]. eapply linked_trans; [apply linked_sym, Hl|exact H2]. }
    assert (Hpr : forall x y, prohibited (lg ++ [(OMerge i j, ADone)]) x y <-> prohibited lg x y).
    { intros; apply prohibited_app_other; discriminate. }
    constructor; try apply I.
    - intros x y Hx Hy. rewrite Hlk. apply (i_link n s lg I); assumption.
    - intros x y H. apply Hlk in H. apply (i_range n s lg I); exact H.
    - intros x y H. apply Hpr in H. apply (i_prange n s lg I); exact H.
    - intros x y Hx Hy. rewrite (i_tab n s lg I) by assumption.
      split; intros (p & q & Hp & Hr); exists p, q; (split; [apply Hpr; exact Hp|exact Hr]). }
  rewrite (at2_minmax n s lg) in * by (try assumption; eapply i_lt; eauto). cbn [obind] in *.
  inversion Eall as [Eab]. rewrite negb_false_iff in Hall || (rewrite <- Eab in Hall; rewrite negb_false_iff in Hall).
  destruct (sym (proh s) (o s i) (o s j)) eqn:Esym.
  { left. split; [apply Hall; reflexivity|reflexivity]. }
  right. split. { intros H; apply Hall in H; discriminate. }
  remember (Nat.min (o s i) (o s j)) as o1 eqn:Ho1.
  remember (Nat.max (o s i) (o s j)) as o2 eqn:Ho2.
  assert (H12 : o1 < o2) by lia. assert (H2c : o2 < cnt s) by lia.
  destruct (loops_ok n (cnt s) o1 o2 (proh s) (i_shape n s lg I) H12 H2c Hc)
    as (t1 & t2 & t3 & t4 & E1 & E2 & E3 & E4 & Hs4 & Htab).
  unfold merge_table. rewrite E1; cbn [obind]. rewrite E2; cbn [obind]. rewrite E3; cbn [obind]. rewrite E4; cbn [obind].
  eexists; split; [reflexivity|].
  set (s' := mkBk (map (relabel o1 o2) (out s)) t4 (cnt s - 1)).
  assert (Ho : forall k, k < n -> o s' k = relabel o1 o2 (o s k)).
  { intros k Hk. unfold o, s'; cbn [out].
    rewrite nth_indep with (d' := relabel o1 o2 0) by (rewrite map_length, (i_len n s lg I); lia).
    apply map_nth. }
  assert (Hpr : forall x y, prohibited (lg ++ [(OMerge i j, ADone)]) x y <-> prohibited lg x y).
  { intros; apply prohibited_app_other; discriminate. }
  assert (Hlt : forall v, v < cnt s -> relabel o1 o2 v < cnt s - 1).
  { intros v Hv. unfold relabel. bcase; lia. }
  assert (Hij : (o s i = o1 /\ o s j = o2) \/ (o s i = o2 /\ o s j = o1)) by lia.
  assert (Hlinkn : forall x y, x < n -> y < n -> linked lg x y <-> o s x = o s y).
  { intros; symmetry; apply (i_link n s lg I); assumption. }
  constructor; fold s'.
  - unfold s'; cbn [out]. rewrite map_length. apply I.
  - unfold s'; cbn [cnt]. lia.
  - exact Hs4.
  - intros k Hk. rewrite Ho by exact Hk. unfold s'; cbn [cnt]. apply Hlt. eapply i_lt; eauto.
  - unfold s'; cbn [cnt]. intros v Hv.
    destruct (Nat.lt_ge_cases v o2) as [Hv2|Hv2].
    + destruct (i_surj n s lg I v) as (k & Hk & Hkv); [lia|]. exists k. split; [exact Hk|].
      fold s'. rewrite Ho, Hkv by exact Hk. unfold relabel; bcase; lia.
    + destruct (i_surj n s lg I (v + 1)) as (k & Hk & Hkv); [lia|]. exists k. split; [exact Hk|].
      fold s'. rewrite Ho, Hkv by exact Hk. unfold relabel; bcase; lia.
  - intros k v Hk Hv. rewrite Ho in Hv by exact Hk.
    assert (Hw : exists w, w < o s k /\ relabel o1 o2 w = v).
    { unfold relabel in Hv. revert Hv. bcase; intros Hv.
      - exists v. unfold relabel; bcase; lia.
      - exists v. unfold relabel; bcase; lia.
      - destruct (Nat.lt_ge_cases v o2).
        + exists v. unfold relabel; bcase; lia.
        + exists (v + 1). unfold relabel; bcase; lia.
      - exists v. unfold relabel; bcase; lia. }
    destruct Hw as (w & Hw1 & Hw2).
    destruct (i_canon n s lg I k w Hk Hw1) as (k' & Hk' & Hkw).
    exists k'. split; [exact Hk'|]. rewrite Ho, Hkw by lia. exact Hw2.
  - intros x y Hx Hy. rewrite !Ho by assumption.
    rewrite (relabel_inj (cnt s)) by (try assumption; eapply i_lt; eauto).
    rewrite linked_app_merge, !Hlinkn by assumption. lia.
  - intros x y H Hxy. apply linked_app_merge in H.
    assert (G : forall u v, linked lg u v -> v < n -> u < n).
    { intros u v Huv Hv. destruct (Nat.eq_dec u v) as [->|Hd]; [exact Hv|].
      apply (i_range n s lg I u v Huv Hd). }
    destruct H as [H|[[H1 H2]|[H1 H2]]].
    + apply (i_range n s lg I); assumption.
    + split; [eapply G; eauto|]. apply linked_sym in H2. eapply G; eauto.
    + split; [eapply G; eauto|]. apply linked_sym in H2. eapply G; eauto.
  - intros x y H. apply Hpr in H. destruct (i_prange n s lg I x y H) as (Lx & Ly & Hd).
    split; [exact Lx|]. split; [exact Ly|]. rewrite !Ho by assumption.
    rewrite (relabel_inj (cnt s)) by (try assumption; eapply i_lt; eauto).
    intros [Hxy|[Hx Hy]]; [exact (Hd Hxy)|].
    assert (Hs : sym (proh s) (o s x) (o s y) = true).
    { apply (i_tab n s lg I); try (eapply i_lt; eauto). exists x, y. auto. }
    assert (Hcases : (o s x = o s i /\ o s y = o s j) \/ (o s x = o s j /\ o s y = o s i)) by lia.
    destruct Hcases as [[Hx' Hy']|[Hx' Hy']]; rewrite Hx', Hy' in Hs.
    + congruence.
    + rewrite sym_comm in Hs. congruence.
  - unfold s'; cbn [cnt proh]. fold s'. intros x y Hx Hy.
    assert (Himg : (exists u v, u < cnt s /\ v < cnt s /\ relabel o1 o2 u = x /\ relabel o1 o2 v = y /\ sym (proh s) u v = true)
              <-> (exists p q, prohibited (lg ++ [(OMerge i j, ADone)]) p q /\ o s' p = x /\ o s' q = y)).
    { split.
      - intros (u & v & Hu & Hv & Hux & Hvy & H). apply (i_tab n s lg I) in H; [|assumption..].
        destruct H as (p & q & Hp & Hpu & Hqv). destruct (i_prange n s lg I p q Hp) as (Lp & Lq & _).
        exists p, q. split; [apply Hpr; exact Hp|]. rewrite !Ho, Hpu, Hqv by assumption. auto.
      - intros (p & q & Hp & Hpx & Hqy). apply (proj1 (Hpr p q)) in Hp. destruct (i_prange n s lg I p q Hp) as (Lp & Lq & _).
        rewrite Ho in Hpx, Hqy by assumption.
        exists (o s p), (o s q). repeat split; try assumption; try (eapply i_lt; eauto).
        apply (i_tab n s lg I); try (eapply i_lt; eauto). exists p, q. auto. }
    rewrite <- Himg. unfold sym at 1. destruct (Nat.ltb_spec x y) as [L|L]; [|destruct (Nat.ltb_spec y x) as [L2|L2]].
    + rewrite Htab by lia. reflexivity.
    + rewrite Htab by lia. split; intros (u & v & Hu & Hv & Hux & Hvy & H); exists v, u;
        rewrite sym_comm in H; repeat split; assumption.
    + split; [discriminate|]. intros (u & v & Hu & Hv & Hux & Hvy & H). exfalso.
      assert (Hxy : x = y) by lia. subst y.
      assert (Huv : relabel o1 o2 u = relabel o1 o2 v) by congruence.
      apply (relabel_inj (cnt s)) in Huv; [|assumption..].
      destruct Huv as [->|[Hu' Hv']].
      * unfold sym in H. revert H. bcase; discriminate.
      * destruct Hu' as [->| ->], Hv' as [->| ->];
          try (unfold sym in H; revert H; bcase; discriminate).
        -- destruct Hij as [[A B]|[A B]]; rewrite <- A, <- B in H; rewrite ?(sym_comm _ (o s j)) in H; congruence.
        -- destruct Hij as [[A B]|[A B]]; rewrite <- A, <- B in H; rewrite ?(sym_comm _ (o s j)) in H; congruence.
Qed.
