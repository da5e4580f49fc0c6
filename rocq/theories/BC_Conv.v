(** Without dead wires GaussianBlur is an exact convolution. *)
From Coq Require Import QArith Qcanon.
From Verif Require Import Base QcUtil Solver_Model Solver_Proofs BC_Model BC_Spec BC_Cells BC_Image BC_Blur.
From Coq Require Import Lqa.
Local Open Scope nat_scope.

(** the kernel's weight for a step of (dx, dy) wires and ticks: the kernel stores (2 BlurWire + 1) weights per tick, ticks
    from -BlurTick * MaxTickWidthBlur upwards *)
Definition weight (bc : blurcfg) (ts dx dy : Z) : Qc :=
  nth (Z.to_nat ((2 * blurWire bc + 1) * (dy + blurTick bc * maxTickWidth bc) + (dx + blurWire bc))) (kernel bc ts) (Q2Qc 0).
(** what the hit in cell (x, y) contributes to cell (x', y') *)
Definition contribution (bc : blurcfg) (hm : hitmap) (im : image) (x y x' y' : nat) : Qc :=
  match nth y (nth x hm []) None with
  | None => 0%Qc
  | Some h =>
    let ts := Z.max 1 (Z.min (maxTickWidth bc) (raw_scale bc h)) in
    let dx := (Z.of_nat x' - Z.of_nat x)%Z in
    let dy := (Z.of_nat y' - Z.of_nat y)%Z in
    if ((Z.abs dx <=? blur_wire bc) && (Z.abs dy <=? blur_tick bc * ts))%Z
    then (weight bc ts dx dy * nth y (nth x im []) (Q2Qc 0))%Qc else 0%Qc
  end.

(** sums with a single non-zero term *)
Lemma zspan_nodup lo hi : NoDup (zspan lo hi).
Proof. unfold zspan. apply NoDup_map_in; [|apply seq_NoDup]. intros a b _ _ E. lia. Qed.
Lemma qsum_pick (f : Z -> Qc) lo hi t :
  qsum (fun z => if (z =? t)%Z then f z else 0%Qc) (zspan lo hi) = if ((lo <=? t) && (t <=? hi))%Z then f t else 0%Qc.
Proof.
  assert (H : forall l, NoDup l -> (In t l -> qsum (fun z => if (z =? t)%Z then f z else 0%Qc) l = f t) /\ (~ In t l -> qsum (fun z => if (z =? t)%Z then f z else 0%Qc) l = 0%Qc)).
  { induction 1 as [|a l Ha Hl [I1 I2]]; [split; [intros []|reflexivity]|]. rewrite qsum_cons. split; intros H.
    - destruct (Z.eqb_spec a t) as [->|Hne].
      + rewrite I2 by exact Ha. ring.
      + destruct H as [H|H]; [congruence|]. rewrite I1 by exact H. ring.
    - destruct (Z.eqb_spec a t) as [->|Hne]; [exfalso; apply H; left; reflexivity|].
      rewrite I2; [ring|]. intros F. apply H. right; exact F. }
  destruct (H (zspan lo hi) (zspan_nodup lo hi)) as [H1 H2].
  destruct ((lo <=? t) && (t <=? hi))%Z eqn:E.
  - apply H1, zspan_in. apply andb_true_iff in E. destruct E as [E1 E2]. apply Z.leb_le in E1, E2. lia.
  - apply H2. rewrite zspan_in. apply andb_false_iff in E. rewrite !Z.leb_gt in E. lia.
Qed.

Section Conv.
Variables (bc : blurcfg) (dead : list bool) (hm : hitmap) (im : image) (nx ny : nat).
Hypothesis Hnx : 0 < nx.
Hypothesis Him : rect nx ny im.
Hypothesis Hhm : rect nx ny hm.
Hypothesis Hdl : length dead = nx.
Hypothesis Hdead : forall d, In d dead -> d = false.
Hypothesis Hbw : (0 <= blur_wire bc <= blurWire bc)%Z.
Hypothesis Hbt : (0 <= blur_tick bc <= blurTick bc)%Z.
Hypothesis Hm : (1 <= maxTickWidth bc)%Z.
Hypothesis Hk : forall ts, (1 <= ts <= maxTickWidth bc)%Z -> Z.of_nat (length (kernel bc ts)) = ((2 * blurWire bc + 1) * (2 * blurTick bc * maxTickWidth bc + 1))%Z.

Lemma dead_idx z : (0 <= z < Z.of_nat nx)%Z -> idx_z dead z = Ok false.
Proof.
  intros H. unfold idx_z. destruct (Z.ltb_spec z 0); [lia|]. rewrite (idx_ok dead _ false) by lia. f_equal.
  apply Hdead, nth_In. lia.
Qed.

Lemma no_dead x w : x < nx -> (0 <= w)%Z -> dead_wire_count dead im x w = Ok (0, 0)%Z.
Proof.
  intros Hx Hw. unfold dead_wire_count.
  match goal with |- foreach ?l ?body ?s = _ => destruct (foreach_pre (fun _ c => c = (0, 0)%Z) body l s) as (c & E & Hc) end.
  - reflexivity.
  - intros pre d post c El ->. assert (Hd : In d (pre ++ d :: post)) by (apply in_app_iff; right; left; reflexivity).
    rewrite <- El in Hd. apply zspan_in in Hd. destruct Him as [Elen _]. rewrite Elen in Hd. rewrite dead_idx by lia. simpl. eauto.
  - rewrite E, Hc. reflexivity.
Qed.

Lemma quot_w b : (0 <= b)%Z -> Z.quot (2 * b + 1) 2 = b.
Proof. intros H. rewrite Z.quot_div_nonneg by lia. symmetry. apply Z.div_unique with (r := 1%Z); lia. Qed.
Lemma quot_w1 b : (0 <= b)%Z -> Z.quot (2 * b + 1 + 1) 2 = (b + 1)%Z.
Proof. intros H. rewrite Z.quot_div_nonneg by lia. symmetry. apply Z.div_unique with (r := 0%Z); lia. Qed.
Lemma quot_neg b : (0 <= b)%Z -> Z.quot (- (2 * b + 1)) 2 = (- b)%Z.
Proof. intros H. rewrite Z.quot_opp_l by lia. rewrite quot_w by exact H. reflexivity. Qed.

Definition adds (v : Qc) (W : Z -> Z -> Qc) (x y x' y' : nat) (bx by_ : Z) : Qc :=
  if ((Z.of_nat x + bx =? Z.of_nat x') && (Z.of_nat y + by_ =? Z.of_nat y'))%Z then (W bx by_ * v)%Qc else 0%Qc.

Section Hit.
Variables (x y : nat) (v : Qc) (ts : Z).
Hypothesis Hx : x < nx.
Hypothesis Hy : y < ny.
Hypothesis Hts : (1 <= ts <= maxTickWidth bc)%Z.
Hypothesis Hroom : (Z.of_nat x + blur_wire bc < Z.of_nat nx)%Z.
Let W := weight bc ts.

Lemma smear_cell_ok copy bx by_ : rect nx ny copy -> (- blur_wire bc <= bx <= blur_wire bc)%Z -> (0 <= Z.of_nat x + bx)%Z ->
  (- (blur_tick bc * ts) <= by_ <= blur_tick bc * ts)%Z ->
  exists copy', smear_cell bc dead im ny (kernel bc ts) x y v bx (copy, 0%Z) by_ = Ok (copy', 0%Z) /\ rect nx ny copy' /\
    forall x' y', x' < nx -> y' < ny -> get (Q2Qc 0) copy' x' y' = (get (Q2Qc 0) copy x' y' + adds v W x y x' y' bx by_)%Qc.
Proof.
  intros Hc Hbx Hp Hby. unfold smear_cell.
  assert (Htx : (0 <= Z.of_nat x + bx < Z.of_nat nx)%Z) by lia.
  assert (E1 : (if (bx <? 0)%Z then do d <- idx_z dead (Z.of_nat x + bx); Ok (if (d : bool) then (0 - 1)%Z else 0%Z) else Ok 0%Z) = Ok 0%Z).
  { destruct (bx <? 0)%Z; [|reflexivity]. rewrite dead_idx by exact Htx. reflexivity. }
  rewrite E1. cbn [obind].
  assert (Hle : (blur_tick bc * ts <= blurTick bc * maxTickWidth bc)%Z) by nia.
  set (i := (kernelWidth bc * (Z.quot (kernelHeight bc) 2 + by_) + (Z.quot (kernelWidth bc) 2 + (bx - 0)))%Z).
  assert (Ei : i = ((2 * blurWire bc + 1) * (by_ + blurTick bc * maxTickWidth bc) + (bx + blurWire bc))%Z).
  { unfold i, kernelWidth, kernelHeight. rewrite <- Z.mul_assoc. rewrite !quot_w by nia. ring. }
  assert (Hi : (0 <= i < (2 * blurWire bc + 1) * (2 * blurTick bc * maxTickWidth bc + 1))%Z).
  { rewrite Ei. set (r := (by_ + blurTick bc * maxTickWidth bc)%Z). set (T := (blurTick bc * maxTickWidth bc)%Z) in *.
    replace (2 * blurTick bc * maxTickWidth bc)%Z with (2 * T)%Z by (unfold T; ring).
    assert (Hr : (0 <= r <= 2 * T)%Z) by (unfold r; lia). set (K := (2 * blurWire bc + 1)%Z). assert (HK : (0 <= bx + blurWire bc < K)%Z) by (unfold K; lia).
    nia. }
  assert (Ew : idx_z (kernel bc ts) i = Ok (W bx by_)).
  { unfold idx_z. destruct (Z.ltb_spec i 0); [lia|]. rewrite (idx_ok _ _ (Q2Qc 0)); [|specialize (Hk ts Hts); lia]. rewrite Ei. reflexivity. }
  rewrite Ew. cbn [obind].
  assert (E2 : (if (0 <? bx)%Z then do d <- idx_z dead (Z.of_nat x + bx); Ok (if (d : bool) then (0 + 1)%Z else 0%Z) else Ok 0%Z) = Ok 0%Z).
  { destruct (0 <? bx)%Z; [|reflexivity]. rewrite dead_idx by exact Htx. reflexivity. }
  set (tx := (Z.of_nat x + bx)%Z) in *. set (ty := (Z.of_nat y + by_)%Z) in *.
  destruct Him as [Elen _]. rewrite Elen.
  destruct ((0 <=? tx) && (tx <? Z.of_nat nx) && (0 <=? ty) && (ty <? Z.of_nat ny))%Z eqn:Ein.
  - apply andb_true_iff in Ein. destruct Ein as [Ein F4]. apply andb_true_iff in Ein. destruct Ein as [Ein F3]. apply andb_true_iff in Ein. destruct Ein as [F1 F2].
    apply Z.leb_le in F1, F3. apply Z.ltb_lt in F2, F4.
    set (xx := Z.to_nat tx). set (yy := Z.to_nat ty). assert (Hxx : xx < nx) by (unfold xx; lia). assert (Hyy : yy < ny) by (unfold yy; lia).
    assert (Hxc : xx < length copy) by (destruct Hc as [-> _]; exact Hxx).
    assert (Hyc : yy < length (nth xx copy [])) by (rewrite (rect_row nx ny copy xx Hc Hxx); exact Hyy).
    unfold idx_z, set_idx_z. destruct (Z.ltb_spec tx 0); [lia|]. destruct (Z.ltb_spec ty 0); [lia|]. fold xx yy.
    rewrite (idx_ok copy xx [] Hxc). cbn [obind]. rewrite (idx_ok _ yy (Q2Qc 0) Hyc). cbn [obind].
    rewrite (set_idx_ok _ yy _ Hyc). cbn [obind]. rewrite (set_idx_ok copy xx _ Hxc). cbn [obind].
    unfold idx_z in E2. destruct (Z.ltb_spec tx 0); [lia|]. fold xx in E2. rewrite E2. cbn [obind].
    eexists. split; [reflexivity|]. match goal with |- rect _ _ (upd copy xx (upd _ yy ?c)) /\ _ => fold (put copy xx yy c) end.
    split; [apply put_rect; assumption|]. intros x' y' Hx' Hy'. rewrite (get_put _ nx ny) by assumption.
    unfold adds. fold tx ty. destruct (Nat.eqb_spec x' xx) as [->|N1]; cbn [andb].
    + destruct (Nat.eqb_spec y' yy) as [->|N2]; cbn [andb].
      * destruct (Z.eqb_spec tx (Z.of_nat xx)); [|unfold xx in *; lia]. destruct (Z.eqb_spec ty (Z.of_nat yy)); [|unfold yy in *; lia]. reflexivity.
      * destruct (Z.eqb_spec ty (Z.of_nat y')); [unfold yy in *; lia|]. rewrite andb_false_r. ring.
    + destruct (Z.eqb_spec tx (Z.of_nat x')); [unfold xx in *; lia|]. cbn [andb]. ring.
  - cbn [obind]. rewrite E2. cbn [obind]. exists copy. split; [reflexivity|]. split; [exact Hc|]. intros x' y' Hx' Hy'.
    unfold adds. fold tx ty. destruct ((tx =? Z.of_nat x') && (ty =? Z.of_nat y'))%Z eqn:F; [|ring]. exfalso.
    apply andb_true_iff in F. destruct F as [F1 F2]. apply Z.eqb_eq in F1, F2.
    apply andb_false_iff in Ein. destruct Ein as [Ein|Ein]; [|apply Z.ltb_ge in Ein; lia].
    apply andb_false_iff in Ein. destruct Ein as [Ein|Ein]; [|apply Z.leb_gt in Ein; lia].
    apply andb_false_iff in Ein. destruct Ein as [Ein|Ein]; [apply Z.leb_gt in Ein|apply Z.ltb_ge in Ein]; lia.
Qed.

Lemma smear_col_ok copy bx : rect nx ny copy -> (- blur_wire bc <= bx <= blur_wire bc)%Z ->
  exists copy', smear_col bc dead im ny (kernel bc ts) x y v ts (copy, 0%Z) bx = Ok (copy', 0%Z) /\ rect nx ny copy' /\
    forall x' y', x' < nx -> y' < ny ->
      get (Q2Qc 0) copy' x' y' = (get (Q2Qc 0) copy x' y' + qsum (adds v W x y x' y' bx) (zspan (- (blur_tick bc * ts)) (blur_tick bc * ts)))%Qc.
Proof.
  intros Hc Hbx. unfold smear_col. destruct (Z.ltb_spec (Z.of_nat x + bx) 0) as [Hneg|Hpos].
  - exists copy. split; [reflexivity|]. split; [exact Hc|]. intros x' y' Hx' Hy'. rewrite qsum_zero'; [ring|].
    intros z _. unfold adds. destruct (Z.eqb_spec (Z.of_nat x + bx) (Z.of_nat x')); [lia|reflexivity].
  - rewrite quot_neg, quot_w1 by lia. replace (blur_tick bc + 1 - 1)%Z with (blur_tick bc) by ring.
    replace (- blur_tick bc * ts)%Z with (- (blur_tick bc * ts))%Z by ring.
    match goal with |- exists c0, foreach ?l ?body ?s = _ /\ _ =>
      destruct (foreach_pre (fun pre s' => snd s' = 0%Z /\ rect nx ny (fst s') /\ forall x' y', x' < nx -> y' < ny ->
        get (Q2Qc 0) (fst s') x' y' = (get (Q2Qc 0) copy x' y' + qsum (adds v W x y x' y' bx) pre)%Qc) body l s) as ([c p] & E & Hp & Hr & Hg) end.
    + cbn [fst snd]. split; [reflexivity|]. split; [exact Hc|]. intros. unfold qsum. simpl. ring.
    + intros pre d post [c p] El (Hp & Hr & Hg). cbn [fst snd] in *. subst p.
      assert (Hd : In d (pre ++ d :: post)) by (apply in_app_iff; right; left; reflexivity). rewrite <- El in Hd. apply zspan_in in Hd.
      destruct (smear_cell_ok c bx d Hr Hbx Hpos Hd) as (c' & E' & Hr' & Hg'). exists (c', 0%Z). split; [exact E'|].
      cbn [fst snd]. split; [reflexivity|]. split; [exact Hr'|]. intros x' y' Hx' Hy'. rewrite Hg', Hg by assumption.
      rewrite qsum_app. cbn [qsum fold_right]. ring.
    + cbn [fst snd] in *. subst p. exists c. auto.
Qed.
End Hit.

Hypothesis Hhit : forall x y, x < nx -> y < ny -> nth y (nth x im []) (Q2Qc 0) <> Q2Qc 0 ->
  (exists h, nth y (nth x hm []) None = Some h) /\ (Z.of_nat x + blur_wire bc < Z.of_nat nx)%Z.

Lemma blur_cell_ok copy x y : rect nx ny copy -> x < nx -> y < ny ->
  exists copy', blur_cell bc dead hm im ny copy (x, y) = Ok copy' /\ rect nx ny copy' /\
    forall x' y', x' < nx -> y' < ny -> get (Q2Qc 0) copy' x' y' = (get (Q2Qc 0) copy x' y' + contribution bc hm im x y x' y')%Qc.
Proof.
  intros Hc Hx Hy. unfold blur_cell.
  assert (Hxi : x < length im) by (destruct Him as [-> _]; exact Hx). assert (Hxh : x < length hm) by (destruct Hhm as [-> _]; exact Hx).
  rewrite (idx_ok im x [] Hxi). cbn [obind]. rewrite (idx_ok _ y (Q2Qc 0)) by (rewrite (rect_row nx ny im x Him Hx); exact Hy). cbn [obind].
  set (v := nth y (nth x im []) (Q2Qc 0)) in *. destruct (qc_eqb v (Q2Qc 0)) eqn:Ev.
  - apply qc_eqb_spec in Ev. exists copy. split; [reflexivity|]. split; [exact Hc|]. intros x' y' _ _. unfold contribution.
    fold v. rewrite Ev. destruct (nth y (nth x hm []) None); [|ring]. destruct (_ && _)%bool; [|ring]. change (Q2Qc 0) with 0%Qc. ring.
  - assert (Hv : v <> Q2Qc 0) by (intros F; apply qc_eqb_spec in F; congruence).
    destruct (Hhit x y Hx Hy Hv) as [(h & Eh) Hroom].
    rewrite (idx_ok hm x [] Hxh). cbn [obind]. rewrite (idx_ok _ y None) by (rewrite (rect_row nx ny hm x Hhm Hx); exact Hy). cbn [obind].
    rewrite Eh. rewrite (no_dead x _ Hx) by lia. cbn [obind]. rewrite quot_w, quot_w1 by lia.
    replace (- (blur_wire bc + 0))%Z with (- blur_wire bc)%Z by ring. replace (blur_wire bc + 1 + 0 - 1)%Z with (blur_wire bc) by ring.
    set (ts := tick_scale bc h). assert (Hts : (1 <= ts <= maxTickWidth bc)%Z) by (unfold ts, tick_scale; lia).
    match goal with |- exists c0, obind (foreach ?l ?body ?s) _ = _ /\ _ =>
      destruct (foreach_pre (fun pre s' => snd s' = 0%Z /\ rect nx ny (fst s') /\ forall x' y', x' < nx -> y' < ny ->
        get (Q2Qc 0) (fst s') x' y' = (get (Q2Qc 0) copy x' y' + qsum (fun bx => qsum (adds v (weight bc ts) x y x' y' bx) (zspan (- (blur_tick bc * ts)) (blur_tick bc * ts))) pre)%Qc) body l s) as ([c p] & E & Hp & Hr & Hg) end.
    + cbn [fst snd]. split; [reflexivity|]. split; [exact Hc|]. intros. unfold qsum. simpl. ring.
    + intros pre d post [c p] El (Hp & Hr & Hg). cbn [fst snd] in *. subst p.
      assert (Hd : In d (pre ++ d :: post)) by (apply in_app_iff; right; left; reflexivity). rewrite <- El in Hd. apply zspan_in in Hd.
      destruct (smear_col_ok x y v ts Hx Hy Hts Hroom c d Hr Hd) as (c' & E' & Hr' & Hg'). exists (c', 0%Z). split; [exact E'|].
      cbn [fst snd]. split; [reflexivity|]. split; [exact Hr'|]. intros x' y' Hx' Hy'. rewrite Hg', Hg by assumption.
      rewrite qsum_app. cbn [qsum fold_right]. ring.
    + cbn [fst snd] in *. exists c. split; [unfold image in *; rewrite E; reflexivity|]. split; [exact Hr|]. intros x' y' Hx' Hy'. rewrite Hg by assumption. f_equal.
      unfold contribution. rewrite Eh. fold v.
      replace (Z.max 1 (Z.min (maxTickWidth bc) (raw_scale bc h))) with ts by (unfold ts, tick_scale; lia).
      set (dx := (Z.of_nat x' - Z.of_nat x)%Z). set (dy := (Z.of_nat y' - Z.of_nat y)%Z).
      assert (E1 : forall bx, qsum (adds v (weight bc ts) x y x' y' bx) (zspan (- (blur_tick bc * ts)) (blur_tick bc * ts)) =
         if (bx =? dx)%Z then (if ((- (blur_tick bc * ts) <=? dy) && (dy <=? blur_tick bc * ts))%Z then (weight bc ts bx dy * v)%Qc else 0%Qc) else 0%Qc).
      { intros bx. rewrite <- (qsum_pick (fun z => (weight bc ts bx z * v)%Qc)).
        destruct (Z.eqb_spec bx dx) as [->|Hne].
        - apply qsum_ext. intros z _. unfold adds.
          destruct (Z.eqb_spec (Z.of_nat x + dx) (Z.of_nat x')); [|unfold dx in *; lia]. cbn [andb].
          destruct (Z.eqb_spec (Z.of_nat y + z) (Z.of_nat y')), (Z.eqb_spec z dy); try reflexivity; unfold dy in *; lia.
        - apply qsum_zero'. intros z _. unfold adds. destruct (Z.eqb_spec (Z.of_nat x + bx) (Z.of_nat x')); [unfold dx in *; lia|reflexivity]. }
      rewrite (qsum_ext _ _ _ (fun bx _ => E1 bx)).
      rewrite (qsum_pick (fun bx => if ((- (blur_tick bc * ts) <=? dy) && (dy <=? blur_tick bc * ts))%Z then (weight bc ts bx dy * v)%Qc else 0%Qc)).
      assert (L1 : ((- blur_wire bc <=? dx) && (dx <=? blur_wire bc))%Z = (Z.abs dx <=? blur_wire bc)%Z).
      { apply eq_true_iff_eq. rewrite andb_true_iff, !Z.leb_le. lia. }
      assert (L2 : ((- (blur_tick bc * ts) <=? dy) && (dy <=? blur_tick bc * ts))%Z = (Z.abs dy <=? blur_tick bc * ts)%Z).
      { apply eq_true_iff_eq. rewrite andb_true_iff, !Z.leb_le. lia. }
      rewrite L1, L2. destruct (Z.abs dx <=? blur_wire bc)%Z, (Z.abs dy <=? blur_tick bc * ts)%Z; reflexivity.
Qed.

Lemma blur_ok : no_blur bc = false -> exists copy, gaussian_blur bc dead hm im = Ok copy /\ rect nx ny copy /\
  forall x' y', x' < nx -> y' < ny ->
    get (Q2Qc 0) copy x' y' = qsum (fun xy => contribution bc hm im (fst xy) (snd xy) x' y') (flat_map (fun x => map (pair x) (seq 0 ny)) (seq 0 nx)).
Proof.
  intros Enb. unfold gaussian_blur. rewrite Enb. destruct Him as [Elen Hrow].
  assert (E0 : exists r, at_ im 0 = Ok r /\ length r = ny).
  { destruct im as [|r l]; simpl in Elen; [lia|]. exists r. split; [reflexivity|]. apply Hrow. left; reflexivity. }
  destruct E0 as (r & Er & Hr0). rewrite Er. cbn [obind]. rewrite Hr0, Elen.
  set (cells := flat_map _ _).
  assert (Hcells : forall x y, In (x, y) cells -> x < nx /\ y < ny).
  { intros x y. unfold cells. rewrite in_flat_map. intros (x' & Hx & Hin). apply in_map_iff in Hin. destruct Hin as (y' & [= -> ->] & Hy). apply in_seq in Hx, Hy. lia. }
  destruct (foreach_pre (fun pre c => rect nx ny c /\ forall x' y', x' < nx -> y' < ny ->
     get (Q2Qc 0) c x' y' = qsum (fun xy => contribution bc hm im (fst xy) (snd xy) x' y') pre)
     (blur_cell bc dead hm im ny) cells (repeat (repeat (Q2Qc 0) ny) nx)) as (c & E & Hr & Hg).
  - split; [apply rect_repeat|]. intros. rewrite get_repeat. reflexivity.
  - intros pre [x y] post c El (Hr & Hg). destruct (Hcells x y) as [Hx Hy]; [rewrite El; apply in_app_iff; right; left; reflexivity|].
    destruct (blur_cell_ok c x y Hr Hx Hy) as (c' & E' & Hr' & Hg'). exists c'. split; [exact E'|]. split; [exact Hr'|].
    intros x' y' Hx' Hy'. rewrite Hg', Hg by assumption. rewrite qsum_app. cbn [qsum fold_right fst snd]. ring.
  - exists c. auto.
Qed.
End Conv.
