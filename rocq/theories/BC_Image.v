(** From hits to the image and back. *)
From Coq Require Import QArith Qcanon.
From Verif Require Import Base QcUtil RFF_Spec Solver_Model Solver_Proofs SPS_Model SPS_Nei BC_Model BC_Spec BC_Cells BC_Grow BC_Prune BC_Find.
From Coq Require Import Lqa.
Local Open Scope nat_scope.

Lemma trunc_lo q L : (qz L <= q)%Qc -> (L <= trunc q)%Z.
Proof.
  intros H. destruct (Qclt_le_dec q 0) as [Hq|Hq].
  - destruct (trunc_neg q (Qclt_le_weak _ _ Hq)) as (A & B). apply qz_lt. qclra.
  - destruct (trunc_nonneg q Hq) as (A & B). apply qz_lt. qclra.
Qed.
Lemma trunc_hi q U : (q <= qz U)%Qc -> (trunc q <= U)%Z.
Proof.
  intros H. destruct (Qclt_le_dec q 0) as [Hq|Hq].
  - destruct (trunc_neg q (Qclt_le_weak _ _ Hq)) as (A & B). apply qz_lt. qclra.
  - destruct (trunc_nonneg q Hq) as (A & B). apply qz_lt. qclra.
Qed.
Lemma tick_trunc q t : tick_is q t <-> t = trunc q.
Proof.
  unfold tick_is. fold (qz t). split.
  - intros [H1 H2]. destruct (Qclt_le_dec q 0) as [Hq|Hq].
    + destruct (trunc_neg q (Qclt_le_weak _ _ Hq)) as (A & B), (H2 (Qclt_le_weak _ _ Hq)) as (C & D).
      apply Z.le_antisymm; apply qz_lt; qclra.
    + destruct (trunc_nonneg q Hq) as (A & B), (H1 Hq) as (C & D). apply Z.le_antisymm; apply qz_lt; qclra.
  - intros ->. split; [apply trunc_nonneg|apply trunc_neg].
Qed.

(** the bounds *)
Definition covers (b : bounds) (h : bhit) : Prop :=
  (loT b <= trunc (h_time h) <= upT b /\ loW b <= h_wire h <= upW b)%Z.
Lemma bound_step_covers b h : covers (bound_step b h) h.
Proof.
  unfold covers, bound_step; simpl. repeat split.
  - destruct (qc_lt (h_time h) (qz' (loT b))) eqn:E; [lia|]. apply qc_lt_false in E. apply trunc_lo. exact E.
  - destruct (qc_lt (qz' (upT b)) (h_time h)) eqn:E; [lia|]. apply qc_lt_false in E. apply trunc_hi. exact E.
  - destruct (Z.ltb_spec (h_wire h) (loW b)); lia.
  - destruct (Z.ltb_spec (upW b) (h_wire h)); lia.
Qed.
Lemma bound_step_grows b h : (loT (bound_step b h) <= loT b /\ upT b <= upT (bound_step b h) /\ loW (bound_step b h) <= loW b /\ upW b <= upW (bound_step b h))%Z.
Proof.
  unfold bound_step; simpl. repeat split.
  - destruct (qc_lt (h_time h) (qz' (loT b))) eqn:E; [|lia]. apply qc_lt_spec in E. apply trunc_hi, Qclt_le_weak. exact E.
  - destruct (qc_lt (qz' (upT b)) (h_time h)) eqn:E; [|lia]. apply qc_lt_spec in E. apply trunc_lo, Qclt_le_weak. exact E.
  - destruct (Z.ltb_spec (h_wire h) (loW b)); lia.
  - destruct (Z.ltb_spec (upW b) (h_wire h)); lia.
Qed.
Lemma fold_covers hits : forall b, (forall h, covers b h -> covers (fold_left bound_step hits b) h) /\
  forall h, In h hits -> covers (fold_left bound_step hits b) h.
Proof.
  induction hits as [|x hits IH]; intros b; simpl; [split; [auto|intros h []]|].
  destruct (IH (bound_step b x)) as [H1 H2]. split.
  - intros h Hc. apply H1. pose proof (bound_step_grows b x). unfold covers in *. lia.
  - intros h [<-|Hh]; [apply H1, bound_step_covers|apply H2, Hh].
Qed.
Definition margin (b : bounds) (h : bhit) : Prop :=
  (loT b + 20 <= trunc (h_time h) <= upT b - 20 /\ loW b + 20 <= h_wire h <= upW b - 20)%Z.
Lemma bounds_ok mw ro hits h : In h hits -> margin (find_bounds mw ro hits) h.
Proof.
  intros Hh. unfold find_bounds, margin. cbn [loT upT loW upW].
  pose proof (proj2 (fold_covers hits {| loT := ro; upT := 0; loW := mw; upW := 0 |}) h Hh) as H. unfold covers in H. lia.
Qed.

(** two-dimensional get and set *)
Definition get {A} (d : A) (m : list (list A)) (x y : nat) : A := nth y (nth x m []) d.
Definition put {A} (m : list (list A)) (x y : nat) (v : A) : list (list A) := upd m x (upd (nth x m []) y v).
Lemma rect_row {A} nw nt (m : list (list A)) x : rect nw nt m -> x < nw -> length (nth x m []) = nt.
Proof. intros [E H] Hx. apply H, nth_In. lia. Qed.
Lemma put_rect {A} nw nt (m : list (list A)) x y v : rect nw nt m -> x < nw -> rect nw nt (put m x y v).
Proof.
  intros Hr Hx. split; [unfold put; rewrite upd_length; apply Hr|]. intros r Hin. unfold put in Hin.
  apply In_nth with (d := []) in Hin. destruct Hin as (i & Hi & <-). rewrite upd_length in Hi. rewrite nth_upd.
  destruct ((i =? x) && (x <? length m)); [rewrite upd_length; apply (rect_row nw); assumption|]. apply (rect_row nw); [exact Hr|]. destruct Hr as [<- _]. exact Hi.
Qed.
Lemma get_put {A} (d : A) nw nt m x y v x' y' : rect nw nt m -> x < nw -> y < nt ->
  get d (put m x y v) x' y' = if (x' =? x) && (y' =? y) then v else get d m x' y'.
Proof.
  intros Hr Hx Hy. unfold get, put. rewrite nth_upd. destruct Hr as [Em Hm].
  destruct (Nat.eqb_spec x' x) as [->|]; simpl; [|reflexivity]. destruct (Nat.ltb_spec x (length m)); [|lia].
  rewrite nth_upd. destruct (Nat.eqb_spec y' y) as [->|]; simpl; [|reflexivity].
  assert (E : length (nth x m []) = nt) by (apply Hm, nth_In; lia). rewrite E. destruct (Nat.ltb_spec y nt); [reflexivity|lia].
Qed.

Section Fill.
Variables (b : bounds) (nw nt : nat).
Hypothesis Hw : (upW b - loW b = Z.of_nat nw)%Z.
Hypothesis Ht : (upT b - loT b = Z.of_nat nt)%Z.

Definition shows (pre : list bhit) (s : image * hitmap) : Prop :=
  rect nw nt (fst s) /\ rect nw nt (snd s) /\
  forall x y, x < nw -> y < nt ->
    cell_shows pre (loW b + Z.of_nat x) (loT b + Z.of_nat y) (get (Q2Qc 0) (fst s) x y) (get None (snd s) x y).

Lemma fill_hit_ok pre s h : shows pre s -> margin b h -> exists s', fill_hit b s h = Ok s' /\ shows (pre ++ [h]) s'.
Proof.
  destruct s as [im hm]. intros (Hri & Hrh & Hc) Hmg. unfold margin in Hmg. cbn [fst snd] in *. unfold fill_hit.
  set (x := Z.to_nat (h_wire h - loW b)). set (y := Z.to_nat (trunc (h_time h) - loT b)).
  assert (Ex : (h_wire h - loW b)%Z = Z.of_nat x) by (unfold x; lia).
  assert (Ey : (trunc (h_time h) - loT b)%Z = Z.of_nat y) by (unfold y; lia).
  assert (Hx : x < nw) by lia. assert (Hy : y < nt) by lia. rewrite Ex, Ey.
  assert (Hxi : x < length im) by (destruct Hri as [-> _]; exact Hx). assert (Hxh : x < length hm) by (destruct Hrh as [-> _]; exact Hx).
  assert (Hyi : y < length (nth x im [])) by (rewrite (rect_row nw nt im x Hri Hx); exact Hy).
  assert (Hyh : y < length (nth x hm [])) by (rewrite (rect_row nw nt hm x Hrh Hx); exact Hy).
  unfold at_z, idx_z, set_at_z, set_idx_z.
  destruct (Z.ltb_spec (Z.of_nat x) 0); [lia|]. destruct (Z.ltb_spec (Z.of_nat y) 0); [lia|]. rewrite !Nat2Z.id.
  rewrite (at_ok im x [] Hxi). cbn [obind]. rewrite (at_ok _ y (Q2Qc 0) Hyi). cbn [obind]. fold (get (Q2Qc 0) im x y).
  assert (Hcell : forall x' y', in_cell (loW b + Z.of_nat x') (loT b + Z.of_nat y') h <-> x' = x /\ y' = y).
  { intros x' y'. unfold in_cell. rewrite tick_trunc. lia. }
  destruct (qc_lt (get (Q2Qc 0) im x y) (h_charge h)) eqn:E.
  - apply qc_lt_spec in E. rewrite (set_at_ok _ y _ Hyi). cbn [obind]. rewrite (set_at_ok im x _ Hxi). cbn [obind].
    rewrite (idx_ok hm x [] Hxh). cbn [obind]. rewrite (set_idx_ok _ y _ Hyh). cbn [obind]. rewrite (set_idx_ok hm x _ Hxh). cbn [obind].
    eexists. split; [reflexivity|]. fold (put im x y (h_charge h)). fold (put hm x y (Some h)).
    split; [apply put_rect; assumption|]. split; [apply put_rect; assumption|]. cbn [fst snd]. intros x' y' Hx' Hy'.
    rewrite (get_put _ nw nt), (get_put _ nw nt) by assumption.
    specialize (Hc x' y' Hx' Hy'). destruct ((x' =? x) && (y' =? y)) eqn:Exy.
    + apply andb_true_iff in Exy. destruct Exy as [E1 E2]. apply Nat.eqb_eq in E1, E2. subst x' y'.
      cbn [cell_shows]. split; [reflexivity|].
      assert (Hlt : forall h', In h' pre -> in_cell (loW b + Z.of_nat x) (loT b + Z.of_nat y) h' -> (h_charge h' < h_charge h)%Qc).
      { intros h' Hin Hc'. destruct (get None hm x y) as [h0|].
        - destruct Hc as (Eq & _ & p & q & -> & _ & Hp & Hq). apply in_app_iff in Hin. destruct Hin as [Hin|[<-|Hin]].
          + eapply Qclt_trans; [apply Hp; eassumption|exact E].
          + rewrite <- Eq. exact E.
          + eapply Qcle_lt_trans; [apply Hq; eassumption|exact E].
        - destruct Hc as [Eq Hle]. eapply Qcle_lt_trans; [apply Hle; eassumption|]. rewrite Eq in E. exact E. }
      split.
      * destruct (get None hm x y) as [h0|]; [destruct Hc as (_ & Hp & _); eapply Qclt_trans; eassumption|].
        destruct Hc as [Eq _]. rewrite Eq in E. exact E.
      * exists pre, []. split; [reflexivity|]. split; [apply Hcell; auto|]. split; [exact Hlt|intros h' []].
    + assert (Hno : ~ in_cell (loW b + Z.of_nat x') (loT b + Z.of_nat y') h).
      { rewrite Hcell. intros [-> ->]. rewrite !Nat.eqb_refl in Exy. discriminate. }
      destruct (get None hm x' y') as [h0|]; cbn [cell_shows] in *.
      * destruct Hc as (Eq & Hp0 & p & q & -> & Hc0 & Hp & Hq). split; [exact Eq|]. split; [exact Hp0|].
        exists p, (q ++ [h]). rewrite <- app_assoc. split; [reflexivity|]. split; [exact Hc0|]. split; [exact Hp|].
        intros h' Hin Hc'. apply in_app_iff in Hin. destruct Hin as [Hin|[<-|[]]]; [apply Hq; assumption|contradiction].
      * destruct Hc as [Eq Hle]. split; [exact Eq|]. intros h' Hin Hc'. apply in_app_iff in Hin. destruct Hin as [Hin|[<-|[]]]; [apply Hle; assumption|contradiction].
  - apply qc_lt_false in E. eexists. split; [reflexivity|]. split; [exact Hri|]. split; [exact Hrh|]. cbn [fst snd]. intros x' y' Hx' Hy'.
    specialize (Hc x' y' Hx' Hy'). destruct (get None hm x' y') as [h0|] eqn:Eh; cbn [cell_shows] in *.
    + destruct Hc as (Eq & Hp0 & p & q & -> & Hc0 & Hp & Hq). split; [exact Eq|]. split; [exact Hp0|].
      exists p, (q ++ [h]). rewrite <- app_assoc. split; [reflexivity|]. split; [exact Hc0|]. split; [exact Hp|].
      intros h' Hin Hc'. apply in_app_iff in Hin. destruct Hin as [Hin|[<-|[]]]; [apply Hq; assumption|].
      apply Hcell in Hc'. destruct Hc' as [-> ->]. exact E.
    + destruct Hc as [Eq Hle]. split; [exact Eq|]. intros h' Hin Hc'. apply in_app_iff in Hin. destruct Hin as [Hin|[<-|[]]]; [apply Hle; assumption|].
      apply Hcell in Hc'. destruct Hc' as [-> ->]. rewrite Eq in E. exact E.
Qed.
End Fill.

Lemma rect_repeat {A} nw nt (d : A) : rect nw nt (repeat (repeat d nt) nw).
Proof. split; [apply repeat_length|]. intros r Hr. apply repeat_spec in Hr. subst r. apply repeat_length. Qed.
Lemma get_repeat {A} (d : A) nw nt x y : get d (repeat (repeat d nt) nw) x y = d.
Proof.
  unfold get. destruct (Nat.lt_ge_cases x nw) as [Hx|Hx].
  - assert (E : nth x (repeat (repeat d nt) nw) [] = repeat d nt).
    { apply (repeat_spec nw (repeat d nt)). apply nth_In. rewrite repeat_length. exact Hx. }
    rewrite E. apply nth_repeat.
  - rewrite (nth_overflow (repeat (repeat d nt) nw)) by (rewrite repeat_length; exact Hx). destruct y; reflexivity.
Qed.

Lemma hits_to_image_ok mw ro hits : hits <> [] ->
  exists im hm b nw nt, hits_to_image mw ro hits = Ok (im, hm, b) /\ b = find_bounds mw ro hits /\
    (upW b - loW b = Z.of_nat nw)%Z /\ (upT b - loT b = Z.of_nat nt)%Z /\ 40 <= nw /\ 40 <= nt /\
    rect nw nt im /\ rect nw nt hm /\ (forall h, In h hits -> margin b h) /\
    forall x y, x < nw -> y < nt ->
      cell_shows hits (loW b + Z.of_nat x) (loT b + Z.of_nat y) (get (Q2Qc 0) im x y) (get None hm x y).
Proof.
  intros Hne. unfold hits_to_image. set (b := find_bounds mw ro hits).
  assert (Hmg : forall h, In h hits -> margin b h) by (intros h Hh; apply bounds_ok, Hh).
  destruct hits as [|h0 hits'] eqn:Eh; [congruence|]. rewrite <- Eh in *.
  assert (H0 : margin b h0) by (apply Hmg; rewrite Eh; left; reflexivity). unfold margin in H0.
  destruct (Z.ltb_spec (upW b - loW b) 0); [lia|]. destruct (Z.ltb_spec (upT b - loT b) 0); [lia|]. cbn [orb].
  set (nw := Z.to_nat (upW b - loW b)). set (nt := Z.to_nat (upT b - loT b)).
  destruct (foreach_pre (shows b nw nt) (fill_hit b) hits (repeat (repeat (Q2Qc 0) nt) nw, repeat (repeat None nt) nw)) as ([im hm] & E & Hr1 & Hr2 & Hc).
  - split; [apply rect_repeat|]. split; [apply rect_repeat|]. cbn [fst snd]. intros x y Hx Hy.
    rewrite !get_repeat. cbn [cell_shows]. split; [reflexivity|intros h []].
  - intros pre d post s Ep Hs. apply fill_hit_ok; [unfold nw; lia|unfold nt; lia|exact Hs|]. apply Hmg. rewrite Ep. apply in_app_iff. right; left; reflexivity.
  - rewrite E. cbn [obind]. exists im, hm, b, nw, nt. cbn [fst snd] in *.
    split; [reflexivity|]. repeat (split; [first [reflexivity|unfold nw, nt; lia|assumption]|]). exact Hc.
Qed.

(** back to hits *)
Lemma bins_to_hits_ok nx ny hm im bins : 0 < nx -> rect nx ny im -> rect nx ny hm -> (forall b, In b bins -> b < nx * ny) ->
  bins_to_hits hm im bins = Ok (real_hits hm nx bins).
Proof.
  intros Hnx Hi Hh Hlt. unfold bins_to_hits.
  match goal with |- foreach bins ?body [] = _ =>
    destruct (foreach_pre (fun pre acc => acc = real_hits hm nx pre) body bins []) as (l & E & Hl) end.
  - reflexivity.
  - intros pre d post acc Ep Hacc. rewrite (hit_ok nx ny hm im Hnx Hi Hh) by (apply Hlt; rewrite Ep; apply in_app_iff; right; left; reflexivity).
    cbn [obind]. eexists. split; [reflexivity|]. unfold real_hits in *. rewrite flat_map_app. simpl. rewrite <- Hacc, app_nil_r.
    destruct (hit_of hm nx d); [reflexivity|rewrite app_nil_r; reflexivity].
  - rewrite E, Hl. reflexivity.
Qed.

Lemma bins_to_clusters_ok cf nx ny hm im all acc : 0 < nx -> rect nx ny im -> rect nx ny hm -> (forall b, In b (concat all) -> b < nx * ny) ->
  bins_to_clusters cf hm im all acc = Ok (acc ++ filter (fun l => minSize cf <=? length l) (map (real_hits hm nx) all)).
Proof.
  intros Hnx Hi Hh Hlt. unfold bins_to_clusters.
  match goal with |- foreach all ?body acc = _ =>
    destruct (foreach_pre (fun pre out => out = acc ++ filter (fun l => minSize cf <=? length l) (map (real_hits hm nx) pre)) body all acc) as (l & E & Hl) end.
  - simpl. rewrite app_nil_r. reflexivity.
  - intros pre d post out Ep Hout. rewrite (bins_to_hits_ok nx ny hm im d Hnx Hi Hh).
    + cbn [obind]. eexists. split; [reflexivity|]. rewrite map_app, filter_app, Hout. simpl.
      destruct (Nat.ltb_spec (length (real_hits hm nx d)) (minSize cf)); destruct (Nat.leb_spec (minSize cf) (length (real_hits hm nx d))); try lia.
      * rewrite app_nil_r. reflexivity.
      * rewrite app_assoc. reflexivity.
    + intros b Hb. apply Hlt. rewrite Ep, concat_app. simpl. apply in_app_iff. right. apply in_app_iff. left; exact Hb.
  - rewrite E, Hl. reflexivity.
Qed.

(** distinct bins show distinct hits *)
Lemma real_hits_nodup hits b nw nt hm im bins : 0 < nw ->
  (forall x y, x < nw -> y < nt -> cell_shows hits (loW b + Z.of_nat x) (loT b + Z.of_nat y) (get (Q2Qc 0) im x y) (get None hm x y)) ->
  NoDup bins -> (forall c, In c bins -> c < nw * nt) -> NoDup (real_hits hm nw bins) /\ incl (real_hits hm nw bins) hits.
Proof.
  intros Hnw Hc Hnd Hlt.
  assert (Hcell : forall c h, In c bins -> hit_of hm nw c = Some h ->
     In h hits /\ in_cell (loW b + Z.of_nat (wire_of nw c)) (loT b + Z.of_nat (tick_of nw c)) h).
  { intros c h Hin Eh. specialize (Hc (wire_of nw c) (tick_of nw c) (wire_lt nw c Hnw) (tick_lt nw nt c Hnw (Hlt c Hin))).
    unfold hit_of in Eh. fold (get None hm (wire_of nw c) (tick_of nw c)) in Eh. rewrite Eh in Hc. destruct Hc as (_ & _ & p & q & -> & H & _).
    split; [apply in_app_iff; right; left; reflexivity|exact H]. }
  split.
  - clear Hlt. induction Hnd as [|c bins Hn Hnd IH]; [constructor|]. cbn [real_hits flat_map]. fold (real_hits hm nw bins).
    assert (IH' : NoDup (real_hits hm nw bins)) by (apply IH; intros c' h Hin; apply Hcell; right; exact Hin).
    destruct (hit_of hm nw c) as [h|] eqn:Eh; [|exact IH']. simpl. constructor; [|exact IH']. intros F.
    apply in_flat_map in F. destruct F as (c' & Hin & F). destruct (hit_of hm nw c') as [h'|] eqn:Eh'; [|destruct F].
    destruct F as [->|[]]. apply Hn. destruct (Hcell c h (or_introl eq_refl) Eh) as [_ [W1 T1]].
    destruct (Hcell c' h (or_intror Hin) Eh') as [_ [W2 T2]]. apply tick_trunc in T1, T2.
    replace c with c'; [exact Hin|]. apply (cell_inj nw); [exact Hnw| |]; lia.
  - intros h Hh. apply in_flat_map in Hh. destruct Hh as (c & Hin & F). destruct (hit_of hm nw c) as [h'|] eqn:Eh; [|destruct F].
    destruct F as [->|[]]. apply (Hcell c h Hin Eh).
Qed.
