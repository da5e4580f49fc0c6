(** The growing loops of FindClusters: one cluster grown from a seed until nothing more can be added. *)
From Coq Require Import QArith Qcanon.
From Verif Require Import Base QcUtil RFF_Spec Solver_Model Solver_Proofs SPS_Model BC_Model BC_Spec BC_Cells.
From Coq Require Import Lqa.
Local Open Scope nat_scope.

Lemma qabs_lt x y d : qc_lt (qabs (x - y)%Qc) d = true <-> ((x - y) < d /\ (y - x) < d)%Qc.
Proof.
  unfold qabs. rewrite qc_lt_spec. destruct (qc_lt (x - y)%Qc (Q2Qc 0)) eqn:E.
  - apply qc_lt_spec in E. change (Q2Qc 0) with 0%Qc in E. split; [intros H; split|intros [H1 H2]]; qclra.
  - apply qc_lt_false in E. change (Q2Qc 0) with 0%Qc in E. split; [intros H; split|intros [H1 H2]]; qclra.
Qed.

(** scanning a vector that grows *)
Lemma scan_inv (P : nat -> cstate -> Prop) body N : forall fuel k s,
  (forall k s b, P k s -> nth_error (clus s) k = Some b -> exists s', body s b = Ok s' /\ P (S k) s') ->
  (forall k s, P k s -> length (clus s) <= N) ->
  P k s -> N <= fuel + k -> exists s' k', scan fuel body k s = Ok s' /\ P k' s' /\ length (clus s') <= k'.
Proof.
  induction fuel as [|f IH]; intros k s Hs Hl HP Hf; simpl.
  - destruct (nth_error (clus s) k) eqn:E.
    + assert (k < length (clus s)) by (apply nth_error_Some; congruence). specialize (Hl k s HP). lia.
    + exists s, k. apply nth_error_None in E. auto.
  - destruct (nth_error (clus s) k) as [b|] eqn:E.
    + destruct (Hs k s b HP E) as (s' & E' & HP'). rewrite E'. simpl. apply IH; auto. lia.
    + exists s, k. apply nth_error_None in E. auto.
Qed.

Section Grow.
Variables (cf : config) (hm : hitmap) (im : image) (nx ny : nat) (prev : list nat).
Hypothesis Hnx : 0 < nx.
Hypothesis Him : rect nx ny im.
Hypothesis Hhm : rect nx ny hm.
Let charge := charge_of im nx.
Let time := time_of hm nx.
Let El : length im = nx := im_length nx ny im Him.

Definition times_of (c : list nat) : list Qc := filter (fun t => qc_lt (Q2Qc 0) t) (map time c).
Definition sinv (s : cstate) : Prop := marks nx ny (used s) (prev ++ clus s) /\ times s = times_of (clus s).

Lemma times_in c t : In t (times_of c) <-> exists a, In a c /\ (0 < time a)%Qc /\ time a = t.
Proof.
  unfold times_of. rewrite filter_In, in_map_iff, qc_lt_spec. change (Q2Qc 0) with 0%Qc. split.
  - intros ((a & <- & Ha) & H). eauto.
  - intros (a & Ha & H & <-). eauto.
Qed.
Lemma times_snoc c b : times_of (c ++ [b]) = if qc_lt (Q2Qc 0) (time b) then times_of c ++ [time b] else times_of c.
Proof.
  unfold times_of. rewrite map_app, filter_app. cbn [map filter]. destruct (qc_lt (Q2Qc 0) (time b)); [reflexivity|apply app_nil_r].
Qed.
Lemma cut_match c b : passes_time_cut cf (times_of c) (time b) = true <-> time_match cf hm nx c b.
Proof.
  unfold passes_time_cut. rewrite existsb_exists. unfold time_match, in_time. fold time. split.
  - intros (t & Ht & H). apply times_in in Ht. destruct Ht as (a & Ha & Hp & <-). apply qabs_lt in H. eauto.
  - intros (a & Ha & Hp & H). exists (time a). split; [apply times_in; eauto|]. apply qabs_lt. exact H.
Qed.
Lemma times_nil c : times_of c = [] <-> ~ exists a, In a c /\ (0 < time a)%Qc.
Proof.
  split.
  - intros E (a & Ha & Hp). assert (H : In (time a) (times_of c)) by (apply times_in; eauto). rewrite E in H. destruct H.
  - intros H. destruct (times_of c) as [|t l] eqn:E; [reflexivity|]. exfalso. apply H.
    assert (Ht : In t (times_of c)) by (rewrite E; left; reflexivity). apply times_in in Ht. destruct Ht as (a & Ha & Hp & _). eauto.
Qed.

Lemma sinv_push s n fl : sinv s -> n < nx * ny -> ~ In n (prev ++ clus s) ->
  sinv {| used := upd (used s) n true; clus := clus s ++ [n];
          times := if qc_lt (Q2Qc 0) (time n) then times s ++ [time n] else times s; added := fl |}.
Proof.
  intros [Hm Ht] Hn Hi. split; simpl.
  - rewrite app_assoc. apply marks_add; assumption.
  - rewrite times_snoc, Ht. reflexivity.
Qed.
Lemma sinv_length s : sinv s -> length (clus s) <= nx * ny.
Proof. intros [Hm _]. apply marks_length in Hm; [|exact Hnx]. rewrite app_length in Hm. lia. Qed.
Lemma sinv_lt s b : sinv s -> In b (clus s) -> b < nx * ny.
Proof. intros [(_ & _ & H & _) _] Hb. apply H. apply in_app_iff. right; exact Hb. Qed.

Definition maygrow := may_grow cf hm im nx ny prev.

(** one cell *)
Lemma grow_cell_ok s b x y : sinv s -> In b (clus s) ->
  (Z.abs (x - Z.of_nat (wire_of nx b)) <= wireDist cf)%Z -> (Z.abs (y - Z.of_nat (tick_of nx b)) <= tickDist cf)%Z ->
  exists s', grow_cell cf hm im ny (wire_of nx b) (tick_of nx b) s (x, y) = Ok s' /\ sinv s' /\
    ((s' = s /\ forall n, Z.of_nat (wire_of nx n) = x -> Z.of_nat (tick_of nx n) = y -> n < nx * ny -> n <> b -> ~ maygrow (clus s) n)
     \/ exists n, maygrow (clus s) n /\ clus s' = clus s ++ [n] /\ added s' = true).
Proof.
  intros Hi Hb Hx Hy. unfold grow_cell. rewrite El.
  destruct ((Z.of_nat nx <=? x) || (x <? 0))%Z eqn:E1.
  { exists s. split; [reflexivity|]. split; [exact Hi|]. left. split; [reflexivity|]. intros n Ex Ey Hn Hne _.
    apply orb_true_iff in E1. pose proof (wire_lt nx n Hnx). destruct E1 as [E|E]; [apply Z.leb_le in E|apply Z.ltb_lt in E]; lia. }
  apply orb_false_iff in E1. destruct E1 as [E1 E1']. apply Z.leb_gt in E1. apply Z.ltb_ge in E1'.
  destruct ((Z.of_nat ny <=? y) || (y <? 0))%Z eqn:E2.
  { exists s. split; [reflexivity|]. split; [exact Hi|]. left. split; [reflexivity|]. intros n Ex Ey Hn Hne _.
    apply orb_true_iff in E2. pose proof (tick_lt nx ny n Hnx Hn). destruct E2 as [E|E]; [apply Z.leb_le in E|apply Z.ltb_lt in E]; lia. }
  apply orb_false_iff in E2. destruct E2 as [E2 E2']. apply Z.leb_gt in E2. apply Z.ltb_ge in E2'.
  destruct ((x =? Z.of_nat (wire_of nx b)) && (y =? Z.of_nat (tick_of nx b)))%Z eqn:E3.
  { exists s. split; [reflexivity|]. split; [exact Hi|]. left. split; [reflexivity|]. intros n Ex Ey Hn Hne _.
    apply andb_true_iff in E3. destruct E3 as [E E']. apply Z.eqb_eq in E, E'. apply Hne. apply (cell_inj nx); lia. }
  unfold wire_tick_to_bin. rewrite El.
  set (xn := Z.to_nat x). set (yn := Z.to_nat y). set (n := yn * nx + xn).
  assert (Hxn : xn < nx) by (unfold xn; lia). assert (Hyn : yn < ny) by (unfold yn; lia).
  assert (Hn : n < nx * ny) by (apply cell_lt; assumption).
  assert (Ew : wire_of nx n = xn) by (apply cell_wire; exact Hxn). assert (Et : tick_of nx n = yn) by (apply cell_tick; exact Hxn).
  assert (Huniq : forall m, Z.of_nat (wire_of nx m) = x -> Z.of_nat (tick_of nx m) = y -> m = n).
  { intros m Ex Ey. apply (cell_inj nx); [exact Hnx| |]; unfold xn, yn in *; lia. }
  assert (Hnb : n <> b).
  { intros ->. apply andb_false_iff in E3. unfold xn, yn in *. destruct E3 as [E|E]; apply Z.eqb_neq in E; lia. }
  destruct (Nat.leb_spec (nx * ny) n); [lia|].
  destruct Hi as [Hm Ht]. destruct (marks_idx nx ny Hnx _ _ n Hm Hn) as (u & Eu & Hu). rewrite Eu. simpl.
  destruct u.
  { exists s. split; [reflexivity|]. split; [split; assumption|]. left. split; [reflexivity|]. intros m Ex Ey _ _ H1.
    rewrite (Huniq m Ex Ey) in H1. destruct H1 as (_ & F1 & F2 & _). destruct Hu as [Hu _]. specialize (Hu eq_refl). apply in_app_iff in Hu. tauto. }
  assert (Hnot : ~ In n (prev ++ clus s)) by (rewrite <- Hu; discriminate).
  rewrite (charge_ok nx ny im Hnx Him n Hn). simpl. rewrite (time_ok nx ny hm im Hnx Him Hhm n Hn). simpl. fold time. fold charge.
  destruct (qc_lt (Q2Qc 0) (time n) && negb (length (times s) =? 0) && negb (passes_time_cut cf (times s) (time n))) eqn:E4.
  { exists s. split; [reflexivity|]. split; [split; assumption|]. left. split; [reflexivity|]. intros m Ex Ey _ _ H1.
    rewrite (Huniq m Ex Ey) in H1. destruct H1 as (_ & _ & _ & _ & _ & F). fold time in F.
    apply andb_true_iff in E4. destruct E4 as [E4 E5]. apply andb_true_iff in E4. destruct E4 as [E4 E6].
    apply qc_lt_spec in E4. change (Q2Qc 0) with 0%Qc in E4. apply negb_true_iff in E5. rewrite Ht in E5, E6.
    assert (G : time_match cf hm nx (clus s) n).
    { apply F; [exact E4|]. destruct (times_of (clus s)) as [|t l] eqn:Et'; [discriminate|].
      assert (Hin : In t (times_of (clus s))) by (rewrite Et'; left; reflexivity). apply times_in in Hin. destruct Hin as (a & Ha & Hp & _). eauto. }
    apply cut_match in G. congruence. }
  destruct (qc_lt (chargeThreshold cf) (charge n)) eqn:E5.
  - assert (Hlen : n < length (used s)) by (destruct Hm as [-> _]; exact Hn).
    rewrite (set_idx_ok _ _ true Hlen). simpl. eexists. split; [reflexivity|]. split; [apply sinv_push; [split; assumption|exact Hn|exact Hnot]|].
    right. exists n. split; [|split; reflexivity]. apply qc_lt_spec in E5.
    assert (N1 : ~ In n prev) by (intros F; apply Hnot, in_app_iff; left; exact F).
    assert (N2 : ~ In n (clus s)) by (intros F; apply Hnot, in_app_iff; right; exact F).
    refine (conj Hn (conj N1 (conj N2 (conj _ (conj E5 _))))).
    + exists b. split; [exact Hb|]. unfold near, dist. split; [congruence|]. rewrite Ew, Et. unfold xn, yn. rewrite !Z2Nat.id by lia. split; lia.
    + fold time. intros Hp Hex. rewrite Ht in E4.
      apply cut_match. destruct (passes_time_cut cf (times_of (clus s)) (time n)); [reflexivity|].
      assert (T1 : qc_lt (Q2Qc 0) (time n) = true) by (apply qc_lt_spec; exact Hp). rewrite T1 in E4.
      destruct (times_of (clus s)) eqn:F; [|discriminate]. exfalso. apply times_nil in F. exact (F Hex).
  - exists s. split; [reflexivity|]. split; [split; assumption|]. left. split; [reflexivity|]. intros m Ex Ey _ _ H1.
    rewrite (Huniq m Ex Ey) in H1. destruct H1 as (_ & _ & _ & _ & F & _). fold charge in F. apply qc_lt_spec in F. congruence.
Qed.

(** one bin: its whole window *)
Lemma grow_bin_ok s b k : sinv s -> nth_error (clus s) k = Some b ->
  exists s' ext, grow_bin cf hm im ny s b = Ok s' /\ sinv s' /\ clus s' = clus s ++ ext /\
    (forall seed, grown cf hm im nx ny prev seed (clus s) -> grown cf hm im nx ny prev seed (clus s')) /\
    (ext <> [] -> added s' = true) /\
    (ext = [] -> s' = s /\ forall n, near cf nx b n -> ~ maygrow (clus s) n).
Proof.
  intros Hi Hk. assert (Hb : In b (clus s)) by (eapply nth_error_In; exact Hk).
  assert (HbN : b < nx * ny) by (apply (sinv_lt s); assumption).
  unfold grow_bin. rewrite El.
  assert (Eb : ((b - b mod nx) / nx) mod ny = tick_of nx b).
  { unfold tick_of. pose proof (Nat.div_mod b nx ltac:(lia)) as E.
    replace (b - b mod nx) with (b / nx * nx) by lia. rewrite Nat.div_mul by lia. apply Nat.mod_small.
    apply (tick_lt nx ny b); assumption. }
  rewrite Eb. fold (wire_of nx b).
  set (cells := flat_map _ _).
  assert (Hcells : forall x y, In (x, y) cells <->
    (Z.abs (x - Z.of_nat (wire_of nx b)) <= wireDist cf)%Z /\ (Z.abs (y - Z.of_nat (tick_of nx b)) <= tickDist cf)%Z).
  { intros x y. unfold cells. rewrite in_flat_map. split.
    - intros (x' & Hx & Hin). apply in_map_iff in Hin. destruct Hin as (y' & [= -> ->] & Hy).
      apply zspan_in in Hx, Hy. lia.
    - intros [Hx Hy]. exists x. split; [apply zspan_in; lia|]. apply in_map. apply zspan_in. lia. }
  destruct (foreach_pre (fun pre s' => sinv s' /\ exists ext, clus s' = clus s ++ ext /\
     (forall seed, grown cf hm im nx ny prev seed (clus s) -> grown cf hm im nx ny prev seed (clus s')) /\
     (ext <> [] -> added s' = true) /\
     (ext = [] -> s' = s /\ forall x y, In (x, y) pre -> forall n, Z.of_nat (wire_of nx n) = x -> Z.of_nat (tick_of nx n) = y ->
        n < nx * ny -> n <> b -> ~ maygrow (clus s) n))
     (grow_cell cf hm im ny (wire_of nx b) (tick_of nx b)) cells s) as (s' & E & Hi' & ext & Hc & Hg & Ha & Hx).
  - split; [exact Hi|]. exists []. rewrite app_nil_r. repeat split; auto.
  - intros pre [x y] post s1 Ecells (Hi1 & ext & Hc & Hg & Ha & Hx).
    assert (Hin : In (x, y) cells) by (rewrite Ecells; apply in_app_iff; right; left; reflexivity).
    apply Hcells in Hin. destruct Hin as [Hwx Hwy].
    destruct (grow_cell_ok s1 b x y Hi1) as (s2 & E2 & Hi2 & Hs2); [rewrite Hc; apply in_app_iff; left; exact Hb|exact Hwx|exact Hwy|].
    exists s2. split; [exact E2|]. split; [exact Hi2|]. destruct Hs2 as [[-> Hno]|(n & Hmay & Hc2 & Ha2)].
    + exists ext. repeat split; auto; try (apply Hx; assumption). intros x' y' Hin. apply in_app_iff in Hin. destruct Hin as [Hin|[[= <- <-]|[]]].
      * apply (proj2 (Hx H)). exact Hin.
      * subst ext. destruct (Hx eq_refl) as [-> _]. exact Hno.
    + exists (ext ++ [n]). split; [rewrite Hc2, Hc, app_assoc; reflexivity|]. split; [|split].
      * intros seed Hs. rewrite Hc2. apply g_add; [apply Hg; exact Hs|exact Hmay].
      * intros _. exact Ha2.
      * intros F. destruct ext; discriminate.
  - exists s', ext. split; [exact E|]. split; [exact Hi'|]. split; [exact Hc|]. split; [exact Hg|]. split; [exact Ha|].
    intros Ee. destruct (Hx Ee) as [Es Hno]. split; [exact Es|]. intros n (Hne & Hw & Ht) Hmay.
    destruct Hmay as (Hn & Hrest).
    apply (Hno (Z.of_nat (wire_of nx n)) (Z.of_nat (tick_of nx n))) with (n := n); auto.
    + apply Hcells. unfold dist in *. lia.
    + split; assumption.
Qed.

(** one pass of the growing loop *)
Definition start (s : cstate) := {| used := used s; clus := clus s; times := times s; added := false |}.
Lemma start_inv s : sinv s -> sinv (start s). Proof. exact id. Qed.

Lemma grow_pass_ok s : sinv s ->
  exists s' ext, scan (nx * ny) (grow_bin cf hm im ny) 0 (start s) = Ok s' /\ sinv s' /\ clus s' = clus s ++ ext /\
    (forall seed, grown cf hm im nx ny prev seed (clus s) -> grown cf hm im nx ny prev seed (clus s')) /\
    (added s' = true -> ext <> []) /\
    (added s' = false -> clus s' = clus s /\ saturated cf hm im nx ny prev (clus s)).
Proof.
  intros Hi.
  destruct (scan_inv (fun k s' => sinv s' /\ exists ext, clus s' = clus s ++ ext /\
    (forall seed, grown cf hm im nx ny prev seed (clus s) -> grown cf hm im nx ny prev seed (clus s')) /\
    (added s' = true -> ext <> []) /\
    (added s' = false -> clus s' = clus s /\ forall j b n, j < k -> nth_error (clus s) j = Some b -> near cf nx b n -> ~ maygrow (clus s) n))
    (grow_bin cf hm im ny) (nx * ny) (nx * ny) 0 (start s)) as (s' & k' & E & (Hi' & ext & Hc & Hg & Ha & Hx) & Hk').
  - intros k s1 b (Hi1 & ext & Hc & Hg & Ha & Hx) Hk.
    destruct (grow_bin_ok s1 b k Hi1 Hk) as (s2 & ext2 & E2 & Hi2 & Hc2 & Hg2 & Ha2 & Hx2).
    exists s2. split; [exact E2|]. split; [exact Hi2|]. exists (ext ++ ext2).
    split; [rewrite Hc2, Hc, app_assoc; reflexivity|]. split; [auto|].
    destruct ext2 as [|e ext2].
    + destruct (Hx2 eq_refl) as [-> Hno]. rewrite app_nil_r. split; [exact Ha|]. intros Hf. destruct (Hx Hf) as [Ec Hj].
      split; [exact Ec|]. intros j b' n Hlt Hb' Hn. destruct (Nat.eq_dec j k) as [->|Hjk].
      * rewrite Ec in Hk. rewrite Hb' in Hk. injection Hk as ->. rewrite Ec in Hno. apply Hno, Hn.
      * apply (Hj j b'); [lia|exact Hb'|exact Hn].
    + rewrite (Ha2 ltac:(discriminate)). split; [intros _ F; destruct ext; discriminate|discriminate].
  - intros k s1 (Hi1 & _). apply sinv_length; exact Hi1.
  - split; [apply start_inv, Hi|]. exists []. rewrite app_nil_r. simpl. repeat split; auto; try discriminate. intros; lia.
  - lia.
  - exists s', ext. split; [exact E|]. split; [exact Hi'|]. split; [exact Hc|]. split; [exact Hg|]. split; [exact Ha|].
    intros Hf. destruct (Hx Hf) as [Ec Hj]. split; [exact Ec|]. intros n Hmay.
    assert (Hmay2 := Hmay). destruct Hmay2 as (_ & _ & _ & (a & Hin & Hn) & _).
    apply In_nth_error in Hin. destruct Hin as (j & Hjj). apply (Hj j a n); auto.
    assert (j < length (clus s)) by (apply nth_error_Some; congruence). rewrite Ec in Hk'. lia.
Qed.

(** the growing loop *)
Lemma grow_ok seed : forall fuel s, sinv s -> grown cf hm im nx ny prev seed (clus s) -> nx * ny < fuel + length (clus s) ->
  exists s', grow cf hm im fuel ny s = Ok s' /\ sinv s' /\ grown cf hm im nx ny prev seed (clus s') /\ saturated cf hm im nx ny prev (clus s').
Proof.
  induction fuel as [|f IH]; intros s Hi Hg Hf.
  - pose proof (sinv_length s Hi). lia.
  - simpl. rewrite El. fold (start s).
    destruct (grow_pass_ok s Hi) as (s1 & ext & E & Hi1 & Hc & Hg1 & Ha & Hx). rewrite E. simpl.
    destruct (added s1) eqn:Ead.
    + apply IH; [exact Hi1|apply Hg1, Hg|]. rewrite Hc, app_length. specialize (Ha eq_refl).
      destruct ext; [congruence|]. simpl. lia.
    + destruct (Hx eq_refl) as [Ec Hs]. exists s1. split; [reflexivity|]. split; [exact Hi1|].
      rewrite Ec. auto.
Qed.
End Grow.
