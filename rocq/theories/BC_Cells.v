(** Arithmetic of bins and cells, and what the small helpers compute. *)
From Coq Require Import QArith Qcanon.
From Verif Require Import Base RFF_Spec Solver_Model Solver_Proofs SPS_Model BC_Model BC_Spec.
Local Open Scope nat_scope.

Lemma foreach_pre {A S} (P : list A -> S -> Prop) body (l : list A) s :
  P [] s ->
  (forall pre d post s, l = pre ++ d :: post -> P pre s -> exists s', body s d = Ok s' /\ P (pre ++ [d]) s') ->
  exists s', foreach l body s = Ok s' /\ P l s'.
Proof.
  intros H0 Hs.
  enough (H : forall post pre s, l = pre ++ post -> P pre s -> exists s', foreach post body s = Ok s' /\ P l s').
  { apply (H l [] s); auto. }
  induction post as [|d post IH]; intros pre s1 E HP; simpl.
  - exists s1. rewrite app_nil_r in E. subst. auto.
  - destruct (Hs pre d post s1 E HP) as (s2 & E2 & H2). rewrite E2. simpl.
    apply (IH (pre ++ [d])); [rewrite <- app_assoc; exact E|exact H2].
Qed.

Lemma zspan_in lo hi z : In z (zspan lo hi) <-> (lo <= z <= hi)%Z.
Proof.
  unfold zspan. rewrite in_map_iff. split.
  - intros (k & E & Hk). apply in_seq in Hk. lia.
  - intros H. exists (Z.to_nat (z - lo)). rewrite in_seq. lia.
Qed.

Lemma cell_wire nx x y : x < nx -> wire_of nx (y * nx + x) = x.
Proof. intros. unfold wire_of. rewrite Nat.add_comm, Nat.mod_add by lia. apply Nat.mod_small; lia. Qed.
Lemma cell_tick nx x y : x < nx -> tick_of nx (y * nx + x) = y.
Proof. intros. unfold tick_of. rewrite Nat.add_comm, Nat.div_add by lia. rewrite Nat.div_small; lia. Qed.
Lemma cell_eq nx b : 0 < nx -> b = tick_of nx b * nx + wire_of nx b.
Proof. intros. unfold tick_of, wire_of. pose proof (Nat.div_mod b nx). nia. Qed.
Lemma wire_lt nx b : 0 < nx -> wire_of nx b < nx.
Proof. intros. apply Nat.mod_upper_bound. lia. Qed.
Lemma tick_lt nx ny b : 0 < nx -> b < nx * ny -> tick_of nx b < ny.
Proof. intros. unfold tick_of. apply Nat.div_lt_upper_bound; lia. Qed.
Lemma cell_lt nx ny x y : x < nx -> y < ny -> y * nx + x < nx * ny.
Proof. intros. nia. Qed.
Lemma cell_inj nx a b : 0 < nx -> wire_of nx a = wire_of nx b -> tick_of nx a = tick_of nx b -> a = b.
Proof. intros H E1 E2. rewrite (cell_eq nx a H), (cell_eq nx b H), E1, E2. reflexivity. Qed.

Lemma off8 d : In d offsets8 <-> ((-1 <= fst d <= 1) /\ (-1 <= snd d <= 1) /\ d <> (0, 0))%Z.
Proof.
  split.
  - simpl. intros H. repeat (destruct H as [<-|H]; [simpl; repeat split; try lia; discriminate|]). destruct H.
  - destruct d as [x y]. simpl. intros ((H1 & H2) & (H3 & H4) & H5).
    assert (x = -1 \/ x = 0 \/ x = 1)%Z as [-> | [-> | ->] ] by lia;
    assert (y = -1 \/ y = 0 \/ y = 1)%Z as [-> | [-> | ->] ] by lia; simpl; tauto.
Qed.
Lemma off8_nodup : NoDup offsets8.
Proof. repeat (constructor; [simpl; intuition discriminate|]). constructor. Qed.

Section Rect.
Variables (nx ny : nat) (hm : hitmap) (im : image).
Hypothesis Hnx : 0 < nx.
Hypothesis Him : rect nx ny im.
Hypothesis Hhm : rect nx ny hm.

Lemma im_length : length im = nx. Proof. apply Him. Qed.

Lemma charge_ok b : b < nx * ny -> bin_to_charge im b = Ok (charge_of im nx b).
Proof.
  intros Hb. unfold bin_to_charge. destruct Him as [E Hr]. rewrite E.
  rewrite (at_ok im (b mod nx) []) by (rewrite E; apply Nat.mod_upper_bound; lia). simpl.
  rewrite (at_ok _ (b / nx) (Q2Qc 0)); [reflexivity|].
  rewrite Hr; [apply (tick_lt nx ny b); assumption|].
  apply nth_In. rewrite E. apply Nat.mod_upper_bound. lia.
Qed.

Lemma hit_ok b : b < nx * ny -> bin_to_hit hm im b = Ok (hit_of hm nx b).
Proof.
  intros Hb. unfold bin_to_hit. rewrite im_length. destruct Hhm as [E Hr].
  rewrite (idx_ok hm (b mod nx) []) by (rewrite E; apply Nat.mod_upper_bound; lia). simpl.
  rewrite (idx_ok _ (b / nx) None); [reflexivity|].
  rewrite Hr; [apply (tick_lt nx ny b); assumption|].
  apply nth_In. rewrite E. apply Nat.mod_upper_bound. lia.
Qed.

Lemma time_ok b : b < nx * ny -> time_of_bin hm im b = Ok (time_of hm nx b).
Proof. intros Hb. unfold time_of_bin. rewrite hit_ok by exact Hb. simpl. unfold time_of. destruct (hit_of hm nx b); reflexivity. Qed.

(** the border test *)
Lemma border_range z : on_border nx ny z = false -> (0 <= z < Z.of_nat (nx * ny))%Z.
Proof.
  unfold on_border. rewrite !orb_false_iff. intros [[[H1 H2] H3] H4].
  apply Z.ltb_ge in H1. apply Z.leb_gt in H4. nia.
Qed.
Lemma border_edge b : b < nx * ny -> on_border nx ny (Z.of_nat b) = edge nx ny b.
Proof.
  intros Hb. unfold on_border, edge.
  pose proof (cell_eq nx b Hnx) as E. pose proof (wire_lt nx b Hnx) as Hw. pose proof (tick_lt nx ny b Hnx Hb) as Ht.
  assert (Em : Z.rem (Z.of_nat b) (Z.of_nat nx) = Z.of_nat (wire_of nx b)).
  { rewrite Z.rem_mod_nonneg by lia. unfold wire_of. rewrite Nat2Z.inj_mod. reflexivity. }
  rewrite Em.
  replace (Z.of_nat (wire_of nx b) =? 0)%Z with (wire_of nx b =? 0) by (apply eq_true_iff_eq; rewrite Nat.eqb_eq, Z.eqb_eq; lia).
  replace (Z.of_nat (wire_of nx b) =? Z.of_nat nx - 1)%Z with (wire_of nx b =? nx - 1) by (apply eq_true_iff_eq; rewrite Nat.eqb_eq, Z.eqb_eq; lia).
  replace (Z.of_nat b <? Z.of_nat nx)%Z with (tick_of nx b =? 0) by (apply eq_true_iff_eq; rewrite Nat.eqb_eq, Z.ltb_lt; nia).
  replace (Z.of_nat nx * (Z.of_nat ny - 1) <=? Z.of_nat b)%Z with (tick_of nx b =? ny - 1) by (apply eq_true_iff_eq; rewrite Nat.eqb_eq, Z.leb_le; nia).
  destruct (wire_of nx b =? 0), (wire_of nx b =? nx - 1), (tick_of nx b =? 0), (tick_of nx b =? ny - 1); reflexivity.
Qed.

(** the direct neighbours *)
Definition nbr (b : nat) (d : Z * Z) : Z := (Z.of_nat b + fst d + snd d * Z.of_nat nx)%Z.

Lemma nbr_cell b d : b < nx * ny -> edge nx ny b = false -> In d offsets8 ->
  exists n, nbr b d = Z.of_nat n /\ n < nx * ny /\
    (Z.of_nat (wire_of nx n) = Z.of_nat (wire_of nx b) + fst d)%Z /\ (Z.of_nat (tick_of nx n) = Z.of_nat (tick_of nx b) + snd d)%Z.
Proof.
  intros Hb He Hd. apply off8 in Hd. destruct Hd as (Hx & Hy & Hne).
  pose proof (cell_eq nx b Hnx) as E. pose proof (wire_lt nx b Hnx) as Hw. pose proof (tick_lt nx ny b Hnx Hb) as Ht.
  unfold edge in He. rewrite !orb_false_iff, !Nat.eqb_neq in He.
  set (x := Z.to_nat (Z.of_nat (wire_of nx b) + fst d)). set (y := Z.to_nat (Z.of_nat (tick_of nx b) + snd d)).
  assert (Ex : Z.of_nat x = (Z.of_nat (wire_of nx b) + fst d)%Z) by (unfold x; lia).
  assert (Ey : Z.of_nat y = (Z.of_nat (tick_of nx b) + snd d)%Z) by (unfold y; lia).
  exists (y * nx + x). assert (Hxn : x < nx) by lia. assert (Hyn : y < ny) by lia.
  repeat split.
  - unfold nbr. rewrite E at 1. rewrite !Nat2Z.inj_add, !Nat2Z.inj_mul, Ex, Ey. ring.
  - apply cell_lt; assumption.
  - rewrite cell_wire by exact Hxn. exact Ex.
  - rewrite cell_tick by exact Hxn. exact Ey.
Qed.

Lemma touching_spec a b : touching nx a b = true <->
  a <> b /\ (dist (wire_of nx a) (wire_of nx b) <= 1)%Z /\ (dist (tick_of nx a) (tick_of nx b) <= 1)%Z.
Proof. unfold touching. rewrite !andb_true_iff, negb_true_iff, Nat.eqb_neq, !Z.leb_le. tauto. Qed.

Lemma nbr_touch b d : b < nx * ny -> edge nx ny b = false -> In d offsets8 -> touching nx b (Z.to_nat (nbr b d)) = true.
Proof.
  intros Hb He Hd. destruct (nbr_cell b d Hb He Hd) as (n & En & Hn & E1 & E2). rewrite En, Nat2Z.id.
  apply off8 in Hd. destruct Hd as (Hx & Hy & Hne). apply touching_spec. unfold dist.
  split; [|lia]. intros ->. apply Hne. destruct d as [dx dy]; simpl in *. f_equal; lia.
Qed.
Lemma touch_nbr b a : a < nx * ny -> touching nx b a = true -> exists d, In d offsets8 /\ nbr b d = Z.of_nat a.
Proof.
  intros Ha H. apply touching_spec in H. destruct H as (Hne & H1 & H2). unfold dist in *.
  exists (Z.of_nat (wire_of nx a) - Z.of_nat (wire_of nx b), Z.of_nat (tick_of nx a) - Z.of_nat (tick_of nx b))%Z. split.
  - apply off8. simpl. split; [lia|]. split; [lia|]. intros [= F1 F2]. apply Hne. apply (cell_inj nx); lia.
  - unfold nbr; simpl. rewrite (cell_eq nx b Hnx) at 1. rewrite (cell_eq nx a Hnx) at 3.
    rewrite !Nat2Z.inj_add, !Nat2Z.inj_mul. ring.
Qed.
Lemma nbr_inj b d d' : b < nx * ny -> edge nx ny b = false -> In d offsets8 -> In d' offsets8 -> nbr b d = nbr b d' -> d = d'.
Proof.
  intros Hb He Hd Hd' E. destruct (nbr_cell b d Hb He Hd) as (n & En & Hn & E1 & E2).
  destruct (nbr_cell b d' Hb He Hd') as (n' & En' & Hn' & E1' & E2').
  assert (n = n') by lia. subst n'. destruct d, d'; simpl in *. f_equal; lia.
Qed.

(** [us] marks exactly the bins of [l] *)
Definition marks (us : list bool) (l : list nat) : Prop :=
  length us = nx * ny /\ NoDup l /\ (forall b, In b l -> b < nx * ny) /\ (forall b, nth b us false = true <-> In b l).

Lemma filter_map_len {A B} (f : A -> B) (p : B -> bool) l : length (filter (fun a => p (f a)) l) = length (filter p (map f l)).
Proof. induction l as [|a l IH]; simpl; [reflexivity|]. destruct (p (f a)); simpl; rewrite IH; reflexivity. Qed.
Lemma NoDup_map_in {A B} (f : A -> B) l : (forall a b, In a l -> In b l -> f a = f b -> a = b) -> NoDup l -> NoDup (map f l).
Proof.
  intros Hi. induction 1 as [|a l Ha Hl IH]; simpl; constructor.
  - rewrite in_map_iff. intros (b & E & Hb). apply Ha. rewrite (Hi a b); simpl; auto.
  - apply IH. intros x y Hx Hy. apply Hi; simpl; auto.
Qed.

Lemma count_foreach us b : length us = nx * ny -> b < nx * ny -> edge nx ny b = false ->
  num_neighbours nx us b = Ok (length (filter (fun d => nth (Z.to_nat (nbr b d)) us false) offsets8)).
Proof.
  intros Hl Hb He. unfold num_neighbours.
  destruct (foreach_pre (fun pre n => n = length (filter (fun d => nth (Z.to_nat (nbr b d)) us false) pre))
    (fun (n : nat) (d : Z * Z) => do u <- at_z us (Z.of_nat b + fst d + snd d * Z.of_nat nx); Ok (if u : bool then S n else n)) offsets8 0)
    as (n & E & Hn).
  - reflexivity.
  - intros pre d post n El Hp. assert (Hd : In d offsets8) by (rewrite El; apply in_or_app; right; left; reflexivity).
    destruct (nbr_cell b d Hb He Hd) as (m & Em & Hm & _). fold (nbr b d). unfold at_z. rewrite Em.
    destruct (Z.ltb_spec (Z.of_nat m) 0); [lia|]. rewrite Nat2Z.id, (at_ok us m false) by lia. simpl.
    eexists. split; [reflexivity|]. rewrite filter_app, app_length, <- Hp. simpl. rewrite Em, Nat2Z.id.
    destruct (nth m us false); simpl; lia.
  - rewrite E, Hn. reflexivity.
Qed.

Lemma count_ok us l b : marks us l -> b < nx * ny -> edge nx ny b = false -> num_neighbours nx us b = Ok (touch_count nx b l).
Proof.
  intros (Hl & Hnd & Hlt & Hm) Hb He. rewrite count_foreach by assumption. f_equal. unfold touch_count.
  set (ns := map (fun d => Z.to_nat (nbr b d)) offsets8).
  rewrite (filter_map_len (fun d => Z.to_nat (nbr b d)) (fun n => nth n us false)). fold ns.
  apply Permutation_length. apply NoDup_Permutation.
  - apply NoDup_filter. apply NoDup_map_in; [|apply off8_nodup]. intros d d' Hd Hd' E.
    apply (nbr_inj b); auto. destruct (nbr_cell b d Hb He Hd) as (n & En & _), (nbr_cell b d' Hb He Hd') as (n' & En' & _).
    lia.
  - apply NoDup_filter, Hnd.
  - intros a. rewrite !filter_In. unfold ns. rewrite in_map_iff, Hm. split.
    + intros ((d & <- & Hd) & Ha). split; [exact Ha|]. apply nbr_touch; assumption.
    + intros (Ha & Ht). split; [|exact Ha]. destruct (touch_nbr b a (Hlt a Ha) Ht) as (d & Hd & Ed).
      exists d. split; [|exact Hd]. rewrite Ed, Nat2Z.id. reflexivity.
Qed.

(** setting and clearing a mark *)
Lemma marks_add us l b : marks us l -> b < nx * ny -> ~ In b l -> marks (upd us b true) (l ++ [b]).
Proof.
  intros (Hl & Hnd & Hlt & Hm) Hb Hn. repeat split.
  - rewrite upd_length. exact Hl.
  - apply (Permutation_NoDup (l := b :: l)); [apply Permutation_cons_append|]. constructor; assumption.
  - intros a. rewrite in_app_iff. simpl. intros [H|[<-|[]]]; auto.
  - rewrite nth_upd, in_app_iff, <- Hm. simpl. destruct (Nat.eqb_spec b0 b) as [->|Hne]; simpl; [|tauto].
    destruct (Nat.ltb_spec b (length us)); tauto.
  - rewrite nth_upd, in_app_iff, <- Hm. simpl. destruct (Nat.eqb_spec b0 b) as [->|Hne]; simpl.
    + destruct (Nat.ltb_spec b (length us)); [reflexivity|lia].
    + intros [H|[<-|[]]]; [exact H|congruence].
Qed.
Lemma marks_del us l1 b l2 : marks us (l1 ++ b :: l2) -> marks (upd us b false) (l1 ++ l2).
Proof.
  intros (Hl & Hnd & Hlt & Hm). split; [rewrite upd_length; exact Hl|]. split; [apply NoDup_remove_1 in Hnd; exact Hnd|]. split.
  - intros a Ha. apply Hlt. apply in_app_iff in Ha. apply in_app_iff. simpl. tauto.
  - intros a. rewrite nth_upd. apply NoDup_remove_2 in Hnd.
    assert (Hb : b < length us) by (rewrite Hl; apply Hlt; apply in_app_iff; right; left; reflexivity).
    destruct (Nat.eqb_spec a b) as [->|Hne]; simpl.
    + destruct (Nat.ltb_spec b (length us)); [|lia]. split; [discriminate|]. intros H'. contradiction.
    + rewrite Hm, !in_app_iff. simpl. intuition congruence.
Qed.
Lemma marks_perm us l l' : Permutation l l' -> marks us l -> marks us l'.
Proof.
  intros Hp (Hl & Hnd & Hlt & Hm). split; [exact Hl|]. split; [apply (Permutation_NoDup Hp Hnd)|]. split.
  - intros a Ha. apply Hlt. apply (Permutation_in _ (Permutation_sym Hp) Ha).
  - intros a. rewrite Hm. split; apply Permutation_in; [exact Hp|apply Permutation_sym, Hp].
Qed.
Lemma marks_idx us l b : marks us l -> b < nx * ny -> exists u, idx us b = Ok u /\ (u = true <-> In b l).
Proof. intros (Hl & _ & _ & Hm) Hb. exists (nth b us false). split; [apply idx_ok; lia|apply Hm]. Qed.
Lemma marks_length us l : marks us l -> length l <= nx * ny.
Proof.
  intros (_ & Hnd & Hlt & _). rewrite <- (seq_length (nx * ny) 0). apply NoDup_incl_length; [exact Hnd|].
  intros b Hb. apply in_seq. specialize (Hlt b Hb). lia.
Qed.
End Rect.
