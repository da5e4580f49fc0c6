(** C145-C148: residual ranges, reversal of the hits, the products, the pitch. *)
From Coq Require Import QArith Qcanon Lqa.
From Verif Require Import Base QcUtil Solver_Model Solver_Proofs GNO_Model GNO_Spec GNO_Proofs GNO_Props GNO_Out GNO_Calo.
Import GNO_Model GNO_Spec.
Local Open Scope nat_scope.

Definition at0 (l : list vec) (k : nat) : vec := nth k l (V 0 0 0)%Qc.
Lemma lens_nth e l k : S k < length l -> nth (S k) (lens e l) 0%Qc = dist e (at0 l (S k)) (at0 l k).
Proof.
  destruct l as [|v l]; cbn [length]; [lia|]. intros H. cbn [lens nth]. unfold at0. revert v k H. induction l as [|w l IH]; intros v k H; [cbn in H; lia|].
  destruct k as [|k]; [reflexivity|]. cbn [steps nth] in *. cbn [length] in H. rewrite IH by lia. reflexivity.
Qed.
Lemma lens_sum e v l : qsum (fun y => y) (lens e (v :: l)) = path (e_norm e) v l.
Proof.
  cbn [lens]. rewrite qsum_cons. assert (G : forall l v, qsum (fun y => y) (steps e v l) = path (e_norm e) v l).
  { clear. induction l as [|w l IH]; intros v; [reflexivity|]. cbn [steps path]. rewrite qsum_cons, IH. reflexivity. }
  rewrite G. ring.
Qed.
Lemma tele_down (r : list Qc) : forall ls, length r = length ls -> r <> [] -> (forall k, S k < length ls -> nth k r 0%Qc = (nth (S k) r 0 + nth (S k) ls 0)%Qc) ->
  nth 0 r 0%Qc = (qsum (fun y => y) (tl ls) + nth (length ls - 1) r 0)%Qc.
Proof.
  induction r as [|a r IH]; intros ls L N H; [contradiction|]. destruct ls as [|b ls]; [discriminate L|]. destruct r as [|a2 r].
  - destruct ls; [|discriminate L]. cbn. change (a = 0 + a)%Qc. ring.
  - destruct ls as [|b2 ls]; [discriminate L|]. cbn [length tl] in *. specialize (IH (b2 :: ls)). cbn [length tl] in IH.
    pose proof (H 0 ltac:(lia)) as H0. cbn [nth] in H0. rewrite qsum_cons; cbv beta. change (nth 0 (a :: a2 :: r) 0%Qc) with a.
    assert (X : nth 0 (a2 :: r) 0%Qc = (qsum (fun y => y) ls + nth (S (length ls) - 1) (a2 :: r) 0)%Qc).
    { apply IH; [lia|discriminate|]. intros k Hk. exact (H (S k) ltac:(lia)). }
    change (nth 0 (a2 :: r) 0%Qc) with a2 in X. replace (S (S (length ls)) - 1) with (S (S (length ls) - 1)) by lia.
    change (nth (S (S (length ls) - 1)) (a :: a2 :: r) 0%Qc) with (nth (S (length ls) - 1) (a2 :: r) 0%Qc).
    remember (nth (S (length ls) - 1) (a2 :: r) 0%Qc) as z. clear Heqz. rewrite H0, X. ring.
Qed.
Lemma tele_up (r : list Qc) : forall ls, length r = length ls -> r <> [] -> (forall k, S k < length ls -> nth (S k) r 0%Qc = (nth k r 0 + nth (S k) ls 0)%Qc) ->
  nth (length ls - 1) r 0%Qc = (qsum (fun y => y) (tl ls) + nth 0 r 0)%Qc.
Proof.
  induction r as [|a r IH]; intros ls L N H; [contradiction|]. destruct ls as [|b ls]; [discriminate L|]. destruct r as [|a2 r].
  - destruct ls; [|discriminate L]. cbn. change (a = 0 + a)%Qc. ring.
  - destruct ls as [|b2 ls]; [discriminate L|]. cbn [length tl] in *. specialize (IH (b2 :: ls)). cbn [length tl] in IH.
    pose proof (H 0 ltac:(lia)) as H0. cbn [nth] in H0. rewrite qsum_cons; cbv beta. change (nth 0 (a :: a2 :: r) 0%Qc) with a.
    assert (X : nth (S (length ls) - 1) (a2 :: r) 0%Qc = (qsum (fun y => y) ls + nth 0 (a2 :: r) 0)%Qc).
    { apply IH; [lia|discriminate|]. intros k Hk. exact (H (S k) ltac:(lia)). }
    change (nth 0 (a2 :: r) 0%Qc) with a2 in X. replace (S (S (length ls)) - 1) with (S (S (length ls) - 1)) by lia.
    change (nth (S (S (length ls) - 1)) (a :: a2 :: r) 0%Qc) with (nth (S (length ls) - 1) (a2 :: r) 0%Qc). rewrite X, H0. ring.
Qed.

(** the direction test of the module: the hits run from the start of the track to its end *)
Definition along (e : env) (t : track) (first last : vec) : Prop :=
  (dist e (t_start t) first + dist e (t_end t) last < dist e (t_end t) first + dist e (t_start t) last)%Qc.
Lemma along_dec e t a b : downstream e t a b = true <-> along e t a b.
Proof. unfold downstream, along. apply qc_lt_spec. Qed.
(** the residual ranges [r] of the points [xs]: half of the last step at the last point in the direction of travel, and the path from there for the others *)
Definition residual (e : env) (t : track) (xs : list vec) (r : list Qc) : Prop :=
  let n := length xs in
  length r = n /\
  (along e t (at0 xs 0) (at0 xs (n - 1)) ->
     nth (n - 1) r 0%Qc = (dist e (at0 xs (n - 1)) (at0 xs (n - 2)) * Q2Qc (1 # 2))%Qc /\ forall k, S k < n -> nth k r 0%Qc = (nth (S k) r 0 + dist e (at0 xs (S k)) (at0 xs k))%Qc) /\
  (~ along e t (at0 xs 0) (at0 xs (n - 1)) ->
     nth 0 r 0%Qc = (dist e (at0 xs 1) (at0 xs 0) * Q2Qc (1 # 2))%Qc /\ forall k, S k < n -> nth (S k) r 0%Qc = (nth k r 0 + dist e (at0 xs (S k)) (at0 xs k))%Qc).

Lemma res_of_residual e hs t os r : 1 < length os -> res_of e hs t os r -> residual e t (map (p_loc e hs t) os) r.
Proof.
  intros L (Lr & H). cbv zeta in H. unfold residual. rewrite lens_length in H. fold (at0 (map (p_loc e hs t) os) 0) in H. fold (at0 (map (p_loc e hs t) os) (length (map (p_loc e hs t) os) - 1)) in H.
  set (xs := map (p_loc e hs t) os) in *. assert (Lx : length xs = length os) by (unfold xs; apply map_length). split; [congruence|].
  destruct (downstream e t (at0 xs 0) (at0 xs (length xs - 1))) eqn:D.
  - apply along_dec in D. split; [intros _|intros X; contradiction]. destruct H as [H1 H2]. split.
    + rewrite H1. replace (length xs - 1) with (S (length xs - 2)) by lia. rewrite lens_nth by lia. reflexivity.
    + intros k Hk. rewrite (H2 k Hk), lens_nth by exact Hk. reflexivity.
  - assert (ND : ~ along e t (at0 xs 0) (at0 xs (length xs - 1))) by (intros X; apply along_dec in X; congruence). split; [intros X; contradiction|intros _]. destruct H as [H1 H2]. split.
    + rewrite H1, lens_nth by lia. reflexivity.
    + intros k Hk. rewrite (H2 k Hk), lens_nth by exact Hk. reflexivity.
Qed.

(** an object that is not bogus: its ranges *)
Lemma object_res e ts cs asn i x p c : produce e ts = Ok (cs, asn) -> nth_error ts i = Some x -> p < e_np e -> nth_error cs (i * e_np e + p) = Some c -> c_xyz c <> [] ->
  2 <= length (c_xyz c) /\ residual e (n_track x) (c_xyz c) (c_res c) /\ c_range c = path (e_norm e) (at0 (c_xyz c) 0) (tl (c_xyz c)) /\ c_range c = qsum (fun y => y) (tl (lens e (c_xyz c))).
Proof.
  intros H N Hp Nc D. destruct (object_at e ts cs asn i x p H N Hp) as (ret & os & c' & Ho & No & Nc' & B & C). rewrite Nc in Nc'. injection Nc' as <-.
  destruct (le_lt_dec (length os) 1) as [L | L]; [rewrite (B L) in D; exfalso; apply D; reflexivity|]. destruct (C L) as (r & Hr & ->). cbn [c_xyz c_res c_range]. rewrite map_length. split; [lia|].
  split; [exact (res_of_residual _ _ _ _ _ L Hr)|]. destruct os as [|o os]; [cbn in L; lia|]. cbn [map]. unfold at0. cbn [nth tl]. split; [apply lens_sum|]. cbn [lens tl]. rewrite qsum_cons. ring.
Qed.

(** C145, refuted: no residual range is greater than the range *)
Definition line_hits : hits := [(ex_hit 1 100 0 2 5 40, 1%Z); (ex_hit 2 100 0 2 5 41, 3%Z); (ex_hit 3 100 0 2 5 42, 5%Z)].
Definition nonneg (n : vec -> Qc) : Prop := forall v, (0 <= n v)%Qc.
Lemma ex_norm_nonneg : nonneg ex_norm.
Proof.
  intros v. unfold ex_norm. assert (G : forall z, (0 <= qabs z)%Qc). { intros z. unfold qabs. destruct (qc_lt z 0) eqn:Q; [apply qc_lt_spec in Q; qclra|apply qc_lt_false in Q; exact Q]. }
  pose proof (G (vx v)). pose proof (G (vy v)). pose proof (G (vz v)). qclra.
Qed.
Theorem C145_bound_refuted : ~ forall e ts cs asn i x p c k r, nonneg (e_norm e) -> produce e ts = Ok (cs, asn) -> nth_error ts i = Some x -> p < e_np e ->
  nth_error cs (i * e_np e + p) = Some c -> nth_error (c_res c) k = Some r -> (r <= c_range c)%Qc.
Proof.
  intros G. specialize (G (ex_env 1) [In_ ex_track line_hits [] []]).
  remember (produce (ex_env 1) [In_ ex_track line_hits [] []]) as o eqn:E. vm_compute in E. subst o.
  specialize (G _ _ 0 _ 2 _ 0 _ ex_norm_nonneg eq_refl eq_refl (ltac:(cbn; lia)) eq_refl eq_refl). cbn [c_range] in G. apply Qcle_not_lt in G. apply G. vm_compute. reflexivity.
Qed.
Print Assumptions C145_bound_refuted.
(** C145, what holds: the residual ranges are those of [residual], the range is the length of the path, the largest residual range is the range plus the
    smallest one, and all lie between these two *)
Theorem C145_residuals_partial : forall e ts cs asn i x p c, produce e ts = Ok (cs, asn) -> nth_error ts i = Some x -> p < e_np e ->
  nth_error cs (i * e_np e + p) = Some c -> c_xyz c <> [] ->
  let n := length (c_xyz c) in
  2 <= n /\ residual e (n_track x) (c_xyz c) (c_res c) /\ c_range c = path (e_norm e) (at0 (c_xyz c) 0) (tl (c_xyz c)) /\
  (let lo := if Qclt_le_dec (dist e (t_start (n_track x)) (at0 (c_xyz c) 0) + dist e (t_end (n_track x)) (at0 (c_xyz c) (n - 1))) (dist e (t_end (n_track x)) (at0 (c_xyz c) 0) + dist e (t_start (n_track x)) (at0 (c_xyz c) (n - 1))) then n - 1 else 0 in
   let hi := n - 1 - lo in
   nth hi (c_res c) 0%Qc = (c_range c + nth lo (c_res c) 0)%Qc /\
   (nonneg (e_norm e) -> (0 <= nth lo (c_res c) 0)%Qc /\ forall k, k < n -> (nth lo (c_res c) 0 <= nth k (c_res c) 0)%Qc /\ (nth k (c_res c) 0 <= nth hi (c_res c) 0)%Qc)).
Proof.
  intros e ts cs asn i x p c H N Hp Nc D n. destruct (object_res e ts cs asn i x p c H N Hp Nc D) as (L & R & Rg & Rs).
  split; [exact L|]. split; [exact R|]. split; [exact Rg|]. destruct R as (Lr & Rd & Ru). fold n in Lr, Rd, Ru, L.
  assert (Ll : length (lens e (c_xyz c)) = n) by apply lens_length.
  assert (Nn : c_res c <> []) by (intros X; rewrite X in Lr; cbn in Lr; lia).
  cbv zeta. destruct (Qclt_le_dec _ _) as [A | A].
  - destruct (Rd A) as [R1 R2]. rewrite Nat.sub_diag. split.
    + rewrite Rs. rewrite <- Ll. apply tele_down; [congruence|exact Nn|]. intros k Hk. rewrite Ll in Hk. rewrite (R2 k Hk), lens_nth by exact Hk. reflexivity.
    + intros NN. split; [rewrite R1; pose proof (NN (V (vx (at0 (c_xyz c) (n - 1)) - vx (at0 (c_xyz c) (n - 2))) (vy (at0 (c_xyz c) (n - 1)) - vy (at0 (c_xyz c) (n - 2))) (vz (at0 (c_xyz c) (n - 1)) - vz (at0 (c_xyz c) (n - 2))))%Qc) as Z; unfold dist; generalize dependent (e_norm e); clear; intros; qclra|].
      assert (Mono : forall k m, k + m < n -> (nth (k + m) (c_res c) 0 <= nth k (c_res c) 0)%Qc).
      { intros k m. induction m as [|m IH]; intros Hm; [rewrite Nat.add_0_r; apply Qcle_refl|]. eapply Qcle_trans; [|apply IH; lia]. rewrite (R2 (k + m)) by lia. replace (k + S m) with (S (k + m)) by lia.
        pose proof (NN (V (vx (at0 (c_xyz c) (S (k + m))) - vx (at0 (c_xyz c) (k + m))) (vy (at0 (c_xyz c) (S (k + m))) - vy (at0 (c_xyz c) (k + m))) (vz (at0 (c_xyz c) (S (k + m))) - vz (at0 (c_xyz c) (k + m))))%Qc) as Z. unfold dist.
        revert Z. generalize (nth (S (k + m)) (c_res c) 0%Qc). match goal with |- context [e_norm e ?v] => generalize (e_norm e v) end. clear. intros a b Z. qclra. }
      intros k Hk. split; [replace (n - 1) with (k + (n - 1 - k)) by lia; apply Mono; lia|exact (Mono 0 k ltac:(lia))].
  - assert (NA : ~ along e (n_track x) (at0 (c_xyz c) 0) (at0 (c_xyz c) (n - 1))) by (intros X; exact (Qclt_not_le _ _ X A)). destruct (Ru NA) as [R1 R2]. rewrite Nat.sub_0_r. split.
    + rewrite Rs. rewrite <- Ll. apply tele_up; [congruence|exact Nn|]. intros k Hk. rewrite Ll in Hk. rewrite (R2 k Hk), lens_nth by exact Hk. reflexivity.
    + intros NN. split; [rewrite R1; pose proof (NN (V (vx (at0 (c_xyz c) 1) - vx (at0 (c_xyz c) 0)) (vy (at0 (c_xyz c) 1) - vy (at0 (c_xyz c) 0)) (vz (at0 (c_xyz c) 1) - vz (at0 (c_xyz c) 0)))%Qc) as Z; unfold dist; generalize dependent (e_norm e); clear; intros; qclra|].
      assert (Mono : forall k m, k + m < n -> (nth k (c_res c) 0 <= nth (k + m) (c_res c) 0)%Qc).
      { intros k m. induction m as [|m IH]; intros Hm; [rewrite Nat.add_0_r; apply Qcle_refl|]. eapply Qcle_trans; [apply IH; lia|]. replace (k + S m) with (S (k + m)) by lia. rewrite (R2 (k + m)) by lia.
        pose proof (NN (V (vx (at0 (c_xyz c) (S (k + m))) - vx (at0 (c_xyz c) (k + m))) (vy (at0 (c_xyz c) (S (k + m))) - vy (at0 (c_xyz c) (k + m))) (vz (at0 (c_xyz c) (S (k + m))) - vz (at0 (c_xyz c) (k + m))))%Qc) as Z. unfold dist.
        revert Z. generalize (nth (k + m) (c_res c) 0%Qc). match goal with |- context [e_norm e ?v] => generalize (e_norm e v) end. clear. intros a b Z. qclra. }
      intros k Hk. split; [exact (Mono 0 k ltac:(lia))|replace (n - 1) with (k + (n - 1 - k)) by lia; apply Mono; lia].
Qed.
Print Assumptions C145_residuals_partial.
