(** C143-C148: the calorimetry objects. *)
From Coq Require Import QArith Qcanon Lqa.
From Verif Require Import Base QcUtil Solver_Model Solver_Proofs GNO_Model GNO_Spec GNO_Proofs GNO_Props GNO_Out.
Import GNO_Model GNO_Spec.
Local Open Scope nat_scope.

Lemma spot_eq e t h m : location e t h m = spot e t h m.
Proof. unfold location, spot, wire_to_traj. destruct (e_corrected e), (e_spatial e), (e_fd e); reflexivity. Qed.
Lemma field_eq e t h m : efield e t h m = field_at e t h m.
Proof. unfold efield, field_at. rewrite spot_eq. destruct (e_simE e), (e_fde e); reflexivity. Qed.
Lemma size_eq x : qabs x = size x.
Proof.
  unfold qabs, size. destruct (qc_lt x 0) eqn:Q; destruct (Qclt_le_dec x 0) as [A | A]; try ring; try reflexivity.
  - apply qc_lt_spec in Q. exfalso. exact (Qclt_not_le _ _ Q A).
  - apply qc_lt_false in Q. exfalso. exact (Qclt_not_le _ _ A Q).
Qed.
Lemma nodup_sub {A B} (f : A -> list B) l a : NoDup (flat_map f l) -> In a l -> NoDup (f a).
Proof.
  induction l as [|x l IH]; intros N I; [destruct I|]. cbn [flat_map] in N.
  assert (G : NoDup (f x) /\ NoDup (flat_map f l)).
  { clear -N. induction (f x) as [|y r IHr]; [split; [constructor|exact N]|]. cbn in N. apply NoDup_cons_iff in N. destruct N as [N1 N2]. destruct (IHr N2) as [A1 A2]. split; [|exact A2]. constructor; [|exact A1]. intros X. apply N1. apply in_or_app. left. exact X. }
  destruct I as [<- | I]; [exact (proj1 G)|exact (IH (proj2 G) I)].
Qed.
Lemma hh_nth hs i h m : nth_error hs i = Some (h, m) -> hh hs i = h /\ mm hs i = m.
Proof. intros N. unfold hh, mm. rewrite (nth_error_nth _ _ hd0 N). auto. Qed.

Section One.
Variables (e : env) (x : input) (ret : list (list org)) (p : nat) (os : list org).
Hypothesis (Ho : organize e (n_hits x) (n_track x) = Ok ret) (No : nth_error ret p = Some os).
Notation hs := (n_hits x).
Notation t := (n_track x).

Lemma stands_iff i : In i (map fst os) <-> stands e hs t p i.
Proof.
  destruct (C141_partition e hs t) as (_ & _ & HC). destruct (HC ret Ho) as [_ HC']. destruct (HC' p os No) as (Nd & HIn & HS & _). clear HC HC'. unfold stands.
  destruct (le_lt_dec (e_method e) 1) as [M | M].
  - assert (PH : per_hit e) by (unfold per_hit; lia). destruct (HS PH) as [S1 _].
    assert (F : flat_map members os = map fst os).
    { clear -S1. induction os as [|o l IH]; [reflexivity|]. cbn [flat_map map]. unfold members at 1. rewrite (S1 o (or_introl eq_refl)). cbn [app]. f_equal. apply IH. intros o' H. apply S1. right. exact H. }
    rewrite <- F, HIn. tauto.
  - assert (PH : ~ per_hit e) by (unfold per_hit; lia). destruct (C142_leader e hs t ret p os PH Ho No) as [L _]. rewrite L. unfold largest. tauto.
Qed.
Lemma stands_nodup : NoDup (map fst os).
Proof.
  destruct (C141_partition e hs t) as (_ & _ & HC). destruct (HC ret Ho) as [_ HC']. destruct (HC' p os No) as (Nd & _). clear -Nd.
  induction os as [|o l IH]; cbn [map]; [constructor|]. cbn [flat_map] in Nd. constructor.
  - intros X. apply in_map_iff in X. destruct X as (o' & E & Ho'). cbn in Nd. apply NoDup_cons_iff in Nd. destruct Nd as [N1 _]. apply N1. apply in_or_app. right. apply in_flat_map. exists o'. split; [exact Ho'|left; exact E].
  - apply IH. clear -Nd. induction (members o) as [|y l' IH]; [exact Nd|]. apply IH. cbn in Nd. apply NoDup_cons_iff in Nd. tauto.
Qed.
Lemma charge_ok o : In o os -> has_charge e hs t p (fst o) (p_charge e hs o).
Proof.
  intros Io. destruct (C141_partition e hs t) as (_ & _ & HC). destruct (HC ret Ho) as [_ HC']. destruct (HC' p os No) as (Nd & HIn & _ & Hsn). clear HC HC'.
  assert (Lf : listed hs t p (fst o)) by (apply HIn, in_flat_map; exists o; split; [exact Io|left; reflexivity]).
  destruct Lf as (h & m & N & _). exists h, m. split; [exact N|]. destruct (hh_nth _ _ _ _ N) as [Hh Hm]. unfold p_charge, charge. rewrite Hh.
  destruct (e_method e) as [|[|[|[|k]]]] eqn:M; [left; auto|right; left; auto|right; right; left; auto| |right; right; right; right; split; [lia|reflexivity] ].
  right; right; right; left. split; [reflexivity|]. assert (PH : ~ per_hit e) by (unfold per_hit; lia). specialize (Hsn PH).
  exists (members o). split; [exact (nodup_sub members os o Nd Io)|]. split.
  - apply In_nth_error in Io. destruct Io as [k Hk]. intros j. split.
    + intros Hj. split; [apply HIn, in_flat_map; exists o; split; [exact (nth_error_In _ _ Hk)|exact Hj]|]. apply (Hsn k k o o (fst o) j Hk Hk); [left; reflexivity|exact Hj|reflexivity].
    + intros [Lj Sj]. apply HIn in Lj. apply in_flat_map in Lj. destruct Lj as (o' & Ho' & Hj). apply In_nth_error in Ho'. destruct Ho' as [k' Hk'].
      assert (k = k') by (apply (Hsn k k' o o' (fst o) j Hk Hk'); [left; reflexivity|exact Hj|exact Sj]). subst k'. rewrite Hk in Hk'. injection Hk' as <-. exact Hj.
  - rewrite fold_sum, qsum_map. unfold members. rewrite qsum_cons. f_equal; [unfold integral; rewrite N; reflexivity|].
    apply qsum_ext. intros j Hj. unfold hh, integral. destruct (nth_error hs j) as [[h' m']|] eqn:Nj; [rewrite (nth_error_nth _ _ hd0 Nj); reflexivity|].
    exfalso. destruct (proj1 (HIn j)) as (h' & m' & X & _); [apply in_flat_map; exists o; split; [exact Io|right; exact Hj]|]. congruence.
Qed.
End One.

(** the object of a track and a plane, in closed form *)
Lemma object_at e ts cs asn i x p : produce e ts = Ok (cs, asn) -> nth_error ts i = Some x -> p < e_np e ->
  exists ret os c, organize e (n_hits x) (n_track x) = Ok ret /\ nth_error ret p = Some os /\ nth_error cs (i * e_np e + p) = Some c /\
    (length os <= 1 -> bogus e p c) /\
    (1 < length os -> exists r, res_of e (n_hits x) (n_track x) os r /\
      let hs := n_hits x in let t := n_track x in let t0 := t0_of e x in
      c = Calo (qsum (fun o => p_de e hs t t0 o * p_pitch e hs t o)%Qc os) (map (p_de e hs t t0) os) (map (p_dq e hs t t0) os) r [] (qsum (fun y => y) (lens e (map (p_loc e hs t) os)))
        (map (p_pitch e hs t) os) (map (p_loc e hs t) os) (map (p_key hs) os) (e_cryo e, 0, p) (map (p_ef e hs t) os) (map (p_phi e hs t) os)).
Proof.
  intros H N Hp. destruct (produce_eq e ts) as [A B].
  assert (PO : pfps_ok e ts \/ ~ pfps_ok e ts).
  { unfold pfps_ok. destruct (e_pfp e); [|left; discriminate]. clear. induction ts as [|y ts IH]; [left; intros _ x []|].
    destruct (n_pfps y) as [|l r] eqn:Ey; [right; intros G; exact (G eq_refl y (or_introl eq_refl) Ey)|].
    destruct IH as [IH | IH]; [left; intros _ z [<- | Hz]; [congruence|apply IH; auto]|right; intros G; apply IH; intros _ z Hz; apply G; [reflexivity|right; exact Hz] ]. }
  destruct PO as [PO | PO]; [|rewrite (B PO) in H; discriminate H]. rewrite (A PO) in H.
  destruct (loop_rows e ts _ H) as [(_ & _ & R) _]. destruct (R i p x) as (ret & c & Ho & Hc & Nc & _); [|exact Hp|exact N|].
  { assert (i < length ts) by (apply nth_error_Some; congruence). nia. }
  assert (Hp' := Hp). rewrite <- (organize_len _ _ _ _ Ho) in Hp'. apply nth_error_Some in Hp'. destruct (nth_error ret p) as [os|] eqn:No; [|contradiction].
  exists ret, os, c. split; [exact Ho|]. split; [exact No|]. split; [exact Nc|].
  destruct (one_plane_ok e (n_hits x) (n_track x) (t0_of e x) ret p os No (organized_in_range _ _ _ _ _ _ Ho No)) as [O1 O2]. split.
  - intros L. specialize (O1 L). rewrite O1 in Hc. injection Hc as <-. reflexivity.
  - intros L. destruct (O2 L) as (r & Hr & Eo). rewrite Eo in Hc. exists r. split; [exact Hr|]. cbv zeta. injection Hc as <-. reflexivity.
Qed.

(** C143: for each track and plane the object has one point per hit with a valid point (charge methods 0 and 1) or one per snippet, that of its largest hit;
    fewer than two points give a bogus object; the points carry the location, field, angle, charge per length, energy per length; the kinetic energy is the
    sum of the energies per length times the pitches *)
Theorem C143_points : forall e ts cs asn i x p, produce e ts = Ok (cs, asn) -> nth_error ts i = Some x -> p < e_np e ->
  exists c ls, nth_error cs (i * e_np e + p) = Some c /\ NoDup ls /\ (forall k, In k ls <-> stands e (n_hits x) (n_track x) p k) /\
    (per_hit e -> StronglySorted lt ls) /\
    (length ls <= 1 -> bogus e p c) /\
    (2 <= length ls -> c_plane c = (e_cryo e, 0, p) /\ c_dead c = [] /\
      length (c_tp c) = length ls /\ length (c_xyz c) = length ls /\ length (c_ef c) = length ls /\ length (c_phi c) = length ls /\ length (c_pitch c) = length ls /\
      length (c_dqdx c) = length ls /\ length (c_dedx c) = length ls /\ length (c_res c) = length ls /\
      (forall k j, nth_error ls k = Some j -> point_from e x p c k j) /\
      c_ke c = qsum (fun ab => fst ab * snd ab)%Qc (List.combine (c_dedx c) (c_pitch c))).
Proof.
  intros e ts cs asn i x p H N Hp. destruct (object_at e ts cs asn i x p H N Hp) as (ret & os & c & Ho & No & Nc & B & C).
  exists c, (map fst os). split; [exact Nc|]. split; [exact (stands_nodup e x ret p os Ho No)|]. split; [exact (stands_iff e x ret p os Ho No)|]. split; [|split].
  - intros PH. destruct (C141_partition e (n_hits x) (n_track x)) as (_ & _ & HC). destruct (HC ret Ho) as [_ HC']. destruct (HC' p os No) as (_ & _ & HS & _). exact (proj2 (HS PH)).
  - rewrite map_length. exact B.
  - rewrite map_length. intros L. destruct (C ltac:(lia)) as (r & (Lr & _) & ->). cbn [c_ke c_dedx c_dqdx c_res c_dead c_range c_pitch c_xyz c_tp c_plane c_ef c_phi]. rewrite !map_length.
    do 9 (split; [reflexivity || exact Lr|]). split; [exact Lr|]. split.
    + intros k j Hk. rewrite nth_error_map in Hk. destruct (nth_error os k) as [o|] eqn:Nk; [|discriminate Hk]. cbn in Hk. injection Hk as <-.
      pose proof (charge_ok e x ret p os Ho No o (nth_error_In _ _ Nk)) as HQ.
      assert (St : stands e (n_hits x) (n_track x) p (fst o)) by (apply (stands_iff e x ret p os Ho No); apply in_map; exact (nth_error_In _ _ Nk)).
      destruct St as [(h & m & Nh & Pl & _) _]. destruct (hh_nth _ _ _ _ Nh) as [Hh Hm].
      exists h, m, (p_pitch e (n_hits x) (n_track x) o), (p_dq e (n_hits x) (n_track x) (t0_of e x) o), (p_charge e (n_hits x) o).
      cbn [c_ke c_dedx c_dqdx c_res c_dead c_range c_pitch c_xyz c_tp c_plane c_ef c_phi]. rewrite !nth_error_map, Nk. cbn [option_map].
      split; [exact Nh|]. split; [unfold p_key; rewrite Hh; reflexivity|]. split; [unfold p_loc; rewrite spot_eq, Hh, Hm; reflexivity|].
      split; [unfold p_ef; rewrite field_eq, Hh, Hm; reflexivity|]. split; [unfold p_phi; rewrite size_eq, Hm; reflexivity|]. split; [reflexivity|]. split; [exact HQ|].
      split; [unfold p_dq, normalize; rewrite Hh, Hm; reflexivity|]. split; [reflexivity|].
      unfold p_de. replace (if Nat.eq_dec (e_method e) 0 then e_amp e else e_area e) with (if e_method e =? 0 then e_amp e else e_area e) by (destruct (e_method e); reflexivity).
      unfold p_ef, p_phi. rewrite field_eq, size_eq, Hh, Hm, Pl. destruct (e_method e =? 0); reflexivity.
    + clear. induction os as [|o l IH]; [reflexivity|]. cbn [map List.combine]. rewrite !qsum_cons, IH. reflexivity.
Qed.
Print Assumptions C143_points.

(** C144, refuted: hits of different TPCs do not share a point. Here a track has hits on two TPCs with one wire number and one window; the object of the plane has no points *)
Definition tpc_hits : hits := [(ex_hit 7 100 0 2 5 40, 1%Z); (ex_hit 7 100 1 2 9 41, 2%Z)].
Lemma tpc_apart : forall k k' h h' m m', k <> k' -> nth_error tpc_hits k = Some (h, m) -> nth_error tpc_hits k' = Some (h', m') -> h_tpc h <> h_tpc h'.
Proof.
  intros k k' h h' m m' D A B. assert (k < 2) by (apply (proj1 (nth_error_Some tpc_hits k)); rewrite A; discriminate). assert (k' < 2) by (apply (proj1 (nth_error_Some tpc_hits k')); rewrite B; discriminate).
  destruct k as [|[|k]]; destruct k' as [|[|k']]; try lia; cbn in A, B; assert (h = fst (h, m)) as -> by reflexivity; assert (h' = fst (h', m')) as -> by reflexivity; apply (f_equal (fun o => match o with Some z => h_tpc (fst z) | None => 5%Z end)) in A; apply (f_equal (fun o => match o with Some z => h_tpc (fst z) | None => 5%Z end)) in B; cbn in A, B |- *; lia.
Qed.
Theorem C144_tpcs_refuted : ~ forall e ts cs asn i x p c, produce e ts = Ok (cs, asn) -> nth_error ts i = Some x -> p < e_np e -> nth_error cs (i * e_np e + p) = Some c ->
  (forall k, k < length (n_hits x) -> listed (n_hits x) (n_track x) p k) ->
  (forall k k' h h' m m', k <> k' -> nth_error (n_hits x) k = Some (h, m) -> nth_error (n_hits x) k' = Some (h', m') -> h_tpc h <> h_tpc h') ->
  2 <= length (n_hits x) -> length (c_xyz c) = length (n_hits x).
Proof.
  intros G. specialize (G (ex_env 3) [In_ ex_track tpc_hits [] []]).
  remember (produce (ex_env 3) [In_ ex_track tpc_hits [] []]) as o eqn:E. vm_compute in E. subst o.
  specialize (G _ _ 0 _ 2 _ eq_refl eq_refl (ltac:(cbn; lia)) eq_refl). cbn [n_hits n_track] in G.
  assert (X := G (ltac:(intros [|[|k]] Hk; [eexists _, _; repeat split; [discriminate]|eexists _, _; repeat split; [discriminate]|cbn in Hk; lia]))).
  assert (Y := X tpc_apart).
  specialize (Y (ltac:(cbn; lia))). discriminate Y.
Qed.
Print Assumptions C144_tpcs_refuted.
(** C144, the true part: with the methods 0 and 1, and whenever no two hits of the plane have wire number and window in common, every hit with a valid point has its own *)
Theorem C144_tpcs_partial : forall e ts cs asn i x p, produce e ts = Ok (cs, asn) -> nth_error ts i = Some x -> p < e_np e ->
  (per_hit e \/ forall k k', listed (n_hits x) (n_track x) p k -> listed (n_hits x) (n_track x) p k' -> same_snippet (n_hits x) k k' -> k = k') ->
  exists c ls, nth_error cs (i * e_np e + p) = Some c /\ NoDup ls /\ (forall k, In k ls <-> listed (n_hits x) (n_track x) p k) /\
    (2 <= length ls -> length (c_xyz c) = length ls /\ forall k j, nth_error ls k = Some j -> point_from e x p c k j).
Proof.
  intros e ts cs asn i x p H N Hp HU. destruct (C143_points e ts cs asn i x p H N Hp) as (c & ls & Nc & Nd & HI & _ & _ & HP). exists c, ls. split; [exact Nc|]. split; [exact Nd|]. split.
  - intros k. rewrite HI. unfold stands. split; [tauto|]. intros L. split; [exact L|]. destruct HU as [PH | HU]; [left; exact PH|right]. split; [exact L|]. intros j Lj Sj. right. rewrite (HU k j L Lj Sj). split; [reflexivity|lia].
  - intros L. destruct (HP L) as (_ & _ & _ & Lx & _ & _ & _ & _ & _ & _ & Pt & _). auto.
Qed.
Print Assumptions C144_tpcs_partial.
