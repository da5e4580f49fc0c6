(** Properties C06-C09, C41, C42: cmtool::CMergeManager and CMManagerBase::ComputePriority. *)
From Coq Require Import ZifyNat.
From Verif Require Import Base MultiMap CMergeBK_Model CMergeBK_Spec CMergeBK_Proofs CMergeBK_Hist CMergeBK_Combine
  CMgr_Model CMgr_Spec CMgr_Proofs CMgr_Iter CMgr_Process.

(** C06. [m] is the manager in any state (fresh or left over from earlier events) whose input
    clusters have been set; the algorithms in [cfg] and the hidden state are arbitrary. *)
Theorem merge_manager_conserves_hits :
  forall (hit extra W : Type) (hit_plane : hit -> Z) (extra0 : extra) (fill_out : list hit -> extra)
    (cfg : config hit extra W) (m : mgr hit extra W) (fuel : nat),
  merge_alg cfg <> None ->
  in_cl m <> [] -> length (in_cl m) < Z.to_nat 65536 -> (forall c, In c (in_cl m) -> chits c <> []) ->
  length (in_cl m) <= fuel ->
  exists m' its res,
    process hit_plane extra0 fill_out fuel cfg m = Some (Ok (m', its)) /\
    pass_result (book m') = Ok res /\
    length (out_cl m') = length res /\
    Permutation (concat res) (seq 0 (length (in_cl m))) /\
    (forall k c, nth_error (out_cl m') k = Some c ->
        Permutation (chits c) (hits_of (in_cl m) (nth k res []))) /\
    Permutation (concat (map (@chits _ _) (out_cl m'))) (concat (map (@chits _ _) (in_cl m))).
Proof.
  intros hit extra W hit_plane extra0 fill_out cfg m fuel Halg Hne Hlt Hh Hfuel.
  destruct (merge_alg cfg) as [alg|] eqn:Ea; [|congruence].
  destruct (process_ok hit_plane extra0 fill_out cfg alg Ea m fuel Hne Hlt Hh Hfuel)
    as (m' & its & E & _ & _ & _ & _ & _ & lg & I & _ & Hc & Hk).
  set (n := length (in_cl m)) in *.
  exists m', its, (map (class n (book m')) (seq 0 (cnt (book m')))).
  split; [exact E|]. split; [apply (pass_result_ok n _ lg I)|].
  split; [rewrite map_length, seq_length; congruence|]. split; [apply (classes_perm n _ lg I)|].
  assert (Hk' : forall k c, nth_error (out_cl m') k = Some c ->
     Permutation (chits c) (hits_of (in_cl m) (nth k (map (class n (book m')) (seq 0 (cnt (book m')))) []))).
  { intros k c Hkc. assert (k < cnt (book m')) by (rewrite Hc; apply nth_error_Some; congruence).
    rewrite nth_map_seq by assumption. apply Hk; assumption. }
  split; [exact Hk'|].
  transitivity (hits_of (in_cl m) (seq 0 n)).
  - transitivity (hits_of (in_cl m) (concat (map (class n (book m')) (seq 0 (cnt (book m')))))).
    + assert (G : forall (outs : list (cluster hit extra)) res, length outs = length res ->
        (forall k c, nth_error outs k = Some c -> Permutation (chits c) (hits_of (in_cl m) (nth k res []))) ->
        Permutation (concat (map (@chits _ _) outs)) (hits_of (in_cl m) (concat res))).
      { induction outs as [|c outs IH]; intros [|r res] L H; try discriminate; [reflexivity|].
        simpl. rewrite hits_of_app. apply Permutation_app; [exact (H 0 c eq_refl)|].
        apply IH; [simpl in L; lia|]. intros k d Hd. exact (H (S k) d Hd). }
      apply G; [rewrite map_length, seq_length; congruence|exact Hk'].
    + apply hits_of_perm, (classes_perm n _ lg I).
  - unfold n. clear. generalize (in_cl m) as l. intros l. unfold hits_of.
    replace (map (fun i => match nth_error l i with Some c => chits c | None => [] end) (seq 0 (length l)))
      with (map (@chits hit extra) l); [reflexivity|].
    apply (nth_ext_length []); [rewrite !map_length, seq_length; reflexivity|].
    rewrite map_length. intros i Hi. rewrite nth_map_seq by exact Hi.
    destruct (nth_error l i) as [c|] eqn:E; [|apply nth_error_None in E; lia].
    apply (nth_error_nth (map (@chits _ _) l) i). rewrite nth_error_map, E. reflexivity.
Qed.
Print Assumptions merge_manager_conserves_hits.

(** C07: [iterate fuel] is the while loop cut after [fuel] rounds; [None] would be "still running". *)
Theorem merge_manager_terminates :
  forall (hit extra W : Type) (hit_plane : hit -> Z) (extra0 : extra) (fill_out : list hit -> extra)
    (cfg : config hit extra W) (m : mgr hit extra W),
  merge_alg cfg <> None ->
  in_cl m <> [] -> length (in_cl m) < Z.to_nat 65536 -> (forall c, In c (in_cl m) -> chits c <> []) ->
  forall fuel, length (in_cl m) <= fuel ->
  exists m' its, process hit_plane extra0 fill_out fuel cfg m = Some (Ok (m', its)) /\
    1 <= length its <= length (in_cl m).
Proof.
  intros hit extra W hit_plane extra0 fill_out cfg m Halg Hne Hlt Hh fuel Hfuel.
  destruct (merge_alg cfg) as [alg|] eqn:Ea; [|congruence].
  destruct (process_ok hit_plane extra0 fill_out cfg alg Ea m fuel Hne Hlt Hh Hfuel)
    as (m' & its & E & _ & Hn & Hl & _).
  exists m', its. split; [exact E|]. clear Hlt. destruct its; [congruence|cbn [length] in *; lia].
Qed.
Print Assumptions merge_manager_terminates.

(** C08: every iteration is correct in the sense of [CMgr_Spec.iteration_correct] and works on
    the output of the one before; the manager's output is the last one. *)
Theorem merge_manager_iterations_are_correct :
  forall (hit extra W : Type) (hit_plane : hit -> Z) (extra0 : extra) (fill_out : list hit -> extra)
    (cfg : config hit extra W) (m : mgr hit extra W) (fuel : nat),
  merge_alg cfg <> None ->
  in_cl m <> [] -> length (in_cl m) < Z.to_nat 65536 -> (forall c, In c (in_cl m) -> chits c <> []) ->
  length (in_cl m) <= fuel ->
  exists m' its, process hit_plane extra0 fill_out fuel cfg m = Some (Ok (m', its)) /\
    chained (in_cl m) (fun _ => False) its /\ last_out (in_cl m) its = out_cl m'.
Proof.
  intros hit extra W hit_plane extra0 fill_out cfg m fuel Halg Hne Hlt Hh Hfuel.
  destruct (merge_alg cfg) as [alg|] eqn:Ea; [|congruence].
  destruct (process_ok hit_plane extra0 fill_out cfg alg Ea m fuel Hne Hlt Hh Hfuel)
    as (m' & its & E & _ & _ & _ & Hch & Hlast & _).
  exists m', its. auto.
Qed.
Print Assumptions merge_manager_iterations_are_correct.

(** C09: [ps] are the priorities the algorithm returned; [order] is the order of examination. *)
Theorem priority_order_is_correct :
  forall (hit extra W : Type) (cfg : config hit extra W) (w : W) (cl : list (cluster hit extra)),
  let ps := snd (prio_vals cfg w cl) in
  length ps = length cl /\
  exists pr planes, compute_priority cfg w cl = Ok (fst (prio_vals cfg w cl), (pr, planes)) /\
    let order := map snd (rev pr) in
    (forall i, In i order <-> i < length cl /\ (0 < nth i ps 0)%Z) /\
    NoDup order /\
    StronglySorted (before ps) order /\
    NoDup planes /\
    (forall z, In z planes <-> exists i c, In i order /\ nth_error cl i = Some c /\ z = uchar (cplane c)).
Proof.
  intros hit extra W cfg w cl ps. split; [apply prio_vals_length|].
  destruct (compute_priority_spec cfg w cl) as (pr & planes & E & Hpr & Hnd & Hs & Hnp & Hpl).
  fold ps in Hpr, Hpl. exists pr, planes. split; [exact E|]. cbv zeta.
  assert (Hin : forall i, In i (map snd (rev pr)) <-> i < length cl /\ (0 < nth i ps 0)%Z).
  { intros i. rewrite map_rev, <- in_rev, in_map_iff. split.
    - intros ([p j] & Ej & Hin). simpl in Ej; subst j. apply Hpr in Hin. destruct Hin as (H1 & -> & H3). auto.
    - intros [H1 H2]. exists (nth i ps 0%Z, i). split; [reflexivity|]. apply Hpr. auto. }
  split; [exact Hin|]. split; [rewrite map_rev; apply NoDup_rev; exact Hnd|]. split; [|split; [exact Hnp|]].
  - assert (G : forall l, (forall p j, In (p, j) l -> p = nth j ps 0%Z) -> StronglySorted pord l -> StronglySorted (before ps) (map snd l)).
    { induction l as [|[p j] l IH]; intros Hl S; simpl; constructor; inversion S as [|? ? S' F]; subst.
      - apply IH; [intros; apply Hl; right; assumption|exact S'].
      - apply Forall_forall. intros x Hx. apply in_map_iff in Hx. destruct Hx as ([q k] & Ek & Hx). simpl in Ek; subst k.
        rewrite Forall_forall in F. specialize (F _ Hx). unfold pord in F; simpl in F. unfold before.
        rewrite (Hl p j (or_introl eq_refl)), (Hl q x (or_intror Hx)) in F. exact F. }
    apply G; [|exact Hs]. intros p j Hj. apply in_rev in Hj. apply Hpr in Hj. tauto.
  - intros z. rewrite Hpl. split.
    + intros (i & c & Ec & Hp & ->). exists i, c. split; [|auto]. apply Hin. split; [|exact Hp].
      apply nth_error_Some. congruence.
    + intros (i & c & Hi & Ec & ->). exists i, c. apply Hin in Hi. tauto.
Qed.
Print Assumptions priority_order_is_correct.

(* ---------------------------------------------------------------- *)
(** Concrete configuration for witnesses: hits are numbers, plane 0 unless the hit is >= 100;
    merge when the first hits differ by less than 10; separate 1 from 5. *)
Definition wplane (h : Z) : Z := if (h <? 100)%Z then 0%Z else 1%Z.
Definition hd_hit (c : cluster Z unit) : Z := hd 0%Z (chits c).
Definition wcfg : config Z unit unit :=
  mkCfg (Some (fun w a b => (w, (Z.abs (hd_hit a - hd_hit b) <? 10)%Z)))
        (Some (fun w a b => (w, (hd_hit a =? 1)%Z && (hd_hit b =? 5)%Z)))
        None (fun w _ => w) true 0.
Definition wmgr (css : list (list Z)) : outcome (mgr Z unit unit) :=
  do cl <- set_clusters wplane tt (fun _ => tt) 0 css; Ok (set_in (new_mgr tt) cl).
Definition wprocess (m : mgr Z unit unit) := process wplane tt (fun _ => tt) (length (in_cl m)) wcfg m.

(** non-vacuity: five clusters on two planes, merging over several iterations *)
Example ex_process :
  match wmgr [[1; 2]; [5]; [103]; [9; 10; 11]; [101; 102]]%Z with
  | Ok m => match wprocess m with
            | Some (Ok (m', its)) =>
                (map (@chits _ _) (out_cl m'), length its, pass_result (book m'))
                = ([[1; 2; 9; 10; 11]; [5]; [103; 101; 102]]%Z, 2, Ok [[0; 3]; [1]; [2; 4]])
            | _ => False end
  | _ => False end.
Proof. vm_compute. reflexivity. Qed.

(** C41: an event without clusters reports the previous event's output: CMManagerBase::Process
    returns before EventBegin, and SetClusters only runs the non-virtual CMManagerBase::Reset. *)
Definition ev1 : mgr Z unit unit :=
  match wmgr [[1; 2]; [5]]%Z with Ok m => m | _ => new_mgr tt end.
Definition ev2 : mgr Z unit unit :=
  match wprocess ev1 with Some (Ok (m, _)) => m | _ => new_mgr tt end.
Definition ev2_its := match wprocess ev1 with Some (Ok (_, i)) => i | _ => [] end.

Theorem empty_event_shows_previous_event_refuted :
  exists (m1 m2 m3 : mgr Z unit unit) its,
    wmgr [[1; 2]; [5]]%Z = Ok m1 /\ wprocess m1 = Some (Ok (m2, its)) /\
    wprocess (set_in m2 []) = Some (Ok (m3, [])) /\
    in_cl m3 = [] /\ map (@chits _ _) (out_cl m3) = [[1; 2]; [5]]%Z /\ pass_result (book m3) = Ok [[0]; [1]].
Proof.
  exists ev1, ev2, (set_in ev2 []), ev2_its.
  split; [vm_compute; reflexivity|]. split; [vm_compute; reflexivity|]. split; [vm_compute; reflexivity|].
  split; [reflexivity|]. split; vm_compute; reflexivity.
Qed.
Print Assumptions empty_event_shows_previous_event_refuted.

(** what is true: a non-empty event is independent of what happened before (same hidden state) *)
Theorem event_is_independent_of_previous_output_partial :
  forall (hit extra W : Type) (hit_plane : hit -> Z) (extra0 : extra) (fill_out : list hit -> extra)
    (cfg : config hit extra W) (m m' : mgr hit extra W) fuel,
  in_cl m <> [] -> in_cl m' = in_cl m -> mw m' = mw m ->
  match process hit_plane extra0 fill_out fuel cfg m, process hit_plane extra0 fill_out fuel cfg m' with
  | Some (Ok (a, its)), Some (Ok (b, its')) =>
      out_cl a = out_cl b /\ book a = book b /\ its = its' /\ mw a = mw b
  | Some (Throw e), Some (Throw e') => e = e'
  | Some Undef, Some Undef | None, None => True
  | _, _ => False
  end.
Proof.
  intros hit extra W hit_plane extra0 fill_out cfg m m' fuel Hne Hin Hw.
  assert (G : forall fuel (a b : mgr hit extra W) its,
    in_cl a = in_cl b -> book a = book b -> bkv a = bkv b -> tmp_idx a = tmp_idx b -> iter a = iter b -> mw a = mw b ->
    (iter a = 0 \/ out_cl a = out_cl b) ->
    match iterate hit_plane extra0 fill_out fuel cfg a its, iterate hit_plane extra0 fill_out fuel cfg b its with
    | Some (Ok (x, i1)), Some (Ok (y, i2)) => x = y /\ i1 = i2
    | Some (Throw e), Some (Throw e') => e = e'
    | Some Undef, Some Undef | None, None => True
    | _, _ => False
    end).
  { clear. induction fuel as [|fuel IH]; intros a b its H1 H2 H3 H4 H5 H6 H7; [exact I|].
    cbn [iterate].
    assert (Heq : iteration_process hit_plane extra0 fill_out cfg
        (mkMgr (in_cl a) (out_cl a) (book a) (bkv a) (tmp_cl a) (tmp_idx a) (iter a) (hook cfg (mw a) (in_cl a)))
      = iteration_process hit_plane extra0 fill_out cfg
        (mkMgr (in_cl b) (out_cl b) (book b) (bkv b) (tmp_cl b) (tmp_idx b) (iter b) (hook cfg (mw b) (in_cl b)))).
    { unfold iteration_process. cbn [in_cl out_cl book bkv tmp_idx iter mw].
      rewrite H1, H2, H3, H4, H5, H6. replace (if iter b =? 0 then in_cl b else out_cl a) with (if iter b =? 0 then in_cl b else out_cl b).
      - reflexivity.
      - destruct (Nat.eqb_spec (iter b) 0); [reflexivity|]. destruct H7 as [H7|H7]; [lia|congruence]. }
    rewrite Heq. clear Heq.
    match goal with |- context [iteration_process ?h ?x ?f ?c ?s] => set (r := iteration_process h x f c s); clearbody r end.
    destruct r as [[[m1 going] it]|e|]; [|reflexivity|exact I].
    destruct (negb (till_converge cfg) || negb going); [auto|].
    apply IH; try reflexivity. right; reflexivity. }
  unfold process. rewrite Hin. destruct (in_cl m) as [|c cs] eqn:Ein; [congruence|].
  unfold event_begin. destruct (merge_alg cfg); [|reflexivity].
  specialize (G fuel (mkMgr (in_cl m) (out_cl m) (reset (ushort (length (in_cl m)))) [] [] [] 0 (hook cfg (mw m) (in_cl m)))
    (mkMgr (in_cl m') (out_cl m') (reset (ushort (length (in_cl m')))) [] [] [] 0 (hook cfg (mw m') (in_cl m'))) []).
  cbn [in_cl out_cl book bkv tmp_idx iter mw] in G. rewrite !Hin, Hw, !Ein in G. rewrite !Hin, Hw, !Ein.
  specialize (G eq_refl eq_refl eq_refl eq_refl eq_refl eq_refl (or_introl eq_refl)).
  destruct (iterate _ _ _ _ _ _ _) as [[[x i1]|e|]|], (iterate _ _ _ _ _ _ _) as [[[y i2]|e'|]|]; try contradiction; auto.
  destruct G as [<- <-]. destruct (event_end cfg x); cbn [obind]; auto.
Qed.
Print Assumptions event_is_independent_of_previous_output_partial.

(** C42: with 65536 clusters or more the book keeper is built for the count modulo 65536 and
    clusters (with their hits) disappear from the output. *)
Definition bcfg : config Z Z unit :=
  mkCfg (Some (fun w _ _ => (w, true))) None (Some (fun w c => (w, cextra c))) (fun w _ => w) false 0.
Definition big (k : nat) : list (cluster Z Z) :=
  mkC [1%Z] 0 1%Z :: mkC [2%Z] 0 1%Z :: repeat (mkC [3%Z] 0 0%Z) k.

Lemma big_prio k : exists w planes, compute_priority bcfg tt (big k) = Ok (w, ([(1%Z, 1); (1%Z, 0)], planes)).
Proof.
  destruct (compute_priority_spec bcfg tt (big k)) as (pr & planes & E & Hpr & Hnd & Hs & _).
  assert (Hps : snd (prio_vals bcfg tt (big k)) = 1%Z :: 1%Z :: repeat 0%Z k).
  { assert (G : forall cl, snd (prio_vals bcfg tt cl) = map (@cextra _ _) cl).
    { induction cl as [|c cl IH]; [reflexivity|]. simpl. destruct (prio_vals bcfg tt cl) as [w ps]. simpl in *. congruence. }
    rewrite G. unfold big. simpl. do 2 f_equal. clear. induction k as [|k IH]; simpl; [reflexivity|]. rewrite IH. reflexivity. }
  rewrite Hps in Hpr.
  assert (Hin : forall p i, In (p, i) (rev pr) <-> (p, i) = (1%Z, 0) \/ (p, i) = (1%Z, 1)).
  { intros p i. rewrite <- in_rev, Hpr. split.
    - intros (Hi & Hp & Hpos). destruct i as [|[|i]]; simpl in Hp; subst p; auto. exfalso.
      destruct (Nat.lt_ge_cases i k); [rewrite nth_repeat in Hpos|rewrite nth_overflow in Hpos by (rewrite repeat_length; lia)]; lia.
    - unfold big. simpl length. intros [H|H]; inversion H; subst; simpl; repeat split; lia. }
  exists (fst (prio_vals bcfg tt (big k))), planes. rewrite E. do 3 f_equal.
  rewrite <- (rev_involutive pr). change [(1%Z, 1); (1%Z, 0)] with (rev [(1%Z, 0); (1%Z, 1)]). f_equal.
  revert Hs Hin. generalize (rev pr). clear. intros l Hs Hin.
  destruct l as [|[p i] l]; [exfalso; apply (proj2 (Hin 1%Z 0)); auto|].
  destruct l as [|[q j] l].
  { pose proof (proj2 (Hin 1%Z 0) (or_introl eq_refl)) as A. pose proof (proj2 (Hin 1%Z 1) (or_intror eq_refl)) as B.
    simpl in A, B. destruct A as [A|[]], B as [B|[]]. congruence. }
  assert (Hirr : forall x, ~ pord x x) by (intros [a b]; unfold pord; simpl; lia).
  assert (A := proj1 (Hin p i) (or_introl eq_refl)).
  assert (B := proj1 (Hin q j) (or_intror (or_introl eq_refl))).
  inversion Hs as [|? ? Hs1 F1]; subst. inversion F1 as [|? ? P1 F1']; subst.
  inversion Hs1 as [|? ? Hs2 F2]; subst.
  assert (Hpi : (p, i) = (1%Z, 0) /\ (q, j) = (1%Z, 1)).
  { unfold pord in P1; simpl in P1. destruct A as [A|A], B as [B|B]; inversion A; inversion B; subst; auto; exfalso; lia. }
  destruct Hpi as [E1 E2]. inversion E1; inversion E2; subst.
  destruct l as [|[r x] l]; [reflexivity|]. exfalso.
  assert (C := proj1 (Hin r x) (or_intror (or_intror (or_introl eq_refl)))).
  inversion F1' as [|? ? P2 _]; subst. inversion F2 as [|? ? P3 _]; subst.
  destruct C as [C|C]; inversion C; subst; [eapply Hirr; exact P2|eapply Hirr; exact P3].
Qed.

Lemma big_process k : ushort (S (S k)) = 2 ->
  exists (m' : mgr Z Z unit) its,
    process (fun _ => 0%Z) 0%Z (fun _ => 0%Z) 1 bcfg (set_in (new_mgr tt) (big k)) = Some (Ok (m', its)) /\
    length (concat (map (@chits _ _) (out_cl m'))) = 2.
Proof.
  intros Hk.
  unfold process. cbn [set_in in_cl]. unfold big at 1. cbn [event_begin merge_alg bcfg].
  cbn [set_in in_cl out_cl mw new_mgr hook].
  cbn [iterate in_cl out_cl book bkv tmp_cl tmp_idx iter mw hook].
  unfold iteration_process. cbn [in_cl out_cl book bkv tmp_cl tmp_idx iter mw].
  rewrite Nat.eqb_refl.
  destruct (big_prio k) as ([] & planes & Ep).
  assert (Hlen : length (big k) = S (S k)) by (unfold big; cbn [length]; rewrite repeat_length; reflexivity).
  unfold event_begin. cbn [merge_alg bcfg in_cl out_cl mw hook].
  cbn [iterate in_cl out_cl book bkv tmp_cl tmp_idx iter mw hook].
  rewrite Hlen, Hk. unfold merge_switch. cbn [length range seq for_ Nat.sub obind].
  rewrite Ep. cbn [obind sep_alg bcfg merge_alg].
  unfold run_merge. rewrite repeat_length, Hlen, Nat.eqb_refl. cbn [negb rev app map snd].
  assert (Hm : forall f, merge_rows f (big k) (repeat true (S (S k))) [0; 1] (tt, reset 2, [])
     = merge_rows f [mkC [1%Z] 0 1%Z; mkC [2%Z] 0 1%Z] [true; true] [0; 1] (tt, reset 2, [])) by reflexivity.
  rewrite Hm. clear Hm.
  match goal with |- context [merge_rows ?f ?cl ?fl ?o ?s] => let r := eval vm_compute in (merge_rows f cl fl o s) in
    replace (merge_rows f cl fl o s) with r by (vm_compute; reflexivity) end.
  cbn [obind].
  match goal with |- context [pass_result ?b] => let r := eval vm_compute in (pass_result b) in
    replace (pass_result b) with r by (vm_compute; reflexivity) end.
  cbn [obind out length Nat.eqb].
  cbn [foreach]. unfold build_out. cbn [length Nat.eqb foreach].
  assert (A0 : at_ (big k) 0 = Ok (mkC [1%Z] 0%Z 1%Z)) by reflexivity.
  assert (A1 : at_ (big k) 1 = Ok (mkC [2%Z] 0%Z 1%Z)) by reflexivity.
  rewrite A0, A1. cbn [obind chits app set_hits].
  cbn [Z.ltb Z.compare length Nat.ltb Nat.leb obind out app till_converge bcfg negb orb].
  unfold event_end. cbn [bkv book app foreach].
  match goal with |- context [combine ?a ?b] => let r := eval vm_compute in (combine a b) in
    replace (combine a b) with r by (vm_compute; reflexivity) end.
  cbn [obind]. eexists _, _. split; reflexivity.
Qed.

Theorem more_than_65535_clusters_lose_hits_refuted :
  exists (m m' : mgr Z Z unit) its,
    Z.of_nat (length (in_cl m)) = 65538%Z /\ (forall c, In c (in_cl m) -> chits c <> []) /\
    process (fun _ => 0%Z) 0%Z (fun _ => 0%Z) 1 bcfg m = Some (Ok (m', its)) /\
    length (concat (map (@chits _ _) (out_cl m'))) = 2.
Proof.
  remember (Z.to_nat 65536) as k eqn:Ek.
  assert (Hz : Z.of_nat k = 65536%Z) by (rewrite Ek; apply Z2Nat.id; lia). clear Ek.
  assert (Hk : ushort (S (S k)) = 2).
  { unfold ushort. rewrite !Nat2Z.inj_succ, Hz. reflexivity. }
  destruct (big_process k Hk) as (m' & its & E & L).
  exists (set_in (new_mgr tt) (big k)), m', its. split; [|split; [|split; [exact E|exact L]]].
  - cbn [set_in in_cl]. unfold big. cbn [length]. rewrite repeat_length, !Nat2Z.inj_succ, Hz. reflexivity.
  - cbn [set_in in_cl]. unfold big. intros c [<-|[<-|Hc]]; try discriminate. apply repeat_spec in Hc. subst; discriminate.
Qed.
Print Assumptions more_than_65535_clusters_lose_hits_refuted.
