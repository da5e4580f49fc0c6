(** TrajCluster trajectory book-keeping: the theorems. *)
From Verif Require Import Base Util SortUtil TJ_Model TJ_Spec TJ_Proofs TJ_Ops TJ_Split TJ_Merge TJ_More.
Local Open Scope nat_scope.

(** concrete material for the examples: a one-hit charged point, a working copy, two oracles *)
Definition q (h : nat) (x : Z) : tp := TP [(h, true)] 5%Z (x, 0%Z).
Definition wk (id : Z) (l : list tp) : traj :=
  TJ l id 0 0 0 false false false 0 0 0 0 1 0 false false false.
Definition line (a n : nat) : list tp := map (fun k => q k (Z.of_nat k)) (seq a n).
Definition pd (_ : traj) : Z := 211%Z.
Definition na (_ : slc) : option (bool * nat) := None.
Definition free (n : nat) : slc := SL (repeat 0%Z n) [] [] [] 0%Z.
Definition get (o : outcome (bool * slc)) : slc := match o with Ok (_, x) => x | _ => free 0 end.
Definition get1 (o : outcome slc) : slc := match o with Ok x => x | _ => free 0 end.

(* ================================================================ C74 *)

Theorem tj_careful_history_healthy pdg_of attach s0 s :
  fresh s0 -> history (careful pdg_of attach) s0 s -> healthy s.
Proof.
  intros F H. apply healthy_inv. induction H as [s0|s1 s2 s3 H IH R].
  - destruct F as [F1 F2]. constructor.
    + intros i t E. rewrite F1 in E. destruct i; discriminate E.
    + intros i t h E. rewrite F1 in E. destruct i; discriminate E.
    + intros h x E P. specialize (F2 h x E). lia.
    + intros i t E. rewrite F1 in E. destruct i; discriminate E.
  - specialize (IH F). destruct R.
    + destruct H0 as (-> & _ & W). apply inv_marks; [exact IH|]. exact (fun h x P => W h x P).
    + eapply inv_store_true; eauto.
    + eapply inv_store_false; eauto.
    + eapply inv_kill; eauto.
    + eapply inv_restore; eauto.
    + eapply inv_split; eauto.
    + eapply merge_cases; eauto.
Qed.
Print Assumptions tj_careful_history_healthy.

(** no hit is used by two live trajectories *)
Theorem tj_no_shared_hit pdg_of attach s0 s :
  fresh s0 -> history (careful pdg_of attach) s0 s ->
  forall i j t u h, nth_error (tjs s) i = Some t -> nth_error (tjs s) j = Some u ->
    killed t = false -> killed u = false -> uses t h -> uses u h -> i = j.
Proof.
  intros F H i j t u h Hi Hj Kt Ku Ht Hu. destruct (tj_careful_history_healthy _ _ _ _ F H) as [C _].
  pose proof (c_used s C t h (conj (nth_error_In _ _ Hi) Kt) Ht) as A.
  pose proof (c_used s C u h (conj (nth_error_In _ _ Hj) Ku) Hu) as B.
  unfold holds in A, B. rewrite A in B. injection B as B.
  rewrite (c_id s C i t Hi), (c_id s C j u Hj) in B. lia.
Qed.
Print Assumptions tj_no_shared_hit.

(** each careful step also keeps a healthy slice healthy (so a history may start anywhere) *)
Theorem tj_careful_step_healthy pdg_of attach s s' : healthy s -> careful pdg_of attach s s' -> healthy s'.
Proof.
  intros H R. apply healthy_inv. apply healthy_inv in H. destruct R.
  - destruct H0 as (-> & _ & W). apply inv_marks; [exact H|]. exact (fun h x P => W h x P).
  - eapply inv_store_true; eauto.
  - eapply inv_store_false; eauto.
  - eapply inv_kill; eauto.
  - eapply inv_restore; eauto.
  - eapply inv_split; eauto.
  - eapply merge_cases; eauto.
Qed.
Print Assumptions tj_careful_step_healthy.

Definition e1 := get (store_traj (free 18) (wk (-1) (line 0 6))).
Definition e2 := get (store_traj e1 (wk (-2) (line 6 6))).
Definition e3 := get (merge_and_store pd na e2 0 1).
Definition e4 := get (split_traj pd e3 2 5 None).
Definition e5 := get1 (make_obsolete e4 3).
Definition e6 := get (store_traj e5 (wk (-3) (line 9 6))).

Lemma work_line id a n : (id < 0)%Z -> work (wk id (line a n)).
Proof.
  intros H. split; [|split; [reflexivity|exact H]]. split; [reflexivity|]. split; [reflexivity|].
  intros p h Hp _. cbn in Hp. apply in_map_iff in Hp. destruct Hp as (k & <- & _). discriminate.
Qed.
Example tj_history_example :
  fresh (free 18) /\ history (careful pd na) (free 18) e6 /\
  own e6 = [3;3;3;3;3;3;0;0;0;5;5;5;5;5;5;0;0;0]%Z /\ length (tjs e6) = 5.
Proof.
  split. { split; [reflexivity|]. intros h x H. unfold holds in H. apply nth_error_In, repeat_spec in H. lia. }
  split; [|split; vm_compute; reflexivity].
  apply (h_cons _ _ e5). 2: { apply (s_store_ok _ _ _ (wk (-3) (line 9 6))); [apply work_line; lia|vm_compute; reflexivity]. }
  apply (h_cons _ _ e4). 2: { apply (s_kill _ _ _ 3). vm_compute. reflexivity. }
  apply (h_cons _ _ e3). 2: { eapply (s_split _ _ _ 2 _ 5 None true); [vm_compute; reflexivity|reflexivity|vm_compute; reflexivity]. }
  apply (h_cons _ _ e2).
  2: { apply (s_merge _ _ _ 0 1 true); [|vm_compute; reflexivity|vm_compute; reflexivity].
       intros h x H. unfold holds in H. apply nth_error_In in H.
       assert (A : forallb (Z.leb 0) (own e2) = true) by (vm_compute; reflexivity).
       rewrite forallb_forall in A. apply Z.leb_le, A, H. }
  apply (h_cons _ _ e1). 2: { apply (s_store_ok _ _ _ (wk (-2) (line 6 6))); [apply work_line; lia|vm_compute; reflexivity]. }
  apply (h_cons _ _ (free 18)). 2: { apply (s_store_ok _ _ _ (wk (-1) (line 0 6))); [apply work_line; lia|vm_compute; reflexivity]. }
  apply h_nil.
Qed.

(** Without the care it is false. (1) A StoreTraj that fails half-way leaves hits marked with an ID no
    trajectory has; the next stored trajectory silently inherits them. *)
Definition k1 := get (store_traj (free 8) (wk (-1) (line 0 2))).
Definition k2 := get (store_traj k1 (wk (-2) [q 2 0%Z; q 3 1%Z; q 0 2%Z])).
Definition k3 := get (store_traj k2 (wk (-3) (line 5 3))).
Theorem tj_any_history_leak_refuted :
  exists pdg_of attach s0 s, fresh s0 /\ history (any_step pdg_of attach) s0 s /\
    exists h t, live s t /\ holds s h (tid t) /\ ~ uses t h.
Proof.
  exists pd, na, (free 8), k3.
  split. { split; [reflexivity|]. intros h x H. unfold holds in H. apply nth_error_In, repeat_spec in H. lia. }
  split.
  { apply (h_cons _ _ k2). 2: { apply (a_store _ _ _ (wk (-3) (line 5 3)) true). vm_compute. reflexivity. }
    apply (h_cons _ _ k1). 2: { apply (a_store _ _ _ (wk (-2) [q 2 0%Z; q 3 1%Z; q 0 2%Z]) false). vm_compute. reflexivity. }
    apply (h_cons _ _ (free 8)). 2: { apply (a_store _ _ _ (wk (-1) (line 0 2)) true). vm_compute. reflexivity. }
    apply h_nil. }
  exists 2, (nth 1 (tjs k3) (wk 0 [])). split; [|split].
  - split; [|reflexivity]. apply nth_In. vm_compute. lia.
  - vm_compute. reflexivity.
  - intros H. apply uses_U in H. vm_compute in H. intuition discriminate.
Qed.
Print Assumptions tj_any_history_leak_refuted.

(** (2) Restoring an obsolete trajectory whose hits were taken meanwhile gives a hit to two live
    trajectories. *)
Definition e7 := get1 (restore_obsolete e6 3).
Theorem tj_restore_shares_hit_refuted :
  exists pdg_of attach s0 s s', fresh s0 /\ history (careful pdg_of attach) s0 s /\
    restore_obsolete s 3 = Ok s' /\
    exists i j t u h, nth_error (tjs s') i = Some t /\ nth_error (tjs s') j = Some u /\ i <> j /\
      killed t = false /\ killed u = false /\ uses t h /\ uses u h.
Proof.
  exists pd, na, (free 18), e6, e7. destruct tj_history_example as (F & H & _).
  split; [exact F|]. split; [exact H|]. split; [vm_compute; reflexivity|].
  exists 3, 4, (nth 3 (tjs e7) (wk 0 [])), (nth 4 (tjs e7) (wk 0 [])), 9.
  split; [vm_compute; reflexivity|]. split; [vm_compute; reflexivity|]. split; [lia|]. split; [vm_compute; reflexivity|].
  split; [vm_compute; reflexivity|]. split; apply uses_U; vm_compute; tauto.
Qed.
Print Assumptions tj_restore_shares_hit_refuted.

(* ================================================================ C75 *)

(** Storing an ordinary trajectory: exactly its used hits change hands, nothing else in the slice moves. *)
Theorem tj_store_success s t s' :
  ordinary t -> store_traj s t = Ok (true, s') ->
  exists n,
    tjs s' = tjs s ++ [n] /\ pts n = pts t /\
    tid n = Z.of_nat (length (tjs s) + 1) /\ wid n = tid t /\ uid n = (gid s + 1)%Z /\ gid s' = uid n /\
    (par t <> 0%Z -> par n = par t) /\ (par t = 0%Z -> par n = tid n) /\
    killed n = killed t /\ vx0 n = vx0 t /\ vx1 n = vx1 t /\ pdg n = pdg t /\ dir n = dir t /\
    ep0 n < ep1 n /\ ends_of (pts n) (ep0 n) (ep1 n) /\ once n /\ small_pts n /\
    (forall h, uses t h -> exists x, holds s h x /\ (x <= 0)%Z) /\
    (forall h, uses t h -> holds s' h (tid n)) /\
    (forall h, ~ uses t h -> nth_error (own s') h = nth_error (own s) h) /\
    (forall h, ~ holds s' h (wid n)) /\
    vxs s' = vxs s /\ pfps s' = pfps s.
Proof.
  intros (S1 & S2 & S3) E. pose proof (store_clean _ _ _ E) as Cl. apply store_true in E; try assumption. cbv zeta in E.
  destruct E as (N & F & O & T & V & Pf & G & L & En & _ & _ & Sm).
  exists (set_ids (set_end_points t) (Z.of_nat (length (tjs s) + 1)) (tid t)
    (if (par t =? 0)%Z then Z.of_nat (length (tjs s) + 1) else par t) (gid s + 1)%Z).
  assert (Ep : set_end_points t = set_ends t (ep0 (set_end_points t)) (ep1 (set_end_points t))).
  { unfold set_end_points. rewrite S1, S2. reflexivity. }
  split; [exact T|]. cbn [pts set_ids tid wid uid par killed vx0 vx1 pdg dir ep0 ep1]. rewrite sep_pts.
  do 5 (split; [try reflexivity; try (rewrite Ep; reflexivity); exact G|]).
  split; [intros K; apply Z.eqb_neq in K; rewrite K; reflexivity|].
  split; [intros K; rewrite K; reflexivity|].
  do 5 (split; [rewrite Ep; reflexivity|]).
  split; [exact L|]. split; [exact En|]. split; [apply once_nodup; cbn [pts set_ids]; rewrite sep_pts; exact N|].
  split; [intros p Hp; cbn [pts set_ids] in Hp; rewrite sep_pts in Hp; apply Sm, Hp|].
  split; [intros h Hh; apply uses_U in Hh; apply F, Hh|].
  split; [intros h Hh; apply uses_U in Hh; apply memb_spec in Hh; unfold holds; rewrite O, Hh; reflexivity|].
  split; [|split; [exact Cl|auto]]. intros h Hh. rewrite O. destruct (existsb _ _) eqn:K; [|reflexivity]. exfalso. apply Hh, uses_U, memb_spec, K.
Qed.
Print Assumptions tj_store_success.

(** It does succeed when its hits are free and it has two charged points. *)
Theorem tj_store_succeeds s t :
  ordinary t -> idle s -> (N.of_nat (length (tjs s)) < 65535)%N -> (tid t < 0)%Z -> small_pts t -> once t ->
  (exists i j p r, i < j /\ nth_error (pts t) i = Some p /\ nth_error (pts t) j = Some r /\ chg p <> 0%Z /\ chg r <> 0%Z) ->
  (forall h, uses t h -> holds s h 0%Z) ->
  exists s', store_traj s t = Ok (true, s').
Proof.
  intros (S1 & S2 & S3) Id L Ht Sm On (i & j & p & r & Hij & Hi & Hj & Ci & Cj) F.
  apply store_must; try assumption.
  - destruct (set_end_points_spec t S1 S2) as [(_ & _ & H)|[H _]].
    + pose proof (H _ _ Hi Ci). pose proof (H _ _ Hj Cj). lia.
    + exfalso. apply Ci, H. eapply nth_error_In, Hi.
  - apply once_nodup, On.
  - intros h Hh. apply F, uses_U, Hh.
Qed.
Print Assumptions tj_store_succeeds.

(** A refused trajectory whose hits were properly claimed takes nothing: the slice keeps its
    trajectories, and every owned hit keeps its owner (only work marks may be released). *)
Theorem tj_store_failure_partial s t s' :
  healthy s -> work t -> claimed s t -> store_traj s t = Ok (false, s') ->
  healthy s' /\ tjs s' = tjs s /\ gid s' = gid s /\ vxs s' = vxs s /\
  forall h x, (0 < x)%Z -> (holds s h x <-> holds s' h x).
Proof.
  intros H W C E. apply healthy_inv in H. destruct (inv_store_false s t s' H W C E) as (I & O & Es).
  split; [apply healthy_inv, I|]. do 3 (split; [rewrite Es; reflexivity|]). intros h x P. apply O, P.
Qed.
Print Assumptions tj_store_failure_partial.

Example tj_store_failure_example :
  healthy k1 /\ work (wk (-2) [q 2 0%Z]) /\ claimed k1 (wk (-2) [q 2 0%Z]) /\ exists s', store_traj k1 (wk (-2) [q 2 0%Z]) = Ok (false, s').
Proof.
  split.
  { apply (tj_careful_step_healthy pd na (free 8)).
    - apply (tj_careful_history_healthy pd na (free 8)); [|apply h_nil]. split; [reflexivity|].
      intros h x H. unfold holds in H. apply nth_error_In, repeat_spec in H. lia.
    - apply (s_store_ok _ _ _ (wk (-1) (line 0 2))); [apply work_line; lia|vm_compute; reflexivity]. }
  split; [apply (work_line (-2)%Z 2 1) || idtac|].
  { split; [split; [reflexivity|split; [reflexivity|]]|split; [reflexivity|cbn; lia]]. intros p h [<-|[]] _. discriminate. }
  split; [|eexists; vm_compute; reflexivity]. split; [|split].
  - apply once_nodup. vm_compute. repeat constructor; intuition discriminate.
  - intros h H. apply uses_U in H. vm_compute in H. destruct H as [<-|[]]. exists 0%Z. split; [vm_compute; reflexivity|lia].
  - intros h H. unfold holds in H. apply nth_error_In in H. vm_compute in H. intuition discriminate.
Qed.

(** In general a refused trajectory is not harmless: the hits it had already claimed stay marked with the
    number of a trajectory that does not exist. *)
Theorem tj_store_failure_harmless_refuted :
  exists s t s', healthy s /\ work t /\ store_traj s t = Ok (false, s') /\
    exists h x, holds s h 0%Z /\ holds s' h x /\ (0 < x)%Z /\ forall u, In u (tjs s') -> tid u <> x.
Proof.
  exists k1, (wk (-2) [q 2 0%Z; q 3 1%Z; q 0 2%Z]), k2. split; [apply tj_store_failure_example|].
  split. { split; [split; [reflexivity|split; [reflexivity|]]|split; [reflexivity|cbn; lia]].
    intros p h [<-|[<-|[<-|[]]]] _; discriminate. }
  split; [vm_compute; reflexivity|]. exists 2, 2%Z. split; [vm_compute; reflexivity|]. split; [vm_compute; reflexivity|].
  split; [lia|]. intros u Hu. vm_compute in Hu. destruct Hu as [<-|[]]. discriminate.
Qed.
Print Assumptions tj_store_failure_harmless_refuted.

(* ================================================================ C76 *)

(** Splitting at [p]: the points up to and including [p] stay, the later ones go to a new trajectory;
    every hit the original used is used by exactly one of the two, and owned by it. *)
Theorem tj_split_partition pdg_of s i t p v s' :
  healthy s -> nth_error (tjs s) i = Some t -> killed t = false ->
  split_traj pdg_of s i p v = Ok (true, s') ->
  exists t' n,
    tjs s' = upd (tjs s) i t' ++ [n] /\ ep0 t < p < ep1 t /\
    tid t' = tid t /\ uid t' = uid t /\ tid n = Z.of_nat (length (tjs s) + 1) /\ uid n = (gid s + 1)%Z /\ gid s' = uid n /\
    killed t' = false /\ killed n = false /\
    (forall h, uses t' h <-> exists k pt, k <= p /\ nth_error (pts t) k = Some pt /\ In (h, true) (thits pt)) /\
    (forall h, uses n h <-> exists k pt, p < k /\ nth_error (pts t) k = Some pt /\ In (h, true) (thits pt)) /\
    (forall h, uses t h <-> uses t' h \/ uses n h) /\ (forall h, uses t' h -> ~ uses n h) /\
    (forall h, uses n h -> holds s' h (tid n)) /\
    (forall h, ~ uses n h -> nth_error (own s') h = nth_error (own s) h) /\
    ends_of (pts t') (ep0 t') (ep1 t') /\ ends_of (pts n) (ep0 n) (ep1 n) /\
    length (pts t') = length (pts t) /\ skipn 3 (pts n) = skipn (p + 1) (pts t) /\
    healthy s' /\ vxs s' = vxs s.
Proof.
  intros H Hi K E. apply healthy_inv in H. pose proof (inv_split pdg_of s i t p v true s' H Hi K E) as I'.
  destruct (split_true pdg_of s i t p v s' H Hi K E) as
    (t' & n & a & b & c & r & T & Li & Hp & Hp0 & A1 & A2 & A3 & A4 & _ & _ & A5 & A6 & A7 & A8 & P1 & P2 & P3 & P4 & O & _ & (B1 & B2 & B3 & B4) & (C1 & C2 & C3 & C4)).
  pose proof (i_ok s H i t Hi) as (Or & _ & Hlt & En & On & _).
  assert (U1 : U (pts t') = U (firstn (p + 1) (pts t))).
  { rewrite P1, !U_app, U_clear. replace (ep1 t + 1) with (S (ep1 t)) by lia.
    rewrite (tail_unused (pts t) (ep0 t) (ep1 t)), !app_nil_r; [reflexivity|apply Or|exact En]. }
  assert (U2 : U (pts n) = U (skipn (p + 1) (pts t))).
  { rewrite P3, P4. change (clear_pt a :: clear_pt b :: clear_pt c :: skipn (p + 1) (pts t)) with (map clear_pt [a; b; c] ++ skipn (p + 1) (pts t)).
    rewrite U_app, U_clear. reflexivity. }
  assert (U3 : U (pts t) = U (pts t') ++ U (pts n)) by (rewrite U1, U2, <- U_app, firstn_skipn; reflexivity).
  apply once_nodup in On. rewrite U3 in On. apply nodup_app_iff in On. destruct On as (_ & _ & Dj).
  exists t', n. split; [exact T|]. split; [lia|]. split; [exact A1|]. split; [exact A5|]. split; [exact A2|].
  split; [congruence|]. split; [congruence|]. split; [exact A3|]. split; [exact A4|].
  split. { intros h. rewrite uses_U, U1, in_U. split.
    - intros (x & Hx & Hh). apply In_firstn in Hx. destruct Hx as (k & Hk & Hx). exists k, x. split; [lia|auto].
    - intros (k & x & Hk & Hx & Hh). exists x. split; [|exact Hh].
      apply (nth_error_In _ k). rewrite <- (firstn_skipn (p + 1) (pts t)) in Hx. rewrite nth_error_app1 in Hx; [exact Hx|].
      rewrite firstn_length. assert (ep1 t < length (pts t)) by (apply ends_lt in En; lia). lia. }
  split. { intros h. rewrite uses_U, U2, in_U. split.
    - intros (x & Hx & Hh). apply In_skipn in Hx. destruct Hx as (k & Hk & Hx). exists k, x. split; [lia|auto].
    - intros (k & x & Hk & Hx & Hh). exists x. split; [|exact Hh].
      assert (Lp : ep1 t < length (pts t)) by (apply ends_lt in En; lia).
      rewrite <- (firstn_skipn (p + 1) (pts t)) in Hx. rewrite nth_error_app2 in Hx by (rewrite firstn_length; lia). eapply nth_error_In, Hx. }
  split. { intros h. rewrite !uses_U, U3, in_app_iff. reflexivity. }
  split. { intros h. rewrite !uses_U. apply Dj. }
  split. { intros h Hh. apply uses_U in Hh. rewrite U2 in Hh. apply memb_spec in Hh. unfold holds. rewrite O, Hh, A2. reflexivity. }
  split. { intros h Hh. rewrite O. destruct (existsb _ _) eqn:Em; [|reflexivity]. exfalso. apply Hh, uses_U. rewrite U2. apply memb_spec, Em. }
  split; [exact B4|]. split; [exact C4|].
  split. { rewrite P1, !app_length, map_length. rewrite <- (split3 (pts t) (p + 1) (ep1 t)) at 1 || idtac.
    pose proof (ends_lt _ _ _ En). unfold between. rewrite !firstn_length, !skipn_length. lia. }
  split; [rewrite P3; exact P4|]. split; [apply healthy_inv, I'|exact A8].
Qed.
Print Assumptions tj_split_partition.

(** A split that is refused changes nothing, except that a muon tag (PDG code 13) may be gone. *)
Theorem tj_split_refused_partial pdg_of s i t p v s' :
  healthy s -> nth_error (tjs s) i = Some t ->
  split_traj pdg_of s i p v = Ok (false, s') ->
  own s' = own s /\ vxs s' = vxs s /\ gid s' = gid s /\
  exists t', tjs s' = upd (tjs s) i t' /\ pts t' = pts t /\ tid t' = tid t /\ killed t' = killed t /\
    ep0 t' = ep0 t /\ ep1 t' = ep1 t /\ vx0 t' = vx0 t /\ vx1 t' = vx1 t /\
    (pdg t' = pdg t \/ (pdg t = 13%Z /\ pdg t' = 0%Z)).
Proof.
  intros H Hi E. apply healthy_inv in H. apply split_false in E.
  2: { intros t0 Ht0 _ _. rewrite Hi in Ht0. injection Ht0 as <-. pose proof (i_ok s H i t Hi) as (_ & _ & _ & En & _). apply ends_lt in En. lia. }
  assert (Li : i < length (tjs s)) by (apply nth_error_Some; congruence).
  assert (Eu : upd (tjs s) i t = tjs s).
  { apply nth_error_ext. intros k. rewrite nth_error_upd' by exact Li. destruct (k =? i) eqn:Ek; [apply Nat.eqb_eq in Ek; congruence|reflexivity]. }
  destruct E as [->|(t0 & Ht0 & ->)].
  - do 3 (split; [reflexivity|]). exists t. split; [symmetry; exact Eu|]. do 7 (split; [reflexivity|]). left. reflexivity.
  - rewrite Hi in Ht0. injection Ht0 as <-. cbn [own vxs gid tjs set_tjs]. do 3 (split; [reflexivity|]).
    destruct (pdg t =? 13)%Z eqn:Em; eexists; (split; [reflexivity|]); cbn; do 7 (split; [reflexivity|]).
    + apply Z.eqb_eq in Em. right. auto.
    + left. reflexivity.
Qed.
Print Assumptions tj_split_refused_partial.

Example tj_split_example :
  healthy e3 /\ (exists t, nth_error (tjs e3) 2 = Some t /\ killed t = false) /\
  exists s', split_traj pd e3 2 5 None = Ok (true, s') /\ own s' = [3;3;3;3;3;3;4;4;4;4;4;4;0;0;0;0;0;0]%Z.
Proof.
  split.
  { apply (tj_careful_history_healthy pd na (free 18)); [apply tj_history_example|].
    apply (h_cons _ _ e2).
    2: { apply (s_merge _ _ _ 0 1 true); [|vm_compute; reflexivity|vm_compute; reflexivity].
         intros h x H. unfold holds in H. apply nth_error_In in H.
         assert (A : forallb (Z.leb 0) (own e2) = true) by (vm_compute; reflexivity).
         rewrite forallb_forall in A. apply Z.leb_le, A, H. }
    apply (h_cons _ _ e1). 2: { apply (s_store_ok _ _ _ (wk (-2) (line 6 6))); [apply work_line; lia|vm_compute; reflexivity]. }
    apply (h_cons _ _ (free 18)). 2: { apply (s_store_ok _ _ _ (wk (-1) (line 0 6))); [apply work_line; lia|vm_compute; reflexivity]. }
    apply h_nil. }
  split; [eexists; split; vm_compute; reflexivity|]. eexists. split; vm_compute; reflexivity.
Qed.

(** What the header comment and a caller expect, and does not hold:
    (1) the comment's own example (9 points split at 4 gives 0 1 2 3 and 4 5 6 7 8);
    (2) a refused split leaves the trajectory as it was (the muon tag is lost);
    (3) after a split without a vertex, the first part's end 1 no longer carries the vertex that sits at
        the far end of the second part. *)
Definition f1 := get (store_traj (free 9) (wk (-1) (line 0 9))).
Theorem tj_split_comment_refuted :
  exists s i t p s' t' n h pt, healthy s /\ nth_error (tjs s) i = Some t /\ length (pts t) = 9 /\ p = 4 /\
    split_traj pd s i p None = Ok (true, s') /\ nth_error (tjs s') i = Some t' /\ nth_error (tjs s') (i + 1) = Some n /\
    nth_error (pts t) p = Some pt /\ In (h, true) (thits pt) /\ uses t' h /\ ~ uses n h.
Proof.
  exists f1, 0, (nth 0 (tjs f1) (wk 0 [])), 4, (get (split_traj pd f1 0 4 None)),
    (nth 0 (tjs (get (split_traj pd f1 0 4 None))) (wk 0 [])), (nth 1 (tjs (get (split_traj pd f1 0 4 None))) (wk 0 [])), 4, (q 4 4%Z).
  split.
  { apply (tj_careful_history_healthy pd na (free 9)).
    - split; [reflexivity|]. intros h x H. unfold holds in H. apply nth_error_In, repeat_spec in H. lia.
    - apply (h_cons _ _ (free 9)); [apply h_nil|]. apply (s_store_ok _ _ _ (wk (-1) (line 0 9))); [apply work_line; lia|vm_compute; reflexivity]. }
  do 7 (split; [vm_compute; reflexivity|]). split; [left; reflexivity|]. split.
  - apply uses_U. vm_compute. tauto.
  - intros H. apply uses_U in H. vm_compute in H. intuition discriminate.
Qed.
Print Assumptions tj_split_comment_refuted.

Definition f2 := get (store_traj (free 6) (set_pdg (wk (-1) (line 0 6)) 13%Z)).
Theorem tj_split_refused_unchanged_refuted :
  exists s t s', healthy s /\ nth_error (tjs s) 0 = Some t /\ split_traj pd s 0 1 None = Ok (false, s') /\ s' <> s.
Proof.
  exists f2, (nth 0 (tjs f2) (wk 0 [])), (get (split_traj pd f2 0 1 None)).
  split.
  { apply (tj_careful_history_healthy pd na (free 6)).
    - split; [reflexivity|]. intros h x H. unfold holds in H. apply nth_error_In, repeat_spec in H. lia.
    - apply (h_cons _ _ (free 6)); [apply h_nil|]. apply (s_store_ok _ _ _ (set_pdg (wk (-1) (line 0 6)) 13%Z)); [exact (work_line (-1) 0 6 eq_refl)|vm_compute; reflexivity]. }
  split; [vm_compute; reflexivity|]. split; [vm_compute; reflexivity|]. intros H. vm_compute in H. discriminate H.
Qed.
Print Assumptions tj_split_refused_unchanged_refuted.

Definition f3 := SL (own f1) (map (fun t => set_vx t 0 1) (tjs f1)) [VX 1 false] [] 1%Z.
Theorem tj_split_stale_vertex_refuted :
  exists s s' t' n, healthy s /\ split_traj pd s 0 4 None = Ok (true, s') /\
    nth_error (tjs s') 0 = Some t' /\ nth_error (tjs s') 1 = Some n /\ vx1 t' = 1 /\ vx1 n = 1.
Proof.
  exists f3, (get (split_traj pd f3 0 4 None)),
    (nth 0 (tjs (get (split_traj pd f3 0 4 None))) (wk 0 [])), (nth 1 (tjs (get (split_traj pd f3 0 4 None))) (wk 0 [])).
  split.
  { apply healthy_inv, (inv_core f1); [|reflexivity|apply core_list_map; intros t; repeat split]. apply healthy_inv.
    apply (tj_careful_history_healthy pd na (free 9)).
    - split; [reflexivity|]. intros h x H. unfold holds in H. apply nth_error_In, repeat_spec in H. lia.
    - apply (h_cons _ _ (free 9)); [apply h_nil|]. apply (s_store_ok _ _ _ (wk (-1) (line 0 9))); [apply work_line; lia|vm_compute; reflexivity]. }
  do 4 (split; [vm_compute; reflexivity|]). vm_compute; reflexivity.
Qed.
Print Assumptions tj_split_stale_vertex_refuted.

(* ================================================================ C77 *)

(** A successful merge: both inputs become obsolete, one new trajectory is appended; its points are joined
    from theirs as TJ_Spec.joined says; it owns exactly the hits it uses, every other hit of the two inputs is free again,
    nobody else's hits and no other trajectory's points change. *)
Theorem tj_merge_success pdg_of attach s a b s' :
  healthy s -> idle s -> (N.of_nat (length (tjs s)) < 65535)%N ->
  merge_and_store pdg_of attach s a b = Ok (true, s') ->
  healthy s' /\
  exists ta tb n,
    nth_error (tjs s) a = Some ta /\ nth_error (tjs s) b = Some tb /\ killed ta = false /\ killed tb = false /\
    nth_error (tjs s') (length (tjs s)) = Some n /\ length (tjs s') = length (tjs s) + 1 /\
    killed n = false /\ tid n = Z.of_nat (length (tjs s) + 1) /\ uid n = (gid s + 1)%Z /\
    joined ta tb (wid n) (pts n) /\
    (forall h, uses n h -> (uses ta h \/ uses tb h) /\ holds s' h (tid n)) /\
    (forall h, uses ta h \/ uses tb h -> ~ uses n h -> holds s' h 0%Z) /\
    ((forall h, uses ta h -> uses n h) \/ (forall h, uses tb h -> uses n h)) /\
    (forall h, ~ uses ta h -> ~ uses tb h -> nth_error (own s') h = nth_error (own s) h) /\
    (forall i t, nth_error (tjs s) i = Some t -> exists t', nth_error (tjs s') i = Some t' /\
       pts t' = pts t /\ tid t' = tid t /\ uid t' = uid t /\ ep0 t' = ep0 t /\ ep1 t' = ep1 t /\
       killed t' = (killed t || (i =? a) || (i =? b))).
Proof.
  intros H Id L E. apply healthy_inv in H. destruct (merge_cases pdg_of attach s a b true s' H Id L E) as [I' [[K _]|[_ M]]]; [discriminate K|].
  split; [apply healthy_inv, I'|].
  destruct M as (ta & tb & n & l & Ha & Hb & Ka & Kb & T & C & Kn & Sub & Keep & O & G & Ui & P).
  assert (Ll : length l = length (tjs s)) by (rewrite (core_list_length _ _ C), !upd_length; reflexivity).
  assert (Hn : nth_error (tjs s') (length (tjs s)) = Some n) by (rewrite T, nth_error_snoc, Ll, Nat.eqb_refl; reflexivity).
  pose proof (i_id s' I' _ _ Hn) as Tn.
  assert (La : a < length (tjs s)) by (apply nth_error_Some; congruence).
  assert (Lb : b < length (tjs s)) by (apply nth_error_Some; congruence).
  exists ta, tb, n. split; [exact Ha|]. split; [exact Hb|]. split; [exact Ka|]. split; [exact Kb|]. split; [exact Hn|].
  split; [rewrite T, app_length, Ll; reflexivity|]. split; [exact Kn|]. split; [exact Tn|]. split; [congruence|].
  split; [exact P|].
  split. { intros h Hh. apply uses_U in Hh. split; [rewrite !uses_U; apply Sub, Hh|]. unfold holds. rewrite O.
    apply memb_spec in Hh. rewrite Hh, Tn. reflexivity. }
  split. { intros h Hh Hn'. rewrite !uses_U in *. unfold holds. rewrite O. destruct (existsb _ (U (pts n))) eqn:E1; [exfalso; apply Hn', memb_spec, E1|].
    replace (existsb (Nat.eqb h) (U (pts ta) ++ U (pts tb))) with true; [reflexivity|]. symmetry. apply memb_spec, in_or_app, Hh. }
  split. { destruct Keep as [Keep|Keep]; [left|right]; intros h; rewrite !uses_U; apply Keep. }
  split. { intros h Na Nb. rewrite !uses_U in *. rewrite O.
    destruct (existsb _ (U (pts n))) eqn:E1. { apply memb_spec, Sub in E1. tauto. }
    destruct (existsb _ (_ ++ _)) eqn:E2; [|reflexivity]. apply memb_spec, in_app_iff in E2. tauto. }
  intros i t Hi. assert (Li : i < length (tjs s)) by (apply nth_error_Some; congruence).
  specialize (C i). rewrite T, nth_error_snoc, Ll. replace (i =? length (tjs s)) with false by (symmetry; apply Nat.eqb_neq; lia).
  rewrite !nth_error_upd' in C by (rewrite ?upd_length; assumption).
  destruct (i =? b) eqn:Eb; [|destruct (i =? a) eqn:Ea; [|rewrite Hi in C]].
  - apply Nat.eqb_eq in Eb. subst i. rewrite Hi in Hb. injection Hb as <-. destruct (nth_error l b) as [t'|]; [|contradiction].
    exists t'. destruct C as (C1 & C2 & C3 & C4 & C5 & _ & _ & C6 & C7). cbn in *. rewrite orb_true_r. auto 10.
  - apply Nat.eqb_eq in Ea. subst i. rewrite Hi in Ha. injection Ha as <-. destruct (nth_error l a) as [t'|]; [|contradiction].
    exists t'. destruct C as (C1 & C2 & C3 & C4 & C5 & _ & _ & C6 & C7). cbn in *. rewrite orb_true_r. auto 10.
  - destruct (nth_error l i) as [t'|]; [|contradiction].
    exists t'. destruct C as (C1 & C2 & C3 & C4 & C5 & _ & _ & C6 & C7). cbn in *. rewrite !orb_false_r. auto 10.
Qed.
Print Assumptions tj_merge_success.

(** A refused merge moves no hit and changes no trajectory, except for vertex assignments. *)
Theorem tj_merge_refused pdg_of attach s a b s' :
  healthy s -> idle s -> (N.of_nat (length (tjs s)) < 65535)%N ->
  merge_and_store pdg_of attach s a b = Ok (false, s') ->
  healthy s' /\ own s' = own s /\ gid s' = gid s /\ length (tjs s') = length (tjs s) /\
  forall i t, nth_error (tjs s) i = Some t -> exists x y, nth_error (tjs s') i = Some (set_vx t x y).
Proof.
  intros H Id L E. apply healthy_inv in H. destruct (merge_cases pdg_of attach s a b false s' H Id L E) as [I' [(_ & O & G & _ & V)|[K _]]]; [|discriminate K].
  split; [apply healthy_inv, I'|]. split; [exact O|]. split; [exact G|]. split; [|exact V].
  apply merge_grows in E. destruct E as [[E _]|[_ E]]; [apply nums_length, E|lia].
Qed.
Print Assumptions tj_merge_refused.

Example tj_merge_example :
  healthy e2 /\ idle e2 /\ (N.of_nat (length (tjs e2)) < 65535)%N /\
  exists s', merge_and_store pd na e2 0 1 = Ok (true, s') /\ own s' = [3;3;3;3;3;3;3;3;3;3;3;3;0;0;0;0;0;0]%Z.
Proof.
  split.
  { apply (tj_careful_history_healthy pd na (free 18)); [apply tj_history_example|].
    apply (h_cons _ _ e1). 2: { apply (s_store_ok _ _ _ (wk (-2) (line 6 6))); [apply work_line; lia|vm_compute; reflexivity]. }
    apply (h_cons _ _ (free 18)). 2: { apply (s_store_ok _ _ _ (wk (-1) (line 0 6))); [apply work_line; lia|vm_compute; reflexivity]. }
    apply h_nil. }
  split. { intros h x H. unfold holds in H. apply nth_error_In in H.
    assert (A : forallb (Z.leb 0) (own e2) = true) by (vm_compute; reflexivity). rewrite forallb_forall in A. apply Z.leb_le, A, H. }
  split; [vm_compute; reflexivity|]. eexists. split; vm_compute; reflexivity.
Qed.

(** A merge does not keep every hit: the second trajectory's points before the one closest to the join are
    dropped and their hits set free. *)
Definition g1 := get (store_traj e1 (wk (-2) (map (fun k => q k (Z.of_nat k - 3)%Z) (seq 6 6)))).
Theorem tj_merge_keeps_hits_refuted :
  exists s a b s' ta tb n, healthy s /\ merge_and_store pd na s a b = Ok (true, s') /\
    nth_error (tjs s) a = Some ta /\ nth_error (tjs s) b = Some tb /\ nth_error (tjs s') 2 = Some n /\
    exists h, uses tb h /\ ~ uses n h /\ holds s h 2%Z /\ holds s' h 0%Z.
Proof.
  exists g1, 0, 1, (get (merge_and_store pd na g1 0 1)), (nth 0 (tjs g1) (wk 0 [])), (nth 1 (tjs g1) (wk 0 [])),
    (nth 2 (tjs (get (merge_and_store pd na g1 0 1))) (wk 0 [])).
  split.
  { apply (tj_careful_history_healthy pd na (free 18)); [apply tj_history_example|].
    apply (h_cons _ _ e1).
    2: { apply (s_store_ok _ _ _ (wk (-2) (map (fun k => q k (Z.of_nat k - 3)%Z) (seq 6 6)))); [|vm_compute; reflexivity].
         split; [|split; [reflexivity|cbn; lia]]. split; [reflexivity|]. split; [reflexivity|].
         intros p h Hp _. cbn [pts wk] in Hp. apply in_map_iff in Hp. destruct Hp as (k & <- & _). discriminate. }
    apply (h_cons _ _ (free 18)). 2: { apply (s_store_ok _ _ _ (wk (-1) (line 0 6))); [apply work_line; lia|vm_compute; reflexivity]. }
    apply h_nil. }
  do 4 (split; [vm_compute; reflexivity|]). exists 6. split; [apply uses_U; vm_compute; tauto|].
  split; [intros H; apply uses_U in H; vm_compute in H; intuition discriminate|]. split; vm_compute; reflexivity.
Qed.
Print Assumptions tj_merge_keeps_hits_refuted.

(** The vertex between the two is made obsolete, but the merged trajectory still names it. *)
Definition g2 := SL (own e2) (match tjs e2 with [x; y] => [set_vx x 0 1; set_vx y 1 0] | l => l end) [VX 1 false] [] (gid e2).
Theorem tj_merge_stale_vertex_refuted :
  exists s s' n v, healthy s /\ merge_and_store pd na s 0 1 = Ok (true, s') /\ nth_error (tjs s') 2 = Some n /\ killed n = false /\
    nth_error (vxs s') 0 = Some v /\ vid v = 0 /\ vx1 n = 1.
Proof.
  exists g2, (get (merge_and_store pd na g2 0 1)), (nth 2 (tjs (get (merge_and_store pd na g2 0 1))) (wk 0 [])), (VX 0 false).
  split.
  { apply healthy_inv, (inv_core e2); [apply healthy_inv, tj_merge_example|reflexivity|].
    intros [|[|[|i]]]; cbn; repeat split. }
  do 5 (split; [vm_compute; reflexivity|]). vm_compute; reflexivity.
Qed.
Print Assumptions tj_merge_stale_vertex_refuted.

(* ================================================================ C78 *)

(** Making a live trajectory obsolete frees exactly its hits; restoring it at once undoes it exactly. *)
Theorem tj_obsolete_frees s i t s' :
  healthy s -> nth_error (tjs s) i = Some t -> killed t = false -> make_obsolete s i = Ok s' ->
  healthy s' /\ nth_error (tjs s') i = Some (set_killed t true) /\
  (forall j, j <> i -> nth_error (tjs s') j = nth_error (tjs s) j) /\
  (forall h, uses t h -> holds s' h 0%Z) /\
  (forall h, ~ uses t h -> nth_error (own s') h = nth_error (own s) h).
Proof.
  intros H Hi K E. apply healthy_inv in H. split; [apply healthy_inv; eapply inv_kill; eauto|].
  assert (Li : i < length (tjs s)) by (apply nth_error_Some; congruence).
  apply kill_spec in E. destruct E as [[_ E]|(t0 & Ht0 & ->)]; [lia|]. rewrite Hi in Ht0. injection Ht0 as <-.
  pose proof (i_id s H i t Hi) as Hid. cbn [tjs own].
  split; [rewrite nth_error_upd', Nat.eqb_refl by exact Li; reflexivity|].
  split; [intros j Hj; rewrite nth_error_upd' by exact Li; apply Nat.eqb_neq in Hj; rewrite Hj; reflexivity|].
  split.
  - intros h Hh. apply uses_U in Hh. unfold holds. cbn [own]. rewrite killed_own by lia. rewrite (i_used s H i t h Hi K Hh), Z.eqb_refl. reflexivity.
  - intros h Hh. rewrite killed_own by lia. destruct (nth_error (own s) h) as [x|] eqn:Ex; [|reflexivity].
    destruct (x =? tid t)%Z eqn:Et; [|reflexivity]. exfalso. apply Z.eqb_eq in Et. subst x.
    destruct (i_own s H h _ Ex) as (j & u & Hj & _ & Hj2 & Hh2); [lia|].
    assert (j = i) by (rewrite Hid, (i_id s H j u Hj) in Hj2; lia). subst j. rewrite Hi in Hj. injection Hj as <-.
    apply Hh, uses_U, Hh2.
Qed.
Print Assumptions tj_obsolete_frees.

Theorem tj_obsolete_restore_identity s i t s1 :
  healthy s -> nth_error (tjs s) i = Some t -> killed t = false ->
  make_obsolete s i = Ok s1 -> restore_obsolete s1 i = Ok s.
Proof. intros H Hi K E. apply healthy_inv in H. eapply kill_restore; eauto. Qed.
Print Assumptions tj_obsolete_restore_identity.

Example tj_obsolete_example :
  healthy e3 /\ (exists t, nth_error (tjs e3) 2 = Some t /\ killed t = false) /\
  exists s1, make_obsolete e3 2 = Ok s1 /\ own s1 = repeat 0%Z 18.
Proof.
  split; [apply tj_split_example|]. split; [apply tj_split_example|]. eexists. split; vm_compute; reflexivity.
Qed.

(* ================================================================ C79 *)

(** The self-check raises no false alarm on a healthy slice ... *)
Theorem tj_check_quiet s :
  healthy s -> (N.of_nat (length (tjs s)) <= 65535)%N ->
  (forall t, live s t -> vx0 t <= length (vxs s) /\ vx1 t <= length (vxs s)) ->
  in_traj_ok s (tjs s) = Ok true.
Proof.
  intros H L V. apply healthy_inv in H. apply checker_quiet; [exact H|exact L|]. intros t Ht K. apply V. split; assumption.
Qed.
Print Assumptions tj_check_quiet.

(** ... and when it passes, a live trajectory with two used and two owned hits owns every hit it uses. *)
Theorem tj_check_sound_partial s :
  in_traj_ok s (tjs s) = Ok true ->
  forall t h1 h2 g1 g2, live s t -> shower t = false -> (0 <= tid t < 65536)%Z ->
  uses t h1 -> uses t h2 -> h1 <> h2 -> holds s g1 (tid t) -> holds s g2 (tid t) -> g1 <> g2 ->
  forall h, uses t h -> holds s h (tid t).
Proof. apply checker_sound. Qed.
Print Assumptions tj_check_sound_partial.

Example tj_check_example :
  healthy e3 /\ (exists t, live e3 t) /\ in_traj_ok e3 (tjs e3) = Ok true /\
  in_traj_ok (set_own e3 (upd (own e3) 1 7%Z)) (tjs e3) = Ok false.
Proof.
  split; [apply tj_split_example|]. split.
  - exists (nth 2 (tjs e3) (wk 0 [])). split; [apply nth_In; vm_compute; lia|vm_compute; reflexivity].
  - split; vm_compute; reflexivity.
Qed.

(** It is not complete: hits wrongly owned behind the last used one go unseen, a trajectory owning fewer
    than two hits is skipped, and with fewer owned than used hits it reads past the end of its list. *)
Theorem tj_check_complete_refuted :
  (exists s t h, in_traj_ok s (tjs s) = Ok true /\ live s t /\ holds s h (tid t) /\ ~ uses t h) /\
  (exists s t h, in_traj_ok s (tjs s) = Ok true /\ live s t /\ uses t h /\ holds s h 0%Z) /\
  (exists s t, live s t /\ shower t = false /\ in_traj_ok s (tjs s) = Undef).
Proof.
  split; [|split].
  - exists (set_own e1 (upd (own e1) 9 1%Z)), (nth 0 (tjs e1) (wk 0 [])), 9. split; [vm_compute; reflexivity|].
    split; [split; [apply nth_In; vm_compute; lia|vm_compute; reflexivity]|]. split; [vm_compute; reflexivity|].
    intros H. apply uses_U in H. vm_compute in H. intuition discriminate.
  - exists (set_own e1 (repeat 0%Z 18)), (nth 0 (tjs e1) (wk 0 [])), 0. split; [vm_compute; reflexivity|].
    split; [split; [apply nth_In; vm_compute; lia|vm_compute; reflexivity]|]. split; [apply uses_U; vm_compute; tauto|vm_compute; reflexivity].
  - exists (set_own e1 (upd (own e1) 5 0%Z)), (nth 0 (tjs e1) (wk 0 [])). split; [split; [apply nth_In; vm_compute; lia|vm_compute; reflexivity]|].
    split; vm_compute; reflexivity.
Qed.
Print Assumptions tj_check_complete_refuted.

(* ================================================================ C80 *)

(** Whatever sequence of calls is made - successful, refused, careless - every stored trajectory's ID is its
    position plus one and no two stored trajectories share a UID. *)
Theorem tj_numbering pdg_of attach s0 s :
  numbered s0 -> history (any_step pdg_of attach) s0 s -> numbered s.
Proof.
  intros N H. induction H as [s0|s1 s2 s3 H IH R]; [exact N|].
  eapply numbered_grows; [apply IH, N|eapply any_grows, R].
Qed.
Print Assumptions tj_numbering.

(** and stored trajectories are never removed or renumbered *)
Theorem tj_append_only pdg_of attach s0 s :
  history (any_step pdg_of attach) s0 s ->
  (gid s0 <= gid s)%Z /\
  forall i t, nth_error (tjs s0) i = Some t -> exists t', nth_error (tjs s) i = Some t' /\ tid t' = tid t /\ uid t' = uid t.
Proof.
  intros H. induction H as [s0|s1 s2 s3 H IH R]; [split; [lia|eauto]|]. destruct IH as [G IH]. apply any_grows in R. split.
  - destruct R as [[_ R]|[_ R]]; lia.
  - intros i t Hi. destruct (IH i t Hi) as (t' & Ht' & E1 & E2). apply nth_nums in Ht'.
    assert (X : nth_error (nums (tjs s3)) i = Some (tid t', uid t')).
    { destruct R as [[-> _]|[-> _]]; [exact Ht'|]. rewrite nth_error_app1; [exact Ht'|]. apply nth_error_Some. congruence. }
    apply nums_nth in X. destruct X as (t3 & H3 & X). injection X as X1 X2. exists t3. split; [exact H3|]. split; congruence.
Qed.
Print Assumptions tj_append_only.

Example tj_numbering_example :
  numbered (free 18) /\ history (any_step pd na) (free 18) e2 /\ map tid (tjs e2) = [1; 2]%Z /\ map uid (tjs e2) = [1; 2]%Z.
Proof.
  split. { split; [|split]; cbn; intros; try (destruct i; discriminate); contradiction. }
  split; [|split; vm_compute; reflexivity].
  apply (h_cons _ _ e1). 2: { apply (a_store _ _ _ (wk (-2) (line 6 6)) true). vm_compute. reflexivity. }
  apply (h_cons _ _ (free 18)). 2: { apply (a_store _ _ _ (wk (-1) (line 0 6)) true). vm_compute. reflexivity. }
  apply h_nil.
Qed.
