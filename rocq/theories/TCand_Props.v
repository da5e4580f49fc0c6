(** Theorem C37 *)
From Verif Require Import Base Util TCand_Model TCand_Spec TCand_Proofs.
Local Open Scope nat_scope.

Section P.
Context {R : Type} (r0 : R).
(** after any history, hit number i of any candidate has the detector and hit id with which it was added; other numbers are refused *)
Theorem c37_ids ops w k c : run r0 ops = Ok w -> nth_error w k = Some c -> exists l, nth_error (logs r0 ops) k = Some l /\ nhits c = length l /\
  forall i, get2 c i = match nth_error l i with Some x => Ok (r_det x, r_hit x) | None => Throw UserExn end.
Proof.
  intros E Ek. assert (H := run_gen r0 ids_ok (fun _ => True) (fun w ls o w' _ => step_ids r0 w ls o w') ops w (proj2 (Forall_forall _ _) (fun _ _ => I)) E).
  assert (L := F2_length _ _ _ H). assert (k < length w) by (apply nth_error_Some; congruence). exists (nth k (logs r0 ops) []). assert (P := F2_nth _ _ _ _ _ [] H Ek).
  split; [apply nth_error_nth'; lia|]. split; [apply nhits_ids, P|]. intros i. apply get2_ok, P.
Qed.
(** and its rho, if no candidate was reset and constructors were given as many rhos as hits *)
Theorem c37_rho_partial ops w k c : run r0 ops = Ok w -> nth_error w k = Some c -> Forall (fun o => is_reset o = false /\ rhos_match o) ops -> exists l, nth_error (logs r0 ops) k = Some l /\
  forall i, get3 c i = match nth_error l i with Some x => Ok (r_det x, r_hit x, r_rho x) | None => Throw UserExn end.
Proof.
  intros E Ek HQ. assert (H := run_gen r0 rho_ok _ (fun w ls o w' Q => step_rho r0 w ls o w' (proj1 Q) (proj2 Q)) ops w HQ E).
  assert (L := F2_length _ _ _ H). assert (k < length w) by (apply nth_error_Some; congruence). exists (nth k (logs r0 ops) []). assert (P := F2_nth _ _ _ _ _ [] H Ek).
  split; [apply nth_error_nth'; lia|]. intros i. apply get3_ok, P.
Qed.
(** and its plane, if no candidate was reset or constructed with hits *)
Theorem c37_plane_partial ops w k c : run r0 ops = Ok w -> nth_error w k = Some c -> Forall (fun o => is_reset o = false /\ gives_hits o = false) ops -> exists l, nth_error (logs r0 ops) k = Some l /\
  forall i, get_plane c i = match nth_error l i with Some x => Ok (r_det x, r_hit x, r_plane x) | None => Throw UserExn end.
Proof.
  intros E Ek HQ. assert (H := run_gen r0 plane_ok _ (fun w ls o w' Q => step_plane r0 w ls o w' (proj1 Q) (proj2 Q)) ops w HQ E).
  assert (L := F2_length _ _ _ H). assert (k < length w) by (apply nth_error_Some; congruence). exists (nth k (logs r0 ops) []). assert (P := F2_nth _ _ _ _ _ [] H Ek).
  split; [apply nth_error_nth'; lia|]. intros i. apply get_plane_ok, P.
Qed.
(** HitInTrack, GetHitIDs and == after any history *)
Theorem c37_queries ops w k c l : run r0 ops = Ok w -> nth_error w k = Some c -> nth_error (logs r0 ops) k = Some l ->
  (forall d h, exists b, in_track c d h = Ok b /\ (b = true <-> exists x, In x l /\ r_det x = d /\ r_hit x = h)) /\
  (forall d, hit_ids c (Some d) = Ok (map r_hit (filter (fun x => Nat.eqb (r_det x) d) l))) /\ hit_ids c None = Ok (map r_hit l) /\
  (forall k' c' l', nth_error w k' = Some c' -> nth_error (logs r0 ops) k' = Some l' -> exists b, eq_cand c c' = Ok b /\ (b = true <-> map r_det l = map r_det l' /\ map r_hit l = map r_hit l')).
Proof.
  intros E Ek El. assert (H := run_gen r0 ids_ok (fun _ => True) (fun w ls o w' _ => step_ids r0 w ls o w') ops w (proj2 (Forall_forall _ _) (fun _ _ => I)) E).
  assert (X : forall k c l, nth_error w k = Some c -> nth_error (logs r0 ops) k = Some l -> ids_ok c l) by (intros k0 c0 l0 A B; rewrite <- (nth_error_nth _ _ [] B); exact (F2_nth _ _ _ _ _ [] H A)).
  assert (P := X k c l Ek El). split; [intros; apply in_track_ok, P|]. split; [intros; apply hit_ids_ok, P|]. split; [cbn; rewrite (proj2 P); reflexivity|].
  intros k' c' l' Ek' El'. apply eq_cand_ok; [exact P|exact (X k' c' l' Ek' El')].
Qed.
(** appending a candidate with hits to itself never returns *)
Theorem c37_self_append_refuted ops w k c : run r0 ops = Ok w -> nth_error w k = Some c -> Forall (fun o => is_reset o = false /\ rhos_match o) ops -> 0 < nhits c -> forall fuel, self_append fuel 0 c = None.
Proof.
  intros E Ek HQ Hn fuel. assert (H := run_gen r0 rho_ok _ (fun w ls o w' Q => step_rho r0 w ls o w' (proj1 Q) (proj2 Q)) ops w HQ E). assert (P := F2_nth _ _ _ _ _ [] H Ek).
  apply (self_append_runs fuel 0 c _ P). rewrite <- (nhits_ids _ _ (proj1 P)). exact Hn.
Qed.
(** append and addHit never fail on candidates built without reset and with matching rhos *)
Theorem c37_append_total ops w k j c x : run r0 ops = Ok w -> nth_error w k = Some c -> nth_error w j = Some x -> Forall (fun o => is_reset o = false /\ rhos_match o) ops -> k <> j -> exists w', run r0 (ops ++ [Append k j]) = Ok w'.
Proof.
  intros E Ek Ex HQ Hne. assert (H := run_gen r0 rho_ok _ (fun w ls o w' Q => step_rho r0 w ls o w' (proj1 Q) (proj2 Q)) ops w HQ E). assert (P := F2_nth _ _ _ _ _ [] H Ex). destruct (append_total c x _ P) as [c' Ea].
  exists (upd w k c'). unfold run. rewrite CMgr_Proofs.foreach_app. unfold run in E. rewrite E. cbn [obind foreach step]. unfold idx. rewrite Ek, Ex. cbn [obind]. destruct (Nat.eqb_spec k j); [contradiction|]. cbn [andb]. rewrite Ea. cbn [obind].
  unfold set_idx. destruct (Nat.ltb_spec k (length w)); [reflexivity|]. apply nth_error_None in H0. congruence.
Qed.
End P.
Print Assumptions c37_ids. Print Assumptions c37_rho_partial. Print Assumptions c37_plane_partial. Print Assumptions c37_queries. Print Assumptions c37_self_append_refuted. Print Assumptions c37_append_total.

(** C37 as stated fails for rho after a reset: the hit added gets the rho of a removed hit *)
Theorem c37_reset_rho_refuted : exists ops w c, run 0 ops = Ok w /\ nth_error w 0 = Some c /\ nth_error (logs 0 ops) 0 = Some [mkR 7 8 9 1] /\ get3 c 0 = Ok (7, 8, 5).
Proof. exists [New0; AddHit 0 1 2 5 3; Reset 0; AddHit 0 7 8 9 1]. exists [mkC [7] [8] [3; 1] [5; 9]], (mkC [7] [8] [3; 1] [5; 9]). repeat split. Qed.
(** and for the plane *)
Theorem c37_reset_plane_refuted : exists ops w c, run 0 ops = Ok w /\ nth_error w 0 = Some c /\ nth_error (logs 0 ops) 0 = Some [mkR 7 8 9 1] /\ get_plane c 0 = Ok (7, 8, 3).
Proof. exists [New0; AddHit 0 1 2 5 3; Reset 0; AddHit 0 7 8 9 1]. exists [mkC [7] [8] [3; 1] [5; 9]], (mkC [7] [8] [3; 1] [5; 9]). repeat split. Qed.
(** hits given to a constructor have no plane, and shift the planes of later hits *)
Theorem c37_ctor_plane_refuted : exists ops w c, run 0 ops = Ok w /\ nth_error w 0 = Some c /\ nth_error (logs 0 ops) 0 = Some [mkR 1 2 0 0; mkR 7 8 9 4] /\ get_plane c 0 = Ok (1, 2, 4) /\ get_plane c 1 = Throw RangeExn.
Proof. exists [New5 [1] [2]; AddHit 0 7 8 9 4]. exists [mkC [1; 7] [2; 8] [4] [0; 9]], (mkC [1; 7] [2; 8] [4] [0; 9]). repeat split. Qed.
(** a constructor given too few rhos does not notice; the rho is then missing *)
Theorem c37_ctor_rho_refuted : exists ops w c, run 0 ops = Ok w /\ nth_error w 0 = Some c /\ nhits c = 2 /\ get3 c 1 = Throw RangeExn.
Proof. exists [New6 [1; 2] [3; 4] [5]]. exists [mkC [1; 2] [3; 4] [] [5]], (mkC [1; 2] [3; 4] [] [5]). repeat split. Qed.
(** append does not take over the planes *)
Theorem c37_append_plane_refuted : exists ops w c c', run 0 ops = Ok w /\ nth_error w 0 = Some c /\ nth_error w 1 = Some c' /\ get_plane c 0 = Ok (1, 2, 6) /\ get_plane c' 0 = Ok (1, 2, 0).
Proof. exists [New0; AddHit 0 1 2 5 6; New0; Append 1 0]. exists [mkC [1] [2] [6] [5]; mkC [1] [2] [0] [5]], (mkC [1] [2] [6] [5]), (mkC [1] [2] [0] [5]). repeat split. Qed.
(** a history meeting all premises *)
Definition ex_ops : list (op (R := nat)) := [New0; New0; AddHit 0 1 2 3 4; AddHit 0 5 6 7 8; AddHit 1 9 9 9 9; Append 1 0; AddHit 1 1 1 1 1].
Example c37_nonvacuous : run 0 ex_ops = Ok [mkC [1; 5] [2; 6] [4; 8] [3; 7]; mkC [9; 1; 5; 1] [9; 2; 6; 1] [9; 0; 0; 1] [9; 3; 7; 1]] /\
  Forall (fun o => is_reset o = false /\ rhos_match o) ex_ops /\ Forall (fun o => is_reset o = false /\ gives_hits o = false) ex_ops.
Proof. split; [reflexivity|]. split; repeat constructor. Qed.
