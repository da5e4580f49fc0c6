(** Concrete histories of vertex operations, used to show that hypotheses are met and as witnesses. *)
From Verif Require Import Base QcUtil SortUtil TV_Model TV_Spec TV_Kill TV_High TV_Ops TV_Kill2 TV_Ops2 TV_Merge TV_FModel TV_Find TV_Spec3 TV_Find3 TV_Store3 TV_Chk.
From Coq Require Import QArith Qcanon Permutation Sorted.
Import TV_Model.
Local Open Scope nat_scope.

Definition is_ok {A} (o : outcome A) : bool := match o with Ok _ => true | _ => false end.
Definition run (o : outcome slice) : slice := match o with Ok s => s | _ => SL [] [] [] [] 0 0 end.
Lemma run_ok o : is_ok o = true -> o = Ok (run o).
Proof. destruct o; simpl; congruence. Qed.

Definition q10 : Qc := Q2Qc 10.
Definition q30 : Qc := Q2Qc 30.

(** two trajectories in each of three planes *)
Definition free_tj (i c : nat) : tj := T i c false false 0 0 false false.
Definition s_tjs : slice := SL [free_tj 1 0; free_tj 2 0; free_tj 3 1; free_tj 4 1; free_tj 5 2; free_tj 6 2] [] [] [] 0 0.

Definition g_merge : mwv_geo := MG true true (fun _ => true) (fun _ => false) (fun l => l) q30.
(** the start points of any two trajectories of a plane meet *)
Definition g_two : f2_geo := F2 (fun _ => false) (fun _ _ => false) (fun _ _ => false) (fun _ _ _ _ => false) (fun _ _ _ _ => true)
  (fun _ _ _ _ => true) (fun _ _ _ _ => 0) (fun _ _ _ _ => g_merge) (fun _ _ _ _ => 5%Z) (fun _ _ _ => true) (fun _ _ _ => false)
  (fun _ _ _ => q10) q10 (fun _ _ _ => Reject) (fun _ _ => q30).

(** three 2D vertices, one in each plane *)
Definition s_2V : slice := run (do s <- find2d g_two 0 s_tjs; do s <- find2d g_two 1 s; find2d g_two 2 s).

Definition score_lt (a b : cand) : bool := qlt (csc a) (csc b).
Definition g_three : f3_geo := F3 (fun _ => true) (fun _ _ => Some (0%Qc, 7%Z)) (fun _ _ _ => Some 0%Qc) q10 (isort score_lt) (fun _ _ => q30).
(** one 3D vertex made of the three *)
Definition s_3V : slice := run (find3d 3 q10 g_three s_2V).

Lemma sorts_score : sorts3 (isort score_lt).
Proof.
  intros l. split; [symmetry; apply isort_perm|].
  assert (Hs : StronglySorted (fun a b => score_lt b a = false) (isort score_lt l)).
  { apply isort_sorted; unfold score_lt, qlt.
    - intros a b c. destruct (Qclt_le_dec (csc b) (csc a)); [discriminate|]. destruct (Qclt_le_dec (csc c) (csc b)); [discriminate|]. intros _ _.
      destruct (Qclt_le_dec (csc c) (csc a)) as [F|]; [|reflexivity]. exfalso. apply (Qclt_not_le _ _ F). eapply Qcle_trans; eauto.
    - intros a b. destruct (Qclt_le_dec (csc a) (csc b)) as [F|]; [|discriminate]. destruct (Qclt_le_dec (csc b) (csc a)) as [G|]; [|reflexivity].
      exfalso. apply (Qclt_not_le _ _ F). apply Qclt_le_weak. exact G. }
  revert Hs. generalize (isort score_lt l). intros l' Hs. induction Hs as [|a l' H IH Hf]; intros i j x y L Hx Hy; [destruct i; discriminate|].
  destruct j as [|j]; [lia|]. destruct i as [|i]; [|apply (IH i j x y); [lia|exact Hx|exact Hy]]. injection Hx as <-. rewrite Forall_forall in Hf.
  specialize (Hf y (nth_error_In l' j Hy)). unfold score_lt, qlt in Hf. destruct (Qclt_le_dec (csc y) (csc a)); [discriminate|assumption].
Qed.

Lemma hist_tjs cut : history cut s_tjs.
Proof.
  assert (K : forall l i c, history cut (SL l [] [] [] 0 0) -> i = S (length l) -> history cut (SL (l ++ [free_tj i c]) [] [] [] 0 0)).
  { intros l i c H ->. eapply h_step; [exact H|]. apply (op_new_tj cut (SL l [] [] [] 0 0) (free_tj (S (length l)) c)); reflexivity. }
  unfold s_tjs.
  apply (K [free_tj 1 0; free_tj 2 0; free_tj 3 1; free_tj 4 1; free_tj 5 2]); [|reflexivity].
  apply (K [free_tj 1 0; free_tj 2 0; free_tj 3 1; free_tj 4 1]); [|reflexivity].
  apply (K [free_tj 1 0; free_tj 2 0; free_tj 3 1]); [|reflexivity].
  apply (K [free_tj 1 0; free_tj 2 0]); [|reflexivity].
  apply (K [free_tj 1 0]); [|reflexivity]. apply (K []); [|reflexivity]. apply h_start.
Qed.

Lemma order_two : forall s i b j l, incl (order (mgeo g_two s i b j) l) l.
Proof. intros. simpl. intros x Hx. exact Hx. Qed.

Lemma hist_2V cut : history cut s_2V.
Proof.
  set (a := run (find2d g_two 0 s_tjs)). set (b := run (find2d g_two 1 a)).
  assert (Ea : find2d g_two 0 s_tjs = Ok a) by (apply run_ok; vm_compute; reflexivity).
  assert (Eb : find2d g_two 1 a = Ok b) by (apply run_ok; vm_compute; reflexivity).
  assert (Ec : find2d g_two 2 b = Ok s_2V) by (unfold s_2V; rewrite Ea; cbn [obind]; rewrite Eb; cbn [obind]; apply run_ok; vm_compute; reflexivity).
  clearbody a b. eapply h_step; [|apply (op_find2d cut b g_two 2 s_2V order_two); [simpl; lia|exact Ec]].
  eapply h_step; [|apply (op_find2d cut a g_two 1 b order_two); [simpl; lia|exact Eb]].
  eapply h_step; [apply hist_tjs|apply (op_find2d cut s_tjs g_two 0 a order_two); [simpl; lia|exact Ea]].
Qed.

Lemma hist_3V : history q10 s_3V.
Proof.
  eapply h_step; [apply (hist_2V q10)|]. apply (op_find3d q10 s_2V g_three); [exact sorts_score| |apply run_ok; vm_compute; reflexivity].
  intros x v (H & _). destruct x as [|[|[|[|x]]]]; vm_compute in H; try discriminate; try (injection H as <-; reflexivity). destruct x; discriminate.
Qed.

(** everything about the state that is not a score *)
Definition pic (s : slice) :=
  (map (fun t => (tid t, tctp t, e0 t, e1 t, thi t)) (tjs s), map (fun v => (vid v, vctp v, v3 v, nt v, vhi v)) (vs s),
   map (fun w => (wid w, w2 w)) (ws s)).
Example pic_3V : pic s_3V =
  ([(1, 0, 1, 0, true); (2, 0, 1, 0, true); (3, 1, 2, 0, true); (4, 1, 2, 0, true); (5, 2, 3, 0, true); (6, 2, 3, 0, true)],
   [(1, 0, 1, 2, true); (2, 1, 1, 2, true); (3, 2, 1, 2, true)], [(1, [1; 2; 3])]).
Proof. vm_compute. reflexivity. Qed.
