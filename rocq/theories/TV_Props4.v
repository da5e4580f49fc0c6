(** Property C95, continued: the trajectory AttachAnyTrajToVertex takes; Find2DVertices when no candidate
    is close to an existing vertex. *)
From Verif Require Import Base QcUtil SortUtil TV_Model TV_Spec TV_Kill TV_High TV_Ops TV_Kill2 TV_Ops2 TV_Merge TV_FModel TV_Find TV_Find2 TV_Spec3 TV_Find3 TV_Store3 TV_Chk TV_Wit.
From Coq Require Import QArith Qcanon.
Import TV_Model TV_FModel.
Local Open Scope nat_scope.

(** AttachAnyTrajToVertex tries to attach, of all live non-halo trajectories of the plane whose nearest end
    is near enough and free and whose figure of merit is at most the limit, the last one with the least
    figure of merit; without such a trajectory it changes nothing *)
Theorem attach_any_takes_best g s vi v : nth_error (vs s) vi = Some v -> vid v <> 0 ->
  let ok ti := exists t, nth_error (tjs s) ti = Some t /\ dead t = false /\ halo t = false /\ tctp t = vctp v /\ far g s ti vi = false /\
    vtxid t (nearend g s ti vi) = 0 /\ (fom g s ti vi <= fom0 g)%Qc in
  ((forall ti, ~ ok ti) /\ attach_any g s vi = Ok (false, s)) \/
  exists ti, ok ti /\ attach_any g s vi = attach s ti vi (nearend g s ti vi) (verd g s ti vi) /\
    (forall tk, ok tk -> (fom g s ti vi <= fom g s tk vi)%Qc) /\
    (forall tk, ok tk -> ti < tk -> (fom g s ti vi < fom g s tk vi)%Qc).
Proof. exact (attach_any_best g s vi v). Qed.
Print Assumptions attach_any_takes_best.

(** Find2DVertices, if no candidate lies close to an existing vertex: an attached end stays attached to its
    vertex, and every new 2D vertex has two different trajectories *)
Theorem find_2D_keeps_partial npl g ctp s s' : (forall s i b j, close_to g s i b j = 0) ->
  (forall s i b j l, incl (order (mgeo g s i b j) l) l) -> ctp mod 10 < npl -> sound npl s -> find2d g ctp s = Ok s' ->
  (forall i t, nth_error (tjs s) i = Some t -> exists t', nth_error (tjs s') i = Some t' /\
     (e0 t <> 0 -> e0 t' = e0 t) /\ (e1 t <> 0 -> e1 t' = e1 t)) /\
  (forall x, length (vs s) < x <= length (vs s') -> exists i j t u, i <> j /\
     nth_error (tjs s') i = Some t /\ nth_error (tjs s') j = Some u /\ (e0 t = x \/ e1 t = x) /\ (e0 u = x \/ e1 u = x)).
Proof.
  intros C O P H E. destruct (find2d_nice npl g C ctp s s' O P H E) as (K & _ & T). split.
  - intros i t Ht. destruct (K i t Ht) as (t' & A & B). exists t'. split; [exact A|]. split; [exact (B false)|exact (B true)].
  - intros x Hx. destruct (T x Hx) as (i & j & t & u & A & B & D & (_ & F) & (_ & G)). exists i, j, t, u. auto.
Qed.
Print Assumptions find_2D_keeps_partial.

Example find_2D_keeps_example : sound 3 s_tjs /\ (forall s i b j, close_to g_two s i b j = 0) /\ (forall s i b j l, incl (order (mgeo g_two s i b j) l) l) /\
  exists s' s'', find2d g_two 1 s_tjs = Ok s' /\ find2d g_two 2 s' = Ok s'' /\ length (vs s') = 1 /\ length (vs s'') = 2.
Proof.
  split; [apply (history_sound q10), hist_tjs|]. split; [reflexivity|]. split; [exact order_two|].
  exists (run (find2d g_two 1 s_tjs)), (run (find2d g_two 2 (run (find2d g_two 1 s_tjs)))).
  split; [apply run_ok; vm_compute; reflexivity|]. split; [apply run_ok; vm_compute; reflexivity|]. vm_compute. auto.
Qed.

(** a 2D vertex and three free trajectories: the second has the least figure of merit *)
Definition s_any : slice := SL [free_tj 1 0; free_tj 2 0; free_tj 3 0; free_tj 4 1] [V 1 0 0 0 0 0%Qc false 0%Z] [] [] 1 0.
Definition g_any : f2_geo := F2 (shower g_two) (wrong g_two) (weak g_two) (end_of g_two) (cuts g_two) (fits g_two) (close_to g_two) (mgeo g_two) (vpos g_two) (fun _ _ _ => false)
  (fun _ _ _ => true) (fun _ i _ => Q2Qc (inject_Z (Z.of_nat (nth i [2; 1; 1; 0] 9)))) (Q2Qc (inject_Z 5)) (fun _ _ _ => Accept false (Some q30)) (score2 g_two).
Example attach_any_example : match attach_any g_any s_any 0 with Ok (b, s') => (b, map (fun t => (e0 t, e1 t)) (tjs s')) | _ => (false, []) end =
  (true, [(0, 0); (0, 0); (0, 1); (0, 0)]).
Proof. vm_compute. reflexivity. Qed.
