(** Theorems C35, C36 *)
From Coq Require Import QArith Qcanon Lqa.
From Verif Require Import Base Util QcUtil Solver_Model Solver_Proofs CandHit_Model GaussElim_Model GaussElim_Proofs Triplet_Spec SortUtil KD_Model KD_Spec KD_Proofs.
Local Open Scope nat_scope.

Section P.
Context (hit : nat -> hit3) (sort : (nat -> nat -> bool) -> list nat -> list nat) (root : Qc -> Qc) (sigmas refdist : Qc).

(* ================================================================== C35 *)
(** BuildKdTree ends on every non-empty list (the recursion is never deeper than its length), with every hit at exactly one leaf and correct splits *)
Theorem c35_build l : sorts hit sort -> l <> [] -> exists t, build_tree hit sort l = Some t /\ Permutation (leaves t) l /\ well_split hit t /\ forall fuel, length l < fuel -> build_range hit sort fuel l = Some t.
Proof.
  intros Hs Hne. destruct (build_ok hit sort Hs (S (length l)) l ltac:(lia) Hne) as (t & E & P & W). exists t. split; [exact E|]. split; [exact P|]. split; [exact W|].
  intros fuel Hf. rewrite (fuel_enough hit sort Hs l fuel Hne Hf). exact E.
Qed.
Theorem c35_brute l t ref : sorts hit sort -> l <> [] -> build_tree hit sort l = Some t -> find_brute ref t = Ok true /\ In ref l \/ find_brute ref t = Ok false /\ ~ In ref l.
Proof.
  intros Hs Hne E. destruct (c35_build l Hs Hne) as (t' & E' & P & W & _). rewrite E in E'. inversion E'; subst t'. rewrite (brute_ok hit root sigmas ref t W). destruct (in_dec Nat.eq_dec ref (leaves t)) as [Hi|Hi]; [left|right]; (split; [reflexivity|]).
  - eapply Permutation_in; eauto.
  - intros X. apply Hi. eapply Permutation_in; [apply Permutation_sym; exact P|exact X].
Qed.
(** FindEntry, given FLT_MAX or a positive distance, also tells whether the hit is in the tree; it leaves the candidate list and the distance as they are *)
Theorem c35_entry l t ref cands best : sorts hit sort -> l <> [] -> build_tree hit sort l = Some t -> (match best with Far => True | D b => 0 < b end)%Qc ->
  exists f, find_entry hit root sigmas ref t (cands, best, true) = Ok (f, (cands, best, negb f)) /\ (f = true <-> In ref l).
Proof.
  intros Hs Hne E Hb. destruct (c35_build l Hs Hne) as (t' & E' & P & W & _). rewrite E in E'. inversion E'; subst t'. erewrite entry_ok by eassumption.
  destruct (in_dec Nat.eq_dec ref (leaves t)) as [Hi|Hi]; [exists true|exists false]; (split; [reflexivity|]); split; intros H; auto; try discriminate.
  - eapply Permutation_in; eauto.
  - exfalso. apply Hi. eapply Permutation_in; [apply Permutation_sym; exact P|exact H].
Qed.

(* ================================================================== C36 *)
(** whatever the starting distance (FLT_MAX or at least RefLeafBestDist): the search returns, and appends other, compatible hits of the list, none twice, each with its separation, none farther than the starting distance *)
Theorem c36_sound l t ref cands best : sorts hit sort -> l <> [] -> NoDup l -> build_tree hit sort l = Some t -> (match best with Far => True | D b => refdist <= b end)%Qc ->
  exists new best', neighbours hit root sigmas refdist ref t (cands, best) = Ok (cands ++ new, best') /\ NoDup (map snd new) /\
    (forall d h, In (d, h) new -> In h l /\ h <> ref /\ compatible hit sigmas ref h /\ d = yz_sep hit root ref h /\ match best with Far => True | D b => (d <= b)%Qc end).
Proof.
  intros Hs Hne Hnd E Hb. destruct (c35_build l Hs Hne) as (t' & E' & P & W & _). rewrite E in E'. inversion E'; subst t'.
  destruct (nn_sound hit root sigmas refdist ref t W (Permutation_NoDup (Permutation_sym P) Hnd) cands best Hb) as (new & best' & En & _ & _ & N & S). exists new, best'. split; [exact En|]. split; [exact N|].
  intros d h Hi. destruct (S d h Hi) as (S1 & S2 & S3 & S4 & S5). split; [eapply Permutation_in; eauto|]. split; [exact S2|]. split; [exact S3|]. split; [exact S4|]. destruct best; [exact I|exact S5].
Qed.
(** started with FLT_MAX, as all callers do, the hits found are closer than RefLeafBestDist *)
Theorem c36_max_sound l t ref cands c' b' : sorts hit sort -> l <> [] -> build_tree hit sort l = Some t -> neighbours hit root sigmas refdist ref t (cands, Far) = Ok (c', b') ->
  forall d h, In (d, h) c' -> In (d, h) cands \/ (d < refdist)%Qc.
Proof.
  intros Hs Hne E En. destruct (c35_build l Hs Hne) as (t' & E' & P & W & _). rewrite E in E'. inversion E'; subst t'. apply (nn_radius hit root sigmas refdist ref t W _ _ (or_introl eq_refl) _ _ En).
Qed.
(** started with a finite distance of at least RefLeafBestDist it finds every close hit *)
Theorem c36_complete l t ref cands b c' b' : sorts hit sort -> l <> [] -> build_tree hit sort l = Some t -> (refdist <= b)%Qc ->
  neighbours hit root sigmas refdist ref t (cands, D b) = Ok (c', b') -> forall h, In h l -> close_to hit root sigmas refdist ref h -> In (yz_sep hit root ref h, h) c'.
Proof.
  intros Hs Hne E Hb En h Hi Hc. destruct (c35_build l Hs Hne) as (t' & E' & P & W & _). rewrite E in E'. inversion E'; subst t'. eapply nn_complete; [exact W|exact Hb|exact En| |exact Hc]. eapply Permutation_in; [apply Permutation_sym; exact P|exact Hi].
Qed.
(** started with FLT_MAX, as all callers do: for a hit outside the tree nothing is found *)
Theorem c36_max_absent l t ref cands : sorts hit sort -> l <> [] -> build_tree hit sort l = Some t -> ~ In ref l -> neighbours hit root sigmas refdist ref t (cands, Far) = Ok (cands, Far).
Proof.
  intros Hs Hne E Hn. destruct (c35_build l Hs Hne) as (t' & E' & P & W & _). rewrite E in E'. inversion E'; subst t'. apply nn_far_none; [exact W|]. intros X. apply Hn. eapply Permutation_in; eauto.
Qed.
(** for a hit of the tree that shares no coordinate with another hit, every close hit is found *)
Theorem c36_max_complete_partial l t ref cands c' b' : sorts hit sort -> NoDup l -> build_tree hit sort l = Some t -> In ref l -> (forall h a, In h l -> h <> ref -> a < 3 -> coord (hit h) a <> coord (hit ref) a) ->
  neighbours hit root sigmas refdist ref t (cands, Far) = Ok (c', b') -> forall h, In h l -> close_to hit root sigmas refdist ref h -> In (yz_sep hit root ref h, h) c'.
Proof.
  intros Hs Hnd E Hr Hd En h Hi Hc. assert (Hne : l <> []) by (intros ->; destruct Hr). destruct (c35_build l Hs Hne) as (t' & E' & P & W & _). rewrite E in E'. inversion E'; subst t'.
  assert (Q : forall x, In x l -> In x (leaves t)) by (intros x; eapply Permutation_in, Permutation_sym, P).
  eapply nn_far_complete; [exact W|exact (Permutation_NoDup (Permutation_sym P) Hnd)|exact (Q ref Hr)| |exact En|exact (Q h Hi)|exact Hc]. intros h' a H'. apply Hd. eapply Permutation_in; eauto.
Qed.
(** in general at least one of two close hits finds the other *)
Theorem c36_max_pair l t x y cx cy cx' cy' bx by' : sorts hit sort -> NoDup l -> build_tree hit sort l = Some t -> In x l -> In y l -> close_to hit root sigmas refdist x y ->
  neighbours hit root sigmas refdist x t (cx, Far) = Ok (cx', bx) -> neighbours hit root sigmas refdist y t (cy, Far) = Ok (cy', by') -> In y (map snd cx') \/ In x (map snd cy').
Proof.
  intros Hs Hnd E Hx Hy Hc Ex Ey. assert (Hne : l <> []) by (intros ->; destruct Hx). destruct (c35_build l Hs Hne) as (t' & E' & P & W & _). rewrite E in E'. inversion E'; subst t'.
  assert (Q : forall x, In x l -> In x (leaves t)) by (intros z; eapply Permutation_in, Permutation_sym, P).
  destruct (nn_far_pair hit root sigmas refdist t W (Permutation_NoDup (Permutation_sym P) Hnd) x y (Q x Hx) (Q y Hy) Hc (close_sym _ _ _ _ _ _ Hc) _ _ _ _ _ _ Ex Ey) as [H|H];
    apply (in_map snd) in H; [left|right]; exact H.
Qed.
(** an empty list gives a tree on which every search is undefined *)
Theorem c35_empty_refuted ref st : build_tree hit sort [] = Some Null /\ neighbours hit root sigmas refdist ref Null st = Undef /\ find_brute ref Null = Undef.
Proof. repeat split. Qed.
End P.
Print Assumptions c35_build. Print Assumptions c35_brute. Print Assumptions c35_entry. Print Assumptions c36_sound. Print Assumptions c36_complete. Print Assumptions c36_max_sound.
Print Assumptions c36_max_absent. Print Assumptions c36_max_complete_partial. Print Assumptions c36_max_pair.

(* ================================================================== examples *)
Definition q (n d : Z) : Qc := Q2Qc (n # Z.to_pos d).
Definition ex_hit (h : nat) : hit3 :=
  match h with
  | 0 => mkH3 0 0 0 0 0 0 1 10 10 10
  | 1 => mkH3 0 0 (q 1 10) 0 0 0 1 10 11 10
  | 2 => mkH3 0 (q 5 1) (q 2 10) 0 0 0 1 20 21 22
  | 3 => mkH3 (q 1 5) (q 51 10) (q 3 10) 0 0 0 1 20 21 22
  | _ => mkH3 (q 1 7) (q (-3) 1) (q 9 1) 1 0 0 1 3 4 5
  end.
Definition ex_sort (less : nat -> nat -> bool) (l : list nat) := isort less l.
Lemma ex_sorts : sorts ex_hit ex_sort.
Proof.
  intros a l. split; [apply isort_perm|]. apply isort_sorted.
  - unfold less_on. intros x y z H1 H2. apply qc_lt_false in H1, H2. apply qc_lt_false. eapply Qcle_trans; eauto.
  - unfold less_on. intros x y H. apply qc_lt_spec in H. apply qc_lt_false, Qclt_le_weak, H.
Qed.
Definition ex_root (x : Qc) : Qc := x.
Definition ex_t := match build_tree ex_hit ex_sort [2; 0; 3; 1; 4] with Some t => t | None => Null end.
Definition found (x : outcome (list (Qc * nat) * dist)) : option (list nat) := match x with Ok (c, _) => Some (map snd c) | _ => None end.
Example ex_tree : leaves ex_t = [0; 1; 2; 3; 4].
Proof. vm_compute. reflexivity. Qed.
(** hits 2 and 3 are close and share no coordinate with others: found both ways *)
Example ex_found : found (neighbours ex_hit ex_root (q 3 1) (q 1 2) 2 ex_t ([], Far)) = Some [3] /\ found (neighbours ex_hit ex_root (q 3 1) (q 1 2) 3 ex_t ([], Far)) = Some [2].
Proof. vm_compute. auto. Qed.
Example ex_close : close_to ex_hit ex_root (q 3 1) (q 1 2) 2 3.
Proof. repeat split; try discriminate; try (vm_compute; reflexivity). intros [|[|[|a]]] Ha; try lia; vm_compute; reflexivity. Qed.
(** C36 as users expect it fails: a hit sharing the split coordinate with a close neighbour does not see it (although the neighbour sees it) *)
Definition tie_t := match build_tree ex_hit ex_sort [0; 1; 2] with Some t => t | None => Null end.
Theorem c36_tie_refuted : close_to ex_hit ex_root (q 3 1) (q 1 2) 0 1 /\ build_tree ex_hit ex_sort [0; 1; 2] = Some tie_t /\
  found (neighbours ex_hit ex_root (q 3 1) (q 1 2) 0 tie_t ([], Far)) = Some [1] /\ found (neighbours ex_hit ex_root (q 3 1) (q 1 2) 1 tie_t ([], Far)) = Some [].
Proof. split; [|vm_compute; auto]. repeat split; try discriminate; try (vm_compute; reflexivity). intros [|[|[|a]]] Ha; try lia; vm_compute; reflexivity. Qed.
Print Assumptions c36_tie_refuted.
