(** compatible hits on crossing wires make a point *)
From Coq Require Import QArith Qcanon Lqa.
From Verif Require Import Base QcUtil Solver_Model SPA_Model SPA_Spec SPA_Compat SPA_Fit SPA_Geom SPA_Make SPA_Out SPA_Reach.
Import SPA_Model.
Local Open Scope nat_scope.

Lemma visited_ex shape : forall k, exists vis, visited shape k vis.
Proof.
  induction shape as [|ts shape IH]; intros k; [exists []; constructor|]. destruct (IH (S k)) as (rest & V). exists (map (fun e => (k, fst e, snd e)) (combine (seq 0 (length ts)) ts) ++ rest).
  constructor; [rewrite map_length, combine_length, seq_length; lia| |exact V]. intros t np. rewrite nth_error_map.
  assert (G : forall (l : list nat) b t, nth_error (combine (seq b (length l)) l) t = match nth_error l t with Some x => Some (b + t, x) | None => None end).
  { clear. induction l as [|x l IH]; intros b [|t]; cbn [length seq combine nth_error]; [reflexivity|reflexivity|f_equal; f_equal; lia|]. rewrite IH. destruct (nth_error l t); [f_equal; f_equal; lia|reflexivity]. }
  rewrite G. destruct (nth_error ts t) as [x|]; cbn; split; intros X; try discriminate; congruence.
Qed.
Lemma visited_in shape k vis : visited shape k vis -> forall c ts t np, nth_error shape c = Some ts -> nth_error ts t = Some np -> In (k + c, t, np) vis.
Proof.
  induction 1 as [k|ts shape k l rest Hl Hn V IH]; intros c ts' t np A B; [destruct c; discriminate|]. destruct c as [|c]; cbn [nth_error] in A.
  - injection A as <-. apply in_or_app. left. apply Hn in B. rewrite Nat.add_0_r. eapply nth_error_In; exact B.
  - apply in_or_app. right. replace (k + S c) with (S k + c) by lia. eapply IH; eassumption.
Qed.
Lemma visited_at g vis cr t np : visited (g_shape g) 0 vis -> planes_in g cr t np -> exists k, nth_error vis k = Some (cr, t, np).
Proof. intros V (ts & A & B). apply In_nth_error. apply (visited_in _ _ _ V cr ts t np A B). Qed.
Lemma counts_pos {A} (P : A -> Prop) l n : counts P l n -> 0 < n -> exists x, In x l /\ P x.
Proof. induction 1 as [|x l n Px C IH|x l n Px C IH]; intros L; [lia|exists x; split; [left; reflexivity|exact Px]|]. destruct (IH L) as (y & Y & Py). exists y. split; [right; exact Y|exact Py]. Qed.
Lemma F2_nth1 {A B} (R : A -> B -> Prop) l l' : Forall2 R l l' -> forall i x, nth_error l i = Some x -> exists y, nth_error l' i = Some y /\ R x y.
Proof. induction 1 as [|x y l l' r F IH]; intros [|i] z N; try discriminate; cbn in *; [injection N as <-; eauto|apply IH; exact N]. Qed.
Lemma cross_sym g a b : cross g a b -> cross g b a.
Proof. intros (y & z & A & B). exists y, z. auto. Qed.
Lemma planes_fun g cr t n m : planes_in g cr t n -> planes_in g cr t m -> n = m.
Proof. intros (ts & A & B) (ts' & A' & B'). congruence. Qed.

Section complete.
Context (g : geo) (c : cfg) (hits : list hit).
Hypothesis R : regular g.
Hypothesis Pl : placed g hits.
Hypothesis Fc : filt c = false.
Hypothesis Mc : merge c = false.

(** what is made for a TPC *)
Lemma tpc_made out m cr t np : make g c hits = Ok (out, m) -> planes_in g cr t np -> exists C, combinations g c hits (cr, t, np) C /\ forall hs, In hs C -> exists p, In p out /\ hits_of m p hs.
Proof.
  intros E P. destruct (visited_ex (g_shape g) 0) as (vis & V). destruct (make_plain g c hits vis R Pl V Fc Mc) as (Cs & F & Th & Mk). destruct (visited_at g vis cr t np V P) as (k & Hk). destruct (F2_nth1 _ _ _ F _ _ Hk) as (C & HC & Cc).
  exists C. split; [exact Cc|]. intros hs I.
  assert (NL : ~ late_triplet Cs) by (intros X; rewrite (Th X) in E; discriminate). destruct (Mk NL) as (out' & m' & E' & _ & _ & _ & Cn). rewrite E in E'. injection E' as <- <-.
  apply (counts_pos _ _ _ (Cn k C hs HC I)). assert (k < length vis) by (apply nth_error_Some; congruence). lia.
Qed.

Lemma pair_complete out m np a b : make g c hits = Ok (out, m) -> minviews c <= 2 -> In a hits -> In b hits -> used c a -> used c b -> planes_in g (hcryo a) (htpc a) np ->
  two_only c hits (hcryo a) (htpc a) np -> hplane a <> hplane b -> agree g c a b -> cross g a b -> exists p hs, In p out /\ hits_of m p hs /\ Permutation hs [a; b].
Proof.
  intros E Mv Ia Ib Ua Ub P T D Ag X. destruct (tpc_made out m _ _ np E P) as (C & (ord & (Po & Pm) & _ & InC) & Mk). cbn [fst snd] in Po, Pm, InC.
  destruct Pl as (_ & Pp). destruct (Pp a Ia) as (na & Pa & La). assert (na = np) by (eapply planes_fun; eassumption). subst na.
  destruct (Pp b Ib) as (nb & Pb & Lb). pose proof Ag as (Ag1 & Ag2 & _). rewrite <- Ag1, <- Ag2 in Pb. assert (nb = np) by (eapply planes_fun; eassumption). subst nb.
  assert (Oa : exists i, nth_error ord i = Some (hplane a)) by (apply In_nth_error, (Permutation_in _ (Permutation_sym Po)), in_seq; lia).
  assert (Ob : exists i, nth_error ord i = Some (hplane b)) by (apply In_nth_error, (Permutation_in _ (Permutation_sym Po)), in_seq; lia).
  destruct Oa as (i & Hi). destruct Ob as (j & Hj).
  assert (G : exists hs, In hs C /\ Permutation hs [a; b]).
  { destruct (Nat.lt_trichotomy i j) as [L|[L|L]].
    - exists [a; b]. split; [|reflexivity]. apply InC. left. split; [exact Mv|]. split; [exact T|]. exists i, j, (hplane a), (hplane b), a, b. do 8 (split; [first [assumption|reflexivity|split; [assumption|split; [reflexivity|split; reflexivity]]|split; [assumption|split; [congruence|split; [congruence|reflexivity]]]]|]).
      split; [apply cross_reaches; assumption|constructor; exact Ag].
    - congruence.
    - exists [b; a]. split; [|apply perm_swap]. apply InC. left. split; [exact Mv|]. split; [exact T|]. exists j, i, (hplane b), (hplane a), b, a. do 8 (split; [first [assumption|reflexivity|split; [assumption|split; [reflexivity|split; reflexivity]]|split; [assumption|split; [congruence|split; [congruence|reflexivity]]]]|]).
      split; [apply cross_reaches, cross_sym; assumption|constructor; apply agree_sym; exact Ag]. }
  destruct G as (hs & I & Pe). destruct (Mk hs I) as (p & Ip & H). exists p, hs. auto.
Qed.

Lemma triple_complete out m a b d : make g c hits = Ok (out, m) -> minviews c <= 3 -> In a hits -> In b hits -> In d hits -> used c a -> used c b -> used c d -> planes_in g (hcryo a) (htpc a) 3 ->
  hplane a <> hplane b -> hplane a <> hplane d -> hplane b <> hplane d -> fits g c [a; b; d] -> cross g a b -> cross g a d -> cross g b d ->
  exists p hs, In p out /\ hits_of m p hs /\ Permutation hs [a; b; d].
Proof.
  intros E Mv Ia Ib Id Ua Ub Ud P D1 D2 D3 Ft X1 X2 X3. destruct (tpc_made out m _ _ 3 E P) as (C & (ord & (Po & Pm) & _ & InC) & Mk). cbn [fst snd] in Po, Pm, InC.
  assert (Ag : agree g c a b /\ agree g c a d) by (inversion Ft; auto). destruct Ag as ((Ag1 & Ag2 & _) & (Ag3 & Ag4 & _)).
  destruct Pl as (_ & Pp). destruct (Pp a Ia) as (na & Pa & La). assert (na = 3) by (eapply planes_fun; eassumption). subst na.
  destruct (Pp b Ib) as (nb & Pb & Lb). rewrite <- Ag1, <- Ag2 in Pb. assert (nb = 3) by (eapply planes_fun; eassumption). subst nb.
  destruct (Pp d Id) as (nd & Pd & Ld). rewrite <- Ag3, <- Ag4 in Pd. assert (nd = 3) by (eapply planes_fun; eassumption). subst nd.
  assert (Oo : forall q, q < 3 -> exists i, i < 3 /\ nth_error ord i = Some q).
  { intros q L. assert (I : In q ord) by (apply (Permutation_in _ (Permutation_sym Po)), in_seq; lia). apply In_nth_error in I as (i & I). exists i. split; [|exact I]. pose proof (Permutation_length Po) as Len. rewrite seq_length in Len. rewrite <- Len. apply nth_error_Some. congruence. }
  destruct (Oo _ La) as (i & Li & Hi). destruct (Oo _ Lb) as (j & Lj & Hj). destruct (Oo _ Ld) as (k & Lk & Hk).
  assert (G : forall x y z, nth_error ord 0 = Some (hplane x) -> nth_error ord 1 = Some (hplane y) -> nth_error ord 2 = Some (hplane z) -> In x hits -> In y hits -> In z hits -> used c x -> used c y -> used c z ->
    hcryo x = hcryo a -> hcryo y = hcryo a -> hcryo z = hcryo a -> htpc x = htpc a -> htpc y = htpc a -> htpc z = htpc a -> cross g x y -> fits g c [x; y; z] -> In [x; y; z] C).
  { intros x y z. intros. apply InC. right. split; [exact Mv|]. split; [lia|]. exists (hplane x), (hplane y), (hplane z), x, y, z. unfold used_at, at_plane. pose proof (cross_reaches g R x y ltac:(assumption)). auto 20. }
  assert (Gp : exists hs, In hs C /\ Permutation hs [a; b; d]).
  { assert (Pf : forall l, Permutation [a; b; d] l -> fits g c l) by (intros l Q; exact (fits_perm g c _ _ Q Ft)).
    destruct i as [|[|[|]]]; try lia; destruct j as [|[|[|]]]; try lia; destruct k as [|[|[|]]]; try lia; try (exfalso; congruence).
    - exists [a; b; d]. assert (Q : Permutation [a; b; d] [a; b; d]) by reflexivity. split; [apply G; auto using cross_sym|symmetry; exact Q].
    - exists [a; d; b]. assert (Q : Permutation [a; b; d] [a; d; b]) by (apply perm_skip, perm_swap). split; [apply G; auto using cross_sym|symmetry; exact Q].
    - exists [b; a; d]. assert (Q : Permutation [a; b; d] [b; a; d]) by apply perm_swap. split; [apply G; auto using cross_sym|symmetry; exact Q].
    - exists [d; a; b]. assert (Q : Permutation [a; b; d] [d; a; b]) by (change [a; b; d] with ([a; b] ++ [d]); apply Permutation_app_comm). split; [apply G; auto using cross_sym|symmetry; exact Q].
    - exists [b; d; a]. assert (Q : Permutation [a; b; d] [b; d; a]) by (change [a; b; d] with ([a] ++ [b; d]); apply Permutation_app_comm). split; [apply G; auto using cross_sym|symmetry; exact Q].
    - exists [d; b; a]. assert (Q : Permutation [a; b; d] [d; b; a]) by apply (Permutation_rev [a; b; d]). split; [apply G; auto using cross_sym|symmetry; exact Q]. }
  destruct Gp as (hs & I & Pe). destruct (Mk hs I) as (p & Ip & H). exists p, hs. auto.
Qed.
End complete.
