(** C69: the search over the tree of a cluster *)
From Coq Require Import QArith Qcanon Lqa.
From Verif Require Import Base QcUtil Solver_Model Solver_Proofs CandHit_Model Triplet_Spec SortUtil MST_Model MST_Spec MST_Proofs MST_Loop MST_Walk MST_Props.
Local Open Scope nat_scope.

Lemma total_cons e l : total (e :: l) = (e_w e + total l)%Qc.
Proof. reflexivity. Qed.
Lemma last_cons2 (x y : nat) l d : last (x :: y :: l) d = last (y :: l) d.
Proof. reflexivity. Qed.
Lemma last_any (x d d' : nat) l : last (x :: l) d = last (x :: l) d'.
Proof. revert x. induction l as [|y l IH]; intros x; [reflexivity|]. rewrite !last_cons2. apply IH. Qed.

Section P.
Context (hs : list nat) (T : list edge) (m : emap) (G : grown hs T) (Hm : forall h, m h = edges_at T h).

Lemma map_edge f h : In f (m h) -> e_src f = h /\ exists g, In g T /\ joins g h (e_dst f).
Proof using Hm.
  rewrite Hm. intros H. apply in_flat_map in H. destruct H as (g & Hg & H). apply in_app_or in H. destruct H as [H|H].
  - destruct (h =? e_src g) eqn:E; [|destruct H]. apply Nat.eqb_eq in E. destruct H as [<-|[]]. split; [auto|]. exists g. split; [exact Hg|left; auto].
  - destruct (h =? e_dst g) eqn:E; [|destruct H]. apply Nat.eqb_eq in E. destruct H as [<-|[]]. split; [auto|]. exists g. split; [exact Hg|right; auto].
Qed.
Lemma edge_map g h y : In g T -> joins g h y -> exists f, In f (m h) /\ e_src f = h /\ e_dst f = y.
Proof using Hm.
  intros Hg J. destruct J as [[<- <-]|[<- <-]].
  - exists g. split; [|auto]. rewrite Hm. apply in_flat_map. exists g. split; [exact Hg|]. rewrite Nat.eqb_refl. left. reflexivity.
  - exists (flip g). split; [|auto]. rewrite Hm. apply in_flat_map. exists g. split; [exact Hg|]. rewrite Nat.eqb_refl. apply in_or_app. right. left. reflexivity.
Qed.
Lemma extend l e f : In e (m (e_src e)) -> walk T (l ++ [e_src e; e_dst e]) -> In f (m (e_dst e)) -> e_dst f <> e_src e -> walk T ((l ++ [e_src e]) ++ [e_src f; e_dst f]).
Proof using Hm.
  intros He W Hf N. destruct (map_edge f _ Hf) as (Ef & g & Hg & J). rewrite Ef. apply walk_snoc; [rewrite <- app_assoc; exact W|exists g; auto|].
  rewrite rev_app_distr. cbn [rev app]. auto.
Qed.
Lemma walk_edge e : In e (m (e_src e)) -> walk T [e_src e; e_dst e].
Proof using Hm. intros H. destruct (map_edge e _ H) as (_ & g & Hg & J). apply walk_cons2. split; [exists g; auto|]. split; exact I. Qed.
Lemma src_in f h : In f (m h) -> In f (m (e_src f)).
Proof using Hm. intros H. destruct (map_edge f h H) as [-> _]. exact H. Qed.
Lemma walk_len l x y : walk T (l ++ [x; y]) -> length l + 2 <= length hs.
Proof using G.
  intros W. pose proof (grown_acyclic hs T G _ W) as N. assert (L : incl (l ++ [x; y]) hs). { destruct l as [|a [|b l]]; [apply (walk_in hs T x y [] G W)|apply (walk_in hs T a x [y] G W)|apply (walk_in hs T a b (l ++ [x; y]) G W)]. }
  pose proof (NoDup_incl_length N L) as Q. rewrite app_length in Q. exact Q.
Qed.

(* ------------------------------------------------------------------ LeastCostPath *)
Section Goal.
Context (goal : nat).
Lemma try_ends rec from l : (forall f, In f l -> e_dst f <> from -> rec f <> None) -> try_edges rec goal from l <> None.
Proof using.
  induction l as [|f l IH]; intros H; cbn [try_edges]; [discriminate|]. assert (IH' := IH (fun g Hg => H g (or_intror Hg))). destruct (e_dst f =? from) eqn:E; [exact IH'|]. apply Nat.eqb_neq in E.
  destruct (e_dst f =? goal); [discriminate|]. destruct (rec f) as [[[[p es] c]|]|] eqn:R; [discriminate|exact IH'|]. exfalso. apply (H f (or_introl eq_refl) E R).
Qed.
Lemma search_ends k : forall e l, In e (m (e_src e)) -> walk T (l ++ [e_src e; e_dst e]) -> length hs < k + length l + 2 -> least_cost m goal k e <> None.
Proof using G Hm.
  induction k as [|k IH]; intros e l He W Hk. { pose proof (walk_len l _ _ W). lia. }
  cbn [least_cost]. assert (X : try_edges (least_cost m goal k) goal (e_src e) (m (e_dst e)) <> None).
  { apply try_ends. intros f Hf N. apply (IH f (l ++ [e_src e])); [eapply src_in; exact Hf|apply extend; assumption|]. rewrite app_length. cbn [length]. lia. }
  destruct (try_edges (least_cost m goal k) goal (e_src e) (m (e_dst e))) as [[[[p es] c]|]|]; [discriminate|discriminate|congruence].
Qed.
Lemma try_sound rec from l p es c : try_edges rec goal from l = Some (Some (p, es, c)) ->
  exists f, In f l /\ e_dst f <> from /\ (e_dst f = goal /\ p = [goal] /\ es = [f] /\ c = e_w f \/ e_dst f <> goal /\ exists c', rec f = Some (Some (p, es, c')) /\ c = (e_w f + c')%Qc).
Proof using.
  induction l as [|f l IH]; cbn [try_edges]; [discriminate|]. intros H. destruct (e_dst f =? from) eqn:E.
  { destruct (IH H) as (g & Hg & X). exists g. split; [right; exact Hg|exact X]. } apply Nat.eqb_neq in E.
  destruct (e_dst f =? goal) eqn:E2.
  { apply Nat.eqb_eq in E2. inversion H; subst p es c. exists f. split; [left; reflexivity|]. split; [exact E|]. left. auto. } apply Nat.eqb_neq in E2.
  destruct (rec f) as [[[[p' es'] c']|]|] eqn:R; [| |discriminate].
  - inversion H; subst p es c. exists f. split; [left; reflexivity|]. split; [exact E|]. right. split; [exact E2|]. exists c'. auto.
  - destruct (IH H) as (g & Hg & X). exists g. split; [right; exact Hg|exact X].
Qed.
Lemma search_sound k : forall e p es c, In e (m (e_src e)) -> least_cost m goal k e = Some (Some (p, es, c)) ->
  exists p' es', p = e_dst e :: p' /\ p' <> [] /\ es = e :: es' /\ along m (e_src e :: p) es /\ walk T (e_src e :: p) /\ last p goal = goal /\ c = total es'.
Proof using Hm.
  induction k as [|k IH]; intros e p es c He H; [discriminate|]. cbn [least_cost] in H.
  destruct (try_edges (least_cost m goal k) goal (e_src e) (m (e_dst e))) as [[[[p1 es1] c1]|]|] eqn:Et; [|discriminate|discriminate].
  inversion H; subst p es c. clear H. destruct (map_edge e _ He) as (_ & g0 & Hg0 & J0).
  destruct (try_sound _ _ _ _ _ _ Et) as (f & Hf & N & [(Eg & -> & -> & ->)|(Ng & c' & Ef & ->)]); destruct (map_edge f _ Hf) as (Sf & g & Hg & J).
  - exists [goal], [f]. split; [reflexivity|]. split; [discriminate|]. split; [reflexivity|]. split; [|split; [|split]].
    + cbn [along]. rewrite <- Sf at 2. repeat split; auto; rewrite ?Sf; auto.
    + apply walk_cons2. split; [exists g0; auto|]. split; [congruence|]. apply walk_cons2. split; [exists g; rewrite Eg in J; auto|]. split; exact I.
    + reflexivity.
    + rewrite total_cons. unfold total. cbn [qsum fold_right]. ring.
  - destruct (IH f _ _ _ (src_in f _ Hf) Ef) as (p2 & es2 & -> & Np & -> & Al & W & L & ->). exists (e_dst f :: p2), (f :: es2).
    split; [reflexivity|]. split; [discriminate|]. split; [reflexivity|]. split; [|split; [|split]].
    + cbn [along] in Al |- *. rewrite Sf in Al. repeat split; auto; apply Al.
    + apply walk_cons2. split; [exists g0; auto|]. split; [exact N|]. rewrite Sf in W. exact W.
    + rewrite last_cons2. exact L.
    + reflexivity.
Qed.
Lemma try_complete rec from f l : (forall g, In g l -> e_dst g <> from -> rec g <> None) -> In f l -> e_dst f <> from -> (e_dst f = goal \/ rec f <> Some None) -> try_edges rec goal from l <> Some None.
Proof using.
  induction l as [|g l IH]; intros Hn Hf N Hor; [destruct Hf|]. cbn [try_edges]. destruct Hf as [->|Hf].
  - destruct (e_dst f =? from) eqn:E; [apply Nat.eqb_eq in E; contradiction|]. destruct (e_dst f =? goal) eqn:E2; [discriminate|]. apply Nat.eqb_neq in E2.
    destruct Hor as [X|X]; [contradiction|]. destruct (rec f) as [[[[p es] c]|]|]; congruence || discriminate.
  - assert (IH' : try_edges rec goal from l <> Some None) by (apply IH; auto; intros h Hh; apply Hn; right; exact Hh).
    destruct (e_dst g =? from); [exact IH'|]. destruct (e_dst g =? goal); [discriminate|]. destruct (rec g) as [[[[p es] c]|]|]; [discriminate|exact IH'|discriminate].
Qed.
Lemma search_complete k : forall e l r, In e (m (e_src e)) -> walk T (l ++ [e_src e; e_dst e]) -> length hs < k + length l + 2 -> walk T (e_src e :: e_dst e :: r) -> r <> [] -> last r 0 = goal -> least_cost m goal k e <> Some None.
Proof using G Hm.
  induction k as [|k IH]; intros e l r He W Hk Wr Hr Hl; [discriminate|]. cbn [least_cost].
  destruct r as [|y r]; [contradiction|]. apply walk_cons2 in Wr. destruct Wr as (_ & N & Wr). pose proof Wr as Wr'. apply walk_cons2 in Wr'. destruct Wr' as ((g & Hg & J) & _ & _).
  destruct (edge_map g _ _ Hg J) as (f & Hf & Sf & Df).
  assert (E : forall f, In f (m (e_dst e)) -> e_dst f <> e_src e -> least_cost m goal k f <> None).
  { intros f0 Hf0 N0. apply (search_ends k f0 (l ++ [e_src e])); [eapply src_in; exact Hf0|apply extend; assumption|]. rewrite app_length. cbn [length]. lia. }
  assert (X : try_edges (least_cost m goal k) goal (e_src e) (m (e_dst e)) <> Some None).
  { apply (try_complete _ _ f); [exact E|exact Hf|congruence|]. destruct r as [|z r]; [left; rewrite Df; exact Hl|right].
    apply (IH f (l ++ [e_src e]) (z :: r)); [eapply src_in; exact Hf|apply extend; [exact He|exact W|exact Hf|congruence]|rewrite app_length; cbn [length]; lia|rewrite Sf, Df; exact Wr|discriminate|exact Hl]. }
  destruct (try_edges (least_cost m goal k) goal (e_src e) (m (e_dst e))) as [[[[p es] c]|]|]; congruence || discriminate.
Qed.
End Goal.

(** the first edge of the chain between two different hits, if the start has only one edge, is that edge; if both have only one, the chain is longer *)
Lemma isolated_chain start goal e e' : spans T hs -> In start hs -> In goal hs -> start <> goal -> m start = [e] -> m goal = [e'] -> 2 < length hs ->
  exists r, walk T (start :: e_dst e :: r) /\ r <> [] /\ last r 0 = goal.
Proof using G Hm.
  intros Hc Hs Hg N Es Eg L. destruct (conn_walk T start goal (Hc _ _ Hs Hg)) as (l & W & Ll). destruct l as [|y r]; [cbn in Ll; congruence|].
  pose proof W as W'. apply walk_cons2 in W'. destruct W' as ((g & Hgt & J) & _ & _). destruct (edge_map g _ _ Hgt J) as (f & Hf & Sf & Df). rewrite Es in Hf. destruct Hf as [<-|[]]. rewrite Df. exists r. split; [exact W|].
  rewrite last_cons2 in Ll. destruct r as [|z r]; [|split; [discriminate|rewrite last_cons2 in Ll; rewrite (last_any z 0 start); exact Ll]]. exfalso. cbn in Ll. rewrite Ll in *. clear y Ll.
  (* both ends have only the edge between them: nothing else is connected *)
  assert (K : forall x, connected T start x -> x = start \/ x = goal).
  { intros x H. induction H as [|y z h _ IH Hh K]; [left; reflexivity|]. destruct (edge_map h _ _ Hh K) as (f & Hf & _ & <-). destruct IH as [->| ->].
    - rewrite Es in Hf. destruct Hf as [<-|[]]. right. exact Df.
    - destruct (edge_map g goal start Hgt (joins_sym _ _ _ J)) as (f2 & Hf2 & _ & D2). rewrite Eg in Hf, Hf2. destruct Hf as [<-|[]]. destruct Hf2 as [<-|[]]. left. exact D2. }
  assert (I : incl hs [start; goal]). { intros x Hx. destruct (K x (Hc start x Hs Hx)) as [->| ->]; [left|right; left]; reflexivity. }
  pose proof (NoDup_incl_length (grown_nodup hs T G) I) as Q. cbn [length] in Q. lia.
Qed.

Lemma best_path_ok start goal e e' fuel : spans T hs -> In start hs -> In goal hs -> start <> goal -> m start = [e] -> m goal = [e'] -> 2 < length hs -> length hs <= fuel ->
  exists p es, best_path m fuel start goal = Ok (p, es) /\ hd 0 p = start /\ last p 0 = goal /\ NoDup p /\ along m p es.
Proof using G Hm.
  intros Hc Hs Hg N Es Eg L Hf. destruct (isolated_chain start goal e e' Hc Hs Hg N Es Eg L) as (r & W & Nr & Lr).
  assert (He : In e (m start)) by (rewrite Es; left; reflexivity). destruct (map_edge e _ He) as (Se & _). subst start.
  unfold best_path. rewrite Es. pose proof (search_ends goal fuel e [] He (walk_edge e He) ltac:(cbn [length]; lia)) as X1.
  pose proof (search_complete goal fuel e [] r He (walk_edge e He) ltac:(cbn [length]; lia) W Nr Lr) as X2.
  destruct (least_cost m goal fuel e) as [[[[p es] c]|]|] eqn:E; [|congruence|congruence]. exists (e_src e :: p), es. split; [reflexivity|].
  destruct (search_sound goal fuel e p es c He E) as (p' & es' & -> & Np & -> & Al & Wp & Lp & Ec). split; [reflexivity|]. split; [rewrite last_cons2, (last_any _ _ goal); exact Lp|]. split; [apply (grown_acyclic hs T G), Wp|exact Al].
Qed.
End P.

(* ------------------------------------------------------------------ there is only one way *)
Lemma walk_rev T l : walk T l -> walk T (rev l).
Proof.
  induction l as [|x [|y r] IH]; intros H; [exact I|exact I|]. apply walk_cons2 in H. destruct H as ((e & He & J) & B & C). specialize (IH C). cbn [rev] in IH |- *. rewrite <- app_assoc. cbn [app].
  apply walk_snoc; [exact IH|exists e; split; [exact He|apply joins_sym, J]|]. rewrite rev_involutive. exact B.
Qed.
Lemma walk_join T u x v : walk T (u ++ [x]) -> walk T (x :: v) -> (match rev u, v with a :: _, b :: _ => a <> b | _, _ => True end) -> walk T (u ++ x :: v).
Proof.
  induction u as [|a u IH]; intros W1 W2 N; [exact W2|]. destruct u as [|b u].
  - cbn [app] in *. apply walk_cons2 in W1. destruct W1 as (A & _ & _). apply walk_cons2. split; [exact A|]. split; [|exact W2]. destruct v as [|c v]; [exact I|]. cbn in N. auto.
  - change ((a :: b :: u) ++ [x]) with (a :: b :: u ++ [x]) in W1. apply walk_cons2 in W1. destruct W1 as (A & B & C). change ((a :: b :: u) ++ x :: v) with (a :: b :: u ++ x :: v). apply walk_cons2. split; [exact A|]. split; [destruct u; exact B|].
    apply IH; [exact C|exact W2|]. cbn [rev] in N |- *. rewrite <- app_assoc in N. destruct (rev u); exact N.
Qed.
Lemma last_in' (x d : nat) l : In (last (x :: l) d) (x :: l).
Proof. revert x. induction l as [|y l IH]; intros x; [left; reflexivity|]. rewrite last_cons2. right. apply IH. Qed.
Lemma walk_unique T : acyclic T -> forall l1 l2 x, walk T (x :: l1) -> walk T (x :: l2) -> last (x :: l1) 0 = last (x :: l2) 0 -> l1 = l2.
Proof.
  intros A. induction l1 as [|a l1 IH]; intros [|b l2] x W1 W2 L; [reflexivity| | |].
  - exfalso. pose proof (A _ W2) as N. inversion N as [|? ? N1 _]; subst. apply N1. rewrite last_cons2 in L. change (last [x] 0) with x in L. rewrite L at 1. apply last_in'.
  - exfalso. pose proof (A _ W1) as N. inversion N as [|? ? N1 _]; subst. apply N1. rewrite last_cons2 in L. change (last [x] 0) with x in L. rewrite <- L at 1. apply last_in'.
  - rewrite !last_cons2 in L. destruct (Nat.eq_dec a b) as [->|N].
    + f_equal. apply (IH l2 b); [eapply walk_tl; exact W1|eapply walk_tl; exact W2|exact L].
    + exfalso. assert (W : walk T (rev (a :: l1) ++ x :: b :: l2)). { apply walk_join; [|exact W2|]. - change (walk T (rev (x :: a :: l1))). apply walk_rev, W1. - rewrite rev_involutive. exact N. }
      pose proof (A _ W) as Nd. assert (I1 : In (last (a :: l1) 0) (rev (a :: l1))) by (apply in_rev; rewrite rev_involutive; apply last_in').
      assert (I2 : In (last (a :: l1) 0) (x :: b :: l2)) by (right; rewrite L; apply last_in').
      revert Nd I1 I2. generalize (last (a :: l1) 0) (rev (a :: l1)) (x :: b :: l2). clear. intros y u v Nd I1 I2. induction u as [|z u IHu]; [destruct I1|]. cbn [app] in Nd. inversion Nd as [|? ? N1 N2]; subst. destruct I1 as [->|I1]; [apply N1, in_or_app; right; exact I2|apply IHu; assumption].
Qed.
(** a simple chain of map edges is a walk *)
Lemma along_walk T m p es : (forall h, m h = edges_at T h) -> NoDup p -> along m p es -> walk T p.
Proof.
  intros Hm. revert es. induction p as [|x [|y r] IH]; intros es N H; [exact I|exact I|]. destruct es as [|e es]; [destruct H|]. destruct H as (Sx & Dy & He & H). inversion N as [|? ? N1 N2]; subst.
  destruct (map_edge T m Hm e _ He) as (_ & g & Hg & J). apply walk_cons2. split; [exists g; auto|]. split; [destruct r as [|z r]; [exact I|]; intros ->; apply N1; right; left; reflexivity|]. apply (IH es); assumption.
Qed.

(* ================================================================== C69 *)
(** between two different isolated hits (one edge each) of a cluster with more than two hits the path search ends and returns the chain of hits from one to the other that uses edges of the cluster's tree and
    visits no hit twice, with its edges in order; it is the only such chain *)
Theorem c69_best_path nb wt sort hits fuel cs c fuel' start stop : sorts_by lighter sort -> NoDup hits -> (forall h v, In h hits -> In v (nb h) -> In v hits) -> length hits <= fuel -> run_prims nb wt sort fuel hits = Some cs -> In c cs ->
  In start (c_hits c) -> In stop (c_hits c) -> start <> stop -> length (c_map c start) = 1 -> length (c_map c stop) = 1 -> 2 < length (c_hits c) -> length (c_hits c) <= fuel' ->
  exists p es, best_path (c_map c) fuel' start stop = Ok (p, es) /\ hd 0 p = start /\ last p 0 = stop /\ NoDup p /\ incl p (c_hits c) /\ along (c_map c) p es /\
    forall p' es', hd 0 p' = start -> last p' 0 = stop -> NoDup p' -> along (c_map c) p' es' -> p' = p.
Proof.
  intros Hs Hnd Hnb Hf Er Hc H1 H2 N D1 D2 L Hf'. destruct (run_ok nb wt sort hits Hs Hnb Hnd) as (cs' & [P Gd] & R). rewrite (R fuel Hf) in Er. injection Er as ->.
  destruct (d_tree _ _ _ Gd c Hc) as [T HT]. pose proof (t_grown _ _ _ _ _ HT) as G. pose proof (t_map _ _ _ _ _ HT) as Hm.
  destruct (c_map c start) as [|e [|? ?]] eqn:E1; try discriminate. destruct (c_map c stop) as [|e' [|? ?]] eqn:E2; try discriminate.
  destruct (best_path_ok (c_hits c) T (c_map c) G Hm start stop e e' fuel' (t_conn _ _ _ _ _ HT) H1 H2 N E1 E2 L Hf') as (p & es & Eb & Hh & Hl & Np & Al). exists p, es.
  assert (W := along_walk T _ p es Hm Np Al). destruct p as [|x p]; [destruct Al|]. cbn [hd] in Hh. subst x.
  split; [exact Eb|]. split; [reflexivity|]. split; [exact Hl|]. split; [exact Np|]. split; [|split; [exact Al|]].
  - destruct p as [|y p]; [intros v [<-|[]]; exact H1|]. apply (walk_in (c_hits c) T start y p G W).
  - intros p' es' Hh' Hl' Np' Al'. destruct p' as [|x p']; [destruct Al'|]. cbn [hd] in Hh'. subst x. f_equal. apply (walk_unique T (grown_acyclic _ _ G) p' p start); [apply (along_walk T _ _ es' Hm Np' Al')|exact W|]. rewrite Hl, Hl'. reflexivity.
Qed.
Print Assumptions c69_best_path.
(** the tree of every cluster has no cycle *)
Theorem c68_acyclic nb wt sort hits fuel cs c : sorts_by lighter sort -> NoDup hits -> (forall h v, In h hits -> In v (nb h) -> In v hits) -> length hits <= fuel -> run_prims nb wt sort fuel hits = Some cs -> In c cs ->
  exists T, (forall h, c_map c h = edges_at T h) /\ acyclic T.
Proof.
  intros Hs Hnd Hnb Hf Er Hc. destruct (run_ok nb wt sort hits Hs Hnb Hnd) as (cs' & [P Gd] & R). rewrite (R fuel Hf) in Er. injection Er as ->.
  destruct (d_tree _ _ _ Gd c Hc) as [T HT]. exists T. split; [apply (t_map _ _ _ _ _ HT)|]. eapply grown_acyclic. apply (t_grown _ _ _ _ _ HT).
Qed.
Print Assumptions c68_acyclic.

(** the expectation for clusters of two hits fails (the caller excludes them): the goal, at the end of the first edge, is not recognised *)
Theorem c69_two_hits_refuted : exists cs c, run_prims (fun h => match h with 0 => [1] | 1 => [0] | _ => [] end) (fun _ _ => 1%Qc) (isort lighter) 2 [0; 1] = Some cs /\ In c cs /\ c_hits c = [0; 1] /\ length (c_map c 0) = 1 /\ length (c_map c 1) = 1 /\
  forall fuel, 0 < fuel -> best_path (c_map c) fuel 0 1 = Ok ([0], []).
Proof.
  eexists. eexists. split; [vm_compute; reflexivity|]. split; [left; reflexivity|]. split; [reflexivity|]. split; [reflexivity|]. split; [reflexivity|]. intros [|[|fuel]] Hf; [lia|reflexivity|reflexivity].
Qed.
Print Assumptions c69_two_hits_refuted.

(** example: the path 3 - 1 - 4 - 0 through the first cluster of [xs_run] *)
Example xs_path : match run_prims xs_nb xs_wt (isort lighter) 5 [3; 0; 2; 1; 4] with
  | Some (c :: _) => length (c_map c 3) = 1 /\ length (c_map c 0) = 1 /\ match best_path (c_map c) 4 3 0 with Ok (p, es) => p = [3; 1; 4; 0] /\ map (fun e => (e_src e, e_dst e)) es = [(3, 1); (1, 4); (4, 0)] | _ => False end
  | _ => False end.
Proof. vm_compute. auto. Qed.
