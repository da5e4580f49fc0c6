(** Prim's algorithm: graph lemmas and the loop invariant *)
From Coq Require Import QArith Qcanon Lqa.
From Verif Require Import Base QcUtil Solver_Model Solver_Proofs Triplet_Spec MST_Model MST_Spec.
Local Open Scope nat_scope.

(* ------------------------------------------------------------------ graphs *)
Lemma joins_sym e x y : joins e x y -> joins e y x.
Proof. intros [H|H]; [right|left]; exact H. Qed.
Lemma conn_one T e x y : In e T -> joins e x y -> connected T x y.
Proof. intros H J. eapply conn_step; [apply conn_refl|exact H|exact J]. Qed.
Lemma conn_trans T x y z : connected T x y -> connected T y z -> connected T x z.
Proof. intros H1 H2. induction H2 as [|y' z e _ IH He J]; [exact H1|]. eapply conn_step; eauto. Qed.
Lemma conn_sym T x y : connected T x y -> connected T y x.
Proof. induction 1 as [|y z e _ IH He J]; [apply conn_refl|]. eapply conn_trans; [eapply conn_one; [exact He|apply joins_sym, J]|exact IH]. Qed.
Lemma conn_replace G G' x y : (forall g, In g G -> connected G' (e_src g) (e_dst g)) -> connected G x y -> connected G' x y.
Proof.
  intros H. induction 1 as [|y z e _ IH He J]; [apply conn_refl|]. eapply conn_trans; [exact IH|]. destruct J as [[<- <-]|[<- <-]]; [|apply conn_sym]; apply H, He.
Qed.
Lemma conn_incl G G' x y : incl G G' -> connected G x y -> connected G' x y.
Proof. intros Hi. apply conn_replace. intros g Hg. apply (conn_one _ g); [apply Hi, Hg|left; auto]. Qed.
Lemma reach_trans nb x y z : reach nb x y -> reach nb y z -> reach nb x z.
Proof. intros H1 H2. induction H2 as [|y' z _ IH Hz]; [exact H1|]. eapply reach_step; eauto. Qed.
Lemma reach_sym nb x y : mutual nb -> reach nb x y -> reach nb y x.
Proof. intros Hm. induction 1 as [|y z _ IH Hz]; [apply reach_refl|]. eapply reach_trans; [eapply reach_step; [apply reach_refl|apply Hm, Hz]|exact IH]. Qed.

(** a chain into [S] enters it somewhere *)
Lemma first_entry G (S : list nat) v u : connected G v u -> ~ In v S ->
  (~ In u S /\ connected (filter (fun e => negb (existsb (Nat.eqb (e_src e)) S) && negb (existsb (Nat.eqb (e_dst e)) S)) G) v u) \/
  exists f a b, In f G /\ joins f b a /\ In a S /\ ~ In b S /\ connected (filter (fun e => negb (existsb (Nat.eqb (e_src e)) S) && negb (existsb (Nat.eqb (e_dst e)) S)) G) v b.
Proof.
  intros H Hv. assert (D : forall x, existsb (Nat.eqb x) S = true <-> In x S).
  { intros x. rewrite existsb_exists. split; [intros (y & Hy & E); apply Nat.eqb_eq in E; subst; exact Hy|]. intros Hx. exists x. split; [exact Hx|apply Nat.eqb_refl]. }
  assert (D' : forall x, negb (existsb (Nat.eqb x) S) = true <-> ~ In x S). { intros x. rewrite Bool.negb_true_iff, <- D. destruct (existsb (Nat.eqb x) S); split; congruence. }
  induction H as [|y z e _ IH He J]; [left; split; [exact Hv|apply conn_refl]|]. destruct IH as [[Hy Hc]|IH]; [|right; exact IH].
  destruct (in_dec Nat.eq_dec z S) as [Hz|Hz].
  - right. exists e, z, y. auto.
  - left. split; [exact Hz|]. eapply conn_step; [exact Hc| |exact J]. apply filter_In. split; [exact He|]. apply Bool.andb_true_iff.
    destruct J as [[<- <-]|[<- <-]]; rewrite !D'; auto.
Qed.
Lemma total_app a b : total (a ++ b) = (total a + total b)%Qc.
Proof. apply qsum_app. Qed.
Lemma edges_at_app a b h : edges_at (a ++ b) h = edges_at a h ++ edges_at b h.
Proof. apply flat_map_app. Qed.

(** the exchange step: [e] leads out of [S]; some edge of [R] that does so too can be given up for it *)
Lemma exchange (T R : list edge) (S : list nat) (e : edge) (P : nat -> Prop) (r : nat) :
  (forall g, In g T -> In (e_src g) S /\ In (e_dst g) S) -> (forall x y, In x S -> In y S -> connected T x y) -> In r S ->
  (forall v, P v -> connected (T ++ R) r v) -> In (e_src e) S -> ~ In (e_dst e) S -> P (e_dst e) ->
  exists f R1 R2 a b, R = R1 ++ f :: R2 /\ joins f b a /\ In a S /\ ~ In b S /\ forall v, P v -> connected ((T ++ [e]) ++ R1 ++ R2) r v.
Proof.
  intros HT HS Hr HP Hu Hv Hpv. destruct (first_entry _ S _ _ (conn_sym _ _ _ (HP _ Hpv)) Hv) as [[H _]|(f & a & b & Hf & J & Ha & Hb & Hc)]; [contradiction|].
  apply in_app_or in Hf. destruct Hf as [Hf|Hf].
  { exfalso. destruct (HT f Hf) as [A B]. destruct J as [[<- <-]|[<- <-]]; contradiction. }
  apply in_split in Hf. destruct Hf as (R1 & R2 & ->). exists f, R1, R2, a, b. split; [reflexivity|]. split; [exact J|]. split; [exact Ha|]. split; [exact Hb|].
  intros v Pv. apply (conn_replace (T ++ R1 ++ f :: R2)); [|apply HP, Pv]. intros g Hg.
  assert (Hab : connected ((T ++ [e]) ++ R1 ++ R2) a b).
  { apply (conn_trans _ _ (e_src e)). { apply (conn_incl T); [intros x Hx; apply in_or_app; left; apply in_or_app; left; exact Hx|apply HS; assumption]. }
    apply (conn_trans _ _ (e_dst e)). { apply (conn_one _ e); [apply in_or_app; left; apply in_or_app; right; left; reflexivity|left; auto]. }
    eapply conn_incl; [|exact Hc]. intros x Hx. apply filter_In in Hx. destruct Hx as [Hx Hn]. apply Bool.andb_true_iff in Hn. destruct Hn as [N1 N2].
    apply in_app_or in Hx. destruct Hx as [Hx|Hx]; [apply in_or_app; left; apply in_or_app; left; exact Hx|]. apply in_app_or in Hx. destruct Hx as [Hx|[<-|Hx]].
    - apply in_or_app; right; apply in_or_app; left; exact Hx.
    - exfalso. assert (X : existsb (Nat.eqb a) S = true) by (apply existsb_exists; exists a; split; [exact Ha|apply Nat.eqb_refl]).
      destruct J as [[E1 E2]|[E1 E2]]; subst a; rewrite X in *; discriminate.
    - apply in_or_app; right; apply in_or_app; right; exact Hx. }
  apply in_app_or in Hg. destruct Hg as [Hg|Hg]; [apply (conn_one _ g); [apply in_or_app; left; apply in_or_app; left; exact Hg|left; auto]|].
  apply in_app_or in Hg. destruct Hg as [Hg|[<-|Hg]].
  - apply (conn_one _ g); [apply in_or_app; right; apply in_or_app; left; exact Hg|left; auto].
  - destruct J as [[-> ->]|[-> ->]]; [apply conn_sym|]; exact Hab.
  - apply (conn_one _ g); [apply in_or_app; right; apply in_or_app; right; exact Hg|left; auto].
Qed.

(* ------------------------------------------------------------------ the loop *)
Section P.
Context (nb : nat -> list nat) (wt : nat -> nat -> Qc) (sort : list edge -> list edge) (hits : list nat).
Notation link := (neighbour_edge nb wt).

Lemma attached_in att h : attached att h = true <-> In h att.
Proof. unfold attached. rewrite existsb_exists. split; [intros (y & Hy & E); apply Nat.eqb_eq in E; subst; exact Hy|]. intros H. exists h. split; [exact H|apply Nat.eqb_refl]. Qed.
Lemma free_in att h : negb (attached att h) = true <-> ~ In h att.
Proof. rewrite Bool.negb_true_iff, <- attached_in. destruct (attached att h); split; congruence. Qed.

(** every edge leads from a hit of the tree to a new one *)
Inductive grown : list nat -> list edge -> Prop :=
| grown_one h : grown [h] []
| grown_add hs T e : grown hs T -> In (e_src e) hs -> ~ In (e_dst e) hs -> grown (hs ++ [e_dst e]) (T ++ [e]).

Definition minimal_so_far (r : nat) (T : list edge) : Prop :=
  forall T', (forall e, In e T' -> link e) -> (forall v, reach nb r v -> connected T' r v) ->
  exists R, incl R T' /\ length T + length R = length T' /\ (total T + total R <= total T')%Qc /\ forall v, reach nb r v -> connected (T ++ R) r v.

Record tree_ok (hs : list nat) (m : emap) (T : list edge) : Prop := {
  t_map : forall h, m h = edges_at T h;
  t_len : S (length T) = length hs;
  t_link : forall e, In e T -> link e /\ In (e_src e) hs /\ In (e_dst e) hs;
  t_conn : spans T hs;
  t_grown : grown hs T;
  t_reach : forall x, In x hs -> reach nb (hd 0 hs) x;
  t_min : mutual nb -> (forall x y, wt x y = wt y x) -> minimal_so_far (hd 0 hs) T }.

Record good_done (cs : list cluster) : Prop := {
  d_tree : forall c, In c cs -> exists T, tree_ok (c_hits c) (c_map c) T;
  d_closed : forall pre c post, cs = pre ++ c :: post -> forall u v, In u (c_hits c) -> In v (nb u) -> In v (all_hits (pre ++ [c])) }.

Record Inv (s : state) : Prop := {
  i_nodup : NoDup (s_last s :: s_att s);
  i_perm : Permutation (s_att s) (all_hits (s_done s) ++ c_hits (s_cl s));
  i_sub : incl (s_last s :: s_att s) hits;
  i_free : incl (s_free s) hits;
  i_all : forall h, In h hits -> In h (s_last s :: s_att s) \/ In h (s_free s);
  i_tree : exists T, tree_ok (c_hits (s_cl s) ++ [s_last s]) (c_map (s_cl s)) T;
  i_cur : forall e, In e (s_cur s) -> link e /\ In (e_src e) (c_hits (s_cl s)) /\ ~ In (e_dst e) (s_att s);
  i_cur2 : forall u v, In u (c_hits (s_cl s)) -> In v (nb u) -> ~ In v (s_att s) -> In (mkEdge u v (wt u v)) (s_cur s);
  i_done : good_done (s_done s) }.

(** edges out of the current cluster after :269-294 *)
Definition frontier (s : state) : list edge :=
  filter (fun e => negb (attached (s_last s :: s_att s) (e_dst e))) (s_cur s) ++
  map (fun v => mkEdge (s_last s) v (wt (s_last s) v)) (filter (fun v => negb (attached (s_last s :: s_att s) v)) (nb (s_last s))).
Lemma frontier_sound s e : Inv s -> In e (frontier s) -> link e /\ In (e_src e) (c_hits (s_cl s) ++ [s_last s]) /\ ~ In (e_dst e) (s_last s :: s_att s).
Proof.
  intros HI H. apply in_app_or in H. destruct H as [H|H].
  - apply filter_In in H. destruct H as [H N]. apply free_in in N. destruct (i_cur s HI e H) as (L & Sx & _). split; [exact L|]. split; [apply in_or_app; left; exact Sx|exact N].
  - apply in_map_iff in H. destruct H as (v & <- & H). apply filter_In in H. destruct H as [H N]. apply free_in in N. cbn [e_src e_dst]. split; [split; [exact H|reflexivity]|]. split; [apply in_or_app; right; left; reflexivity|exact N].
Qed.
Lemma frontier_complete s u v : Inv s -> In u (c_hits (s_cl s) ++ [s_last s]) -> In v (nb u) -> ~ In v (s_last s :: s_att s) -> In (mkEdge u v (wt u v)) (frontier s).
Proof.
  intros HI Hu Hv N. apply in_app_or in Hu. apply in_or_app. destruct Hu as [Hu|[<-|[]]].
  - left. apply filter_In. split; [apply (i_cur2 s HI); auto; intros X; apply N; right; exact X|]. apply free_in. exact N.
  - right. apply (in_map (fun v => mkEdge (s_last s) v (wt (s_last s) v))), filter_In. split; [exact Hv|]. apply free_in, N.
Qed.

Lemma singleton_tree h : tree_ok [h] (fun _ => []) [].
Proof.
  split; cbn [hd].
  - reflexivity.
  - reflexivity.
  - intros e [].
  - intros x y [<-|[]] [<-|[]]. apply conn_refl.
  - constructor.
  - intros x [<-|[]]. apply reach_refl.
  - intros _ _ T' _ H. exists T'. split; [apply incl_refl|]. split; [reflexivity|]. split; [unfold total; cbn [qsum fold_right]; rewrite Qcplus_0_l; apply Qcle_refl|]. exact H.
Qed.

(** with mutual neighbourhood nothing finished can be reached from an unfinished hit *)
Lemma done_closed cs : good_done cs -> forall u v, In u (all_hits cs) -> In v (nb u) -> In v (all_hits cs).
Proof.
  intros [_ Hc] u v Hu Hv. apply in_flat_map in Hu. destruct Hu as (c & Hin & Hu). apply in_split in Hin. destruct Hin as (pre & post & ->).
  specialize (Hc pre c post eq_refl u v Hu Hv). unfold all_hits in *. change (pre ++ c :: post) with (pre ++ [c] ++ post). rewrite app_assoc, flat_map_app. apply in_or_app. left. exact Hc.
Qed.
Lemma unreached cs r v : mutual nb -> good_done cs -> ~ In r (all_hits cs) -> reach nb r v -> ~ In v (all_hits cs).
Proof. intros Hm Hd Hr H. induction H as [|y z _ IH Hz]; [exact Hr|]. intros X. apply IH, (done_closed _ Hd z); [exact X|apply Hm, Hz]. Qed.

Lemma att_split s v : Inv s -> In v (s_last s :: s_att s) -> In v (all_hits (s_done s)) \/ In v (c_hits (s_cl s) ++ [s_last s]).
Proof. intros HI [<-|H]; [right; apply in_or_app; right; left; reflexivity|]. apply (Permutation_in _ (i_perm s HI)), in_app_or in H. destruct H as [H|H]; [left; exact H|right; apply in_or_app; left; exact H]. Qed.
Lemma hd_in_cl s : In (hd 0 (c_hits (s_cl s) ++ [s_last s])) (c_hits (s_cl s) ++ [s_last s]).
Proof. destruct (c_hits (s_cl s)); left; reflexivity. Qed.
Lemma cl_not_done s v : Inv s -> In v (c_hits (s_cl s) ++ [s_last s]) -> ~ In v (all_hits (s_done s)).
Proof.
  intros HI H X. pose proof (i_nodup s HI) as N. inversion N as [|? ? N1 N2]; subst. apply in_app_or in H. destruct H as [H|[<-|[]]].
  - apply (Permutation_NoDup (i_perm s HI)) in N2. revert X H N2. generalize (all_hits (s_done s)) (c_hits (s_cl s)). clear. intros A B HA HB. induction A as [|a A IH]; [destruct HA|]. intros N. cbn [app] in N. inversion N as [|? ? M1 M2]; subst. destruct HA as [<-|HA]; [apply M1, in_or_app; right; exact HB|apply IH; assumption].
  - apply N1. eapply Permutation_in; [apply Permutation_sym, (i_perm s HI)|]. apply in_or_app. left. exact X.
Qed.

Lemma grow_min s T e r : Inv s -> r = hd 0 (c_hits (s_cl s) ++ [s_last s]) -> tree_ok (c_hits (s_cl s) ++ [s_last s]) (c_map (s_cl s)) T -> In e (frontier s) -> (forall f, In f (frontier s) -> e_w e <= e_w f)%Qc ->
  mutual nb -> (forall x y, wt x y = wt y x) -> minimal_so_far r (T ++ [e]).
Proof.
  intros HI Er HT He Hmin Hm Hw T' HL HC. destruct (t_min _ _ _ HT Hm Hw T' HL) as (R & RI & RL & RT & RC). { rewrite <- Er. exact HC. }
  rewrite <- Er in RC. destruct (frontier_sound s e HI He) as (Le & Se & De). set (hs := c_hits (s_cl s) ++ [s_last s]) in *.
  assert (Dn : ~ In (e_dst e) hs). { intros X. apply De. apply in_app_or in X. destruct X as [X|[X|[]]]; [right|left; exact X]. eapply Permutation_in; [apply Permutation_sym, (i_perm s HI)|]. apply in_or_app. right. exact X. }
  assert (Rin : In r hs) by (rewrite Er; apply hd_in_cl).
  assert (Re : reach nb r (e_dst e)). { eapply reach_step; [rewrite Er; apply (t_reach _ _ _ HT), Se|apply Le]. }
  destruct (exchange T R hs e (reach nb r) r) as (f & R1 & R2 & a & b & -> & J & Ha & Hb & HC'); auto. { intros g Hg. apply (t_link _ _ _ HT g Hg). } { apply (t_conn _ _ _ HT). }
  assert (Lf : link f). { apply HL, RI. apply in_or_app. right. left. reflexivity. }
  assert (Wf : In b (nb a) /\ e_w f = wt a b). { destruct Lf as [L1 L2]. destruct J as [[E1 E2]|[E1 E2]]; rewrite E1, E2 in *; [split; [apply Hm, L1|rewrite L2; apply Hw]|split; assumption]. }
  assert (Bn : ~ In b (s_last s :: s_att s)).
  { intros X. apply (att_split s b HI) in X. destruct X as [X|X]; [|exact (Hb X)]. revert X. apply (unreached _ r b Hm (i_done s HI)); [apply (cl_not_done s r HI), Rin|].
    eapply reach_step; [rewrite Er; apply (t_reach _ _ _ HT), Ha|apply Wf]. }
  assert (Hef : (e_w e <= e_w f)%Qc). { destruct Wf as [W1 ->]. apply (Hmin (mkEdge a b (wt a b))). apply (frontier_complete s a b HI Ha W1 Bn). }
  exists (R1 ++ R2). split; [|split; [|split]].
  - intros x Hx. apply RI. apply in_app_or in Hx. apply in_or_app. destruct Hx as [Hx|Hx]; [left|right; right]; exact Hx.
  - rewrite <- RL, !app_length. cbn [length]. lia.
  - rewrite !total_app in *. unfold total in RT |- *. cbn [qsum fold_right] in RT |- *. fold (qsum e_w R2) in RT. change (fold_right (fun x s0 => e_w x + s0)%Qc 0%Qc R2) with (qsum e_w R2) in *.
    clear -RT Hef. qc2q; lra.
  - exact HC'.
Qed.

Lemma grow_tree s T e : Inv s -> tree_ok (c_hits (s_cl s) ++ [s_last s]) (c_map (s_cl s)) T -> In e (frontier s) -> (forall f, In f (frontier s) -> e_w e <= e_w f)%Qc ->
  tree_ok ((c_hits (s_cl s) ++ [s_last s]) ++ [e_dst e]) (mpush (mpush (c_map (s_cl s)) (e_src e) e) (e_dst e) (flip e)) (T ++ [e]).
Proof.
  intros HI HT He Hmin. destruct (frontier_sound s e HI He) as (Le & Se & De). set (hs := c_hits (s_cl s) ++ [s_last s]) in *.
  assert (Eh : hd 0 (hs ++ [e_dst e]) = hd 0 hs) by (unfold hs; destruct (c_hits (s_cl s)); reflexivity).
  split.
  - intros h. rewrite edges_at_app, <- (t_map _ _ _ HT). unfold mpush, edges_at. cbn [flat_map]. rewrite app_nil_r. destruct (h =? e_src e), (h =? e_dst e); rewrite ?app_nil_r, <- ?app_assoc; reflexivity.
  - rewrite !app_length. cbn [length]. rewrite <- (t_len _ _ _ HT). lia.
  - intros g Hg. apply in_app_or in Hg. destruct Hg as [Hg|[<-|[]]].
    + destruct (t_link _ _ _ HT g Hg) as (A & B & C). split; [exact A|]. split; apply in_or_app; left; assumption.
    + split; [exact Le|]. split; apply in_or_app; [left; exact Se|right; left; reflexivity].
  - assert (K : forall x, In x (hs ++ [e_dst e]) -> connected (T ++ [e]) (e_src e) x).
    { intros x Hx. apply in_app_or in Hx. destruct Hx as [Hx|[<-|[]]]; [|apply (conn_one _ e); [apply in_or_app; right; left; reflexivity|left; auto]].
      apply (conn_incl T); [intros z Hz; apply in_or_app; left; exact Hz|]. apply (t_conn _ _ _ HT); assumption. }
    intros x y Hx Hy. apply (conn_trans _ _ (e_src e)); [apply conn_sym|]; apply K; assumption.
  - constructor; [apply (t_grown _ _ _ HT)|exact Se|]. intros X. apply De. apply in_app_or in X. destruct X as [X|[X|[]]]; [right|left; exact X]. eapply Permutation_in; [apply Permutation_sym, (i_perm s HI)|]. apply in_or_app. right. exact X.
  - intros x Hx. rewrite Eh. apply in_app_or in Hx. destruct Hx as [Hx|[<-|[]]]; [apply (t_reach _ _ _ HT), Hx|]. eapply reach_step; [apply (t_reach _ _ _ HT), Se|apply Le].
  - intros Hm Hw. rewrite Eh. eapply grow_min; eauto.
Qed.
End P.
