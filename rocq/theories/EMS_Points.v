(** MakeSpacePoints. *)
From Coq Require Import QArith Qcanon.
From Verif Require Import Base CMgr_Proofs CCB_Hist EMS_Model EMS_Map EMS_Spec EMS_Orient.
Local Open Scope nat_scope.

Section P.
Variables (np : nat) (near3 : hit -> hit -> hit -> bool) (near2 : hit -> hit -> bool).
Variable m : hmap.
Hypothesis F : full m.
Hypothesis R : in_range' np m.
Hypothesis U : NoDup (map hk (all_hits m)).

Definition st : Type := (list nat * list (list hit))%type.
Definition keyed (s : st) : Prop := fst s = flat_map (map hk) (snd s).
Lemma used_spec (s : st) h : keyed s -> used (fst s) h = true <-> in_point (snd s) h.
Proof.
  intros K. unfold used. rewrite K, existsb_exists. split.
  - intros (k & Hk & E). apply Nat.eqb_eq in E. apply in_flat_map in Hk. destruct Hk as (pt & Hp & Hk). apply in_map_iff in Hk. destruct Hk as (x & Ex & Hx). exists pt, x. repeat split; auto. congruence.
  - intros (pt & x & Hp & Hx & E). exists (hk h). split; [|apply Nat.eqb_refl]. apply in_flat_map. exists pt. split; [exact Hp|]. rewrite <- E. apply in_map, Hx.
Qed.
Lemma used_false (s : st) h : keyed s -> used (fst s) h = false <-> ~ in_point (snd s) h.
Proof. intros K. pose proof (used_spec s h K). destruct (used (fst s) h); split; intros X; try discriminate; try reflexivity; [exfalso; apply X, H; reflexivity|intros Y; apply H in Y; discriminate]. Qed.

Lemma on_key p q a b : on m p a -> on m q b -> hk a = hk b -> p = q /\ a = b.
Proof.
  clear R. unfold all_hits in U. destruct F as [O _]. clear F. intros (v & Hv & Ha) (w & Hw & Hb) E.
  assert (X : forall (l : hmap) p v a, In (p, v) l -> In a v -> In (hk a) (map hk (flat_map snd l))) by (intros l p' v' a' H1 H2; apply in_map, in_flat_map; exists (p', v'); auto).
  assert (Y : forall (l : list hit) a b, NoDup (map hk l) -> In a l -> In b l -> hk a = hk b -> a = b).
  { clear. induction l as [|x l IH]; intros a b N Ha Hb E; [destruct Ha|]. cbn [map] in N. inversion N as [|? ? N1 N2]; subst. destruct Ha as [<-|Ha], Hb as [<-|Hb]; [reflexivity| | |apply IH; assumption]; exfalso; apply N1; [rewrite E|rewrite <- E]; apply in_map; assumption. }
  induction m as [|[r u] l IH]; [destruct Hv|]. cbn [flat_map snd] in U. rewrite map_app in U. cbn [map fst] in O. inversion O as [|? ? O1 O2]; subst.
  assert (D : forall x y, In x u -> In y (flat_map snd l) -> hk x <> hk y).
  { intros x y Hx Hy Q. apply (in_map hk) in Hx, Hy. rewrite Q in Hx. clear -U Hx Hy. revert U Hx. induction (map hk u) as [|k ks IHk]; intros U Hx; [destruct Hx|]. cbn in U. inversion U as [|? ? N1 N2]; subst. destruct Hx as [->|Hx]; [apply N1, in_app_iff; auto|apply IHk; assumption]. }
  assert (U2 : NoDup (map hk (flat_map snd l))) by (clear -U; induction (map hk u) as [|k ks IHk]; [exact U|inversion U; auto]).
  assert (U1 : NoDup (map hk u)) by (clear -U; induction (map hk u) as [|k ks IHk]; [constructor|inversion U as [|? ? N1 N2]; subst; constructor; [intros Z; apply N1, in_app_iff; auto|auto] ]).
  destruct Hv as [Ev|Hv], Hw as [Ew|Hw].
  - injection Ev as -> ->. injection Ew as -> ->. split; [reflexivity|]. apply (Y w); assumption.
  - injection Ev as -> ->. exfalso. apply (D a b Ha); [apply in_flat_map; exists (q, w); auto|exact E].
  - injection Ew as -> ->. exfalso. apply (D b a Hb); [apply in_flat_map; exists (p, v); auto|auto].
  - apply IH; assumption.
Qed.

(** the other planes *)
Lemma others_sorted p : exists ks, other_planes np m p = map (fun k => mvec k m) ks /\ StronglySorted Z.lt ks /\ forall k, In k ks <-> In k (map fst m) /\ k <> p.
Proof.
  unfold other_planes. exists (filter (fun q => negb (q =? p)%Z && match mfind q m with Some _ => true | None => false end) (map Z.of_nat (seq 0 np))).
  split; [|split].
  - induction (map Z.of_nat (seq 0 np)) as [|q l IH]; [reflexivity|]. cbn [flat_map filter]. rewrite IH. destruct (q =? p)%Z; cbn [negb andb app]; [reflexivity|].
    destruct (mfind q m) as [w|] eqn:E; cbn [app map]; [|reflexivity]. f_equal. unfold mvec. rewrite E. reflexivity.
  - assert (S : StronglySorted Z.lt (map Z.of_nat (seq 0 np))).
    { clear R. generalize 0. induction np as [|n IH]; intros i; cbn [seq map]; constructor; [apply IH|]. apply Forall_forall. intros x Hx. apply in_map_iff in Hx. destruct Hx as (j & <- & Hj). apply in_seq in Hj. lia. }
    clear -S. induction S as [|x l S IH Fx]; [constructor|]. cbn [filter]. destruct (_ && _); [constructor; [exact IH|]|exact IH]. rewrite Forall_forall in *. intros y Hy. apply filter_In in Hy. apply Fx, Hy.
  - intros k. rewrite filter_In, andb_true_iff, negb_true_iff, Z.eqb_neq. split.
    + intros (_ & D & E). split; [|exact D]. apply mfind_keys. destruct (mfind k m); [eauto|discriminate].
    + intros (Hk & D). split; [|split; [exact D|] ].
      * apply R in Hk. apply in_map_iff. exists (Z.to_nat k). split; [lia|]. apply in_seq. lia.
      * apply mfind_keys in Hk. destruct Hk as (w & E). rewrite E. reflexivity.
Qed.
Lemma mvec_in k w : In k (map fst m) -> In w (mvec k m) <-> on m k w.
Proof.
  intros Hk. apply mfind_keys in Hk. destruct Hk as (v & E). unfold mvec. rewrite E. destruct F as [O _]. apply (mfind_in _ _ _ O) in E. split; [intros Hw; exists v; auto|].
  intros (v' & Hv & Hw). apply (mfind_in _ _ _ O) in E. apply (mfind_in _ _ _ O) in Hv. rewrite E in Hv. injection Hv as ->. exact Hw.
Qed.
Lemma others_cases p : In p (map fst m) ->
  (other_planes np m p = [] /\ forall x, In x (map fst m) -> x = p) \/
  (exists q, lowest_but m [p] q /\ other_planes np m p = [mvec q m] /\ forall x, In x (map fst m) -> x = p \/ x = q) \/
  (exists q r os, lowest_but m [p] q /\ lowest_but m [p; q] r /\ other_planes np m p = mvec q m :: mvec r m :: os).
Proof.
  intros Hp. destruct (others_sorted p) as (ks & E & S & K). rewrite E. destruct ks as [|q [|r ks] ].
  - left. split; [reflexivity|]. intros x Hx. destruct (Z.eq_dec x p) as [|D]; [assumption|]. destruct (proj2 (K x) (conj Hx D)).
  - right; left. exists q. assert (Q : forall x, In x (map fst m) -> x <> p -> x = q) by (intros x Hx D; destruct (proj2 (K x) (conj Hx D)) as [->|[] ]; reflexivity).
    destruct (proj1 (K q) (or_introl eq_refl)) as [Hq Dq]. split; [|split; [reflexivity|] ].
    + split; [exact Hq|]. split; [intros [->|[] ]; contradiction|]. intros x Hx D. rewrite (Q x Hx); [lia|]. intros ->. apply D. left; reflexivity.
    + intros x Hx. destruct (Z.eq_dec x p); auto.
  - right; right. exists q, r, (map (fun k => mvec k m) ks). inversion S as [|? ? S1 F1]; subst. inversion S1 as [|? ? S2 F2]; subst. rewrite Forall_forall in F1, F2.
    destruct (proj1 (K q) (or_introl eq_refl)) as [Hq Dq]. destruct (proj1 (K r) (or_intror (or_introl eq_refl))) as [Hr Dr]. pose proof (F1 r (or_introl eq_refl)) as Lqr. split; [|split; [|reflexivity] ].
    + split; [exact Hq|]. split; [intros [->|[] ]; contradiction|]. intros x Hx D. assert (Dx : x <> p) by (intros ->; apply D; left; reflexivity). destruct (proj2 (K x) (conj Hx Dx)) as [->|Hi]; [lia|]. specialize (F1 x Hi). lia.
    + split; [exact Hr|]. split; [intros [->|[->|[] ] ]; [contradiction|lia]|]. intros x Hx D. assert (Dx : x <> p) by (intros ->; apply D; left; reflexivity).
      destruct (proj2 (K x) (conj Hx Dx)) as [->|[->|Hi] ]; [destruct D; right; left; reflexivity|lia|]. specialize (F2 x Hi). lia.
Qed.

(** invariant of the points made so far *)
Definition fresh (ps : list (list hit)) : Prop :=
  forall i j pt pt' x y, i < j -> nth_error ps i = Some pt -> nth_error ps j = Some pt' -> In x pt -> In y (firstn 2 pt') -> hk x <> hk y.
Definition sound (s : st) : Prop := keyed s /\ fresh (snd s) /\ (forall pt, In pt (snd s) -> point_of near3 near2 m pt).
Definition grows (s s' : st) : Prop := forall h, in_point (snd s) h -> in_point (snd s') h.
Lemma grows_refl s : grows s s. Proof. intros h H; exact H. Qed.
Lemma grows_trans s s' s'' : grows s s' -> grows s' s'' -> grows s s''. Proof. intros A B h H. apply B, A, H. Qed.

Lemma snoc_sound s pt a b : sound s -> (exists c, pt = a :: b :: c) -> ~ in_point (snd s) a -> ~ in_point (snd s) b -> point_of near3 near2 m pt ->
  sound (fst s ++ map hk pt, snd s ++ [pt]).
Proof.
  intros (K & Fr & P) (c & Ept) Na Nb Pp. split; [|split].
  - unfold keyed in *. cbn [fst snd]. rewrite K, flat_map_app. cbn [flat_map]. rewrite app_nil_r. reflexivity.
  - cbn [snd]. intros i j p1 p2 x y L E1 E2 Hx Hy Q.
    assert (Lj : j < length (snd s ++ [pt])) by (apply nth_error_Some; congruence). rewrite app_length in Lj. cbn in Lj. rewrite nth_error_app1 in E1 by lia.
    destruct (Nat.eq_dec j (length (snd s))) as [->|D].
    + rewrite nth_error_app2, Nat.sub_diag in E2 by lia. injection E2 as <-. rewrite Ept in Hy. cbn [firstn] in Hy. apply nth_error_In in E1. destruct Hy as [<-|[<-|[] ] ]; [apply Na|apply Nb]; exists p1, x; auto.
    + rewrite nth_error_app1 in E2 by lia. exact (Fr i j p1 p2 x y L E1 E2 Hx Hy Q).
  - cbn [snd]. intros q Hq. apply in_app_iff in Hq. destruct Hq as [Hq|[<-|[] ] ]; [apply P, Hq|exact Pp].
Qed.

(** one pair: [third] is what is said of the third plane *)
Definition confirms (p q : Z) (third : option (list hit)) : Prop :=
  match third with
  | Some cs => exists r, lowest_but m [p; q] r /\ cs = mvec r m
  | None => forall x, In x (map fst m) -> x = p \/ x = q
  end.
Definition okpair (p q : Z) (a b : hit) : Prop :=
  htp a = htp b /\ ((near2 a b = true /\ forall x, In x (map fst m) -> x = p \/ x = q) \/ (exists r c, on m r c /\ lowest_but m [p; q] r /\ htp c = htp a /\ near3 a b c = true)).

Lemma lowest_fun ex q r : lowest_but m ex q -> lowest_but m ex r -> q = r.
Proof. intros (A & B & C) (A' & B' & C'). specialize (C r A' B'). specialize (C' q A B). lia. Qed.
Lemma pair_ok p q third s a b : on m p a -> on m q b -> lowest_but m [p] q -> confirms p q third -> sound s ->
  let s' := pair_step near3 near2 third a s b in sound s' /\ grows s s' /\ (okpair p q a b -> in_point (snd s') a \/ in_point (snd s') b).
Proof.
  intros Ha Hb Lq Cf S. cbv zeta. unfold pair_step. pose proof S as (K & _ & _).
  destruct (used (fst s) a) eqn:Ua. { split; [exact S|]. split; [apply grows_refl|]. intros _. left. apply used_spec; assumption. }
  pose proof (proj1 (used_false s a K) Ua) as Na. destruct (negb (htp b =? htp a) || used (fst s) b) eqn:Ub.
  { split; [exact S|]. split; [apply grows_refl|]. intros [T _]. right. apply orb_true_iff in Ub. destruct Ub as [Ub|Ub]; [rewrite negb_true_iff, Nat.eqb_neq in Ub; congruence|]. apply used_spec; assumption. }
  apply orb_false_iff in Ub. destruct Ub as [Tb Ub]. rewrite negb_false_iff, Nat.eqb_eq in Tb. pose proof (proj1 (used_false s b K) Ub) as Nb.
  assert (Gr : forall pt, grows s (fst s ++ map hk pt, snd s ++ [pt])) by (intros pt h (q1 & x & Hq & Hx); exists q1, x; cbn [snd]; rewrite in_app_iff; tauto).
  destruct third as [cs|]; cbn in Cf.
  - destruct Cf as (r & Lr & ->). destruct (find (fun c => (htp c =? htp a) && near3 a b c) (mvec r m)) as [c|] eqn:Fc.
    + apply find_some in Fc. destruct Fc as [Hc Fc]. apply andb_true_iff in Fc. destruct Fc as [Tc Nc]. apply Nat.eqb_eq in Tc. apply (mvec_in r c (proj1 Lr)) in Hc.
      split; [|split; [apply (Gr [a; b; c])|] ].
      * apply (snoc_sound s [a; b; c] a b S); [eauto|exact Na|exact Nb|]. exists p, q, a, b. split; [exact Ha|]. split; [exact Hb|]. split; [exact Lq|]. split; [auto|]. right. exists r, c. auto.
      * intros _. left. exists [a; b; c], a. cbn [snd]. rewrite in_app_iff. cbn. auto.
    + split; [exact S|]. split; [apply grows_refl|]. intros [_ [ [_ Two]|(r' & c & Hc & Lr' & Tc & Nc)] ].
      * destruct Lr as (Hr & Nr & _). exfalso. apply Nr. destruct (Two r Hr) as [-> | ->]; cbn; auto.
      * rewrite (lowest_fun _ _ _ Lr' Lr) in Hc. apply (mvec_in r c (proj1 Lr)) in Hc. pose proof (find_none _ _ Fc c Hc) as Z. cbn beta in Z. rewrite Tc, Nat.eqb_refl, Nc in Z. discriminate.
  - destruct (near2 a b) eqn:N2.
    + split; [|split; [apply (Gr [a; b])|] ].
      * apply (snoc_sound s [a; b] a b S); [eauto|exact Na|exact Nb|]. exists p, q, a, b. split; [exact Ha|]. split; [exact Hb|]. split; [exact Lq|]. split; [auto|]. left. auto.
      * intros _. left. exists [a; b], a. cbn [snd]. rewrite in_app_iff. cbn. auto.
    + split; [exact S|]. split; [apply grows_refl|]. intros [_ [ [X _]|(r & c & _ & (Hr & Nr & _) & _)] ]; [congruence|]. exfalso. apply Nr. destruct (Cf r Hr) as [-> | ->]; cbn; auto.
Qed.
Lemma fold_ok {A} (l : list A) (g : st -> A -> st) (Q : A -> Prop) (W : A -> st -> Prop) :
  (forall s x, In x l -> sound s -> sound (g s x) /\ grows s (g s x) /\ (Q x -> W x (g s x))) -> (forall x s s', grows s s' -> W x s -> W x s') ->
  forall s, sound s -> let s' := fold_left g l s in sound s' /\ grows s s' /\ forall x, In x l -> Q x -> W x s'.
Proof.
  intros H M. induction l as [|y l IH]; intros s S; cbv zeta; cbn [fold_left]; [split; [exact S|]; split; [apply grows_refl|intros x []]|].
  destruct (H s y (or_introl eq_refl) S) as (S1 & G1 & W1). destruct (IH (fun s x Hx => H s x (or_intror Hx)) (g s y) S1) as (S2 & G2 & W2). cbv zeta in S2, G2, W2.
  split; [exact S2|]. split; [apply (grows_trans _ _ _ G1 G2)|]. intros x [<-|Hx] Qx; [apply (M y _ _ G2), W1, Qx|apply W2; assumption].
Qed.
Definition done (a b : hit) (s : st) : Prop := in_point (snd s) a \/ in_point (snd s) b.
Lemma done_mono a b s s' : grows s s' -> done a b s -> done a b s'. Proof. intros G [X|X]; [left|right]; apply G, X. Qed.
Lemma plane_ok p q third os v s : In (p, v) m -> lowest_but m [p] q -> confirms p q third -> hd_error os = third -> sound s ->
  let s' := plane_points near3 near2 (mvec q m :: os) v s in sound s' /\ grows s s' /\ forall a, In a v -> forall b, on m q b -> okpair p q a b -> done a b s'.
Proof.
  intros Hv Lq Cf Eo S. cbv zeta. unfold plane_points. rewrite Eo.
  apply (fold_ok v (fun s a => if used (fst s) a then s else fold_left (pair_step near3 near2 third a) (mvec q m) s) (fun _ => True) (fun a s' => forall b, on m q b -> okpair p q a b -> done a b s')) in S.
  - cbv zeta in S. destruct S as (A & B & C). split; [exact A|]. split; [exact B|]. intros a Ha b Hb Hp. apply (C a Ha Logic.I b Hb Hp).
  - intros s0 a Ha S0. destruct (used (fst s0) a) eqn:Ua.
    + split; [exact S0|]. split; [apply grows_refl|]. intros _ b _ _. left. apply used_spec; [apply S0|exact Ua].
    + assert (Oa : on m p a) by (exists v; auto).
      pose proof (fold_ok (mvec q m) (pair_step near3 near2 third a) (fun b => okpair p q a b) (fun b s' => done a b s')) as X.
      destruct (X (fun s1 b Hb S1 => pair_ok p q third s1 a b Oa (proj1 (mvec_in q b (proj1 Lq)) Hb) Lq Cf S1) (fun b s1 s2 G => done_mono a b s1 s2 G) s0 S0) as (A & B & C).
      split; [exact A|]. split; [exact B|]. intros _ b Hb. apply C. apply (mvec_in q b (proj1 Lq)), Hb.
  - intros a s1 s2 G W b Hb Hp. apply (done_mono a b s1 s2 G), W; assumption.
Qed.
Lemma loop_ok l : (forall e, In e l -> In e m) -> forall s, sound s ->
  let s' := space_loop np near3 near2 m l s in sound s' /\ grows s s' /\ forall p v a q b, In (p, v) l -> In a v -> on m q b -> lowest_but m [p] q -> okpair p q a b -> done a b s'.
Proof.
  induction l as [|[p v] l IH]; intros Hl s S; cbv zeta; cbn [space_loop]; [split; [exact S|]; split; [apply grows_refl|intros ? ? ? ? ? []]|].
  assert (Hv : In (p, v) m) by (apply Hl; left; reflexivity). assert (Hp : In p (map fst m)) by (apply (in_map fst) in Hv; exact Hv). cbn [fst snd].
  destruct (others_cases p Hp) as [ [E On]|[ (q & Lq & E & Two)|(q & r & os & Lq & Lr & E)] ]; rewrite E.
  - split; [exact S|]. split; [apply grows_refl|]. intros p' v' a q b Hi Ha Hb (Hq & Nq & _) _. exfalso. apply Nq. left. rewrite (On q Hq). apply On. apply Hl in Hi. apply (in_map fst) in Hi. exact Hi.
  - destruct (plane_ok p q None [] v s Hv Lq Two eq_refl S) as (A & B & C). destruct (IH (fun e He => Hl e (or_intror He)) _ A) as (A' & B' & C'). cbv zeta in A', B', C'.
    split; [exact A'|]. split; [apply (grows_trans _ _ _ B B')|]. intros p' v' a q' b [Ei|Hi] Ha Hb Lq' Ok; [|apply (C' p' v' a q' b); assumption].
    injection Ei as <- <-. rewrite (lowest_fun _ _ _ Lq' Lq) in *. apply (done_mono a b _ _ B'), C; assumption.
  - destruct (plane_ok p q (Some (mvec r m)) (mvec r m :: os) v s Hv Lq (ex_intro _ r (conj Lr eq_refl)) eq_refl S) as (A & B & C). destruct (IH (fun e He => Hl e (or_intror He)) _ A) as (A' & B' & C'). cbv zeta in A', B', C'.
    split; [exact A'|]. split; [apply (grows_trans _ _ _ B B')|]. intros p' v' a q' b [Ei|Hi] Ha Hb Lq' Ok; [|apply (C' p' v' a q' b); assumption].
    injection Ei as <- <-. rewrite (lowest_fun _ _ _ Lq' Lq) in *. apply (done_mono a b _ _ B'), C; assumption.
Qed.
Lemma points_main : let ps := space_points np near3 near2 m in
  (forall pt, In pt ps -> point_of near3 near2 m pt /\ NoDup (map hk pt)) /\ fresh ps /\ (forall a b, could near3 near2 m a b -> in_point ps a \/ in_point ps b).
Proof.
  cbv zeta. unfold space_points. assert (S0 : sound ([], [])) by (split; [reflexivity|]; split; [intros i j pt pt' x y L E; destruct i; discriminate|intros pt []]).
  destruct (loop_ok m (fun e H => H) ([], []) S0) as ((K & Fr & P) & _ & D). split; [|split; [exact Fr|] ].
  - intros pt Hp. pose proof (P pt Hp) as Q. split; [exact Q|]. destruct Q as (p & q & a & b & Ha & Hb & (_ & Nq & _) & _ & [ [-> _]|(r & c & -> & Hc & (_ & Nr & _) & _)]).
    + assert (hk a <> hk b) by (intros E; destruct (on_key p q a b Ha Hb E) as [-> _]; apply Nq; left; reflexivity). cbn. repeat constructor; cbn; intuition.
    + assert (hk a <> hk b) by (intros E; destruct (on_key p q a b Ha Hb E) as [-> _]; apply Nq; left; reflexivity).
      assert (hk a <> hk c) by (intros E; destruct (on_key p r a c Ha Hc E) as [-> _]; apply Nr; left; reflexivity).
      assert (hk b <> hk c) by (intros E; destruct (on_key q r b c Hb Hc E) as [-> _]; apply Nr; right; left; reflexivity). cbn. repeat constructor; cbn; intuition.
  - intros a b (p & q & (v & Hv & Ha) & Hb & Lq & T & X). apply (D p v a q b Hv Ha Hb Lq). split; assumption.
Qed.
(** with two planes no hit is used twice *)
Lemma points_two : length m = 2 -> NoDup (map hk (concat (space_points np near3 near2 m))).
Proof.
  intros L. destruct points_main as (P & Fr & _). set (ps := space_points np near3 near2 m) in *.
  assert (T : forall pt, In pt ps -> firstn 2 pt = pt).
  { intros pt Hp. destruct (P pt Hp) as [(p & q & a & b & Ha & Hb & (Hq & Nq & _) & _ & [ [-> _]|(r & c & -> & Hc & (Hr & Nr & _) & _)]) _]; [reflexivity|]. exfalso.
    assert (Hp' : In p (map fst m)) by (destruct Ha as (v & Hv & _); apply (in_map fst) in Hv; exact Hv).
    assert (N : NoDup [p; q; r]) by (repeat constructor; cbn in *; intuition). apply NoDup_incl_length with (l' := map fst m) in N; [rewrite map_length in N; cbn in N; lia|]. intros x [<-|[<-|[<-|[] ] ] ]; assumption. }
  assert (N : forall pt, In pt ps -> NoDup (map hk pt)) by (intros pt Hp; apply P, Hp). clear P. clearbody ps. revert Fr T N. clear. induction ps as [|pt ps IH]; intros Fr T N; cbn [concat]; [constructor|]. rewrite map_app.
  assert (D : forall k, In k (map hk pt) -> ~ In k (map hk (concat ps))).
  { intros k Hk Hc. apply in_map_iff in Hk, Hc. destruct Hk as (x & <- & Hx), Hc as (y & Ey & Hy). apply in_concat in Hy. destruct Hy as (pt' & Hp' & Hy). pose proof (T pt' (or_intror Hp')) as Ft. apply In_nth_error in Hp'. destruct Hp' as (j & Hj).
    apply (Fr 0 (S j) pt pt' x y); [lia|reflexivity|exact Hj|exact Hx|rewrite Ft; exact Hy|auto]. }
  assert (I : NoDup (map hk (concat ps))).
  { apply IH; [|intros; apply T; right; assumption|intros; apply N; right; assumption]. intros i j p1 p2 x y L E1 E2. apply (Fr (S i) (S j)); [lia|exact E1|exact E2]. }
  specialize (N pt (or_introl eq_refl)). clear -D I N. induction (map hk pt) as [|k ks IH]; [exact I|]. cbn [app]. inversion N as [|? ? N1 N2]; subst. constructor; [|apply IH; [exact N2|intros; apply D; right; assumption] ].
  rewrite in_app_iff. intros [X|X]; [contradiction|exact (D k (or_introl eq_refl) X)].
Qed.
End P.
