(** MergeWithVertex and the end of the search for 2D vertices. *)
From Verif Require Import Base TV_Model TV_Spec TV_Kill TV_High TV_Ops TV_Kill2 TV_Ops2.
From Coq Require Import QArith Qcanon.
Import TV_Model.
Local Open Scope nat_scope.

Section S.
Variable npl : nat.
Variable cut : Qc.

(** what merging may do to a trajectory: its ends stay, become free, or go to vertex [o] *)
Definition mrel (ctp o : nat) (t t' : tj) : Prop :=
  tid t' = tid t /\ tctp t' = tctp t /\ dead t' = dead t /\ halo t' = halo t /\ thi t' = thi t /\ pho t' = pho t /\
  ((e0 t' = e0 t /\ e1 t' = e1 t) \/ (dead t = false /\ halo t = false /\ tctp t = ctp)) /\
  (e0 t' = e0 t \/ e0 t' = 0 \/ e0 t' = o) /\ (e1 t' = e1 t \/ e1 t' = 0 \/ e1 t' = o).

Lemma mrel_refl c o t : mrel c o t t. Proof. unfold mrel. auto 20. Qed.
Lemma mrel_trans c o a b d : mrel c o a b -> mrel c o b d -> mrel c o a d.
Proof.
  unfold mrel. intros (A1 & A2 & A3 & A4 & A5 & A6 & A7 & A8 & A9) (B1 & B2 & B3 & B4 & B5 & B6 & B7 & B8 & B9).
  do 6 (split; [congruence|]). split; [|split].
  - destruct A7 as [(A7 & A7')|A7]; [|right; auto]. destruct B7 as [(B7 & B7')|B7]; [left; split; congruence|right].
    rewrite A3, A4, A2 in B7. exact B7.
  - destruct B8 as [B8|B8]; [rewrite B8; exact A8|auto].
  - destruct B9 as [B9|B9]; [rewrite B9; exact A9|auto].
Qed.

Definition mrels c o (l l' : list tj) : Prop := length l' = length l /\
  forall i t, nth_error l i = Some t -> exists t', nth_error l' i = Some t' /\ mrel c o t t'.
Lemma mrels_refl c o l : mrels c o l l.
Proof. split; [auto|]. intros i t Ht. exists t. split; [auto|apply mrel_refl]. Qed.
Lemma mrels_trans c o a b d : mrels c o a b -> mrels c o b d -> mrels c o a d.
Proof.
  intros (L1 & A) (L2 & B). split; [congruence|]. intros i t Ht. destruct (A i t Ht) as (t1 & E1 & R1). destruct (B i t1 E1) as (t2 & E2 & R2).
  exists t2. split; [auto|eapply mrel_trans; eauto].
Qed.
Lemma mrels_upd c o l i t t' : nth_error l i = Some t -> mrel c o t t' -> mrels c o l (upd l i t').
Proof.
  intros Hi R. split; [apply upd_length|]. intros j u Hu. rewrite nth_error_upd. destruct (j =? i) eqn:E.
  - apply Nat.eqb_eq in E. subst j. assert (G : i < length l) by (apply nth_error_Some; congruence). apply Nat.ltb_lt in G. rewrite G. cbn [andb].
    exists t'. split; [auto|congruence].
  - exists u. split; [auto|apply mrel_refl].
Qed.
Lemma mrels_inv c o l l' i t' : mrels c o l l' -> nth_error l' i = Some t' -> exists t, nth_error l i = Some t /\ mrel c o t t'.
Proof.
  intros (L & A) H. destruct (nth_error l i) as [t|] eqn:E.
  - destruct (A i t E) as (u & U1 & U2). assert (u = t') by congruence. subst. eauto.
  - apply nth_error_None in E. assert (i < length l') by (apply nth_error_Some; congruence). lia.
Qed.

(** such a change keeps consistency, whatever is under construction *)
Lemma mrels_but s l id c o vo : id <> 0 -> sound_but npl id s -> is_2V s o vo -> vctp vo = c ->
  mrels c o (tjs s) l -> sound_but npl id (set_tjs s l).
Proof.
  intros Hid H Ho Hc M. destruct (but_self npl s id Hid H) as (A & B & C). apply (proj2 (but_iff npl s id l Hid H)). split; [|split].
  - intros i t' Ht. destruct (mrels_inv _ _ _ _ _ _ M Ht) as (t & E & R). destruct R as (R1 & _). rewrite R1. apply (A i t E).
  - intros t' Ht Hh. apply In_nth_error in Ht. destruct Ht as (i & Ht). destruct (mrels_inv _ _ _ _ _ _ M Ht) as (t & E & R).
    destruct R as (R1 & R2 & R3 & R4 & R5 & R6 & R7 & R8 & R9). destruct R7 as [(Q1 & Q2)|(_ & Q & _)]; [|congruence].
    rewrite Q1, Q2. apply B; [eapply nth_error_In; eauto|congruence].
  - intros t' x Ht Hd (Hx & Hon) Hne. apply In_nth_error in Ht. destruct Ht as (i & Ht). destruct (mrels_inv _ _ _ _ _ _ M Ht) as (t & E & R).
    destruct R as (R1 & R2 & R3 & R4 & R5 & R6 & R7 & R8 & R9).
    assert (In t (tjs s)) by (eapply nth_error_In; eauto).
    destruct R7 as [(Q1 & Q2)|(_ & _ & Q)].
    { rewrite R2. apply (C t x); [auto|congruence| |auto]. split; [auto|]. destruct Hon; [left|right]; congruence. }
    assert (G : on t x \/ x = o).
    { destruct Hon as [Hon|Hon].
      - destruct R8 as [R8|[R8|R8]]; [left; split; [auto|left; congruence]|congruence|right; congruence].
      - destruct R9 as [R9|[R9|R9]]; [left; split; [auto|right; congruence]|congruence|right; congruence]. }
    rewrite R2. destruct G as [G| ->]; [apply (C t x); auto; congruence|]. exists vo. split; [auto|congruence].
Qed.

Lemma in_union a b x : In x (union a b) -> In x a \/ In x b.
Proof.
  unfold union. revert a. induction b as [|y b IH]; intros a; simpl; [auto|]. intros G. apply IH in G.
  destruct G as [G|G]; [|auto]. destruct (existsb (Nat.eqb y) a); [auto|]. apply in_app_or in G. simpl in G. tauto.
Qed.
Lemma union_l a b x : In x a -> In x (union a b).
Proof.
  unfold union. revert a. induction b as [|y b IH]; intros a H; simpl; [auto|]. apply IH. destruct (existsb (Nat.eqb y) a); [auto|]. apply in_or_app; auto.
Qed.
Lemma in_keep m ii l x : In x (keep_fit m ii l) -> In x l.
Proof. revert ii. induction l as [|a l IH]; intros ii; simpl; [auto|]. destruct (m ii); simpl; intros [G|G] || intros G; eauto. Qed.

Lemma vtx_tjs_in s v x : In x (vtx_tjs s v) ->
  exists t, In t (tjs s) /\ tid t = x /\ dead t = false /\ tctp t = vctp v /\ on t (vid v).
Proof.
  unfold vtx_tjs. destruct (vid v =? 0) eqn:E; [intros []|]. apply Nat.eqb_neq in E. rewrite in_flat_map. intros (t & H & G).
  destruct (dead t) eqn:D; [destruct G|]. destruct (tctp t =? vctp v) eqn:C; cbn [negb] in G; [|destruct G]. apply Nat.eqb_eq in C.
  exists t. split; [auto|]. apply in_app_or in G. destruct G as [G|G].
  - destruct (e0 t =? vid v) eqn:Q; [|destruct G]. apply Nat.eqb_eq in Q. destruct G as [G|[]]. unfold on. auto 8.
  - destruct (e1 t =? vid v) eqn:Q; [|destruct G]. apply Nat.eqb_eq in Q. destruct G as [G|[]]. unfold on. auto 8.
Qed.
Lemma in_vtx s v t : In t (tjs s) -> dead t = false -> tctp t = vctp v -> on t (vid v) -> In (tid t) (vtx_tjs s v).
Proof.
  intros H D C (O & Q). unfold vtx_tjs. apply Nat.eqb_neq in O. rewrite O. apply in_flat_map. exists t. split; [auto|]. rewrite D, C, Nat.eqb_refl. cbn [negb].
  apply in_or_app. destruct Q as [Q|Q]; rewrite Q, Nat.eqb_refl; simpl; auto.
Qed.

(** set_new *)
Lemma set_new_ok nr o c : o <> 0 -> forall l s,
  (forall x, In x l -> exists t, nth1 (tjs s) x = Some t /\ dead t = false /\ halo t = false /\ tctp t = c) ->
  exists b s', set_new nr o s l = Ok (b, s') /\ mrels c o (tjs s) (tjs s') /\
    s' = set_tjs s (tjs s') /\
    (forall i t t', nth_error (tjs s) i = Some t -> nth_error (tjs s') i = Some t' ->
       forall e, (vtxid t e <> 0 -> vtxid t' e = vtxid t e) /\ (vtxid t' e = vtxid t e \/ vtxid t' e = o)) /\
    (b = true -> forall x, In x l -> exists t, nth1 (tjs s') x = Some t /\ vtxid t (nr x) = o).
Proof.
  intros Ho. induction l as [|x l IH]; intros s H; simpl.
  - exists true, s. split; [auto|]. split; [apply mrels_refl|]. split; [destruct s; reflexivity|]. split; [|intros _ x []].
    intros i t t' A B e. assert (t' = t) by congruence. subst. auto.
  - destruct (H x (or_introl eq_refl)) as (t & T1 & T2 & T3 & T4). rewrite (at1_some _ _ _ T1). cbn [obind].
    destruct (vtxid t (nr x) =? 0) eqn:E; cbn [negb].
    2:{ exists false, s. split; [auto|]. split; [apply mrels_refl|]. split; [destruct s; reflexivity|]. split; [|discriminate].
        intros i u u' A B e. assert (u' = u) by congruence. subst. auto. }
    apply Nat.eqb_eq in E. set (t' := set_end t (nr x) o). set (s1 := set_tjs s (upd (tjs s) (x - 1) t')).
    assert (R : mrel c o t t').
    { unfold t', mrel. destruct t as [ti tc td th a b hi ph], (nr x); cbn in *; subst; auto 20. }
    pose proof (nth1_pos _ _ _ T1) as (P1 & P2 & P3).
    assert (M1 : mrels c o (tjs s) (tjs s1)) by (apply (mrels_upd _ _ _ _ t); auto).
    assert (N : forall y, nth1 (tjs s1) y = if y =? x then Some t' else nth1 (tjs s) y) by (intros y; apply (nth1_upd _ _ t); auto).
    destruct (IH s1) as (b & s' & E1 & M2 & S2 & Gr & F).
    { intros y Hy. destruct (H y (or_intror Hy)) as (u & U1 & U2 & U3 & U4). rewrite N. destruct (y =? x) eqn:G; [|eauto].
      exists t'. destruct R as (_ & R2 & R3 & R4 & _). split; [auto|]. repeat split; congruence. }
    exists b, s'. split; [auto|]. split; [eapply mrels_trans; eauto|]. split; [rewrite S2; reflexivity|]. split.
    + intros i u u' A B e. pose proof (N (S i)) as Ni. change (nth1 (tjs s1) (S i)) with (nth_error (tjs s1) i) in Ni. change (nth1 (tjs s) (S i)) with (nth_error (tjs s) i) in Ni. destruct (S i =? x) eqn:G.
      * apply Nat.eqb_eq in G. destruct (Gr i t' u' Ni B e) as (G1 & G2). subst x. simpl in T1. assert (u = t) by congruence. subst u.
        unfold t' in *. destruct t as [ti tc td th a b' hi ph], (nr (S i)), e; cbn in *; subst; split; intros; try congruence; auto; try tauto.
      * rewrite A in Ni. apply (Gr i u u' Ni B e).
    + intros Hb y [<-|Hy]; [|apply F; auto]. destruct x as [|x]; [lia|]. pose proof (N (S x)) as Nx. rewrite Nat.eqb_refl in Nx. simpl in Nx.
      destruct M2 as (_ & M2). destruct (M2 x t' Nx) as (t2 & T5 & _). exists t2. split; [exact T5|].
      destruct (Gr x t' t2 Nx T5 (nr (S x))) as (G1 & _). rewrite G1; unfold t'; destruct t, (nr (S x)); cbn; auto.
Qed.

Lemma reassign_mrel c o from to t : dead t = false -> halo t = false -> tctp t = c -> to = o \/ to = 0 -> mrel c o t (reassign from to t).
Proof.
  intros A B C D. destruct t as [ti tc td th a b hi ph]; cbn in *; subst. unfold reassign, mrel; cbn.
  destruct (a =? from); cbn; destruct (b =? from); cbn; destruct D; subst; auto 20.
Qed.
Lemma reassign_off from to t : from <> to -> from <> 0 -> ~ on (reassign from to t) from.
Proof.
  intros A B (_ & C). destruct t as [ti tc td th a b hi ph]; unfold reassign in C; cbn in *.
  destruct (a =? from) eqn:Ea; cbn in C; destruct (b =? from) eqn:Eb; cbn in C; try apply Nat.eqb_neq in Ea; try apply Nat.eqb_neq in Eb; destruct C; congruence.
Qed.
Lemma reassign_off' from to y t : y <> to -> ~ on t y -> ~ on (reassign from to t) y.
Proof.
  intros A B (C & D). apply B. split; [auto|]. destruct t as [ti tc td th a b hi ph]; unfold reassign in D; cbn in *.
  destruct (a =? from) eqn:Ea; cbn in D; destruct (b =? from) eqn:Eb; cbn in D; destruct D; auto; congruence.
Qed.

(** MergeWithVertex *)
Theorem merge_ok g s v o : let id := S (length (vs s)) in
  sound_but npl id s -> vid v = id -> o <> 0 -> (forall l, incl (order g l) l) ->
  exists b s', merge_with g s v o = Ok (b, s') /\ sound_but npl id s' /\
    mrels (vctp v) o (tjs s) (tjs s') /\ map vx_shape (vs s') = map vx_shape (vs s) /\ ws s' = ws s /\ ps s' = ps s /\
    (b = true -> (exists vo, is_2V s o vo /\ vctp vo = vctp v) /\
                 forall t, In t (tjs s') -> dead t = false -> tctp t = vctp v -> ~ on t id).
Proof.
  intros id H Hid Ho Hord. assert (Hid0 : id <> 0) by (unfold id; lia).
  destruct (but_self npl s id Hid0 H) as (A & B & C). destruct H as (H & Hh). pose proof (conj H Hh) as HB. fold (sound_but npl id s) in HB.
  unfold merge_with.
  assert (No : exists b s', Ok (false, s) = Ok (b, s') /\ sound_but npl id s' /\
    mrels (vctp v) o (tjs s) (tjs s') /\ map vx_shape (vs s') = map vx_shape (vs s) /\ ws s' = ws s /\ ps s' = ps s /\
    (b = true -> (exists vo, is_2V s o vo /\ vctp vo = vctp v) /\
                 forall t, In t (tjs s') -> dead t = false -> tctp t = vctp v -> ~ on t id)).
  { exists false, s. split; [auto|]. split; [auto|]. split; [apply mrels_refl|]. do 3 (split; [auto|]). discriminate. }
  destruct (length (vs s) <? o) eqn:El; [exact No|]. apply Nat.ltb_ge in El.
  destruct (nth1_ex (vs s) o Ho El) as (ov & Hov). rewrite (at1_some _ _ _ Hov). cbn [obind].
  destruct (vctp v =? vctp ov) eqn:Ec; cbn [negb]; [|exact No]. apply Nat.eqb_eq in Ec.
  destruct (vtx_tjs s v) as [|a1 l1] eqn:E1; [exact No|]. rewrite <- E1. destruct (vtx_tjs s ov) as [|a2 l2] eqn:E2; [exact No|]. rewrite <- E2.
  assert (Hoid : vid ov = o).
  { destruct o as [|o]; [lia|]. simpl in Hov. pose proof (s_vid npl _ H o ov Hov) as Q. destruct Q as [Q|Q]; [|auto].
    unfold vtx_tjs in E2. rewrite Q in E2. discriminate. }
  assert (Vo : is_2V s o ov) by (split; auto).
  set (l := union (vtx_tjs s v) (vtx_tjs s ov)).
  assert (Lin : forall x, In x l -> exists t, nth1 (tjs s) x = Some t /\ dead t = false /\ halo t = false /\ tctp t = vctp v).
  { intros x Hx. apply in_union in Hx.
    assert (G : exists t, In t (tjs s) /\ tid t = x /\ dead t = false /\ tctp t = vctp v /\ exists y, on t y).
    { destruct Hx as [Hx|Hx]; apply vtx_tjs_in in Hx; destruct Hx as (t & X1 & X2 & X3 & X4 & X5); exists t; [eauto 8|]. split; [auto|]. split; [auto|]. split; [auto|]. split; [congruence|eauto]. }
    destruct G as (t & X1 & X2 & X3 & X4 & y & X5). exists t. apply In_nth_error in X1. destruct X1 as (i & X1). rewrite (A i t X1) in X2. subst x.
    split; [exact X1|]. split; [auto|]. split; [|auto]. destruct (halo t) eqn:Z; [|auto]. destruct (B t) as (B1 & B2); [eapply nth_error_In; eauto|auto|].
    destruct X5 as (X5 & X6). lia. }
  assert (Lon : forall t, In t (tjs s) -> dead t = false -> tctp t = vctp v -> on t id -> In (tid t) l).
  { intros t T1 T2 T3 T4. apply union_l. apply in_vtx; auto. rewrite Hid. auto. }
  destruct (length l <? 2) eqn:L2; [exact No|]. destruct (length l =? 2) eqn:L3.
  - (* two trajectories *)
    match goal with |- context [foreach l ?f s] => set (body := f) end.
    assert (Loop : forall m s0, incl m l -> mrels (vctp v) o (tjs s) (tjs s0) -> s0 = set_tjs s (tjs s0) ->
       exists s1, foreach m body s0 = Ok s1 /\ mrels (vctp v) o (tjs s) (tjs s1) /\ s1 = set_tjs s (tjs s1) /\
         forall i t1, nth_error (tjs s1) i = Some t1 -> (exists t0, nth_error (tjs s0) i = Some t0 /\ (~ on t0 id -> ~ on t1 id)) /\ (In (S i) m -> ~ on t1 id)).
    { induction m as [|x m IH]; intros s0 Im M0 Eq0.
      - exists s0. split; [reflexivity|]. split; [auto|]. split; [auto|]. intros i t1 Ht. split; [exists t1; auto|intros []].
      - destruct (Lin x (Im x (or_introl eq_refl))) as (t & T1 & T2 & T3 & T4). destruct x as [|x]; [discriminate|]. simpl in T1.
        pose proof M0 as (ML & M0'). destruct (M0' x t T1) as (t0 & T5 & T6). pose proof T6 as (R1 & R2 & R3 & R4 & _).
        assert (Eb : body s0 (S x) = Ok (set_tjs s0 (upd (tjs s0) x (reassign (vid v) (vid ov) t0)))).
        { unfold body. rewrite (at1_some _ (S x) _ T5). cbn [obind]. simpl. rewrite Nat.sub_0_r. reflexivity. }
        assert (Ef : foreach (S x :: m) body s0 = (do s1 <- body s0 (S x); foreach m body s1)) by reflexivity.
        rewrite Ef, Eb. cbn [obind].
        set (t0' := reassign (vid v) (vid ov) t0). set (s1 := set_tjs s0 (upd (tjs s0) x t0')).
        assert (Rt : mrel (vctp v) o t0 t0') by (apply reassign_mrel; [congruence|congruence|congruence|left; auto]).
        assert (M1 : mrels (vctp v) o (tjs s) (tjs s1)) by (eapply mrels_trans; [exact M0|apply (mrels_upd _ _ _ _ t0); auto]).
        destruct (IH s1) as (s2 & F1 & F2 & F3 & F4); [intros y Hy; apply Im; right; auto|auto|unfold s1; rewrite Eq0; reflexivity|].
        exists s2. split; [auto|]. split; [auto|]. split; [auto|]. intros i t1 Ht. destruct (F4 i t1 Ht) as ((u & U1 & U2) & F5).
        cbn [s1 tjs set_tjs] in U1. rewrite nth_error_upd in U1. assert (Off : ~ on t0' id).
        { unfold t0'. rewrite Hid. apply reassign_off; [unfold id; lia|auto]. }
        destruct (i =? x) eqn:Gi.
        + apply Nat.eqb_eq in Gi. subst i. assert (G : x < length (tjs s0)) by (apply nth_error_Some; congruence). apply Nat.ltb_lt in G. rewrite G in U1. cbn [andb] in U1.
          injection U1 as <-. split; [exists t0; split; auto|]. auto.
        + cbn [andb] in U1. apply Nat.eqb_neq in Gi. split; [exists u; auto|]. intros [Q|Q]; [lia|auto]. }
    destruct (Loop l s) as (s1 & F1 & F2 & F3 & F4); [apply incl_refl|apply mrels_refl|destruct s; reflexivity|].
    rewrite F1. cbn [obind]. exists (fit_simple g), s1. split; [reflexivity|]. split; [rewrite F3; apply (mrels_but s (tjs s1) id (vctp v) o ov); auto|].
    split; [exact F2|]. split; [rewrite F3; reflexivity|]. split; [rewrite F3; reflexivity|]. split; [rewrite F3; reflexivity|]. intros _.
    split; [eauto|]. intros t T1 T2 T3 T4. apply In_nth_error in T1. destruct T1 as (i & T1). destruct (F4 i t T1) as ((t0 & U1 & U2) & F5).
    destruct (mrels_inv _ _ _ _ _ _ F2 T1) as (t0' & U3 & R). assert (t0' = t0) by congruence. subst t0'. destruct R as (R1 & R2 & R3 & _).
    assert (D0 : on t0 id \/ ~ on t0 id).
    { unfold on. destruct (Nat.eq_dec (e0 t0) id), (Nat.eq_dec (e1 t0) id); tauto. }
    destruct D0 as [D0|D0]; [|apply U2; auto]. apply F5; [|exact T4]. rewrite <- (A i t0 U1). apply Lon; auto; [eapply nth_error_In; eauto|congruence|congruence].
  - (* more *)
    destruct (fit_first g); cbn [negb]; [|exact No].
    set (fp := firstn 2 (order g l) ++ _).
    set (f := fun t => if dead t || halo t then t else if negb (tctp t =? vctp v) then t else reassign o 0 (reassign (vid v) 0 t)).
    set (s1 := set_tjs s (map f (tjs s))).
    assert (Fr : forall t, mrel (vctp v) o t (f t)).
    { intros t. unfold f. destruct (dead t || halo t) eqn:D; [apply mrel_refl|]. apply orb_false_iff in D. destruct D as (D1 & D2).
      destruct (tctp t =? vctp v) eqn:Q; cbn [negb]; [|apply mrel_refl]. apply Nat.eqb_eq in Q.
      pose proof (reassign_mrel (vctp v) o (vid v) 0 t D1 D2 Q (or_intror eq_refl)) as R1. eapply mrel_trans; [exact R1|].
      destruct R1 as (_ & R2 & R3 & R4 & _). apply reassign_mrel; auto; congruence. }
    assert (M1 : mrels (vctp v) o (tjs s) (tjs s1)).
    { split; [cbn; apply map_length|]. intros i t Ht. exists (f t). split; [cbn; rewrite nth_error_map, Ht; reflexivity|apply Fr]. }
    destruct (set_new_ok (near g) o (vctp v) Ho fp s1) as (b & s2 & F1 & F2 & F3 & F4 & F5).
    { intros x Hx. assert (Hl : In x l).
      { apply (Hord l). unfold fp in Hx. apply in_app_or in Hx. destruct Hx as [Hx|Hx].
        - rewrite <- (firstn_skipn 2 (order g l)). apply in_or_app; auto.
        - apply in_keep in Hx. rewrite <- (firstn_skipn 2 (order g l)). apply in_or_app; auto. }
      destruct (Lin x Hl) as (t & T1 & T2 & T3 & T4). destruct x as [|x]; [discriminate|]. simpl in T1.
      exists (f t). destruct (Fr t) as (_ & R2 & R3 & R4 & _). split; [simpl; rewrite nth_error_map, T1; reflexivity|]. repeat split; congruence. }
    rewrite F1. cbn [obind fst snd].
    assert (M2 : mrels (vctp v) o (tjs s) (tjs s2)) by (eapply mrels_trans; eauto).
    assert (S2 : s2 = set_tjs s (tjs s2)) by (rewrite F3; reflexivity).
    assert (B2 : sound_but npl id s2) by (rewrite S2; apply (mrels_but s (tjs s2) id (vctp v) o ov); auto).
    assert (Off : forall t, In t (tjs s2) -> dead t = false -> tctp t = vctp v -> ~ on t id).
    { intros t T1 T2 T3 (_ & T4). apply In_nth_error in T1. destruct T1 as (i & T1). destruct (mrels_inv _ _ _ _ _ _ F2 T1) as (t1 & U1 & R).
      destruct R as (R1 & R2 & R3 & R4 & _). pose proof U1 as U1'. cbn [s1 tjs set_tjs] in U1. rewrite nth_error_map in U1. destruct (nth_error (tjs s) i) as [t0|] eqn:E0; [|discriminate].
      injection U1 as <-.
      assert (Z : forall e, vtxid (f t0) e <> id).
      { intros e. unfold f in *. destruct (dead t0 || halo t0) eqn:D.
        - apply orb_true_iff in D. destruct D as [D|D]; [congruence|]. destruct (B t0) as (B1 & B2'); [eapply nth_error_In; eauto|auto|].
          destruct e; cbn; lia.
        - destruct (tctp t0 =? vctp v) eqn:Q; cbn [negb] in *; [|apply Nat.eqb_neq in Q; congruence].
          intros Ge. assert (On : on (reassign o 0 (reassign (vid v) 0 t0)) id) by (split; [auto|destruct e; cbn in Ge; auto]).
          revert On. apply reassign_off'; [auto|]. rewrite Hid. apply reassign_off; auto. }
      assert (E : exists e, vtxid t e = id) by (destruct T4; [exists false|exists true]; auto). destruct E as (e & E).
      destruct (F4 i (f t0) t U1' T1 e) as (_ & [G|G]); [apply (Z e); congruence|]. unfold id in *. lia. }
    destruct b; cbn [negb].
    + assert (N2 : nth1 (vs s2) o = Some ov) by (rewrite S2; exact Hov). rewrite (at1_some _ _ _ N2). cbn [obind]. pose proof (nth1_pos _ _ _ N2) as (_ & N3 & _).
      assert (Sh : map vx_shape (upd (vs s2) (o - 1) (set_vsc (set_nt ov (length fp)) (new_score g))) = map vx_shape (vs s2)) by (eapply upd_map_same; [exact N3|reflexivity]).
      eexists true, _. split; [reflexivity|]. split.
      { eapply but_same; [|exact B2]. split; [reflexivity|]. split; [symmetry; exact Sh|reflexivity]. }
      split; [exact M2|]. split; [cbn [vs set_vs]; rewrite Sh, S2; reflexivity|]. split; [rewrite S2; reflexivity|]. split; [rewrite S2; reflexivity|].
      intros _. split; [eauto|exact Off].
    + exists false, s2. split; [reflexivity|]. split; [auto|]. split; [auto|]. split; [rewrite S2; reflexivity|]. split; [rewrite S2; reflexivity|]. split; [rewrite S2; reflexivity|]. discriminate.
Qed.

(** ** the end of Find2DVertices *)
Lemma mrels_fixed c o l l' : mrels c o l l' -> map tj_fixed l' = map tj_fixed l.
Proof.
  intros (L & R). apply nth_error_ext'. intros i. rewrite !nth_error_map. destruct (nth_error l i) as [t|] eqn:E.
  - destruct (R i t E) as (t' & -> & (A & B & C & D & _)). simpl. unfold tj_fixed. congruence.
  - apply nth_error_None in E. assert (F : nth_error l' i = None) by (apply nth_error_None; lia). rewrite F. reflexivity.
Qed.

Theorem try_ok s ctp i1 b1 i2 b2 fit close g wire t1 t2 : sound npl s ->
  nth_error (tjs s) i1 = Some t1 -> nth_error (tjs s) i2 = Some t2 -> i1 <> i2 ->
  dead t1 = false -> halo t1 = false -> tctp t1 = ctp -> vtxid t1 b1 = 0 ->
  dead t2 = false -> halo t2 = false -> tctp t2 = ctp -> vtxid t2 b2 = 0 ->
  ctp mod 10 < npl -> (forall l, incl (order g l) l) ->
  exists b s', try_vertex s ctp i1 b1 i2 b2 fit close g wire = Ok (b, s') /\ sound npl s' /\
    (fit = false -> b = false /\ s' = s) /\
    map tj_fixed (tjs s') = map tj_fixed (tjs s) /\ ws s' = ws s /\ ps s' = ps s /\
    map vx_shape (vs s') = map vx_shape (vs s) ++ (if b then [(S (length (vs s)), ctp, 0)] else []) /\
    (b = false -> fit = true -> exists vo, is_2V s close vo /\ vctp vo = ctp) /\
    (fit = true -> close = 0 -> b = true /\ exists v', is_2V s' (S (length (vs s))) v' /\ nt v' = 2 /\
        (exists u1 u2, nth_error (tjs s') i1 = Some u1 /\ vtxid u1 b1 = S (length (vs s)) /\
                       nth_error (tjs s') i2 = Some u2 /\ vtxid u2 b2 = S (length (vs s)))).
Proof.
  intros H N1 N2 Hne D1 H1 C1 V1 D2 H2 C2 V2 Hpl Hord. unfold try_vertex.
  replace (length (vs s) + 1) with (S (length (vs s))) by lia. set (id := S (length (vs s))). assert (Hid0 : id <> 0) by (unfold id; lia).
  rewrite (idx_some _ _ _ N1). cbn [obind]. set (s1 := set_tjs s (upd (tjs s) i1 (set_end t1 b1 id))).
  assert (L1 : i1 < length (tjs s)) by (apply nth_error_Some; congruence). assert (L2 : i2 < length (tjs s)) by (apply nth_error_Some; congruence).
  pose proof L1 as L1'. pose proof L2 as L2'. apply Nat.ltb_lt in L1', L2'.
  assert (N2' : nth_error (tjs s1) i2 = Some t2).
  { cbn [s1 tjs set_tjs]. rewrite nth_error_upd. destruct (i2 =? i1) eqn:E; [apply Nat.eqb_eq in E; lia|auto]. }
  rewrite (idx_some _ _ _ N2'). cbn [obind]. set (s2 := set_tjs s1 (upd (tjs s1) i2 (set_end t2 b2 id))).
  assert (Nt : forall j, nth_error (tjs s2) j = if j =? i2 then Some (set_end t2 b2 id) else if j =? i1 then Some (set_end t1 b1 id) else nth_error (tjs s) j).
  { intros j. cbn [s2 s1 tjs set_tjs]. rewrite !nth_error_upd, upd_length, L1', L2', !andb_true_r. reflexivity. }
  assert (Ei : (i1 =? i2) = false) by (apply Nat.eqb_neq; auto).
  assert (B2 : sound_but npl id s2).
  { change s2 with (set_tjs s (tjs s2)). apply (proj2 (but_iff npl s id (tjs s2) Hid0 (sound_sound_but npl s id Hid0 H))).
    assert (Nc : forall j u, nth_error (tjs s2) j = Some u -> (j = i2 /\ u = set_end t2 b2 id) \/ (j = i1 /\ u = set_end t1 b1 id) \/ nth_error (tjs s) j = Some u).
    { intros j u Hu. rewrite Nt in Hu. destruct (j =? i2) eqn:E; [apply Nat.eqb_eq in E; left; split; congruence|].
      destruct (j =? i1) eqn:F; [apply Nat.eqb_eq in F; right; left; split; congruence|auto]. }
    assert (Fx : forall t e x, tid (set_end t e x) = tid t /\ halo (set_end t e x) = halo t /\ tctp (set_end t e x) = tctp t) by (intros [] [] ?; cbn; auto).
    split; [|split].
    - intros j u Hu. destruct (Nc j u Hu) as [(-> & ->)|[(-> & ->)|Q]].
      + destruct (Fx t2 b2 id) as (-> & _). apply (s_tid npl s H i2 t2 N2).
      + destruct (Fx t1 b1 id) as (-> & _). apply (s_tid npl s H i1 t1 N1).
      + apply (s_tid npl s H j u Q).
    - intros u Hu Hh. apply In_nth_error in Hu. destruct Hu as (j & Hu). destruct (Nc j u Hu) as [(-> & ->)|[(-> & ->)|Q]].
      + destruct (Fx t2 b2 id) as (_ & F & _). congruence.
      + destruct (Fx t1 b1 id) as (_ & F & _). congruence.
      + apply (s_halo npl s H u); [eapply nth_error_In; eauto|auto].
    - intros u x Hu Hd Ho Hx. apply In_nth_error in Hu. destruct Hu as (j & Hu). destruct (Nc j u Hu) as [(-> & ->)|[(-> & ->)|Q]].
      + destruct (Fx t2 b2 id) as (_ & _ & ->). apply set_end_cases in Ho. destruct Ho as [Ho|(Ho & _)]; [|contradiction]. apply (s_t2 npl s H t2 x); [eapply nth_error_In; eauto|auto|auto].
      + destruct (Fx t1 b1 id) as (_ & _ & ->). apply set_end_cases in Ho. destruct Ho as [Ho|(Ho & _)]; [|contradiction]. apply (s_t2 npl s H t1 x); [eapply nth_error_In; eauto|auto|auto].
      + apply (s_t2 npl s H u x); [eapply nth_error_In; eauto|auto|auto]. }
  assert (Old : forall t, In t (tjs s) -> dead t = false -> ~ on t id).
  { intros t T1 T2 T3. destruct (s_t2 npl s H t id T1 T2 T3) as (u & (U1 & _) & _). apply nth1_pos in U1. unfold id in U1. lia. }
  assert (Pend : forall u, In u (tjs s2) -> dead u = false -> on u id -> tctp u = ctp).
  { intros u Hu Hd Ho. apply In_nth_error in Hu. destruct Hu as (j & Hu). rewrite Nt in Hu.
    destruct (j =? i2); [injection Hu as <-; destruct t2, b2; exact C2|]. destruct (j =? i1); [injection Hu as <-; destruct t1, b1; exact C1|].
    exfalso. apply (Old u); auto. eapply nth_error_In; eauto. }
  destruct fit; cbn [negb].
  2:{ assert (N3 : nth_error (tjs s2) i1 = Some (set_end t1 b1 id)) by (rewrite Nt, Ei, Nat.eqb_refl; reflexivity).
      rewrite (idx_some _ _ _ N3). cbn [obind]. set (s3 := set_tjs s2 _).
      assert (N4 : nth_error (tjs s3) i2 = Some (set_end t2 b2 id)).
      { cbn [s3 tjs set_tjs]. rewrite nth_error_upd. destruct (i2 =? i1) eqn:E; [apply Nat.eqb_eq in E; lia|]. cbn [andb]. rewrite Nt, Nat.eqb_refl. reflexivity. }
      rewrite (idx_some _ _ _ N4). cbn [obind].
      assert (Es : set_tjs s3 (upd (tjs s3) i2 (set_end (set_end t2 b2 id) b2 0)) = s).
      { replace (set_end (set_end t2 b2 id) b2 0) with t2 by (destruct t2, b2; cbn in *; congruence).
        assert (El : upd (tjs s3) i2 t2 = tjs s).
        { apply nth_error_ext'. intros j. rewrite nth_error_upd. cbn [s3 tjs set_tjs]. rewrite nth_error_upd, Nt, upd_length.
          replace (set_end (set_end t1 b1 id) b1 0) with t1 by (destruct t1, b1; cbn in *; congruence).
          assert (Ls2 : length (tjs s2) = length (tjs s)) by (cbn [s2 s1 tjs set_tjs]; rewrite !upd_length; reflexivity). rewrite Ls2, L1', L2', !andb_true_r.
          destruct (j =? i2) eqn:E; [apply Nat.eqb_eq in E; congruence|]. destruct (j =? i1) eqn:F; [apply Nat.eqb_eq in F; congruence|reflexivity]. }
        rewrite El. destruct s; reflexivity. }
      exists false, s. split; [f_equal; f_equal; exact Es|]. split; [auto|]. split; [auto|]. split; [auto|]. split; [auto|]. split; [auto|]. split; [rewrite app_nil_r; auto|split; discriminate]. }
  assert (Fix2 : map tj_fixed (tjs s2) = map tj_fixed (tjs s)).
  { apply nth_error_ext'. intros j. rewrite !nth_error_map, Nt. destruct (j =? i2) eqn:E; [apply Nat.eqb_eq in E; subst j; rewrite N2; destruct t2, b2; reflexivity|].
    destruct (j =? i1) eqn:F; [apply Nat.eqb_eq in F; subst j; rewrite N1; destruct t1, b1; reflexivity|reflexivity]. }
  set (v := V id ctp 0 0 0 0%Qc false wire).
  destruct (0 <? close) eqn:Ecl.
  - apply Nat.ltb_lt in Ecl. destruct (merge_ok g s2 v close B2 eq_refl) as (b & s3 & M1 & M2 & M3 & M4 & M5 & M6 & M7); [lia|auto|].
    rewrite M1. cbn [obind fst snd].
    assert (Lv : length (vs s3) = length (vs s)) by (apply (f_equal (@length _)) in M4; rewrite !map_length in M4; exact M4).
    destruct b.
    + assert (PendM : forall t, In t (tjs s3) -> dead t = false -> on t id -> tctp t = ctp).
      { intros t T1 T2 T3. apply In_nth_error in T1. destruct T1 as (j & T1). destruct (mrels_inv _ _ _ _ _ _ M3 T1) as (t0 & U1 & R). destruct R as (R1 & R2 & R3 & R4 & R5 & R6 & R7 & R8 & R9).
        rewrite R2. destruct R7 as [(Q1 & Q2)|(_ & _ & Q)]; [|exact Q]. apply Pend; [eapply nth_error_In; eauto|congruence|].
        destruct T3 as (T3 & T4). split; [auto|]. destruct T4; [left|right]; congruence. }
      destruct (M7 eq_refl) as (Vo & Off). exists false, s3. split; [reflexivity|].
      split; [apply (but_sound npl s3 id Hid0 M2); intros t T1 T2 T3; apply (Off t T1 T2); [apply PendM; auto|exact T3]|].
      split; [discriminate|]. split; [rewrite (mrels_fixed _ _ _ _ M3); exact Fix2|]. split; [exact M5|]. split; [exact M6|]. split; [rewrite app_nil_r; exact M4|].
      split; [intros _ _; exact Vo|intros; lia].
    + assert (PendM : forall t, In t (tjs s3) -> dead t = false -> on t id -> tctp t = ctp).
      { intros t T1 T2 T3. apply In_nth_error in T1. destruct T1 as (j & T1). destruct (mrels_inv _ _ _ _ _ _ M3 T1) as (t0 & U1 & R). destruct R as (R1 & R2 & R3 & R4 & R5 & R6 & R7 & R8 & R9).
        rewrite R2. destruct R7 as [(Q1 & Q2)|(_ & _ & Q)]; [|exact Q]. apply Pend; [eapply nth_error_In; eauto|congruence|].
        destruct T3 as (T3 & T4). split; [auto|]. destruct T4; [left|right]; congruence. }
      assert (B3 : sound_but npl (S (length (vs s3))) s3) by (rewrite Lv; exact M2).
      destruct (store_ok npl s3 v) as (K1 & K2 & K3 & K4 & K5 & K6); [rewrite Lv; reflexivity|reflexivity|exact Hpl|exact B3|].
      assert (Yes : fst (store_vertex s3 v) = true).
      { apply K1. intros t (T1 & T2 & T3). cbn [v vctp]. apply PendM; auto. rewrite Lv in T3. exact T3. }
      destruct (K2 Yes) as (K7 & n & K8 & K9). destruct (store_vertex s3 v) as [b s4]. cbn [fst snd] in *. subst b.
      exists true, s4. split; [reflexivity|]. split; [exact K6|]. split; [discriminate|]. split; [rewrite K7, (mrels_fixed _ _ _ _ M3); exact Fix2|].
      split; [rewrite K4; exact M5|]. split; [rewrite K5; exact M6|].
      split; [rewrite K8, map_app, M4, Lv; reflexivity|]. split; [discriminate|intros; lia].
  - cbn [obind fst snd]. destruct (store_ok npl s2 v) as (K1 & K2 & K3 & K4 & K5 & K6); [reflexivity|reflexivity|exact Hpl|exact B2|].
    assert (Yes : fst (store_vertex s2 v) = true).
    { apply K1. intros t (T1 & T2 & T3). cbn [v vctp]. apply Pend; auto. }
    destruct (K2 Yes) as (K7 & n & K8 & K9). destruct (store_vertex s2 v) as [b s4]. cbn [fst snd] in *. subst b.
    exists true, s4; split; [reflexivity|]. split; [exact K6|]. split; [discriminate|]. split; [rewrite K7; exact Fix2|]. split; [exact K4|]. split; [exact K5|].
    split; [rewrite K8, map_app; reflexivity|]. split; [discriminate|].
    intros _ _. split; [reflexivity|]. exists (V id ctp 0 (S (g2 s2)) n 0%Qc false wire). split; [|split].
    + split; [|reflexivity]. rewrite K8. change (vs s2) with (vs s). simpl. rewrite nth_error_app2 by lia. rewrite Nat.sub_diag. reflexivity.
    + cbn [nt]. rewrite K9.
      assert (Cnt : forall (l : list tj) (f : tj -> bool) a b, a <> b -> (forall j u, nth_error l j = Some u -> (f u = true <-> j = a \/ j = b)) -> a < length l -> b < length l -> length (filter f l) = 2).
      { clear. assert (One : forall (l : list tj) (f : tj -> bool) a, (forall j u, nth_error l j = Some u -> (f u = true <-> j = a)) -> a < length l -> length (filter f l) = 1).
        { assert (Zero : forall (l : list tj) (f : tj -> bool), (forall j u, nth_error l j = Some u -> f u = false) -> filter f l = []).
          { induction l as [|x l IH]; intros f Hf; simpl; [auto|]. rewrite (Hf 0 x eq_refl). apply IH. intros j u Hu. apply (Hf (S j) u Hu). }
          induction l as [|x l IH]; intros f a Hf La; simpl in *; [lia|]. pose proof (Hf 0 x eq_refl) as F0. destruct a as [|a].
          - rewrite (proj2 F0 eq_refl). rewrite Zero; [reflexivity|]. intros j u Hu. pose proof (Hf (S j) u Hu). destruct (f u); [|auto]. destruct H as (H & _). specialize (H eq_refl). lia.
          - destruct (f x); [destruct F0 as (F0 & _); specialize (F0 eq_refl); lia|]. apply (IH f a); [|lia]. intros j u Hu. rewrite (Hf (S j) u Hu). lia. }
        induction l as [|x l IH]; intros f a b Hab Hf La Lb; simpl in *; [lia|]. pose proof (Hf 0 x eq_refl) as F0. destruct a as [|a].
        - rewrite (proj2 F0 (or_introl eq_refl)). simpl. f_equal. destruct b as [|b]; [lia|]. apply (One l f b); [|lia]. intros j u Hu. rewrite (Hf (S j) u Hu). lia.
        - destruct b as [|b].
          + rewrite (proj2 F0 (or_intror eq_refl)). simpl. f_equal. apply (One l f a); [|lia]. intros j u Hu. rewrite (Hf (S j) u Hu). lia.
          + destruct (f x); [destruct F0 as (F0 & _); specialize (F0 eq_refl); lia|]. apply (IH f a b); [lia| |lia|lia]. intros j u Hu. rewrite (Hf (S j) u Hu). lia. }
      assert (Ls2 : length (tjs s2) = length (tjs s)) by (cbn [s2 s1 tjs set_tjs]; rewrite !upd_length; reflexivity).
      apply (Cnt _ _ i1 i2 Hne); [|lia|lia]. intros j u Hu. change (S (length (vs s2))) with id. rewrite Nt in Hu. destruct (j =? i2) eqn:E.
      * apply Nat.eqb_eq in E. injection Hu as <-. split; [auto|]. intros _. destruct t2 as [ti tc td th a b' hi ph], b2; cbn in *; subst; rewrite Nat.eqb_refl; cbn; auto using orb_true_r.
      * apply Nat.eqb_neq in E. destruct (j =? i1) eqn:F.
        -- apply Nat.eqb_eq in F. injection Hu as <-. split; [auto|]. intros _. destruct t1 as [ti tc td th a b' hi ph], b1; cbn in *; subst; rewrite Nat.eqb_refl; cbn; auto using orb_true_r.
        -- apply Nat.eqb_neq in F. split; [|intros [Q|Q]; lia]. intros Q. exfalso. apply andb_true_iff in Q. destruct Q as (Q1 & Q2). apply negb_true_iff in Q1.
           apply (Old u); [eapply nth_error_In; eauto|auto|]. split; [auto|]. apply orb_true_iff in Q2. rewrite !Nat.eqb_eq in Q2. exact Q2.
    + rewrite K7. exists (set_end t1 b1 id), (set_end t2 b2 id). rewrite !Nt, Ei, !Nat.eqb_refl. split; [auto|]. split; [destruct t1, b1; reflexivity|]. split; [auto|]. destruct t2, b2; reflexivity.
Qed.

End S.
