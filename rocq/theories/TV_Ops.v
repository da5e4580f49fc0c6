(** Storing, attaching and merging keep the associations consistent. *)
From Verif Require Import Base TV_Model TV_Spec TV_Kill TV_High.
From Coq Require Import QArith Qcanon Relations.
Local Open Scope nat_scope.

Section S.
Variable npl : nat.
Variable cut : Qc.

Lemma sound_tjs s l : sound npl s ->
  (forall i t, nth_error l i = Some t -> tid t = S i) ->
  (forall t, In t l -> halo t = true -> e0 t = 0 /\ e1 t = 0) ->
  (forall t x, In t l -> dead t = false -> on t x -> exists v, is_2V s x v /\ vctp v = tctp t) ->
  sound npl (set_tjs s l).
Proof. intros H A B C. destruct H. constructor; auto. Qed.

(** [sound_but], field by field *)
Lemma but_iff s id l : id <> 0 -> sound_but npl id s ->
  (sound_but npl id (set_tjs s l) <->
   (forall i t, nth_error l i = Some t -> tid t = S i) /\
   (forall t, In t l -> halo t = true -> e0 t = 0 /\ e1 t = 0) /\
   (forall t x, In t l -> dead t = false -> on t x -> x <> id -> exists v, is_2V s x v /\ vctp v = tctp t)).
Proof.
  intros Hid (H & Hh). split.
  - intros (G & Gh). cbn [tjs set_tjs] in *. split; [|split].
    + intros i t Ht. pose proof (s_tid npl _ G i (forget id t)) as Q. cbn [tjs set_tjs] in Q. rewrite nth_error_map, Ht in Q.
      exact (Q eq_refl).
    + exact Gh.
    + intros t x Ht Hd (Hx & Ho) Hn. destruct (s_t2 npl _ G (forget id t) x) as (v & V1 & V2).
      * cbn [tjs set_tjs]. apply in_map. exact Ht.
      * exact Hd.
      * split; [auto|]. unfold forget; cbn [e0 e1]. destruct Ho as [Ho|Ho]; [left|right]; rewrite Ho;
          (assert (E : (x =? id) = false) by (apply Nat.eqb_neq; auto)); rewrite E; reflexivity.
      * exists v. split; [exact V1|exact V2].
  - intros (A & B & C). split; [|exact B].
    change (set_tjs (set_tjs s l) (map (forget id) (tjs (set_tjs s l)))) with (set_tjs (set_tjs s (map (forget id) (tjs s))) (map (forget id) l)).
    apply sound_tjs; [exact H| | |].
    + intros i t Ht. rewrite nth_error_map in Ht. destruct (nth_error l i) as [t0|] eqn:E; [|discriminate]. injection Ht as <-. apply (A i t0 E).
    + intros t Ht Hha. apply in_map_iff in Ht. destruct Ht as (t0 & <- & Ht). destruct (B t0 Ht Hha) as (B1 & B2).
      unfold forget; cbn [e0 e1]. rewrite B1, B2. destruct (0 =? id); auto.
    + intros t x Ht Hd (Hx & Ho). apply in_map_iff in Ht. destruct Ht as (t0 & <- & Ht). unfold forget in *; cbn [e0 e1 dead tctp] in *.
      destruct (C t0 x Ht Hd) as (v & V1 & V2).
      * split; [auto|]. destruct Ho as [Ho|Ho]; [left; destruct (e0 t0 =? id)|right; destruct (e1 t0 =? id)]; congruence.
      * intros ->. destruct Ho as [Ho|Ho]; [destruct (e0 t0 =? id) eqn:E|destruct (e1 t0 =? id) eqn:E]; try congruence;
          apply Nat.eqb_neq in E; congruence.
      * exists v. split; [exact V1|exact V2].
Qed.

Lemma but_self s id : id <> 0 -> sound_but npl id s ->
   (forall i t, nth_error (tjs s) i = Some t -> tid t = S i) /\
   (forall t, In t (tjs s) -> halo t = true -> e0 t = 0 /\ e1 t = 0) /\
   (forall t x, In t (tjs s) -> dead t = false -> on t x -> x <> id -> exists v, is_2V s x v /\ vctp v = tctp t).
Proof. intros Hid H. apply (proj1 (but_iff s id (tjs s) Hid H)). destruct s; exact H. Qed.

Lemma sound_sound_but s id : id <> 0 -> sound npl s -> sound_but npl id s.
Proof.
  intros Hid H. split; [|apply (s_halo npl s H)]. apply sound_tjs; [exact H| | |].
  - intros i t Ht. rewrite nth_error_map in Ht. destruct (nth_error (tjs s) i) as [t0|] eqn:E; [|discriminate]. injection Ht as <-.
    apply (s_tid npl s H i t0 E).
  - intros t Ht Hha. apply in_map_iff in Ht. destruct Ht as (t0 & <- & Ht). destruct (s_halo npl s H t0 Ht Hha) as (B1 & B2).
    unfold forget; cbn [e0 e1]. rewrite B1, B2. destruct (0 =? id); auto.
  - intros t x Ht Hd (Hx & Ho). apply in_map_iff in Ht. destruct Ht as (t0 & <- & Ht). unfold forget in *; cbn [e0 e1 dead tctp] in *.
    apply (s_t2 npl s H t0 x Ht Hd). split; [auto|].
    destruct Ho as [Ho|Ho]; [left; destruct (e0 t0 =? id)|right; destruct (e1 t0 =? id)]; congruence.
Qed.

(** nothing refers to the vertex under construction any more *)
Lemma but_sound s id : id <> 0 -> sound_but npl id s ->
  (forall t, In t (tjs s) -> dead t = false -> ~ on t id) -> sound npl s.
Proof.
  intros Hid H Hn. destruct (but_self s id Hid H) as (A & B & C). destruct H as (H & _).
  assert (G : sound npl (set_tjs (set_tjs s (map (forget id) (tjs s))) (tjs s))).
  { apply sound_tjs; [exact H|exact A|exact B|]. intros t x Ht Hd Ho. apply (C t x Ht Hd Ho). intros ->. apply (Hn t Ht Hd Ho). }
  destruct s; exact G.
Qed.

Lemma but_same s s' id : same s s' -> sound_but npl id s -> sound_but npl id s'.
Proof.
  intros Hs (H & Hh). pose proof Hs as (A & B & C). split.
  - eapply same_sound; [|exact H]. unfold same. cbn [tjs vs ws set_tjs]. split; [|auto]. rewrite !map_map.
    apply (map_via tj_shape); [|exact A]. intros a b E. injection E as E1 E2 E3 E4 E5 E6. unfold tj_shape, forget; cbn. rewrite E1, E2, E3, E4, E5, E6. reflexivity.
  - intros t Ht Hha. destruct (map_in_r _ _ _ t A Ht) as (t0 & T1 & T2). injection T2 as E1 E2 E3 E4 E5 E6.
    rewrite <- E5, <- E6. apply Hh; congruence.
Qed.

(** ** StoreVertex *)
Definition attached (s : slice) (t : tj) (id : nat) : Prop := In t (tjs s) /\ dead t = false /\ on t id.

Lemma filter_len_eq {A} (f g : A -> bool) l : (forall a, f a = true -> g a = true) ->
  (length (filter f l) = length (filter g l) <-> forall a, In a l -> g a = true -> f a = true).
Proof.
  intros H. assert (Hle : forall l, length (filter f l) <= length (filter g l)).
  { intros k. induction k as [|a k IH]; simpl; [lia|]. destruct (f a) eqn:E; [rewrite (H a E); simpl; lia|]. destruct (g a); simpl; lia. }
  induction l as [|a l IH]; simpl; [tauto|]. specialize (Hle l). destruct (f a) eqn:E.
  - rewrite (H a E). simpl. split.
    + intros Q b [->|Hb] Hg; auto. apply IH; auto.
    + intros Q. f_equal. apply IH. auto.
  - destruct (g a) eqn:Eg; simpl.
    + split; [lia|]. intros Q. specialize (Q a (or_introl eq_refl) Eg). congruence.
    + rewrite IH. split; [intros Q b [->|Hb] Hg; [congruence|auto]|auto].
Qed.

Theorem store_ok s v : let id := S (length (vs s)) in
  vid v = id -> v3 v = 0 -> vctp v mod 10 < npl -> sound_but npl id s ->
  let r := store_vertex s v in
  (* accepted exactly when all the trajectories attached to it lie in its plane *)
  (fst r = true <-> (forall t, attached s t id -> tctp t = vctp v)) /\
  (* accepted: it is the last 2D vertex and counts its trajectories; nothing else changes *)
  (fst r = true -> tjs (snd r) = tjs s /\
     exists n, vs (snd r) = vs s ++ [V id (vctp v) 0 (S (g2 s)) n (vsc v) (vhi v) (vwire v)] /\
               n = length (filter (fun t => negb (dead t) && ((e0 t =? id) || (e1 t =? id))) (tjs s))) /\
  (* refused: no vertex, and no live trajectory refers to it *)
  (fst r = false -> vs (snd r) = vs s /\ forall t, ~ attached (snd r) t id) /\
  ws (snd r) = ws s /\ ps (snd r) = ps s /\ sound npl (snd r).
Proof.
  intros id Hid H3 Hpl H. cbv zeta. remember (store_vertex s v) as r eqn:Er. assert (Hid0 : id <> 0) by (unfold id; lia).
  destruct (but_self s id Hid0 H) as (A & B & C).
  unfold store_vertex in Er. rewrite Hid in Er. replace (length (vs s) + 1) with id in Er by (unfold id; lia). rewrite Nat.eqb_refl in Er. cbn [negb] in Er.
  cbv zeta in Er.
  set (fn := filter (fun t => negb (dead t) && (vctp v =? tctp t) && ((id =? e0 t) || (id =? e1 t))) (tjs s)) in *.
  set (fa := filter (fun t => negb (dead t) && ((id =? e0 t) || (id =? e1 t))) (tjs s)) in *.
  assert (Hon : forall t, ((id =? e0 t) || (id =? e1 t)) = true <-> on t id).
  { intros t. rewrite orb_true_iff, !Nat.eqb_eq. unfold on. intuition. }
  assert (Heq : (length fn =? length fa) = true <-> (forall t, attached s t id -> tctp t = vctp v)).
  { rewrite Nat.eqb_eq. unfold fn, fa. rewrite filter_len_eq.
    - split.
      + intros Q t (T1 & T2 & T3). apply Hon in T3. specialize (Q t T1). rewrite T2, T3 in Q. cbn [negb andb] in Q.
        specialize (Q eq_refl). rewrite andb_true_r in Q. apply Nat.eqb_eq in Q. auto.
      + intros Q t T1 T2. apply andb_true_iff in T2. destruct T2 as (T2 & T3). rewrite T2, T3.
        rewrite (Q t); [rewrite Nat.eqb_refl; reflexivity|]. split; [auto|]. split; [apply negb_true_iff; auto|apply Hon; auto].
    - intros t Q. apply andb_true_iff in Q. destruct Q as (Q & Q2). apply andb_true_iff in Q. destruct Q as (Q & _). rewrite Q, Q2. reflexivity. }
  destruct (length fn =? length fa) eqn:E; cbn [negb] in Er; subst r; cbn [fst snd].
  - split; [tauto|]. split; [|split; [discriminate|]].
    { intros _. split; [reflexivity|]. exists (length fn). split.
      - cbn [vs set_vs]. unfold set_nt, set_vuid; cbn. rewrite Hid, H3. reflexivity.
      - apply Nat.eqb_eq in E. rewrite E. unfold fa. f_equal. apply filter_ext. intros t. rewrite (Nat.eqb_sym id (e0 t)), (Nat.eqb_sym id (e1 t)). reflexivity. }
    split; [reflexivity|]. split; [reflexivity|].
    assert (Hct : forall t, attached s t id -> tctp t = vctp v) by (apply Heq; reflexivity).
    set (nv := set_nt (set_vuid v (S (g2 s))) (length fn)).
    assert (N1 : forall x u, x < id -> (nth1 (vs s ++ [nv]) x = Some u <-> nth1 (vs s) x = Some u)).
    { intros [|x] u Hx; [simpl; tauto|]. simpl. rewrite nth_error_app1; [tauto|]. unfold id in Hx. lia. }
    assert (N2 : nth1 (vs s ++ [nv]) id = Some nv).
    { unfold id. simpl. rewrite nth_error_app2 by lia. rewrite Nat.sub_diag. reflexivity. }
    assert (NL : forall x u, nth1 (vs s) x = Some u -> nth1 (vs s ++ [nv]) x = Some u).
    { intros x u Hx. apply N1; [|auto]. apply nth1_pos in Hx. unfold id; lia. }
    assert (NI : forall x u, nth1 (vs s ++ [nv]) x = Some u -> nth1 (vs s) x = Some u \/ (x = id /\ u = nv)).
    { intros x u Hx. pose proof (nth1_pos _ _ _ Hx) as (P1 & _ & P2). rewrite app_length in P2. simpl in P2.
      destruct (Nat.eq_dec x id) as [->|Q]; [right; split; [auto|congruence]|]. left. apply N1; [unfold id in *; lia|auto]. }
    destruct H as (H & _). constructor; cbn [tjs vs ws set_vs set_g2].
    + exact A.
    + intros i u Hu. destruct (NI (S i) u Hu) as [Q|(Q & ->)]; [apply (s_vid npl _ H i u); exact Q|]. right. simpl. congruence.
    + apply (s_wid npl _ H).
    + intros u Hu. apply in_app_or in Hu. destruct Hu as [Hu|[<-|[]]]; [apply (s_pl npl _ H u Hu)|exact Hpl].
    + apply (s_len npl _ H).
    + exact B.
    + intros t x Ht Hd Ho. destruct (Nat.eq_dec x id) as [->|Q].
      * exists nv. split; [split; [exact N2|exact Hid]|]. symmetry. apply Hct. split; auto.
      * destruct (C t x Ht Hd Ho Q) as (u & (U1 & U2) & U3). exists u. split; [split; [apply NL; auto|auto]|auto].
    + intros x u (U1 & U2) Un. destruct (NI x u U1) as [Q|(Q & ->)].
      * apply (s_23 npl _ H x u); [split; auto|auto].
      * exfalso. apply Un. exact H3.
    + intros k w p x Hw Hp Hx. destruct (s_32 npl _ H k w p x Hw Hp Hx) as (u & (U1 & U2) & U3). exists u. split; [split; [apply NL; exact U1|auto]|auto].
    + intros u Hu. apply in_app_or in Hu. destruct Hu as [Hu|[<-|[]]]; [apply (s_ref npl _ H u Hu)|]. simpl. rewrite H3. lia.
  - split; [tauto|]. split; [discriminate|].
    assert (Hno : forall t, ~ attached (set_tjs (set_g2 s (S (g2 s))) (map (fun t : tj => if dead t then t else let t1 := if e0 t =? id then set_end t false 0 else t in if e1 t1 =? id then set_end t1 true 0 else t1) (tjs s))) t id).
    { intros t (T1 & T2 & T3 & T4). cbn [tjs set_tjs set_g2] in T1. apply in_map_iff in T1. destruct T1 as (t0 & <- & T1). destruct (dead t0) eqn:D; [congruence|].
      cbv zeta in T4. destruct t0 as [ti tc td th a b hi ph]. cbn [e0 e1] in *.
      destruct (a =? id) eqn:Ea; cbn [e0 e1 set_end tid tctp dead halo thi pho] in T4; destruct (b =? id) eqn:Eb; cbn [e0 e1 set_end tid tctp dead halo thi pho] in T4;
        try apply Nat.eqb_neq in Ea; try apply Nat.eqb_neq in Eb; destruct T4; lia. }
    split; [intros _; split; [reflexivity|exact Hno]|]. split; [reflexivity|]. split; [reflexivity|].
    apply (but_sound _ id Hid0).
    + change (set_tjs (set_g2 s (S (g2 s))) ?l) with (set_g2 (set_tjs s l) (S (g2 s))).
      match goal with |- sound_but npl id (set_g2 (set_tjs s ?l) _) => assert (G : sound_but npl id (set_tjs s l)) end.
      { apply (proj2 (but_iff s id _ Hid0 H)). split; [|split].
        - intros i t Ht. rewrite nth_error_map in Ht. destruct (nth_error (tjs s) i) as [t0|] eqn:E2; [|discriminate]. injection Ht as <-.
          rewrite <- (A i t0 E2). destruct (dead t0); [reflexivity|]. cbv zeta. destruct t0 as [ti tc td th a b hi ph]. cbn [e0 e1].
          destruct (a =? id); cbn [e1 set_end]; destruct (b =? id); reflexivity.
        - intros t Ht Hha. apply in_map_iff in Ht. destruct Ht as (t0 & <- & Ht). specialize (B t0 Ht).
          destruct (dead t0) eqn:D; [auto|]. cbv zeta in *. destruct t0 as [ti tc td th a b hi ph]. cbn [e0 e1 halo] in *.
          destruct (a =? id); cbn [e1 set_end] in *; destruct (b =? id); cbn [e0 e1 halo set_end] in *; try (destruct (B Hha)); auto.
        - intros t x Ht Hd (Hx & Ho) Hne. apply in_map_iff in Ht. destruct Ht as (t0 & <- & Ht). specialize (C t0 x Ht).
          destruct (dead t0) eqn:D; [congruence|]. specialize (C eq_refl). cbv zeta in *. destruct t0 as [ti tc td th a b hi ph]. cbn [e0 e1 tctp] in *.
          assert (Ho' : a = x \/ b = x).
          { destruct (a =? id); cbn [e0 e1 set_end] in Ho; destruct (b =? id); cbn [e0 e1 set_end tid tctp dead halo thi pho] in Ho; destruct Ho; auto; try lia. }
          destruct (C (conj Hx Ho') Hne) as (u & U1 & U2).
          exists u. split; [exact U1|]. rewrite U2. destruct (a =? id); cbn [e1 set_end]; destruct (b =? id); reflexivity. }
      eapply but_same; [|exact G]. split; [reflexivity|split; reflexivity].
    + intros t T1 T2 T3. apply (Hno t). split; auto.
Qed.

End S.
