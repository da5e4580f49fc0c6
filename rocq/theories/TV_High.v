(** SetHighScoreBits and ScoreVertices: termination, and the flags are the connected components. *)
From Verif Require Import Base Util TV_Model TV_Spec TV_Kill BC_Cells.
From Coq Require Import QArith Qcanon Relations.
Local Open Scope nat_scope.

(** only the high-score flags differ *)
Definition flags (s s' : slice) : Prop :=
  map (fun t => set_thi t false) (tjs s) = map (fun t => set_thi t false) (tjs s') /\
  map (fun v => set_vhi v false) (vs s) = map (fun v => set_vhi v false) (vs s') /\
  ws s = ws s' /\ ps s = ps s' /\ g2 s = g2 s' /\ g3 s = g3 s'.

Lemma flags_refl s : flags s s. Proof. unfold flags; auto 10. Qed.
Lemma flags_trans a b c : flags a b -> flags b c -> flags a c.
Proof. unfold flags; intuition congruence. Qed.

Lemma thi_shape t t' : set_thi t false = set_thi t' false -> tj_shape t = tj_shape t' /\ pho t = pho t'.
Proof. intros H. destruct t, t'. unfold set_thi in H. simpl in H. injection H. intros. unfold tj_shape; simpl. subst. auto. Qed.
Lemma vhi_shape v v' : set_vhi v false = set_vhi v' false ->
  vid v = vid v' /\ vctp v = vctp v' /\ v3 v = v3 v' /\ vsc v = vsc v' /\ vuid v = vuid v' /\ nt v = nt v' /\ vwire v = vwire v'.
Proof.
  intros H. repeat split; [apply (f_equal vid) in H|apply (f_equal vctp) in H|apply (f_equal v3) in H|apply (f_equal vsc) in H
   |apply (f_equal vuid) in H|apply (f_equal nt) in H|apply (f_equal vwire) in H]; exact H.
Qed.

Lemma map_via {A B C} (f : A -> B) (g : A -> C) l l' :
  (forall a b, f a = f b -> g a = g b) -> map f l = map f l' -> map g l = map g l'.
Proof.
  intros H. revert l'. induction l as [|a l IH]; intros [|b l']; simpl; try discriminate; auto.
  intros E. injection E as E1 E2. f_equal; auto.
Qed.

Lemma flags_same s s' : flags s s' -> same s s'.
Proof.
  intros (A & B & C & _). repeat split.
  - eapply map_via; [|exact A]. intros a b H. apply thi_shape in H. tauto.
  - eapply map_via; [|exact B]. intros a b H. apply vhi_shape in H. unfold vx_shape. intuition congruence.
  - congruence.
Qed.
Lemma flags_sym s s' : flags s s' -> flags s' s.
Proof. unfold flags; intuition congruence. Qed.

Definition VH (s : slice) (x : nat) : Prop := exists v, nth1 (vs s) x = Some v /\ vhi v = true.
Definition TH (s : slice) (x : nat) : Prop := exists t, nth1 (tjs s) x = Some t /\ thi t = true.
(** trajectory [j] is live and attached to 2D vertex [x] *)
Definition att (s : slice) (j x : nat) : Prop := exists t, is_tj s j t /\ on t x.

Lemma att_same s s' j x : same s s' -> att s j x -> att s' j x.
Proof.
  intros (A & _) (t & (B & C) & D). symmetry in A. destruct (map_nth1_r _ _ _ _ _ A B) as (t' & E & F).
  injection F as F1 F2 F3 F4 F5 F6. exists t'. split; [split; congruence|]. unfold on in *. rewrite F5, F6. auto.
Qed.
Lemma linked_same s s' x y : same s s' -> linked s x y -> linked s' x y.
Proof.
  intros (A & _) (id & t & (B & C) & D & E). symmetry in A. destruct (map_nth1_r _ _ _ _ _ A B) as (t' & G & F).
  injection F as F1 F2 F3 F4 F5 F6. exists id, t'. split; [split; congruence|]. unfold on in *. rewrite F5, F6. auto.
Qed.
Lemma conn_same s s' x y : same s s' -> connected s x y -> connected s' x y.
Proof.
  intros H C. induction C; [apply rt_step; eapply linked_same; eauto|apply rt_refl|eapply rt_trans; eauto].
Qed.

Lemma flt_len {A} (f : A -> bool) l : length (filter f l) <= length l.
Proof. induction l as [|a l IH]; simpl; [lia|]. destruct (f a); simpl; lia. Qed.

Section S.
Variable npl : nat.

Lemma att_2V s j x : sound npl s -> att s j x -> exists v, is_2V s x v.
Proof.
  intros H (t & (A & B) & C). destruct (s_t2 npl s H t x) as (v & Hv & _); eauto. eapply nth1_in; eauto.
Qed.

Lemma upd_map_same {A B} (f : A -> B) l i a b : nth_error l i = Some a -> f b = f a -> map f (upd l i b) = map f l.
Proof.
  revert i. induction l as [|c l IH]; intros [|i]; simpl; try discriminate.
  - intros E F. injection E as <-. rewrite F. reflexivity.
  - intros E F. f_equal. auto.
Qed.

(** one end *)
Lemma mark_end_ok l out t e : (vtxid t e <> 0 -> exists v, nth1 l (vtxid t e) = Some v /\ vid v = vtxid t e) ->
  exists l' new, mark_end t (l, out) e = Ok (l', out ++ new) /\
    map (fun v => set_vhi v false) l = map (fun v => set_vhi v false) l' /\
    (forall x, (exists v, nth1 l' x = Some v /\ vhi v = true) <->
               (exists v, nth1 l x = Some v /\ vhi v = true) \/ (x <> 0 /\ x = vtxid t e)) /\
    (forall x, In x new <-> (exists v, nth1 l' x = Some v /\ vhi v = true) /\ ~ (exists v, nth1 l x = Some v /\ vhi v = true)).
Proof.
  intros H. unfold mark_end. destruct (vtxid t e =? 0) eqn:E.
  - exists l, []. rewrite app_nil_r. split; [auto|]. split; [auto|]. apply Nat.eqb_eq in E. split.
    + intros x. split; [auto|]. intros [G|(G1 & G2)]; [auto|lia].
    + intros x. simpl. tauto.
  - apply Nat.eqb_neq in E. destruct (H E) as (u & Hu & Hid). rewrite (at1_some _ _ _ Hu). cbn [obind].
    destruct (vhi u) eqn:Eu.
    + exists l, []. rewrite app_nil_r. split; [auto|]. split; [auto|]. split.
      * intros x. split; [auto|]. intros [G|(G1 & ->)]; [auto|]. eauto.
      * intros x. simpl. tauto.
    + exists (upd l (vtxid t e - 1) (set_vhi u true)), [vid u]. split; [auto|].
      pose proof (nth1_pos _ _ _ Hu) as (_ & Hn & _).
      assert (Hl : forall x, (exists v, nth1 (upd l (vtxid t e - 1) (set_vhi u true)) x = Some v /\ vhi v = true) <->
               (exists v, nth1 l x = Some v /\ vhi v = true) \/ (x <> 0 /\ x = vtxid t e)).
      { intros x. rewrite (nth1_upd _ _ u) by auto. destruct (x =? vtxid t e) eqn:Ex.
        - apply Nat.eqb_eq in Ex. subst x. split; [right; auto|]. intros _. eexists; split; [reflexivity|reflexivity].
        - apply Nat.eqb_neq in Ex. intuition. }
      split; [|split; [exact Hl|]].
      * symmetry. eapply upd_map_same; [exact Hn|reflexivity].
      * intros x. rewrite Hl. rewrite Hid. simpl. split.
        -- intros [<-|[]]. split; [right; auto|]. intros (v & G1 & G2). congruence.
        -- intros ([G|(G1 & ->)] & N); [tauto|auto].
Qed.

Lemma on_cases t x : on t x <-> (x <> 0 /\ x = vtxid t false) \/ (x <> 0 /\ x = vtxid t true).
Proof. unfold on, vtxid. intuition. Qed.

Lemma VHdec s x : VH s x \/ ~ VH s x.
Proof.
  unfold VH. destruct (nth1 (vs s) x) as [v|]; [|right; intros (v & E & _); discriminate].
  destruct (vhi v) eqn:E; [left; eauto|right; intros (w & E1 & E2); congruence].
Qed.

(** one trajectory *)
Lemma mark_tj_ok s out id t : sound npl s -> is_tj s id t ->
  exists s' new, mark_tj (s, out) id = Ok (s', out ++ new) /\ flags s s' /\
    (forall x, VH s' x <-> VH s x \/ on t x) /\
    (forall j, TH s' j <-> TH s j \/ j = id) /\
    (forall x, In x new <-> VH s' x /\ ~ VH s x).
Proof.
  intros H (Ht & Hd). pose proof (nth1_pos _ _ _ Ht) as (Hp & Hn & _).
  assert (H2 : forall x, on t x -> exists v, nth1 (vs s) x = Some v /\ vid v = x).
  { intros x Hx. destruct (s_t2 npl s H t x) as (v & Hv & _); eauto. eapply nth1_in; eauto. }
  unfold mark_tj. rewrite (at1_some _ _ _ Ht). cbn [obind].
  set (t' := set_thi t true).
  assert (Hv' : forall e, vtxid t' e = vtxid t e) by (intros []; reflexivity).
  destruct (mark_end_ok (vs s) out t' false) as (l1 & n1 & E1 & M1 & V1 & N1).
  { rewrite Hv'. intros Hz. apply H2. apply on_cases. left. auto. }
  rewrite E1. cbn [obind].
  destruct (mark_end_ok l1 (out ++ n1) t' true) as (l2 & n2 & E2 & M2 & V2 & N2).
  { rewrite Hv'. intros Hz. destruct (H2 (vtxid t true)) as (v & A & B); [apply on_cases; right; auto|].
    symmetry in M1. destruct (map_nth1_r _ _ _ _ _ M1 A) as (v' & C & D). apply vhi_shape in D.
    exists v'. split; [auto|]. destruct D as (D & _). congruence. }
  rewrite E2. cbn [obind fst snd]. eexists; exists (n1 ++ n2). rewrite <- app_assoc. split; [reflexivity|].
  rewrite !Hv' in *.
  assert (HV : forall x, (exists v, nth1 l2 x = Some v /\ vhi v = true) <-> VH s x \/ on t x).
  { intros x. rewrite V2, V1, on_cases. unfold VH. tauto. }
  split; [|split; [|split]].
  - unfold flags; cbn [tjs vs ws ps g2 g3]. split; [|split; [congruence|auto]].
    symmetry. eapply upd_map_same; [exact Hn|reflexivity].
  - intros x. exact (HV x).
  - intros j. unfold TH. cbn [tjs]. rewrite (nth1_upd _ _ t) by auto. destruct (j =? id) eqn:Ej.
    + apply Nat.eqb_eq in Ej. split; [auto|]. intros _. eexists; split; [reflexivity|reflexivity].
    + apply Nat.eqb_neq in Ej. intuition.
  - intros x. unfold VH at 1. cbn [vs]. rewrite in_app_iff, N1, N2. rewrite HV.
    destruct (VHdec s x) as [G|G].
    + unfold VH in *. split; [|tauto]. intros [(A & B)|(A & B)]; [tauto|]. exfalso. apply B. apply V1. auto.
    + rewrite V1, on_cases. unfold VH in *.
      destruct (Nat.eq_dec x (vtxid t false)) as [Z|Z]; [|tauto].
      destruct (Nat.eq_dec x 0) as [Z0|Z0]; tauto.
Qed.

Lemma is_tj_flags s s' j t : flags s s' -> is_tj s j t -> exists t', is_tj s' j t' /\ forall x, on t' x <-> on t x.
Proof.
  intros F (A & B). pose proof (flags_same _ _ F) as (C & _). symmetry in C.
  destruct (map_nth1_r _ _ _ _ _ C A) as (t' & E & D). injection D as D1 D2 D3 D4 D5 D6.
  exists t'. split; [split; congruence|]. intros x. unfold on. rewrite D5, D6. tauto.
Qed.

(** a list of trajectories *)
Lemma mark_list_ok s L : sound npl s -> (forall j, In j L -> exists t, is_tj s j t) ->
  exists s' new, foreach L mark_tj (s, []) = Ok (s', new) /\ flags s s' /\
    (forall x, VH s' x <-> VH s x \/ exists j, In j L /\ att s j x) /\
    (forall j, TH s' j <-> TH s j \/ In j L) /\
    (forall x, In x new <-> VH s' x /\ ~ VH s x).
Proof.
  intros H HL.
  destruct (foreach_pre (fun pre (st : slice * list nat) => flags s (fst st) /\
    (forall x, VH (fst st) x <-> VH s x \/ exists j, In j pre /\ att s j x) /\
    (forall j, TH (fst st) j <-> TH s j \/ In j pre) /\
    (forall x, In x (snd st) <-> VH (fst st) x /\ ~ VH s x)) mark_tj L (s, [])) as ((s' & new) & E & P).
  - split; [apply flags_refl|]. cbn [fst snd]. split; [|split].
    + intros x. split; [auto|]. intros [?|(j & [] & _)]; auto.
    + intros j. simpl. tauto.
    + intros x. simpl. tauto.
  - intros pre d post (s1 & out) EL (F & V1 & T1 & N1). cbn [fst snd] in *.
    destruct (HL d) as (t & Ht); [rewrite EL; apply in_or_app; right; left; auto|].
    destruct (is_tj_flags _ _ _ _ F Ht) as (t1 & Ht1 & Hon).
    assert (H1 : sound npl s1) by (eapply same_sound; [apply flags_same; exact F|exact H]).
    destruct (mark_tj_ok s1 out d t1 H1 Ht1) as (s2 & nw & E2 & F2 & V2 & T2 & N2).
    exists (s2, out ++ nw). split; [exact E2|]. cbn [fst snd]. split; [eapply flags_trans; eauto|].
    assert (Hatt : forall x, att s d x <-> on t x).
    { intros x. split; [|intros G; exists t; auto]. intros (t0 & (A & B) & C). destruct Ht as (Ht & _). congruence. }
    split; [|split].
    + intros x. rewrite V2, V1, Hon, <- Hatt. split.
      * intros [[G|(j & J1 & J2)]|G]; [auto|right; exists j; rewrite in_app_iff; auto|right; exists d; rewrite in_app_iff; simpl; auto].
      * intros [G|(j & J1 & J2)]; [auto|]. rewrite in_app_iff in J1. destruct J1 as [J1|[->|[]]]; eauto.
    + intros j. rewrite T2, T1, in_app_iff. simpl. intuition.
    + intros x. rewrite in_app_iff, N1, N2. rewrite V2. destruct (VHdec s1 x) as [G|G].
      * tauto.
      * assert (~ VH s x) by (intros G'; apply G; apply V1; auto). tauto.
  - exists s', new. cbn [fst snd] in P. split; [exact E|tauto].
Qed.

Lemma in_vtx_tjs s x v j : sound npl s -> is_2V s x v -> (In j (vtx_tjs s v) <-> att s j x).
Proof.
  intros H (A & B). unfold vtx_tjs. destruct (vid v =? 0) eqn:E.
  { apply Nat.eqb_eq in E. apply nth1_pos in A. lia. }
  apply Nat.eqb_neq in E. rewrite in_flat_map. split.
  - intros (t & Ht & Hin). destruct (dead t) eqn:D; [contradiction|].
    destruct (negb (tctp t =? vctp v)); [contradiction|].
    pose proof Ht as Ht2. apply In_nth_error in Ht. destruct Ht as (i & Ht). pose proof (s_tid npl s H i t Ht) as Hi.
    assert (j = S i /\ on t x).
    { unfold on. rewrite in_app_iff in Hin. destruct Hin as [Hin|Hin].
      - destruct (e0 t =? vid v) eqn:G; [|contradiction]. apply Nat.eqb_eq in G. destruct Hin as [Hin|[]]. split; [lia|]. split; [lia|left; lia].
      - destruct (e1 t =? vid v) eqn:G; [|contradiction]. apply Nat.eqb_eq in G. destruct Hin as [Hin|[]]. split; [lia|]. split; [lia|right; lia]. }
    destruct H0 as (-> & Hon). exists t. split; [split; auto|auto].
  - intros (t & (T1 & T2) & Hon). exists t. split; [eapply nth1_in; eauto|]. rewrite T2.
    destruct (s_t2 npl s H t x) as (u & (U1 & U2) & U3); [eapply nth1_in; eauto|auto|auto|].
    assert (u = v) by congruence. subst u. rewrite <- U3, Nat.eqb_refl. cbn [negb].
    assert (tid t = j). { destruct j; [simpl in T1; discriminate|]. simpl in T1. eapply (s_tid npl s); eauto. }
    destruct Hon as (_ & [G|G]); rewrite in_app_iff, G, B, Nat.eqb_refl; simpl; auto.
Qed.

Lemma new_tjs_ok s L vl : sound npl s -> (forall x, In x vl -> exists v, is_2V s x v) ->
  exists nl, new_tjs s L vl = Ok nl /\ forall j, In j nl <-> (exists x, In x vl /\ att s j x) /\ ~ In j L.
Proof.
  intros H Hv. unfold new_tjs.
  match goal with |- context [foreach vl ?body []] =>
    destruct (foreach_pre (fun pre nl => forall j, In j nl <-> (exists x, In x pre /\ att s j x) /\ ~ In j L) body vl []) as (nl & E & P) end.
  - intros j. split; [intros []|intros ((x & [] & _) & _)].
  - intros pre d post nl El P. destruct (Hv d) as (v & Hd); [rewrite El; apply in_or_app; right; left; auto|].
    pose proof Hd as (A & B). rewrite (at1_some _ _ _ A). cbn [obind]. eexists; split; [reflexivity|].
    intros j. rewrite in_app_iff, filter_In, P, (in_vtx_tjs s d v j H Hd).
    assert (Hex : negb (existsb (Nat.eqb j) L) = true <-> ~ In j L).
    { rewrite negb_true_iff. split.
      - intros G Hin. assert (existsb (Nat.eqb j) L = true); [|congruence]. apply existsb_exists. exists j. rewrite Nat.eqb_refl. auto.
      - intros G. destruct (existsb (Nat.eqb j) L) eqn:Q; [|auto]. apply existsb_exists in Q. destruct Q as (y & Q1 & Q2). apply Nat.eqb_eq in Q2. subst. contradiction. }
    rewrite Hex. split.
    + intros [((x & X1 & X2) & X3)|(X1 & X2)]; (split; [|auto]); [exists x; rewrite in_app_iff; auto|exists d; rewrite in_app_iff; simpl; auto].
    + intros ((x & X1 & X2) & X3). rewrite in_app_iff in X1. destruct X1 as [X1|[->|[]]]; [left|right]; eauto.
  - eauto.
Qed.

(** the number of vertices without the flag *)
Definition unflagged (s : slice) : nat := length (filter (fun v => negb (vhi v)) (vs s)).

Lemma count_le (l l' : list vx) : length l = length l' ->
  (forall i a, nth_error l i = Some a -> vhi a = true -> exists b, nth_error l' i = Some b /\ vhi b = true) ->
  length (filter (fun v => negb (vhi v)) l') <= length (filter (fun v => negb (vhi v)) l).
Proof.
  revert l'. induction l as [|a l IH]; intros [|b l'] HL H; simpl; try discriminate; auto.
  assert (G : length (filter (fun v => negb (vhi v)) l') <= length (filter (fun v => negb (vhi v)) l)).
  { apply IH; [simpl in HL; lia|]. intros i c. apply (H (S i) c). }
  destruct (vhi a) eqn:A.
  - destruct (H 0 a eq_refl A) as (b' & B1 & B2). simpl in B1. injection B1 as <-. rewrite B2. simpl. exact G.
  - destruct (vhi b); simpl; lia.
Qed.
Lemma count_lt (l l' : list vx) : length l = length l' ->
  (forall i a, nth_error l i = Some a -> vhi a = true -> exists b, nth_error l' i = Some b /\ vhi b = true) ->
  (exists i a b, nth_error l i = Some a /\ vhi a = false /\ nth_error l' i = Some b /\ vhi b = true) ->
  length (filter (fun v => negb (vhi v)) l') < length (filter (fun v => negb (vhi v)) l).
Proof.
  revert l'. induction l as [|a l IH]; intros [|b l'] HL H (i & c & d & C1 & C2 & C3 & C4); simpl in HL; try discriminate.
  { destruct i; discriminate. }
  assert (HH : forall i a, nth_error l i = Some a -> vhi a = true -> exists b, nth_error l' i = Some b /\ vhi b = true)
    by (intros k e; apply (H (S k) e)).
  destruct i as [|i]; simpl in C1, C3.
  - injection C1 as ->. injection C3 as ->. simpl. rewrite C2, C4. simpl.
    pose proof (count_le l l' ltac:(lia) HH). lia.
  - assert (G : length (filter (fun v => negb (vhi v)) l') < length (filter (fun v => negb (vhi v)) l)).
    { apply IH; [lia|exact HH|]. exists i, c, d. auto. }
    simpl. destruct (vhi a) eqn:A.
    + destruct (H 0 a eq_refl A) as (b' & B1 & B2). simpl in B1. injection B1 as <-. rewrite B2. simpl. exact G.
    + destruct (vhi b); simpl; lia.
Qed.

Lemma flags_len s s' : flags s s' -> length (vs s) = length (vs s').
Proof. intros (_ & A & _). apply (f_equal (@length _)) in A. rewrite !map_length in A. exact A. Qed.

Lemma unflagged_lt s s' : flags s s' -> (forall x, VH s x -> VH s' x) -> (exists x, VH s' x /\ ~ VH s x) ->
  unflagged s' < unflagged s.
Proof.
  intros F M (x & (b & B1 & B2) & Hn). unfold unflagged. apply count_lt.
  - apply flags_len. exact F.
  - intros i a A1 A2. destruct (M (S i)) as (c & C1 & C2); [exists a; auto|]. exists c. auto.
  - apply nth1_pos in B1. destruct B1 as (B0 & B1 & B3).
    rewrite <- (flags_len _ _ F) in B3. destruct (nth1_ex (vs s) x B0 B3) as (a & A).
    exists (x - 1), a, b. pose proof (nth1_pos _ _ _ A) as (_ & A' & _). split; [auto|]. split; [|auto].
    destruct (vhi a) eqn:E; [|reflexivity]. exfalso. apply Hn. exists a. auto.
Qed.

Definition done (s : slice) (j : nat) : Prop := TH s j /\ forall y, att s j y -> VH s y.
Definition closed (s : slice) : Prop := forall x j, VH s x -> att s j x -> done s j.

Lemma spread_ok fuel : forall s L, sound npl s -> (forall j, In j L -> exists x, att s j x) ->
  unflagged s < fuel ->
  exists s', spread fuel s L = Ok s' /\ flags s s' /\
    ((forall x j, VH s x -> att s j x -> In j L \/ done s j) -> closed s') /\
    (forall x, VH s x -> VH s' x) /\ (forall j, TH s j -> TH s' j) /\
    (forall j x, In j L -> att s j x -> VH s' x) /\
    (forall x, VH s' x -> VH s x \/ exists j y, In j L /\ att s j y /\ connected s y x) /\
    (forall j, TH s' j -> TH s j \/ exists x, att s j x /\ VH s' x).
Proof.
  induction fuel as [|f IH]; intros s L H HL Hf; [lia|]. simpl.
  destruct (mark_list_ok s L H) as (s1 & vl & E & F & V & Th & N).
  { intros j Hj. destruct (HL j Hj) as (x & t & Ht & _). eauto. }
  rewrite E. cbn [obind].
  assert (H1 : sound npl s1) by (eapply same_sound; [apply flags_same; exact F|exact H]).
  assert (Fa : forall j x, att s j x <-> att s1 j x).
  { intros j x. split; apply att_same; apply flags_same; [exact F|apply flags_sym; exact F]. }
  assert (HdL : forall j, In j L -> done s1 j).
  { intros j Hj. split; [apply Th; auto|]. intros y Hy. apply V. right. exists j. split; [auto|]. apply Fa. auto. }
  assert (Hd1 : forall j, done s j -> done s1 j).
  { intros j (D1 & D2). split; [apply Th; auto|]. intros y Hy. apply V. left. apply D2. apply Fa. auto. }
  assert (Hbase : (forall x, VH s x -> VH s1 x) /\ (forall j, TH s j -> TH s1 j) /\
    (forall j x, In j L -> att s j x -> VH s1 x) /\
    (forall x, VH s1 x -> VH s x \/ exists j y, In j L /\ att s j y /\ connected s y x) /\
    (forall j, TH s1 j -> TH s j \/ exists x, att s j x /\ VH s1 x)).
  { split; [intros x ?; apply V; auto|]. split; [intros j ?; apply Th; auto|].
    split; [intros j x ? ?; apply V; right; eauto|]. split.
    - intros x Hx. apply V in Hx. destruct Hx as [?|(j & J1 & J2)]; [auto|]. right. exists j, x. repeat split; auto. apply rt_refl.
    - intros j Hj. apply Th in Hj. destruct Hj as [?|Hj]; [auto|]. right. destruct (HL j Hj) as (x & Hx). exists x. split; [auto|].
      apply V. right. eauto. }
  destruct vl as [|v0 vl'].
  { exists s1. split; [reflexivity|]. split; [exact F|]. split; [|exact Hbase].
    intros J x j Hx Hj. destruct (VHdec s x) as [G|G].
    - destruct (J x j G) as [?|?]; [apply Fa; auto|auto|auto].
    - exfalso. assert (In x []) by (apply N; auto). contradiction. }
  set (vl := v0 :: vl') in *.
  destruct (new_tjs_ok s1 L vl H1) as (nl & En & Hn).
  { intros x Hx. apply N in Hx. destruct Hx as (Hx & Hnx). apply V in Hx. destruct Hx as [?|(j & J1 & J2)]; [contradiction|].
    eapply att_2V; [exact H1|]. apply Fa. exact J2. }
  rewrite En. cbn [obind].
  assert (J1 : (forall x j, VH s x -> att s j x -> In j L \/ done s j) -> forall x j, VH s1 x -> att s1 j x -> In j nl \/ done s1 j).
  { intros J x j Hx Hj. destruct (VHdec s x) as [G|G].
    - destruct (J x j G) as [?|?]; [apply Fa; auto|auto|auto].
    - destruct (in_dec Nat.eq_dec j L) as [?|?]; [auto|]. left. apply Hn. split; [|auto]. exists x. split; [apply N; auto|auto]. }
  destruct nl as [|n0 nl'] eqn:Enl.
  { exists s1. split; [reflexivity|]. split; [exact F|]. split; [|exact Hbase].
    intros J x j Hx Hj. destruct (J1 J x j Hx Hj) as [[]|?]; auto. }
  rewrite <- Enl in *. clear Enl.
  destruct (IH s1 nl H1) as (s' & E' & F' & C' & A1 & A2 & A3 & A4 & A5).
  - intros j Hj. apply Hn in Hj. destruct Hj as ((x & X1 & X2) & _). eauto.
  - assert (unflagged s1 < unflagged s); [|lia]. apply unflagged_lt; [exact F|tauto|]. exists v0. apply N. left. reflexivity.
  - exists s'. split; [exact E'|]. split; [eapply flags_trans; eauto|]. split; [intros J; apply C'; exact (J1 J)|].
    destruct Hbase as (B1 & B2 & B3 & B4 & B5). split; [auto|]. split; [auto|]. split; [eauto|]. split.
    + intros x Hx. apply A4 in Hx. destruct Hx as [Hx|(j & y & Y1 & Y2 & Y3)]; [auto|].
      apply Hn in Y1. destruct Y1 as ((z & Z1 & Z2) & _). apply N in Z1. destruct Z1 as (Z1 & Z3).
      destruct (B4 z Z1) as [?|(k & u & U1 & U2 & U3)]; [contradiction|]. right. exists k, u. split; [auto|]. split; [auto|].
      eapply rt_trans; [exact U3|]. eapply rt_trans; [|eapply conn_same; [apply flags_same; apply flags_sym; exact F|exact Y3]].
      apply rt_step. destruct Z2 as (tz & Tz & Oz). destruct Y2 as (ty & Ty & Oy).
      assert (ty = tz) by (destruct Tz, Ty; congruence). subst ty.
      eapply linked_same; [apply flags_same; apply flags_sym; exact F|]. exists j, tz. auto.
    + intros j Hj. apply A5 in Hj. destruct Hj as [Hj|(x & X1 & X2)].
      * destruct (B5 j Hj) as [?|(x & X1 & X2)]; [auto|]. right. exists x. split; [auto|auto].
      * right. exists x. split; [apply Fa; auto|auto].
Qed.

(** ** One seed *)

(** the flags are those of the components of the seeds [S] *)
Definition FB (s : slice) (S : nat -> Prop) : Prop :=
  (forall x v, is_2V s x v -> (VH s x <-> (exists u, S u /\ connected s u x) /\ exists j, att s j x)) /\
  (forall j t, is_tj s j t -> halo t = false -> (TH s j <-> exists x, att s j x /\ VH s x)).

Lemma conn_att s y x : connected s y x -> y = x \/ ((exists j, att s j y) /\ exists j, att s j x).
Proof.
  intros C. apply clos_rt_rt1n in C. induction C as [y|y z x (id & t & A & B & D) C IH]; [auto|].
  right. destruct IH as [->|(_ & IH)]; split; try exact IH; exists id, t; auto.
Qed.

Lemma closed_conn s a b : closed s -> VH s a -> connected s a b -> VH s b.
Proof.
  intros Hc Ha C. induction C as [a b (id & t & A & B & D)| |]; auto.
  destruct (Hc a id Ha) as (_ & G); [exists t; auto|]. apply G. exists t; auto.
Qed.

Lemma att_halo s j x t : sound npl s -> att s j x -> is_tj s j t -> halo t = false.
Proof.
  intros H (t' & (A & B) & (C & D)) (E & _). assert (t' = t) by congruence. subst.
  destruct (halo t) eqn:Hh; [|reflexivity]. destruct (s_halo npl s H t) as (G1 & G2); [eapply nth1_in; eauto|auto|]. lia.
Qed.

Lemma FB_ext s S S' : (forall u, S u <-> S' u) -> FB s S -> FB s S'.
Proof.
  intros E (A & B). split; [|exact B]. intros x v Hx. rewrite (A x v Hx). split; intros ((u & U1 & U2) & J); split; auto; exists u; split; auto; apply E; auto.
Qed.

Lemma seed_ok s S id v : sound npl s -> is_2V s id v -> FB s S ->
  exists s', spread (Datatypes.S (length (vs s))) (set_vs s (upd (vs s) (id - 1) (set_vhi v false)))
                (vtx_tjs (set_vs s (upd (vs s) (id - 1) (set_vhi v false))) v) = Ok s' /\
    flags s s' /\ FB s' (fun u => S u \/ u = id).
Proof.
  intros H Hv (FV & FT). pose proof Hv as (Hv1 & Hv2). pose proof (nth1_pos _ _ _ Hv1) as (Hp & Hn & _).
  set (s1 := set_vs s (upd (vs s) (id - 1) (set_vhi v false))).
  assert (F1 : flags s s1).
  { unfold flags, s1. cbn [tjs vs ws ps g2 g3 set_vs]. split; [auto|]. split; [|auto].
    symmetry. eapply upd_map_same; [exact Hn|reflexivity]. }
  assert (H1 : sound npl s1) by (eapply same_sound; [apply flags_same; exact F1|exact H]).
  assert (V1 : forall x, VH s1 x <-> VH s x /\ x <> id).
  { intros x. unfold VH, s1. cbn [vs set_vs]. rewrite (nth1_upd _ _ v) by auto. destruct (x =? id) eqn:E.
    - apply Nat.eqb_eq in E. split; [|tauto]. intros (u & U1 & U2). injection U1 as <-. discriminate.
    - apply Nat.eqb_neq in E. tauto. }
  assert (Hv' : is_2V s1 id (set_vhi v false)).
  { split; [|exact Hv2]. unfold s1. cbn [vs set_vs]. rewrite (nth1_upd _ _ v) by auto. rewrite Nat.eqb_refl. reflexivity. }
  assert (HL : forall j, In j (vtx_tjs s1 v) <-> att s j id).
  { intros j. change (vtx_tjs s1 v) with (vtx_tjs s1 (set_vhi v false)). rewrite (in_vtx_tjs s1 id _ j H1 Hv'). reflexivity. }
  assert (Fa : forall j x, att s j x <-> att s1 j x) by (intros; reflexivity).
  destruct (spread_ok (Datatypes.S (length (vs s))) s1 (vtx_tjs s1 v) H1) as (s' & E & F' & C & A1 & A2 & A3 & A4 & A5);
  [| |lapply C; [clear C; intros C|]].
  - intros j Hj. apply HL in Hj. eauto.
  - unfold unflagged, s1. cbn [vs set_vs].
    match goal with |- length (filter ?f ?l) < _ => pose proof (flt_len f l) as G end.
    rewrite upd_length in G. lia.
  - exists s'. split; [exact E|]. assert (F : flags s s') by (eapply flags_trans; eauto). split; [exact F|].
    pose proof (flags_same _ _ F) as Sm. pose proof (same_sym _ _ Sm) as Sm'.
    assert (Hid : forall j, att s j id -> VH s' id) by (intros j Hj; apply (A3 j id); [apply HL; auto|apply Fa; auto]).
    assert (Mono : forall x, VH s x -> (exists u, is_2V s x u) -> VH s' x).
    { intros x Hx (u & Hu). destruct (Nat.eq_dec x id) as [->|Q].
      - apply (FV id u Hu) in Hx. destruct Hx as (_ & j & Hj). eauto.
      - apply A1. apply V1. auto. }
    split.
    + intros x u Hu. destruct (same_2V _ _ _ _ Sm' Hu) as (u0 & Hu0 & _). split.
      * intros Hx. apply A4 in Hx. destruct Hx as [Hx|(j & y & Y1 & Y2 & Y3)].
        -- apply V1 in Hx. destruct Hx as (Hx & _). apply (FV x u0 Hu0) in Hx. destruct Hx as ((w & W1 & W2) & j & Hj).
           split; [|exists j; eapply att_same; eauto]. exists w. split; [auto|]. eapply conn_same; eauto.
        -- apply HL in Y1. apply Fa in Y2.
           assert (Cx : connected s id x).
           { eapply rt_trans; [apply rt_step|exact Y3]. destruct Y1 as (t & T1 & T2). destruct Y2 as (t' & T3 & T4).
             assert (t' = t) by (destruct T1, T3; congruence). subst. exists j, t. auto. }
           split; [exists id; split; [auto|eapply conn_same; eauto]|].
           destruct (conn_att s y x Y3) as [->|(_ & k & Hk)]; [exists j; eapply att_same; eauto|exists k; eapply att_same; eauto].
      * intros ((w & [W1| ->] & W2) & j & Hj).
        -- apply Mono; [|eauto]. apply (FV x u0 Hu0). split; [exists w; split; [auto|]; eapply conn_same; eauto|exists j; eapply att_same; eauto].
        -- eapply closed_conn; [exact C| |exact W2].
           destruct (conn_att s' id x W2) as [->|((k & Hk) & _)]; [apply (Hid j)|apply (Hid k)]; eapply att_same; eauto.
    + intros j t Ht Hh. destruct (same_sym _ _ Sm) as (Q & _). pose proof Ht as (Ht1 & Ht2). pose proof Sm as (Q' & _).
      destruct (map_nth1_r _ _ _ _ _ Q' Ht1) as (t0 & T1 & T2). injection T2 as T2 T3 T4 T5 T6 T7.
      assert (Ht0 : is_tj s j t0) by (split; congruence). split.
      * intros Hj. apply A5 in Hj. destruct Hj as [Hj|(x & X1 & X2)].
        -- change (TH s j) in Hj. apply (FT j t0 Ht0) in Hj; [|congruence]. destruct Hj as (x & X1 & X2).
           exists x. split; [eapply att_same; eauto|]. apply Mono; [auto|]. eapply att_2V; eauto.
        -- exists x. split; [eapply att_same; [apply flags_same; exact F|]|]; auto.
      * intros (x & X1 & X2). destruct (C x j X2 X1) as (G & _). exact G.
  - intros x j Hx Hj. apply V1 in Hx. destruct Hx as (Hx & Hne). apply Fa in Hj.
    destruct (att_2V s j x H Hj) as (u & Hu). apply (FV x u Hu) in Hx. destruct Hx as ((w & W1 & W2) & _).
    pose proof Hj as (t & Ht & Hon).
    destruct (Nat.eq_dec (e0 t) id) as [Q|Q]; [left; apply HL; exists t; split; [exact Ht|split; [lia|auto]]|].
    destruct (Nat.eq_dec (e1 t) id) as [Q2|Q2]; [left; apply HL; exists t; split; [exact Ht|split; [lia|auto]]|].
    right. split.
    + change (TH s j). apply (FT j t Ht); [eapply att_halo; eauto|]. exists x. split; [auto|]. apply (FV x u Hu). eauto.
    + intros y Hy. apply Fa in Hy. apply V1. destruct (att_2V s j y H Hy) as (uy & Huy). split.
      * apply (FV y uy Huy). split; [|eauto]. exists w. split; [auto|]. eapply rt_trans; [exact W2|]. apply rt_step.
        destruct Hy as (t' & Ht' & Hony). assert (t' = t) by (destruct Ht, Ht'; congruence). subst t'. exists j, t. auto.
      * destruct Hy as (t' & Ht' & Hony). assert (t' = t) by (destruct Ht, Ht'; congruence). subst t'. destruct Hony as (_ & [?|?]); lia.
Qed.

(** SetHighScoreBits *)
Lemma high_bits_ok s S ids : sound npl s -> FB s S -> (forall x, In x ids -> x <> 0 -> exists v, is_2V s x v) ->
  exists s', high_bits s ids = Ok s' /\ flags s s' /\ FB s' (fun u => S u \/ (u <> 0 /\ In u ids)).
Proof.
  intros H HF Hi. unfold high_bits.
  match goal with |- context [foreach ids ?body s] =>
    destruct (foreach_pre (fun pre s' => flags s s' /\ FB s' (fun u => S u \/ (u <> 0 /\ In u pre))) body ids s) as (s' & E & P) end.
  - split; [apply flags_refl|]. eapply FB_ext; [|exact HF]. intros u. simpl. tauto.
  - intros pre d post s1 El (F & B). destruct (d =? 0) eqn:Ed.
    + apply Nat.eqb_eq in Ed. exists s1. split; [reflexivity|]. split; [exact F|]. eapply FB_ext; [|exact B].
      intros u. rewrite in_app_iff. simpl. intuition lia.
    + apply Nat.eqb_neq in Ed. destruct (Hi d) as (v & Hv); [rewrite El; apply in_or_app; right; left; auto|auto|].
      destruct (same_2V _ _ _ _ (flags_same _ _ F) Hv) as (v1 & Hv1 & _).
      pose proof Hv1 as (A & _). rewrite (at1_some _ _ _ A). cbn [obind].
      assert (H1 : sound npl s1) by (eapply same_sound; [apply flags_same; exact F|exact H]).
      destruct (seed_ok s1 _ d v1 H1 Hv1 B) as (s2 & E2 & F2 & B2). exists s2. split; [exact E2|].
      split; [eapply flags_trans; eauto|]. eapply FB_ext; [|exact B2]. intros u. rewrite in_app_iff. simpl. intuition; subst; auto.
  - exists s'. tauto.
Qed.

(** without knowing the flags: it ends, and only flags change *)
Lemma high_bits_total s ids : sound npl s -> (forall x, In x ids -> x <> 0 -> exists v, nth1 (vs s) x = Some v) ->
  exists s', high_bits s ids = Ok s' /\ flags s s'.
Proof.
  intros H Hi. unfold high_bits.
  match goal with |- context [foreach ids ?body s] =>
    destruct (foreach_pre (fun pre s' => flags s s') body ids s) as (s' & E & P) end; [apply flags_refl| |eauto].
  intros pre d post s1 El F. destruct (d =? 0) eqn:Ed; [eauto|]. apply Nat.eqb_neq in Ed.
  destruct (Hi d) as (v & Hv); [rewrite El; apply in_or_app; right; left; auto|auto|].
  pose proof (flags_sym _ _ F) as (_ & Q & _). destruct (map_nth1_r _ _ _ _ _ Q Hv) as (v1 & Hv1 & _).
  rewrite (at1_some _ _ _ Hv1). cbn [obind].
  pose proof (nth1_pos _ _ _ Hv1) as (_ & Hn & _).
  set (s2 := set_vs s1 (upd (vs s1) (d - 1) (set_vhi v1 false))).
  assert (F1 : flags s1 s2).
  { unfold flags, s2. cbn [tjs vs ws ps g2 g3 set_vs]. split; [auto|]. split; [|auto].
    symmetry. eapply upd_map_same; [exact Hn|reflexivity]. }
  assert (F2 : flags s s2) by (eapply flags_trans; eauto).
  assert (H2 : sound npl s2) by (eapply same_sound; [apply flags_same; exact F2|exact H]).
  destruct (spread_ok (S (length (vs s1))) s2 (vtx_tjs s2 v1) H2) as (s' & E & F' & _).
  - intros j Hj. unfold vtx_tjs in Hj. destruct (vid v1 =? 0) eqn:E0; [contradiction|].
    apply Nat.eqb_neq in E0. exists d.
    assert (Hd2 : is_2V s2 d (set_vhi v1 false)).
    { split; [unfold s2; cbn [vs set_vs]; rewrite (nth1_upd _ _ v1) by auto; rewrite Nat.eqb_refl; reflexivity|].
      destruct d; [lia|]. destruct (s_vid npl s2 H2 d (set_vhi v1 false)) as [G|G]; [|contradiction|exact G].
      unfold s2. cbn [vs set_vs]. rewrite nth_error_upd. replace (S d - 1) with d by lia. rewrite Nat.eqb_refl.
      assert (d < length (vs s1)) by (apply nth_error_Some; simpl in Hv1; congruence).
      destruct (d <? length (vs s1)) eqn:El2; [reflexivity|]. apply Nat.ltb_ge in El2. lia. }
    apply (in_vtx_tjs s2 d (set_vhi v1 false) j H2 Hd2). unfold vtx_tjs. cbn [vid vctp set_vhi].
    destruct (vid v1 =? 0) eqn:E1; [apply Nat.eqb_eq in E1; contradiction|]. exact Hj.
  - unfold unflagged, s2. cbn [vs set_vs].
    match goal with |- length (filter ?f ?l) < _ => pose proof (flt_len f l) as G end.
    rewrite upd_length in G. lia.
  - exists s'. split; [exact E|]. eapply flags_trans; eauto.
Qed.

Definition clamp (q : Qc) : Qc := if qlt q (Q2Qc (1 # 1000)) then Q2Qc (1 # 1000) else q.

Lemma vx3_score_ok s ids : (forall x, In x ids -> x <> 0 -> exists v, nth1 (vs s) x = Some v) ->
  vx3_score npl s ids = Ok (clamp (score_sum s ids / Q2Qc (inject_Z (Z.of_nat npl)))%Qc).
Proof.
  intros Hi. unfold vx3_score, clamp.
  match goal with |- context [foreach ids ?body ?z] => assert (E : forall acc, foreach ids body acc = Ok (acc + score_sum s ids)%Qc) end.
  { induction ids as [|x ids IH]; intros acc; simpl; [f_equal; ring|].
    destruct x as [|x]; simpl Nat.eqb; cbn iota.
    - cbn [obind]. rewrite IH by (intros; apply Hi; simpl; auto). f_equal. simpl. ring.
    - destruct (Hi (S x)) as (v & Hv); [left; auto|lia|]. rewrite (at1_some _ _ _ Hv). cbn [obind].
      rewrite IH by (intros; apply Hi; simpl; auto). f_equal. simpl in Hv. simpl. rewrite Hv. ring. }
  rewrite E. cbn [obind]. rewrite Qcplus_0_l. reflexivity.
Qed.

Variable cut : Qc.

(** what SetVx3Score leaves alone: everything but flags and this score *)
Lemma set_vx3_score_total s k w : sound npl s -> nth_error (ws s) k = Some w ->
  exists s', set_vx3_score npl cut s k = Ok s' /\ same s s' /\ length (ws s') = length (ws s).
Proof.
  intros H Hw. unfold set_vx3_score. rewrite (idx_some _ _ _ Hw). cbn [obind].
  destruct (wid w =? 0) eqn:E; [exists s; repeat split; reflexivity|]. apply Nat.eqb_neq in E.
  assert (Hi : forall x, In x (w2 w) -> x <> 0 -> exists v, nth1 (vs s) x = Some v).
  { intros x Hx Hx0. apply In_nth_error in Hx. destruct Hx as (p & Hp).
    assert (Hid : wid w = S k) by (destruct (s_wid npl s H k w Hw); [contradiction|auto]).
    destruct (s_32 npl s H (S k) w p x) as (v & (Hv & _) & _); [split; auto|auto|auto|]. eauto. }
  rewrite (vx3_score_ok s _ Hi). cbn [obind].
  set (s1 := set_ws s (upd (ws s) k (set_wsc w _))).
  assert (S1 : same s s1).
  { unfold same, s1. cbn [tjs vs ws set_ws]. split; [auto|]. split; [auto|]. symmetry. eapply upd_map_same; [exact Hw|reflexivity]. }
  assert (L1 : length (ws s1) = length (ws s)) by (unfold s1; cbn [ws set_ws]; apply upd_length).
  match goal with |- context [qlt cut ?x] => destruct (qlt cut x) end; [|eauto].
  assert (H1 : sound npl s1) by (eapply same_sound; eauto).
  destruct (high_bits_total s1 (w2 w) H1) as (s' & Es & F); [exact Hi|]. exists s'. split; [exact Es|].
  split; [eapply same_trans; [exact S1|apply flags_same; exact F]|]. destruct F as (_ & _ & F & _). congruence.
Qed.

(** ** ScoreVertices *)

Definition scored (k : nat) (s0 s : slice) : Prop :=
  same s0 s /\ map vsc (vs s) = map vsc (vs s0) /\ ps s = ps s0 /\ length (ws s) = length (ws s0) /\
  (forall i w, nth_error (ws s) i = Some w -> i < k -> wid w <> 0 ->
     wsc w = clamp (score_sum s (w2 w) / Q2Qc (inject_Z (Z.of_nat npl)))%Qc) /\
  FB s (fun u => u <> 0 /\ exists i w, i < k /\ is_3V s (S i) w /\ (cut < wsc w)%Qc /\ In u (w2 w)).

Lemma score_sum_ext s s' ids : map vsc (vs s) = map vsc (vs s') -> score_sum s ids = score_sum s' ids.
Proof.
  intros E. induction ids as [|x ids IH]; simpl; [reflexivity|]. rewrite IH. f_equal.
  destruct x as [|x]; [reflexivity|]. simpl.
  assert (G : nth_error (map vsc (vs s)) x = nth_error (map vsc (vs s')) x) by congruence.
  rewrite !nth_error_map in G. destruct (nth_error (vs s) x), (nth_error (vs s') x); simpl in G; congruence.
Qed.

Lemma FB_score s k w w' S : nth_error (ws s) k = Some w -> FB s S -> FB (set_ws s (upd (ws s) k w')) S.
Proof. intros _ B. exact B. Qed.

Lemma score3_loop s0 n : sound npl s0 -> FB s0 (fun _ => False) -> n = length (ws s0) ->
  exists s', for_ (seq 0 n) (fun s k => do w <- idx (ws s) k; if wid w =? 0 then Ok s else set_vx3_score npl cut s k) s0 = Ok s' /\
    scored n s0 s'.
Proof.
  intros H HF Hlen.
  destruct (for_seq_inv (fun k s => scored k s0 s) (fun s k => do w <- idx (ws s) k; if wid w =? 0 then Ok s else set_vx3_score npl cut s k) 0 n s0) as (s' & E & P).
  - split; [apply same_refl|]. split; [auto|]. split; [auto|]. split; [auto|]. split; [intros; lia|].
    eapply FB_ext; [|exact HF]. intros u. split; [tauto|]. intros (_ & i & w & Hi & _). lia.
  - intros k s Hk (Sm & Vsc & Hp & Hl & Hsc & B).
    assert (Hs : sound npl s) by (eapply same_sound; eauto).
    destruct (nth_error (ws s) k) as [w|] eqn:Ew; [|apply nth_error_None in Ew; lia].
    rewrite (idx_some _ _ _ Ew). cbn [obind]. destruct (wid w =? 0) eqn:E0.
    { apply Nat.eqb_eq in E0. exists s. split; [reflexivity|]. split; [auto|]. split; [auto|]. split; [auto|]. split; [auto|]. split.
      - intros i w' Hw' Hi Hn. destruct (Nat.eq_dec i k) as [->|Q]; [congruence|]. apply (Hsc i w'); auto; lia.
      - eapply FB_ext; [|exact B]. intros u. split; intros (U0 & i & w' & U1 & U2 & U3); (split; [auto|]); exists i, w'; (split; [|auto]); [lia|].
        destruct (Nat.eq_dec i k) as [->|Q]; [|lia]. destruct U2 as (U2 & U4). simpl in U2. assert (w' = w) by congruence. subst. lia. }
    apply Nat.eqb_neq in E0. unfold set_vx3_score. rewrite (idx_some _ _ _ Ew). cbn [obind].
    destruct (wid w =? 0) eqn:E1; [apply Nat.eqb_eq in E1; contradiction|]. clear E1.
    assert (Hid : wid w = S k) by (destruct (s_wid npl s Hs k w Ew); [contradiction|auto]).
    assert (Hi : forall x, In x (w2 w) -> x <> 0 -> exists v, is_2V s x v).
    { intros x Hx Hx0. apply In_nth_error in Hx. destruct Hx as (p & Hpp).
      destruct (s_32 npl s Hs (S k) w p x) as (v & Hv & _); [split; auto|auto|auto|]. eauto. }
    rewrite (vx3_score_ok s _) by (intros x X1 X2; destruct (Hi x X1 X2) as (v & G & _); eauto). cbn [obind].
    set (q := clamp _). set (s1 := set_ws s (upd (ws s) k (set_wsc w q))).
    assert (S1 : same s s1).
    { unfold same, s1. cbn [tjs vs ws set_ws]. split; [auto|]. split; [auto|]. symmetry. eapply upd_map_same; [exact Ew|reflexivity]. }
    assert (H1 : sound npl s1) by (eapply same_sound; eauto).
    assert (Nw : forall i, nth_error (ws s1) i = if i =? k then Some (set_wsc w q) else nth_error (ws s) i).
    { intros i. unfold s1. cbn [ws set_ws]. rewrite nth_error_upd. destruct (i =? k) eqn:Ei; [|reflexivity].
      assert (Hk2 : k < length (ws s)) by lia. apply Nat.eqb_eq in Ei. subst i. apply Nat.ltb_lt in Hk2. rewrite Hk2. reflexivity. }
    assert (Fin : forall s', flags s1 s' ->
        FB s' (fun u => (u <> 0 /\ exists i w, i < k /\ is_3V s (S i) w /\ (cut < wsc w)%Qc /\ In u (w2 w)) \/ (u <> 0 /\ (cut < q)%Qc /\ In u (w2 w))) ->
        scored (S k) s0 s').
    { intros s' F FBs. pose proof F as (F1 & F2 & F3 & F4 & F5 & F6). pose proof (flags_same _ _ F) as Sm2.
      assert (Ev : map vsc (vs s') = map vsc (vs s)).
      { symmetry. change (vs s) with (vs s1). eapply map_via; [|exact F2]. intros a b G. apply vhi_shape in G. tauto. }
      split; [eapply same_trans; [exact Sm|eapply same_trans; eauto]|]. split; [congruence|].
      split; [rewrite <- F4; exact Hp|]. split; [rewrite <- F3; unfold s1; cbn [ws set_ws]; rewrite upd_length; auto|]. split.
      - intros i w' Hw' Hi2 Hn. rewrite <- F3 in Hw'. rewrite Nw in Hw'. rewrite (score_sum_ext s' s) by exact Ev.
        destruct (i =? k) eqn:Ei; [injection Hw' as <-; reflexivity|]. apply Nat.eqb_neq in Ei. apply (Hsc i w'); auto; lia.
      - eapply FB_ext; [|exact FBs]. intros u. unfold is_3V. simpl nth1. rewrite <- F3. split.
        + intros [(U0 & i & w' & U1 & (U2 & U3) & U4 & U5)|(U0 & U1 & U2)]; (split; [auto|]).
          * exists i, w'. split; [lia|]. rewrite Nw. destruct (i =? k) eqn:Ei; [apply Nat.eqb_eq in Ei; lia|]. auto.
          * exists k, (set_wsc w q). split; [lia|]. rewrite Nw, Nat.eqb_refl. auto.
        + intros (U0 & i & w' & U1 & (U2 & U3) & U4 & U5). rewrite Nw in U2. destruct (i =? k) eqn:Ei.
          * injection U2 as <-. right. auto.
          * apply Nat.eqb_neq in Ei. left. split; [auto|]. exists i, w'. split; [lia|auto]. }
    destruct (qlt cut q) eqn:Eq.
    + destruct (high_bits_ok s1 _ (w2 w) H1 B) as (s' & Es & F & FB'); [exact Hi|].
      exists s'. split; [exact Es|]. apply Fin; [exact F|]. eapply FB_ext; [|exact FB'].
      intros u. assert (cut < q)%Qc by (unfold qlt in Eq; destruct (Qclt_le_dec cut q); [auto|discriminate]). tauto.
    + exists s1. split; [reflexivity|]. apply Fin; [apply flags_refl|]. eapply FB_ext; [|exact B].
      intros u. assert (~ (cut < q)%Qc) by (unfold qlt in Eq; destruct (Qclt_le_dec cut q) as [?|G]; [discriminate|]; intros G2; eapply Qclt_not_le; eauto). tauto.
  - exists s'. split; [exact E|exact P].
Qed.

Theorem score_vertices_ok sc s : sound npl s ->
  exists s', score_vertices npl cut sc s = Ok s' /\ same s s' /\ ps s' = ps s /\
    (forall x v, is_2V s' x v -> exists si, same s si /\ vsc v = sc si (x - 1)) /\
    (forall k w, is_3V s' k w -> wsc w = clamp (score_sum s' (w2 w) / Q2Qc (inject_Z (Z.of_nat npl)))%Qc) /\
    FB s' (high_seed cut s').
Proof.
  intros H. unfold score_vertices.
  set (s1 := set_vs s (map (fun v => if vid v =? 0 then v else set_vhi v false) (vs s))).
  set (s2 := set_tjs s1 (map (fun t => if dead t || halo t then t else set_thi t false) (tjs s1))).
  assert (M2 : same s s2).
  { unfold same, s2, s1. cbn [tjs vs ws set_tjs set_vs]. rewrite !map_map. split; [|split; [|reflexivity]].
    - apply map_ext. intros t. destruct (dead t || halo t); reflexivity.
    - apply map_ext. intros v. destruct (vid v =? 0); reflexivity. }
  assert (H2 : sound npl s2) by (eapply same_sound; eauto).
  (* the 2D scores *)
  destruct (for_seq_inv (fun i t => same s t /\ tjs t = tjs s2 /\ ws t = ws s2 /\ ps t = ps s2 /\ map vhi (vs t) = map vhi (vs s2) /\
     (forall j v, nth_error (vs t) j = Some v -> j < i -> vid v <> 0 -> exists si, same s si /\ vsc v = sc si j))
     (set_vx2_score sc) 0 (length (vs s2)) s2) as (s3 & E3 & M3 & T3 & W3 & P3 & V3 & Sc3).
  - split; [auto|]. do 4 (split; [auto|]). intros; lia.
  - intros i t Hi (A & B & C & D & E & F). unfold set_vx2_score.
    assert (Hlen : length (vs t) = length (vs s2)) by (apply (f_equal (@length _)) in E; rewrite !map_length in E; exact E).
    destruct (nth_error (vs t) i) as [v|] eqn:Ev; [|apply nth_error_None in Ev; lia].
    rewrite (idx_some _ _ _ Ev). cbn [obind]. destruct (vid v =? 0) eqn:Ez.
    + exists t. split; [reflexivity|]. do 5 (split; [auto|]). intros j u Hu Hj Hn. destruct (Nat.eq_dec j i) as [->|Q].
      * apply Nat.eqb_eq in Ez. congruence.
      * apply (F j u); auto; lia.
    + eexists; split; [reflexivity|]. split; [|cbn [tjs vs ws ps set_vs]; do 3 (split; [auto|]); split].
      * eapply same_trans; [exact A|]. unfold same. cbn [tjs vs ws set_vs]. split; [auto|]. split; [|auto].
        symmetry. eapply upd_map_same; [exact Ev|reflexivity].
      * rewrite <- E. eapply upd_map_same; [exact Ev|reflexivity].
      * intros j u Hu Hj Hn. rewrite nth_error_upd in Hu. destruct (j =? i) eqn:Ej.
        -- apply Nat.eqb_eq in Ej. subst j. assert (Hl2 : (i <? length (vs t)) = true) by (apply Nat.ltb_lt; lia). rewrite Hl2 in Hu. cbn [andb] in Hu. injection Hu as <-. exists t. auto.
        -- apply Nat.eqb_neq in Ej. cbn [andb] in Hu. apply (F j u); auto; lia.
  - rewrite E3. cbn [obind]. change (0 + length (vs s2)) with (length (vs s2)) in Sc3.
    assert (H3 : sound npl s3) by (eapply same_sound; eauto).
    assert (FB3 : FB s3 (fun _ => False)).
    { assert (NV : forall x v, is_2V s3 x v -> vhi v = false).
      { intros x v (A & B). destruct x as [|x]; [discriminate|]. simpl in A.
        destruct (map_nth_r vhi (vs s2) (vs s3) x v) as (u & U1 & U2); [auto|auto|].
        assert (S23 : same s2 s3) by (eapply same_trans; [apply same_sym; exact M2|exact M3]).
        destruct S23 as (_ & Q & _). destruct (map_nth_r vx_shape (vs s2) (vs s3) x v Q A) as (u' & U3 & U4).
        assert (u' = u) by congruence. subst u'. injection U4 as U4 _ _. rewrite <- U2.
        unfold s2, s1 in U1. cbn [vs set_tjs set_vs] in U1. rewrite nth_error_map in U1. destruct (nth_error (vs s) x) as [u0|]; [|discriminate].
        simpl in U1. injection U1 as <-. destruct (vid u0 =? 0) eqn:Z; [|reflexivity]. apply Nat.eqb_eq in Z. congruence. }
      split.
      - intros x v Hx. split; [|intros ((u & [] & _) & _)]. intros (v' & A & B). pose proof (NV x v Hx). destruct Hx. congruence.
      - intros j t (A & D) Hh. split.
        + intros (t' & A' & B'). assert (t' = t) by congruence. subst t'. exfalso.
          rewrite T3 in A. destruct j as [|j]; [discriminate|]. simpl in A. unfold s2, s1 in A. cbn [tjs set_tjs set_vs] in A.
          rewrite nth_error_map in A. destruct (nth_error (tjs s) j) as [t0|]; [|discriminate]. simpl in A. injection A as A.
          destruct (dead t0 || halo t0) eqn:Z; subst t; [rewrite D, Hh in Z; discriminate|discriminate].
        + intros (x & X1 & (v & X2 & X3)). destruct (att_2V s3 j x H3 X1) as (v' & Hv'). pose proof (NV x v' Hv'). destruct Hv'. congruence. }
    destruct (score3_loop s3 (length (ws s3)) H3 FB3 eq_refl) as (s' & E' & Sm & Vsc & Pp & Hl & Hsc & B).
    exists s'. split; [exact E'|]. assert (SS : same s s') by (eapply same_trans; eauto). split; [exact SS|].
    split; [rewrite Pp, P3; reflexivity|]. split; [|split].
    + intros x v (A & A'). destruct x as [|x]; [discriminate|]. simpl in A.
      destruct (map_nth_r vsc (vs s3) (vs s') x v) as (u & U1 & U2); [auto|auto|].
      destruct Sm as (_ & Q & _). destruct (map_nth_r vx_shape (vs s3) (vs s') x v Q A) as (u' & U3 & U4).
      assert (u' = u) by congruence. subst u'. injection U4 as U4 _ _.
      destruct (Sc3 x u U1) as (si & Z1 & Z2).
      * assert (x < length (vs s3)) by (apply nth_error_Some; congruence).
        apply (f_equal (@length _)) in V3. rewrite !map_length in V3. lia.
      * rewrite U4, A'. lia.
      * exists si. split; [auto|]. simpl. rewrite Nat.sub_0_r. congruence.
    + intros k w (A & A'). destruct k as [|k]; [discriminate|]. simpl in A. apply (Hsc k w A).
      * assert (k < length (ws s')) by (apply nth_error_Some; congruence). lia.
      * lia.
    + eapply FB_ext; [|exact B]. intros u. unfold high_seed. split.
      * intros (U0 & i & w & U1 & U2 & U3). split; [auto|]. exists (S i), w. auto.
      * intros (U0 & k & w & U2 & U3). split; [auto|]. destruct k as [|k]; [destruct U2; discriminate|].
        exists k, w. split; [|auto]. destruct U2 as (U2 & _). simpl in U2. assert (k < length (ws s')) by (apply nth_error_Some; congruence). lia.
Qed.

End S.
