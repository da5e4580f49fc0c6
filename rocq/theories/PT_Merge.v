From Verif Require Import Base Util SortedObj_Model SortedObj_Spec SortedObj_Proofs PT_Model PT_Spec PT_Proofs PT_Ids.

(* ------------------------------------------------------------ wf in terms of the forest of children *)
Definition forest_of (h : heap) : forest := fun x => match h x with Some o => Some (o_branch o, kids o) | None => None end.
Lemma children_of h x : children (forest_of h) x = match h x with Some o => kids o | None => [] end.
Proof. unfold children, forest_of. destruct (h x); reflexivity. Qed.
Lemma linked_R h : linked h -> R h (forest_of h).
Proof.
  intros [A B C D E]. exists (fun x => match h x with Some o => o_prev o | None => None end). split.
  - intros x. unfold cell, forest_of. destruct (h x) as [o|] eqn:Eo; [|reflexivity]. f_equal. destruct o as [k nx pv l] eqn:Eq. cbn [o_prev o_branch]. unfold kids. cbn. destruct k.
    + assert (X := D x _ Eo eq_refl). cbn in X. rewrite X. reflexivity.
    + assert (X := E x _ Eo eq_refl). cbn in X. subst l. destruct nx; reflexivity.
  - split.
    + intros x y. rewrite children_of. split.
      * destruct (h x) as [o|] eqn:Eo; [|discriminate]. intros Ep. destruct (A x o y Eo Ep) as (oy & X & Y). rewrite X. exact Y.
      * destruct (h y) as [oy|] eqn:Ey; [|intros []]. intros Hin. destruct (B y oy x Ey Hin) as (o & X & Y & _). rewrite X. exact Y.
    + intros y. rewrite children_of. destruct (h y) as [oy|] eqn:Ey; [apply (C y oy Ey)|constructor].
    + intros y. rewrite children_of. destruct (h y) as [oy|] eqn:Ey; [|intros []]. intros Hin. destruct (B y oy y Ey Hin) as (o & X & Y & Z). assert (o = oy) by congruence. subst o. destruct (o_branch oy); discriminate.
    + intros x y. rewrite children_of. destruct (h y) as [oy|] eqn:Ey; [|intros []]. intros Hin. destruct (B y oy x Ey Hin) as (o & X & _). unfold live, forest_of. rewrite X. discriminate.
    + intros y Hb. rewrite children_of. unfold is_branch, forest_of in Hb. destruct (h y) as [oy|]; [|cbn; lia]. unfold kids. rewrite Hb. destruct (o_next oy); cbn; lia.
Qed.
(** the shape of the world on the forest *)
Record wfF (s : forest) (par : nat -> nat) (trk : nat -> option ptrack) : Prop := mkWfF {
  f_kind : forall x y, In y (children s x) -> is_branch s y = negb (is_branch s x);
  f_track : forall t T, trk t = Some T -> NoDup (t_nodes T) /\ 2 <= length (t_nodes T) /\ length (t_nodes T) = S (length (t_segs T)) /\
     (forall n, In n (t_nodes T) -> live s n /\ is_branch s n = true) /\
     forall i sg, nth_error (t_segs T) i = Some sg -> par sg = t /\ live s sg /\ is_branch s sg = false /\ exists a b, nth_error (t_nodes T) i = Some a /\ nth_error (t_nodes T) (S i) = Some b /\ In sg (children s a) /\ In b (children s sg);
  f_seg : forall sg, live s sg -> is_branch s sg = false -> exists T, trk (par sg) = Some T /\ In sg (t_segs T) }.
Lemma wf_F w : wf w -> R (w_heap w) (forest_of (w_heap w)) /\ wfF (forest_of (w_heap w)) (w_par w) (w_trk w).
Proof.
  intros Hw. assert (HL := wf_linked _ Hw). split; [apply linked_R; exact HL|]. split.
  - intros x y. rewrite children_of. destruct (w_heap w x) as [o|] eqn:Eo; [|intros []]. intros Hin. destruct (l_kids _ HL x o y Eo Hin) as (oy & X & _ & Z). unfold is_branch, forest_of. rewrite X, Eo. exact Z.
  - intros t T ET. destruct (track_len w Hw t T ET) as (A & B & C). split; [exact A|]. split; [exact B|]. split; [exact C|]. split.
    + intros n Hn. apply In_nth_error in Hn. destruct Hn as (i & Hi). destruct (node_live w Hw t T i n ET Hi) as (o & Eo & Hb). unfold live, is_branch, forest_of. rewrite Eo. split; [discriminate|exact Hb].
    + intros i sg Hi. destruct (seg_at w Hw t T i sg ET Hi) as (P & a & b & oa & os & ob & H1 & H2 & H3 & H4 & H5 & H6 & H7 & H8 & H9 & H10 & _). split; [exact P|]. unfold live, is_branch, forest_of. rewrite H6. split; [discriminate|]. split; [exact H7|]. exists a, b. split; [exact H1|]. split; [exact H2|].
      change (fun x => match w_heap w x with Some o => Some (o_branch o, kids o) | None => None end) with (forest_of (w_heap w)). rewrite !children_of, H3, H6. unfold kids. rewrite H4, H7, H8. split; [exact H5|left; reflexivity].
  - intros sg. unfold live, is_branch, forest_of. destruct (w_heap w sg) as [o|] eqn:Eo; [|congruence]. intros _ Hb. exact (wf_seg _ Hw sg o Eo Hb).
Qed.
Lemma F_wf w s : R (w_heap w) s -> wfF s (w_par w) (w_trk w) -> (exists depth : nat -> nat, forall t t', branch_of w t t' -> depth t < depth t') -> wf w.
Proof.
  intros (prv & Hh & HI) [A B C] HD. assert (HLv := H_live (w_heap w) s prv).
  assert (Hcell : forall x o, w_heap w x = Some o -> live s x /\ o = mkO (is_branch s x) (back (children s x)) (prv x) (if is_branch s x then children s x else [])).
  { intros x o E. assert (L : live s x). { rewrite Hh in E. unfold cell, live in *. destruct (s x); [discriminate|discriminate E]. } split; [exact L|]. rewrite (HLv x Hh L) in E. congruence. }
  assert (K : forall x o, w_heap w x = Some o -> kids o = children s x).
  { intros x o E. destruct (Hcell x o E) as (L & ->). unfold kids. cbn. destruct (is_branch s x) eqn:Hb; [reflexivity|]. assert (X := i_one _ _ HI x Hb). destruct (children s x) as [|c [|d l]]; cbn in *; [reflexivity|reflexivity|lia]. }
  split; [split|..].
  - intros x o y E Ep. destruct (Hcell x o E) as (L & ->). cbn in Ep. apply (i_prv _ _ HI) in Ep. assert (Ly := child_parent_live _ _ _ Ep). eexists. split; [exact (HLv y Hh Ly)|]. rewrite (K y _ (HLv y Hh Ly)). exact Ep.
  - intros y oy x E Hin. rewrite (K y oy E) in Hin. assert (Lx := i_live _ _ HI x y Hin). eexists. split; [exact (HLv x Hh Lx)|]. cbn. split; [apply (i_prv _ _ HI), Hin|]. rewrite (A y x Hin). destruct (Hcell y oy E) as (_ & ->). reflexivity.
  - intros y oy E. rewrite (K y oy E). apply (i_nd _ _ HI).
  - intros y oy E Hb. destruct (Hcell y oy E) as (L & ->). cbn in *. rewrite Hb. reflexivity.
  - intros y oy E Hb. destruct (Hcell y oy E) as (L & ->). cbn in *. rewrite Hb. reflexivity.
  - intros t T ET. destruct (B t T ET) as (B1 & B2 & B3 & B4 & B5). split; [exact B1|]. split; [exact B2|]. split; [exact B3|]. intros i sg Hi. destruct (B5 i sg Hi) as (P & Ls & Hb & a & b & E1 & E2 & E3 & E4). split; [exact P|].
    destruct (B4 a (nth_error_In _ _ E1)) as (La & Ba). destruct (B4 b (nth_error_In _ _ E2)) as (Lb & Bb).
    exists a, b, (mkO (is_branch s a) (back (children s a)) (prv a) (if is_branch s a then children s a else [])), (mkO (is_branch s sg) (back (children s sg)) (prv sg) (if is_branch s sg then children s sg else [])), (mkO (is_branch s b) (back (children s b)) (prv b) (if is_branch s b then children s b else [])).
    cbn. split; [exact E1|]. split; [exact E2|]. split; [exact (HLv a Hh La)|]. split; [exact Ba|]. split; [rewrite Ba; exact E3|]. split; [exact (HLv sg Hh Ls)|]. split; [exact Hb|]. split; [|split; [exact (HLv b Hh Lb)|exact Bb]].
    assert (X := i_one _ _ HI sg Hb). rewrite (one_list _ _ X E4). reflexivity.
  - intros sg o E Hb. destruct (Hcell sg o E) as (L & ->). cbn in Hb. exact (C sg L Hb).
  - exact HD.
Qed.

(* ------------------------------------------------------------ deleting segments *)
Lemma delete_ok : forall ss h s, R h s -> NoDup ss -> (forall x, In x ss -> live s x) ->
  exists h' s', delete_segments h ss = Ok h' /\ R h' s' /\ (forall x, live s' x <-> live s x /\ ~ In x ss) /\ (forall x, ~ In x ss -> is_branch s' x = is_branch s x) /\ (forall x y, In y (children s' x) <-> In y (children s x) /\ ~ In x ss /\ ~ In y ss).
Proof.
  unfold delete_segments. induction ss as [|a ss IH]; intros h s HR Hnd Hl; cbn [foreach].
  - exists h, s. repeat split; auto; tauto.
  - inversion Hnd as [|? ? Ha Hnd']; subst. destruct (destroy_ok h s a HR (Hl a (or_introl eq_refl))) as (h1 & E & R1). rewrite E. cbn [obind]. set (s1 := put (s_disconnect s a) a None) in *.
    assert (L1 : forall x, live s1 x <-> live s x /\ x <> a).
    { intros x. unfold live, s1, put, s_disconnect, put, detach. destruct (Nat.eqb_spec x a) as [->|Hne]; [split; [congruence|intros [_ X]; congruence]|]. destruct (s x) as [[k l]|]; [split; [intros _; split; [discriminate|exact Hne]|intros _; discriminate]|split; [intros X; exfalso; apply X; reflexivity|intros [X _]; exact X]]. }
    assert (B1 : forall x, x <> a -> is_branch s1 x = is_branch s x).
    { intros x Hx. unfold is_branch, s1, put, s_disconnect, put, detach. destruct (Nat.eqb_spec x a) as [->|Hne]; [congruence|]. destruct (s x) as [[k l]|]; reflexivity. }
    assert (C1 : forall x y, In y (children s1 x) <-> In y (children s x) /\ x <> a /\ y <> a).
    { intros x y. unfold children, s1, put, s_disconnect, put, detach. destruct (Nat.eqb_spec x a) as [->|Hne]; [split; [intros []|intros (_ & X & _); congruence]|]. destruct (s x) as [[k l]|]; [|cbn; tauto]. rewrite in_without. tauto. }
    destruct (IH h1 s1 R1 Hnd') as (h' & s' & E' & R' & L' & B' & C').
    { intros x Hx. apply L1. split; [apply Hl; right; exact Hx|intros ->; exact (Ha Hx)]. }
    exists h', s'. split; [exact E'|]. split; [exact R'|]. split; [|split].
    + intros x. rewrite L', L1. cbn [In]. split; [intros ((X & Y) & Z); split; [exact X|intros [W|W]; [congruence|exact (Z W)]]|intros (X & Y); split; [split; [exact X|intros ->; apply Y; left; reflexivity]|intros W; apply Y; right; exact W]].
    + intros x Hx. rewrite B', B1; [reflexivity|intros ->; apply Hx; left; reflexivity|intros W; apply Hx; right; exact W].
    + intros x y. rewrite C', C1. cbn [In]. assert (x = a <-> a = x) by (split; congruence). assert (y = a <-> a = y) by (split; congruence). tauto.
Qed.

(* ------------------------------------------------------------ appending nodes *)
Lemma new_seg h s a b n : R h s -> ~ live s a -> live s b -> live s n -> is_branch s b = true -> b <> n -> (forall y, ~ In n (children s y)) ->
  exists h' s', construct h a false (Some b) (Some n) = Ok h' /\ R h' s' /\ (forall x, live s' x <-> live s x \/ x = a) /\ (forall x, is_branch s' x = if Nat.eqb x a then false else is_branch s x) /\
    (forall x y, In y (children s' x) <-> In y (children s x) \/ (x = b /\ y = a) \/ (x = a /\ y = n)).
Proof.
  intros HR La Lb Ln Hb Hbn Hn. destruct (construct_ok h s a false (Some b) (Some n) HR La Lb Ln) as (h' & E & R'). exists h'. eexists. split; [exact E|]. split; [exact R'|]. clear E R'.
  destruct HR as (prv & Hh & HI).
  assert (Hab : a <> b) by (intros ->; exact (La Lb)). assert (Han : a <> n) by (intros ->; exact (La Ln)).
  assert (Sa : s a = None) by (unfold live in La; destruct (s a); [exfalso; apply La; discriminate|reflexivity]).
  assert (Ca : children s a = []) by (unfold children; rewrite Sa; reflexivity).
  assert (Na : forall y, ~ In a (children s y)) by (intros y X; exact (La (i_live _ _ HI _ _ X))).
  cbn [s_step fst]. set (s0 := put s a (Some (false, []))).
  assert (C0 : forall x, children s0 x = children s x) by (intros x; unfold s0; rewrite children_put; destruct (Nat.eqb_spec x a) as [->|]; [rewrite Ca; reflexivity|reflexivity]).
  assert (B0 : forall x, is_branch s0 x = if Nat.eqb x a then false else is_branch s x) by (intros x; unfold s0; apply branch_put).
  assert (A1 : fst (s_add s0 b a) = put (detach s0 a) b (Some (true, children s0 b ++ [a]))).
  { unfold s_add. assert (Nat.eqb b a = false) as -> by (apply Nat.eqb_neq; congruence). rewrite B0. assert (Nat.eqb b a = false) as -> by (apply Nat.eqb_neq; congruence). rewrite Hb, C0. assert (mem a (children s b) = false) as -> by (apply mem_false, Na). rewrite <- C0. reflexivity. }
  rewrite A1. set (s1 := put (detach s0 a) b (Some (true, children s0 b ++ [a]))).
  assert (C1 : forall x, children s1 x = if Nat.eqb x b then children s b ++ [a] else children s x).
  { intros x. unfold s1. rewrite children_put, children_detach, !C0. destruct (Nat.eqb x b); [reflexivity|]. apply without_id, Na. }
  assert (B1 : forall x, is_branch s1 x = if Nat.eqb x a then false else is_branch s x).
  { intros x. unfold s1. rewrite branch_put, branch_detach, B0. destruct (Nat.eqb_spec x b) as [->|]; [|reflexivity]. rewrite Hb. destruct (Nat.eqb_spec b a); [congruence|reflexivity]. }
  assert (L1 : forall x, live s1 x <-> live s x \/ x = a).
  { intros x. unfold s1, live, put at 1. destruct (Nat.eqb_spec x b) as [->|Hxb]; [split; [intros _; left; exact Lb|discriminate]|]. change (detach s0 a x <> None) with (live (detach s0 a) x). rewrite live_detach. unfold s0, live, put. destruct (Nat.eqb_spec x a) as [->|]; [split; [auto|discriminate]|]. split; [auto|intros [X|X]; [exact X|congruence]]. }
  assert (A2 : fst (s_add s1 a n) = put (detach s1 n) a (Some (false, [n]))).
  { unfold s_add. assert (Nat.eqb a n = false) as -> by (apply Nat.eqb_neq; exact Han). rewrite B1, Nat.eqb_refl. reflexivity. }
  rewrite A2. split; [|split].
  - intros x. unfold live at 1, put at 1. destruct (Nat.eqb_spec x a) as [->|Hxa]; [split; [auto|discriminate]|]. change (detach s1 n x <> None) with (live (detach s1 n) x). rewrite live_detach. apply L1.
  - intros x. rewrite branch_put, branch_detach, B1. destruct (Nat.eqb x a); reflexivity.
  - intros x y. rewrite children_put, children_detach, C1. destruct (Nat.eqb_spec x a) as [->|Hxa].
    + rewrite Ca. cbn. split; [intros [<-|[]]; auto|intros [[]|[(X & _)|(_ & ->)]]; [congruence|auto]].
    + assert (Hw' : forall l, ~ In n l -> In y (without n l) <-> In y l) by (intros l Hnl; rewrite in_without; split; [tauto|intros X; split; [exact X|intros ->; exact (Hnl X)]]). destruct (Nat.eqb_spec x b) as [->|Hxb].
      * rewrite Hw'; [rewrite in_app_iff; cbn; split; [intros [X|[<-|[]]]; auto|intros [X|[(_ & ->)|(X & _)]]; [auto|auto|congruence]]|]. rewrite in_app_iff. cbn. intros [X|[X|[]]]; [exact (Hn b X)|congruence].
      * rewrite Hw' by apply Hn. split; [auto|intros [X|[(X & _)|(X & _)]]; [exact X|congruence|congruence]].
Qed.
Lemma append_ok this : forall ns addrs w s T b N0, R (w_heap w) s -> w_trk w this = Some T -> t_nodes T = N0 ++ [b] -> NoDup (b :: ns) -> live s b -> is_branch s b = true ->
  (forall n, In n ns -> live s n /\ is_branch s n = true /\ forall y, ~ In n (children s y)) -> NoDup addrs -> (forall a, In a addrs -> ~ live s a) -> length addrs = length ns ->
  exists w' s', append_nodes w this ns addrs = Ok w' /\ R (w_heap w') s' /\ (forall x, live s' x <-> live s x \/ In x addrs) /\ (forall x, ~ In x addrs -> is_branch s' x = is_branch s x) /\ (forall x, In x addrs -> is_branch s' x = false) /\
    (forall x y, In y (children s' x) <-> In y (children s x) \/ exists i, (nth_error (b :: ns) i = Some x /\ nth_error addrs i = Some y) \/ (nth_error addrs i = Some x /\ nth_error ns i = Some y)) /\
    (forall x, w_par w' x = if existsb (Nat.eqb x) addrs then this else w_par w x) /\
    (forall t, w_trk w' t = if Nat.eqb t this then Some (mkPT (t_nodes T ++ ns) (t_segs T ++ addrs)) else w_trk w t).
Proof.
  induction ns as [|n ns IH]; intros addrs w s T b N0 HR ET EN Hnd Lb Bb Hns Hna Hla Hlen; cbn [append_nodes].
  - destruct addrs; [|discriminate]. exists w, s. split; [reflexivity|]. split; [exact HR|]. split; [intros x; cbn; tauto|]. split; [auto|]. split; [intros x []|]. split; [intros x y; split; [auto|intros [X|(i & [(X & Y)|(X & Y)])]; [exact X|destruct i; discriminate|destruct i; discriminate]]|]. split; [reflexivity|].
    intros t. destruct (Nat.eqb_spec t this) as [->|]; [|reflexivity]. rewrite ET, !app_nil_r. destruct T; reflexivity.
  - destruct addrs as [|a addrs]; [discriminate|]. cbn [deref_t]. rewrite ET. cbn [obind]. rewrite EN, rev_app_distr. cbn [rev app].
    inversion Hnd as [|? ? Hb1 Hnd1]; subst. inversion Hnd1 as [|? ? Hn1 Hnd2]; subst. inversion Hna as [|? ? Ha1 Hna1]; subst. destruct (Hns n (or_introl eq_refl)) as (Ln & Bn & Pn).
    destruct (new_seg (w_heap w) s a b n HR (Hla a (or_introl eq_refl)) Lb Ln Bb) as (h1 & s1 & E1 & R1 & L1 & B1 & C1); [intros ->; apply Hb1; left; reflexivity|exact Pn|]. rewrite E1. cbn [obind].
    set (w1 := mkW h1 _ _).
    assert (ET1 : w_trk w1 this = Some (mkPT (t_nodes T ++ [n]) (t_segs T ++ [a]))) by (unfold w1; cbn; rewrite Nat.eqb_refl, EN; reflexivity).
    assert (Hna' : n <> a) by (intros ->; exact (Hla a (or_introl eq_refl) Ln)).
    destruct (IH addrs w1 s1 (mkPT (t_nodes T ++ [n]) (t_segs T ++ [a])) n (t_nodes T)) as (w' & s' & E' & R' & L' & B' & B2' & C' & P' & T').
    + exact R1.
    + exact ET1.
    + reflexivity.
    + constructor; assumption.
    + apply L1. left. exact Ln.
    + rewrite B1. destruct (Nat.eqb_spec n a); [congruence|exact Bn].
    + intros m Hm. destruct (Hns m (or_intror Hm)) as (Lm & Bm & Pm). split; [apply L1; left; exact Lm|]. assert (m <> a) by (intros ->; exact (Hla a (or_introl eq_refl) Lm)). split; [rewrite B1; destruct (Nat.eqb_spec m a); [congruence|exact Bm]|]. intros y X. apply C1 in X. destruct X as [X|[(_ & X)|(_ & X)]]; [exact (Pm y X)|congruence|subst m; exact (Hn1 Hm)].
    + exact Hna1.
    + intros x Hx X. apply L1 in X. destruct X as [X|X]; [exact (Hla x (or_intror Hx) X)|subst x; exact (Ha1 Hx)].
    + cbn in Hlen. lia.
    + exists w', s'. split; [exact E'|]. split; [exact R'|]. split; [|split; [|split; [|split; [|split]]]].
      * intros x. rewrite L', L1. cbn. intuition.
      * intros x Hx. rewrite B', B1; [|intros X; apply Hx; right; exact X]. destruct (Nat.eqb_spec x a) as [->|]; [exfalso; apply Hx; left; reflexivity|reflexivity].
      * intros x [<-|Hx]; [|exact (B2' x Hx)]. rewrite B', B1, Nat.eqb_refl; [reflexivity|exact Ha1].
      * intros x y. rewrite C', C1. split.
        -- intros [[X|[(-> & ->)|(-> & ->)]]|(i & Hi)]; [left; exact X|right; exists 0; left; split; reflexivity|right; exists 0; right; split; reflexivity|right; exists (S i); exact Hi].
        -- intros [X|([|i] & Hi)]; [left; left; exact X| |right; exists i; exact Hi]. destruct Hi as [(X & Y)|(X & Y)]; injection X as <-; injection Y as <-; auto.
      * intros x. rewrite P'. unfold w1. cbn. destruct (Nat.eqb x a); cbn; [destruct (existsb (Nat.eqb x) addrs); reflexivity|reflexivity].
      * intros t. rewrite T'. cbn [t_nodes t_segs]. rewrite <- !app_assoc. cbn. destruct (Nat.eqb t this) eqn:Et; [rewrite EN, <- app_assoc; reflexivity|reflexivity].
Qed.
