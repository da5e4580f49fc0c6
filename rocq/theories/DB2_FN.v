(** Proofs about the clustering by neighbour lists. *)
From Verif Require Import Base CCB_Hist RFF_Props EMS_Assoc DB2_Model DB2_Spec.
Local Open Scope nat_scope.

Notation gl := at_label.
Definition gv (v : list bool) (i : nat) : bool := nth i v true.
Lemma gl_upd l x y i : x < length l -> gl (upd l x y) i = if i =? x then y else gl l i.
Proof. intros H. unfold at_label. rewrite nth_upd. destruct (Nat.eqb_spec i x); [|reflexivity]. subst. destruct (Nat.ltb_spec x (length l)); [reflexivity|lia]. Qed.
Lemma gv_upd v x i : gv (upd v x true) i = if i =? x then true else gv v i.
Proof. unfold gv. rewrite nth_upd. destruct (Nat.eqb_spec i x); [|reflexivity]. subst. destruct (Nat.ltb_spec x (length v)); [reflexivity|]. cbn. apply nth_overflow. assumption. Qed.
Definition unseen (v : list bool) : nat := length (filter negb v).
Lemma unseen_upd v x : gv v x = false -> S (unseen (upd v x true)) = unseen v.
Proof.
  unfold gv, unseen. revert x. induction v as [|b v IH]; intros [|x] H; cbn in *; try discriminate; [subst b; reflexivity|].
  destruct b; cbn; rewrite <- (IH x H); reflexivity.
Qed.
Lemma upd_true v x : gv v x = true -> upd v x true = v.
Proof. unfold gv. revert x. induction v as [|b v IH]; intros [|x] H; cbn in *; try reflexivity; [rewrite H; reflexivity|rewrite (IH x H); reflexivity]. Qed.

Section G.
Variables (n : nat) (near : nat -> nat -> Prop) (minpts : nat) (nb : nat -> outcome (list nat)) (nbl : nat -> list nat).
Hypothesis NbOk : forall i, i < n -> nb i = Ok (nbl i).
Hypothesis Sym : forall i j, near i j -> near j i.
Hypothesis Nd : forall i, i < n -> NoDup (nbl i).
Hypothesis Nb : forall i j, i < n -> In j (nbl i) <-> j < n /\ near i j.
Notation core := (core n near minpts).
Notation joined := (joined n near minpts).

Lemma core_len i : i < n -> (core i <-> minpts <= length (nbl i)).
Proof.
  intros Hi. split.
  - intros (_ & l & D & E & L). replace (length (nbl i)) with (length l); [exact L|]. apply Permutation_length, NoDup_Permutation; [exact D|exact (Nd i Hi)|]. intros j. rewrite E. symmetry. apply Nb, Hi.
  - intros L. split; [exact Hi|]. exists (nbl i). split; [exact (Nd i Hi)|]. split; [intros j; apply Nb, Hi|exact L].
Qed.
Lemma core_lt i : core i -> i < n. Proof. intros H. apply H. Qed.
Lemma core_dec i : core i \/ ~ core i.
Proof. destruct (Nat.lt_ge_cases i n) as [H|H]; [|right; intros X; apply core_lt in X; lia]. destruct (Nat.le_gt_cases minpts (length (nbl i))) as [L|L]; [left|right]; rewrite core_len by exact H; lia. Qed.
Lemma joined_core i j : joined i j -> core j -> core i.
Proof. intros H. induction H as [a b (X & _)|a|a b c _ IH1 _ IH2]; intros Cj; auto. Qed.
Lemma joined_sym i j : joined i j -> joined j i.
Proof. intros H. induction H as [a b (X & Y & Z)|a|a b c _ IH1 _ IH2]; [apply rt_step; auto|apply rt_refl|eapply rt_trans; eassumption]. Qed.
Lemma nb_len i : i < n -> length (nbl i) <= n.
Proof. intros H. rewrite <- (seq_length n 0). apply NoDup_incl_length; [exact (Nd i H)|]. intros j Hj. apply Nb in Hj; [|exact H]. apply in_seq. lia. Qed.

(** between two clusters *)
Record OI (p : nat) (v : list bool) (l : list label) (cs : list (list nat)) : Prop := {
  a_v : length v = n; a_l : length l = n;
  a_lab : forall i, i < n -> gl l i = Free \/ exists c, c < length cs /\ gl l i = In_ c /\ gv v i = true;
  a_vis : forall i, i < p -> gv v i = true;
  a_core : forall i, core i -> gv v i = true -> gl l i <> Free;
  a_near : forall i j c, core i -> gl l i = In_ c -> j < n -> near i j -> exists c', gl l j = In_ c' /\ c' <= c /\ (core j -> c' = c);
  a_wit : forall i c, i < n -> gl l i = In_ c -> exists j, core j /\ gl l j = In_ c /\ (j = i \/ near j i);
  a_join : forall i j c, core i -> core j -> gl l i = In_ c -> gl l j = In_ c -> joined i j;
  a_cls : forall c x, nth_error cs c = Some x -> NoDup x /\ forall i, In i x <-> i < n /\ gl l i = In_ c;
  a_first : forall c, c < length cs -> exists i, core i /\ gl l i = In_ c /\ forall j, core j -> (gl l j = Free \/ exists c', gl l j = In_ c' /\ c <= c') -> i <= j }.

Section Inner.
Variables (p k : nat) (v0 : list bool) (l0 : list label) (cs : list (list nat)).
Hypothesis H0 : OI p v0 l0 cs.
Hypothesis Hk : k = length cs.
Hypothesis Hp : core p.
Hypothesis Fp : gl l0 p = Free.
Record II (ne : list nat) (v : list bool) (l : list label) (c : list nat) : Prop := {
  i_v : length v = n; i_l : length l = n;
  i_ext : forall i, i < n -> gl l i = gl l0 i \/ (gl l0 i = Free /\ gl l i = In_ k);
  i_lab : forall i, i < n -> gl l i <> Free -> gv v i = true;
  i_mono : forall i, gv v0 i = true -> gv v i = true;
  i_core : forall i, core i -> gv v i = true -> gl l i <> Free;
  i_near : forall i j, core i -> gl l i = In_ k -> j < n -> near i j -> gl l j <> Free \/ In j ne;
  i_wit : forall i, i < n -> gl l i = In_ k -> exists j, core j /\ gl l j = In_ k /\ (j = i \/ near j i);
  i_join : forall i, core i -> gl l i = In_ k -> joined p i;
  i_ne : forall x, In x ne -> x < n /\ exists j, core j /\ gl l j = In_ k /\ near j x;
  i_c : NoDup c /\ forall i, In i c <-> i < n /\ gl l i = In_ k;
  i_p : gl l p = In_ k }.

Lemma k_new i : i < n -> gl l0 i <> In_ k.
Proof. intros Hi E. destruct (a_lab _ _ _ _ H0 i Hi) as [X|(c & L & X & _)]; rewrite X in E; [discriminate|]. injection E as ->. lia. Qed.

Lemma loop_ok : forall fuel ne v l c, II ne v l c -> length ne + unseen v * n <= fuel ->
  exists v' l' c', fn_loop nb minpts fuel ne k (v, l, c) = Ok (v', l', c') /\ II [] v' l' c'.
Proof.
  induction fuel as [|fuel IH]; intros ne v l c HI Fu; destruct ne as [|x r]; [exists v, l, c; split; [reflexivity|exact HI]|cbn in Fu; lia|exists v, l, c; split; [reflexivity|exact HI]|].
  cbn [fn_loop]. destruct (i_ne _ _ _ _ HI x (or_introl eq_refl)) as (Hx & j0 & C0 & L0 & N0).
  rewrite (idx_ok v x true) by (rewrite (i_v _ _ _ _ HI); exact Hx). cbn [obind]. fold (gv v x).
  rewrite (set_idx_ok v x) by (rewrite (i_v _ _ _ _ HI); exact Hx).
  rewrite (idx_ok l x Free) by (rewrite (i_l _ _ _ _ HI); exact Hx). fold (gl l x).
  set (more := if gv v x then [] else if minpts <=? length (nbl x) then nbl x else []).
  assert (Em : (if gv v x then Ok [] else Ok (if minpts <=? length (nbl x) then nbl x else [])) = Ok more) by (unfold more; destruct (gv v x); reflexivity).
  rewrite (NbOk x Hx). cbn [obind]. rewrite Em. cbn [obind]. clear Em.
  assert (Mc : forall j, In j more -> core x /\ j < n /\ near x j).
  { intros j Hj. unfold more in Hj. destruct (gv v x); [destruct Hj|]. destruct (Nat.leb_spec minpts (length (nbl x))) as [Le|]; [|destruct Hj]. split; [apply core_len; assumption|apply (Nb x j Hx), Hj]. }
  assert (Mf : core x -> gv v x = false -> forall j, j < n -> near x j -> In j more).
  { intros Cx Vx j Hj Nj. unfold more. rewrite Vx. apply (core_len x Hx) in Cx. destruct (Nat.leb_spec minpts (length (nbl x))); [|lia]. apply (Nb x j Hx). auto. }
  assert (Fu' : length (r ++ more) + unseen (upd v x true) * n <= fuel).
  { rewrite app_length. cbn [length] in Fu. destruct (gv v x) eqn:Vx.
    - rewrite (upd_true v x Vx). unfold more. cbn. lia.
    - pose proof (unseen_upd v x Vx) as U. rewrite <- U in Fu. assert (length more <= n) by (unfold more; destruct (minpts <=? length (nbl x)); [apply nb_len, Hx|cbn; lia]). lia. }
  assert (Seen : gl l x <> Free -> more = []).
  { intros X. unfold more. rewrite (i_lab _ _ _ _ HI x Hx X). reflexivity. }
  destruct (gl l x) as [| |c0] eqn:Lx.
  - (* newly labelled *)
    rewrite set_idx_ok by (rewrite (i_l _ _ _ _ HI); exact Hx). cbn [obind].
    assert (Gu : forall i, gl (upd l x (In_ k)) i = if i =? x then In_ k else gl l i) by (intros i; apply gl_upd; rewrite (i_l _ _ _ _ HI); exact Hx).
    assert (Lx0 : gl l0 x = Free) by (destruct (i_ext _ _ _ _ HI x Hx) as [X|[X _] ]; congruence).
    apply IH; [|exact Fu']. constructor.
    + rewrite upd_length. apply (i_v _ _ _ _ HI).
    + rewrite upd_length. apply (i_l _ _ _ _ HI).
    + intros i Hi. rewrite Gu. destruct (Nat.eqb_spec i x) as [->|]; [right; auto|apply (i_ext _ _ _ _ HI i Hi)].
    + intros i Hi. rewrite Gu, gv_upd. destruct (Nat.eqb_spec i x); [reflexivity|apply (i_lab _ _ _ _ HI i Hi)].
    + intros i Vi. rewrite gv_upd. destruct (i =? x); [reflexivity|apply (i_mono _ _ _ _ HI i Vi)].
    + intros i Ci. rewrite Gu, gv_upd. destruct (i =? x); [discriminate|apply (i_core _ _ _ _ HI i Ci)].
    + intros i j Ci. rewrite !Gu. intros Li Hj Nij. destruct (Nat.eqb_spec j x) as [->|Dj]; [left; discriminate|]. destruct (Nat.eqb_spec i x) as [->|Di].
      * right. apply in_app_iff. right. apply Mf; [exact Ci| |exact Hj|exact Nij]. destruct (gv v x) eqn:Vx; [|reflexivity]. destruct (i_core _ _ _ _ HI x Ci Vx Lx).
      * destruct (i_near _ _ _ _ HI i j Ci Li Hj Nij) as [X|[X|X] ]; [left; exact X|congruence|right; apply in_app_iff; left; exact X].
    + intros i Hi. rewrite Gu. destruct (Nat.eqb_spec i x) as [->|Di].
      * intros _. exists j0. rewrite Gu. split; [exact C0|]. split; [destruct (Nat.eqb_spec j0 x); [reflexivity|exact L0]|right; exact N0].
      * intros Li. destruct (i_wit _ _ _ _ HI i Hi Li) as (j & Cj & Lj & X). exists j. rewrite Gu. split; [exact Cj|]. split; [destruct (Nat.eqb_spec j x); [reflexivity|exact Lj]|exact X].
    + intros i Ci. rewrite Gu. destruct (Nat.eqb_spec i x) as [->|Di]; [|apply (i_join _ _ _ _ HI i Ci)]. intros _. eapply rt_trans; [exact (i_join _ _ _ _ HI j0 C0 L0)|]. apply rt_step. auto.
    + intros y Hy. apply in_app_iff in Hy. destruct Hy as [Hy|Hy].
      * destruct (i_ne _ _ _ _ HI y (or_intror Hy)) as (Y & j & Cj & Lj & Nj). split; [exact Y|]. exists j. rewrite Gu. split; [exact Cj|]. split; [destruct (Nat.eqb_spec j x); [reflexivity|exact Lj]|exact Nj].
      * destruct (Mc y Hy) as (Cx & Y & Nx). split; [exact Y|]. exists x. rewrite Gu, Nat.eqb_refl. auto.
    + destruct (i_c _ _ _ _ HI) as [Dc Ec]. split.
      * apply EMS_Assoc.ndsnoc; [exact Dc|]. intros X. apply Ec in X. destruct X as [_ X]. congruence.
      * intros i. rewrite in_app_iff, Ec, Gu. cbn [In]. destruct (Nat.eqb_spec i x) as [->|Di]; [intuition|]. split; [intros [X|[X|[] ] ]; [exact X|congruence]|tauto].
    + rewrite Gu. destruct (p =? x); [reflexivity|apply (i_p _ _ _ _ HI)].
  - exfalso. destruct (i_ext _ _ _ _ HI x Hx) as [X|[_ X] ]; [|congruence]. destruct (a_lab _ _ _ _ H0 x Hx) as [Y|(c0 & _ & Y & _)]; congruence.
  - rewrite (Seen ltac:(discriminate)) in *. rewrite app_nil_r in *.
    assert (Vx : gv v x = true) by (apply (i_lab _ _ _ _ HI x Hx); rewrite Lx; discriminate). rewrite (upd_true v x Vx) in *.
    apply IH; [|exact Fu']. destruct HI as [J1 J2 J3 J4 J5 J6 J7 J8 J9 J10 J11 J12]. constructor; try assumption.
    + intros i j Ci Li Hj Nij. destruct (J7 i j Ci Li Hj Nij) as [X|[X|X] ]; [left; exact X|left; subst j; rewrite Lx; discriminate|right; exact X].
    + intros y Hy. apply J10. right. exact Hy.
Qed.
End Inner.

Lemma step_ok p v l cs fuel : OI p v l cs -> p < n -> n + n * n <= fuel ->
  exists v' l' cs', (do seen <- idx v p;
    if seen then Ok (F v l cs)
    else
      do v1 <- set_idx v p true;
      do ne <- nb p;
      if length ne <? minpts then Ok (F v1 l cs)
      else
        let cid := length cs in
        do l1 <- set_idx l p (In_ cid);
        do r <- fn_loop nb minpts fuel ne cid (v1, l1, [p]);
        match r with (v2, l2, c) => Ok (F v2 l2 (cs ++ [c])) end) = Ok (F v' l' cs') /\ OI (S p) v' l' cs'.
Proof.
  intros H Hp Fu. rewrite (idx_ok v p true) by (rewrite (a_v _ _ _ _ H); exact Hp). cbn [obind]. fold (gv v p).
  destruct (gv v p) eqn:Vp.
  - exists v, l, cs. split; [reflexivity|]. destruct H as [A1 A2 A3 A4 A5 A6 A7 A8 A9 A10]. constructor; try assumption. intros i Hi. destruct (Nat.eq_dec i p) as [->|]; [exact Vp|apply A4; lia].
  - rewrite set_idx_ok by (rewrite (a_v _ _ _ _ H); exact Hp). cbn [obind]. rewrite (NbOk p Hp). cbn [obind].
    assert (Fp : gl l p = Free). { destruct (a_lab _ _ _ _ H p Hp) as [X|(c & _ & _ & X)]; [exact X|congruence]. }
    destruct (Nat.ltb_spec (length (nbl p)) minpts) as [Lt|Ge].
    + assert (Nc : ~ core p) by (rewrite core_len by exact Hp; lia). eexists; eexists; eexists. split; [reflexivity|]. destruct H as [A1 A2 A3 A4 A5 A6 A7 A8 A9 A10]. constructor; try assumption.
      * rewrite upd_length. exact A1.
      * intros i Hi. rewrite gv_upd. destruct (A3 i Hi) as [X|(c & X & Y & Z)]; [left; exact X|right; exists c; rewrite Z; destruct (i =? p); auto].
      * intros i Hi. rewrite gv_upd. destruct (Nat.eqb_spec i p); [reflexivity|apply A4; lia].
      * intros i Ci. rewrite gv_upd. destruct (Nat.eqb_spec i p) as [->|]; [contradiction|apply (A5 i Ci)].
    + assert (Cp : core p) by (apply core_len; assumption). cbv zeta. rewrite set_idx_ok by (rewrite (a_l _ _ _ _ H); exact Hp). cbn [obind]. set (k := length cs).
      assert (Gu : forall i, gl (upd l p (In_ k)) i = if i =? p then In_ k else gl l i) by (intros i; apply gl_upd; rewrite (a_l _ _ _ _ H); exact Hp).
      assert (I0 : II p k v l (nbl p) (upd v p true) (upd l p (In_ k)) [p]).
      { constructor.
        - rewrite upd_length. apply (a_v _ _ _ _ H).
        - rewrite upd_length. apply (a_l _ _ _ _ H).
        - intros i Hi. rewrite Gu. destruct (Nat.eqb_spec i p) as [->|]; auto.
        - intros i Hi. rewrite Gu, gv_upd. destruct (i =? p); [reflexivity|]. intros X. destruct (a_lab _ _ _ _ H i Hi) as [Y|(c & _ & _ & Y)]; [contradiction|exact Y].
        - intros i Vi. rewrite gv_upd. destruct (i =? p); auto.
        - intros i Ci. rewrite Gu, gv_upd. destruct (i =? p); [discriminate|apply (a_core _ _ _ _ H i Ci)].
        - intros i j Ci. rewrite Gu. destruct (Nat.eqb_spec i p) as [->|]; [intros _ Hj Nj; right; apply (Nb p j Hp); auto|]. intros Li Hj Nj. destruct (k_new p k v l cs H eq_refl i (core_lt i Ci) Li).
        - intros i Hi. rewrite Gu. destruct (Nat.eqb_spec i p) as [->|]; [intros _; exists p; rewrite Gu, Nat.eqb_refl; auto|]. intros Li. destruct (k_new p k v l cs H eq_refl i Hi Li).
        - intros i Ci. rewrite Gu. destruct (Nat.eqb_spec i p) as [->|]; [intros _; apply rt_refl|]. intros Li. destruct (k_new p k v l cs H eq_refl i (core_lt i Ci) Li).
        - intros x Hx. apply (Nb p x Hp) in Hx. split; [apply Hx|]. exists p. rewrite Gu, Nat.eqb_refl. tauto.
        - split; [repeat constructor; intros []|]. intros i. rewrite Gu. cbn [In]. destruct (Nat.eqb_spec i p) as [->|Di]; [intuition|]. split; [intros [X|[] ]; congruence|]. intros [Hi Li]. destruct (k_new p k v l cs H eq_refl i Hi Li).
        - rewrite Gu, Nat.eqb_refl. reflexivity. }
      destruct (loop_ok p k v l cs H eq_refl fuel (nbl p) (upd v p true) (upd l p (In_ k)) [p] I0) as (v' & l' & cc & E & J).
      { assert (unseen (upd v p true) <= n). { unfold unseen. rewrite <- (a_v _ _ _ _ H), <- (upd_length v p true). apply RFF_Props.filter_le. } pose proof (nb_len p Hp). nia. }
      rewrite E. cbn [obind]. exists v', l', (cs ++ [cc]). split; [reflexivity|].
      assert (Old : forall i c, i < n -> gl l i = In_ c -> gl l' i = In_ c).
      { intros i c Hi Li. destruct (i_ext _ _ _ _ _ _ _ _ J i Hi) as [X|[X _] ]; congruence. }
      assert (Back : forall i c, i < n -> gl l' i = In_ c -> c <> k -> gl l i = In_ c).
      { intros i c Hi Li D. destruct (i_ext _ _ _ _ _ _ _ _ J i Hi) as [X|[_ X] ]; congruence. }
      assert (Lk : forall i c, i < n -> gl l i = In_ c -> c < k). { intros i c Hi Li. destruct (a_lab _ _ _ _ H i Hi) as [X|(c9 & X & Y & _)]; [congruence|]. rewrite Li in Y. injection Y as <-. exact X. }
      constructor.
      * apply (i_v _ _ _ _ _ _ _ _ J).
      * apply (i_l _ _ _ _ _ _ _ _ J).
      * intros i Hi. rewrite app_length. cbn [length]. fold k. destruct (i_ext _ _ _ _ _ _ _ _ J i Hi) as [X|[_ X] ].
        -- destruct (a_lab _ _ _ _ H i Hi) as [Y|(c & Y & Z & W)]; [left; congruence|right]. exists c. split; [lia|]. split; [congruence|apply (i_mono _ _ _ _ _ _ _ _ J), W].
        -- right. exists k. split; [lia|]. split; [exact X|]. apply (i_lab _ _ _ _ _ _ _ _ J i Hi). rewrite X. discriminate.
      * intros i Hi. destruct (Nat.eq_dec i p) as [->|]; [|apply (i_mono _ _ _ _ _ _ _ _ J), (a_vis _ _ _ _ H); lia]. apply (i_lab _ _ _ _ _ _ _ _ J p Hp). rewrite (i_p _ _ _ _ _ _ _ _ J). discriminate.
      * apply (i_core _ _ _ _ _ _ _ _ J).
      * intros i j c Ci Li Hj Nij. destruct (Nat.eq_dec c k) as [->|Dc].
        -- assert (X : gl l' j <> Free) by (destruct (i_near _ _ _ _ _ _ _ _ J i j Ci Li Hj Nij) as [X|[] ]; exact X).
           destruct (i_ext _ _ _ _ _ _ _ _ J j Hj) as [Y|[_ Y] ]; [|exists k; auto].
           destruct (a_lab _ _ _ _ H j Hj) as [Z|(c' & Lc & Z & _)]; [congruence|]. exists c'. split; [congruence|]. split; [fold k in Lc; lia|]. intros Cj. exfalso.
           destruct (a_near _ _ _ _ H j i c' Cj Z (core_lt i Ci) (Sym _ _ Nij)) as (c2 & Z2 & _ & Z3). specialize (Z3 Ci). subst c2. pose proof (Old i c' (core_lt i Ci) Z2) as W. rewrite Li in W. injection W as W. subst c'. exact (Nat.lt_irrefl _ Lc).
        -- pose proof (Back i c (core_lt i Ci) Li Dc) as Li0. destruct (a_near _ _ _ _ H i j c Ci Li0 Hj Nij) as (c' & X & Y & Z). exists c'. split; [apply Old; assumption|]. split; assumption.
      * intros i c Hi Li. destruct (Nat.eq_dec c k) as [->|Dc]; [apply (i_wit _ _ _ _ _ _ _ _ J i Hi Li)|]. destruct (a_wit _ _ _ _ H i c Hi (Back i c Hi Li Dc)) as (j & Cj & Lj & X). exists j. split; [exact Cj|]. split; [apply Old; [apply core_lt, Cj|exact Lj]|exact X].
      * intros i j c Ci Cj Li Lj. destruct (Nat.eq_dec c k) as [->|Dc].
        -- eapply rt_trans; [apply joined_sym, (i_join _ _ _ _ _ _ _ _ J i Ci Li)|apply (i_join _ _ _ _ _ _ _ _ J j Cj Lj)].
        -- apply (a_join _ _ _ _ H i j c Ci Cj); apply Back; auto using core_lt.
      * intros c x Ex. destruct (Nat.lt_ge_cases c (length cs)) as [Lc|Lc].
        -- rewrite nth_error_app1 in Ex by exact Lc. destruct (a_cls _ _ _ _ H c x Ex) as [Dx X]. split; [exact Dx|]. intros i. rewrite X. split; intros [Hi Li]; (split; [exact Hi|]); [apply Old; assumption|apply Back; [exact Hi|exact Li|unfold k; lia] ].
        -- rewrite nth_error_app2 in Ex by exact Lc. destruct (c - length cs) as [|d] eqn:Ed; [|destruct d; discriminate]. injection Ex as <-. replace c with k by (unfold k; lia). apply (i_c _ _ _ _ _ _ _ _ J).
      * intros c. rewrite app_length. cbn [length]. fold k. intros Lc. destruct (Nat.eq_dec c k) as [->|Dc].
        -- exists p. split; [exact Cp|]. split; [apply (i_p _ _ _ _ _ _ _ _ J)|]. intros j Cj Lj. destruct (Nat.le_gt_cases p j) as [X|X]; [exact X|]. exfalso.
           pose proof (a_core _ _ _ _ H j Cj (a_vis _ _ _ _ H j X)) as Nf. destruct (a_lab _ _ _ _ H j (core_lt j Cj)) as [Y|(c & Lcc & Y & _)]; [contradiction|]. pose proof (Old j c (core_lt j Cj) Y) as Yn. destruct Lj as [Z|(c' & Z & Lk')]; [congruence|]. rewrite Yn in Z. injection Z as ->. fold k in Lcc. lia.
        -- destruct (a_first _ _ _ _ H c ltac:(unfold k in *; lia)) as (i & Ci & Li & M). exists i. split; [exact Ci|]. split; [apply Old; [apply core_lt, Ci|exact Li]|]. intros j Cj Lj. apply M; [exact Cj|].
           destruct (i_ext _ _ _ _ _ _ _ _ J j (core_lt j Cj)) as [X|[X _] ]; [rewrite X in Lj; exact Lj|left; exact X].
Qed.

Theorem run_fn_ok fuel : n + n * n <= fuel -> exists s, run_fn nb minpts fuel n = Ok s /\ OI n (vis s) (lab s) (cls s).
Proof.
  intros Fu. unfold run_fn.
  destruct (for_seq_inv (fun p (s : fn) => OI p (vis s) (lab s) (cls s)) (fun s pid =>
    do seen <- idx (vis s) pid;
    if seen then Ok s
    else
      do v <- set_idx (vis s) pid true;
      do ne <- nb pid;
      if length ne <? minpts then Ok (F v (lab s) (cls s))
      else
        let cid := length (cls s) in
        do l <- set_idx (lab s) pid (In_ cid);
        do r <- fn_loop nb minpts fuel ne cid (v, l, [pid]);
        match r with (v', l', c) => Ok (F v' l' (cls s ++ [c])) end) 0 n (F (repeat false n) (repeat Free n) [])) as (s & E & H).
  - assert (Rp : forall i, gl (repeat Free n) i = Free) by (intros i; unfold at_label; apply nth_repeat).
    cbn [vis lab cls]. constructor; cbn [length]; try (intros; rewrite ?Rp in *; discriminate); try (intros; lia).
    + apply repeat_length.
    + apply repeat_length.
    + intros i Hi. left. apply Rp.
    + intros i Ci. unfold gv. rewrite (nth_indep _ true false) by (rewrite repeat_length; apply core_lt, Ci). rewrite nth_repeat. discriminate.
    + intros [|c] x E; discriminate.
  - intros p s [_ Hp] H. destruct (step_ok p (vis s) (lab s) (cls s) fuel H Hp Fu) as (v' & l' & cs' & E & H'). exists (F v' l' cs'). split; [|exact H']. destruct s as [v l cs]. exact E.
  - exists s. split; [exact E|exact H].
Qed.
Lemma OI_spec v l cs : OI n v l cs -> scanned n near minpts Free l (length cs) /\ first_come n near minpts l /\ listed n l cs.
Proof.
  intros H. assert (Cl : forall i, core i -> exists c, c < length cs /\ gl l i = In_ c).
  { intros i Ci. pose proof (a_core _ _ _ _ H i Ci (a_vis _ _ _ _ H i (core_lt i Ci))) as Nf. destruct (a_lab _ _ _ _ H i (core_lt i Ci)) as [X|(c & X & Y & _)]; [contradiction|eauto]. }
  assert (Jn : forall i j, joined i j -> core i -> core j -> gl l i = gl l j).
  { intros i j J. induction J as [a b (Ca & Cb & N)|a|a b c J1 IH1 J2 IH2]; intros C1 C2; [|reflexivity|].
    - destruct (Cl a Ca) as (ca & _ & La). destruct (a_near _ _ _ _ H a b ca Ca La (core_lt b Cb) N) as (c' & Lb & _ & X). rewrite La, Lb, (X Cb). reflexivity.
    - assert (core b) by (apply (joined_core b c); assumption). etransitivity; [apply IH1; assumption|apply IH2; assumption]. }
  split; [constructor|split].
  - apply (a_l _ _ _ _ H).
  - exact Cl.
  - intros i j Ci Cj. split; [|intros J; apply Jn; assumption]. intros E. destruct (Cl i Ci) as (c & _ & Li). apply (a_join _ _ _ _ H i j c Ci Cj Li). congruence.
  - intros i j Hi Ni Cj Nj. destruct (Cl j Cj) as (c & _ & Lj). destruct (a_near _ _ _ _ H j i c Cj Lj Hi Nj) as (c' & Li & _). destruct (a_wit _ _ _ _ H i c' Hi Li) as (j' & Cj' & Lj' & [X|X]); [subst; contradiction|]. exists j'. split; [exact Cj'|]. split; [exact X|congruence].
  - intros i Hi Ni Nn. destruct (a_lab _ _ _ _ H i Hi) as [X|(c & _ & X & _)]; [exact X|]. destruct (a_wit _ _ _ _ H i c Hi X) as (j & Cj & _ & [Y|Y]); [subst; contradiction|destruct (Nn j Cj Y)].
  - intros c Lc. destruct (a_first _ _ _ _ H c Lc) as (i & Ci & Li & M). exists i. split; [exact Ci|]. split; [exact Li|]. intros j c' Cj Lj Le. apply M; [exact Cj|right; eauto].
  - intros i j c c' Cj Nj Lj Li. assert (Hi : i < n). { destruct (Nat.lt_ge_cases i n) as [X|X]; [exact X|]. unfold at_label in Li. rewrite nth_overflow in Li by (rewrite (a_l _ _ _ _ H); exact X). discriminate. }
    destruct (a_near _ _ _ _ H j i c Cj Lj Hi Nj) as (c2 & L2 & Le & _). rewrite Li in L2. injection L2 as <-. exact Le.
  - exact (a_cls _ _ _ _ H).
Qed.
End G.
