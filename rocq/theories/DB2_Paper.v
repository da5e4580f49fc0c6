(** Proofs about the clustering written as in the paper (method 2). *)
From Verif Require Import Base CCB_Hist RFF_Props DB2_Model DB2_Spec DB2_FN.
Local Open Scope nat_scope.

Definition isfree (y : label) : bool := match y with Free => true | _ => false end.
Definition nfree (l : list label) : nat := length (filter isfree l).
Lemma nfree_free l x k : x < length l -> gl l x = Free -> S (nfree (upd l x (In_ k))) = nfree l.
Proof.
  unfold at_label, nfree. revert x. induction l as [|b l IH]; intros [|x] H E; cbn in *; try lia; [subst b; reflexivity|].
  destruct b; cbn; rewrite <- (IH x) by (assumption || lia); reflexivity.
Qed.
Lemma nfree_noise l x k : x < length l -> gl l x <> Free -> nfree (upd l x (In_ k)) = nfree l.
Proof.
  unfold at_label, nfree. revert x. induction l as [|b l IH]; intros [|x] H E; cbn in *; try lia; [destruct b; [contradiction|reflexivity|reflexivity]|].
  destruct b; cbn; rewrite (IH x) by (assumption || lia); reflexivity.
Qed.
Lemma in_sins x s y : In y (sins x s) <-> y = x \/ In y s.
Proof.
  assert (R : forall a b : nat, a = b <-> b = a) by (split; auto).
  induction s as [|z s IH]; cbn [sins In]; [rewrite (R x); tauto|]. destruct (Nat.ltb_spec x z); [cbn [In]; rewrite (R x); tauto|]. destruct (Nat.ltb_spec z x); cbn [In]; [rewrite IH; tauto|].
  assert (x = z) by lia. subst. rewrite (R z). tauto.
Qed.
Lemma len_sins x s : length (sins x s) <= S (length s).
Proof. induction s as [|z s IH]; cbn [sins length]; [lia|]. destruct (x <? z); cbn [length]; [lia|]. destruct (z <? x); cbn [length]; lia. Qed.
Lemma in_sdel x s y : In y (sdel x s) <-> In y s /\ y <> x.
Proof. unfold sdel. rewrite filter_In. destruct (Nat.eqb_spec y x); cbn; intuition. Qed.
Lemma len_sdel x s : In x s -> length (sdel x s) < length s.
Proof.
  unfold sdel. induction s as [|z s IH]; intros H; [destruct H|]. cbn [filter]. destruct (Nat.eqb_spec z x) as [->|D]; cbn [negb length].
  - pose proof (filter_le (fun y => negb (y =? x)) s). lia.
  - destruct H as [H|H]; [contradiction|]. specialize (IH H). lia.
Qed.

Section G.
Variables (n : nat) (near : nat -> nat -> Prop) (minpts : nat) (rq : nat -> outcome (list nat)) (rql : nat -> list nat).
Hypothesis RqOk : forall i, i < n -> rq i = Ok (rql i).
Hypothesis Sym : forall i j, near i j -> near j i.
Hypothesis Self : forall i, i < n -> near i i.
Hypothesis Nd : forall i, i < n -> NoDup (rql i).
Hypothesis Nb : forall i j, i < n -> In j (rql i) <-> j < n /\ near i j.
Notation core := (core n near minpts).
Notation joined := (joined n near minpts).
Notation core_len := (core_len n near minpts rql Nd Nb).
Notation core_lt := (core_lt n near minpts).
Notation joined_sym := (joined_sym n near minpts Sym).

Record PO (p k : nat) (l : list label) : Prop := {
  b_l : length l = n;
  b_lab : forall i, i < n -> gl l i = Free \/ gl l i = Noise \/ exists c, c < k /\ gl l i = In_ c;
  b_done : forall i, i < p -> gl l i <> Free;
  b_noise : forall i, i < n -> gl l i = Noise -> ~ core i;
  b_near : forall i j c, core i -> gl l i = In_ c -> j < n -> near i j -> exists c', gl l j = In_ c' /\ (core j -> c' = c);
  b_wit : forall i c, i < n -> gl l i = In_ c -> exists j, core j /\ gl l j = In_ c /\ near j i;
  b_join : forall i j c, core i -> core j -> gl l i = In_ c -> gl l j = In_ c -> joined i j;
  b_first : forall c, c < k -> exists i, core i /\ gl l i = In_ c /\ forall j, core j -> (gl l j = Free \/ exists c', gl l j = In_ c' /\ c <= c') -> i <= j }.

(** the inner for loop of ExpandCluster *)
Lemma mark_ok cid res : forall seeds l, length l = n -> (forall x, In x res -> x < n) ->
  exists seeds' l', foreach res (fun (s : list nat * list label) x =>
                      do y <- idx (snd s) x;
                      match y with
                      | Free => do l' <- set_idx (snd s) x (In_ cid); Ok (sins x (fst s), l')
                      | Noise => do l' <- set_idx (snd s) x (In_ cid); Ok (fst s, l')
                      | In_ _ => Ok s
                      end) (seeds, l) = Ok (seeds', l') /\ length l' = n /\
    (forall i, gl l' i = gl l i \/ (In i res /\ (gl l i = Free \/ gl l i = Noise) /\ gl l' i = In_ cid)) /\
    (forall i, In i res -> exists c, gl l' i = In_ c) /\
    (forall y, In y seeds' <-> In y seeds \/ (In y res /\ gl l y = Free)) /\
    length seeds' + nfree l' <= length seeds + nfree l.
Proof.
  induction res as [|x res IH]; intros seeds l Ln Hr.
  - exists seeds, l. split; [reflexivity|]. split; [exact Ln|]. split; [auto|]. split; [intros i []|]. split; [intros y; cbn; tauto|lia].
  - assert (Hx : x < n) by (apply Hr; left; reflexivity). cbn [foreach fst snd]. rewrite (idx_ok l x Free) by lia. cbn [obind]. fold (gl l x).
    assert (Hr' : forall y, In y res -> y < n) by (intros y Hy; apply Hr; right; exact Hy).
    destruct (gl l x) as [| |c0] eqn:Lx.
    + rewrite set_idx_ok by lia. cbn [obind].
      assert (Gu : forall i, gl (upd l x (In_ cid)) i = if i =? x then In_ cid else gl l i) by (intros i; apply gl_upd; lia).
      destruct (IH (sins x seeds) (upd l x (In_ cid)) ltac:(rewrite upd_length; exact Ln) Hr') as (s' & l' & E & L' & A & B' & C' & D').
      exists s', l'. split; [exact E|]. split; [exact L'|]. split; [|split; [|split] ].
      * intros i. specialize (A i). rewrite Gu in A. destruct (Nat.eqb_spec i x) as [Ex|Di]; [subst i|].
        -- right. split; [left; reflexivity|]. split; [left; exact Lx|]. destruct A as [A|(_ & _ & A)]; exact A.
        -- destruct A as [A|(A1 & A2 & A3)]; [left; exact A|right]. split; [right; exact A1|]. auto.
      * intros i [<-|Hi]; [|apply B', Hi]. specialize (A x). rewrite Gu, Nat.eqb_refl in A. exists cid. destruct A as [A|(_ & _ & A)]; exact A.
      * intros y. rewrite C', in_sins, Gu. cbn [In]. destruct (Nat.eqb_spec y x) as [->|Dy]; [intuition|]. intuition congruence.
      * pose proof (len_sins x seeds). pose proof (nfree_free l x cid ltac:(lia) Lx). lia.
    + rewrite set_idx_ok by lia. cbn [obind].
      assert (Gu : forall i, gl (upd l x (In_ cid)) i = if i =? x then In_ cid else gl l i) by (intros i; apply gl_upd; lia).
      destruct (IH seeds (upd l x (In_ cid)) ltac:(rewrite upd_length; exact Ln) Hr') as (s' & l' & E & L' & A & B' & C' & D').
      exists s', l'. split; [exact E|]. split; [exact L'|]. split; [|split; [|split] ].
      * intros i. specialize (A i). rewrite Gu in A. destruct (Nat.eqb_spec i x) as [Ex|Di]; [subst i|].
        -- right. split; [left; reflexivity|]. split; [right; exact Lx|]. destruct A as [A|(_ & _ & A)]; exact A.
        -- destruct A as [A|(A1 & A2 & A3)]; [left; exact A|right]. split; [right; exact A1|]. auto.
      * intros i [<-|Hi]; [|apply B', Hi]. specialize (A x). rewrite Gu, Nat.eqb_refl in A. exists cid. destruct A as [A|(_ & _ & A)]; exact A.
      * intros y. rewrite C', Gu. cbn [In]. destruct (Nat.eqb_spec y x) as [->|Dy]; [|intuition congruence]. split; [intros [X|[_ X] ]; [auto|discriminate]|]. intros [X|[_ X] ]; [auto|congruence].
      * pose proof (nfree_noise l x cid ltac:(lia) ltac:(rewrite Lx; discriminate)). lia.
    + destruct (IH seeds l Ln Hr') as (s' & l' & E & L' & A & B' & C' & D').
      exists s', l'. split; [exact E|]. split; [exact L'|]. split; [|split; [|split] ].
      * intros i. destruct (A i) as [X|(X & Y)]; [left; exact X|right; split; [right; exact X|exact Y] ].
      * intros i [<-|Hi]; [|apply B', Hi]. destruct (A x) as [X|(_ & [X|X] & _)]; [exists c0; congruence|congruence|congruence].
      * intros y. rewrite C'. cbn [In]. split; [tauto|]. intros [X|[ [X|X] Y] ]; [auto|congruence|auto].
      * exact D'.
Qed.

Lemma mark_all k seeds : forall l, length l = n -> (forall x, In x seeds -> x < n) ->
  exists l', foreach seeds (fun l x => set_idx l x (In_ k)) l = Ok l' /\ length l' = n /\
    (forall i, In i seeds -> gl l' i = In_ k) /\ (forall i, ~ In i seeds -> gl l' i = gl l i).
Proof.
  induction seeds as [|x r IH]; intros l Ln Hs; [exists l; split; [reflexivity|]; split; [exact Ln|]; split; [intros i []|reflexivity] |].
  cbn [foreach]. assert (Hx : x < n) by (apply Hs; left; reflexivity). rewrite set_idx_ok by lia. cbn [obind].
  destruct (IH (upd l x (In_ k)) ltac:(rewrite upd_length; exact Ln) ltac:(intros y Hy; apply Hs; right; exact Hy)) as (l' & E & L' & A & B').
  exists l'. split; [exact E|]. split; [exact L'|]. split.
  - intros i [<-|Hi]; [|apply A, Hi]. destruct (in_dec Nat.eq_dec x r) as [X|X]; [apply A, X|]. rewrite (B' x X), gl_upd by lia. rewrite Nat.eqb_refl. reflexivity.
  - intros i Hi. rewrite (B' i) by (intros X; apply Hi; right; exact X). rewrite gl_upd by lia. destruct (Nat.eqb_spec i x) as [->|]; [destruct Hi; left; reflexivity|reflexivity].
Qed.

Section Inner.
Variables (p k : nat) (l0 : list label).
Hypothesis H0 : PO p k l0.
Hypothesis Hp : core p.
Hypothesis Fp : gl l0 p = Free.
Record PI (seeds : list nat) (l : list label) : Prop := {
  j_l : length l = n;
  j_ext : forall i, i < n -> gl l i = gl l0 i \/ gl l i = In_ k;
  j_core : forall i c, core i -> gl l0 i = In_ c -> gl l i = In_ c;
  j_seeds : forall x, In x seeds -> x < n /\ gl l x = In_ k;
  j_near : forall i, core i -> gl l i = In_ k -> In i seeds \/ forall j, j < n -> near i j -> exists c', gl l j = In_ c';
  j_wit : forall i, i < n -> gl l i = In_ k -> exists j, core j /\ gl l j = In_ k /\ near j i;
  j_old : forall i c, i < n -> gl l0 i = In_ c -> exists c', gl l i = In_ c';
  j_join : forall i, core i -> gl l i = In_ k -> joined p i;
  j_p : gl l p = In_ k }.

Lemma pk_new i : i < n -> gl l0 i <> In_ k.
Proof. intros Hi E. destruct (b_lab _ _ _ H0 i Hi) as [X|[X|(c & L & X)] ]; rewrite X in E; try discriminate. injection E as ->. lia. Qed.

Lemma loop_ok : forall fuel seeds l, PI seeds l -> length seeds + nfree l <= fuel ->
  exists l', expand_loop rq minpts fuel k seeds l = Ok l' /\ PI [] l'.
Proof.
  induction fuel as [|fuel IH]; intros seeds l HI Fu; destruct seeds as [|x r]; [exists l; split; [reflexivity|exact HI]|cbn in Fu; lia|exists l; split; [reflexivity|exact HI]|].
  cbn [expand_loop obind]. set (seeds := x :: r) in *. destruct (j_seeds _ _ HI x (or_introl eq_refl)) as [Hx Lx].
  rewrite (RqOk x Hx). cbn [obind].
  destruct (Nat.leb_spec minpts (length (rql x))) as [Le|Gt].
  - assert (Cx : core x) by (apply core_len; assumption).
    destruct (mark_ok k (rql x) seeds l (j_l _ _ HI) ltac:(intros y Hy; apply Nb in Hy; [apply Hy|exact Hx])) as (s' & l' & E & L' & A & B' & C' & D').
    rewrite E. cbn [obind fst snd]. clear E.
    assert (Keep : forall i c, gl l i = In_ c -> gl l' i = In_ c) by (intros i c Li; destruct (A i) as [X|(_ & [X|X] & _)]; congruence).
    assert (Inx : In x s') by (apply C'; left; left; reflexivity).
    apply IH; [|pose proof (len_sdel x s' Inx); lia]. constructor.
    + exact L'.
    + intros i Hi. destruct (A i) as [X|(_ & _ & X)]; [rewrite X; apply (j_ext _ _ HI i Hi)|right; exact X].
    + intros i c Ci Li. apply Keep, (j_core _ _ HI i c Ci Li).
    + intros y Hy. apply in_sdel in Hy. destruct Hy as [Hy _]. apply C' in Hy. destruct Hy as [Hy|[Hy Fy] ]; [destruct (j_seeds _ _ HI y Hy) as [X Y]; split; [exact X|apply Keep, Y]|]. split; [apply (Nb x y Hx), Hy|]. destruct (B' y Hy) as [c Lc]. destruct (A y) as [X|(_ & _ & X)]; congruence.
    + intros i Ci Li. destruct (Nat.eq_dec i x) as [->|Dx]; [right; intros j Hj Nj; apply B', Nb; auto|].
      destruct (A i) as [X|(X & Y & Z)].
      * rewrite X in Li. destruct (j_near _ _ HI i Ci Li) as [W|W]; [left; apply in_sdel; split; [apply C'; left; exact W|exact Dx]|right]. intros j Hj Nj. destruct (W j Hj Nj) as [c' Lc]. exists c'. apply Keep, Lc.
      * destruct Y as [Y|Y]; [left; apply in_sdel; split; [apply C'; right; auto|exact Dx]|]. exfalso. destruct (j_ext _ _ HI i (core_lt i Ci)) as [W|W]; [|congruence]. apply (b_noise _ _ _ H0 i (core_lt i Ci)); [congruence|exact Ci].
    + intros i Hi Li. destruct (A i) as [X|(X & Y & Z)].
      * rewrite X in Li. destruct (j_wit _ _ HI i Hi Li) as (j & Cj & Lj & Nj). exists j. split; [exact Cj|]. split; [apply Keep, Lj|exact Nj].
      * exists x. split; [exact Cx|]. split; [apply Keep, Lx|apply (Nb x i Hx), X].
    + intros i c Hi Li. destruct (j_old _ _ HI i c Hi Li) as [c' X]. exists c'. apply Keep, X.
    + intros i Ci Li. destruct (A i) as [X|(X & Y & Z)]; [rewrite X in Li; apply (j_join _ _ HI i Ci Li)|]. eapply rt_trans; [exact (j_join _ _ HI x Cx Lx)|]. apply rt_step. split; [exact Cx|]. split; [exact Ci|apply (Nb x i Hx), X].
    + apply Keep, (j_p _ _ HI).
  - assert (Nx : ~ core x) by (rewrite core_len by exact Hx; lia). cbn [obind fst snd].
    apply IH; [|pose proof (len_sdel x seeds (or_introl eq_refl)); lia]. destruct HI as [K1 K2 K3 K4 K5 K6 K7 K8 K9]. constructor; try assumption.
    + intros y Hy. apply in_sdel in Hy. apply K4, Hy.
    + intros i Ci Li. destruct (K5 i Ci Li) as [X|X]; [left|right; exact X]. apply in_sdel. split; [exact X|]. intros ->. contradiction.
Qed.

End Inner.

Lemma expand_ok p k l fuel : PO p k l -> p < n -> gl l p = Free -> n + n <= fuel ->
  exists b l', expand rq minpts fuel p k l = Ok (b, l') /\ PO (S p) (if b then S k else k) l'.
Proof.
  intros H Hp Fp Fu. unfold expand. rewrite (RqOk p Hp). cbn [obind].
  destruct (Nat.ltb_spec (length (rql p)) minpts) as [Lt|Ge].
  - assert (Nc : ~ core p) by (rewrite core_len by exact Hp; lia). rewrite set_idx_ok by (rewrite (b_l _ _ _ H); exact Hp). cbn [obind]. exists false, (upd l p Noise). split; [reflexivity|].
    assert (Gu : forall i, gl (upd l p Noise) i = if i =? p then Noise else gl l i) by (intros i; apply gl_upd; rewrite (b_l _ _ _ H); exact Hp).
    destruct H as [A1 A2 A3 A4 A5 A6 A7 A8]. constructor.
    + rewrite upd_length. exact A1.
    + intros i Hi. rewrite Gu. destruct (i =? p); [auto|apply A2, Hi].
    + intros i Hi. rewrite Gu. destruct (Nat.eqb_spec i p); [discriminate|apply A3; lia].
    + intros i Hi. rewrite Gu. destruct (Nat.eqb_spec i p) as [->|]; [auto|apply A4, Hi].
    + intros i j c Ci. rewrite !Gu. destruct (Nat.eqb_spec i p) as [->|Di]; [contradiction|]. intros Li Hj Nj. destruct (A5 i j c Ci Li Hj Nj) as (c' & X & Y). exists c'. destruct (Nat.eqb_spec j p) as [->|]; [congruence|auto].
    + intros i c Hi. rewrite Gu. destruct (i =? p); [discriminate|]. intros Li. destruct (A6 i c Hi Li) as (j & Cj & Lj & Nj). exists j. rewrite Gu. destruct (Nat.eqb_spec j p) as [->|]; [contradiction|auto].
    + intros i j c Ci Cj. rewrite !Gu. destruct (i =? p); [discriminate|]. destruct (j =? p); [discriminate|]. apply A7; assumption.
    + intros c Lc. destruct (A8 c Lc) as (i & Ci & Li & M). exists i. split; [exact Ci|]. rewrite Gu. destruct (Nat.eqb_spec i p) as [->|]; [contradiction|]. split; [exact Li|]. intros j Cj. rewrite Gu. destruct (Nat.eqb_spec j p) as [->|]; [contradiction|apply M, Cj].
  - assert (Cp : core p) by (apply core_len; assumption). rewrite set_idx_ok by (rewrite (b_l _ _ _ H); exact Hp). cbn [obind].
    destruct (mark_all k (rql p) (upd l p (In_ k)) ltac:(rewrite upd_length; apply (b_l _ _ _ H)) ltac:(intros y Hy; apply Nb in Hy; [apply Hy|exact Hp])) as (l1 & E1 & L1 & M1 & M2).
    rewrite E1. cbn [obind]. clear E1.
    assert (Sp : In p (rql p)) by (apply Nb; auto).
    assert (M2' : forall i, ~ In i (rql p) -> gl l1 i = gl l i).
    { intros i Hi. rewrite (M2 i Hi), gl_upd by (rewrite (b_l _ _ _ H); exact Hp). destruct (Nat.eqb_spec i p) as [->|]; [contradiction|reflexivity]. }
    assert (Safe : forall i c, core i -> gl l i = In_ c -> ~ In i (rql p)).
    { intros i c Ci Li X. apply (Nb p i Hp) in X. destruct (b_near _ _ _ H i p c Ci Li Hp (Sym _ _ (proj2 X))) as (c' & Y & _). congruence. }
    assert (Kn : forall i, i < n -> gl l1 i = In_ k -> In i (rql p)).
    { intros i Hi Li. destruct (in_dec Nat.eq_dec i (rql p)) as [X|X]; [exact X|]. rewrite (M2' i X) in Li. destruct (pk_new p k l H i Hi Li). }
    assert (I0 : PI p k l (sdel p (rql p)) l1).
    { constructor.
      - exact L1.
      - intros i Hi. destruct (in_dec Nat.eq_dec i (rql p)) as [X|X]; [right; apply M1, X|left; apply M2', X].
      - intros i c Ci Li. rewrite (M2' i (Safe i c Ci Li)). exact Li.
      - intros x Hx. apply in_sdel in Hx. destruct Hx as [Hx _]. split; [apply (Nb p x Hp), Hx|apply M1, Hx].
      - intros i Ci Li. pose proof (Kn i (core_lt i Ci) Li) as X. destruct (Nat.eq_dec i p) as [->|D]; [|left; apply in_sdel; auto]. right. intros j Hj Nj. exists k. apply M1, Nb; auto.
      - intros i Hi Li. exists p. split; [exact Cp|]. split; [apply M1, Sp|apply (Nb p i Hp), (Kn i Hi Li)].
      - intros i c Hi Li. destruct (in_dec Nat.eq_dec i (rql p)) as [X|X]; [exists k; apply M1, X|exists c; rewrite (M2' i X); exact Li].
      - intros i Ci Li. apply rt_step. split; [exact Cp|]. split; [exact Ci|]. apply (Nb p i Hp), (Kn i (core_lt i Ci) Li).
      - apply M1, Sp. }
    destruct (loop_ok p k l H fuel (sdel p (rql p)) l1 I0) as (l' & E & J).
    { assert (X : length (sdel p (rql p)) <= n) by (etransitivity; [apply filter_le|eapply nb_len; eassumption]). assert (Y : nfree l1 <= n) by (unfold nfree; rewrite <- L1; apply filter_le). lia. }
    rewrite E. cbn [obind]. exists true, l'. split; [reflexivity|]. clear E I0 M1 M2 M2' Kn.
    assert (Lk : forall i c, i < n -> gl l i = In_ c -> c < k). { intros i c Hi Li. destruct (b_lab _ _ _ H i Hi) as [X|[X|(c9 & X & Y)] ]; [congruence|congruence|]. rewrite Li in Y. injection Y as <-. exact X. }
    assert (Back : forall i c, i < n -> gl l' i = In_ c -> c <> k -> gl l i = In_ c) by (intros i c Hi Li D; destruct (j_ext _ _ _ _ _ J i Hi) as [X|X]; congruence).
    constructor.
    + apply (j_l _ _ _ _ _ J).
    + intros i Hi. destruct (j_ext _ _ _ _ _ J i Hi) as [X|X]; [|right; right; exists k; auto]. rewrite X. destruct (b_lab _ _ _ H i Hi) as [Y|[Y|(c & Y & Z)] ]; [auto|auto|right; right; exists c; auto].
    + intros i Hi. destruct (Nat.eq_dec i p) as [->|D]; [rewrite (j_p _ _ _ _ _ J); discriminate|]. assert (Hi' : i < p) by lia. destruct (j_ext _ _ _ _ _ J i ltac:(lia)) as [X|X]; rewrite X; [apply (b_done _ _ _ H i Hi')|discriminate].
    + intros i Hi Li. destruct (j_ext _ _ _ _ _ J i Hi) as [X|X]; [|congruence]. apply (b_noise _ _ _ H i Hi). congruence.
    + intros i j c Ci Li Hj Nj. destruct (Nat.eq_dec c k) as [->|D].
      * destruct (j_near _ _ _ _ _ J i Ci Li) as [ []|W]. destruct (W j Hj Nj) as [c' Lj]. exists c'. split; [exact Lj|]. intros Cj. destruct (Nat.eq_dec c' k) as [X|X]; [exact X|exfalso].
        pose proof (Back j c' Hj Lj X) as Lj0. destruct (b_near _ _ _ H j i c' Cj Lj0 (core_lt i Ci) (Sym _ _ Nj)) as (c2 & Li0 & Y). rewrite (Y Ci) in Li0. pose proof (j_core _ _ _ _ _ J i c' Ci Li0). congruence.
      * pose proof (Back i c (core_lt i Ci) Li D) as Li0. destruct (b_near _ _ _ H i j c Ci Li0 Hj Nj) as (c' & Lj0 & Y). destruct (j_old _ _ _ _ _ J j c' Hj Lj0) as [c2 Lj]. exists c2. split; [exact Lj|]. intros Cj. rewrite (Y Cj) in Lj0. pose proof (j_core _ _ _ _ _ J j c Cj Lj0). congruence.
    + intros i c Hi Li. destruct (Nat.eq_dec c k) as [->|D]; [apply (j_wit _ _ _ _ _ J i Hi Li)|]. destruct (b_wit _ _ _ H i c Hi (Back i c Hi Li D)) as (j & Cj & Lj & Nj). exists j. split; [exact Cj|]. split; [apply (j_core _ _ _ _ _ J j c Cj Lj)|exact Nj].
    + intros i j c Ci Cj Li Lj. destruct (Nat.eq_dec c k) as [->|D].
      * eapply rt_trans; [apply joined_sym, (j_join _ _ _ _ _ J i Ci Li)|apply (j_join _ _ _ _ _ J j Cj Lj)].
      * apply (b_join _ _ _ H i j c Ci Cj); apply Back; auto using core_lt.
    + intros c Lc. destruct (Nat.eq_dec c k) as [->|D].
      * exists p. split; [exact Cp|]. split; [apply (j_p _ _ _ _ _ J)|]. intros j Cj Lj. destruct (Nat.le_gt_cases p j) as [X|X]; [exact X|exfalso]. pose proof (core_lt j Cj) as Hj.
        destruct (b_lab _ _ _ H j Hj) as [Y|[Y|(c & Lc' & Y)] ]; [exact (b_done _ _ _ H j X Y)|exact (b_noise _ _ _ H j Hj Y Cj)|]. pose proof (j_core _ _ _ _ _ J j c Cj Y) as Z. destruct Lj as [W|(c' & W & Lw)]; [congruence|]. rewrite Z in W. injection W as ->. lia.
      * destruct (b_first _ _ _ H c ltac:(lia)) as (i & Ci & Li & M). exists i. split; [exact Ci|]. split; [apply (j_core _ _ _ _ _ J i c Ci Li)|]. intros j Cj Lj. apply M; [exact Cj|].
        pose proof (core_lt j Cj) as Hj. destruct (b_lab _ _ _ H j Hj) as [Y|[Y|(c2 & Lc2 & Y)] ]; [left; exact Y|destruct (b_noise _ _ _ H j Hj Y Cj)|right]. exists c2. split; [exact Y|]. pose proof (j_core _ _ _ _ _ J j c2 Cj Y) as Z. destruct Lj as [W|(c' & W & Lw)]; [congruence|]. rewrite Z in W. injection W as ->. exact Lw.
Qed.

Lemma lists_ok k l : length l = n -> (forall i c, i < n -> gl l i = In_ c -> c < k) ->
  exists cs, for_ (seq 0 n) (fun c y =>
    do z <- idx l y;
    match z with In_ k => do r <- idx c k; set_idx c k (r ++ [y]) | _ => Ok c end) (repeat [] k) = Ok cs /\ length cs = k /\ listed n l cs.
Proof.
  intros Ln Lk.
  destruct (for_seq_inv (fun y (cs : list (list nat)) => length cs = k /\ forall c x, nth_error cs c = Some x -> NoDup x /\ forall i, In i x <-> i < y /\ gl l i = In_ c)
    (fun c y => do z <- idx l y; match z with In_ k => do r <- idx c k; set_idx c k (r ++ [y]) | _ => Ok c end) 0 n (repeat [] k)) as (cs & E & L & H).
  - split; [apply repeat_length|]. intros c x Hx. apply nth_error_In, repeat_spec in Hx. subst x. split; [constructor|]. intros i. split; [intros []|lia].
  - intros y cs [_ Hy] (L & H). cbn in Hy. rewrite (idx_ok l y Free) by lia. cbn [obind]. fold (gl l y).
    destruct (gl l y) as [| |c0] eqn:Ly.
    1-2: exists cs; split; [reflexivity|]; split; [exact L|]; intros c x Hx; destruct (H c x Hx) as [Dx X]; split; [exact Dx|]; intros i; rewrite X; split; [intros [? ?]; split; [lia|assumption]|]; intros [Hi Li]; (split; [|exact Li]); destruct (Nat.eq_dec i y) as [->|]; [congruence|lia].
    pose proof (Lk y c0 Hy Ly) as Lc. rewrite (idx_ok cs c0 []) by lia. cbn [obind]. rewrite set_idx_ok by lia.
    eexists. split; [reflexivity|]. split; [rewrite upd_length; exact L|]. intros c x Hx. rewrite nth_error_upd in Hx.
    destruct (Nat.eqb_spec c c0) as [->|Dc]; cbn [andb] in Hx.
    + destruct (Nat.ltb_spec c0 (length cs)) as [Lc'|]; [|lia]. injection Hx as <-. destruct (H c0 (nth c0 cs []) (nth_error_nth' _ _ Lc')) as [Dx X]. split.
      * apply EMS_Assoc.ndsnoc; [exact Dx|]. intros Y. apply X in Y. lia.
      * intros i. rewrite in_app_iff, X. cbn [In]. split; [intros [ [Y Z]|[<-|[] ] ]; [split; [lia|exact Z]|split; [lia|exact Ly] ]|]. intros [Y Z]. destruct (Nat.eq_dec i y) as [->|]; [right; left; reflexivity|left; split; [lia|exact Z] ].
    + destruct (H c x Hx) as [Dx X]. split; [exact Dx|]. intros i. rewrite X. split; [intros [Y Z]; split; [lia|exact Z]|]. intros [Y Z]. split; [|exact Z]. destruct (Nat.eq_dec i y) as [->|]; [congruence|lia].
  - exists cs. split; [exact E|]. split; [exact L|exact H].
Qed.

Theorem run_paper_ok fuel : n + n <= fuel -> exists l cs, run_paper rq minpts fuel n = Ok (l, cs) /\ scanned n near minpts Noise l (length cs) /\ listed n l cs.
Proof.
  intros Fu. unfold run_paper.
  destruct (for_seq_inv (fun p (s : nat * list label) => PO p (fst s) (snd s)) (fun (s : nat * list label) pid =>
    do y <- idx (snd s) pid;
    match y with
    | Free => do r <- expand rq minpts fuel pid (fst s) (snd s); Ok (if fst r then S (fst s) else fst s, snd r)
    | _ => Ok s
    end) 0 n (0, repeat Free n)) as (s & E & H).
  - assert (Rp : forall i, gl (repeat Free n) i = Free) by (intros i; unfold at_label; apply nth_repeat).
    cbn [fst snd]. constructor; try (intros; rewrite ?Rp in *; discriminate); try (intros; lia).
    + apply repeat_length.
    + intros i Hi. left. apply Rp.
  - intros p [k l] [_ Hp] H. cbn [fst snd] in *. cbn in Hp. rewrite (idx_ok l p Free) by (rewrite (b_l _ _ _ H); exact Hp). cbn [obind]. fold (gl l p).
    destruct (gl l p) as [| |c0] eqn:Lp.
    + destruct (expand_ok p k l fuel H Hp Lp Fu) as (b & l' & E & H'). rewrite E. cbn [obind fst snd]. eexists. split; [reflexivity|]. cbn [fst snd]. exact H'.
    + exists (k, l). split; [reflexivity|]. cbn [fst snd]. destruct H as [A1 A2 A3 A4 A5 A6 A7 A8]. constructor; try assumption. intros i Hi. destruct (Nat.eq_dec i p) as [->|]; [congruence|apply A3; lia].
    + exists (k, l). split; [reflexivity|]. cbn [fst snd]. destruct H as [A1 A2 A3 A4 A5 A6 A7 A8]. constructor; try assumption. intros i Hi. destruct (Nat.eq_dec i p) as [->|]; [congruence|apply A3; lia].
  - rewrite E. cbn [obind]. destruct s as [k l]. cbn [fst snd] in *.
    assert (Lk : forall i c, i < n -> gl l i = In_ c -> c < k). { intros i c Hi Li. destruct (b_lab _ _ _ H i Hi) as [X|[X|(c9 & X & Y)] ]; [congruence|congruence|]. rewrite Li in Y. injection Y as <-. exact X. }
    destruct (lists_ok k l (b_l _ _ _ H) Lk) as (cs & E2 & L2 & Ls). rewrite E2. cbn [obind]. exists l, cs. split; [reflexivity|]. split; [|exact Ls]. rewrite L2.
    assert (Cl : forall i, core i -> exists c, c < k /\ gl l i = In_ c).
    { intros i Ci. pose proof (core_lt i Ci) as Hi. destruct (b_lab _ _ _ H i Hi) as [X|[X|X] ]; [destruct (b_done _ _ _ H i Hi X)|destruct (b_noise _ _ _ H i Hi X Ci)|exact X]. }
    assert (Jn : forall i j, joined i j -> core i -> core j -> gl l i = gl l j).
    { intros i j J. induction J as [a b (Ca & Cb & N)|a|a b c J1 IH1 J2 IH2]; intros C1 C2; [|reflexivity|].
      - destruct (Cl a Ca) as (ca & _ & La). destruct (b_near _ _ _ H a b ca Ca La (core_lt b Cb) N) as (c' & Lb & X). rewrite La, Lb, (X Cb). reflexivity.
      - assert (core b) by (apply (joined_core n near minpts b c); assumption). etransitivity; [apply IH1; assumption|apply IH2; assumption]. }
    constructor.
    + apply (b_l _ _ _ H).
    + exact Cl.
    + intros i j Ci Cj. split; [|intros J; apply Jn; assumption]. intros X. destruct (Cl i Ci) as (c & _ & Li). apply (b_join _ _ _ H i j c Ci Cj Li). congruence.
    + intros i j Hi Ni Cj Nj. destruct (Cl j Cj) as (c & _ & Lj). destruct (b_near _ _ _ H j i c Cj Lj Hi Nj) as (c' & Li & _). destruct (b_wit _ _ _ H i c' Hi Li) as (j' & Cj' & Lj' & X). exists j'. split; [exact Cj'|]. split; [exact X|congruence].
    + intros i Hi Ni Nn. destruct (b_lab _ _ _ H i Hi) as [X|[X|(c & _ & X)] ]; [destruct (b_done _ _ _ H i Hi X)|exact X|]. destruct (b_wit _ _ _ H i c Hi X) as (j & Cj & _ & Y). destruct (Nn j Cj Y).
    + intros c Lc. destruct (b_first _ _ _ H c Lc) as (i & Ci & Li & M). exists i. split; [exact Ci|]. split; [exact Li|]. intros j c' Cj Lj Le. apply M; [exact Cj|right; eauto].
Qed.
End G.
