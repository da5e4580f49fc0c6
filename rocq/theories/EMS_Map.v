(** Lemmas on the maps of EMS_Model. *)
From Coq Require Import QArith Qcanon.
From Verif Require Import Base EMS_Model.
Local Open Scope nat_scope.

Definition keys {A} (m : zmap A) : list Z := map fst m.
Definition ordered {A} (m : zmap A) : Prop := StronglySorted Z.lt (keys m).

Lemma zmem_spec x l : zmem x l = true <-> In x l.
Proof. unfold zmem. rewrite existsb_exists. split; [intros (y & Hy & E); apply Z.eqb_eq in E; subst; exact Hy|intros H; exists x; split; [exact H|apply Z.eqb_refl] ]. Qed.
Lemma zmem_false x l : zmem x l = false <-> ~ In x l.
Proof. rewrite <- zmem_spec. destruct (zmem x l); split; congruence. Qed.

Lemma mfind_mset {A} k k' (v : A) m : mfind k (mset k' v m) = if (k =? k')%Z then Some v else mfind k m.
Proof.
  induction m as [|[a x] m IH]; cbn [mset mfind]; [reflexivity|].
  destruct (Z.ltb_spec k' a) as [L|L]; [reflexivity|]. destruct (Z.eqb_spec k' a) as [->|N]; cbn [mfind].
  - destruct (k =? a)%Z; reflexivity.
  - rewrite IH. destruct (Z.eqb_spec k a) as [->|]; [|reflexivity]. destruct (Z.eqb_spec a k'); [congruence|reflexivity].
Qed.
Lemma mvec_mset {A} k k' (v : list A) m : mvec k (mset k' v m) = if (k =? k')%Z then v else mvec k m.
Proof. unfold mvec. rewrite mfind_mset. destruct (k =? k')%Z; reflexivity. Qed.
Lemma mvec_mpush {A} k k' (x : A) m : mvec k (mpush k' x m) = if (k =? k')%Z then mvec k' m ++ [x] else mvec k m.
Proof. unfold mpush. apply mvec_mset. Qed.

Lemma keys_mset {A} k (v : A) m x : In x (keys (mset k v m)) <-> x = k \/ In x (keys m).
Proof.
  induction m as [|[a y] m IH]; cbn [mset keys map In fst]; [intuition|].
  destruct (k <? a)%Z; [cbn; intuition|]. destruct (Z.eqb_spec k a) as [->|]; cbn [keys map In fst]; [intuition|].
  unfold keys in IH. rewrite IH. intuition.
Qed.
Lemma ordered_mset {A} k (v : A) m : ordered m -> ordered (mset k v m).
Proof.
  unfold ordered. induction m as [|[a y] m IH]; intros H; cbn [mset]; [repeat constructor|].
  cbn [keys map fst] in H. inversion H as [|? ? S F]; subst.
  destruct (Z.ltb_spec k a) as [L|L].
  - cbn [keys map fst]. constructor; [exact H|]. constructor; [exact L|]. rewrite Forall_forall in *. intros z Hz.
    specialize (F z Hz). lia.
  - destruct (Z.eqb_spec k a) as [->|N]; cbn [keys map fst]; [exact H|].
    constructor; [apply IH, S|]. rewrite Forall_forall in *. intros z Hz. apply keys_mset in Hz.
    destruct Hz as [->|Hz]; [lia|apply F, Hz].
Qed.
Lemma mfind_keys {A} k (m : zmap A) : (exists v, mfind k m = Some v) <-> In k (keys m).
Proof.
  induction m as [|[a x] m IH]; cbn [mfind keys map In fst]; [split; [intros (v & E); discriminate|intros []]|].
  destruct (Z.eqb_spec k a) as [->|N]; [split; [auto|eauto] |]. unfold keys in IH. rewrite IH. split; [auto|intros [E|E]; [congruence|exact E] ].
Qed.
Lemma mfind_none {A} k (m : zmap A) : mfind k m = None <-> ~ In k (keys m).
Proof. rewrite <- mfind_keys. destruct (mfind k m); split; try congruence; intros H; try (exfalso; apply H; eauto; fail). intros (v & E). discriminate. Qed.
Lemma ordered_nodup {A} (m : zmap A) : ordered m -> NoDup (keys m).
Proof.
  unfold ordered. induction (keys m) as [|a l IH]; intros H; constructor; inversion H as [|? ? S F]; subst; [|apply IH, S].
  intros Hi. rewrite Forall_forall in F. specialize (F a Hi). lia.
Qed.
Lemma mfind_in {A} k v (m : zmap A) : ordered m -> (mfind k m = Some v <-> In (k, v) m).
Proof.
  intros O. pose proof (ordered_nodup m O) as N. clear O. induction m as [|[a x] m IH]; cbn [mfind In]; [split; [discriminate|intros []]|].
  cbn [keys map fst] in N. apply NoDup_cons_iff in N. destruct N as [Na N].
  destruct (Z.eqb_spec k a) as [->|Ne].
  - split; [intros [= ->]; left; reflexivity|]. intros [[= ->]|Hi]; [reflexivity|]. exfalso. apply Na. apply (in_map fst) in Hi. exact Hi.
  - rewrite (IH N). split; [auto|]. intros [[= -> ->]|Hi]; [congruence|exact Hi].
Qed.
Lemma mfind_in' {A} k v (m : zmap A) : mfind k m = Some v -> In (k, v) m.
Proof.
  induction m as [|[a x] m IH]; cbn [mfind]; [discriminate|]. destruct (Z.eqb_spec k a) as [->|]; [intros [= ->]; left; reflexivity|right; auto].
Qed.
Lemma keys_mset_same {A} k (v : A) m : ordered m -> In k (keys m) -> keys (mset k v m) = keys m.
Proof.
  unfold ordered. induction m as [|[a y] m IH]; intros O Hi; [destruct Hi|]. cbn [keys map fst] in *. inversion O as [|? ? S F]; subst.
  cbn [mset]. destruct (Z.ltb_spec k a) as [L|L].
  - exfalso. destruct Hi as [->|Hi]; [lia|]. rewrite Forall_forall in F. specialize (F k Hi). lia.
  - destruct (Z.eqb_spec k a) as [->|N]; [reflexivity|]. cbn [keys map fst]. f_equal. apply IH; [exact S|].
    destruct Hi as [->|Hi]; [congruence|exact Hi].
Qed.
Lemma ordered_ext {A} (m m' : zmap A) : ordered m -> ordered m' -> (forall k, mfind k m = mfind k m') -> m = m'.
Proof.
  intros O O' H.
  assert (Hin : forall e, In e m <-> In e m').
  { intros [k v]. rewrite <- (mfind_in k v m O), <- (mfind_in k v m' O'), H. reflexivity. }
  clear H. revert m' O' Hin. induction m as [|[a x] m IH]; intros m' O' Hin.
  - destruct m' as [|e m']; [reflexivity|]. exfalso. apply (proj2 (Hin e)). left; reflexivity.
  - destruct m' as [|[b y] m']; [exfalso; apply (proj1 (Hin (a, x))); left; reflexivity|].
    unfold ordered in *. cbn [keys map fst] in *. inversion O as [|? ? S F]; subst. inversion O' as [|? ? S' F']; subst.
    rewrite Forall_forall in F, F'.
    assert (E : (a, x) = (b, y)).
    { destruct (proj1 (Hin (a, x)) (or_introl eq_refl)) as [E|Hi]; [symmetry; exact E|].
      destruct (proj2 (Hin (b, y)) (or_introl eq_refl)) as [E|Hj]; [exact E|].
      apply (in_map fst) in Hi, Hj. specialize (F' _ Hi). specialize (F _ Hj). cbn in *. lia. }
    injection E as -> ->. f_equal. apply (IH S); [exact S'|]. intros [k v]. split; intros Hi.
    + destruct (proj1 (Hin (k, v)) (or_intror Hi)) as [[= -> ->]|H]; [|exact H]. exfalso. apply (in_map fst) in Hi. specialize (F _ Hi). cbn in F. lia.
    + destruct (proj2 (Hin (k, v)) (or_intror Hi)) as [[= -> ->]|H]; [|exact H]. exfalso. apply (in_map fst) in Hi. specialize (F' _ Hi). cbn in F'. lia.
Qed.
