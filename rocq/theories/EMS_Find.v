(** Proofs about FindShowers. *)
From Coq Require Import QArith Qcanon.
From Verif Require Import Base QcUtil EMS_Model EMS_Map EMS_Spec EMS_Assoc.
Local Open Scope nat_scope.

Definition hits_sh (shs : list (list Z)) (cl : list Z) (s : nat) : bool := existsb (fun c => zmem c (nth s shs [])) cl.
Lemma inner_in shs s cl : forall m, existsb (Nat.eqb s) m = true ->
  fold_left (fun m c => if zmem c (nth s shs []) && negb (existsb (Nat.eqb s) m) then m ++ [s] else m) cl m = m.
Proof.
  induction cl as [|c cl IH]; intros m H; [reflexivity|]. cbn [fold_left]. rewrite H, andb_false_r. apply IH, H.
Qed.
Lemma inner_new shs s cl : forall m, existsb (Nat.eqb s) m = false ->
  fold_left (fun m c => if zmem c (nth s shs []) && negb (existsb (Nat.eqb s) m) then m ++ [s] else m) cl m
  = if hits_sh shs cl s then m ++ [s] else m.
Proof.
  induction cl as [|c cl IH]; intros m H; [reflexivity|]. cbn [fold_left hits_sh existsb]. rewrite H, andb_true_r.
  destruct (zmem c (nth s shs [])); cbn [orb]; [|apply IH, H]. apply inner_in.
  rewrite existsb_app. cbn. rewrite Nat.eqb_refl, orb_true_r. reflexivity.
Qed.
Lemma matching_eq shs cl : matching shs cl = filter (hits_sh shs cl) (seq 0 (length shs)).
Proof.
  unfold matching. generalize (length shs) as n. intros n. induction n as [|n IH]; [reflexivity|].
  rewrite seq_S, fold_left_app, filter_app, IH. cbn [fold_left filter plus]. rewrite inner_new.
  - destruct (hits_sh shs cl n); [reflexivity|rewrite app_nil_r; reflexivity].
  - destruct (existsb (Nat.eqb n) (filter (hits_sh shs cl) (seq 0 n))) eqn:E; [|reflexivity]. exfalso.
    apply existsb_exists in E. destruct E as (x & Hx & Ex). apply Nat.eqb_eq in Ex. subst x.
    apply filter_In in Hx. destruct Hx as [Hx _]. apply in_seq in Hx. lia.
Qed.
Lemma hits_touch shs cl s : hits_sh shs cl s = true <-> touches (nth s shs []) cl.
Proof.
  unfold hits_sh, touches. rewrite existsb_exists. split.
  - intros (c & Hc & M). apply zmem_spec in M. eauto.
  - intros (c & M & Hc). exists c. split; [exact Hc|apply zmem_spec, M].
Qed.

Lemma add_in cl : forall sh x, In x (add_missing sh cl) <-> In x sh \/ In x cl.
Proof.
  unfold add_missing. induction cl as [|c cl IH]; intros sh x; cbn [fold_left]; [cbn; intuition|]. rewrite IH.
  destruct (zmem c sh) eqn:M.
  - apply zmem_spec in M. cbn. intuition. subst. auto.
  - rewrite in_app_iff. cbn. intuition.
Qed.
Lemma add_nodup cl : forall sh, NoDup sh -> NoDup (add_missing sh cl).
Proof.
  unfold add_missing. induction cl as [|c cl IH]; intros sh N; cbn [fold_left]; [exact N|]. apply IH.
  destruct (zmem c sh) eqn:M; [exact N|]. apply ndsnoc; [exact N|apply zmem_false, M].
Qed.
Definition fstep (shs : list (list Z)) (cl : list Z) : list (list Z) :=
  match matching shs cl with [] => shs ++ [cl] | s :: _ => upd shs s (add_missing (nth s shs []) cl) end.
Definition fs (vals : list (list Z)) : list (list Z) := fold_left fstep vals [].
Lemma find_fs t2c : find_showers t2c = fs (map snd t2c). Proof. reflexivity. Qed.
Lemma fs_snoc v l : fs (v ++ [l]) = fstep (fs v) l. Proof. unfold fs. rewrite fold_left_app. reflexivity. Qed.

(** one track: either a new shower, when it touches none, or the first one it touches grows *)
Lemma fstep_cases shs cl :
  (fstep shs cl = shs ++ [cl] /\ forall i a, nth_error shs i = Some a -> ~ touches a cl) \/
  (exists s a, nth_error shs s = Some a /\ touches a cl /\ fstep shs cl = upd shs s (add_missing a cl) /\
     forall i b, i < s -> nth_error shs i = Some b -> ~ touches b cl).
Proof.
  unfold fstep. rewrite matching_eq. destruct (filter (hits_sh shs cl) (seq 0 (length shs))) as [|s r] eqn:F.
  - left. split; [reflexivity|]. intros i a E T.
    assert (X : In i (filter (hits_sh shs cl) (seq 0 (length shs)))).
    { apply filter_In. split; [apply in_seq; split; [lia|cbn; apply nth_error_Some; congruence]|]. apply hits_touch. rewrite (nth_error_nth _ _ [] E). exact T. }
    rewrite F in X. destruct X.
  - right. assert (X : In s (filter (hits_sh shs cl) (seq 0 (length shs)))) by (rewrite F; left; reflexivity).
    apply filter_In in X. destruct X as [X T]. apply in_seq in X. apply hits_touch in T.
    exists s, (nth s shs []). split; [apply nth_error_nth'; lia|]. split; [exact T|]. split; [reflexivity|].
    intros i b L E Tb.
    assert (Xi : In i (filter (hits_sh shs cl) (seq 0 (length shs)))).
    { apply filter_In. split; [apply in_seq; lia|]. apply hits_touch. rewrite (nth_error_nth _ _ [] E). exact Tb. }
    assert (Ss : StronglySorted lt (filter (hits_sh shs cl) (seq 0 (length shs)))).
    { generalize (length shs), 0. intros n. induction n as [|n IH]; intros z; cbn [seq filter]; [constructor|].
      destruct (hits_sh shs cl z); [|apply IH]. constructor; [apply IH|]. apply Forall_forall. intros y Hy. apply filter_In in Hy. destruct Hy as [Hy _]. apply in_seq in Hy. lia. }
    rewrite F in Xi, Ss. inversion Ss as [|? ? ? Ff]; subst. rewrite Forall_forall in Ff. destruct Xi as [->|Xi]; [lia|]. specialize (Ff _ Xi). lia.
Qed.

Lemma nth_snoc {A} (l : list A) x i y : nth_error (l ++ [x]) i = Some y -> nth_error l i = Some y \/ (i = length l /\ y = x).
Proof.
  destruct (Nat.lt_ge_cases i (length l)) as [L|L]; [rewrite nth_error_app1 by exact L; auto|]. rewrite nth_error_app2 by exact L.
  destruct (i - length l) as [|k] eqn:Q; cbn; [intros [= ->]; right; split; [lia|reflexivity]|destruct k; discriminate].
Qed.

(** the existing showers only grow *)
Lemma fstep_grows shs cl i a : nth_error shs i = Some a -> exists a', nth_error (fstep shs cl) i = Some a' /\ incl a a'.
Proof.
  intros E. destruct (fstep_cases shs cl) as [ [-> _]|(s & b & Eb & _ & -> & _)].
  - exists a. split; [|apply incl_refl]. rewrite nth_error_app1; [exact E|]. apply nth_error_Some. congruence.
  - rewrite nth_error_upd. destruct (Nat.eqb_spec i s) as [->|]; cbn [andb].
    + assert (s < length shs) by (apply nth_error_Some; congruence). destruct (Nat.ltb_spec s (length shs)); [|lia].
      exists (add_missing b cl). split; [reflexivity|]. rewrite E in Eb. injection Eb as <-. intros x Hx. apply add_in. auto.
    + exists a. split; [exact E|apply incl_refl].
Qed.
Lemma fs_grows v w i a : nth_error (fs v) i = Some a -> exists a', nth_error (fs (v ++ w)) i = Some a' /\ incl a a'.
Proof.
  revert v a. induction w as [|l w IH]; intros v a E; [rewrite app_nil_r; exists a; split; [exact E|apply incl_refl]|].
  destruct (fstep_grows (fs v) l i a E) as (b & Eb & Ib). rewrite <- fs_snoc in Eb.
  destruct (IH (v ++ [l]) b Eb) as (c & Ec & Ic). rewrite <- app_assoc in Ec. exists c. split; [exact Ec|]. eapply incl_tran; eassumption.
Qed.

Lemma fstep_has shs cl : exists i s, nth_error (fstep shs cl) i = Some s /\ incl cl s.
Proof.
  destruct (fstep_cases shs cl) as [ [-> _]|(s & b & Eb & _ & -> & _)].
  - exists (length shs), cl. split; [rewrite nth_error_app2, Nat.sub_diag by lia; reflexivity|apply incl_refl].
  - exists s, (add_missing b cl). split; [|intros x Hx; apply add_in; auto]. rewrite nth_error_upd, Nat.eqb_refl.
    assert (s < length shs) by (apply nth_error_Some; congruence). destruct (Nat.ltb_spec s (length shs)); [reflexivity|lia].
Qed.
Lemma fs_has v l : In l v -> exists s, In s (fs v) /\ incl l s.
Proof.
  intros H. apply in_split in H. destruct H as (a & b & ->). destruct (fstep_has (fs a) l) as (i & s & E & I). rewrite <- fs_snoc in E.
  destruct (fs_grows _ b i s E) as (s' & E' & I'). rewrite <- app_assoc in E'. exists s'. split; [eapply nth_error_In, E'|eapply incl_tran; eassumption].
Qed.

(** an element of the new showers *)
Lemma fstep_elem shs cl x : In x (fstep shs cl) -> In x shs \/ x = cl \/ exists a, In a shs /\ touches a cl /\ x = add_missing a cl.
Proof.
  intros H. apply In_nth_error in H. destruct H as (i & E). destruct (fstep_cases shs cl) as [ [Q _]|(s & b & Eb & T & Q & _)]; rewrite Q in E.
  - apply nth_snoc in E. destruct E as [E|[_ ->] ]; [left; eapply nth_error_In, E|auto].
  - rewrite nth_error_upd in E. destruct ((i =? s) && (s <? length shs)); [|left; eapply nth_error_In, E]. injection E as <-.
    right; right. exists b. split; [eapply nth_error_In, Eb|auto].
Qed.
Lemma fs_nodup v : (forall l, In l v -> NoDup l) -> forall s, In s (fs v) -> NoDup s.
Proof.
  induction v as [|l v IH] using rev_ind; intros H s Hs; [destruct Hs|]. rewrite fs_snoc in Hs.
  assert (IH' : forall s, In s (fs v) -> NoDup s) by (apply IH; intros; apply H, in_app_iff; auto).
  apply fstep_elem in Hs. destruct Hs as [Hs|[->|(a & Ha & _ & ->)] ]; [apply IH', Hs|apply H, in_app_iff; right; left; reflexivity|apply add_nodup, IH', Ha].
Qed.
Lemma fs_nonempty v : (forall l, In l v -> l <> []) -> forall s, In s (fs v) -> s <> [].
Proof.
  induction v as [|l v IH] using rev_ind; intros H s Hs; [destruct Hs|]. rewrite fs_snoc in Hs.
  assert (IH' : forall s, In s (fs v) -> s <> []) by (apply IH; intros; apply H, in_app_iff; auto).
  apply fstep_elem in Hs. destruct Hs as [Hs|[->|(a & Ha & (c & Hc & _) & ->)] ]; [apply IH', Hs|apply H, in_app_iff; right; left; reflexivity|].
  intros E. assert (X : In c (add_missing a l)) by (apply add_in; auto). rewrite E in X. destruct X.
Qed.
(** clusters of one shower are connected *)
Definition sharev (v : list (list Z)) (a b : Z) : Prop := exists l, In l v /\ In a l /\ In b l.
Lemma conn_mono v w a b : (forall l, In l v -> In l w) -> clos_refl_trans Z (sharev v) a b -> clos_refl_trans Z (sharev w) a b.
Proof. intros H. induction 1 as [x y (l & Hl & A)| |]; [apply rt_step; exists l; split; [apply H, Hl|exact A]|apply rt_refl|eapply rt_trans; eassumption]. Qed.
Lemma conn_sym v a b : clos_refl_trans Z (sharev v) a b -> clos_refl_trans Z (sharev v) b a.
Proof. induction 1 as [x y (l & Hl & A & B)| |]; [apply rt_step; exists l; auto|apply rt_refl|eapply rt_trans; eassumption]. Qed.
Lemma fs_conn v : forall s a b, In s (fs v) -> In a s -> In b s -> clos_refl_trans Z (sharev v) a b.
Proof.
  induction v as [|l v IH] using rev_ind; intros s a b Hs Ha Hb; [destruct Hs|]. rewrite fs_snoc in Hs.
  assert (M : forall x y, clos_refl_trans Z (sharev v) x y -> clos_refl_trans Z (sharev (v ++ [l])) x y) by (intros x y; apply conn_mono; intros; apply in_app_iff; auto).
  assert (L : forall x y, In x l -> In y l -> clos_refl_trans Z (sharev (v ++ [l])) x y).
  { intros x y Hx Hy. apply rt_step. exists l. split; [apply in_app_iff; right; left; reflexivity|auto]. }
  apply fstep_elem in Hs. destruct Hs as [Hs|[->|(t & Ht & (c & Hc & Hcl) & ->)] ]; [apply M; eapply IH; eassumption|apply L; assumption|].
  assert (K : forall x, In x (add_missing t l) -> clos_refl_trans Z (sharev (v ++ [l])) c x).
  { intros x Hx. apply add_in in Hx. destruct Hx as [Hx|Hx]; [apply M; eapply IH; eassumption|apply L; assumption]. }
  eapply rt_trans; [apply conn_sym, K, Ha|apply K, Hb].
Qed.
Lemma fs_sound v s c : In s (fs v) -> In c s -> exists l, In l v /\ In c l.
Proof.
  revert s. induction v as [|l v IH] using rev_ind; intros s Hs Hc; [destruct Hs|]. rewrite fs_snoc in Hs.
  assert (W : (exists l0, In l0 v /\ In c l0) -> exists l0, In l0 (v ++ [l]) /\ In c l0) by (intros (z & Hz & Hcz); exists z; split; [apply in_app_iff; auto|exact Hcz]).
  assert (Ll : In c l -> exists l0, In l0 (v ++ [l]) /\ In c l0) by (intros; exists l; split; [apply in_app_iff; right; left; reflexivity|assumption]).
  apply fstep_elem in Hs. destruct Hs as [Hs|[->|(t & Ht & _ & ->)] ]; [apply W; eapply IH; eassumption|apply Ll, Hc|].
  apply add_in in Hc. destruct Hc as [Hc|Hc]; [apply W; eapply IH; eassumption|apply Ll, Hc].
Qed.
Lemma fs_count v : length (fs v) <= length v.
Proof.
  induction v as [|l v IH] using rev_ind; [cbn; lia|]. rewrite fs_snoc, app_length. cbn [length].
  destruct (fstep_cases (fs v) l) as [ [-> _]|(s & b & _ & _ & -> & _)]; [rewrite app_length; cbn; lia|rewrite upd_length; lia].
Qed.

(** disjoint showers *)
Definition one_touch (v : list (list Z)) : Prop := forall pre l post, v = pre ++ l :: post ->
  forall i j a b, nth_error (fs pre) i = Some a -> nth_error (fs pre) j = Some b -> touches a l -> touches b l -> i = j.
Lemma disj_step shs l : disjoint_showers shs -> (forall i j a b, nth_error shs i = Some a -> nth_error shs j = Some b -> touches a l -> touches b l -> i = j) ->
  disjoint_showers (fstep shs l).
Proof.
  intros D O. destruct (fstep_cases shs l) as [ [-> Nt]|(s & t & Et & T & -> & _)].
  - intros i j a b c Ei Ej Ha Hb. apply nth_snoc in Ei, Ej.
    destruct Ei as [Ei|[-> ->] ], Ej as [Ej|[-> ->] ]; [eapply D; eassumption| | |reflexivity]; exfalso.
    + apply (Nt i a Ei). exists c; auto.
    + apply (Nt j b Ej). exists c; auto.
  - assert (Ls : s < length shs) by (apply nth_error_Some; congruence).
    assert (K : forall j b c, nth_error shs j = Some b -> In c b -> In c (add_missing t l) -> s = j).
    { intros j b c Ej Hb Hc. apply add_in in Hc. destruct Hc as [Hc|Hc]; [eapply D; eassumption|].
      apply (O s j t b Et Ej T). exists c; auto. }
    intros i j a b c Ei Ej Ha Hb. rewrite nth_error_upd in Ei, Ej. destruct (Nat.ltb_spec s (length shs)); [|lia]. rewrite andb_true_r in Ei, Ej.
    destruct (Nat.eqb_spec i s) as [->|], (Nat.eqb_spec j s) as [->|]; [reflexivity| | |eapply D; eassumption].
    + injection Ei as <-. eapply K; eassumption.
    + injection Ej as <-. symmetry. eapply K; eassumption.
Qed.
Lemma disj_if v : one_touch v -> disjoint_showers (fs v).
Proof.
  induction v as [|l v IH] using rev_ind; intros H; [intros i j a b c E; destruct i; discriminate|]. rewrite fs_snoc. apply disj_step.
  - apply IH. intros pre x post ->. apply (H pre x (post ++ [l])). rewrite <- app_assoc. reflexivity.
  - apply (H v l []). reflexivity.
Qed.
Lemma disj_only v : disjoint_showers (fs v) -> one_touch v.
Proof.
  intros D pre l post -> i j a b Ei Ej Ta Tb. destruct (Nat.eq_dec i j) as [E|N]; [exact E|exfalso].
  destruct (fstep_cases (fs pre) l) as [ [_ Nt]|(s & t & Et & T & Q & _)]; [exact (Nt i a Ei Ta)|].
  assert (exists k u, k <> s /\ nth_error (fs pre) k = Some u /\ touches u l) as (k & u & Nk & Ek & c & Hcu & Hcl).
  { destruct (Nat.eq_dec i s) as [->|Ni]; [exists j, b; auto|exists i, a; auto]. }
  assert (Ls : s < length (fs pre)) by (apply nth_error_Some; congruence).
  assert (E1 : nth_error (fs (pre ++ [l])) s = Some (add_missing t l)).
  { rewrite fs_snoc, Q, nth_error_upd, Nat.eqb_refl. destruct (Nat.ltb_spec s (length (fs pre))); [reflexivity|lia]. }
  assert (E2 : nth_error (fs (pre ++ [l])) k = Some u).
  { rewrite fs_snoc, Q, nth_error_upd. destruct (Nat.eqb_spec k s); [lia|exact Ek]. }
  destruct (fs_grows _ post _ _ E1) as (x & Ex & Ix). destruct (fs_grows _ post _ _ E2) as (y & Ey & Iy).
  rewrite <- app_assoc in Ex, Ey. cbn [app] in Ex, Ey. apply Nk. symmetry. apply (D s k x y c Ex Ey); [apply Ix, add_in; auto|apply Iy, Hcu].
Qed.
Lemma disj_comp v : disjoint_showers (fs v) -> forall a b, clos_refl_trans Z (sharev v) a b -> forall s, In s (fs v) -> In a s -> In b s.
Proof.
  intros D a b H. induction H as [x y (l & Hl & A & B)| |x y z _ IH1 _ IH2]; intros s Hs Ha; [|exact Ha|auto].
  destruct (fs_has v l Hl) as (s' & Hs' & I). apply In_nth_error in Hs, Hs'. destruct Hs as (i & Ei), Hs' as (j & Ej).
  assert (i = j) by (apply (D i j s s' x Ei Ej Ha), I, A). subst j. rewrite Ei in Ej. injection Ej as <-. apply I, B.
Qed.
