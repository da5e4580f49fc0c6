(** Numbering under arbitrary use, the consistency checker, and the clean end-to-end merge. *)
From Verif Require Import Base Util SortUtil TJ_Model TJ_Spec TJ_Proofs TJ_Ops TJ_Split TJ_Merge GHF_Any.
Local Open Scope nat_scope.

(** ---- numbering ---- *)
Definition nums (l : list traj) : list (Z * Z) := map (fun t => (tid t, uid t)) l.
Definition grows (s s' : slc) : Prop :=
  (nums (tjs s') = nums (tjs s) /\ (gid s <= gid s')%Z) \/
  (nums (tjs s') = nums (tjs s) ++ [(Z.of_nat (length (tjs s) + 1), gid s')] /\ gid s' = (gid s + 1)%Z).
Lemma core_nums l l' : core_list l l' -> nums l' = nums l.
Proof.
  revert l'. induction l as [|t l IH]; intros l' C.
  - pose proof (core_list_length _ _ C) as L. destruct l'; [reflexivity|discriminate L].
  - pose proof (core_list_length _ _ C) as L. destruct l' as [|t' l']; [discriminate L|]. cbn. f_equal.
    + specialize (C 0). cbn in C. destruct C as (_ & -> & _ & -> & _). reflexivity.
    + apply IH. intros i. apply (C (S i)).
Qed.
Lemma nums_upd l i t t' : nth_error l i = Some t -> tid t' = tid t -> uid t' = uid t -> nums (upd l i t') = nums l.
Proof.
  revert i. induction l as [|x l IH]; intros [|i] E H1 H2; cbn in *; try discriminate; f_equal.
  - injection E as ->. congruence.
  - apply IH; assumption.
Qed.
Lemma grows_refl s : grows s s. Proof. left. split; [reflexivity|lia]. Qed.
Lemma grows_own s o : grows s (set_own s o). Proof. left. cbn. split; [reflexivity|lia]. Qed.
Lemma nth_error_ext {A} (l l' : list A) : (forall i, nth_error l i = nth_error l' i) -> l = l'.
Proof.
  revert l'. induction l as [|x l IH]; intros l' H.
  - destruct l' as [|y l']; [reflexivity|specialize (H 0); discriminate H].
  - destruct l' as [|y l']; [specialize (H 0); discriminate H|]. pose proof (H 0) as H0. injection H0 as ->. f_equal.
    apply IH. intros i. apply (H (S i)).
Qed.
Lemma nums_length l l' : nums l = nums l' -> length l = length l'.
Proof. intros H. apply (f_equal (@length _)) in H. unfold nums in H. rewrite !map_length in H. exact H. Qed.
Lemma grows_same s s1 s' : nums (tjs s1) = nums (tjs s) -> gid s1 = gid s -> grows s1 s' -> grows s s'.
Proof.
  intros E G [[H1 H2]|[H1 H2]]; [left|right].
  - split; [congruence|lia].
  - rewrite H1, E, (nums_length _ _ E), G in *. auto.
Qed.
Lemma sep_id t : tid (set_end_points t) = tid t /\ uid (set_end_points t) = uid t.
Proof. unfold set_end_points. destruct (shower t || halo t); auto. Qed.

Lemma store_grows s t b s' : store_traj s t = Ok (b, s') -> grows s s'.
Proof.
  unfold store_traj. intros E. destruct (existsb _ (pts t)); [injection E as <- <-; apply grows_refl|].
  destruct (_ || _ || _). { apply obind_inv in E. destruct E as (o & _ & E). injection E as <- <-. apply grows_own. }
  destruct (_ <? 2); [injection E as <- <-; apply grows_refl|].
  apply obind_inv in E. destruct E as (q & _ & E). apply obind_inv in E. destruct E as ([o ok] & _ & E).
  destruct ok; cbn [negb] in E; [|apply obind_inv in E; destruct E as (o' & _ & E); injection E as <- <-; apply grows_own].
  destruct (existsb _ o); injection E as <- <-; [apply grows_own|]. right. cbn [tjs gid]. split; [|reflexivity].
  unfold nums. rewrite map_app. reflexivity.
Qed.
Lemma kill_grows s i s' : make_obsolete s i = Ok s' -> nums (tjs s') = nums (tjs s) /\ gid s' = gid s.
Proof.
  intros E. apply kill_spec in E. destruct E as [[-> _]|(t & H & ->)]; [auto|]. cbn. split; [|reflexivity]. eapply nums_upd; eauto.
Qed.
Lemma restore_grows s i s' : restore_obsolete s i = Ok s' -> grows s s'.
Proof.
  intros E. apply restore_spec in E. destruct E as [->|(t & o & H & _ & _ & ->)]; [apply grows_refl|]. left. cbn. split; [|lia]. eapply nums_upd; eauto.
Qed.
Section Num.
Variable pdg_of : traj -> Z.
Variable attach : slc -> option (bool * nat).
Lemma split_grows s i p v b s' : split_traj pdg_of s i p v = Ok (b, s') -> grows s s'.
Proof.
  unfold split_traj. intros E. destruct (beyond _ _); [injection E as <- <-; apply grows_refl|].
  apply obind_inv in E. destruct E as (t & Ht & E). apply idx_inv in Ht. destruct Ht as [_ Ht].
  destruct (_ || _); [injection E as <- <-; apply grows_refl|].
  destruct (match v with Some v0 => beyond (vxs s) v0 | None => false end); [injection E as <- <-; apply grows_refl|].
  set (t0 := if (pdg t =? 13)%Z then set_pdg t 0%Z else t) in *.
  assert (T0 : tid t0 = tid t /\ uid t0 = uid t) by (unfold t0; destruct (pdg t =? 13)%Z; auto). clearbody t0. destruct T0 as [T0 T0'].
  assert (S1 : grows s (set_tjs s (upd (tjs s) i t0))).
  { left. cbn. split; [eapply nums_upd; eauto|lia]. }
  apply obind_inv in E. destruct E as (n1 & _ & E). destruct (n1 <? 3); [injection E as <- <-; exact S1|].
  apply obind_inv in E. destruct E as (n2 & _ & E). destruct (n2 <? 3); [injection E as <- <-; exact S1|].
  apply obind_inv in E. destruct E as (q & _ & E). apply obind_inv in E. destruct E as ([o mid] & _ & E).
  destruct (_ || _). { injection E as <- <-. left. cbn. split; [eapply nums_upd; eauto|lia]. }
  apply obind_inv in E. destruct E as (np & _ & E). injection E as <- <-. right. cbn [tjs gid]. split; [|reflexivity].
  unfold nums. rewrite map_app. f_equal. apply (nums_upd _ _ t); [exact Ht| |].
  - unfold with_vx1. match goal with |- context [match ?c with Some n => set_vx _ _ n | None => _ end] => destruct c end; destruct (pdg t =? 13)%Z; cbn; rewrite (proj1 (sep_id _)); exact T0.
  - unfold with_vx1. match goal with |- context [match ?c with Some n => set_vx _ _ n | None => _ end] => destruct c end; destruct (pdg t =? 13)%Z; cbn; rewrite (proj2 (sep_id _)); exact T0'.
Qed.
Lemma merge_grows s a b r s' : merge_and_store pdg_of attach s a b = Ok (r, s') -> grows s s'.
Proof.
  unfold merge_and_store. intros E.
  destruct (_ || _); [injection E as <- <-; apply grows_refl|].
  apply obind_inv in E. destruct E as (ta & _ & E). apply obind_inv in E. destruct E as (tb & _ & E).
  destruct (killed ta || killed tb); [injection E as <- <-; apply grows_refl|].
  destruct (halo ta || halo tb); [injection E as <- <-; apply grows_refl|].
  destruct (shower ta || shower tb); [discriminate E|].
  destruct (_ && _); [injection E as <- <-; apply grows_refl|].
  match type of E with (let (_, _) := ?c in _) = _ => destruct c as [i1 i2] end.
  apply obind_inv in E. destruct E as (p10 & _ & E). apply obind_inv in E. destruct E as (p11 & _ & E).
  apply obind_inv in E. destruct E as (p20 & _ & E). apply obind_inv in E. destruct E as (p21 & _ & E).
  match type of E with (if ?c then _ else _) = _ => destruct c end; [injection E as <- <-; apply grows_refl|].
  apply obind_inv in E. destruct E as ([okv s1] & Ev & E).
  assert (S1 : nums (tjs s1) = nums (tjs s) /\ gid s1 = gid s).
  { match type of Ev with (if ?c then _ else _) = _ => destruct c end.
    - apply kill_vertex_spec in Ev. destruct Ev as (_ & C & _ & G & _). split; [apply core_nums, C|exact G].
    - injection Ev as <- <-. auto. }
  destruct S1 as [S1 G1]. clear Ev.
  assert (X1 : grows s s1) by (left; split; [exact S1|lia]).
  destruct okv; cbn [negb] in E; [|injection E as <- <-; exact X1].
  match type of E with (if ?c then _ else _) = _ => destruct c end; [injection E as <- <-; exact X1|].
  apply obind_inv in E. destruct E as (e & _ & E).
  destruct (close_pt _ _ _ _) as [c0|]; [|injection E as <- <-; exact X1].
  apply obind_inv in E. destruct E as (c & _ & E). apply obind_inv in E. destruct E as (d & _ & E).
  destruct d; [injection E as <- <-; exact X1|].
  apply obind_inv in E. destruct E as (s2 & Es2 & E). apply obind_inv in E. destruct E as (s3 & Es3 & E).
  apply kill_grows in Es2. apply kill_grows in Es3.
  apply obind_inv in E. destruct E as ([ok s4] & Es4 & E). apply store_grows in Es4.
  assert (X4 : grows s s4) by (apply (grows_same s s3); [intuition congruence|intuition congruence|exact Es4]).
  destruct ok; cbn [negb] in E; [|injection E as <- <-; exact X4].
  assert (C5 : core_list (tjs s4) (tjs s') /\ gid s' = gid s4).
  { match type of E with context [map ?f (tjs s4)] => set (re := f) in E end.
    assert (Cre : forall t, core t (re t)).
    { intros t. unfold re. match goal with |- core _ (if ?c then _ else _) => destruct c end; [repeat split|apply core_refl]. }
    clearbody re. injection E as _ <-. destruct (attach _) as [[e1 vv]|]; [|split; [apply (core_list_map re), Cre|reflexivity]].
    cbn [tjs set_tjs].
    destruct (nth_error (map re (tjs s4)) (length (map re (tjs s4)) - 1)) as [t|] eqn:Et; cbn [tjs set_tjs gid];
      [|split; [apply (core_list_map re), Cre|reflexivity]].
    split; [|reflexivity]. apply (core_list_trans _ (map re (tjs s4))); [apply (core_list_map re), Cre|].
    apply (core_list_upd (map re (tjs s4)) _ t); [exact Et|]. destruct e1; repeat split. }
  destruct C5 as [C5 G5]. apply core_nums in C5. destruct X4 as [[H1 H2]|[H1 H2]]; [left|right]; rewrite C5, G5; auto.
Qed.
Lemma any_grows s s' : any_step pdg_of attach s s' -> grows s s'.
Proof.
  intros [s0 s1 [-> _]|s0 t b s1 E|s0 i s1 E|s0 i s1 E|s0 i p v b s1 E|s0 i j b s1 E].
  - left. cbn. split; [reflexivity|lia].
  - eapply store_grows, E.
  - apply kill_grows in E. left. destruct E as [E G]. split; [exact E|lia].
  - eapply restore_grows, E.
  - eapply split_grows, E.
  - eapply merge_grows, E.
Qed.
End Num.

Lemma nums_nth l i x : nth_error (nums l) i = Some x -> exists t, nth_error l i = Some t /\ x = (tid t, uid t).
Proof. unfold nums. rewrite nth_error_map. destruct (nth_error l i) as [t|]; [|discriminate]. intros E. injection E as <-. eauto. Qed.
Lemma nth_nums l i t : nth_error l i = Some t -> nth_error (nums l) i = Some (tid t, uid t).
Proof. intros E. unfold nums. rewrite nth_error_map, E. reflexivity. Qed.

Lemma numbered_grows s s' : numbered s -> grows s s' -> numbered s'.
Proof.
  intros (N1 & N2 & N3) [[H G]|[H G]].
  - split; [|split].
    + intros i t Hi. apply nth_nums in Hi. rewrite H in Hi. apply nums_nth in Hi. destruct Hi as (u & Hu & E). injection E as -> _. apply N1, Hu.
    + intros i j t u Hi Hj E. apply nth_nums in Hi. apply nth_nums in Hj. rewrite H in Hi, Hj.
      apply nums_nth in Hi. apply nums_nth in Hj. destruct Hi as (t' & Hi & E1), Hj as (u' & Hj & E2).
      injection E1 as _ E1. injection E2 as _ E2. eapply N2; eauto. congruence.
    + intros t Ht. apply In_nth_error in Ht. destruct Ht as [i Hi]. apply nth_nums in Hi. rewrite H in Hi. apply nums_nth in Hi.
      destruct Hi as (u & Hu & E). injection E as _ ->. apply nth_error_In in Hu. apply N3 in Hu. lia.
  - assert (Ln : length (nums (tjs s)) = length (tjs s)) by apply map_length.
    split; [|split].
    + intros i t Hi. apply nth_nums in Hi. rewrite H, nth_error_snoc in Hi. destruct (i =? length (nums (tjs s))) eqn:Ei.
      * apply Nat.eqb_eq in Ei. injection Hi as <- _. lia.
      * apply nums_nth in Hi. destruct Hi as (u & Hu & E). injection E as -> _. apply N1, Hu.
    + intros i j t u Hi Hj E. apply nth_nums in Hi. apply nth_nums in Hj. rewrite H, nth_error_snoc in Hi, Hj.
      destruct (i =? length (nums (tjs s))) eqn:Ei, (j =? length (nums (tjs s))) eqn:Ej.
      * apply Nat.eqb_eq in Ei. apply Nat.eqb_eq in Ej. congruence.
      * injection Hi as _ Hi. apply nums_nth in Hj. destruct Hj as (u' & Hj & E2). injection E2 as _ E2.
        apply nth_error_In, N3 in Hj. lia.
      * injection Hj as _ Hj. apply nums_nth in Hi. destruct Hi as (u' & Hi & E2). injection E2 as _ E2.
        apply nth_error_In, N3 in Hi. lia.
      * apply nums_nth in Hi. apply nums_nth in Hj. destruct Hi as (t' & Hi & E1), Hj as (u' & Hj & E2).
        injection E1 as _ E1. injection E2 as _ E2. eapply N2; eauto. congruence.
    + intros t Ht. apply In_nth_error in Ht. destruct Ht as [i Hi]. apply nth_nums in Hi. rewrite H, nth_error_snoc in Hi.
      destruct (i =? length (nums (tjs s))) eqn:Ei.
      * injection Hi as _ <-. lia.
      * apply nums_nth in Hi. destruct Hi as (u & Hu & E). injection E as _ ->. apply nth_error_In in Hu. apply N3 in Hu. lia.
Qed.

(** ---- the consistency checker ---- *)
Lemma at_hits_in o id i h : In h (at_hits o id i) <-> exists k, h = i + k /\ nth_error o k = Some id.
Proof.
  revert i. induction o as [|x o IH]; intros i; cbn.
  - split; [intros []|intros (k & _ & E); destruct k; discriminate E].
  - destruct (x =? id)%Z eqn:E.
    + apply Z.eqb_eq in E. subst x. cbn. rewrite IH. split.
      * intros [<-|(k & -> & Hk)]; [exists 0; split; [lia|reflexivity]|exists (S k); split; [lia|exact Hk]].
      * intros (k & -> & Hk). destruct k as [|k]; [left; lia|right; exists k; split; [lia|exact Hk]].
    + apply Z.eqb_neq in E. rewrite IH. split.
      * intros (k & -> & Hk). exists (S k). split; [lia|exact Hk].
      * intros (k & -> & Hk). destruct k as [|k]; [injection Hk; congruence|exists k; split; [lia|exact Hk]].
Qed.
Lemma at_hits_ge o id i h : In h (at_hits o id i) -> i <= h.
Proof. intros H. apply at_hits_in in H. destruct H as (k & -> & _). lia. Qed.
Lemma at_hits_sorted o id i : StronglySorted lt (at_hits o id i).
Proof.
  revert i. induction o as [|x o IH]; intros i; cbn; [constructor|]. destruct (x =? id)%Z; [|apply IH].
  constructor; [apply IH|]. apply Forall_forall. intros h H. apply at_hits_ge in H. lia.
Qed.
Lemma sorted_lt l : NoDup l -> StronglySorted lt (isort Nat.ltb l).
Proof.
  intros N. assert (S : StronglySorted (fun a b => (b <? a) = false) (isort Nat.ltb l)).
  { apply isort_sorted.
    - intros a b c H1 H2. apply Nat.ltb_ge in H1. apply Nat.ltb_ge in H2. apply Nat.ltb_ge. lia.
    - intros a b H. apply Nat.ltb_lt in H. apply Nat.ltb_ge. lia. }
  assert (N' : NoDup (isort Nat.ltb l)) by (eapply Permutation_NoDup; [apply Permutation_sym, isort_perm|exact N]).
  induction S as [|x r S IH F]; [constructor|]. apply NoDup_cons_iff in N'. destruct N' as [N1 N2]. constructor; [apply IH, N2|].
  rewrite Forall_forall in *. intros y Hy. specialize (F y Hy). apply Nat.ltb_ge in F. assert (x <> y) by congruence. lia.
Qed.
Lemma sorted_eq l l' : StronglySorted lt l -> StronglySorted lt l' -> (forall x, In x l <-> In x l') -> l = l'.
Proof.
  intros S. revert l'. induction S as [|x r S IH F]; intros l' S' E.
  - destruct l' as [|y l']; [reflexivity|]. exfalso. apply (E y). left. reflexivity.
  - destruct S' as [|y r' S' F']. { exfalso. apply (E x). left. reflexivity. }
    rewrite Forall_forall in *.
    assert (x = y).
    { destruct (proj1 (E x) (or_introl eq_refl)) as [->|Hx]; [reflexivity|].
      destruct (proj2 (E y) (or_introl eq_refl)) as [->|Hy]; [reflexivity|]. specialize (F y Hy). specialize (F' x Hx). lia. }
    subst y. f_equal. apply IH; [exact S'|]. intros z. split; intros Hz.
    + destruct (proj1 (E z) (or_intror Hz)) as [<-|K]; [specialize (F x Hz); lia|exact K].
    + destruct (proj2 (E z) (or_intror Hz)) as [<-|K]; [specialize (F' x Hz); lia|exact K].
Qed.
Lemma equal_self l : equal_ l l = Ok true.
Proof. induction l as [|x l IH]; cbn; [reflexivity|]. rewrite Nat.eqb_refl. exact IH. Qed.
Lemma equal_true l l' : equal_ l l' = Ok true -> forall h, In h l -> In h l'.
Proof.
  revert l'. induction l as [|x l IH]; intros l' E h H; [contradiction|]. cbn in E. destruct l' as [|y l']; [discriminate E|].
  destruct (x =? y) eqn:Ex; [|discriminate E]. apply Nat.eqb_eq in Ex. subst y. destruct H as [<-|H]; [left; reflexivity|right; eapply IH; eauto].
Qed.

Lemma checker_quiet s : inv s -> (N.of_nat (length (tjs s)) <= 65535)%N ->
  (forall t, In t (tjs s) -> killed t = false -> vx0 t <= length (vxs s) /\ vx1 t <= length (vxs s)) ->
  in_traj_ok s (tjs s) = Ok true.
Proof.
  intros I Hl Hv. assert (G : forall l, (forall t, In t l -> In t (tjs s)) -> in_traj_ok s l = Ok true).
  { induction l as [|t l IH]; intros Hin; [reflexivity|]. cbn [in_traj_ok].
    assert (IHl : in_traj_ok s l = Ok true) by (apply IH; intros u Hu; apply Hin; right; exact Hu).
    destruct (killed t) eqn:Ek; [exact IHl|]. destruct (length (isort _ _) <? 2); [exact IHl|].
    destruct (length (at_hits _ _ _) <? 2); [exact IHl|].
    pose proof (Hin t (or_introl eq_refl)) as Ht. destruct (Hv t Ht Ek) as [Hv0 Hv1].
    apply In_nth_error in Ht. destruct Ht as [i Hi]. pose proof (i_ok s I i t Hi) as ((Es & _) & _ & _ & _ & On & _).
    apply once_nodup in On. pose proof (i_id s I i t Hi) as Hid.
    assert (Hil : i < length (tjs s)) by (apply nth_error_Some; congruence).
    assert (Em : (tid t mod 65536 = tid t)%Z) by (apply Z.mod_small; rewrite Hid; lia).
    rewrite Em. unfold used_hits. rewrite Es. change (flat_map used_pt (pts t)) with (U (pts t)).
    rewrite (sorted_eq (isort Nat.ltb (U (pts t))) (at_hits (own s) (tid t) 0)).
    - rewrite equal_self. cbn [obind negb]. replace (_ || _) with false; [exact IHl|].
      symmetry. apply orb_false_iff. split; apply Nat.ltb_ge; assumption.
    - apply sorted_lt, On.
    - apply at_hits_sorted.
    - intros h. rewrite at_hits_in. split.
      + intros H. apply (Permutation_in _ (isort_perm _ _)) in H. exists h. split; [reflexivity|]. eapply (i_used s I); eauto.
      + intros (k & -> & Hk). apply (Permutation_in _ (Permutation_sym (isort_perm _ _))). cbn.
        destruct (i_own s I k (tid t) Hk) as (j & u & Hj & _ & E & Hh); [rewrite Hid; lia|].
        assert (j = i) by (rewrite Hid, (i_id s I j u Hj) in E; lia). subst j. rewrite Hi in Hj. injection Hj as <-. exact Hh. }
  apply G. auto.
Qed.

Lemma checker_sound s : in_traj_ok s (tjs s) = Ok true ->
  forall t h1 h2 g1 g2, live s t -> shower t = false -> (0 <= tid t < 65536)%Z ->
  uses t h1 -> uses t h2 -> h1 <> h2 -> holds s g1 (tid t) -> holds s g2 (tid t) -> g1 <> g2 ->
  forall h, uses t h -> holds s h (tid t).
Proof.
  assert (G : forall l, in_traj_ok s l = Ok true -> forall t, In t l -> killed t = false ->
     2 <= length (isort Nat.ltb (used_hits t)) -> 2 <= length (at_hits (own s) (tid t mod 65536)%Z 0) ->
     forall h, In h (used_hits t) -> In h (at_hits (own s) (tid t mod 65536)%Z 0)).
  { induction l as [|u l IH]; intros E t Ht Hk L1 L2 h Hh; [contradiction|]. cbn [in_traj_ok] in E. destruct Ht as [->|Ht].
    - rewrite Hk in E. apply Nat.ltb_ge in L1. apply Nat.ltb_ge in L2. rewrite L1, L2 in E.
      apply obind_inv in E. destruct E as (b & Eb & E). destruct b; cbn [negb] in E; [|discriminate E].
      apply (equal_true _ _ Eb). apply (Permutation_in _ (Permutation_sym (isort_perm _ _))), Hh.
    - apply (IH) with (t := t); try assumption. destruct (killed u); [exact E|]. destruct (_ <? 2); [exact E|]. destruct (_ <? 2); [exact E|].
      apply obind_inv in E. destruct E as (b & _ & E). destruct b; cbn [negb] in E; [|discriminate E].
      destruct (_ || _); [discriminate E|exact E]. }
  assert (Two : forall (l : list nat) a b, In a l -> In b l -> a <> b -> 2 <= length l).
  { intros [|x [|y l]] a b Ha Hb Hne; cbn in *; [contradiction| |lia]. destruct Ha as [<-|[]], Hb as [<-|[]]. contradiction. }
  intros E t h1 h2 g1 g2 [Ht Hk] Es Hid U1 U2 Hne G1 G2 Hne' h Hh. specialize (G _ E t Ht Hk).
  assert (Em : (tid t mod 65536 = tid t)%Z) by (apply Z.mod_small, Hid). rewrite Em in G.
  assert (Eu : used_hits t = U (pts t)) by (unfold used_hits; rewrite Es; reflexivity). rewrite Eu in G.
  assert (K : In h (at_hits (own s) (tid t) 0)).
  { apply G.
    - apply (Two _ h1 h2); [| |exact Hne]; apply (Permutation_in _ (Permutation_sym (isort_perm _ _))), uses_U; assumption.
    - apply (Two _ g1 g2); [apply at_hits_in; exists g1; auto|apply at_hits_in; exists g2; auto|exact Hne'].
    - apply uses_U, Hh. }
  apply at_hits_in in K. destruct K as (k & -> & K). exact K.
Qed.

(** ---- kill then restore ---- *)
Lemma kill_restore s i s1 : inv s -> (exists t, nth_error (tjs s) i = Some t /\ killed t = false) ->
  make_obsolete s i = Ok s1 -> restore_obsolete s1 i = Ok s.
Proof.
  intros I (t & Hi & Hk) E. assert (Hlt : i < length (tjs s)) by (apply nth_error_Some; congruence).
  apply kill_spec in E. destruct E as [[_ E]|(t' & Hi' & ->)]; [lia|]. rewrite Hi in Hi'. injection Hi' as <-.
  unfold restore_obsolete. cbn [tjs own vxs pfps gid]. unfold beyond. rewrite upd_length.
  replace ((0 <? length (tjs s)) && (length (tjs s) - 1 <? i)) with false
    by (symmetry; apply andb_false_iff; right; apply Nat.ltb_ge; lia).
  unfold idx at 1. rewrite nth_error_upd', Nat.eqb_refl by exact Hlt. cbn [obind killed set_killed negb pts tid].
  pose proof (i_id s I i t Hi) as Hid.
  set (o := map _ (own s)).
  assert (R : forall hs o0, (forall h, In h hs -> h < length o0) -> exists o1, foreach hs (fun o h => do x <- idx o h; if (x =? 0)%Z then set_idx o h (tid t) else Ok o) o0 = Ok o1).
  { induction hs as [|h hs IH]; intros o0 B; cbn [foreach]; [eauto|]. pose proof (B h (or_introl eq_refl)) as Hh.
    rewrite (idx_ok _ _ 0%Z Hh). cbn [obind]. destruct (nth h o0 0 =? 0)%Z.
    - rewrite set_idx_ok by exact Hh. cbn [obind]. apply IH. intros k Hk2. rewrite upd_length. apply B. right. exact Hk2.
    - cbn [obind]. apply IH. intros k Hk2. apply B. right. exact Hk2. }
  destruct (R (flat_map used_pt (pts t)) o) as [o1 E1].
  { intros h Hh. unfold o. rewrite map_length. apply nth_error_Some. rewrite (i_used s I i t h Hi Hk Hh). discriminate. }
  rewrite E1. cbn [obind]. apply restore_loop in E1; [|lia]. destruct E1 as (L & _ & F). change (flat_map used_pt) with U in F.
  assert (Eo : o1 = own s).
  { apply nth_error_ext. intros h. rewrite F. unfold o. rewrite nth_error_map. destruct (existsb _ _) eqn:Em.
    - apply memb_spec in Em. rewrite (i_used s I i t h Hi Hk Em). cbn [option_map]. rewrite Z.eqb_refl. reflexivity.
    - apply memb_false in Em. destruct (nth_error (own s) h) as [x|] eqn:Ex; [|reflexivity]. cbn [option_map].
      destruct (x =? tid t)%Z eqn:Et; [|reflexivity]. exfalso. apply Z.eqb_eq in Et. subst x.
      destruct (i_own s I h _ Ex) as (j & u & Hj & _ & Hj2 & Hh); [rewrite Hid; lia|].
      assert (j = i) by (rewrite Hid, (i_id s I j u Hj) in Hj2; lia). subst j. rewrite Hi in Hj. injection Hj as <-. contradiction. }
  rewrite Eo. f_equal. destruct s as [o' l' v' p' g']. cbn in *. f_equal.
  apply nth_error_ext. intros k. rewrite !nth_error_upd' by (rewrite ?upd_length; exact Hlt).
  destruct (k =? i) eqn:Ek; [|reflexivity]. apply Nat.eqb_eq in Ek. subst k. rewrite Hi. f_equal. rewrite <- Hk. destruct t; reflexivity.
Qed.
