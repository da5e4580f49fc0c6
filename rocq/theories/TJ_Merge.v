(** MergeAndStore *)
From Verif Require Import Base Util TJ_Model TJ_Spec TJ_Proofs TJ_Ops TJ_Split GHF_Any.
Local Open Scope nat_scope.

(** same trajectory except for vertex IDs, ParentID, PDG code, flags *)
Definition core (t t' : traj) : Prop :=
  pts t' = pts t /\ tid t' = tid t /\ wid t' = wid t /\ uid t' = uid t /\ killed t' = killed t /\
  shower t' = shower t /\ halo t' = halo t /\ ep0 t' = ep0 t /\ ep1 t' = ep1 t.
Lemma core_refl t : core t t. Proof. repeat split. Qed.
Lemma core_trans a b c : core a b -> core b c -> core a c.
Proof. unfold core. intros H H'. intuition congruence. Qed.
Lemma core_ok t t' : core t t' -> stored_ok t -> stored_ok t'.
Proof.
  intros (E1 & E2 & E3 & E4 & E5 & E6 & E7 & E8 & E9) ((S1 & S2 & S3) & S4 & S5 & S6 & S7 & S8).
  unfold stored_ok, ordinary, charged_pts, once, small_pts. rewrite E1, E3, E6, E7, E8, E9. auto 10.
Qed.
Definition core_list (l l' : list traj) : Prop :=
  forall i, match nth_error l i, nth_error l' i with
            | Some t, Some t' => core t t' | None, None => True | _, _ => False end.
Lemma core_list_map f l : (forall t, core t (f t)) -> core_list l (map f l).
Proof. intros H i. rewrite nth_error_map. destruct (nth_error l i); cbn; auto. Qed.
Lemma core_list_refl l : core_list l l.
Proof. intros i. destruct (nth_error l i); [apply core_refl|exact Logic.I]. Qed.
Lemma core_list_upd l k t t' : nth_error l k = Some t -> core t t' -> core_list l (upd l k t').
Proof.
  intros E H i. assert (k < length l) by (apply nth_error_Some; congruence). rewrite nth_error_upd' by assumption.
  destruct (i =? k) eqn:Ei; [apply Nat.eqb_eq in Ei; subst; rewrite E; exact H|apply core_list_refl].
Qed.
Lemma core_list_trans a b c : core_list a b -> core_list b c -> core_list a c.
Proof.
  intros H H' i. specialize (H i). specialize (H' i). destruct (nth_error a i), (nth_error b i), (nth_error c i); try contradiction; [|exact Logic.I].
  eapply core_trans; eauto.
Qed.
Lemma core_list_get l l' i t : core_list l l' -> nth_error l i = Some t -> exists t', nth_error l' i = Some t' /\ core t t'.
Proof. intros H E. specialize (H i). rewrite E in H. destruct (nth_error l' i) as [t'|]; [eauto|contradiction]. Qed.
Lemma core_list_get' l l' i t : core_list l l' -> nth_error l' i = Some t -> exists t', nth_error l i = Some t' /\ core t' t.
Proof. intros H E. specialize (H i). rewrite E in H. destruct (nth_error l i) as [t'|]; [eauto|contradiction]. Qed.
Lemma core_list_length l l' : core_list l l' -> length l' = length l.
Proof.
  intros H. destruct (Nat.lt_trichotomy (length l') (length l)) as [L|[L|L]]; [|exact L|]; exfalso.
  - specialize (H (length l')). assert (X : nth_error l (length l') <> None) by (apply nth_error_Some, L).
    assert (Y : nth_error l' (length l') = None) by (apply nth_error_None; lia). rewrite Y in H.
    destruct (nth_error l (length l')); [contradiction|congruence].
  - specialize (H (length l)). assert (X : nth_error l' (length l) <> None) by (apply nth_error_Some, L).
    assert (Y : nth_error l (length l) = None) by (apply nth_error_None; lia). rewrite Y in H.
    destruct (nth_error l' (length l)); [contradiction|congruence].
Qed.

Lemma inv_core s s' : inv s -> own s' = own s -> core_list (tjs s) (tjs s') -> inv s'.
Proof.
  intros [I1 I2 I3 I4] Eo C. constructor; rewrite ?Eo.
  - intros i t Hi. destruct (core_list_get' _ _ _ _ C Hi) as (u & Hu & K). rewrite (proj1 (proj2 K)). apply (I1 i u Hu).
  - intros i t h Hi Hk Hh. destruct (core_list_get' _ _ _ _ C Hi) as (u & Hu & K). destruct K as (K1 & K2 & _ & _ & K3 & _).
    rewrite K2. rewrite K1 in Hh. apply (I2 i u h Hu); [congruence|exact Hh].
  - intros h x Hx Hp. destruct (I3 h x Hx Hp) as (i & t & Hi & Hk & E & Hh).
    destruct (core_list_get _ _ _ _ C Hi) as (u & Hu & K). destruct K as (K1 & K2 & _ & _ & K3 & _). exists i, u.
    split; [exact Hu|]. rewrite K1, K2, K3. auto.
  - intros i t Hi. destruct (core_list_get' _ _ _ _ C Hi) as (u & Hu & K). apply (core_ok u t K), (I4 i u Hu).
Qed.

Lemma kill_vertex_spec s k b s' : kill_vertex s k = Ok (b, s') ->
  own s' = own s /\ core_list (tjs s) (tjs s') /\ pfps s' = pfps s /\ gid s' = gid s /\
  (forall i t t', nth_error (tjs s) i = Some t -> nth_error (tjs s') i = Some t' -> exists x y, t' = set_vx t x y).
Proof.
  unfold kill_vertex. intros E. apply obind_inv in E. destruct E as (v & _ & E).
  assert (Z : forall t, t = set_vx t (vx0 t) (vx1 t)) by (intros []; reflexivity).
  destruct (vhi v); injection E as <- <-; cbn [own tjs pfps gid].
  - split; [reflexivity|]. split; [apply core_list_refl|]. split; [reflexivity|]. split; [reflexivity|].
    intros i t t' E E'. rewrite E in E'. injection E' as <-. eauto.
  - split; [reflexivity|]. split.
    + apply core_list_map. intros t. destruct (killed t || halo t); [apply core_refl|repeat split].
    + split; [reflexivity|]. split; [reflexivity|]. intros i t t' E E'. rewrite nth_error_map, E in E'. cbn in E'. injection E' as <-.
      destruct (killed t || halo t); eauto.
Qed.

(** a working copy of the stored trajectory [t] *)
Record like (u t : traj) : Prop := {
  l_id : tid u = tid t; l_wid : wid u = wid t; l_live : killed u = false;
  l_sh : shower u = false; l_ha : halo u = false;
  l_perm : Permutation (U (pts u)) (U (pts t)); l_wf : wf (pts u);
  l_lt : ep0 u < ep1 u; l_ends : ends_of (pts u) (ep0 u) (ep1 u); l_small : small_pts u;
  l_pts : pts u = pts t \/ pts u = rev (pts t) }.

Lemma like_self t : stored_ok t -> killed t = false -> like t t.
Proof. intros ((S1 & S2 & S3) & S4 & S5 & S6 & S7 & S8) K. constructor; auto. Qed.

Lemma nth_error_rev' {A} (l : list A) i p : nth_error l i = Some p -> nth_error (rev l) (length l - 1 - i) = Some p.
Proof.
  intros H. assert (L : i < length l) by (apply nth_error_Some; congruence).
  rewrite (nth_error_nth' _ p) by (rewrite rev_length; lia). rewrite rev_nth by lia. f_equal.
  replace (length l - S (length l - 1 - i)) with i by lia. apply nth_error_nth, H.
Qed.
Lemma U_rev l : Permutation (U (rev l)) (U l).
Proof.
  induction l as [|p l IH]; [constructor|]. cbn [rev]. rewrite U_app. change (U [p]) with (used_pt p ++ []).
  rewrite app_nil_r. change (U (p :: l)) with (used_pt p ++ U l). rewrite Permutation_app_comm. apply Permutation_app_head, IH.
Qed.

Lemma like_reverse t : stored_ok t -> killed t = false -> like (reverse_traj t) t.
Proof.
  intros ((S1 & S2 & S3) & S4 & S5 & S6 & S7 & S8) K. unfold reverse_traj.
  destruct (pts t) as [|p0 r0] eqn:Ep.
  { exfalso. destruct S6 as ((p & Hp & _) & _). destruct (ep0 t); discriminate Hp. }
  rewrite <- Ep in *. clear Ep p0 r0.
  set (u := TJ _ _ _ _ _ _ _ _ _ _ _ _ _ _ _ _ _).
  assert (Eu : tid (set_end_points u) = tid t /\ wid (set_end_points u) = wid t /\ killed (set_end_points u) = false /\
               shower (set_end_points u) = false /\ halo (set_end_points u) = false /\ pts (set_end_points u) = rev (pts t)).
  { split; [|split; [|split; [|split; [|split; [|apply sep_pts]]]]]; unfold set_end_points, u; cbn; rewrite S1, S2; cbn; auto. }
  destruct Eu as (E1 & E2 & E3 & E4 & E5 & E6).
  assert (En : ends_of (rev (pts t)) (ep0 (set_end_points u)) (ep1 (set_end_points u)) /\ ep0 (set_end_points u) < ep1 (set_end_points u)).
  { destruct (set_end_points_spec u S1 S2) as [H|[H _]].
    - cbn [pts u] in H. split; [exact H|]. destruct S6 as ((p & Hp & Cp) & (q & Hq & Cq) & _). destruct H as (_ & _ & H).
      pose proof (H _ _ (nth_error_rev' _ _ _ Hp) Cp). pose proof (H _ _ (nth_error_rev' _ _ _ Hq) Cq).
      assert (ep1 t < length (pts t)) by (apply nth_error_Some; congruence). lia.
    - exfalso. destruct S6 as ((p & Hp & Cp) & _). apply Cp, H. cbn [pts u]. apply -> in_rev. eapply nth_error_In, Hp. }
  destruct En as [En El]. constructor; rewrite ?E6; try assumption.
  - apply U_rev.
  - intros p h Hp. apply S3. apply in_rev, Hp.
  - intros p Hp. rewrite E6 in Hp. apply S8. apply in_rev, Hp.
  - right. reflexivity.
Qed.

Lemma dup_nodup l : dup l = false -> NoDup l.
Proof.
  induction l as [|x l IH]; cbn; intros H; constructor; apply orb_false_iff in H; destruct H as [H1 H2].
  - apply memb_false, H1.
  - apply IH, H2.
Qed.
Lemma used_all_nodup l : NoDup (flat_map all_pt l) -> NoDup (U l).
Proof.
  assert (S : forall p h, In h (used_pt p) -> In h (all_pt p)).
  { intros p h H. apply in_used_pt in H. unfold all_pt. apply in_map_iff. exists (h, true). auto. }
  assert (N1 : forall p, NoDup (all_pt p) -> NoDup (used_pt p)).
  { intros p. unfold all_pt, used_pt. induction (thits p) as [|[h u] r IH]; cbn; [constructor|].
    intros N. apply NoDup_cons_iff in N. destruct N as [Na Nb]. destruct u; cbn; [|apply IH, Nb]. constructor; [|apply IH, Nb].
    intros K. apply Na. apply in_map_iff in K. destruct K as (q & Eq & K). apply filter_In in K. apply in_map_iff. exists q. tauto. }
  induction l as [|p l IH]; [constructor|]. cbn [flat_map U]. intros N. apply nodup_app_iff in N. destruct N as (Na & Nb & Nc).
  change (flat_map used_pt l) with (U l). apply nodup_app_iff. split; [apply N1, Na|]. split; [apply IH, Nb|].
  intros h H1 H2. apply (Nc h (S p h H1)). apply in_U in H2. destruct H2 as (q & Hq & H2). apply in_flat_map. exists q. split; [exact Hq|].
  apply S, in_used_pt, H2.
Qed.

Lemma close_pt_in l q best c k : close_pt l q best c = Some k -> c = Some k \/ In k (map fst l).
Proof.
  revert best c. induction l as [|[i p] l IH]; intros best c E; cbn in E; [auto|].
  destruct (sep2 (pos p) q <? best)%Z; apply IH in E; destruct E as [E|E]; cbn; auto. injection E as ->. auto.
Qed.
Lemma bump_in f p2 e1 h1 c k : bump f p2 e1 h1 c = Ok k -> c <= k /\ (k <= e1 \/ k = c).
Proof.
  revert c. induction f as [|f IH]; intros c E; cbn in E; apply obind_inv in E; destruct E as (p & _ & E).
  - destruct (_ && _); [discriminate E|]. injection E as <-. lia.
  - destruct (_ && _) eqn:Eb; [|injection E as <-; lia]. apply andb_true_iff in Eb. destruct Eb as [_ Eb]. apply Nat.ltb_lt in Eb.
    apply IH in E. lia.
Qed.

Lemma sep2_dist2 a b : sep2 (pos a) (pos b) = dist2 a b.
Proof. unfold sep2, dist2. ring. Qed.
Lemma close_pt_min l q best c k : close_pt l q best c = Some k ->
  (c = Some k /\ forall i p, In (i, p) l -> (best <= sep2 (pos p) q)%Z) \/
  (exists p, In (k, p) l /\ (sep2 (pos p) q < best)%Z /\ forall i p', In (i, p') l -> (sep2 (pos p) q <= sep2 (pos p') q)%Z).
Proof.
  revert best c. induction l as [|[i p] l IH]; intros best c E; cbn in E.
  - left. split; [exact E|]. intros j p' [].
  - destruct (sep2 (pos p) q <? best)%Z eqn:Ed.
    + apply Z.ltb_lt in Ed. right. apply IH in E. destruct E as [[E F]|(p' & H1 & H2 & H3)].
      * injection E as ->. exists p. split; [left; reflexivity|]. split; [exact Ed|].
        intros j p' [J|J]; [injection J as _ <-; lia|]. apply F in J. exact J.
      * exists p'. split; [right; exact H1|]. split; [lia|]. intros j p2 [J|J]; [injection J as _ <-; lia|]. eapply H3, J.
    + apply Z.ltb_ge in Ed. apply IH in E. destruct E as [[E F]|(p' & H1 & H2 & H3)].
      * left. split; [exact E|]. intros j p' [J|J]; [injection J as _ <-; lia|]. eapply F, J.
      * right. exists p'. split; [right; exact H1|]. split; [exact H2|]. intros j p2 [J|J]; [injection J as _ <-; lia|]. eapply H3, J.
Qed.
Lemma bump_shared f p2 e1 h1 c k : bump f p2 e1 h1 c = Ok k ->
  (forall j pj, c <= j < k -> nth_error p2 j = Some pj -> exists h, In h (all_pt pj) /\ In h h1) /\
  (k < e1 -> forall pk h, nth_error p2 k = Some pk -> In h (all_pt pk) -> ~ In h h1).
Proof.
  revert c. induction f as [|f IH]; intros c E; cbn in E; apply obind_inv in E; destruct E as (p & Hp & E).
  - destruct (_ && _) eqn:Eb; [discriminate E|]. injection E as <-. split; [intros; lia|].
    intros Hk pk h H1 H2 H3. apply idx_inv in Hp. destruct Hp as [_ Hp]. rewrite Hp in H1. injection H1 as <-.
    apply andb_false_iff in Eb. destruct Eb as [Eb|Eb]; [|apply Nat.ltb_ge in Eb; lia].
    assert (X : existsb (fun h => existsb (Nat.eqb h) h1) (all_pt p) = true) by (apply existsb_exists; exists h; split; [exact H2|apply memb_spec, H3]).
    congruence.
  - apply idx_inv in Hp. destruct Hp as [_ Hp]. destruct (_ && _) eqn:Eb.
    + apply IH in E. destruct E as [E1 E2]. split; [|exact E2]. intros j pj Hj Hpj.
      destruct (Nat.eq_dec j c) as [->|Hne]; [|apply (E1 j pj); [lia|exact Hpj]].
      rewrite Hp in Hpj. injection Hpj as <-. apply andb_true_iff in Eb. destruct Eb as [Eb _]. apply existsb_exists in Eb.
      destruct Eb as (h & Hh & Hm). exists h. split; [exact Hh|apply memb_spec, Hm].
    + injection E as <-. split; [intros; lia|].
      intros Hk pk h H1 H2 H3. rewrite Hp in H1. injection H1 as <-.
      apply andb_false_iff in Eb. destruct Eb as [Eb|Eb]; [|apply Nat.ltb_ge in Eb; lia].
      assert (X : existsb (fun h => existsb (Nat.eqb h) h1) (all_pt p) = true) by (apply existsb_exists; exists h; split; [exact H2|apply memb_spec, H3]).
      congruence.
Qed.
Lemma nth_skip' {A} (l : list A) n i : nth_error (skipn n l) i = nth_error l (n + i).
Proof. revert l. induction n as [|n IH]; intros l; [reflexivity|]. destruct l; cbn; [destruct i; reflexivity|apply IH]. Qed.
Lemma nth_first' {A} (l : list A) n i : i < n -> nth_error (firstn n l) i = nth_error l i.
Proof.
  revert n i. induction l as [|x l IH]; intros [|n] [|i] H; cbn; try reflexivity; try lia. apply IH. lia.
Qed.
Lemma in_cand (l : list tp) a b k p : b < length l ->
  In (k, p) (List.combine (seq a (S b - a)) (between l a b)) <-> a <= k <= b /\ nth_error l k = Some p.
Proof.
  intros Hb.
  assert (N : forall (u : list nat) (v : list tp) i, nth_error (List.combine u v) i =
    match nth_error u i, nth_error v i with Some x, Some y => Some (x, y) | _, _ => None end).
  { induction u as [|x u IH]; intros [|y v] [|i]; cbn; try reflexivity; [destruct (nth_error u i); reflexivity|apply IH]. }
  assert (Sq : forall i, nth_error (seq a (S b - a)) i = if i <? S b - a then Some (a + i) else None).
  { intros i. destruct (i <? S b - a) eqn:Ei.
    - apply Nat.ltb_lt in Ei. rewrite (nth_error_nth' _ 0) by (rewrite seq_length; exact Ei). rewrite seq_nth by exact Ei. reflexivity.
    - apply Nat.ltb_ge in Ei. apply nth_error_None. rewrite seq_length. exact Ei. }
  split.
  - intros H. apply In_nth_error in H. destruct H as [i H]. rewrite N, Sq in H. destruct (i <? S b - a) eqn:Ei; [|discriminate H].
    apply Nat.ltb_lt in Ei. unfold between in H. rewrite nth_first', nth_skip' in H by exact Ei.
    destruct (nth_error l (a + i)) as [y|] eqn:Ey; [|discriminate H]. injection H as <- <-. split; [lia|exact Ey].
  - intros [H1 H2]. apply (nth_error_In _ (k - a)). rewrite N, Sq.
    replace (k - a <? S b - a) with true by (symmetry; apply Nat.ltb_lt; lia).
    unfold between. rewrite nth_first', nth_skip' by lia. replace (a + (k - a)) with k by lia. rewrite H2. reflexivity.
Qed.
Lemma lists_all p h : lists p h <-> In h (all_pt p).
Proof.
  unfold lists, all_pt. rewrite in_map_iff. split; [intros [u H]; exists (h, u); auto|intros ([h' u] & <- & H); exists u; exact H].
Qed.
Lemma in_recent l b h : b < length l ->
  In h (flat_map all_pt (firstn 11 (rev (firstn (b + 1) l)))) <->
  exists r pr, r <= b < r + 11 /\ nth_error l r = Some pr /\ lists pr h.
Proof.
  intros Hb. assert (L : length (firstn (b + 1) l) = b + 1) by (rewrite firstn_length; lia).
  assert (R : forall i, i < b + 1 -> nth_error (rev (firstn (b + 1) l)) i = nth_error l (b - i)).
  { intros i Hi. destruct (nth_error l (b - i)) as [x|] eqn:Ex.
    - assert (Y : nth_error (firstn (b + 1) l) (b - i) = Some x) by (rewrite nth_first' by lia; exact Ex).
      apply nth_error_rev' in Y. rewrite L in Y. replace (b + 1 - 1 - (b - i)) with i in Y by lia. exact Y.
    - apply nth_error_None in Ex. lia. }
  rewrite in_flat_map. split.
  - intros (p & Hp & Hh). apply In_firstn in Hp. destruct Hp as (i & Hi & Hp).
    assert (Li : i < b + 1). { rewrite <- L, <- rev_length. apply nth_error_Some. congruence. }
    rewrite R in Hp by exact Li. exists (b - i), p. split; [lia|]. split; [exact Hp|apply lists_all, Hh].
  - intros (r & pr & Hr & Hp & Hh). exists pr. split; [|apply lists_all, Hh].
    apply (nth_error_In _ (b - r)). rewrite nth_first' by lia. rewrite R by lia. replace (b - (b - r)) with r by lia. exact Hp.
Qed.
Lemma reverse_pts t : pts (reverse_traj t) = rev (pts t).
Proof. unfold reverse_traj. destruct (pts t) as [|p r] eqn:E; [rewrite E; reflexivity|]. rewrite sep_pts. reflexivity. Qed.

(** StoreTraj cannot fail for the merged trajectory *)
Lemma store_must s t : idle s -> (N.of_nat (length (tjs s)) < 65535)%N -> shower t = false -> halo t = false -> wf (pts t) ->
  (tid t < 0)%Z -> small_pts t -> ep0 (set_end_points t) < ep1 (set_end_points t) ->
  NoDup (U (pts t)) -> (forall h, In h (U (pts t)) -> nth_error (own s) h = Some 0%Z) ->
  exists s', store_traj s t = Ok (true, s').
Proof.
  intros Id Hl Es Eh W Hid Sm El N F. unfold store_traj.
  replace (existsb _ (pts t)) with false.
  2:{ symmetry. destruct (existsb _ (pts t)) eqn:E; [|reflexivity]. apply existsb_exists in E. destruct E as (p & Hp & Hc).
      apply Nat.ltb_lt in Hc. specialize (Sm p Hp). lia. }
  set (u := set_end_points t) in *.
  assert (En : ends_of (pts t) (ep0 u) (ep1 u)).
  { destruct (set_end_points_spec t Es Eh) as [H|(_ & H1 & H2)]; [exact H|]. fold u in H1, H2. lia. }
  assert (Ep : pts u = pts t) by apply sep_pts. assert (Et : tid u = tid t).
  { unfold u, set_end_points. rewrite Es, Eh. reflexivity. }
  pose proof (ends_lt _ _ _ En) as EL.
  replace (_ || _ || _) with false.
  2:{ symmetry. apply orb_false_iff. split; [apply orb_false_iff; split|].
      - apply N.leb_gt. exact Hl.
      - apply Nat.leb_gt. lia.
      - apply Nat.ltb_ge. rewrite Ep. lia. }
  replace (ep1 u - ep0 u + 1 <? 2) with false by (symmetry; apply Nat.ltb_ge; lia).
  rewrite Ep. destruct (nth_error (pts t) (ep1 u)) as [q|] eqn:Eq; [|apply nth_error_None in Eq; lia].
  unfold idx at 1. rewrite Eq. cbn [obind]. change (flat_map used_pt) with U. rewrite between_used by assumption.
  destruct (claim_free (own s) (Z.of_nat (length (tjs s) + 1)) (U (pts t)) N) as [o' Ec].
  { intros h Hh. exists 0%Z. split; [apply F, Hh|lia]. }
  rewrite Ec. cbn [obind negb]. apply claim_true in Ec; [|lia]. destruct Ec as (_ & _ & _ & G).
  replace (existsb _ o') with false; [eauto|]. symmetry. destruct (existsb _ o') eqn:E; [|reflexivity]. exfalso.
  apply existsb_exists in E. destruct E as (x & Hx & Hi). apply Z.eqb_eq in Hi. apply In_nth_error in Hx. destruct Hx as [h Hx].
  rewrite G in Hx. destruct (existsb _ (U (pts t))); [injection Hx as Hx; lia|]. specialize (Id h x Hx). lia.
Qed.

Definition other_hits (s s' : slc) (P : nat -> Prop) := forall h, ~ P h -> nth_error (own s') h = nth_error (own s) h.

Section Merge.
Variable pdg_of : traj -> Z.
Variable attach : slc -> option (bool * nat).

(** what a merge does, in list form *)
Definition merged (s : slc) (a b : nat) (s' : slc) : Prop :=
  exists ta tb n l,
    nth_error (tjs s) a = Some ta /\ nth_error (tjs s) b = Some tb /\ killed ta = false /\ killed tb = false /\
    tjs s' = l ++ [n] /\
    core_list (upd (upd (tjs s) a (set_killed ta true)) b (set_killed tb true)) l /\
    killed n = false /\
    (forall h, In h (U (pts n)) -> In h (U (pts ta)) \/ In h (U (pts tb))) /\
    ((forall h, In h (U (pts ta)) -> In h (U (pts n))) \/ (forall h, In h (U (pts tb)) -> In h (U (pts n)))) /\
    (forall h, nth_error (own s') h =
       if existsb (Nat.eqb h) (U (pts n)) then Some (Z.of_nat (length (tjs s) + 1))
       else if existsb (Nat.eqb h) (U (pts ta) ++ U (pts tb)) then Some 0%Z
       else nth_error (own s) h) /\ gid s' = (gid s + 1)%Z /\ uid n = gid s' /\
    joined ta tb (wid n) (pts n).

Lemma merge_cases s a b r s' : inv s -> idle s -> (N.of_nat (length (tjs s)) < 65535)%N ->
  merge_and_store pdg_of attach s a b = Ok (r, s') ->
  inv s' /\
  ((r = false /\ own s' = own s /\ gid s' = gid s /\ pfps s' = pfps s /\
    forall i t, nth_error (tjs s) i = Some t -> exists x y, nth_error (tjs s') i = Some (set_vx t x y))
   \/ (r = true /\ merged s a b s')).
Proof.
  intros I Id Hl E. unfold merge_and_store in E.
  assert (Zv : forall t, t = set_vx t (vx0 t) (vx1 t)) by (intros []; reflexivity).
  assert (Same : inv s /\ ((false = false /\ own s = own s /\ gid s = gid s /\ pfps s = pfps s /\
    forall i t, nth_error (tjs s) i = Some t -> exists x y, nth_error (tjs s) i = Some (set_vx t x y)) \/ (false = true /\ merged s a b s))).
  { split; [exact I|]. left. do 4 (split; [reflexivity|]). intros i t H. exists (vx0 t), (vx1 t). rewrite <- Zv. exact H. }
  destruct (_ || _); [injection E as <- <-; exact Same|].
  apply obind_inv in E. destruct E as (ta & Ha & E). apply idx_inv in Ha. destruct Ha as [La Ha].
  apply obind_inv in E. destruct E as (tb & Hb & E). apply idx_inv in Hb. destruct Hb as [Lb Hb].
  destruct (killed ta || killed tb) eqn:Ek; [injection E as <- <-; exact Same|].
  apply orb_false_iff in Ek. destruct Ek as [Ka Kb].
  destruct (halo ta || halo tb); [injection E as <- <-; exact Same|].
  destruct (shower ta || shower tb); [discriminate E|].
  destruct (_ && _); [injection E as <- <-; exact Same|].
  set (sw := negb (in_pfp s (tid ta)) && in_pfp s (tid tb)) in E.
  destruct (if sw then (b, a) else (a, b)) as [i1 i2] eqn:Eij.
  set (u1 := if sw then tb else ta) in E. set (u2a := if sw then ta else tb) in E.
  assert (A : (nth_error (tjs s) i1 = Some u1 /\ nth_error (tjs s) i2 = Some u2a /\ killed u1 = false /\ killed u2a = false) /\
              ((i1 = a /\ i2 = b /\ u1 = ta /\ u2a = tb) \/ (i1 = b /\ i2 = a /\ u1 = tb /\ u2a = ta))).
  { unfold u1, u2a. destruct sw; injection Eij as <- <-; auto 10. }
  clearbody u1 u2a sw. destruct A as ((Hi1 & Hi2 & K1 & K2) & Horder).
  set (u2 := if (dir u2a =? dir u1)%Z then u2a else reverse_traj u2a) in E.
  assert (L2 : like u2 u2a).
  { unfold u2. destruct (dir u2a =? dir u1)%Z; [apply like_self|apply like_reverse]; try assumption; eapply (i_ok s I); eauto. }
  assert (L1 : like u1 u1) by (apply like_self; [eapply (i_ok s I); eauto|assumption]).
  assert (Du : (dir u2a = dir u1 /\ pts u2 = pts u2a) \/ (dir u2a <> dir u1 /\ pts u2 = rev (pts u2a))).
  { unfold u2. destruct (dir u2a =? dir u1)%Z eqn:Ed; [apply Z.eqb_eq in Ed; auto|apply Z.eqb_neq in Ed; right; split; [exact Ed|apply reverse_pts]]. }
  clearbody u2.
  apply obind_inv in E. destruct E as (p10 & H10 & E). apply obind_inv in E. destruct E as (p11 & H11 & E).
  apply obind_inv in E. destruct E as (p20 & H20 & E). apply obind_inv in E. destruct E as (p21 & H21 & E).
  apply idx_inv in H10, H11, H20, H21. destruct H10 as [_ H10], H11 as [_ H11], H20 as [_ H20], H21 as [_ H21].
  set (far := (sep2 (pos p21) (pos p10) <? sep2 (pos p11) (pos p20))%Z) in E.
  set (t1 := if far then u2 else u1) in E. set (t2 := if far then u1 else u2) in E.
  assert (B : exists v1 v2, like t1 v1 /\ like t2 v2 /\ ((v1 = u1 /\ v2 = u2a) \/ (v1 = u2a /\ v2 = u1)) /\
     ((dir u1 = dir u2a /\ pts t1 = pts v1 /\ pts t2 = pts v2) \/
      (dir u1 <> dir u2a /\ ((pts t1 = rev (pts v1) /\ pts t2 = pts v2) \/ (pts t1 = pts v1 /\ pts t2 = rev (pts v2))))) /\
     (forall f1 l1 f2 l2, nth_error (pts t1) (ep0 t1) = Some f1 -> nth_error (pts t1) (ep1 t1) = Some l1 ->
       nth_error (pts t2) (ep0 t2) = Some f2 -> nth_error (pts t2) (ep1 t2) = Some l2 -> (dist2 l1 f2 <= dist2 l2 f1)%Z)).
  { unfold t1, t2. destruct far eqn:Ef; unfold far in Ef; [exists u2a, u1|exists u1, u2a]; (split; [assumption|]; split; [assumption|]; split; [auto|]; split).
    - destruct Du as [[D1 D2]|[D1 D2]]; [left|right]; rewrite D2; auto.
    - intros f1 l1 f2 l2 A1 A2 A3 A4. rewrite H20 in A1. rewrite H21 in A2. rewrite H10 in A3. rewrite H11 in A4.
      injection A1 as <-. injection A2 as <-. injection A3 as <-. injection A4 as <-. rewrite !sep2_dist2 in Ef. apply Z.ltb_lt in Ef. lia.
    - destruct Du as [[D1 D2]|[D1 D2]]; [left|right]; rewrite D2; auto.
    - intros f1 l1 f2 l2 A1 A2 A3 A4. rewrite H10 in A1. rewrite H11 in A2. rewrite H20 in A3. rewrite H21 in A4.
      injection A1 as <-. injection A2 as <-. injection A3 as <-. injection A4 as <-. rewrite !sep2_dist2 in Ef. apply Z.ltb_ge in Ef. lia. }
  match type of E with (if ?c then _ else _) = _ => destruct c end; [injection E as <- <-; exact Same|].
  clearbody t1 t2 far. destruct B as (v1 & v2 & LL1 & LL2 & Hv & Hdir & Hnear).
  apply obind_inv in E. destruct E as ([okv s1] & Ev & E).
  assert (S1 : own s1 = own s /\ core_list (tjs s) (tjs s1) /\ pfps s1 = pfps s /\ gid s1 = gid s /\
     (forall i t t', nth_error (tjs s) i = Some t -> nth_error (tjs s1) i = Some t' -> exists x y, t' = set_vx t x y)).
  { destruct ((0 <? vx1 t1) && (vx0 t2 =? vx1 t1)); [apply kill_vertex_spec in Ev; exact Ev|]. injection Ev as <- <-.
    split; [reflexivity|]. split; [apply core_list_refl|]. split; [reflexivity|]. split; [reflexivity|]. intros i t t' H H'. rewrite H in H'. injection H' as <-. eauto. }
  destruct S1 as (So & Sc & Sp & Sg & Sx).
  assert (I1 : inv s1) by (eapply inv_core; eauto).
  assert (Vert : inv s1 /\ ((false = false /\ own s1 = own s /\ gid s1 = gid s /\ pfps s1 = pfps s /\
    forall i t, nth_error (tjs s) i = Some t -> exists x y, nth_error (tjs s1) i = Some (set_vx t x y)) \/ (false = true /\ merged s a b s1))).
  { split; [exact I1|]. left. split; [reflexivity|]. split; [exact So|]. split; [exact Sg|]. split; [exact Sp|]. intros i t Hi.
    destruct (core_list_get _ _ _ _ Sc Hi) as (t' & Hi' & _). destruct (Sx i t t' Hi Hi') as (x & y & ->). eauto. }
  destruct okv; cbn [negb] in E; [|injection E as <- <-; exact Vert].
  destruct (bragg1 t1); [injection E as <- <-; exact Vert|].
  set (q1 := firstn (ep1 t1 + 1) (pts t1)) in E.
  apply obind_inv in E. destruct E as (e & He & E). apply idx_inv in He. destruct He as [_ He].
  destruct (close_pt _ _ _ _) as [c0|] eqn:Ecl; [|injection E as <- <-; exact Vert].
  apply obind_inv in E. destruct E as (c & Ec & E).
  set (m := set_bragg1 _ _) in E.
  apply obind_inv in E. destruct E as (d & Ed & E). destruct d; [injection E as <- <-; exact Vert|].
  (* the merged points *)
  assert (Um1 : U q1 = U (pts t1)).
  { unfold q1. rewrite <- (firstn_skipn (ep1 t1 + 1) (pts t1)) at 2. rewrite U_app. replace (ep1 t1 + 1) with (S (ep1 t1)) by lia.
    rewrite (tail_unused (pts t1) (ep0 t1) (ep1 t1)); [rewrite app_nil_r; reflexivity|apply (l_wf _ _ LL1)|apply (l_ends _ _ LL1)]. }
  set (mp := q1 ++ skipn c (pts t2)) in *.
  assert (Pm : pts m = mp) by (unfold m; cbn [pts set_bragg1]; apply sep_pts).
  assert (Nm : NoDup (U mp)).
  { apply used_all_nodup. unfold has_dup in Ed. unfold all_hits in Ed. rewrite Pm in Ed.
    destruct (flat_map all_pt mp) as [|h0 r0] eqn:Ea; [discriminate Ed|]. rewrite <- Ea in *. clear Ea.
    injection Ed as Ed. apply dup_nodup. exact Ed. }
  assert (Wm : wf mp).
  { apply wf_app; [apply (wf_sub (pts t1)); [intros x; apply in_firstn|apply (l_wf _ _ LL1)]|apply (wf_sub (pts t2)); [intros x; apply in_skipn|apply (l_wf _ _ LL2)]]. }
  assert (Sm : forall p, In p mp -> length (thits p) <= 16).
  { intros p Hp. apply in_app_or in Hp. destruct Hp as [Hp|Hp]; [apply (l_small _ _ LL1); eapply in_firstn, Hp|apply (l_small _ _ LL2); eapply in_skipn, Hp]. }
  assert (Fm : tid m = tid t1 /\ wid m = wid t1 /\ killed m = false /\ shower m = false /\ halo m = false).
  { unfold m, set_end_points. cbn [shower halo set_pts]. rewrite (l_sh _ _ LL1), (l_ha _ _ LL1). cbn.
    repeat split; apply LL1. }
  assert (Em : forall x, pts x = mp -> shower x = false -> halo x = false -> ep0 (set_end_points x) < ep1 (set_end_points x)).
  { intros x Px Sx1 Sx2. destruct (set_end_points_spec x Sx1 Sx2) as [H|[H _]].
    - rewrite Px in H. destruct (l_ends _ _ LL1) as ((p & Hp & Cp) & (q & Hq & Cq) & _). destruct H as (_ & _ & H).
      pose proof (l_lt _ _ LL1) as Llt.
      assert (L : ep1 t1 < length (pts t1)) by (apply nth_error_Some; congruence).
      assert (G : forall k, k <= ep1 t1 -> nth_error mp k = nth_error (pts t1) k).
      { intros k Hk. unfold mp, q1. rewrite nth_error_app1 by (rewrite firstn_length; lia).
        rewrite <- (firstn_skipn (ep1 t1 + 1) (pts t1)) at 2. rewrite nth_error_app1; [reflexivity|rewrite firstn_length; lia]. }
      rewrite <- G in Hp, Hq by lia. pose proof (H _ _ Hp Cp). pose proof (H _ _ Hq Cq). lia.
    - exfalso. rewrite Px in H. destruct (l_ends _ _ LL1) as ((p & Hp & Cp) & _ & _). apply Cp, H. unfold mp. apply in_or_app. left.
      unfold q1. pose proof (l_lt _ _ LL1). assert (L : ep0 t1 < length (pts t1)) by (apply nth_error_Some; congruence).
      rewrite <- (firstn_skipn (ep1 t1 + 1) (pts t1)) in Hp. rewrite nth_error_app1 in Hp by (rewrite firstn_length; lia). eapply nth_error_In, Hp. }
  assert (E1t : ep1 t1 < length (pts t1)) by (pose proof (ends_lt _ _ _ (l_ends _ _ LL1)); lia).
  assert (E2t : ep1 t2 < length (pts t2)) by (pose proof (ends_lt _ _ _ (l_ends _ _ LL2)); lia).
  assert (He' : nth_error (pts t1) (ep1 t1) = Some e) by (unfold q1 in He; rewrite nth_first' in He by lia; exact He).
  pose proof (bump_in _ _ _ _ _ _ Ec) as Bi. apply bump_shared in Ec. destruct Ec as [Bs1 Bs2].
  apply close_pt_min in Ecl. destruct Ecl as [[Ecl _]|(pc0 & Cm1 & Cm2 & Cm3)]; [discriminate Ecl|].
  apply in_cand in Cm1; [|exact E2t]. destruct Cm1 as [Cr Cm1].
  assert (Nd : NoDup (flat_map all_pt mp)).
  { unfold has_dup in Ed. unfold all_hits in Ed. rewrite Pm in Ed.
    destruct (flat_map all_pt mp) as [|h0 r0] eqn:Ea; [discriminate Ed|]. rewrite <- Ea in *. clear Ea.
    injection Ed as Ed. apply dup_nodup. exact Ed. }
  assert (Jn : joined ta tb (wid v1) mp).
  { exists v1, v2, (pts t1), (pts t2), (ep0 t1), (ep1 t1), (ep0 t2), (ep1 t2), c0, c.
    assert (Xy : (v1 = ta /\ v2 = tb) \/ (v1 = tb /\ v2 = ta)).
    { destruct Hv as [[-> ->]|[-> ->]]; destruct Horder as [(_ & _ & -> & ->)|(_ & _ & -> & ->)]; auto. }
    assert (Dd : dir u1 = dir u2a <-> dir ta = dir tb).
    { destruct Horder as [(_ & _ & -> & ->)|(_ & _ & -> & ->)]; split; congruence. }
    split; [exact Xy|]. split; [reflexivity|]. split; [intros D; apply Dd in D; clear -D Hdir; tauto|].
    split; [intros D; rewrite <- Dd in D; clear -D Hdir; tauto|]. split; [apply (l_ends _ _ LL1)|]. split; [apply (l_ends _ _ LL2)|].
    split; [exact Hnear|]. split; [lia|]. split; [lia|].
    split. { intros l1 k0 A1 A2. rewrite He' in A1. injection A1 as <-. rewrite Cm1 in A2. injection A2 as <-.
      rewrite <- !sep2_dist2. split; [exact Cm2|]. intros k pk Hk Hpk. rewrite <- !sep2_dist2. apply (Cm3 k). apply in_cand; auto. }
    split. { intros k pk Hk Hpk. destruct (Bs1 k pk Hk Hpk) as (h & Hh1 & Hh2). unfold q1 in Hh2. apply in_recent in Hh2; [|exact E1t].
      destruct Hh2 as (r' & pr & Hr & Hpr & Hl'). exists h, r', pr. split; [apply lists_all, Hh1|auto]. }
    split. { intros Hlt pc h r' pr Hpc Hh Hr Hpr Hl'. apply (Bs2 Hlt pc h Hpc); [apply lists_all, Hh|]. unfold q1. apply in_recent; [exact E1t|]. eauto. }
    split; [reflexivity|exact Nd]. }
  clear Hdir Hnear Du Bs1 Bs2 Cm3 Bi Nd H10 H11 H20 H21.
  clearbody m.
  set (m1 := if 0 <? vx1 t2 then set_vx m (vx0 m) (vx1 t2) else m) in E.
  set (m2 := if delta t2 then set_delta m1 (par t2) true else m1) in E.
  assert (F2 : pts m2 = mp /\ wid m2 = wid t1 /\ killed m2 = false /\ shower m2 = false /\ halo m2 = false).
  { unfold m2, m1. clear -Fm Pm; destruct (0 <? vx1 t2), (delta t2); cbn; tauto. }
  clearbody m2. clear m1.
  apply obind_inv in E. destruct E as (s2 & Es2 & E). apply obind_inv in E. destruct E as (s3 & Es3 & E).
  set (m3 := set_ids m2 (wid m2) (wid m2) (par m2) (uid m2)) in E.
  set (m4 := set_pdg m3 (pdg_of m3)) in E.
  assert (F4 : pts m4 = mp /\ tid m4 = wid t1 /\ killed m4 = false /\ shower m4 = false /\ halo m4 = false) by exact F2.
  clearbody m4. clear m3. destruct F4 as (F41 & F42 & F43 & F44 & F45).
  assert (I2 : inv s2) by (eapply inv_kill; [exact I1|exact Es2]).
  assert (I3 : inv s3) by (eapply inv_kill; [exact I2|exact Es3]).
  (* the two kills *)
  destruct (core_list_get _ _ _ _ Sc Hi1) as (w1 & Hw1 & Cw1).
  destruct (core_list_get _ _ _ _ Sc Hi2) as (w2 & Hw2 & Cw2).
  assert (Li1 : i1 < length (tjs s1)) by (apply nth_error_Some; congruence).
  assert (Li2 : i2 < length (tjs s1)) by (apply nth_error_Some; congruence).
  apply kill_spec in Es2. destruct Es2 as [[_ Es2]|(w1' & Hw1' & ->)]; [lia|]. rewrite Hw1 in Hw1'. injection Hw1' as <-.
  apply kill_spec in Es3. cbn [tjs own vxs pfps gid] in Es3. destruct Es3 as [[_ Es3]|(w2' & Hw2' & ->)]; [rewrite upd_length in Es3; lia|].
  assert (Tw2 : tid w2' = tid w2 /\ core w2 (set_killed w2' (killed w2))).
  { rewrite nth_error_upd' in Hw2' by exact Li1. destruct (i2 =? i1) eqn:Ei.
    - apply Nat.eqb_eq in Ei. subst i2. rewrite Hw1 in Hw2. injection Hw2 as <-. injection Hw2' as <-. split; [reflexivity|repeat split].
    - rewrite Hw2 in Hw2'. injection Hw2' as <-. split; [reflexivity|repeat split]. }
  destruct Tw2 as [Tw2 Cw2'].
  set (o3 := map _ (map _ (own s1))) in *.
  assert (Id1 : tid w1 = Z.of_nat (i1 + 1)) by (apply (i_id s1 I1), Hw1).
  assert (Id2 : tid w2 = Z.of_nat (i2 + 1)) by (apply (i_id s1 I1), Hw2).
  assert (O3 : forall h, nth_error o3 h = match nth_error (own s) h with
      | Some x => Some (if (x =? tid w1)%Z then 0%Z else if (x =? tid w2)%Z then 0%Z else x) | None => None end).
  { intros h. unfold o3. rewrite Tw2, !nth_error_map, So. destruct (nth_error (own s) h) as [x|]; [|reflexivity]. cbn [option_map].
    destruct (x =? tid w1)%Z; [|reflexivity]. destruct (0 =? tid w2)%Z; reflexivity. }
  assert (Perm : forall h, (In h (U (pts t1)) <-> In h (U (pts v1))) /\ (In h (U (pts t2)) <-> In h (U (pts v2)))).
  { intros h. split; split; apply Permutation_in; try apply LL1; try apply LL2; apply Permutation_sym; try apply LL1; apply LL2. }
  assert (Uown : forall h, In h (U (pts v1)) \/ In h (U (pts v2)) -> exists x, nth_error (own s) h = Some x /\ (x = tid w1 \/ x = tid w2)).
  { intros h Hh. destruct Cw1 as (_ & Cw1 & _). destruct Cw2 as (_ & Cw2 & _).
    assert (X : In h (U (pts u1)) \/ In h (U (pts u2a))) by (destruct Hv as [[<- <-]|[<- <-]]; tauto).
    destruct X as [X|X]; [exists (tid u1)|exists (tid u2a)]; (split; [eapply (i_used s I); eauto|rewrite ?Cw1, ?Cw2; auto]). }
  assert (Usub : forall h, In h (U mp) -> In h (U (pts v1)) \/ In h (U (pts v2))).
  { intros h Hh. unfold mp in Hh. rewrite U_app, Um1 in Hh. apply in_app_or in Hh. destruct Hh as [Hh|Hh].
    - left. apply Perm, Hh.
    - right. apply Perm. rewrite <- (firstn_skipn c (pts t2)), U_app. apply in_or_app. right. exact Hh. }
  assert (Free : forall h, In h (U mp) -> nth_error o3 h = Some 0%Z).
  { intros h Hh. apply Usub, Uown in Hh. destruct Hh as (x & Hx & Hc). rewrite O3, Hx. f_equal.
    destruct Hc as [->| ->]; rewrite Z.eqb_refl; [reflexivity|]. destruct (tid w2 =? tid w1)%Z; reflexivity. }
  set (s3 := SL o3 _ _ _ _) in *.
  assert (Id3 : idle s3).
  { intros h x Hx. unfold holds in Hx. cbn [own s3] in Hx. rewrite O3 in Hx. destruct (nth_error (own s) h) as [y|] eqn:Ey; [|discriminate Hx].
    injection Hx as <-. specialize (Id h y Ey). destruct (y =? tid w1)%Z; [lia|]. destruct (y =? tid w2)%Z; lia. }
  assert (Len3 : length (tjs s3) = length (tjs s)).
  { cbn [tjs s3]. rewrite !upd_length. apply core_list_length, Sc. }
  assert (Hwid : (wid t1 < 0)%Z).
  { rewrite (l_wid _ _ LL1). assert (X : v1 = u1 \/ v1 = u2a) by tauto. destruct X as [->| ->].
    - apply (i_ok s I i1 u1 Hi1). - apply (i_ok s I i2 u2a Hi2). }
  destruct (store_must s3 m4) as [s4 Es4]; try assumption.
  { rewrite Len3. exact Hl. } { rewrite F41. exact Wm. } { rewrite F42. exact Hwid. } { unfold small_pts. rewrite F41. exact Sm. }
  { apply Em; assumption. } { rewrite F41. exact Nm. } { rewrite F41. exact Free. }
  rewrite Es4 in E. cbn [obind negb] in E.
  assert (I4 : inv s4).
  { apply (inv_store_true s3 m4 s4 I3); [|exact Es4]. split; [split; [exact F44|split; [exact F45|]]|split; [exact F43|rewrite F42; exact Hwid]].
    unfold charged_pts. rewrite F41. exact Wm. }
  apply store_true in Es4; [|exact F44|exact F45|rewrite F41; exact Wm]. cbv zeta in Es4. rewrite F41, Len3 in Es4.
  destruct Es4 as (_ & _ & G4 & T4 & _ & _ & Gid4 & _ & _ & _ & _).
  set (n0 := set_ids _ _ _ _ _) in T4.
  assert (Fn : pts n0 = mp /\ killed n0 = false /\ uid n0 = (gid s3 + 1)%Z /\ wid n0 = wid t1).
  { unfold n0. cbn [pts set_ids killed uid]. rewrite sep_pts. split; [exact F41|]. split; [|split; [reflexivity|exact F42]].
    unfold set_end_points. rewrite F44, F45. exact F43. }
  clearbody n0. destruct Fn as (Fn1 & Fn2 & Fn3 & Fnw).
  match type of E with context [map ?f (tjs s4)] => set (re := f) in E end.
  assert (Cre : forall t, core t (re t)).
  { intros t. unfold re. destruct (_ || _)%bool; [repeat split|apply core_refl]. }
  clearbody re. set (s5 := set_tjs s4 (map re (tjs s4))) in *.
  assert (C5 : core_list (tjs s4) (tjs s')).
  { injection E as <- <-. destruct (attach s5) as [[e1 vv]|]; [|apply (core_list_map re), Cre].
    unfold s5. cbn [tjs set_tjs].
    destruct (nth_error (map re (tjs s4)) (length (map re (tjs s4)) - 1)) as [t|] eqn:Et; cbn [tjs set_tjs]; [|apply (core_list_map re), Cre].
    apply (core_list_trans _ (map re (tjs s4))); [apply (core_list_map re), Cre|].
    apply (core_list_upd (map re (tjs s4)) _ t); [exact Et|]. destruct e1; repeat split. }
  assert (O5 : own s' = own s4 /\ gid s' = gid s4 /\ r = true).
  { injection E as <- <-. destruct (attach s5) as [[e1 vv]|]; [|auto].
    unfold s5. cbn [tjs set_tjs]. destruct (nth_error (map re (tjs s4)) _); auto. }
  destruct O5 as (O5 & G5 & ->). clear E.
  split; [eapply inv_core; eauto|]. right. split; [reflexivity|].
  (* describe the result *)
  assert (Len5 : length (tjs s') = S (length (tjs s))).
  { rewrite (core_list_length _ _ C5), T4, app_length. cbn [length]. lia. }
  destruct (exists_last (l := tjs s')) as (l & n & En). { intros K. rewrite K in Len5. discriminate Len5. }
  assert (Ll : length l = length (tjs s)). { rewrite En, app_length in Len5. cbn in Len5. lia. }
  rewrite T4, En in C5.
  assert (Cn : core n0 n).
  { specialize (C5 (length (tjs s))). rewrite !nth_error_snoc, Ll, Nat.eqb_refl, Len3, Nat.eqb_refl in C5. exact C5. }
  exists ta, tb, n, l. split; [exact Ha|]. split; [exact Hb|]. split; [exact Ka|]. split; [exact Kb|]. split; [exact En|].
  destruct Cn as (Cn1 & _ & Cnw & Cn3 & Cn2 & _). rewrite Cn1, Cn2, Cn3, Fn1, Fn2, Fn3.
  assert (Vab : forall h, (In h (U (pts v1)) \/ In h (U (pts v2))) <-> (In h (U (pts ta)) \/ In h (U (pts tb)))).
  { intros h. destruct Hv as [[-> ->]|[-> ->]]; destruct Horder as [(_ & _ & -> & ->)|(_ & _ & -> & ->)]; tauto. }
  split; [|split; [reflexivity|split; [|split; [|split]]]].
  - (* the rest of the list *)
    intros k. specialize (C5 k). rewrite !nth_error_snoc, Ll, Len3 in C5.
    destruct (k =? length (tjs s)) eqn:Ekl.
    + apply Nat.eqb_eq in Ekl. subst k.
      assert (Y : nth_error (upd (upd (tjs s) a (set_killed ta true)) b (set_killed tb true)) (length (tjs s)) = None).
      { apply nth_error_None. rewrite !upd_length. lia. }
      rewrite Y. assert (Y' : nth_error l (length (tjs s)) = None) by (apply nth_error_None; lia). rewrite Y'. exact Logic.I.
    + assert (C3 : core_list (upd (upd (tjs s) a (set_killed ta true)) b (set_killed tb true)) (tjs s3)).
      { cbn [tjs s3]. intros k'. rewrite !nth_error_upd' by (rewrite ?upd_length; assumption).
        destruct Cw1 as (X1 & X2 & X3 & X4 & X5 & X6 & X7 & X8 & X9). destruct Cw2 as (Y1 & Y2 & Y3 & Y4 & Y5 & Y6 & Y7 & Y8 & Y9).
        destruct Cw2' as (Z1 & Z2 & Z3 & Z4 & Z5 & Z6 & Z7 & Z8 & Z9). cbn in Z1, Z2, Z3, Z4, Z6, Z7, Z8, Z9.
        specialize (Sc k'). destruct Horder as [(-> & -> & -> & ->)|(-> & -> & -> & ->)].
        - destruct (k' =? b) eqn:E1.
          { unfold core; cbn. repeat split; congruence. }
          destruct (k' =? a) eqn:E2; [|exact Sc]. unfold core; cbn. repeat split; congruence.
        - destruct (k' =? b) eqn:E1, (k' =? a) eqn:E2; try exact Sc; try (unfold core; cbn; repeat split; congruence).
          apply Nat.eqb_eq in E1. apply Nat.eqb_eq in E2.
          assert (w1 = w2) by congruence. assert (ta = tb) by congruence.
          unfold core; cbn. repeat split; congruence. }
      specialize (C3 k). destruct (nth_error (upd (upd (tjs s) a (set_killed ta true)) b (set_killed tb true)) k),
        (nth_error (tjs s3) k), (nth_error l k); try contradiction; try exact Logic.I. eapply core_trans; eauto.
  - intros h Hh. apply Vab, Usub, Hh.
  - assert (Y : forall h, In h (U (pts v1)) -> In h (U mp)).
    { intros h Hh. unfold mp. rewrite U_app, Um1. apply in_or_app. left. apply Perm, Hh. }
    assert (X : v1 = ta \/ v1 = tb).
    { destruct Hv as [[-> ->]|[-> ->]]; destruct Horder as [(_ & _ & -> & ->)|(_ & _ & -> & ->)]; tauto. }
    destruct X as [<-|<-]; [left|right]; exact Y.
  - intros h. rewrite O5, G4. destruct (existsb _ (U mp)); [reflexivity|]. cbn [own s3]. rewrite O3.
    destruct (existsb _ (U (pts ta) ++ U (pts tb))) eqn:Em2.
    + apply memb_spec in Em2. apply in_app_or in Em2. apply Vab, Uown in Em2. destruct Em2 as (x & Hx & Hc). rewrite Hx. f_equal.
      destruct Hc as [->| ->]; rewrite Z.eqb_refl; [reflexivity|]. destruct (tid w2 =? tid w1)%Z; reflexivity.
    + apply memb_false in Em2. destruct (nth_error (own s) h) as [x|] eqn:Ex; [|reflexivity]. f_equal.
      assert (Y : forall i u, nth_error (tjs s) i = Some u -> killed u = false -> x = tid u -> In h (U (pts u))).
      { intros i u Hu Hku Ht. assert (Px : (0 < x)%Z) by (rewrite Ht, (i_id s I i u Hu); lia).
        destruct (i_own s I h x Ex Px) as (j & w & Hj & _ & Hjt & Hjh). assert (j = i).
        { rewrite Ht, (i_id s I i u Hu), (i_id s I j w Hj) in Hjt. lia. } subst j. rewrite Hu in Hj. injection Hj as <-. exact Hjh. }
      assert (N1 : In h (U (pts u1)) -> False).
      { intros K. apply Em2, in_or_app. destruct Horder as [(_ & _ & <- & <-)|(_ & _ & <- & <-)]; tauto. }
      assert (N2 : In h (U (pts u2a)) -> False).
      { intros K. apply Em2, in_or_app. destruct Horder as [(_ & _ & <- & <-)|(_ & _ & <- & <-)]; tauto. }
      destruct (x =? tid w1)%Z eqn:E1.
      { exfalso. apply N1, (Y i1 u1 Hi1 K1). apply Z.eqb_eq in E1. destruct Cw1 as (_ & Cw1 & _). congruence. }
      destruct (x =? tid w2)%Z eqn:E2; [|reflexivity].
      exfalso. apply N2, (Y i2 u2a Hi2 K2). apply Z.eqb_eq in E2. destruct Cw2 as (_ & Cw2 & _). congruence.
  - rewrite G5, Gid4. cbn [gid s3]. rewrite Sg. split; [reflexivity|]. split; [reflexivity|].
    rewrite Cnw, Fnw, (l_wid _ _ LL1). exact Jn.
Qed.
End Merge.
