(** StoreTraj, MakeTrajectoryObsolete, RestoreObsoleteTrajectory preserve a healthy slice. *)
From Verif Require Import Base Util TJ_Model TJ_Spec TJ_Proofs GHF_Any.
Local Open Scope nat_scope.

Lemma nth_error_snoc {A} (l : list A) x i :
  nth_error (l ++ [x]) i = if i =? length l then Some x else nth_error l i.
Proof.
  destruct (i =? length l) eqn:E.
  - apply Nat.eqb_eq in E. subst. rewrite nth_error_app2, Nat.sub_diag by lia. reflexivity.
  - apply Nat.eqb_neq in E. destruct (Nat.lt_ge_cases i (length l)) as [H|H].
    + apply nth_error_app1, H.
    + rewrite nth_error_app2 by lia. destruct (i - length l) eqn:E2; [lia|]. simpl.
      symmetry. replace (nth_error l i) with (@None A); [destruct n; reflexivity|]. symmetry. apply nth_error_None. lia.
Qed.

(** ownership entries that no live trajectory holds are not positive *)
Lemma owner_small s h x : inv s -> nth_error (own s) h = Some x -> (x <= Z.of_nat (length (tjs s)))%Z.
Proof.
  intros I Hx. destruct (Z_lt_le_dec 0 x) as [Hp|Hp]; [|lia].
  destruct (i_own s I h x Hx Hp) as (i & t & Hi & _ & <- & _). rewrite (i_id s I i t Hi).
  apply nth_error_Some_length in Hi || assert (i < length (tjs s)) by (apply nth_error_Some; congruence). lia.
Qed.

(** changing only non-positive marks *)
Lemma inv_marks s o : inv s -> 
  (forall h x, (0 < x)%Z -> (nth_error (own s) h = Some x <-> nth_error o h = Some x)) -> inv (set_own s o).
Proof.
  intros [I1 I2 I3 I4] H. constructor; cbn [tjs own set_own].
  - exact I1.
  - intros i t h Hi Hk Hh. apply H; [rewrite (I1 i t Hi); lia|]. eapply I2; eauto.
  - intros h x Hx Hp. apply H in Hx; [|exact Hp]. apply I3; assumption.
  - exact I4.
Qed.

Definition wf (l : list tp) : Prop := forall p h, In p l -> In (h, true) (thits p) -> chg p <> 0%Z.

(** exact effect of a successful StoreTraj *)
Lemma store_true s t s' : shower t = false -> halo t = false -> wf (pts t) ->
  store_traj s t = Ok (true, s') ->
  let id := Z.of_nat (length (tjs s) + 1) in
  let t' := set_end_points t in
  NoDup (U (pts t)) /\ (forall h, In h (U (pts t)) -> exists x, nth_error (own s) h = Some x /\ (x <= 0)%Z) /\
  (forall h, nth_error (own s') h = if existsb (Nat.eqb h) (U (pts t)) then Some id else nth_error (own s) h) /\
  tjs s' = tjs s ++ [set_ids t' id (tid t) (if (par t =? 0)%Z then id else par t) (gid s + 1)%Z] /\
  vxs s' = vxs s /\ pfps s' = pfps s /\ gid s' = (gid s + 1)%Z /\
  ep0 t' < ep1 t' /\ ends_of (pts t) (ep0 t') (ep1 t') /\ length (own s') = length (own s) /\
  (N.of_nat (length (tjs s)) < 65535)%N /\ small_pts t.
Proof.
  intros Es Eh W E. cbv zeta. unfold store_traj in E.
  destruct (existsb _ (pts t)) eqn:E16; [discriminate E|]. set (u := set_end_points t) in *.
  assert (Et : tid u = tid t /\ par u = par t).
  { unfold u, set_end_points. destruct (shower t || halo t); auto. }
  assert (Ep : pts u = pts t) by apply sep_pts.
  destruct (_ || _ || _) eqn:E1.
  { apply obind_inv in E. destruct E as (o & _ & E). discriminate E. }
  apply orb_false_iff in E1. destruct E1 as [E1 E3]. apply orb_false_iff in E1. destruct E1 as [E1 E2].
  apply Nat.leb_gt in E2. apply N.leb_gt in E1.
  destruct (ep1 u - ep0 u + 1 <? 2); [discriminate E|].
  apply obind_inv in E. destruct E as (q & _ & E). apply obind_inv in E. destruct E as ([o ok] & Ec & E).
  destruct ok; cbn [negb] in E; [|apply obind_inv in E; destruct E as (o' & _ & E); discriminate E].
  destruct (existsb _ o); [discriminate E|]. injection E as <-. cbn [own tjs vxs pfps gid].
  assert (En : ends_of (pts t) (ep0 u) (ep1 u)).
  { destruct (set_end_points_spec t Es Eh) as [H|(_ & H1 & H2)]; [exact H|]. fold u in H1, H2. lia. }
  apply claim_true in Ec; [|lia]. change (flat_map used_pt) with U in Ec. rewrite Ep in Ec.
  rewrite between_used in Ec by assumption. destruct Ec as (L & N & F & G). destruct Et as [Et1 Et2].
  rewrite Et1, Et2. split; [exact N|]. split; [exact F|]. split; [exact G|].
  do 4 (split; [reflexivity|]). split; [exact E2|]. split; [exact En|]. split; [exact L|]. split; [exact E1|].
  intros p Hp. destruct (Nat.le_gt_cases (length (thits p)) 16) as [|K]; [assumption|]. exfalso.
  assert (X : existsb (fun p => 16 <? length (thits p)) (pts t) = true) by (apply existsb_exists; exists p; split; [exact Hp|apply Nat.ltb_lt, K]).
  congruence.
Qed.

(** no hit is left marked with the working ID *)
Lemma store_clean s t s' : store_traj s t = Ok (true, s') -> forall h, nth_error (own s') h <> Some (tid t).
Proof.
  intros E. unfold store_traj in E. destruct (existsb _ (pts t)); [discriminate E|].
  assert (Et : tid (set_end_points t) = tid t) by (unfold set_end_points; destruct (shower t || halo t); reflexivity).
  set (u := set_end_points t) in *. clearbody u.
  destruct (_ || _ || _). { apply obind_inv in E. destruct E as (o & _ & E). discriminate E. }
  destruct (ep1 u - ep0 u + 1 <? 2); [discriminate E|].
  apply obind_inv in E. destruct E as (q & _ & E). apply obind_inv in E. destruct E as ([o ok] & Ec & E).
  destruct ok; cbn [negb] in E; [|apply obind_inv in E; destruct E as (o' & _ & E); discriminate E].
  match type of E with (if ?c then _ else _) = _ => destruct c eqn:Eo; [discriminate E|] end. injection E as <-. cbn [own].
  intros h Hh. apply nth_error_In in Hh. assert (X : existsb (fun x => (x =? tid u)%Z) o = true).
  { apply existsb_exists. exists (tid t). split; [exact Hh|]. rewrite Et. apply Z.eqb_refl. } congruence.
Qed.
Lemma inv_store_true s t s' : inv s -> work t -> store_traj s t = Ok (true, s') -> inv s'.
Proof.
  intros I [[Es [Eh W]] [Ek Ew]] E. apply store_true in E; try assumption. cbv zeta in E.
  destruct E as (N & F & G & T & V & P & Gd & L1 & L2 & _ & _ & Sm).
  set (id := Z.of_nat (length (tjs s) + 1)) in *.
  set (t' := set_ids _ _ _ _ _) in T.
  assert (Ht' : pts t' = pts t) by (unfold t'; cbn; apply sep_pts).
  constructor; rewrite ?T.
  - intros i u Hi. rewrite nth_error_snoc in Hi. destruct (i =? length (tjs s)) eqn:Ei.
    + apply Nat.eqb_eq in Ei. injection Hi as <-. subst i. reflexivity.
    + apply (i_id s I i u Hi).
  - intros i u h Hi Hk Hh. rewrite nth_error_snoc in Hi. rewrite G. destruct (i =? length (tjs s)) eqn:Ei.
    + injection Hi as <-. rewrite Ht' in Hh. apply memb_spec in Hh. rewrite Hh. reflexivity.
    + pose proof (i_used s I i u h Hi Hk Hh) as Hu. destruct (existsb (Nat.eqb h) (U (pts t))) eqn:Em; [|exact Hu].
      apply memb_spec in Em. apply F in Em. destruct Em as (x & Hx & Hle). rewrite Hu in Hx. injection Hx as <-.
      rewrite (i_id s I i u Hi) in Hle. lia.
  - intros h x Hx Hp. rewrite G in Hx. destruct (existsb (Nat.eqb h) (U (pts t))) eqn:Em.
    + injection Hx as <-. exists (length (tjs s)), t'. rewrite nth_error_snoc, Nat.eqb_refl.
      split; [reflexivity|]. split; [|split; [reflexivity|rewrite Ht'; apply memb_spec, Em]].
      unfold t', set_end_points. cbn. rewrite Es, Eh. exact Ek.
    + destruct (i_own s I h x Hx Hp) as (i & u & Hi & Hk & Hid & Hu). exists i, u. split; [|auto].
      rewrite nth_error_snoc. replace (i =? length (tjs s)) with false; [exact Hi|]. symmetry. apply Nat.eqb_neq.
      assert (i < length (tjs s)) by (apply nth_error_Some; congruence). lia.
  - intros i u Hi. rewrite nth_error_snoc in Hi. destruct (i =? length (tjs s)) eqn:Ei; [|apply (i_ok s I i u Hi)].
    injection Hi as <-. unfold stored_ok. rewrite once_nodup, Ht'. split; [split; [|split]|].
    + unfold t', set_end_points. cbn. rewrite Es, Eh. exact Es.
    + unfold t', set_end_points. cbn. rewrite Es, Eh. exact Eh.
    + unfold charged_pts. rewrite Ht'. exact W.
    + split; [exact Ew|]. split; [exact L1|]. split; [exact L2|]. split; [exact N|]. unfold small_pts. rewrite Ht'. exact Sm.
Qed.

(** a failed StoreTraj of a properly claimed working trajectory *)
Lemma inv_store_false s t s' : inv s -> work t -> claimed s t -> store_traj s t = Ok (false, s') ->
  inv s' /\ (forall h x, (0 < x)%Z -> (nth_error (own s) h = Some x <-> nth_error (own s') h = Some x)) /\ s' = set_own s (own s').
Proof.
  intros I [[Es [Eh W]] [Ek Ew]] [On [Fr Ex]] E. unfold store_traj in E.
  assert (Same : inv s /\ (forall h x, (0 < x)%Z -> (nth_error (own s) h = Some x <-> nth_error (own s) h = Some x)) /\ s = set_own s (own s)).
  { split; [exact I|]. split; [reflexivity|destruct s; reflexivity]. }
  destruct (existsb _ (pts t)); [injection E as <-; exact Same|]. set (u := set_end_points t) in *.
  assert (Et : tid u = tid t).
  { unfold u, set_end_points. destruct (shower t || halo t); auto. }
  assert (Ep : pts u = pts t) by apply sep_pts.
  destruct (_ || _ || _) eqn:E1.
  { apply obind_inv in E. destruct E as (o & Eo & E). injection E as <-. unfold release_hits in Eo.
    apply release_loop in Eo. destruct Eo as [_ F]. rewrite Et in F.
    assert (X : forall h x, (0 < x)%Z -> (nth_error (own s) h = Some x <-> nth_error o h = Some x)).
    { intros h x Hp. destruct (F h) as [->|[F1 F2]]; [reflexivity|]. rewrite F1, F2. split; intros K; injection K; lia. }
    split; [apply inv_marks; assumption|]. split; [exact X|reflexivity]. }
  apply orb_false_iff in E1. destruct E1 as [E1 E3]. apply orb_false_iff in E1. destruct E1 as [E1 E2].
  apply Nat.leb_gt in E2.
  destruct (ep1 u - ep0 u + 1 <? 2); [injection E as <-; exact Same|].
  apply obind_inv in E. destruct E as (q & _ & E). apply obind_inv in E. destruct E as ([o ok] & Ec & E).
  assert (En : ends_of (pts t) (ep0 u) (ep1 u)).
  { destruct (set_end_points_spec t Es Eh) as [H|(_ & H1 & H2)]; [exact H|]. fold u in H1, H2. lia. }
  change (flat_map used_pt) with U in Ec. rewrite Ep in Ec.
  rewrite between_used in Ec by assumption.
  destruct (claim_free (own s) (Z.of_nat (length (tjs s) + 1)) (U (pts t))) as [o' Ec'].
  { apply once_nodup, On. } { intros h Hh. apply Fr, uses_U, Hh. }
  rewrite Ec' in Ec. injection Ec as <- <-. cbn [negb] in E.
  apply claim_true in Ec'; [|lia]. destruct Ec' as (_ & _ & _ & G).
  destruct (existsb _ o') eqn:Em; [|discriminate E]. exfalso.
  apply existsb_exists in Em. destruct Em as (x & Hx & Hid). apply Z.eqb_eq in Hid. subst x. rewrite Et in Hx.
  apply In_nth_error in Hx. destruct Hx as [h Hx]. rewrite G in Hx.
  destruct (existsb (Nat.eqb h) (U (pts t))) eqn:Eb; [injection Hx as Hx; lia|].
  apply memb_false in Eb. apply Eb, uses_U, Ex, Hx.
Qed.

(** MakeTrajectoryObsolete *)
Lemma kill_spec s i s' : make_obsolete s i = Ok s' ->
  (s' = s /\ length (tjs s) <= i) \/
  exists t, nth_error (tjs s) i = Some t /\
    s' = SL (map (fun x => if (x =? tid t)%Z then 0%Z else x) (own s)) (upd (tjs s) i (set_killed t true)) (vxs s) (pfps s) (gid s).
Proof.
  unfold make_obsolete, beyond. intros E. destruct (_ && _) eqn:Eb.
  - injection E as <-. left. split; [reflexivity|]. apply andb_true_iff in Eb. destruct Eb as [_ Eb]. apply Nat.ltb_lt in Eb. lia.
  - apply obind_inv in E. destruct E as (t & Ht & E). apply idx_inv in Ht. destruct Ht as [_ Ht]. injection E as <-. right. eauto.
Qed.
Lemma killed_own o id h : (id <> 0)%Z ->
  nth_error (map (fun x => if (x =? id)%Z then 0%Z else x) o) h =
  match nth_error o h with Some x => Some (if (x =? id)%Z then 0%Z else x) | None => None end.
Proof. intros _. rewrite nth_error_map. destruct (nth_error o h); reflexivity. Qed.

Lemma inv_kill_at s i t : inv s -> nth_error (tjs s) i = Some t ->
  inv (SL (map (fun x => if (x =? tid t)%Z then 0%Z else x) (own s)) (upd (tjs s) i (set_killed t true)) (vxs s) (pfps s) (gid s)).
Proof.
  intros I Hi. assert (Hlt : i < length (tjs s)) by (apply nth_error_Some; congruence).
  pose proof (i_id s I i t Hi) as Hid.
  constructor; cbn [tjs own].
  - intros j u Hj. rewrite nth_error_upd' in Hj by exact Hlt. destruct (j =? i) eqn:Ej; [|apply (i_id s I j u Hj)].
    apply Nat.eqb_eq in Ej. injection Hj as <-. subst j. exact Hid.
  - intros j u h Hj Hk Hh. rewrite nth_error_upd' in Hj by exact Hlt. destruct (j =? i) eqn:Ej.
    + injection Hj as <-. discriminate Hk.
    + rewrite killed_own by lia. rewrite (i_used s I j u h Hj Hk Hh). apply Nat.eqb_neq in Ej.
      rewrite (i_id s I j u Hj), Hid. replace (Z.of_nat (j + 1) =? Z.of_nat (i + 1))%Z with false; [reflexivity|].
      symmetry. apply Z.eqb_neq. lia.
  - intros h x Hx Hp. rewrite killed_own in Hx by lia. destruct (nth_error (own s) h) as [y|] eqn:Ey; [|discriminate Hx].
    destruct (y =? tid t)%Z eqn:Ei; [injection Hx as <-; lia|]. injection Hx as ->.
    destruct (i_own s I h x Ey Hp) as (j & u & Hj & Hk & Hu & Hh). exists j, u. split; [|auto].
    rewrite nth_error_upd' by exact Hlt. destruct (j =? i) eqn:Ej; [|exact Hj].
    apply Nat.eqb_eq in Ej. subst j. rewrite Hi in Hj. injection Hj as <-. apply Z.eqb_neq in Ei. congruence.
  - intros j u Hj. rewrite nth_error_upd' in Hj by exact Hlt. destruct (j =? i) eqn:Ej; [|apply (i_ok s I j u Hj)].
    injection Hj as <-. exact (i_ok s I i t Hi).
Qed.
Lemma inv_kill s i s' : inv s -> make_obsolete s i = Ok s' -> inv s'.
Proof.
  intros I E. apply kill_spec in E. destruct E as [[-> _]|(t & Hi & ->)]; [exact I|]. apply inv_kill_at; assumption.
Qed.

(** RestoreObsoleteTrajectory *)
Lemma restore_loop id hs o o' : (id <> 0)%Z ->
  foreach hs (fun o h => do x <- idx o h; if (x =? 0)%Z then set_idx o h id else Ok o) o = Ok o' ->
  length o' = length o /\ (forall h, In h hs -> h < length o) /\
  forall h, nth_error o' h = if existsb (Nat.eqb h) hs then
                               match nth_error o h with Some x => Some (if (x =? 0)%Z then id else x) | None => None end
                             else nth_error o h.
Proof.
  intros Hid. revert o. induction hs as [|h hs IH]; intros o E.
  - simpl in E. injection E as <-. split; [reflexivity|]. split; [intros h []|reflexivity].
  - simpl in E. apply obind_inv in E. destruct E as (o1 & E1 & E). apply IH in E. destruct E as (L & B & F).
    apply obind_inv in E1. destruct E1 as (x & Ex & E1). apply idx_inv in Ex. destruct Ex as [Hlt Ex].
    assert (L1 : length o1 = length o).
    { destruct (x =? 0)%Z; [rewrite set_idx_ok in E1 by exact Hlt; injection E1 as <-; apply upd_length|injection E1 as <-; reflexivity]. }
    split; [lia|]. split; [intros k [<-|Hk]; [exact Hlt|rewrite <- L1; apply B, Hk]|].
    intros k. rewrite F. cbn [existsb]. destruct (k =? h) eqn:Ek; cbn [orb].
    + apply Nat.eqb_eq in Ek. subst k.
      destruct (x =? 0)%Z eqn:Ez.
      * rewrite set_idx_ok in E1 by exact Hlt. injection E1 as <-. rewrite nth_error_upd', Nat.eqb_refl, Ex by exact Hlt.
        replace (id =? 0)%Z with false by (symmetry; apply Z.eqb_neq, Hid). rewrite Ez. destruct (existsb _ hs); reflexivity.
      * injection E1 as <-. rewrite Ex, Ez. destruct (existsb _ hs); reflexivity.
    + destruct (x =? 0)%Z eqn:Ez.
      * rewrite set_idx_ok in E1 by exact Hlt. injection E1 as <-. rewrite nth_error_upd', Ek by exact Hlt. reflexivity.
      * injection E1 as <-. reflexivity.
Qed.

Lemma restore_spec s i s' : restore_obsolete s i = Ok s' ->
  s' = s \/
  exists t o, nth_error (tjs s) i = Some t /\ killed t = true /\
    foreach (flat_map used_pt (pts t)) (fun o h => do x <- idx o h; if (x =? 0)%Z then set_idx o h (tid t) else Ok o) (own s) = Ok o /\
    s' = SL o (upd (tjs s) i (set_killed t false)) (vxs s) (pfps s) (gid s).
Proof.
  unfold restore_obsolete. intros E. destruct (beyond _ _); [injection E as <-; left; reflexivity|].
  apply obind_inv in E. destruct E as (t & Ht & E). apply idx_inv in Ht. destruct Ht as [_ Ht].
  destruct (killed t) eqn:Ek; cbn [negb] in E; [|injection E as <-; left; reflexivity].
  apply obind_inv in E. destruct E as (o & Eo & E). injection E as <-. right. exists t, o. auto.
Qed.

Lemma inv_restore s i t s' : inv s -> nth_error (tjs s) i = Some t -> (forall h, uses t h -> holds s h 0%Z) ->
  restore_obsolete s i = Ok s' -> inv s'.
Proof.
  intros I Hi Fr E. apply restore_spec in E. destruct E as [->|(t0 & o & Hi0 & Hk & Eo & ->)]; [exact I|].
  rewrite Hi in Hi0. injection Hi0 as <-. assert (Hlt : i < length (tjs s)) by (apply nth_error_Some; congruence).
  pose proof (i_id s I i t Hi) as Hid. apply restore_loop in Eo; [|lia]. destruct Eo as (L & B & F).
  change (flat_map used_pt) with U in *.
  constructor; cbn [tjs own].
  - intros j u Hj. rewrite nth_error_upd' in Hj by exact Hlt. destruct (j =? i) eqn:Ej; [|apply (i_id s I j u Hj)].
    apply Nat.eqb_eq in Ej. injection Hj as <-. subst j. exact Hid.
  - intros j u h Hj Hkj Hh. rewrite nth_error_upd' in Hj by exact Hlt. rewrite F. destruct (j =? i) eqn:Ej.
    + injection Hj as <-. cbn [pts set_killed tid] in *. rewrite (proj2 (memb_spec h _) Hh).
      rewrite (Fr h (proj2 (uses_U t h) Hh)). reflexivity.
    + pose proof (i_used s I j u h Hj Hkj Hh) as Hu. rewrite Hu. destruct (existsb _ _) eqn:Em; [|reflexivity].
      apply memb_spec in Em. pose proof (Fr h (proj2 (uses_U t h) Em)) as X. unfold holds in X. rewrite Hu in X.
      injection X as X. rewrite (i_id s I j u Hj) in X. lia.
  - intros h x Hx Hp. rewrite F in Hx. destruct (existsb _ _) eqn:Em.
    + apply memb_spec in Em. rewrite (Fr h (proj2 (uses_U t h) Em)) in Hx. injection Hx as <-.
      exists i, (set_killed t false). rewrite nth_error_upd', Nat.eqb_refl by exact Hlt. auto.
    + destruct (i_own s I h x Hx Hp) as (j & u & Hj & Hkj & Hu & Hh). exists j, u. split; [|auto].
      rewrite nth_error_upd' by exact Hlt. destruct (j =? i) eqn:Ej; [|exact Hj].
      apply Nat.eqb_eq in Ej. subst j. congruence.
  - intros j u Hj. rewrite nth_error_upd' in Hj by exact Hlt. destruct (j =? i) eqn:Ej; [|apply (i_ok s I j u Hj)].
    injection Hj as <-. exact (i_ok s I i t Hi).
Qed.
