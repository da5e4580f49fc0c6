(** Attaching, merging, and making an already obsolete vertex obsolete. *)
From Verif Require Import Base TV_Model TV_Spec TV_Kill TV_High TV_Ops TV_Kill2.
From Coq Require Import QArith Qcanon Relations.
Local Open Scope nat_scope.

Section S.
Variable npl : nat.
Variable cut : Qc.

(** ** MakeVertexObsolete of a vertex that is already obsolete *)
Lemma mvo_end_zero l e t : (vtxid t (negb e) <= length l) ->
  exists t', mvo_end l 0 e t = Ok t' /\ tj_shape t' = tj_shape t.
Proof.
  intros Hr. unfold mvo_end. destruct (vtxid t e =? 0) eqn:E; cbn [negb]; [|eauto]. apply Nat.eqb_eq in E.
  assert (Sh : forall b, tj_shape (set_thi (set_pho (set_end t e 0) false) b) = tj_shape t).
  { intros b. destruct t, e; unfold tj_shape; cbn in *; congruence. }
  assert (Sh2 : tj_shape (set_pho (set_end t e 0) false) = tj_shape t).
  { destruct t, e; unfold tj_shape; cbn in *; congruence. }
  destruct (thi (set_pho (set_end t e 0) false)); [|eauto].
  assert (Ve : vtxid (set_pho (set_end t e 0) false) (negb e) = vtxid t (negb e)) by (destruct t, e; reflexivity). rewrite Ve.
  destruct (0 <? vtxid t (negb e)) eqn:E2; [|eauto]. apply Nat.ltb_lt in E2.
  destruct (nth1_ex l (vtxid t (negb e))) as (o & Ho); [lia|auto|]. rewrite (at1_some _ _ _ Ho). cbn [obind].
  destruct (vhi o); eauto.
Qed.

Lemma mvo_tj_zero l t : in_reach (length l) t -> exists t', mvo_tj l 0 t = Ok t' /\ tj_shape t' = tj_shape t.
Proof.
  intros Hr. unfold mvo_tj. destruct (dead t || halo t) eqn:D; [eauto|]. apply orb_false_iff in D. destruct D as (D & _).
  specialize (Hr D). destruct (mvo_end_zero l false t) as (t1 & E1 & S1); [simpl; lia|]. rewrite E1. cbn [obind].
  pose proof S1 as S1'. injection S1 as _ _ _ _ A B. destruct (mvo_end_zero l true t1) as (t2 & E2 & S2); [simpl; lia|].
  exists t2. split; [auto|congruence].
Qed.

Lemma clear_zero l : clear_id 0 l = l.
Proof. unfold clear_id. rewrite <- map_id. apply map_ext. intros [|a]; reflexivity. Qed.

(** a 3D vertex goes: every live 2D vertex that names it is detached *)
Lemma detach_sound s k w w' : sound npl s -> nth1 (ws s) k = Some w -> length (w2 w') = length (w2 w) -> wid w' = 0 ->
  sound npl (set_ws (set_vs s (map (fun u => if vid u =? 0 then u else if v3 u =? wid w then set_v3 u 0 else u) (vs s)))
                    (upd (ws s) (k - 1) w')).
Proof.
  intros H Hw Hl Hw0. set (f := fun u => if vid u =? 0 then u else if v3 u =? wid w then set_v3 u 0 else u).
  set (s' := set_ws _ _).
  assert (Nw : forall j, nth1 (ws s') j = if j =? k then Some w' else nth1 (ws s) j) by (intros j; apply (nth1_upd _ _ w); auto).
  assert (Nv : forall x, nth1 (vs s') x = option_map f (nth1 (vs s) x)).
  { intros [|x]; [reflexivity|]. simpl. apply nth_error_map. }
  assert (Fv : forall u, vid (f u) = vid u /\ vctp (f u) = vctp u /\ (v3 (f u) = v3 u \/ v3 (f u) = 0)).
  { intros u. unfold f. destruct (vid u =? 0); [auto|]. destruct (v3 u =? wid w); auto. }
  assert (N2 : forall x u, is_2V s x u -> is_2V s' x (f u)).
  { intros x u (A & B). split; [rewrite Nv, A; reflexivity|]. destruct (Fv u). congruence. }
  assert (Hk : wid w = 0 \/ wid w = k).
  { destruct k as [|k]; [discriminate|]. simpl in Hw. apply (s_wid npl s H k w Hw). }
  constructor.
  - apply (s_tid npl s H).
  - intros i u Hu. cbn [vs s' set_ws set_vs] in Hu. rewrite nth_error_map in Hu. destruct (nth_error (vs s) i) as [u0|] eqn:E; [|discriminate].
    injection Hu as <-. destruct (Fv u0) as (F & _). rewrite F. apply (s_vid npl s H i u0 E).
  - intros j u Hu. specialize (Nw (S j)). change (nth1 (ws s') (S j)) with (nth_error (ws s') j) in Nw. change (nth1 (ws s) (S j)) with (nth_error (ws s) j) in Nw.
    rewrite Hu in Nw. destruct (S j =? k); [injection Nw as ->; auto|]. apply (s_wid npl s H j u); auto.
  - intros u Hu. apply in_map_iff in Hu. destruct Hu as (u0 & <- & Hu). destruct (Fv u0) as (_ & F & _). rewrite F. apply (s_pl npl s H u0 Hu).
  - intros u Hu. apply In_nth_error in Hu. destruct Hu as (j & Hu). specialize (Nw (S j)).
    change (nth1 (ws s') (S j)) with (nth_error (ws s') j) in Nw. change (nth1 (ws s) (S j)) with (nth_error (ws s) j) in Nw. rewrite Hu in Nw.
    destruct (S j =? k); [injection Nw as ->; rewrite Hl|]; apply (s_len npl s H); [eapply nth1_in; eauto|eapply nth_error_In; eauto].
  - apply (s_halo npl s H).
  - intros t x Ht Hd Ho. destruct (s_t2 npl s H t x Ht Hd Ho) as (u & U1 & U2). exists (f u). split; [auto|]. destruct (Fv u) as (_ & F & _). congruence.
  - intros x u (U1 & U2) Hn. rewrite Nv in U1. destruct (nth1 (vs s) x) as [u0|] eqn:E; [|discriminate]. injection U1 as <-.
    destruct (Fv u0) as (F1 & F2 & F3). assert (F4 : v3 (f u0) = v3 u0) by (destruct F3; [auto|lia]). rewrite F4, F2.
    assert (V0 : is_2V s x u0) by (split; [auto|congruence]).
    destruct (s_23 npl s H x u0 V0) as (u & (W1 & W2) & W3); [lia|]. exists u. split; [|auto]. split; [|auto]. rewrite Nw.
    destruct (v3 u0 =? k) eqn:G; [|auto]. exfalso. apply Nat.eqb_eq in G. assert (u = w) by congruence. subst u.
    unfold f in Hn. destruct (vid u0 =? 0) eqn:Z; [apply Nat.eqb_eq in Z; apply nth1_pos in E; rewrite F1 in U2; lia|].
    assert (Q : (v3 u0 =? wid w) = true) by (apply Nat.eqb_eq; congruence). rewrite Q in Hn. apply Hn. reflexivity.
  - intros j u p x (U1 & U2) Hp Hx. rewrite Nw in U1. destruct (j =? k) eqn:G; [injection U1 as <-|].
    { apply Nat.eqb_eq in G. apply nth1_pos in Hw. lia. }
    apply Nat.eqb_neq in G. destruct (s_32 npl s H j u p x) as (v & V1 & V2 & V3); [split; auto|auto|auto|]. exists (f v). split; [auto|].
    destruct (Fv v) as (F1 & F2 & _). split; [|congruence]. unfold f. destruct (vid v =? 0); [auto|].
    destruct (v3 v =? wid w) eqn:Q; [|auto]. apply Nat.eqb_eq in Q. assert (j <> 0) by (apply nth1_pos in U1; lia). exfalso. lia.
  - intros u Hu. apply in_map_iff in Hu. destruct Hu as (u0 & <- & Hu). cbn [ws s' set_ws]. rewrite upd_length.
    pose proof (s_ref npl s H u0 Hu). destruct (Fv u0) as (_ & _ & [F|F]); rewrite F; lia.
Qed.

Theorem mvo2_dead s i v force : sound npl s -> nth_error (vs s) i = Some v -> vid v = 0 ->
  (force = true \/ v3 v = 0 \/ exists w, nth1 (ws s) (v3 v) = Some w /\ (wsc w < cut)%Qc) ->
  exists s', mvo2 npl cut s i force = Ok (true, s') /\ sound npl s' /\
    length (vs s') = length (vs s) /\
    forall w, nth1 (ws s) (v3 v) = Some w -> nth_error (w2 w) (vctp v mod 10) = Some 0 ->
      length (filter (fun x => 0 <? x) (w2 w)) <= 1 ->
      (exists w', nth1 (ws s') (v3 v) = Some w' /\ wid w' = 0) /\
      (wid w <> 0 -> forall p, In p (ps s') -> p0 p <> wid w /\ p1 p <> wid w).
Proof.
  intros H Hv Hz Hf. unfold mvo2. rewrite (idx_some _ _ _ Hv). cbn [obind]. rewrite Hz.
  assert (Hp : (do prot <- (if (0 <? v3 v) && negb force then do w <- at1 (ws s) (v3 v); Ok (qle cut (wsc w)) else Ok false); Ok prot) = Ok false).
  { destruct (0 <? v3 v) eqn:E; [|reflexivity]. apply Nat.ltb_lt in E. destruct force; [reflexivity|]. cbn [negb andb].
    destruct Hf as [Hf|[Hf|(w & W1 & W2)]]; [discriminate|lia|]. rewrite (at1_some _ _ _ W1). cbn [obind]. unfold qle.
    destruct (Qclt_le_dec (wsc w) cut) as [Q|Q]; [reflexivity|]. exfalso. eapply Qclt_not_le; eauto. }
  match type of Hp with (do prot <- ?c; Ok prot) = _ => assert (Hp' : c = Ok false) by (destruct c; cbn in Hp; congruence) end.
  rewrite Hp'. cbn [obind]. clear Hp Hp'.
  assert (Uv : upd (vs s) i (set_vid v 0) = vs s).
  { replace (set_vid v 0) with v by (destruct v; cbn in *; subst; reflexivity). apply nth_error_ext'. intros j. rewrite nth_error_upd.
    destruct (j =? i) eqn:E; [|reflexivity]. apply Nat.eqb_eq in E. subst j. assert (G : i < length (vs s)) by (apply nth_error_Some; congruence).
    apply Nat.ltb_lt in G. rewrite G. cbn [andb]. auto. }
  assert (TT : exists ts, map_o (mvo_tj (vs s) 0) (tjs s) = Ok ts /\ Forall2 (fun a b => tj_shape b = tj_shape a) (tjs s) ts).
  { apply map_o_ok. intros t Ht. apply mvo_tj_zero. apply (sound_reach npl); auto. }
  destruct TT as (ts & T1 & T2).
  assert (TM : map tj_shape (tjs s) = map tj_shape ts) by (clear -T2; induction T2; cbn; congruence).
  destruct (0 <? v3 v) eqn:E3.
  - apply Nat.ltb_lt in E3. assert (R : v3 v <= length (ws s)) by (apply (s_ref npl s H); eapply nth_error_In; eauto).
    destruct (nth1_ex (ws s) (v3 v)) as (w & Hw); [lia|auto|]. rewrite (at1_some _ _ _ Hw). cbn [obind]. rewrite clear_zero.
    assert (Uw : upd (ws s) (v3 v - 1) (set_w2 w (w2 w)) = ws s).
    { replace (set_w2 w (w2 w)) with w by (destruct w; reflexivity). pose proof (nth1_pos _ _ _ Hw) as (_ & W1 & _). apply nth_error_ext'. intros j. rewrite nth_error_upd.
      destruct (j =? v3 v - 1) eqn:E; [|reflexivity]. apply Nat.eqb_eq in E. subst j. assert (G : v3 v - 1 < length (ws s)) by (apply nth_error_Some; congruence).
      apply Nat.ltb_lt in G. rewrite G. cbn [andb]. auto. }
    rewrite Uw. cbn [vs ws tjs ps set_ws set_vs set_tjs]. rewrite Uv, T1. cbn [obind negb].
    set (s3 := set_tjs (set_vs (set_ws s (ws s)) (vs s)) ts).
    assert (Sm : same s s3) by (split; [exact TM|split; reflexivity]).
    assert (H3 : sound npl s3) by (eapply same_sound; eauto).
    cbn [ws s3 set_tjs set_vs set_ws]. rewrite (at1_some _ _ _ Hw). cbn [obind].
    assert (Pl : vctp v mod 10 < length (w2 w)).
    { rewrite (s_len npl s H w); [|eapply nth1_in; eauto]. apply (s_pl npl s H). eapply nth_error_In; eauto. }
    unfold plane. destruct (nth_error (w2 w) (vctp v mod 10)) as [y|] eqn:Ey; [|apply nth_error_None in Ey; lia].
    rewrite (idx_some _ _ _ Ey). cbn [obind]. destruct (y =? 0) eqn:Y0; cbn [negb].
    2:{ exists s3. split; [reflexivity|]. split; [auto|]. split; [reflexivity|]. intros w' W1 W2. apply Nat.eqb_neq in Y0. congruence. }
    apply Nat.eqb_eq in Y0. subst y.
    assert (Uw2 : upd (w2 w) (vctp v mod 10) 0 = w2 w).
    { apply nth_error_ext'. intros j. rewrite nth_error_upd. destruct (j =? vctp v mod 10) eqn:E; [|reflexivity]. apply Nat.eqb_eq in E. subst j.
      apply Nat.ltb_lt in Pl. rewrite Pl. cbn [andb]. auto. }
    rewrite Uw2. cbn [w2 set_wire set_w2]. pose proof (nth1_pos _ _ _ Hw) as (_ & Hw' & Hwl).
    destruct (1 <? length (filter (fun x => 0 <? x) (w2 w))) eqn:En.
    + apply Nat.ltb_lt in En. set (s4 := set_ws s3 _).
      assert (S4 : same s3 s4).
      { split; [reflexivity|]. split; [reflexivity|]. symmetry. cbn [ws s4 set_ws s3]. eapply upd_map_same; [exact Hw'|reflexivity]. }
      assert (H4 : sound npl s4) by (eapply same_sound; eauto).
      destruct (nth_error (ws s4) (v3 v - 1)) as [w4|] eqn:E4.
      2:{ apply nth_error_None in E4. cbn [ws s4 s3 set_ws set_tjs set_vs] in E4. rewrite upd_length in E4. lia. }
      destruct (set_vx3_score_total npl cut s4 (v3 v - 1) w4 H4 E4) as (s5 & E5 & S5 & _). rewrite E5. cbn [obind]. exists s5.
      split; [reflexivity|]. split; [eapply same_sound; eauto|]. split.
      * destruct S5 as (_ & Q & _). apply (f_equal (@length _)) in Q. rewrite !map_length in Q. rewrite <- Q. reflexivity.
      * intros w' W1 W2 W3. assert (w' = w) by congruence. subst w'. lia.
    + eexists; split; [reflexivity|]. split; [|split; [cbn; rewrite map_length; reflexivity|]].
      * pose proof (detach_sound s3 (v3 v) w (set_wid (set_wire (set_w2 w (w2 w)) (vwire v)) 0) H3 Hw eq_refl eq_refl) as G.
        eapply same_sound; [|exact G]. split; [reflexivity|]. cbn [vs ws tjs ps set_ws set_vs set_tjs set_ps s3 wid set_wire set_w2].
        split; [reflexivity|]. f_equal. apply nth_error_ext'. intros j. rewrite !nth_error_upd, !upd_length. destruct (j =? v3 v - 1); cbn [andb]; [destruct (v3 v - 1 <? length (ws s)); reflexivity|reflexivity].
      * intros w' W1 W2 W3. assert (w' = w) by congruence. subst w'. split.
        -- cbn [ws set_ws]. exists (set_wid (set_wire (set_w2 w (w2 w)) (vwire v)) 0). split; [|reflexivity]. destruct (v3 v) as [|k]; [lia|]. simpl. rewrite Nat.sub_0_r, nth_error_upd, Nat.eqb_refl. cbn [ws set_ws set_ps set_vs s3 set_tjs]. rewrite upd_length.
           assert (G : (k <? length (ws s)) = true) by (apply Nat.ltb_lt; lia). rewrite G. reflexivity.
        -- intros Hn p Hp. cbn [ps set_ws set_ps] in Hp. apply in_map_iff in Hp. destruct Hp as (p' & <- & _). cbn [p0 p1 wid set_wire set_w2].
           split; [destruct (p0 p' =? wid w) eqn:G|destruct (p1 p' =? wid w) eqn:G]; try (apply Nat.eqb_neq in G); auto.
  - apply Nat.ltb_ge in E3. cbn [vs ws tjs ps set_ws set_vs set_tjs obind]. rewrite Uv, T1. cbn [obind negb].
    eexists; split; [reflexivity|]. split; [|split; [reflexivity|]].
    + eapply same_sound; [|exact H]. split; [exact TM|split; reflexivity].
    + intros w Hw. apply nth1_pos in Hw. lia.
Qed.

(** every call, whatever the vertex *)
Theorem mvo2_sound s i force : sound npl s -> i < length (vs s) ->
  exists b s', mvo2 npl cut s i force = Ok (b, s') /\ sound npl s' /\ length (vs s') = length (vs s) /\ (b = false -> s' = s).
Proof.
  intros H Hi. destruct (nth_error (vs s) i) as [v|] eqn:Ev; [|apply nth_error_None in Ev; lia].
  assert (D : (force = true \/ v3 v = 0 \/ exists w, nth1 (ws s) (v3 v) = Some w /\ (wsc w < cut)%Qc) \/
              (force = false /\ exists w, nth1 (ws s) (v3 v) = Some w /\ (cut <= wsc w)%Qc)).
  { destruct force; [auto|]. destruct (Nat.eq_dec (v3 v) 0) as [Z|Z]; [auto|].
    destruct (nth1_ex (ws s) (v3 v) Z) as (w & Hw); [apply (s_ref npl s H); eapply nth_error_In; eauto|].
    destruct (Qclt_le_dec (wsc w) cut); [left; right; right; eauto|right; eauto]. }
  destruct D as [D|(-> & w & Hw & Hs)].
  - destruct (Nat.eq_dec (vid v) 0) as [Z|Z].
    + destruct (mvo2_dead s i v force H Ev Z D) as (s' & E & S1 & L & _). exists true, s'. split; [auto|]. split; [auto|]. split; [auto|discriminate].
    + destruct (mvo2_live npl cut s i v force H Ev Z D) as (s' & E & O). exists true, s'.
      assert (V : is_2V s (vid v) v) by (destruct (s_vid npl s H i v Ev) as [Q|Q]; [contradiction|]; split; [rewrite Q; exact Ev|auto]).
      split; [auto|]. split; [eapply obsoleted_sound; eauto|]. split; [apply (o_len2 _ _ _ _ O)|discriminate].
  - exists false, s. rewrite (mvo2_protected npl cut s i v w Ev Hw Hs). auto.
Qed.

(** ** AttachTrajToVertex *)
Lemma set_end_cases t e x y : on (set_end t e x) y -> on t y \/ (y = x /\ y <> 0).
Proof. destruct t, e; unfold on; cbn; intuition. Qed.

Theorem attach_ok s ti vi e g : sound npl s -> ti < length (tjs s) -> vi < length (vs s) ->
  exists b s', attach s ti vi e g = Ok (b, s') /\ sound npl s' /\
    (b = false -> s' = s) /\
    (b = true -> exists t v, nth_error (tjs s) ti = Some t /\ nth_error (vs s) vi = Some v /\
        dead t = false /\ halo t = false /\ vid v = S vi /\ vctp v = tctp t /\ vtxid t e = 0 /\ ~ on t (vid v) /\
        ((g = Inside /\ s' = s) \/
         (exists ph sc, g = Accept ph sc /\ tjs s' = upd (tjs s) ti (set_pho (set_end t e (vid v)) ph) /\
            ws s' = ws s /\ ps s' = ps s /\
            vs s' = upd (vs s) vi (set_vsc v (match sc with Some q => q | None => vsc v end))))).
Proof.
  intros H Ht Hv. unfold attach.
  destruct (nth_error (tjs s) ti) as [t|] eqn:Et; [|apply nth_error_None in Et; lia].
  destruct (nth_error (vs s) vi) as [v|] eqn:Ev; [|apply nth_error_None in Ev; lia].
  rewrite (idx_some _ _ _ Et), (idx_some _ _ _ Ev). cbn [obind].
  assert (No' : exists b s', Ok (false, s) = Ok (b, s') /\ sound npl s' /\ (b = false -> s' = s) /\
    (b = true -> exists t0 v0, Some t = Some t0 /\ Some v = Some v0 /\
        dead t0 = false /\ halo t0 = false /\ vid v0 = S vi /\ vctp v0 = tctp t0 /\ vtxid t0 e = 0 /\ ~ on t0 (vid v0) /\
        ((g = Inside /\ s' = s) \/
         (exists ph sc, g = Accept ph sc /\ tjs s' = upd (tjs s) ti (set_pho (set_end t0 e (vid v0)) ph) /\
            ws s' = ws s /\ ps s' = ps s /\
            vs s' = upd (vs s) vi (set_vsc v0 (match sc with Some q => q | None => vsc v0 end)))))).
  { exists false, s. split; [auto|]. split; [auto|]. split; [auto|discriminate]. }
  destruct (dead t || halo t) eqn:D; [exact No'|]. apply orb_false_iff in D. destruct D as (D1 & D2).
  destruct (tctp t =? vctp v) eqn:C; cbn [negb]; [|exact No']. apply Nat.eqb_eq in C.
  destruct ((e0 t =? vid v) || (e1 t =? vid v)) eqn:O; [exact No'|]. apply orb_false_iff in O. destruct O as (O1 & O2).
  apply Nat.eqb_neq in O1, O2.
  destruct (0 <? vtxid t e) eqn:F; [exact No'|]. apply Nat.ltb_ge in F.
  assert (Hid : vid v = S vi).
  { destruct (s_vid npl s H vi v Ev) as [Q|Q]; [|auto]. exfalso. destruct e; cbn in F; lia. }
  assert (Non : ~ on t (vid v)) by (intros (_ & [Q|Q]); contradiction).
  destruct g as [| |ph sc]; [exact No'| |].
  - exists true, s. split; [auto|]. split; [auto|]. split; [discriminate|]. intros _. exists t, v. do 8 (split; [auto; lia|]). left. auto.
  - clear No'. set (t' := set_pho (set_end t e (vid v)) ph).
    assert (Ss : sound npl (set_tjs s (upd (tjs s) ti t'))).
    { assert (N : forall j u, nth_error (upd (tjs s) ti t') j = Some u -> (j = ti /\ u = t') \/ nth_error (tjs s) j = Some u).
      { intros j u Hj. rewrite nth_error_upd in Hj. destruct (j =? ti) eqn:G; [|auto]. apply Nat.eqb_eq in G. apply Nat.ltb_lt in Ht. rewrite Ht in Hj. cbn [andb] in Hj. left. split; congruence. }
      apply sound_tjs; [auto| | |].
      - intros j u Hj. destruct (N j u Hj) as [(-> & ->)|Q]; [|apply (s_tid npl s H j u Q)].
        rewrite <- (s_tid npl s H ti t Et). unfold t'. destruct t, e; reflexivity.
      - intros u Hu Hh. apply In_nth_error in Hu. destruct Hu as (j & Hj). destruct (N j u Hj) as [(-> & ->)|Q].
        + exfalso. assert (halo t' = halo t) by (unfold t'; destruct t, e; reflexivity). congruence.
        + apply (s_halo npl s H u); [eapply nth_error_In; eauto|auto].
      - intros u x Hu Hd Ho. apply In_nth_error in Hu. destruct Hu as (j & Hj). destruct (N j u Hj) as [(-> & ->)|Q].
        + assert (Ec : tctp t' = tctp t) by (unfold t'; destruct t, e; reflexivity). rewrite Ec.
          assert (Ho' : on (set_end t e (vid v)) x) by (unfold t' in Ho; destruct t, e; exact Ho).
          apply set_end_cases in Ho'. destruct Ho' as [Ho'|(-> & _)].
          * apply (s_t2 npl s H t x); [eapply nth_error_In; eauto|auto|auto].
          * exists v. split; [split; [rewrite Hid; exact Ev|auto]|auto].
        + apply (s_t2 npl s H u x); [eapply nth_error_In; eauto|auto|auto]. }
    assert (Uv : forall q, upd (vs s) vi (set_vsc v q) = upd (vs s) vi (set_vsc v q)) by reflexivity.
    destruct sc as [q|].
    + eexists true, _. split; [reflexivity|]. split; [|split; [discriminate|]].
      * eapply same_sound; [|exact Ss]. split; [reflexivity|]. split; [|reflexivity]. cbn [vs set_vs set_tjs]. symmetry. eapply upd_map_same; [exact Ev|reflexivity].
      * intros _. exists t, v. do 8 (split; [auto; lia|]). right. exists ph, (Some q). split; [auto|]. split; [reflexivity|]. split; [reflexivity|]. split; [reflexivity|]. reflexivity.
    + eexists true, _. split; [reflexivity|]. split; [exact Ss|]. split; [discriminate|].
      intros _. exists t, v. do 8 (split; [auto; lia|]). right. exists ph, None. split; [auto|]. split; [reflexivity|]. split; [reflexivity|]. split; [reflexivity|].
      cbn [vs set_tjs]. replace (set_vsc v (vsc v)) with v by (destruct v; reflexivity). apply nth_error_ext'. intros j. rewrite nth_error_upd.
      destruct (j =? vi) eqn:G; [|reflexivity]. apply Nat.eqb_eq in G. subst j. apply Nat.ltb_lt in Hv. rewrite Hv. cbn [andb]. auto.
Qed.

End S.
