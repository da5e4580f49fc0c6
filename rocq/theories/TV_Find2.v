(** Find2DVertices without merging: attached ends stay attached, every new 2D vertex has two
    trajectories; AttachAnyTrajToVertex takes the best candidate. *)
From Verif Require Import Base TV_Model TV_Spec TV_Kill TV_High TV_Ops TV_Kill2 TV_Ops2 TV_Merge TV_FModel TV_Find.
From Coq Require Import QArith Qcanon.
Import TV_Model TV_FModel.
Local Open Scope nat_scope.

(** the ends that were attached to a vertex still are *)
Definition keeps (s s' : slice) : Prop := forall i t, nth_error (tjs s) i = Some t ->
  exists t', nth_error (tjs s') i = Some t' /\ forall e, vtxid t e <> 0 -> vtxid t' e = vtxid t e.
(** two different trajectories are attached to 2D vertex [x] *)
Definition two_on (s : slice) (x : nat) : Prop := exists i j t u, i <> j /\
  nth_error (tjs s) i = Some t /\ nth_error (tjs s) j = Some u /\ on t x /\ on u x.

Definition nice (s s' : slice) : Prop := keeps s s' /\ length (vs s) <= length (vs s') /\
  forall x, length (vs s) < x <= length (vs s') -> two_on s' x.

Lemma keeps_refl s : keeps s s.
Proof. intros i t H. exists t. auto. Qed.
Lemma keeps_on t t' x : (forall e, vtxid t e <> 0 -> vtxid t' e = vtxid t e) -> on t x -> on t' x.
Proof. intros H (X & [O|O]); split; auto; [left; rewrite <- O; apply (H false)|right; rewrite <- O; apply (H true)]; simpl; congruence. Qed.
Lemma keeps_two s s' x : keeps s s' -> two_on s x -> two_on s' x.
Proof.
  intros K (i & j & t & u & Ne & A & B & C & D). destruct (K i t A) as (t' & A' & A2). destruct (K j u B) as (u' & B' & B2).
  exists i, j, t', u'. split; [auto|]. split; [auto|]. split; [auto|]. split; eapply keeps_on; eauto.
Qed.
Lemma keeps_trans a b c : keeps a b -> keeps b c -> keeps a c.
Proof.
  intros H K i t Ht. destruct (H i t Ht) as (u & U & V). destruct (K i u U) as (w & W & X). exists w. split; [auto|]. intros e He. rewrite (X e); [apply V; auto|]. rewrite V; auto.
Qed.
Lemma nice_refl s : nice s s.
Proof. split; [apply keeps_refl|]. split; [lia|]. intros x Hx. lia. Qed.
Lemma nice_trans a b c : nice a b -> nice b c -> nice a c.
Proof.
  intros (A1 & A2 & A3) (B1 & B2 & B3). split; [eapply keeps_trans; eauto|]. split; [lia|]. intros x Hx. destruct (le_lt_dec x (length (vs b))) as [L|L]; [|apply B3; lia].
  eapply keeps_two; [exact B1|]. apply A3. lia.
Qed.
Lemma upd_keeps s l' i t t' : nth_error (tjs s) i = Some t -> l' = upd (tjs s) i t' -> (forall e, vtxid t e <> 0 -> vtxid t' e = vtxid t e) ->
  forall s', tjs s' = l' -> keeps s s'.
Proof.
  intros Ht -> Hk s' E j u Hu. rewrite E, nth_error_upd. destruct ((j =? i) && (i <? length (tjs s))) eqn:Q; [|exists u; auto].
  apply andb_true_iff in Q. destruct Q as (Q & _). apply Nat.eqb_eq in Q. subst j. rewrite Ht in Hu. injection Hu as <-. eauto.
Qed.
Lemma set_end_keeps t e x : vtxid t e = 0 -> forall d, vtxid t d <> 0 -> vtxid (set_end t e x) d = vtxid t d.
Proof. intros Z d Hd. destruct t, e, d; simpl in *; congruence. Qed.
Lemma set_pho_vtx t b e : vtxid (set_pho t b) e = vtxid t e. Proof. destruct t, e; reflexivity. Qed.

Section S.
Variable npl : nat.

Lemma attach_keeps s ti vi e g b s' : sound npl s -> ti < length (tjs s) -> vi < length (vs s) -> attach s ti vi e g = Ok (b, s') -> keeps s s' /\ length (vs s') = length (vs s).
Proof.
  intros H Lt Lv E. destruct (attach_ok npl s ti vi e g H Lt Lv) as (b' & s1 & A1 & A2 & A3 & A4). rewrite E in A1. injection A1 as <- <-. destruct b.
  - destruct (A4 eq_refl) as (t & v & T1 & T2 & T3 & T4 & T5 & T6 & T7 & T8 & [(_ & ->)|(ph & sc & _ & U1 & U2 & U3 & U4)]); [split; [apply keeps_refl|reflexivity]|].
    split; [|rewrite U4, upd_length; reflexivity]. eapply upd_keeps; [exact T1|exact U1| |reflexivity]. intros d Hd. rewrite set_pho_vtx. apply set_end_keeps; auto.
  - rewrite (A3 eq_refl). split; [apply keeps_refl|reflexivity].
Qed.

(** the trajectories AttachAnyTrajToVertex may attach *)
Definition eligible (g : f2_geo) (s : slice) (vi : nat) (v : vx) (ti : nat) : Prop :=
  exists t, nth_error (tjs s) ti = Some t /\ dead t = false /\ halo t = false /\ tctp t = vctp v /\ far g s ti vi = false /\
    vtxid t (nearend g s ti vi) = 0 /\ (fom g s ti vi <= fom0 g)%Qc.

Theorem attach_any_best g s vi v : nth_error (vs s) vi = Some v -> vid v <> 0 ->
  ((forall ti, ~ eligible g s vi v ti) /\ attach_any g s vi = Ok (false, s)) \/
  exists ti, eligible g s vi v ti /\ attach_any g s vi = attach s ti vi (nearend g s ti vi) (verd g s ti vi) /\
    (forall tk, eligible g s vi v tk -> (fom g s ti vi <= fom g s tk vi)%Qc) /\
    (forall tk, eligible g s vi v tk -> ti < tk -> (fom g s ti vi < fom g s tk vi)%Qc).
Proof.
  intros Ev Hn. unfold attach_any. assert (L : vi < length (vs s)) by (apply nth_error_Some; congruence). destruct (length (vs s) <=? vi) eqn:E; [apply Nat.leb_le in E; lia|].
  rewrite (idx_some _ _ _ Ev). cbn [obind]. apply Nat.eqb_neq in Hn. rewrite Hn.
  match goal with |- context [for_ (seq 0 ?n) ?body ?z] =>
    destruct (for_seq_inv (fun i (best : option nat * Qc) => match fst best with
        | None => snd best = fom0 g /\ forall k, k < i -> ~ eligible g s vi v k
        | Some b => b < i /\ eligible g s vi v b /\ snd best = fom g s b vi /\ (forall k, k < i -> eligible g s vi v k -> (fom g s b vi <= fom g s k vi)%Qc) /\
                    (forall k, b < k -> k < i -> eligible g s vi v k -> (fom g s b vi < fom g s k vi)%Qc)
        end) body 0 n z) as (best & E1 & P1) end.
  - simpl. split; [reflexivity|]. intros k Hk. lia.
  - intros i best Hi P. destruct (nth_error (tjs s) i) as [t|] eqn:Et; [|apply nth_error_None in Et; lia]. rewrite (idx_some _ _ _ Et). cbn [obind].
    assert (El : eligible g s vi v i <-> dead t = false /\ halo t = false /\ tctp t = vctp v /\ far g s i vi = false /\ vtxid t (nearend g s i vi) = 0 /\ (fom g s i vi <= fom0 g)%Qc).
    { unfold eligible. split; [intros (u & U & R); rewrite Et in U; injection U as <-; exact R|intros R; exists t; auto]. }
    assert (Skip : ~ eligible g s vi v i -> exists best', Ok best = Ok best' /\ match fst best' with
        | None => snd best' = fom0 g /\ forall k, k < S i -> ~ eligible g s vi v k
        | Some b => b < S i /\ eligible g s vi v b /\ snd best' = fom g s b vi /\ (forall k, k < S i -> eligible g s vi v k -> (fom g s b vi <= fom g s k vi)%Qc) /\
                    (forall k, b < k -> k < S i -> eligible g s vi v k -> (fom g s b vi < fom g s k vi)%Qc)
        end).
    { intros N. exists best. split; [reflexivity|]. destruct (fst best) as [b|].
      - destruct P as (P1 & P2 & P3 & P4 & P5). split; [lia|]. split; [auto|]. split; [auto|]. split.
        + intros k Hk Hek. destruct (Nat.eq_dec k i) as [-> |Q]; [contradiction|apply P4; [lia|auto]].
        + intros k Hb Hk Hek. destruct (Nat.eq_dec k i) as [-> |Q]; [contradiction|apply P5; [lia|lia|auto]].
      - destruct P as (P1 & P2). split; [auto|]. intros k Hk. destruct (Nat.eq_dec k i) as [-> |Q]; [auto|apply P2; lia]. }
    destruct (dead t || halo t) eqn:Ed; [apply Skip; rewrite El; intros (A & B & _); rewrite A, B in Ed; discriminate|]. apply orb_false_iff in Ed. destruct Ed as (D & Hh).
    destruct (negb (tctp t =? vctp v)) eqn:Ec; [apply Skip; rewrite El; intros (_ & _ & A & _); rewrite A, Nat.eqb_refl in Ec; discriminate|]. apply negb_false_iff, Nat.eqb_eq in Ec.
    destruct (far g s i vi) eqn:Ef; [apply Skip; rewrite El; intros (_ & _ & _ & A & _); discriminate|].
    destruct (0 <? vtxid t (nearend g s i vi)) eqn:Ez; [apply Skip; rewrite El; intros (_ & _ & _ & _ & A & _); rewrite A in Ez; discriminate|]. apply Nat.ltb_ge in Ez.
    assert (Z0 : vtxid t (nearend g s i vi) = 0) by lia.
    unfold qlt. destruct (Qclt_le_dec (snd best) (fom g s i vi)) as [Q|Q].
    + destruct (fst best) as [b|] eqn:Eb.
      * destruct P as (P1 & P2 & P3 & P4 & P5). exists best. split; [reflexivity|]. rewrite Eb. split; [lia|]. split; [auto|]. split; [auto|]. rewrite P3 in Q. split.
        -- intros k Hk Hek. destruct (Nat.eq_dec k i) as [-> |Q2]; [apply Qclt_le_weak; exact Q|apply P4; [lia|auto]].
        -- intros k Hb Hk Hek. destruct (Nat.eq_dec k i) as [-> |Q2]; [exact Q|apply P5; [lia|lia|auto]].
      * apply Skip. rewrite El. intros (_ & _ & _ & _ & _ & A). destruct P as (P1 & _). rewrite P1 in Q. exact (Qclt_not_le _ _ Q A).
    + eexists; split; [reflexivity|]. cbn [fst snd]. destruct (fst best) as [b|].
      * destruct P as (P1 & P2 & P3 & P4 & P5). rewrite P3 in Q.
        assert (Le : (fom g s b vi <= fom0 g)%Qc) by (destruct P2 as (u & _ & _ & _ & _ & _ & _ & A); exact A).
        split; [lia|]. split; [apply El; do 5 (split; [first [assumption|reflexivity]|]); eapply Qcle_trans; eauto|]. split; [reflexivity|]. split.
        -- intros k Hk Hek. destruct (Nat.eq_dec k i) as [-> |Q2]; [apply Qcle_refl|]. eapply Qcle_trans; [exact Q|apply P4; [lia|auto]].
        -- intros k Hb Hk. lia.
      * destruct P as (P1 & P2). rewrite P1 in Q. split; [lia|]. split; [apply El; do 5 (split; [first [assumption|reflexivity]|]); exact Q|]. split; [reflexivity|]. split.
        -- intros k Hk Hek. destruct (Nat.eq_dec k i) as [-> |Q2]; [apply Qcle_refl|]. exfalso. apply (P2 k); [lia|auto].
        -- intros k Hb Hk. lia.
  - rewrite E1. cbn [obind].
    assert (Lim : forall k, eligible g s vi v k -> k < 0 + length (tjs s)) by (intros k (t & A & _); apply nth_error_Some; congruence).
    destruct (fst best) as [b|].
    + destruct P1 as (P1 & P2 & P3 & P4 & P5). right. exists b. split; [auto|]. split; [reflexivity|]. split; [intros k Hk; apply P4; auto|intros k Hk Hb; apply P5; auto].
    + destruct P1 as (P1 & P2). left. split; [|reflexivity]. intros k Hk. apply (P2 k); auto.
Qed.

Lemma attach_any_keeps g s vi b s' : sound npl s -> attach_any g s vi = Ok (b, s') -> keeps s s' /\ length (vs s') = length (vs s).
Proof.
  intros H E. destruct (nth_error (vs s) vi) as [v|] eqn:Ev.
  - destruct (Nat.eq_dec (vid v) 0) as [Z|Z].
    + unfold attach_any in E. destruct (length (vs s) <=? vi); [injection E as <- <-; split; [apply keeps_refl|auto]|]. rewrite (idx_some _ _ _ Ev) in E. cbn [obind] in E. rewrite Z in E. simpl in E. injection E as <- <-. split; [apply keeps_refl|auto].
    + destruct (attach_any_best g s vi v Ev Z) as [(_ & Q)|(ti & (t & Q1 & _) & Q2 & _)].
      * rewrite E in Q. injection Q as -> ->. split; [apply keeps_refl|auto].
      * rewrite Q2 in E. eapply attach_keeps; [exact H| | |exact E]; apply nth_error_Some; congruence.
  - unfold attach_any in E. apply nth_error_None in Ev. apply Nat.leb_le in Ev. rewrite Ev in E. injection E as <- <-. split; [apply keeps_refl|auto].
Qed.

Lemma try_nice s ctp i1 b1 i2 b2 fit g wire t1 t2 b s' : sound npl s ->
  nth_error (tjs s) i1 = Some t1 -> nth_error (tjs s) i2 = Some t2 -> i1 <> i2 ->
  dead t1 = false -> halo t1 = false -> tctp t1 = ctp -> vtxid t1 b1 = 0 ->
  dead t2 = false -> halo t2 = false -> tctp t2 = ctp -> vtxid t2 b2 = 0 ->
  ctp mod 10 < npl -> (forall l, incl (order g l) l) ->
  try_vertex s ctp i1 b1 i2 b2 fit 0 g wire = Ok (b, s') -> nice s s'.
Proof.
  intros H N1 N2 Hne D1 H1 C1 V1 D2 H2 C2 V2 Hpl Hord E.
  destruct (try_ok npl s ctp i1 b1 i2 b2 fit 0 g wire t1 t2 H N1 N2 Hne D1 H1 C1 V1 D2 H2 C2 V2 Hpl Hord) as (b' & s1 & E1 & _ & A & _ & _ & _ & Sh & _ & B).
  rewrite E in E1. injection E1 as <- <-. destruct fit; [|destruct (A eq_refl) as (_ & ->); apply nice_refl].
  destruct (B eq_refl eq_refl) as (-> & v' & _ & _ & u1 & u2 & U1 & U2 & U3 & U4).
  assert (Lv : length (vs s') = S (length (vs s))) by (apply (f_equal (@length _)) in Sh; rewrite app_length, !map_length in Sh; simpl in Sh; lia).
  split; [|split; [lia|]].
  - assert (Tj : tjs s' = upd (upd (tjs s) i1 (set_end t1 b1 (length (vs s) + 1))) i2 (set_end t2 b2 (length (vs s) + 1))).
    { unfold try_vertex in E. rewrite (idx_some _ _ _ N1) in E. cbn [obind] in E.
      assert (N2' : nth_error (tjs (set_tjs s (upd (tjs s) i1 (set_end t1 b1 (length (vs s) + 1))))) i2 = Some t2).
      { cbn [tjs set_tjs]. rewrite nth_error_upd. destruct (i2 =? i1) eqn:Q; [apply Nat.eqb_eq in Q; lia|auto]. }
      rewrite (idx_some _ _ _ N2') in E. cbn [obind negb fst snd Nat.ltb Nat.leb] in E. injection E as E. apply (f_equal snd) in E as E'. apply (f_equal fst) in E. simpl snd in E'. simpl fst in E.
      revert E E'. unfold store_vertex. cbn [vid vs set_tjs]. rewrite Nat.eqb_refl. cbn [negb].
      match goal with |- context [if negb (?a =? ?b) then _ else _] => destruct (negb (a =? b)) end; cbn [fst snd]; [discriminate|]. intros _ <-. reflexivity. }
    intros j u Hu. rewrite Tj, !nth_error_upd, upd_length. destruct (j =? i2) eqn:Q2.
    + apply Nat.eqb_eq in Q2. subst j. assert (L : (i2 <? length (tjs s)) = true) by (apply Nat.ltb_lt, nth_error_Some; congruence). rewrite L. cbn [andb]. assert (u = t2) by congruence. subst u. eexists; split; [reflexivity|]. apply set_end_keeps; auto.
    + cbn [andb]. destruct (j =? i1) eqn:Q1; [|cbn [andb]; exists u; auto]. apply Nat.eqb_eq in Q1. subst j. assert (L : (i1 <? length (tjs s)) = true) by (apply Nat.ltb_lt, nth_error_Some; congruence). rewrite L. cbn [andb].
      assert (u = t1) by congruence. subst u. eexists; split; [reflexivity|]. apply set_end_keeps; auto.
  - intros x Hx. assert (x = S (length (vs s))) by lia. subst x. exists i1, i2, u1, u2. split; [auto|]. split; [auto|]. split; [auto|].
    split; (split; [lia|]); [destruct b1; simpl in U2; auto|destruct b2; simpl in U4; auto].
Qed.

Lemma score2_nice sc s i s' : set_vx2_score sc s i = Ok s' -> keeps s s' /\ length (vs s') = length (vs s).
Proof.
  unfold set_vx2_score. destruct (idx (vs s) i) as [v| |] eqn:Ev; cbn [obind]; try discriminate. destruct (vid v =? 0); intros [= <-]; (split; [intros j t Ht; exists t; auto|]); [reflexivity|]. cbn [vs set_vs]. apply upd_length.
Qed.

Section G.
Variable g : f2_geo.
Hypothesis Hg : forall s i b j, close_to g s i b j = 0.

Lemma f2_pair_nice ctp i1 b1 s i2 t1 s' : (forall s i b j l, incl (order (mgeo g s i b j) l) l) -> ctp mod 10 < npl ->
  sound npl s -> nth_error (tjs s) i1 = Some t1 -> dead t1 = false -> halo t1 = false -> tctp t1 = ctp -> i1 < i2 ->
  f2_pair g ctp i1 b1 s i2 = Ok s' -> nice s s'.
Proof.
  intros Ho Hp H N1 D1 H1 C1 Hlt. unfold f2_pair. destruct (idx (tjs s) i2) as [t2| |] eqn:N2; cbn [obind]; try discriminate. apply idx_inv in N2. destruct N2 as (_ & N2).
  assert (Stay : Ok s = Ok s' -> nice s s') by (intros [= <-]; apply nice_refl).
  destruct (dead t2 || halo t2) eqn:Ed; [exact Stay|]. apply orb_false_iff in Ed. destruct Ed as (D2 & H2).
  destruct (shower g i2); [exact Stay|]. destruct (negb (tctp t2 =? ctp)) eqn:Ec; [exact Stay|]. apply negb_false_iff, Nat.eqb_eq in Ec.
  rewrite (idx_some _ _ _ N1). cbn [obind]. destruct (0 <? vtxid t1 b1) eqn:E1; [exact Stay|]. apply Nat.ltb_ge in E1.
  destruct (weak g i1 i2); [exact Stay|]. cbv zeta. destruct (0 <? vtxid t2 _) eqn:E2; [exact Stay|]. apply Nat.ltb_ge in E2.
  destruct (wrong g i2 _); [exact Stay|]. destruct ((0 <? vtxid t1 (negb b1)) && _); [exact Stay|]. destruct (negb (cuts g s i1 b1 i2)); [exact Stay|]. rewrite Hg.
  assert (V1 : vtxid t1 b1 = 0) by lia. assert (V2 : vtxid t2 (end_of g s i1 b1 i2) = 0) by lia. assert (Ne : i1 <> i2) by lia.
  destruct (try_vertex s ctp i1 b1 i2 _ _ 0 _ _) as [[b s1]| |] eqn:T; cbn [obind fst snd]; try discriminate.
  pose proof (try_nice _ _ _ _ _ _ _ _ _ t1 t2 _ _ H N1 N2 Ne D1 H1 C1 V1 D2 H2 Ec V2 Hp (Ho s i1 b1 i2) T) as G1.
  destruct (try_ok npl s ctp i1 b1 i2 (end_of g s i1 b1 i2) (fits g s i1 b1 i2) 0 (mgeo g s i1 b1 i2) (vpos g s i1 b1 i2) t1 t2)
    as (b' & s1' & T1 & T2 & _); try assumption; [apply Ho|]. rewrite T in T1. injection T1 as <- <-.
  destruct b; cbn [negb]; [|intros [= <-]; exact G1].
  destruct (attach_any g s1 _) as [[b s2]| |] eqn:A; cbn [obind fst snd]; try discriminate. intros S3.
  destruct (attach_any_keeps g s1 _ b s2 T2 A) as (K1 & K2). destruct (score2_nice _ _ _ _ S3) as (K3 & K4).
  eapply nice_trans; [exact G1|]. split; [eapply keeps_trans; eauto|]. split; [lia|]. intros x Hx. lia.
Qed.

Theorem find2d_nice ctp s s' : (forall s i b j l, incl (order (mgeo g s i b j) l) l) -> ctp mod 10 < npl -> sound npl s ->
  find2d g ctp s = Ok s' -> nice s s'.
Proof.
  intros Ho Hp H E. unfold find2d in E. destruct (length (tjs s) <? 2) eqn:E0; [injection E as <-; apply nice_refl|]. apply Nat.ltb_ge in E0. revert E.
  match goal with |- context [for_ (seq 0 ?n) ?body ?z] =>
    destruct (for_seq_inv (fun i t => sound npl t /\ grown ctp s t /\ nice s t) body 0 n z) as (s1 & E1 & P1 & P2 & P3) end.
  - auto using grown_refl, nice_refl.
  - intros i1 t Hi (St & G & Gn). pose proof (fixed_len _ _ (proj1 G)) as Lt.
    destruct (nth_error (tjs t) i1) as [t1|] eqn:N1; [|apply nth_error_None in N1; lia]. rewrite (idx_some _ _ _ N1). cbn [obind].
    destruct (dead t1 || halo t1) eqn:Ed; [eauto|]. apply orb_false_iff in Ed. destruct Ed as (D1 & H1). destruct (shower g i1); [eauto|].
    destruct (negb (tctp t1 =? ctp)) eqn:Ec; [eauto|]. apply negb_false_iff, Nat.eqb_eq in Ec.
    set (fe := fun (s : slice) (b1 : bool) => do t1 <- idx (tjs s) i1; if 0 <? vtxid t1 b1 then Ok s else if wrong g i1 b1 then Ok s else for_ (seq (i1 + 1) (length (tjs s) - (i1 + 1))) (f2_pair g ctp i1 b1) s).
    assert (Step : forall u b1, sound npl u -> grown ctp t u -> nice t u -> exists u', fe u b1 = Ok u' /\ sound npl u' /\ grown ctp t u' /\ nice t u').
    { intros u b1 Su Gu Nu. unfold fe. pose proof (fixed_len _ _ (proj1 Gu)) as Lu. destruct (fixed_nth _ _ i1 t1 (proj1 Gu) N1) as (u1 & M1 & M2 & M3 & M4).
      rewrite (idx_some _ _ _ M1). cbn [obind]. destruct (0 <? vtxid u1 b1); [eauto|]. destruct (wrong g i1 b1); [eauto|].
      destruct (for_seq_inv (fun i w => sound npl w /\ grown ctp t w /\ nice t w) (f2_pair g ctp i1 b1) (i1 + 1) (length (tjs u) - (i1 + 1)) u) as (w & W1 & W2); [auto| |eauto].
      intros i2 w Hi2 (Sw & Gw & Nw). pose proof (fixed_len _ _ (proj1 Gw)) as Lw. destruct (fixed_nth _ _ i1 t1 (proj1 Gw) N1) as (w1 & K1 & K2 & K3 & K4).
      destruct (f2_pair_ok npl g ctp i1 b1 w i2 w1) as (w' & F1 & F2 & F3); try assumption; try congruence; try lia.
      exists w'. split; [auto|]. split; [auto|]. split; [eapply grown_trans; eauto|]. eapply nice_trans; [exact Nw|]. eapply (f2_pair_nice ctp i1 b1 w i2 w1); try eassumption; try congruence; lia. }
    cbn [foreach]. destruct (Step t false St (grown_refl _ _) (nice_refl _)) as (u & U1 & U2 & U3 & U4). rewrite U1. cbn [obind].
    destruct (Step u true U2 U3 U4) as (w & W1 & W2 & W3 & W4). rewrite W1. cbn [obind]. exists w. split; [auto|]. split; [auto|]. split; [eapply grown_trans; eauto|eapply nice_trans; eauto].
  - intros E. rewrite E1 in E. injection E as <-. exact P3.
Qed.
End G.
End S.
