(** SplitTraj *)
From Verif Require Import Base Util TJ_Model TJ_Spec TJ_Proofs TJ_Ops GHF_Any.
Local Open Scope nat_scope.

Lemma used_clear p : used_pt (clear_pt p) = [].
Proof. unfold used_pt, clear_pt. cbn [thits]. induction (thits p) as [|[h u] l IH]; [reflexivity|exact IH]. Qed.
Lemma U_clear l : U (map clear_pt l) = [].
Proof. induction l as [|p l IH]; [reflexivity|]. change (used_pt (clear_pt p) ++ U (map clear_pt l) = []). rewrite used_clear. exact IH. Qed.

Lemma hand_hits_all old new hs o o' hs' : hand_hits o old new hs = Ok (o', hs') -> old <> new ->
  NoDup (map fst (filter snd hs)) -> (forall h, In h (map fst (filter snd hs)) -> nth_error o h = Some old) ->
  hs' = map (fun q => (fst q, false)) hs /\ length o' = length o /\
  forall h, nth_error o' h = if existsb (Nat.eqb h) (map fst (filter snd hs)) then Some new else nth_error o h.
Proof.
  intros E Hne. revert o o' hs' E. induction hs as [|[h u] hs IH]; intros o o' hs' E N F.
  - cbn in E. injection E as <- <-. auto.
  - cbn [hand_hits] in E. destruct u; cbn [negb filter snd map fst] in *.
    + pose proof (F h (or_introl eq_refl)) as Hh. assert (Hlt : h < length o) by (apply nth_error_Some; congruence).
      unfold idx in E. rewrite Hh in E. cbn [obind] in E. rewrite Z.eqb_refl in E. cbn [negb] in E.
      rewrite set_idx_ok in E by exact Hlt. cbn [obind] in E. apply obind_inv in E. destruct E as ([o1 hs1] & E1 & E).
      cbn [fst snd] in E. injection E as <- <-. apply NoDup_cons_iff in N. destruct N as [N1 N2].
      apply IH in E1; [|exact N2|].
      * destruct E1 as (-> & L & G). rewrite upd_length in L. split; [reflexivity|]. split; [exact L|].
        intros k. rewrite G, nth_error_upd' by exact Hlt. cbn [existsb]. destruct (k =? h); [|reflexivity].
        destruct (existsb _ _); reflexivity.
      * intros k Hk. rewrite nth_error_upd' by exact Hlt. destruct (k =? h) eqn:Ek; [apply Nat.eqb_eq in Ek; subst; contradiction|].
        apply F. right. exact Hk.
    + apply obind_inv in E. destruct E as ([o1 hs1] & E1 & E). cbn [fst snd] in E. injection E as <- <-.
      apply IH in E1; [|exact N|exact F]. destruct E1 as (-> & L & G). auto.
Qed.

Lemma hand_pts_all old new l o o' l' : hand_pts o old new l = Ok (o', l') -> old <> new ->
  NoDup (U l) -> (forall h, In h (U l) -> nth_error o h = Some old) ->
  l' = map clear_pt l /\ length o' = length o /\
  forall h, nth_error o' h = if existsb (Nat.eqb h) (U l) then Some new else nth_error o h.
Proof.
  intros E Hne. revert o o' l' E. induction l as [|p l IH]; intros o o' l' E N F.
  - cbn in E. injection E as <- <-. auto.
  - cbn [hand_pts] in E. apply obind_inv in E. destruct E as ([o1 h1] & E1 & E). cbn [fst snd] in E.
    apply obind_inv in E. destruct E as ([o2 l2] & E2 & E). cbn [fst snd] in E. injection E as <- <-.
    change (U (p :: l)) with (used_pt p ++ U l) in *. apply nodup_app_iff in N. destruct N as (N1 & N2 & N3).
    apply hand_hits_all in E1; [|exact Hne|exact N1|intros h Hh; apply F, in_or_app; left; exact Hh].
    destruct E1 as (-> & L1 & G1). change (map fst (filter snd (thits p))) with (used_pt p) in G1.
    apply IH in E2; [|exact N2|].
    + destruct E2 as (-> & L2 & G2). split; [reflexivity|]. split; [lia|].
      intros h. rewrite G2, G1, existsb_app. destruct (existsb _ (U l)), (existsb _ (used_pt p)); reflexivity.
    + intros h Hh. rewrite G1. replace (existsb (Nat.eqb h) (used_pt p)) with false; [apply F, in_or_app; right; exact Hh|].
      symmetry. apply memb_false. intros K. exact (N3 h K Hh).
Qed.

Definition chgd (l : list tp) (i : nat) : Prop := exists p, nth_error l i = Some p /\ chg p <> 0%Z.

Lemma charged_ge l a k n n' : charged l (seq a k) n = Ok n' -> n <= 2 ->
  n <= n' <= 3 /\ (n + 1 <= n' -> exists i, a <= i < a + k /\ chgd l i) /\
  (n + 2 <= n' -> exists i j, a <= i < j /\ j < a + k /\ chgd l i /\ chgd l j).
Proof.
  revert a n. induction k as [|k IH]; intros a n E Hn.
  - cbn in E. injection E as <-. split; [lia|]. split; intros; lia.
  - cbn [seq charged] in E. apply obind_inv in E. destruct E as (q & Hq & E). apply idx_inv in Hq. destruct Hq as [_ Hq].
    destruct (0 <? chg q)%Z eqn:Ec.
    + assert (Cq : chgd l a). { exists q. split; [exact Hq|]. apply Z.ltb_lt in Ec. lia. }
      destruct (2 <? S n) eqn:E2.
      * injection E as <-. apply Nat.ltb_lt in E2. split; [lia|]. split; [intros _; exists a; split; [lia|exact Cq]|lia].
      * apply Nat.ltb_ge in E2. apply IH in E; [|lia]. destruct E as (B & H1 & H2). split; [lia|].
        split; [intros _; exists a; split; [lia|exact Cq]|]. intros H. destruct H1 as (j & Hj & Cj); [lia|].
        exists a, j. split; [lia|]. split; [lia|auto].
    + destruct (2 <? n) eqn:E2; [apply Nat.ltb_lt in E2; lia|]. apply IH in E; [|lia]. destruct E as (B & H1 & H2).
      split; [lia|]. split.
      * intros H. destruct (H1 H) as (i & Hi & Ci). exists i. split; [lia|exact Ci].
      * intros H. destruct (H2 H) as (i & j & Hi & Hj & Ci & Cj). exists i, j. split; [lia|]. split; [lia|auto].
Qed.

Lemma clear3_spec l l' : clear3 3 l = Ok l' -> exists a b c r, l = a :: b :: c :: r /\ l' = clear_pt a :: clear_pt b :: clear_pt c :: r.
Proof.
  destruct l as [|a [|b [|c r]]]; cbn; intros E; try discriminate E. injection E as <-. exists a, b, c, r. auto.
Qed.

(** a trajectory that differs from [t] only in its PDG code *)
Definition but_pdg (t : traj) (t' : traj) : Prop := exists c, t' = set_pdg t c.

Section Split.
Variable pdg_of : traj -> Z.

Lemma split_false s i p v s' : split_traj pdg_of s i p v = Ok (false, s') ->
  (forall t, nth_error (tjs s) i = Some t -> p >= 2 -> p <= ep1 t -> ep1 t <= length (pts t)) ->
  (s' = s) \/ (exists t, nth_error (tjs s) i = Some t /\ s' = set_tjs s (upd (tjs s) i (if (pdg t =? 13)%Z then set_pdg t 0%Z else t))).
Proof.
  unfold split_traj. intros E Hlen. destruct (beyond _ _); [injection E as <-; auto|].
  apply obind_inv in E. destruct E as (t & Ht & E). apply idx_inv in Ht. destruct Ht as [_ Ht].
  destruct (_ || _) eqn:E0; [injection E as <-; auto|].
  destruct (match v with Some v0 => beyond (vxs s) v0 | None => false end); [injection E as <-; auto|].
  set (t0 := if (pdg t =? 13)%Z then set_pdg t 0%Z else t) in *.
  assert (Ep : pts t0 = pts t /\ ep1 t0 = ep1 t) by (unfold t0; destruct (pdg t =? 13)%Z; auto). destruct Ep as [Ep Ee].
  right. exists t. split; [exact Ht|]. fold t0.
  apply obind_inv in E. destruct E as (n1 & En1 & E). destruct (n1 <? 3) eqn:E1; [injection E as <-; auto|].
  apply obind_inv in E. destruct E as (n2 & En2 & E). destruct (n2 <? 3) eqn:E2; [injection E as <-; auto|].
  apply obind_inv in E. destruct E as (q & Hq & E). apply obind_inv in E. destruct E as ([o mid] & Er & E).
  destruct ((p <? 2) || _) eqn:E3.
  - exfalso. apply Nat.ltb_ge in E1. apply orb_false_iff in E0. destruct E0 as [_ E0]. apply Nat.ltb_ge in E0.
    unfold range in En1. rewrite Nat.sub_0_r in En1.
    assert (Hp : 2 <= p).
    { destruct (Nat.lt_ge_cases p 2) as [L|L]; [|exact L]. exfalso. clear -En1 E1 L.
      destruct p as [|[|p]]; [| |lia]; cbn in En1.
      - destruct (idx (pts t0) 0) as [a| |]; cbn in En1; [|discriminate En1|discriminate En1].
        destruct (0 <? chg a)%Z; cbn in En1; injection En1 as <-; lia.
      - destruct (idx (pts t0) 0) as [a| |]; cbn in En1; [|discriminate En1|discriminate En1].
        destruct (0 <? chg a)%Z; cbn in En1;
          (destruct (idx (pts t0) 1) as [b| |]; cbn in En1; [|discriminate En1|discriminate En1]);
          destruct (0 <? chg b)%Z; cbn in En1; injection En1 as <-; lia. }
    apply idx_inv in Hq. destruct Hq as [Hq _]. rewrite Ep, Ee in Hq.
    apply orb_true_iff in E3. destruct E3 as [E3|E3]; apply Nat.ltb_lt in E3; [lia|]. rewrite Ep in E3. lia.
  - apply obind_inv in E. destruct E as (np & _ & E). discriminate E.
Qed.

(** everything a successful split does *)
Lemma split_true s i t p v s' : inv s -> nth_error (tjs s) i = Some t -> killed t = false ->
  split_traj pdg_of s i p v = Ok (true, s') ->
  let id := Z.of_nat (length (tjs s) + 1) in
  exists t' n a b c r,
    tjs s' = upd (tjs s) i t' ++ [n] /\ i < length (tjs s) /\ 2 <= p < ep1 t /\ ep0 t < p /\
    tid t' = tid t /\ tid n = id /\ killed t' = false /\ killed n = false /\ wid t' = wid t /\ wid n = wid t /\
    uid t' = uid t /\ uid n = gid s' /\ gid s' = (gid s + 1)%Z /\ vxs s' = vxs s /\
    pts t' = firstn (p + 1) (pts t) ++ map clear_pt (between (pts t) (p + 1) (ep1 t)) ++ skipn (ep1 t + 1) (pts t) /\
    skipn (p - 2) (pts t) = a :: b :: c :: r /\ pts n = clear_pt a :: clear_pt b :: clear_pt c :: r /\
    r = skipn (p + 1) (pts t) /\
    (forall h, nth_error (own s') h = if existsb (Nat.eqb h) (U (skipn (p + 1) (pts t))) then Some id else nth_error (own s) h) /\
    length (own s') = length (own s) /\
    (shower t' = false /\ halo t' = false /\ ep0 t' < ep1 t' /\ ends_of (pts t') (ep0 t') (ep1 t')) /\
    (shower n = false /\ halo n = false /\ ep0 n < ep1 n /\ ends_of (pts n) (ep0 n) (ep1 n)).
Proof.
  intros I Hi Hk E. cbv zeta. unfold split_traj in E.
  assert (Hlt : i < length (tjs s)) by (apply nth_error_Some; congruence).
  pose proof (i_ok s I i t Hi) as ((Es & Eh & W) & Ewid & Elt & En & On & Sm). apply once_nodup in On.
  destruct (beyond _ _); [discriminate E|].
  unfold idx at 1 in E. rewrite Hi in E. cbn [obind] in E.
  destruct (_ || _) eqn:E0; [discriminate E|]. apply orb_false_iff in E0. destruct E0 as [E0 E0'].
  apply Nat.ltb_ge in E0. apply Nat.ltb_ge in E0'.
  destruct (match v with Some v0 => beyond (vxs s) v0 | None => false end); [discriminate E|].
  set (t0 := if (pdg t =? 13)%Z then set_pdg t 0%Z else t) in *.
  assert (Q : pts t0 = pts t /\ ep1 t0 = ep1 t /\ tid t0 = tid t /\ wid t0 = wid t /\ uid t0 = uid t /\ killed t0 = false /\ shower t0 = false /\ halo t0 = false).
  { unfold t0; destruct (pdg t =? 13)%Z; repeat split; assumption. }
  destruct Q as (Ep & Ee & Et & Ew & Eu & Ekk & Ess & Ehh).
  assert (Q : dir t0 = dir t) by (unfold t0; destruct (pdg t =? 13)%Z; reflexivity).
  rewrite Ep, Ee, Et in E.
  apply obind_inv in E. destruct E as (n1 & En1 & E). destruct (n1 <? 3) eqn:E1; [discriminate E|].
  apply obind_inv in E. destruct E as (n2 & En2 & E). destruct (n2 <? 3) eqn:E2; [discriminate E|].
  apply Nat.ltb_ge in E1. apply Nat.ltb_ge in E2.
  apply obind_inv in E. destruct E as (q & Hq & E). apply obind_inv in E. destruct E as ([o mid] & Er & E).
  destruct ((p <? 2) || _) eqn:E3; [discriminate E|]. apply orb_false_iff in E3. destruct E3 as [E3 E3']. apply Nat.ltb_ge in E3.
  apply obind_inv in E. destruct E as (np & Enp & E). injection E as <-. cbn [own tjs vxs pfps gid].
  apply clear3_spec in Enp. destruct Enp as (a & b & c & r & Ea & ->).
  assert (Hr : r = skipn (p + 1) (pts t)).
  { replace (p + 1) with ((p - 2) + 3) by lia. rewrite <- skip2, Ea. reflexivity. }
  assert (Bu : U (skipn (p + 1) (pts t)) = U (between (pts t) (p + 1) (ep1 t))).
  { unfold between. rewrite <- (firstn_skipn (S (ep1 t) - (p + 1)) (skipn (p + 1) (pts t))) at 1. rewrite U_app, skip2.
    replace (p + 1 + (S (ep1 t) - (p + 1))) with (S (ep1 t)) by lia. rewrite (tail_unused _ _ _ W En), app_nil_r. reflexivity. }
  assert (Nb : NoDup (U (skipn (p + 1) (pts t)))).
  { rewrite <- (firstn_skipn (p + 1) (pts t)), U_app in On. apply nodup_app_iff in On. apply On. }
  assert (Hid : tid t = Z.of_nat (i + 1)) by (apply (i_id s I), Hi).
  apply hand_pts_all in Er; [|rewrite Hid; lia|rewrite <- Bu; exact Nb|].
  2:{ intros h Hh. apply (i_used s I i t h Hi Hk). rewrite <- Bu in Hh.
      rewrite <- (firstn_skipn (p + 1) (pts t)), U_app. apply in_or_app. right. exact Hh. }
  destruct Er as (-> & Lo & G). rewrite <- Bu in G.
  set (ptl := firstn (p + 1) (pts t) ++ map clear_pt (between (pts t) (p + 1) (ep1 t)) ++ skipn (ep1 t + 1) (pts t)) in *.
  match goal with |- context [upd (tjs s) i ?x ++ [?y]] => set (t' := x); set (n := y) end.
  exists t', n, a, b, c, r.
  (* the two end-point computations *)
  pose proof (ends_lt _ _ _ En) as EL.
  unfold range in En1, En2. rewrite Nat.sub_0_r in En1. replace (ep1 t + 1 - (p + 1)) with (ep1 t - p) in En2 by lia.
  apply charged_ge in En1; [|lia]. destruct En1 as (_ & _ & En1). destruct En1 as (k1 & k2 & K1 & K2 & C1 & C2); [lia|].
  apply charged_ge in En2; [|lia]. destruct En2 as (_ & _ & En2). destruct En2 as (j1 & j2 & J1 & J2 & D1 & D2); [lia|].
  assert (Ept' : forall k, k <= p -> nth_error ptl k = nth_error (pts t) k).
  { intros k Hkp. unfold ptl. rewrite nth_error_app1.
    - rewrite <- (firstn_skipn (p + 1) (pts t)) at 2. rewrite nth_error_app1; [reflexivity|]. rewrite firstn_length. lia.
    - rewrite firstn_length. lia. }
  set (t1 := set_end_points (set_pts t0 ptl)) in *.
  assert (T1 : ends_of ptl (ep0 t1) (ep1 t1) /\ ep0 t1 < ep1 t1).
  { destruct (set_end_points_spec (set_pts t0 ptl) Ess Ehh) as [H|(H & _)].
    - split; [exact H|]. destruct C1 as (x1 & X1 & Y1), C2 as (x2 & X2 & Y2). destruct H as (_ & _ & H).
      cbn [pts set_pts] in H. fold t1 in H. rewrite <- Ept' in X1, X2 by lia.
      pose proof (H _ _ X1 Y1). pose proof (H _ _ X2 Y2). lia.
    - exfalso. destruct C1 as (x1 & X1 & Y1). apply Y1, H. cbn [pts set_pts]. rewrite <- Ept' in X1 by lia. eapply nth_error_In, X1. }
  assert (F1 : ep0 t' = ep0 t1 /\ ep1 t' = ep1 t1 /\ pts t' = ptl /\ tid t' = tid t /\ killed t' = false /\ wid t' = wid t /\ uid t' = uid t /\ shower t' = false /\ halo t' = false).
  { assert (pts t1 = ptl) by (unfold t1; rewrite sep_pts; reflexivity).
    assert (X : tid t1 = tid t /\ killed t1 = false /\ wid t1 = wid t /\ uid t1 = uid t /\ shower t1 = false /\ halo t1 = false).
    { unfold t1, set_end_points. cbn [shower halo set_pts]. rewrite Ess, Ehh. cbn. repeat split; assumption. }
    destruct X as (X1 & X2 & X3 & X4 & X5 & X6). unfold t', with_vx1.
    destruct (match v with Some v0 => _ | None => None end), (pdg t =? 13)%Z; cbn; repeat split; assumption. }
  clearbody t'. destruct F1 as (F1 & F2 & F3 & F4 & F5 & F6 & F7 & F8 & F9).
  set (nl := clear_pt a :: clear_pt b :: clear_pt c :: r) in *.
  match type of n with _ => unfold n end.
  set (m1 := set_end_points (set_pts (set_ids t0 _ _ _ _) nl)) in *.
  assert (Enl : forall k, p < k -> nth_error nl (k - (p - 2)) = nth_error (pts t) k).
  { intros k Hkp. rewrite <- (firstn_skipn (p - 2) (pts t)). rewrite nth_error_app2; rewrite firstn_length; [|lia].
    rewrite Nat.min_l by lia. rewrite Ea. unfold nl. replace (k - (p - 2)) with (S (S (S (k - (p - 2) - 3)))) by lia. reflexivity. }
  assert (M1 : ends_of nl (ep0 m1) (ep1 m1) /\ ep0 m1 < ep1 m1).
  { destruct (set_end_points_spec (set_pts (set_ids t0 (Z.of_nat (length (tjs s) + 1)) (wid t0) (par t0) (gid s + 1)) nl) Ess Ehh) as [H|(H & _)].
    - split; [exact H|]. destruct D1 as (x1 & X1 & Y1), D2 as (x2 & X2 & Y2). destruct H as (_ & _ & H).
      cbn [pts set_pts] in H. fold m1 in H. rewrite <- Enl in X1, X2 by lia.
      pose proof (H _ _ X1 Y1). pose proof (H _ _ X2 Y2). lia.
    - exfalso. destruct D1 as (x1 & X1 & Y1). apply Y1, H. cbn [pts set_pts]. rewrite <- Enl in X1 by lia. eapply nth_error_In, X1. }
  fold n.
  assert (N1 : ep0 n = ep0 m1 /\ ep1 n = ep1 m1 /\ pts n = nl /\ tid n = Z.of_nat (length (tjs s) + 1) /\ killed n = false /\ wid n = wid t /\ uid n = (gid s + 1)%Z /\ shower n = false /\ halo n = false).
  { assert (pts m1 = nl) by (unfold m1; rewrite sep_pts; reflexivity).
    assert (X : killed m1 = false /\ wid m1 = wid t /\ shower m1 = false /\ halo m1 = false).
    { unfold m1, set_end_points. cbn [shower halo set_pts set_ids]. rewrite Ess, Ehh. cbn. repeat split; assumption. }
    destruct X as (X2 & X3 & X5 & X6). unfold n, with_vx0.
    destruct (match v with Some v0 => _ | None => None end), (pdg t =? 13)%Z; cbn; repeat split; assumption. }
  clearbody n. destruct N1 as (N1 & N2 & N3 & N4 & N5 & N6 & N7 & N8 & N9).
  rewrite F1, F2, F3, N1, N2, N3.
  split; [reflexivity|]. split; [exact Hlt|]. split; [lia|]. split; [lia|]. split; [exact F4|]. split; [exact N4|].
  split; [exact F5|]. split; [exact N5|]. split; [exact F6|]. split; [exact N6|]. split; [exact F7|]. split; [exact N7|].
  split; [reflexivity|]. split; [reflexivity|]. split; [reflexivity|]. split; [exact Ea|]. split; [reflexivity|].
  split; [exact Hr|]. split; [exact G|]. split; [exact Lo|]. split; [|].
  - split; [exact F8|]. split; [exact F9|]. split; [apply T1|apply T1].
  - split; [exact N8|]. split; [exact N9|]. split; [apply M1|apply M1].
Qed.

Lemma wf_clear l : wf (map clear_pt l).
Proof.
  intros p h Hp Hh. exfalso. apply in_map_iff in Hp. destruct Hp as (q & <- & _). apply in_used_pt in Hh. rewrite used_clear in Hh. exact Hh.
Qed.
Lemma wf_app l l' : wf l -> wf l' -> wf (l ++ l').
Proof. intros H H' p h Hp. apply in_app_or in Hp. destruct Hp as [Hp|Hp]; [apply H, Hp|apply H', Hp]. Qed.
Lemma wf_sub l l' : (forall p, In p l' -> In p l) -> wf l -> wf l'.
Proof. intros S W p h Hp. apply W, S, Hp. Qed.
Lemma in_skipn {A} (l : list A) n x : In x (skipn n l) -> In x l.
Proof. intros H. apply In_skipn in H. destruct H as (i & _ & E). eapply nth_error_In, E. Qed.
Lemma in_firstn {A} (l : list A) n x : In x (firstn n l) -> In x l.
Proof. intros H. apply In_firstn in H. destruct H as (i & _ & E). eapply nth_error_In, E. Qed.

Lemma inv_split s i t p v b s' : inv s -> nth_error (tjs s) i = Some t -> killed t = false ->
  split_traj pdg_of s i p v = Ok (b, s') -> inv s'.
Proof.
  intros I Hi Hk E. destruct b.
  - pose proof (i_ok s I i t Hi) as ((Es & Eh & W) & Ewid & Elt & En & On & Sm). apply once_nodup in On.
    apply (split_true s i t p v s' I Hi Hk) in E. cbv zeta in E.
    destruct E as (t' & n & a & b & c & r & T & Hlt & Hp & Hp0 & T1 & T2 & T3 & T4 & T5 & T6 & _ & _ & _ & _ & P1 & P2 & P3 & P4 & G & _ & (Q1 & Q2 & Q3 & Q4) & (R1 & R2 & R3 & R4)).
    set (id := Z.of_nat (length (tjs s) + 1)) in *.
    pose proof (i_id s I i t Hi) as Hid.
    assert (Ut' : U (pts t') = U (firstn (p + 1) (pts t))).
    { rewrite P1, !U_app, U_clear. replace (ep1 t + 1) with (S (ep1 t)) by lia. rewrite (tail_unused _ _ _ W En). cbn. apply app_nil_r. }
    assert (Un : U (pts n) = U (skipn (p + 1) (pts t))).
    { rewrite P3, P4. change (U (clear_pt a :: clear_pt b :: clear_pt c :: skipn (p + 1) (pts t))) with
        (used_pt (clear_pt a) ++ used_pt (clear_pt b) ++ used_pt (clear_pt c) ++ U (skipn (p + 1) (pts t))). rewrite !used_clear. reflexivity. }
    assert (Ut : U (pts t) = U (pts t') ++ U (pts n)).
    { rewrite Ut', Un, <- U_app, firstn_skipn. reflexivity. }
    rewrite <- Un in G.
    rewrite Ut in On. apply nodup_app_iff in On. destruct On as (On1 & On2 & On3).
    assert (Wn : wf (pts n)).
    { rewrite P3. apply (wf_app [clear_pt a; clear_pt b; clear_pt c]); [apply (wf_clear [a; b; c])|].
      rewrite P4. apply (wf_sub (pts t)); [intros x; apply in_skipn|exact W]. }
    assert (Wt : wf (pts t')).
    { rewrite P1. apply wf_app; [apply (wf_sub (pts t)); [intros x; apply in_firstn|exact W]|].
      apply wf_app; [apply wf_clear|]. apply (wf_sub (pts t)); [intros x; apply in_skipn|exact W]. }
    assert (Sc : forall l, (forall x, In x l -> In x (pts t)) -> forall x, In x (map clear_pt l) -> length (thits x) <= 16).
    { intros l Hl x Hx. apply in_map_iff in Hx. destruct Hx as (q & <- & Hq). cbn [clear_pt thits]. rewrite map_length. apply Sm, Hl, Hq. }
    assert (Smn : small_pts n).
    { intros x Hx. rewrite P3 in Hx. apply (in_app_or [clear_pt a; clear_pt b; clear_pt c]) in Hx. destruct Hx as [Hx|Hx].
      - apply (Sc [a; b; c]); [|exact Hx]. intros y Hy. apply (in_skipn (pts t) (p - 2)). rewrite P2.
        destruct Hy as [<-|[<-|[<-|[]]]]; cbn; auto.
      - apply Sm. rewrite P4 in Hx. eapply in_skipn, Hx. }
    assert (Smt : small_pts t').
    { intros x Hx. rewrite P1 in Hx. apply in_app_or in Hx. destruct Hx as [Hx|Hx]; [apply Sm; eapply in_firstn, Hx|].
      apply in_app_or in Hx. destruct Hx as [Hx|Hx]; [|apply Sm; eapply in_skipn, Hx].
      eapply Sc; [|exact Hx]. intros y Hy. unfold between in Hy. eapply in_skipn, in_firstn, Hy. }
    constructor; rewrite ?T.
    + intros j u Hj. rewrite nth_error_snoc, upd_length in Hj. destruct (j =? length (tjs s)) eqn:Ej.
      * apply Nat.eqb_eq in Ej. injection Hj as <-. subst j. exact T2.
      * rewrite nth_error_upd' in Hj by exact Hlt. destruct (j =? i) eqn:Eji; [|apply (i_id s I j u Hj)].
        apply Nat.eqb_eq in Eji. injection Hj as <-. subst j. congruence.
    + intros j u h Hj Hkj Hh. rewrite nth_error_snoc, upd_length in Hj. rewrite G. destruct (j =? length (tjs s)) eqn:Ej.
      * injection Hj as <-. rewrite (proj2 (memb_spec _ _) Hh). congruence.
      * rewrite nth_error_upd' in Hj by exact Hlt. destruct (j =? i) eqn:Eji.
        -- injection Hj as <-. replace (existsb (Nat.eqb h) (U (pts n))) with false by (symmetry; apply memb_false, On3, Hh).
           rewrite T1. apply (i_used s I i t h Hi Hk). rewrite Ut. apply in_or_app. left. exact Hh.
        -- pose proof (i_used s I j u h Hj Hkj Hh) as Hu. replace (existsb (Nat.eqb h) (U (pts n))) with false; [exact Hu|].
           symmetry. apply memb_false. intros K. assert (K2 : In h (U (pts t))) by (rewrite Ut; apply in_or_app; right; exact K).
           pose proof (i_used s I i t h Hi Hk K2) as Hu2. rewrite Hu in Hu2. injection Hu2 as Hu2.
           rewrite (i_id s I j u Hj), Hid in Hu2. apply Nat.eqb_neq in Eji. lia.
    + intros h x Hx Hpx. rewrite G in Hx. destruct (existsb _ _) eqn:Em.
      * injection Hx as <-. apply memb_spec in Em. exists (length (tjs s)), n. rewrite nth_error_snoc, upd_length, Nat.eqb_refl. auto.
      * destruct (i_own s I h x Hx Hpx) as (j & u & Hj & Hkj & Hu & Hh).
        assert (Hjl : j < length (tjs s)) by (apply nth_error_Some; congruence).
        destruct (Nat.eq_dec j i) as [->|Hne].
        -- rewrite Hi in Hj. injection Hj as <-. exists i, t'. rewrite nth_error_snoc, upd_length.
           replace (i =? length (tjs s)) with false by (symmetry; apply Nat.eqb_neq; lia).
           rewrite nth_error_upd', Nat.eqb_refl by exact Hlt. split; [reflexivity|]. split; [exact T3|]. split; [congruence|].
           rewrite Ut in Hh. apply in_app_or in Hh. destruct Hh as [Hh|Hh]; [exact Hh|]. apply memb_false in Em. contradiction.
        -- exists j, u. rewrite nth_error_snoc, upd_length.
           replace (j =? length (tjs s)) with false by (symmetry; apply Nat.eqb_neq; lia).
           rewrite nth_error_upd' by exact Hlt. replace (j =? i) with false by (symmetry; apply Nat.eqb_neq, Hne). auto.
    + intros j u Hj. rewrite nth_error_snoc, upd_length in Hj. destruct (j =? length (tjs s)) eqn:Ej.
      * injection Hj as <-. split; [split; [exact R1|split; [exact R2|exact Wn]]|]. rewrite T6. split; [exact Ewid|]. split; [exact R3|]. split; [exact R4|].
        split; [apply once_nodup, On2|exact Smn].
      * rewrite nth_error_upd' in Hj by exact Hlt. destruct (j =? i) eqn:Eji; [|apply (i_ok s I j u Hj)].
        injection Hj as <-. split; [split; [exact Q1|split; [exact Q2|exact Wt]]|]. rewrite T5. split; [exact Ewid|]. split; [exact Q3|]. split; [exact Q4|].
        split; [apply once_nodup, On1|exact Smt].
  - apply split_false in E.
    + destruct E as [->|(t0 & Hi0 & ->)]; [exact I|]. rewrite Hi in Hi0. injection Hi0 as <-.
      assert (Hlt : i < length (tjs s)) by (apply nth_error_Some; congruence).
      set (t0 := if (pdg t =? 13)%Z then set_pdg t 0%Z else t).
      assert (Q : pts t0 = pts t /\ tid t0 = tid t /\ killed t0 = killed t /\ (stored_ok t -> stored_ok t0)).
      { unfold t0. destruct (pdg t =? 13)%Z; split; auto. }
      destruct Q as (Q1 & Q2 & Q3 & Q4).
      constructor; cbn [tjs own set_tjs].
      * intros j u Hj. rewrite nth_error_upd' in Hj by exact Hlt. destruct (j =? i) eqn:Eji; [|apply (i_id s I j u Hj)].
        apply Nat.eqb_eq in Eji. injection Hj as <-. subst j. rewrite Q2. apply (i_id s I i t Hi).
      * intros j u h Hj Hkj Hh. rewrite nth_error_upd' in Hj by exact Hlt. destruct (j =? i) eqn:Eji; [|apply (i_used s I j u h Hj Hkj Hh)].
        injection Hj as <-. rewrite Q2. apply (i_used s I i t h Hi Hk). congruence.
      * intros h x Hx Hp. destruct (i_own s I h x Hx Hp) as (j & u & Hj & Hkj & Hu & Hh).
        destruct (Nat.eq_dec j i) as [->|Hne].
        -- rewrite Hi in Hj. injection Hj as <-. exists i, t0. rewrite nth_error_upd', Nat.eqb_refl by exact Hlt.
           split; [reflexivity|]. rewrite Q1, Q2, Q3. auto.
        -- exists j, u. rewrite nth_error_upd' by exact Hlt. replace (j =? i) with false by (symmetry; apply Nat.eqb_neq, Hne). auto.
      * intros j u Hj. rewrite nth_error_upd' in Hj by exact Hlt. destruct (j =? i) eqn:Eji; [|apply (i_ok s I j u Hj)].
        injection Hj as <-. apply Q4, (i_ok s I i t Hi).
    + intros t0 Hi0 _ _. rewrite Hi in Hi0. injection Hi0 as <-.
      pose proof (i_ok s I i t Hi) as (_ & _ & _ & En & _). apply ends_lt in En. lia.
Qed.
End Split.
