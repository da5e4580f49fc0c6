From Verif Require Import Base Util SortedObj_Model PT_Model PT_Spec PT_Proofs.

Section O.
Context (w : world) (Hw : wf w).
Notation h := (w_heap w).

Lemma parent_prev t T n o : w_trk w t = Some T -> nth_error (t_nodes T) 0 = Some n -> h n = Some o -> match o_prev o with Some s => branch_of w (w_par w s) t | None => forall p, ~ branch_of w p t end.
Proof using Hw.
  intros ET En Eo. destruct (node_live w Hw t T 0 n ET En) as (o' & Eo' & Hb). assert (o' = o) by congruence. subst o'. assert (P := prev_none_or w Hw n o Eo Hb). destruct (o_prev o) as [s|] eqn:Ep.
  - destruct P as (T' & i & E1 & E2 & E3). split.
    + intros X. rewrite X in E1. assert (T' = T) by congruence. subst T'. destruct (track_len w Hw t T ET) as (Nd & _ & _). rewrite NoDup_nth_error in Nd. assert (S i = 0); [|discriminate]. apply Nd; [apply nth_error_Some; congruence|congruence].
    + exists T', T, n. repeat (split; [assumption|]). split; [apply tl_nth; eauto|rewrite hd_nth; exact En].
  - intros p (Hne & Tp & T' & m & E1 & E2 & Hin & Hd). assert (T' = T) by congruence. subst T'. rewrite hd_nth in Hd. assert (m = n) by congruence. subst m. apply tl_nth in Hin. destruct Hin as (i & Ei). destruct (prev_seg w Hw p Tp i n o E1 Ei Eo) as (s & X & _). congruence.
Qed.
Lemma parent_unique p p' t : branch_of w p t -> branch_of w p' t -> p = p'.
Proof using Hw.
  intros (Hne & Tp & T & n & E1 & E2 & Hin & Hd) (Hne' & Tp' & T' & n' & E1' & E2' & Hin' & Hd'). assert (T' = T) by congruence. subst T'. assert (n' = n) by congruence. subst n'.
  apply tl_nth in Hin, Hin'. destruct Hin as (i & Ei), Hin' as (i' & Ei'). destruct (node_live w Hw p Tp _ n E1 Ei) as (o & Eo & _). destruct (prev_seg w Hw p Tp i n o E1 Ei Eo) as (s & X & Y & _). destruct (prev_seg w Hw p' Tp' i' n o E1' Ei' Eo) as (s' & X' & Y' & _). congruence.
Qed.
Lemma below_last r t : below w r t -> r = t \/ exists p, below w r p /\ branch_of w p t.
Proof. intros H. apply clos_rt_rtn1 in H. destruct H as [|y z Hyz Hxy]; [left; reflexivity|right]. exists y. split; [apply clos_rtn1_rt; exact Hxy|exact Hyz]. Qed.
Lemma root_unique : forall r t, below w r t -> (forall p, ~ branch_of w p r) -> forall r', below w r' t -> (forall p, ~ branch_of w p r') -> r = r'.
Proof using Hw.
  intros r t H. apply clos_rt_rtn1 in H. induction H as [|y z Hyz _ IH]; intros Hr r' H' Hr'.
  - apply below_last in H'. destruct H' as [->|(p & _ & Hp)]; [reflexivity|exfalso; exact (Hr p Hp)].
  - apply below_last in H'. destruct H' as [->|(p & Hp1 & Hp2)]; [exfalso; exact (Hr' y Hyz)|]. apply IH; [exact Hr| |exact Hr']. rewrite (parent_unique y p z Hyz Hp2). exact Hp1.
Qed.
Lemma origin_unique t n n' : origin w t n -> origin w t n' -> n = n'.
Proof using Hw.
  intros (r & A1 & (T & A2 & A3) & A4) (r' & B1 & (T' & B2 & B3) & B4). assert (r = r') by exact (root_unique r t A1 A4 r' B1 B4). subst r'. congruence.
Qed.
Lemma origin_below t u n : origin w t n -> below w t u -> origin w u n.
Proof. intros (r & A & B & C) H. exists r. split; [eapply rt_trans; [exact A|exact H]|auto]. Qed.

Context (depth : nat -> nat) (Hdepth : forall t t', branch_of w t t' -> depth t < depth t').
Lemma get_root_ok : forall fuel t T, w_trk w t = Some T -> depth t < fuel -> exists r n, get_root fuel w t = Ok r /\ below w r t /\ starts_at w r n /\ (forall p, ~ branch_of w p r).
Proof using Hw Hdepth.
  induction fuel as [|f IH]; intros t T ET Hf; [lia|]. cbn [get_root]. unfold deref_t. rewrite ET. cbn [obind]. destruct (track_len w Hw t T ET) as (Nd & L2 & Ln). destruct (t_nodes T) as [|n ns] eqn:En; [cbn in L2; lia|].
  assert (E0 : nth_error (t_nodes T) 0 = Some n) by (rewrite En; reflexivity). destruct (node_live w Hw t T 0 n ET E0) as (o & Eo & Hb). rewrite (prev_ok w n o Eo). cbn [obind]. assert (P := parent_prev t T n o ET E0 Eo). destruct (o_prev o) as [s|].
  - assert (D := Hdepth _ _ P). destruct P as (Hne & Tp & P). destruct (IH (w_par w s) Tp) as (r & m & R1 & R2 & R3 & R4); [destruct P as (? & ? & ? & _); assumption|lia|]. exists r, m. split; [exact R1|]. split; [|auto]. eapply rt_trans; [exact R2|apply rt_step]. split; [exact Hne|exists Tp; exact P].
  - exists t, n. split; [reflexivity|]. split; [apply rt_refl|]. split; [exists T; split; [exact ET|rewrite hd_nth; exact E0]|exact P].
Qed.
Lemma origin_exists t T : w_trk w t = Some T -> exists n, origin w t n.
Proof using Hw Hdepth. intros E. destruct (get_root_ok (S (depth t)) t T E (le_n _)) as (r & n & _ & A & B & C). exists n, r. auto. Qed.
(** the tracks reached from the start of a tree are those of the tree *)
Lemma tree_of_root r n : starts_at w r n -> (forall p, ~ branch_of w p r) -> forall u, (exists t', leads_from w t' n /\ below w t' u) <-> origin w u n.
Proof using Hw.
  intros (R & ER & En) Hr u. rewrite hd_nth in En. destruct (node_live w Hw r R 0 n ER En) as (o & Eo & Hb). assert (P := parent_prev r R n o ER En Eo). destruct (o_prev o) as [s|] eqn:Ep; [exfalso; exact (Hr _ P)|]. split.
  - intros (t' & (T' & ET' & Hin) & Hu). apply removelast_nth in Hin. destruct Hin as (i & Hi & Ei). destruct i as [|i].
    + exists t'. split; [exact Hu|]. split; [exists T'; split; [exact ET'|rewrite hd_nth; exact Ei]|]. assert (P' := parent_prev t' T' n o ET' Ei Eo). rewrite Ep in P'. exact P'.
    + exfalso. destruct (prev_seg w Hw t' T' i n o ET' Ei Eo) as (s & X & _). congruence.
  - intros (t' & A & (T' & ET' & Ed) & _). exists t'. split; [|exact A]. exists T'. split; [exact ET'|]. apply removelast_nth. exists 0. rewrite hd_nth in Ed. split; [destruct (track_len w Hw t' T' ET'); lia|exact Ed].
Qed.
End O.

Section Ids.
Context (w : world) (Hw : wf w) (cs0 : list cand) (Hc0 : holds w cs0).
Record inv (k : nat) (st : list cand * Z) : Prop := mkInv {
  v_trk : Forall2 (fun c c' => exists z, c' = set_tree c z /\ (c_trk c = None -> z = (-1)%Z)) cs0 (fst st);
  v_rng : forall c t, In c (fst st) -> c_trk c = Some t -> (c_tree c = -1 \/ 0 <= c_tree c < snd st)%Z;
  v_eq : forall i j ci cj ti tj ni nj, nth_error (fst st) i = Some ci -> nth_error (fst st) j = Some cj -> c_trk ci = Some ti -> c_trk cj = Some tj -> origin w ti ni -> origin w tj nj -> (0 <= c_tree ci)%Z -> (c_tree ci = c_tree cj <-> ni = nj);
  v_used : forall z, (0 <= z < snd st)%Z -> exists c t, In c (fst st) /\ c_trk c = Some t /\ c_tree c = z;
  v_done : forall i c t, i < k -> nth_error (fst st) i = Some c -> c_trk c = Some t -> (0 <= c_tree c)%Z;
  v_id : (0 <= snd st)%Z }.
Lemma trks_of' (l l' : list cand) : Forall2 (fun c c' => exists z, c' = set_tree c z /\ (c_trk c = None -> z = (-1)%Z)) l l' -> map c_trk l' = map c_trk l.
Proof. intros F. induction F as [|c c' l l' (z & -> & _) _ IH]; cbn; [reflexivity|]. f_equal. exact IH. Qed.
Lemma nth_F2 {A B} (R : A -> B -> Prop) l l' i y : Forall2 R l l' -> nth_error l' i = Some y -> exists x, nth_error l i = Some x /\ R x y.
Proof. intros F. revert i. induction F as [|a b l l' Hab _ IH]; intros [|i] E; try discriminate; [injection E as <-; exists a; split; [reflexivity|exact Hab]|]. apply IH. exact E. Qed.
Lemma ids_ok : exists f, forall fuel, f <= fuel -> exists cs' n, set_tree_ids fuel w cs0 = Ok (cs', n) /\ inv (length cs0) (cs', n).
Proof using Hw Hc0.
  destruct (wf_tree _ Hw) as (depth & Hd). destruct (fuel_exists w cs0 depth Hc0) as (L & M & HL). exists (S (S (L + M))). intros fuel Hf. unfold set_tree_ids. rewrite map_length.
  assert (I0 : inv 0 (map (fun c => set_tree c (-1)) cs0, 0%Z)).
  { split; cbn [fst snd].
    - clear. induction cs0; constructor; [eexists; split; [reflexivity|auto]|assumption].
    - intros c t Hin _. apply in_map_iff in Hin. destruct Hin as (x & <- & _). left. reflexivity.
    - intros i j ci cj ti tj ni nj Hi. rewrite nth_error_map in Hi. destruct (nth_error cs0 i); [|discriminate]. injection Hi as <-. cbn. intros. lia.
    - intros z Hz. lia.
    - intros; lia.
    - lia. }
  unfold range. rewrite Nat.sub_0_r. destruct (for_seq_inv inv (fun st k => do c <- idx (fst st) k;
    if negb (valid c) || (0 <=? c_tree c)%Z then Ok st
    else do r <- match c_trk c with Some t => get_root fuel w t | None => Undef end;
      do cs1 <- match cand_index (fst st) (Some r) with Some k' => set_tree_id fuel w (snd st) (fst st) k' true | None => Ok (fst st) end;
      Ok (cs1, (snd st + 1)%Z)) 0 (length cs0) (map (fun c => set_tree c (-1)) cs0, 0%Z) I0) as ((cs' & n) & E & Hi); [|exists cs', n; split; [exact E|exact Hi]].
  intros k (cs & id) Hk Hi. cbn [fst snd]. assert (HT := trks_of' _ _ (v_trk _ _ Hi)). cbn [fst] in HT. assert (Hc : holds w cs) by exact (holds_trks w cs0 cs HT Hc0).
  assert (Len : length cs = length cs0) by (rewrite <- (map_length c_trk cs), HT, map_length; reflexivity).
  destruct (nth_error cs k) as [c|] eqn:Ek; [|apply nth_error_None in Ek; lia]. unfold idx. rewrite Ek. cbn [obind].
  destruct (valid c) eqn:Ev; cbn [negb orb].
  2:{ exists (cs, id). split; [reflexivity|]. destruct Hi as [V1 V2 V3 V4 V5 V6]. split; auto. intros i c' t Hik Ei Et. destruct (Nat.eq_dec i k) as [->|Hne]; [|apply (V5 i c' t); auto; lia]. cbn [fst] in Ei. assert (c' = c) by congruence. subst c'. unfold valid in Ev. rewrite Et in Ev. discriminate. }
  destruct (Z.leb_spec 0 (c_tree c)) as [Hz|Hz].
  { exists (cs, id). split; [reflexivity|]. destruct Hi as [V1 V2 V3 V4 V5 V6]. split; auto. intros i c' t Hik Ei Et. destruct (Nat.eq_dec i k) as [->|Hne]; [|apply (V5 i c' t); auto; lia]. cbn [fst] in Ei. assert (c' = c) by congruence. subst c'. exact Hz. }
  unfold valid in Ev. destruct (c_trk c) as [t|] eqn:Et; [|discriminate]. destruct (w_trk w t) as [T|] eqn:ET; [|exfalso; destruct Hc as (_ & X & _); exact (X c t (nth_error_In _ _ Ek) Et ET)].
  destruct (get_root_ok w Hw depth Hd fuel t T ET) as (r & n & R1 & R2 & R3 & R4); [destruct (HL t T ET); lia|]. rewrite R1. cbn [obind].
  destruct (proj1 Hc r) with (T := match w_trk w r with Some R => R | None => T end) as (cr & X1 & X2); [destruct R3 as (R & ER & _); rewrite ER; reflexivity|].
  destruct (cand_index_some cs r (ex_intro _ cr (conj X1 X2))) as (k' & ck & K1 & K2 & K3). rewrite K1.
  destruct (root_ok w Hw id depth Hd L M HL fuel cs k' ck r n Hc K2 K3 Hf R3) as (cs1 & E1 & RL). rewrite E1. cbn [obind]. exists (cs1, (id + 1)%Z). split; [reflexivity|].
  assert (RL' : relabelled (fun u => origin w u n) id cs cs1) by (revert RL; apply relabelled_ext; intros u; exact (tree_of_root w Hw r n R3 R4 u)). clear RL.
  assert (Ot : origin w t n) by (exists r; auto).
  assert (B : forall i c', nth_error cs1 i = Some c' -> exists c0, nth_error cs i = Some c0 /\ c_trk c' = c_trk c0 /\ (c' = c0 \/ c' = set_tree c0 id /\ exists t, c_trk c0 = Some t /\ origin w t n) /\ (forall t, c_trk c0 = Some t -> origin w t n -> c' = set_tree c0 id)).
  { intros i c' Ei. destruct (nth_error cs i) as [c0|] eqn:Ec; [|exfalso; apply nth_error_None in Ec; assert (i < length cs1) by (apply nth_error_Some; congruence); rewrite (relabelled_len _ _ _ _ RL') in *; lia].
    destruct (relabelled_nth _ _ _ _ i c0 RL' Ec) as (c'' & Y1 & Y2 & Y3 & Y4). assert (c'' = c') by congruence. subst c''. exists c0. auto. }
  destruct Hi as [V1 V2 V3 V4 V5 V6]. cbn [fst snd] in *.
  (* labelled candidates have another origin: candidate k has origin n and no label *)
  assert (Fresh : forall i ci ti, nth_error cs i = Some ci -> c_trk ci = Some ti -> origin w ti n -> (c_tree ci = -1)%Z).
  { intros i ci ti Ei Eti Oi. destruct (V2 ci ti (nth_error_In _ _ Ei) Eti) as [X|X]; [exact X|]. assert (Y := proj2 (V3 i k ci c ti t n n Ei Ek Eti Et Oi Ot (proj1 X)) eq_refl). lia. }
  split; cbn [fst snd].
  - revert V1 RL'. unfold relabelled. apply (F2_trans (fun c c' => exists z, c' = set_tree c z /\ (c_trk c = None -> z = (-1)%Z))). intros a b d (z & -> & Hzz) (Y & _). destruct Y as [->|[-> (u & U1 & _)]]; [eauto|]. exists id. split; [reflexivity|]. intros X. cbn in U1. congruence.
  - intros c' t' Hin Et'. apply In_nth_error in Hin. destruct Hin as (i & Ei). destruct (B i c' Ei) as (c0 & Y1 & Y2 & Y3 & Y4). destruct Y3 as [->|[-> _]]; [|right; cbn; lia]. destruct (V2 c0 t' (nth_error_In _ _ Y1) Et'); [left; assumption|right; lia].
  - intros i j ci cj ti tj ni nj Ei Ej Eti Etj Oi Oj Hlab. destruct (B i ci Ei) as (di & Y1 & Y2 & Y3 & Y4). destruct (B j cj Ej) as (dj & Z1 & Z2 & Z3 & Z4). rewrite Y2 in Eti. rewrite Z2 in Etj.
    destruct (Nat.eq_dec ni n) as [->|Hni].
    + rewrite (Y4 ti Eti Oi). cbn. destruct (Nat.eq_dec nj n) as [->|Hnj]; [rewrite (Z4 tj Etj Oj); cbn; tauto|]. split; [|congruence]. intros X. exfalso. destruct Z3 as [->|[_ (u & U1 & U2)]]; [destruct (V2 dj tj (nth_error_In _ _ Z1) Etj); lia|]. rewrite U1 in Etj. injection Etj as ->. apply Hnj. exact (origin_unique w Hw tj nj n Oj U2).
    + assert (Y3' : ci = di). { destruct Y3 as [->|[_ (u & U1 & U2)]]; [reflexivity|]. exfalso. rewrite U1 in Eti. injection Eti as ->. apply Hni. exact (origin_unique w Hw ti ni n Oi U2). } subst di.
      destruct (Nat.eq_dec nj n) as [->|Hnj].
      * rewrite (Z4 tj Etj Oj). cbn. split; [|congruence]. intros X. exfalso. destruct (V2 ci ti (nth_error_In _ _ Y1) Eti); lia.
      * assert (Z3' : cj = dj). { destruct Z3 as [->|[_ (u & U1 & U2)]]; [reflexivity|]. exfalso. rewrite U1 in Etj. injection Etj as ->. apply Hnj. exact (origin_unique w Hw tj nj n Oj U2). } subst dj.
        exact (V3 i j ci cj ti tj ni nj Y1 Z1 Eti Etj Oi Oj Hlab).
  - intros z Hz'. destruct (Z.eq_dec z id) as [->|Hne].
    + destruct (relabelled_nth _ _ _ _ k c RL' Ek) as (c' & Y1 & Y2 & Y3 & Y4). exists c', t. split; [eapply nth_error_In; exact Y1|]. split; [congruence|]. rewrite (Y4 t Et Ot). reflexivity.
    + destruct (V4 z ltac:(lia)) as (c' & t' & U1 & U2 & U3). apply In_nth_error in U1. destruct U1 as (i & Ei). destruct (relabelled_nth _ _ _ _ i c' RL' Ei) as (c'' & Y1 & Y2 & Y3 & Y4). exists c'', t'. split; [eapply nth_error_In; exact Y1|]. split; [congruence|].
      destruct Y3 as [->|[_ (u & W1 & W2)]]; [exact U3|]. exfalso. assert (X := Fresh i c' u Ei W1 W2). lia.
  - intros i c' t' Hik Ei Et'. destruct (B i c' Ei) as (c0 & Y1 & Y2 & Y3 & Y4). rewrite Y2 in Et'. destruct (Nat.eq_dec i k) as [->|Hne].
    + assert (c0 = c) by congruence. subst c0. rewrite (Y4 t Et Ot). cbn. exact V6.
    + assert (X := V5 i c0 t' ltac:(lia) Y1 Et'). destruct Y3 as [->|[-> _]]; [exact X|cbn; exact V6].
  - lia.
Qed.
End Ids.
