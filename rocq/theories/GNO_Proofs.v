(** The hits are organised by snippet. *)
From Coq Require Import QArith Qcanon Lqa.
From Verif Require Import Base QcUtil Solver_Model Solver_Proofs GNO_Model GNO_Spec.
Import GNO_Model GNO_Spec.
Local Open Scope nat_scope.

Lemma for_ok {S} (P : S -> Prop) l (body : S -> nat -> outcome S) s s' :
  for_ l body s = Ok s' -> P s -> (forall i a b, In i l -> P a -> body a i = Ok b -> P b) ->
  P s' /\ forall i, In i l -> exists a b, P a /\ body a i = Ok b.
Proof.
  revert s; induction l as [|i l IH]; intros s H HP HS; cbn [for_] in H.
  - injection H as <-. split; [exact HP|]. intros i [].
  - destruct (body s i) as [a| |] eqn:Eb; cbn [obind] in H; try discriminate H.
    assert (Pa : P a) by (eapply HS; [left; reflexivity|exact HP|exact Eb]).
    destruct (IH a H Pa) as [P' A]. { intros j x y Hj. apply HS. right. exact Hj. }
    split; [exact P'|]. intros j [<- | Hj]; [exists s, a; auto|exact (A j Hj)].
Qed.

Lemma ss_app {A} (R : A -> A -> Prop) a b :
  StronglySorted R (a ++ b) <-> StronglySorted R a /\ StronglySorted R b /\ forall x y, In x a -> In y b -> R x y.
Proof.
  induction a as [|x a IH]; cbn [app].
  - split; [intros H; split; [constructor|split; [exact H|intros x y []]]|intros (_ & H & _); exact H].
  - split.
    + intros H. apply StronglySorted_inv in H. destruct H as [H F]. apply IH in H. destruct H as (H1 & H2 & H3).
      rewrite Forall_app in F. destruct F as [F1 F2]. split; [constructor; auto|]. split; [exact H2|].
      intros u v [<- | Hu] Hv; [rewrite Forall_forall in F2; auto|auto].
    + intros (H1 & H2 & H3). apply StronglySorted_inv in H1. destruct H1 as [H1 F]. constructor.
      * apply IH. split; [exact H1|]. split; [exact H2|]. intros u v Hu Hv. apply H3; [right; exact Hu|exact Hv].
      * apply Forall_app. split; [exact F|]. apply Forall_forall. intros v Hv. apply H3; [left; reflexivity|exact Hv].
Qed.

Lemma upd_mid {A} (a b : list A) x y : upd (a ++ x :: b) (length a) y = a ++ y :: b.
Proof. induction a as [|z a IH]; cbn; [reflexivity|rewrite IH; reflexivity]. Qed.
Lemma nth_mid {A} (a b : list A) x : nth_error (a ++ x :: b) (length a) = Some x.
Proof. induction a; cbn; auto. Qed.

Lemma ident_eq_spec a b : ident_eq a b = true <-> i_start a = i_start b /\ i_end a = i_end b /\ i_wire a = i_wire b.
Proof. unfold ident_eq. rewrite !andb_true_iff, !Z.eqb_eq. tauto. Qed.
Lemma ident_eq_sym a b : ident_eq a b = ident_eq b a.
Proof. destruct (ident_eq a b) eqn:A, (ident_eq b a) eqn:B; try reflexivity; [apply ident_eq_spec in A; symmetry; rewrite <- B; apply ident_eq_spec; intuition congruence|apply ident_eq_spec in B; rewrite <- A; apply ident_eq_spec; intuition congruence]. Qed.
Lemma ident_eq_left a b c : ident_eq a b = true -> ident_eq a c = ident_eq b c.
Proof. intros A. apply ident_eq_spec in A. unfold ident_eq. destruct A as (-> & -> & ->). reflexivity. Qed.
Lemma ident_eq_right a b c : ident_eq a b = true -> ident_eq c a = ident_eq c b.
Proof. intros A. rewrite (ident_eq_sym c a), (ident_eq_sym c b). apply ident_eq_left. exact A. Qed.
Lemma ident_eq_refl a : ident_eq a a = true.
Proof. apply ident_eq_spec. auto. Qed.

Lemma search_spec x ids : forall pre,
  (exists a y b, ids = a ++ y :: b /\ ident_eq x y = true /\ (forall z, In z a -> ident_eq x z = false) /\
     search (pre ++ ids) x (seq (length pre) (length ids)) = Ok (Some (length pre + length a)))
  \/ ((forall z, In z ids -> ident_eq x z = false) /\ search (pre ++ ids) x (seq (length pre) (length ids)) = Ok None).
Proof.
  induction ids as [|y ids IH]; intros pre.
  - right. split; [intros z []|reflexivity].
  - cbn [length seq search]. unfold idx at 1. rewrite nth_mid. cbn [obind].
    destruct (ident_eq x y) eqn:Exy.
    + left. exists [], y, ids. split; [reflexivity|]. split; [exact Exy|]. split; [intros z []|]. cbn. rewrite Nat.add_0_r. reflexivity.
    + specialize (IH (pre ++ [y])). rewrite app_length in IH. cbn [length] in IH. rewrite Nat.add_1_r in IH. rewrite <- app_assoc in IH. cbn [app] in IH.
      unfold idx. rewrite nth_mid. cbn [obind]. rewrite Exy.
      destruct IH as [(a & y' & b & -> & E1 & E2 & E3) | [E1 E2]].
      * left. exists (y :: a), y', b. split; [reflexivity|]. split; [exact E1|]. split; [intros z [<- | Hz]; auto|]. rewrite E3. cbn [length]. do 2 f_equal. lia.
      * right. split; [intros z [<- | Hz]; auto|exact E2].
Qed.

Section Snippets.
Variables (e : env) (hs : hits) (t : track).
Definition hid (i : nat) : ident := match nth_error hs i with Some x => ident_of (fst x) | None => Id 0 0 0 0 end.
Definition lst (p i : nat) : bool := match nth_error hs i with Some x => (h_plane (fst x) =? p) && valid t (snd x) | None => false end.

Lemma lst_listed p i : lst p i = true <-> listed hs t p i.
Proof.
  unfold lst, listed, valid. destruct (nth_error hs i) as [[h m]|]; cbn [fst snd].
  - rewrite andb_true_iff, Nat.eqb_eq. destruct (Z.eqb_spec m 2147483647).
    + split; [intros [_ X]; discriminate X|]. intros (h' & m' & X & _ & D & _). injection X as -> ->. contradiction.
    + split; [intros [A B]; exists h, m; auto|]. intros (h' & m' & X & A & _ & B). injection X as -> ->. auto.
  - split; [discriminate|]. intros (h' & m' & X & _). discriminate X.
Qed.
Lemma hid_integral i : i_integral (hid i) = integral hs i.
Proof. unfold hid, integral. destruct (nth_error hs i) as [[h m]|]; reflexivity. Qed.
Lemma hid_same p i j : lst p i = true -> lst p j = true -> (ident_eq (hid i) (hid j) = true <-> same_snippet hs i j).
Proof.
  intros A B. rewrite ident_eq_spec. unfold hid, same_snippet, lst in *. destruct (nth_error hs i) as [[h m]|]; [|discriminate A]. destruct (nth_error hs j) as [[h' m']|]; [|discriminate B].
  cbn. split.
  - intros (X & Y & Z). exists h, m, h', m'. auto.
  - intros (a & b & c & d & X & Y & Z1 & Z2 & Z3). injection X as -> ->. injection Y as -> ->. auto.
Qed.

Definition good_entry (o : org) : Prop :=
  forall i, In i (members o) -> ident_eq (hid i) (hid (fst o)) = true /\ ((integral hs i < integral hs (fst o))%Qc \/ (integral hs i = integral hs (fst o) /\ fst o <= i)).
Definition apart (a b : org) : Prop :=
  ident_eq (hid (fst a)) (hid (fst b)) = false /\ exists i, In i (members a) /\ forall j, In j (members b) -> i < j.
Definition inv (p n : nat) (os : list org) (ids : list ident) : Prop :=
  ids = map (fun o => hid (fst o)) os /\ Permutation (flat_map members os) (filter (lst p) (seq 0 n)) /\ Forall good_entry os /\ StronglySorted apart os.

Lemma inv_lt p n os ids o i : inv p n os ids -> In o os -> In i (members o) -> i < n /\ lst p i = true.
Proof.
  intros (_ & P & _) Ho Hi. assert (X : In i (flat_map members os)) by (apply in_flat_map; exists o; auto).
  apply (Permutation_in _ P) in X. apply filter_In in X. rewrite in_seq in X. split; [lia|tauto].
Qed.

Lemma step_inv p n os ids :
  inv p n os ids -> lst p n = true -> exists os' ids', snip_step os ids n (hid n) = Ok (os', ids') /\ inv p (S n) os' ids'.
Proof.
  intros HI L. pose proof HI as (Eids & P & G & A). unfold snip_step, range. rewrite Nat.sub_0_r.
  assert (PS : filter (lst p) (seq 0 (S n)) = filter (lst p) (seq 0 n) ++ [n]).
  { rewrite seq_S, filter_app. cbn [filter plus]. rewrite L. reflexivity. }
  assert (Eseq : seq 0 (length os) = seq 0 (length ids)) by (rewrite Eids, map_length; reflexivity).
  destruct (search_spec (hid n) ids []) as [(a & y & b & Hids & E1 & E2 & E3) | [E1 E2]]; cbn [app length plus] in *.
  - rewrite Eseq, E3. cbn [obind].
    assert (exists pre o post, os = pre ++ o :: post /\ a = map (fun o => hid (fst o)) pre /\ y = hid (fst o) /\ b = map (fun o => hid (fst o)) post) as (pre & o & post & -> & -> & -> & ->).
    { rewrite Hids in Eids. symmetry in Eids. apply map_eq_app in Eids. destruct Eids as (l1 & l2 & -> & <- & X). destruct l2 as [|o l2]; [discriminate X|]. injection X as <- <-. exists l1, o, l2. auto. }
    rewrite map_length. rewrite map_app in Eids. cbn [map] in Eids.
    unfold idx at 1. rewrite nth_mid. cbn [obind].
    assert (Nids : nth_error ids (length pre) = Some (hid (fst o))).
    { rewrite Eids. rewrite <- (map_length (fun o : org => hid (fst o)) pre). apply nth_mid. }
    unfold idx. match goal with |- context [nth_error ids ?k] => replace (nth_error ids k) with (Some (hid (fst o))) by (symmetry; exact Nids) end. cbn [obind].
    assert (Lpre : length pre < length (pre ++ o :: post)) by (rewrite app_length; cbn; lia).
    assert (Lids : length pre < length ids) by (rewrite Eids, app_length, map_length; cbn; lia).
    apply Forall_app in G. destruct G as [G1 G2]. apply Forall_cons_iff in G2. destruct G2 as [Go G2].
    apply ss_app in A. destruct A as (A1 & A2 & A3). apply StronglySorted_inv in A2. destruct A2 as [A2 A4]. rewrite Forall_forall in A4.
    assert (Hlt : forall o' i, In o' (pre ++ o :: post) -> In i (members o') -> i < n) by (intros o' i X Y; exact (proj1 (inv_lt _ _ _ _ _ _ HI X Y))).
    (* common part: replacing o by o' whose members are those of o and n, with an equivalent leader *)
    assert (Common : forall o', Permutation (members o') (members o ++ [n]) -> ident_eq (hid (fst o')) (hid (fst o)) = true -> good_entry o' ->
      inv p (S n) (pre ++ o' :: post) (map (fun o => hid (fst o)) (pre ++ o' :: post))).
    { intros o' PM EQ GO'. split; [reflexivity|]. split; [|split].
      - rewrite PS. rewrite <- P. rewrite !flat_map_app. cbn [flat_map]. rewrite PM. rewrite <- !app_assoc. apply Permutation_app_head. apply Permutation_app_head. apply Permutation_app_comm.
      - apply Forall_app. split; [exact G1|]. constructor; [exact GO'|exact G2].
      - apply ss_app. split; [exact A1|]. split.
        + constructor; [exact A2|]. apply Forall_forall. intros z Hz. destruct (A4 z Hz) as [B1 (i & B2 & B3)]. split.
          * rewrite (ident_eq_left _ _ _ EQ). exact B1.
          * exists i. split; [|exact B3]. apply (Permutation_in i (Permutation_sym PM)). apply in_or_app. left. exact B2.
        + intros x z Hx [<- | Hz].
          * destruct (A3 x o Hx (or_introl eq_refl)) as [B1 (i & B2 & B3)]. split.
            -- rewrite (ident_eq_right _ _ _ EQ). exact B1.
            -- exists i. split; [exact B2|]. intros j Hj. apply (Permutation_in j PM) in Hj. apply in_app_or in Hj. destruct Hj as [Hj | [<- | [] ] ]; [exact (B3 j Hj)|].
               apply (Hlt x i); [apply in_or_app; left; exact Hx|exact B2].
          * apply A3; [exact Hx|right; exact Hz]. }
    destruct (ident_gt (hid n) (hid (fst o))) eqn:Egt.
    + rewrite (set_idx_ok _ _ _ Lpre). cbn [obind]. rewrite (set_idx_ok _ _ _ Lids). cbn [obind]. rewrite upd_mid.
      eexists _, _. split; [reflexivity|].
      assert (X : upd ids (length pre) (hid n) = map (fun o => hid (fst o)) (pre ++ (n, snd o ++ [fst o]) :: post)).
      { rewrite map_app. cbn [map fst]. rewrite Eids. rewrite <- (map_length (fun o : org => hid (fst o)) pre) at 1. apply upd_mid. }
      rewrite X. apply Common.
      * unfold members. cbn [fst snd]. transitivity (n :: fst o :: snd o); [apply perm_skip; symmetry; apply Permutation_cons_append|apply Permutation_cons_append].
      * cbn [fst]. exact E1.
      * unfold ident_gt in Egt. apply qc_lt_spec in Egt. rewrite !hid_integral in Egt.
        intros i Hi. cbn [fst]. unfold members in Hi. cbn [fst snd] in Hi. destruct Hi as [<- | Hi].
        -- split; [apply ident_eq_refl|]. right. split; [reflexivity|lia].
        -- apply in_app_or in Hi. assert (Hi' : In i (members o)) by (unfold members; destruct Hi as [Hi | [<- | [] ] ]; [right; exact Hi|left; reflexivity]).
           destruct (Go i Hi') as [B1 B2]. split; [rewrite (ident_eq_left _ _ _ B1); rewrite ident_eq_sym; exact E1|].
           left. destruct B2 as [B2 | [B2 _] ]; [eapply Qclt_trans; eassumption|rewrite B2; exact Egt].
    + rewrite (set_idx_ok _ _ _ Lpre). cbn [obind]. rewrite upd_mid.
      eexists _, _. split; [reflexivity|].
      assert (X : ids = map (fun o => hid (fst o)) (pre ++ (fst o, snd o ++ [n]) :: post)).
      { rewrite map_app. cbn [map fst]. exact Eids. }
      rewrite X. apply Common.
      * unfold members. cbn [fst snd app]. reflexivity.
      * cbn [fst]. apply ident_eq_refl.
      * unfold ident_gt in Egt. apply qc_lt_false in Egt. rewrite !hid_integral in Egt.
        intros i Hi. cbn [fst]. unfold members in Hi. cbn [fst snd] in Hi. destruct Hi as [<- | Hi].
        -- split; [apply ident_eq_refl|]. right. split; [reflexivity|lia].
        -- apply in_app_or in Hi. destruct Hi as [Hi | [<- | [] ] ]; [apply Go; right; exact Hi|].
           split; [exact E1|]. apply Qcle_lt_or_eq in Egt. destruct Egt as [Egt | Egt]; [left; exact Egt|right]. split; [exact Egt|].
           assert (fst o < n); [|lia]. apply (Hlt o); [apply in_or_app; right; left; reflexivity|left; reflexivity].
  - rewrite Eseq, E2. cbn [obind]. eexists _, _. split; [reflexivity|]. split; [rewrite map_app; rewrite Eids; reflexivity|]. split; [|split].
    + rewrite PS, flat_map_app. cbn. apply Permutation_app_tail. exact P.
    + apply Forall_app. split; [exact G|]. constructor; [|constructor]. intros i [<- | [] ]. cbn [fst]. split; [apply ident_eq_refl|right; split; [reflexivity|lia] ].
    + apply ss_app. split; [exact A|]. split; [constructor; [constructor|constructor]|]. intros x z Hx [<- | [] ]. cbn [fst]. split.
      * rewrite ident_eq_sym. apply E1. rewrite Eids. apply in_map_iff. exists x. auto.
      * exists (fst x). split; [left; reflexivity|]. intros j [<- | [] ]. cbn [fst]. apply (inv_lt _ _ _ _ x (fst x) HI Hx). left. reflexivity.
Qed.

Lemma nth_upd_rep {A} (l : list A) i v k d : i < length l -> nth k (upd l i v) d = if k =? i then v else nth k l d.
Proof. intros H. rewrite nth_upd. replace (i <? length l) with true by (symmetry; apply Nat.ltb_lt; exact H). rewrite andb_true_r. reflexivity. Qed.

Lemma lst_other p i x : nth_error hs i = Some x -> lst p i = true -> h_plane (fst x) = p /\ valid t (snd x) = true.
Proof. unfold lst. intros ->. rewrite andb_true_iff, Nat.eqb_eq. auto. Qed.

Lemma inv_skip p n os ids : inv p n os ids -> lst p n = false -> inv p (S n) os ids.
Proof. intros (A & B & C) L. split; [exact A|]. split; [|exact C]. rewrite seq_S, filter_app. cbn [filter plus]. rewrite L, app_nil_r. exact B. Qed.

Lemma snippets_total : (forall p i, lst p i = true -> p < e_np e) ->
  exists ret, snippets e hs t = Ok ret /\ length ret = e_np e /\ forall p, p < e_np e -> exists ids, inv p (length hs) (nth p ret []) ids.
Proof.
  intros HL. unfold snippets, range. rewrite Nat.sub_0_r.
  set (P := fun (n : nat) (s : list (list org) * list (list ident)) => length (fst s) = e_np e /\ length (snd s) = e_np e /\ forall p, p < e_np e -> inv p n (nth p (fst s) []) (nth p (snd s) [])).
  match goal with |- context [for_ _ ?b ?s0] => destruct (for_seq_inv P b 0 (length hs) s0) as (s & Es & HP) end.
  - unfold P. cbn [fst snd]. rewrite !repeat_length. split; [reflexivity|]. split; [reflexivity|]. intros p Hp.
    assert (R : forall A, nth p (repeat (@nil A) (e_np e)) [] = []) by (intros A; clear; generalize (e_np e); induction p; intros [|k]; cbn; auto).
    rewrite !R. split; [reflexivity|]. split; [constructor|]. split; constructor.
  - intros i s Hi (L1 & L2 & HI). unfold idx at 1. destruct (nth_error hs i) as [x|] eqn:Ex; [|apply nth_error_None in Ex; lia]. cbn [obind].
    assert (Hh : hid i = ident_of (fst x)) by (unfold hid; rewrite Ex; reflexivity).
    destruct (valid t (snd x)) eqn:Ev.
    + assert (Lp : lst (h_plane (fst x)) i = true) by (unfold lst; rewrite Ex, Ev, Nat.eqb_refl; reflexivity).
      pose proof (HL _ _ Lp) as Hp. rewrite (idx_ok (fst s) (h_plane (fst x)) []) by lia. cbn [obind]. rewrite (idx_ok (snd s) (h_plane (fst x)) []) by lia. cbn [obind].
      destruct (step_inv _ _ _ _ (HI _ Hp) Lp) as (os' & ids' & Estep & Hnew). rewrite <- Hh, Estep. cbn [obind fst snd].
      rewrite !set_idx_ok by lia. cbn [obind]. eexists. split; [reflexivity|]. unfold P. cbn [fst snd]. rewrite !upd_length. split; [exact L1|]. split; [exact L2|].
      intros p Hp'. rewrite !nth_upd_rep by lia. destruct (Nat.eqb_spec p (h_plane (fst x))) as [D | D]; [rewrite D; exact Hnew|].
      apply inv_skip; [apply HI; exact Hp'|]. destruct (lst p i) eqn:Z; [|reflexivity]. destruct (lst_other _ _ _ Ex Z) as [Z1 _]. congruence.
    + exists s. split; [reflexivity|]. split; [exact L1|]. split; [exact L2|]. intros p Hp. apply inv_skip; [apply HI; exact Hp|].
      destruct (lst p i) eqn:Z; [|reflexivity]. destruct (lst_other _ _ _ Ex Z) as [_ Z1]. congruence.
  - match goal with |- context [for_ ?l ?b ?s0] => replace (for_ l b s0) with (Ok s) by (symmetry; exact Es) end. cbn [obind].
    destruct HP as (H1 & H2 & H3). exists (fst s). split; [reflexivity|]. split; [exact H1|]. intros p Hp. eexists. apply H3. exact Hp.
Qed.

Lemma snippets_range ret : snippets e hs t = Ok ret -> forall p i, lst p i = true -> p < e_np e.
Proof.
  intros H p i L. unfold snippets in H.
  match type of H with obind (for_ ?l ?b ?s0) _ = _ => destruct (for_ l b s0) as [s| |] eqn:Es; try discriminate H;
    destruct (for_ok (fun s => length (fst s) = e_np e) l b s0 s Es) as [_ HA] end.
  - cbn [fst]. apply repeat_length.
  - intros j a b _ La Eb. destruct (idx hs j) as [x| |]; cbn [obind] in Eb; try discriminate Eb. destruct (valid t (snd x)); [|injection Eb as <-; exact La].
    destruct (idx (fst a) (h_plane (fst x))) as [l| |]; cbn [obind] in Eb; try discriminate Eb.
    destruct (idx (snd a) (h_plane (fst x))) as [ids| |]; cbn [obind] in Eb; try discriminate Eb.
    destruct (snip_step l ids j (ident_of (fst x))) as [r| |]; cbn [obind] in Eb; try discriminate Eb.
    unfold set_idx in Eb. destruct (h_plane (fst x) <? length (fst a)); cbn [obind] in Eb; try discriminate Eb.
    destruct (h_plane (fst x) <? length (snd a)); cbn [obind] in Eb; try discriminate Eb. injection Eb as <-. cbn [fst]. rewrite upd_length. exact La.
  - unfold lst in L. destruct (nth_error hs i) as [x|] eqn:Ex; [|discriminate L]. apply andb_true_iff in L. destruct L as [L1 L2]. apply Nat.eqb_eq in L1.
    destruct (HA i) as (a & b & La & Eb). { apply in_range. split; [lia|]. apply nth_error_Some. congruence. }
    unfold idx in Eb at 1. rewrite Ex in Eb. cbn [obind] in Eb. rewrite L2 in Eb. rewrite L1 in Eb. destruct (idx (fst a) p) as [l| |] eqn:El; cbn [obind] in Eb; try discriminate Eb.
    apply idx_inv in El. lia.
Qed.

Lemma individual_total : (forall p i, lst p i = true -> p < e_np e) ->
  exists ret, individual e hs t = Ok ret /\ length ret = e_np e /\ forall p, p < e_np e -> nth p ret [] = map (fun i => (i, [])) (filter (lst p) (seq 0 (length hs))).
Proof.
  intros HL. unfold individual, range. rewrite Nat.sub_0_r.
  set (P := fun (n : nat) (s : list (list org)) => length s = e_np e /\ forall p, p < e_np e -> nth p s [] = map (fun i => (i, [])) (filter (lst p) (seq 0 n))).
  match goal with |- context [for_ _ ?b ?s0] => destruct (for_seq_inv P b 0 (length hs) s0) as (s & Es & HP) end.
  - split; [apply repeat_length|]. intros p Hp. cbn. clear. generalize (e_np e). induction p; intros [|k]; cbn; auto.
  - intros i s Hi (L1 & HI). unfold idx at 1. destruct (nth_error hs i) as [x|] eqn:Ex; [|apply nth_error_None in Ex; lia]. cbn [obind].
    assert (Sk : forall p, lst p i = false -> filter (lst p) (seq 0 (S i)) = filter (lst p) (seq 0 i)).
    { intros p Z. rewrite seq_S, filter_app. cbn [filter plus]. rewrite Z. apply app_nil_r. }
    destruct (valid t (snd x)) eqn:Ev.
    + assert (Lp : lst (h_plane (fst x)) i = true) by (unfold lst; rewrite Ex, Ev, Nat.eqb_refl; reflexivity).
      pose proof (HL _ _ Lp) as Hp. match goal with |- context [idx s ?k] => replace (idx s k) with (Ok (nth k s [])) by (symmetry; apply idx_ok; lia) end. cbn [obind]. rewrite set_idx_ok by lia. eexists. split; [reflexivity|].
      split; [rewrite upd_length; exact L1|]. intros p Hp'. rewrite nth_upd_rep by lia. destruct (Nat.eqb_spec p (h_plane (fst x))) as [D | D].
      * rewrite D, HI by exact Hp. rewrite seq_S, filter_app. cbn [filter plus]. rewrite Lp, map_app. reflexivity.
      * rewrite Sk; [apply HI; exact Hp'|]. destruct (lst p i) eqn:Z; [|reflexivity]. destruct (lst_other _ _ _ Ex Z) as [Z1 _]. congruence.
    + exists s. split; [reflexivity|]. split; [exact L1|]. intros p Hp. rewrite Sk; [apply HI; exact Hp|].
      destruct (lst p i) eqn:Z; [|reflexivity]. destruct (lst_other _ _ _ Ex Z) as [_ Z1]. congruence.
  - exists s. split; [exact Es|exact HP].
Qed.

Lemma individual_range ret : individual e hs t = Ok ret -> forall p i, lst p i = true -> p < e_np e.
Proof.
  intros H p i L. unfold individual in H.
  destruct (for_ok (fun s => length s = e_np e) _ _ _ _ H) as [_ HA].
  - apply repeat_length.
  - intros j a b _ La Eb. destruct (idx hs j) as [x| |]; cbn [obind] in Eb; try discriminate Eb. destruct (valid t (snd x)); [|injection Eb as <-; exact La].
    destruct (idx a (h_plane (fst x))) as [l| |]; cbn [obind] in Eb; try discriminate Eb.
    unfold set_idx in Eb. destruct (h_plane (fst x) <? length a); try discriminate Eb. injection Eb as <-. rewrite upd_length. exact La.
  - unfold lst in L. destruct (nth_error hs i) as [x|] eqn:Ex; [|discriminate L]. apply andb_true_iff in L. destruct L as [L1 L2]. apply Nat.eqb_eq in L1.
    destruct (HA i) as (a & b & La & Eb). { apply in_range. split; [lia|]. apply nth_error_Some. congruence. }
    unfold idx in Eb at 1. rewrite Ex in Eb. cbn [obind] in Eb. rewrite L2 in Eb. rewrite L1 in Eb. destruct (idx a p) as [l| |] eqn:El; cbn [obind] in Eb; try discriminate Eb.
    apply idx_inv in El. lia.
Qed.

Lemma individual_undef : ~ (forall p i, lst p i = true -> p < e_np e) -> individual e hs t = Undef.
Proof.
  intros N. destruct (individual e hs t) as [r|ex|] eqn:Er; [exfalso; apply N; exact (individual_range r Er)| |reflexivity].
  exfalso. unfold individual in Er. revert Er. generalize (repeat (@nil org) (e_np e)). generalize (range 0 (length hs)) as l.
  induction l as [|i l IH]; intros s Er; cbn [for_] in Er; [discriminate Er|].
  match type of Er with obind ?b _ = _ => destruct b as [s'| |] eqn:Eb end; cbn [obind] in Er; [exact (IH _ Er)| |discriminate Er].
  unfold idx, set_idx in Eb. destruct (nth_error hs i) as [x|]; cbn [obind] in Eb; [|discriminate Eb]. destruct (valid t (snd x)); [|discriminate Eb].
  destruct (nth_error s (h_plane (fst x))); cbn [obind] in Eb; [|discriminate Eb]. destruct (h_plane (fst x) <? length s); discriminate Eb.
Qed.
Lemma search_nothrow ids x js ex : search ids x js <> Throw ex.
Proof. induction js as [|j js IH]; cbn; [discriminate|]. unfold idx. destruct (nth_error ids j); cbn; [|discriminate]. destruct (ident_eq x i); [discriminate|exact IH]. Qed.
Lemma step_nothrow os ids i x ex : snip_step os ids i x <> Throw ex.
Proof.
  unfold snip_step. destruct (search ids x (range 0 (length os))) as [r|e1|] eqn:Es; cbn [obind]; [|exfalso; exact (search_nothrow _ _ _ _ Es)|discriminate].
  destruct r as [j|]; [|discriminate]. unfold idx, set_idx. destruct (nth_error os j); cbn [obind]; [|discriminate]. destruct (nth_error ids j); cbn [obind]; [|discriminate].
  destruct (ident_gt x i0); destruct (j <? length os); cbn [obind]; try discriminate. destruct (j <? length ids); cbn [obind]; discriminate.
Qed.
Lemma snippets_undef : ~ (forall p i, lst p i = true -> p < e_np e) -> snippets e hs t = Undef.
Proof.
  intros N. destruct (snippets e hs t) as [r|ex|] eqn:Er; [exfalso; apply N; exact (snippets_range r Er)| |reflexivity].
  exfalso. unfold snippets in Er. revert Er. generalize (repeat (@nil org) (e_np e), repeat (@nil ident) (e_np e)). generalize (range 0 (length hs)) as l.
  induction l as [|i l IH]; intros s Er; cbn [for_] in Er; [discriminate Er|].
  match type of Er with obind (obind ?b _) _ = _ => destruct b as [s'| |] eqn:Eb end; cbn [obind] in Er; [exact (IH _ Er)| |discriminate Er].
  unfold idx, set_idx in Eb. destruct (nth_error hs i) as [x|]; cbn [obind] in Eb; [|discriminate Eb]. destruct (valid t (snd x)); [|discriminate Eb].
  destruct (nth_error (fst s) (h_plane (fst x))) as [os|]; cbn [obind] in Eb; [|discriminate Eb]. destruct (nth_error (snd s) (h_plane (fst x))) as [ids|]; cbn [obind] in Eb; [|discriminate Eb].
  destruct (snip_step os ids i (ident_of (fst x))) as [r|e1|] eqn:Est; cbn [obind] in Eb; [|exact (step_nothrow _ _ _ _ _ Est)|discriminate Eb].
  destruct (h_plane (fst x) <? length (fst s)); cbn [obind] in Eb; [|discriminate Eb]. destruct (h_plane (fst x) <? length (snd s)); cbn [obind] in Eb; discriminate Eb.
Qed.
End Snippets.
