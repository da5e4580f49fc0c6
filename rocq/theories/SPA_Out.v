(** the points handed back: plain copies, the best of each last hit *)
From Coq Require Import QArith Qcanon.
From Verif Require Import Base SortUtil Solver_Model Solver_Proofs SPS_Model SPA_Model SPA_Spec SPA_Fit SPA_Runs SPA_Loop SPA_Ids SPA_Make CMComb_Proofs TJ_Proofs.
Import SPA_Model SPA_Ids.
Import SPA_Model SPA_Ids.
Local Open Scope nat_scope.

Definition hit_eqd : forall a b : hit, {a = b} + {a <> b}.
Proof. intros a b. decide equality; try apply Qc_eq_dec; try apply Nat.eq_dec. decide equality. Defined.
Definition hits_eqd : forall a b : list hit, {a = b} + {a <> b} := list_eq_dec hit_eqd.

(* ---------------------------------------------------------------- counting *)
Lemma counts_app {A} (P : A -> Prop) l1 l2 n1 n2 : counts P l1 n1 -> counts P l2 n2 -> counts P (l1 ++ l2) (n1 + n2).
Proof. intros C1 C2. induction C1; cbn [app Nat.add]; [exact C2|constructor; assumption|constructor; assumption]. Qed.
Lemma counts_perm {A} (P : A -> Prop) l l' : Permutation l l' -> forall n, counts P l n -> counts P l' n.
Proof.
  induction 1 as [|x l l' _ IH|x y l|l l' l'' _ IH1 _ IH2]; intros n C; [exact C| | |auto].
  - inversion C; subst; constructor; auto.
  - inversion C as [|? ? ? X1 C1|? ? ? X1 C1]; subst; inversion C1; subst; repeat constructor; assumption.
Qed.
Lemma counts_ext {A} (P Q : A -> Prop) l n : (forall x, In x l -> (P x <-> Q x)) -> counts P l n -> counts Q l n.
Proof.
  intros E C. induction C as [|x l n X C IH|x l n X C IH]; [constructor| |].
  - constructor; [apply E; [left; reflexivity|exact X]|]. apply IH. intros y Y. apply E. right; exact Y.
  - apply cno; [intros Q'; apply X, E; [left; reflexivity|exact Q']|]. apply IH. intros y Y. apply E. right; exact Y.
Qed.
Lemma counts_map {A B} (f : A -> B) (P : B -> Prop) l n : counts (fun x => P (f x)) l n -> counts P (map f l) n.
Proof. induction 1; cbn [map]; constructor; assumption. Qed.
Lemma counts_zero {A} (P : A -> Prop) l : (forall x, In x l -> ~ P x) -> counts P l 0.
Proof. induction l as [|x l IH]; intros N; [constructor|]. apply cno; [apply N; left; reflexivity|]. apply IH. intros y Y. apply N. right; exact Y. Qed.
Lemma counts_eq {A} (d : forall a b : A, {a = b} + {a <> b}) l x : counts (fun y => y = x) l (count_occ d l x).
Proof. induction l as [|y l IH]; cbn; [constructor|]. destruct (d y x) as [E|N]; constructor; assumption. Qed.
(** an element counted once in the last lists *)
Lemma counts_tail {A T} (P : A -> Prop) (f : T -> list A) : forall (snaps : list T) k, k <= length snaps ->
  (forall i s, nth_error snaps i = Some s -> counts P (f s) (if k <=? i then 1 else 0)) -> counts P (flat_map f snaps) (length snaps - k).
Proof.
  induction snaps as [|s snaps IH]; intros k L H; cbn [flat_map length]; [constructor|].
  destruct k as [|k].
  - replace (S (length snaps) - 0) with (1 + (length snaps - 0)) by lia. apply counts_app; [exact (H 0 s eq_refl)|]. apply (IH 0); [lia|]. intros i s' N. exact (H (S i) s' N).
  - cbn [Nat.sub]. replace (length snaps - k) with (0 + (length snaps - k)) by lia. cbn [length] in L. apply counts_app; [exact (H 0 s eq_refl)|]. apply (IH k); [lia|]. intros i s' N. exact (H (S i) s' N).
Qed.

(* ---------------------------------------------------------------- the lists of combinations *)
Lemma visited_fst_nodup shape k vis : visited shape k vis -> NoDup (map fst vis).
Proof.
  intros V. destruct (visited_planes _ _ _ V) as (E & _). rewrite E. apply nodup_flat; [apply seq_NoDup| |].
  - intros cr _. apply nodup_map_inj; [intros x y [= ->]; reflexivity|apply seq_NoDup].
  - intros x y z _ _ A B. apply in_map_iff in A as (u & <- & _). apply in_map_iff in B as (v & E' & _). congruence.
Qed.
Lemma does_at g c hits v w hs h : does g c hits v w -> In hs (both w) -> In h hs -> hcryo h = fst (fst v) /\ htpc h = snd (fst v) /\ In h hits.
Proof.
  intros D I J. apply in_app_or in I as [I|I].
  - apply (d_two _ _ _ _ _ D) in I as (_ & _ & i & j & p & q & a & b & _ & _ & _ & -> & Ha & (_ & A1 & A2 & _) & Hb & (_ & B1 & B2 & _) & _). destruct J as [<-|[<-|[]]]; auto.
  - apply (d_three _ _ _ _ _ D) in I as (_ & _ & p & q & r & a & b & d & _ & _ & _ & -> & Ha & (_ & A1 & A2 & _) & Hb & (_ & B1 & B2 & _) & Hd & (_ & D1 & D2 & _) & _). destruct J as [<-|[<-|[<-|[]]]]; auto.
Qed.
Lemma both_nodup g c hits v w : does g c hits v w -> NoDup (both w).
Proof. intros D. unfold both. destruct (d_one _ _ _ _ _ D) as [E|E]; rewrite E; [cbn; apply (d_nd3 _ _ _ _ _ D)|rewrite app_nil_r; apply (d_nd2 _ _ _ _ _ D)]. Qed.
Lemma sane_hd w hs : sane w -> In hs (both w) -> exists h, In h hs.
Proof. intros (S & _) I. specialize (S hs I). destruct hs as [|h r]; [cbn in S; lia|]. exists h. left; reflexivity. Qed.
Lemma all_nodup g c hits : forall vis L, NoDup (map fst vis) -> Forall2 (does g c hits) vis L -> NoDup (flat_map both L).
Proof.
  intros vis L N F. induction F as [|v w vis L D F IH]; [constructor|]. cbn [map flat_map] in *. apply NoDup_cons_iff in N as (N1 & N2).
  apply CMComb_Proofs.NoDup_app_intro; [exact (both_nodup _ _ _ _ _ D)|apply IH; exact N2|].
  intros hs I J. apply in_flat_map in J as (w' & W & J). destruct (sane_hd w hs (does_sane _ _ _ _ _ D) I) as (h & Hh).
  apply In_nth_error in W as (k & Hk). clear IH. revert k Hk. induction F as [|v2 w2' vis L D2 F IH]; intros k Hk; [destruct k; discriminate|].
  destruct k as [|k]; cbn [nth_error] in Hk.
  - injection Hk as ->. apply N1. cbn [map]. left. destruct (does_at _ _ _ _ _ hs h D I Hh) as (A & B & _). destruct (does_at _ _ _ _ _ hs h D2 J Hh) as (A' & B' & _).
    destruct v as [[x1 x2] x3], v2 as [[y1 y2] y3]. cbn in *. congruence.
  - apply (IH) with k; [intros X; apply N1; right; exact X|inversion N2; assumption|exact Hk].
Qed.
Lemma does_combos g c hits v w : does g c hits v w -> combinations g c hits v (both w).
Proof.
  intros D. exists (w_ord w). split; [exact (d_ord _ _ _ _ _ D)|]. split; [exact (both_nodup _ _ _ _ _ D)|]. intros hs. unfold both. rewrite in_app_iff, (d_two _ _ _ _ _ D), (d_three _ _ _ _ _ D). reflexivity.
Qed.
Lemma F2_combos g c hits vis L : Forall2 (does g c hits) vis L -> Forall2 (combinations g c hits) vis (map both L).
Proof. induction 1; cbn [map]; constructor; [apply does_combos; assumption|assumption]. Qed.
Lemma len_two g c hits v w hs : does g c hits v w -> In hs (both w) -> (length hs = 2 <-> In hs (w2 w)) /\ (length hs = 3 <-> In hs (w3 w)).
Proof.
  intros D I.
  assert (A : In hs (w2 w) -> length hs = 2) by (intros X; apply (d_two _ _ _ _ _ D) in X as (_ & _ & i & j & p & q & a & b & _ & _ & _ & -> & _); reflexivity).
  assert (B : In hs (w3 w) -> length hs = 3) by (intros X; apply (d_three _ _ _ _ _ D) in X as (_ & _ & p & q & r & a & b & d & _ & _ & _ & -> & _); reflexivity).
  apply in_app_or in I as [I|I].
  - specialize (A I). split; split; intros X; try assumption; try lia; specialize (B X); lia.
  - specialize (B I). split; split; intros X; try assumption; try lia; specialize (A X); lia.
Qed.
Lemma F2_nth {A B} (R : A -> B -> Prop) l l' : Forall2 R l l' -> forall i y, nth_error l' i = Some y -> exists x, nth_error l i = Some x /\ R x y.
Proof. induction 1 as [|x y l l' r F IH]; intros [|i] z N; try discriminate; cbn in *; [injection N as <-; eauto|apply IH; exact N]. Qed.
Lemma late_eq g c hits vis L : Forall2 (does g c hits) vis L -> (late L false <-> late_triplet (map both L)).
Proof.
  intros F. split.
  - intros (j & w & Hj & N3 & [X|(i & w' & Li & Hi & N2)]); [discriminate|]. destruct (w3 w) as [|hs' r3] eqn:E3; [congruence|]. destruct (w2 w') as [|hs r2] eqn:E2; [congruence|].
    destruct (F2_nth _ _ _ F _ _ Hj) as (v & _ & D). destruct (F2_nth _ _ _ F _ _ Hi) as (v' & _ & D').
    assert (I3 : In hs' (both w)) by (apply in_or_app; right; rewrite E3; left; reflexivity). assert (I2 : In hs (both w')) by (apply in_or_app; left; rewrite E2; left; reflexivity).
    exists i, j, (both w'), (both w), hs, hs'. split; [exact Li|]. rewrite !nth_error_map, Hi, Hj. repeat (split; [first [reflexivity|assumption]|]).
    split; [apply (len_two _ _ _ _ _ _ D' I2); rewrite E2; left; reflexivity|]. split; [exact I3|]. apply (len_two _ _ _ _ _ _ D I3). rewrite E3. left; reflexivity.
  - intros (i & j & C & C' & hs & hs' & Lij & Hi & Hj & I & L2 & I' & L3). rewrite nth_error_map in Hi, Hj.
    destruct (nth_error L i) as [w'|] eqn:Ei; [|discriminate]. destruct (nth_error L j) as [w|] eqn:Ej; [|discriminate]. injection Hi as <-. injection Hj as <-.
    destruct (F2_nth _ _ _ F _ _ Ej) as (v & _ & D). destruct (F2_nth _ _ _ F _ _ Ei) as (v' & _ & D').
    apply (len_two _ _ _ _ _ _ D' I) in L2. apply (len_two _ _ _ _ _ _ D I') in L3.
    exists j, w. split; [exact Ej|]. split; [intros X; rewrite X in L3; destruct L3|]. right. exists i, w'. split; [exact Lij|]. split; [exact Ei|]. intros X. rewrite X in L2. destruct L2.
Qed.

(* ---------------------------------------------------------------- a triplet after a pair *)
Section throw.
Context (g : geo) (c : cfg) (fin : st -> list sp).
Hypothesis Fin : forall D s, inv g D s -> finish g c s = Ok (St (s_map s) (s_mm s) (s_keys s) (s_out s ++ fin s)).
Lemma steps_throw : forall L D s seen, inv g D s -> ids seen s -> (forall w, In w L -> sane w) -> late L seen -> foreach L (step g c) s = Throw UserExn.
Proof.
  induction L as [|w L IH]; intros D s seen I B Sa La; cbn [foreach].
  - destruct La as (j & w & Hj & _). destruct j; discriminate.
  - destruct (Sa w (or_introl eq_refl)) as (S1 & S2).
    destruct (adds2 g (w2 w) D s seen I B) as (s1 & E1 & I1 & O1 & B1); [intros hs H; apply S1, in_or_app; left; exact H|].
    unfold step at 1. rewrite E1. cbn [obind].
    destruct (w3 w) as [|hs r] eqn:E3.
    + cbn [foreach obind]. rewrite (Fin _ _ I1). cbn [obind].
      apply (IH (D ++ w2 w) _ (seen || negb (length (w2 w) =? 0))).
      * apply (inv_out g _ s1); [exact I1|reflexivity|reflexivity|reflexivity].
      * apply (ids_out _ s1); [exact B1|reflexivity|reflexivity].
      * intros x X. apply Sa. right; exact X.
      * destruct La as ([|j] & w' & Hj & H3 & H); cbn [nth_error] in Hj; [injection Hj as <-; congruence|]. exists j, w'. split; [exact Hj|]. split; [exact H3|].
        destruct H as [H|(i & w'' & Li & Hi & H)]; [left; rewrite H; reflexivity|]. destruct i as [|i]; cbn [nth_error] in Hi.
        -- injection Hi as <-. left. apply orb_true_iff. right. destruct (w2 w); [congruence|reflexivity].
        -- right. exists i, w''. split; [lia|]. auto.
    + destruct S2 as [S2|S2]; [|congruence]. rewrite S2 in *. cbn [length Nat.eqb negb] in B1. rewrite orb_false_r in B1. rewrite app_nil_r in I1. destruct seen.
      * rewrite adds3_throw; [reflexivity|exact B1|discriminate].
      * destruct (adds3 g (hs :: r) D s1 I1 B1) as (s2 & E2 & I2 & O2 & B2); [intros x X; apply S1; cbn [app]; exact X|]. rewrite E2. cbn [obind]. rewrite (Fin _ _ I2). cbn [obind].
        apply (IH (D ++ hs :: r) _ false).
        -- apply (inv_out g _ s2); [exact I2|reflexivity|reflexivity|reflexivity].
        -- apply (ids_out _ s2); [exact B2|reflexivity|reflexivity].
        -- intros x X. apply Sa. right; exact X.
        -- destruct La as ([|j] & w' & Hj & H3 & [H|(i & w'' & Li & Hi & H)]); cbn [nth_error] in Hj; [discriminate|lia|discriminate|].
           exists j, w'. split; [exact Hj|]. split; [exact H3|]. right. destruct i as [|i]; cbn [nth_error] in Hi; [injection Hi as <-; congruence|]. exists i, w''. split; [lia|]. auto.
Qed.
End throw.

Lemma inv0 g : inv g [] s0.
Proof. constructor; cbn; try constructor; tauto. Qed.
Lemma ids0 : ids false s0.
Proof. unfold ids. cbn. tauto. Qed.

(* ---------------------------------------------------------------- no filter, no merge *)
Definition fin_copy (s : st) : list sp := map snd (s_mm s).
Lemma copy_fin g c : filt c = false -> merge c = false -> forall D s, inv g D s -> finish g c s = Ok (St (s_map s) (s_mm s) (s_keys s) (s_out s ++ fin_copy s)).
Proof. intros F M D s _. unfold finish. rewrite F, M. reflexivity. Qed.

Lemma hits_of_simple g m id hs hs' : single m -> In (id, hs) m -> (hits_of m (simple_point g hs id) hs' <-> hs = hs').
Proof.
  intros S I. unfold hits_of. change (sp_id (simple_point g hs id)) with id. split; [|intros <-; exact I]. intros J.
  apply mfind_some in I; [|exact S]. apply mfind_some in J; [|exact S]. congruence.
Qed.
Lemma copy_counts g D s m : inv g D s -> single m -> (exists m2, m = m2 ++ s_map s) -> NoDup D -> forall hs, counts (fun p => hits_of m p hs) (fin_copy s) (if in_dec hits_eqd hs D then 1 else 0).
Proof.
  intros I S (m2 & Em) N hs. unfold fin_copy.
  apply (counts_perm _ (map snd (map (entry g) (s_map s)))); [apply Permutation_map, Permutation_sym, (i_mm g D s I)|]. rewrite map_map. cbn [entry snd].
  apply counts_map. apply (counts_ext (fun e => snd e = hs)).
  - intros [id h'] E. cbn [fst snd]. rewrite (hits_of_simple g m id h' hs S); [reflexivity|]. rewrite Em. apply in_or_app. right; exact E.
  - assert (X : counts (fun y => y = hs) (map snd (s_map s)) (count_occ hits_eqd (rev D) hs)) by (rewrite <- (i_hits g D s I); apply counts_eq).
    replace (if in_dec hits_eqd hs D then 1 else 0) with (count_occ hits_eqd (rev D) hs).
    + clear -X. remember (map snd (s_map s)) as l eqn:E. revert E. generalize (s_map s) as m. induction X as [|x l n A X IH|x l n A X IH]; intros [|e m] E; try discriminate; [constructor| |]; cbn in E; injection E as -> ->; constructor; auto.
    + apply NoDup_rev in N. destruct (in_dec hits_eqd hs D) as [J|J].
      * apply in_rev in J. apply NoDup_count_occ' with (decA := hits_eqd) in J; [exact J|exact N].
      * apply count_occ_not_In. intros X'. apply J, in_rev. exact X'.
Qed.

Lemma firstn_flat_in {A B} (f : A -> list B) (L : list A) : forall i k w x, nth_error L k = Some w -> In x (f w) -> NoDup (flat_map f L) -> (In x (flat_map f (firstn (S i) L)) <-> k <= i).
Proof.
  induction L as [|w0 L IH]; intros i k w x Hk I N; [destruct k; discriminate|]. cbn [firstn flat_map] in *. rewrite in_app_iff.
  destruct k as [|k]; cbn [nth_error] in Hk; [injection Hk as ->; split; [lia|left; exact I]|].
  assert (Nx : ~ In x (f w0)). { intros X. apply (proj2 (proj2 (proj1 (TJ_Proofs.nodup_app_iff _ _) N)) x X). apply in_flat_map. exists w. split; [eapply nth_error_In; exact Hk|exact I]. }
  destruct i as [|i]; [cbn [firstn flat_map In]; split; [tauto|lia]|]. rewrite (IH i k w x Hk I); [|exact (proj1 (proj2 (proj1 (TJ_Proofs.nodup_app_iff _ _) N)))]. split; [intros [X|X]; [contradiction|lia]|right; lia].
Qed.

Lemma no_hit_two w : sane w -> forall hs, In hs (both w) -> 2 <= length hs.
Proof. intros (S & _). exact S. Qed.
Lemma flat_firstn_incl {A B} (f : A -> list B) n L x : In x (flat_map f (firstn n L)) -> In x (flat_map f L).
Proof. intros I. rewrite <- (firstn_skipn n L), flat_map_app. apply in_or_app. left; exact I. Qed.
Lemma nodup_flat_firstn {A B} (f : A -> list B) n L : NoDup (flat_map f L) -> NoDup (flat_map f (firstn n L)).
Proof. intros N. rewrite <- (firstn_skipn n L), flat_map_app in N. exact (proj1 (proj1 (TJ_Proofs.nodup_app_iff _ _) N)). Qed.
Lemma concat_map_both L : concat (map both L) = flat_map both L.
Proof. symmetry. apply flat_map_concat_map. Qed.
Lemma does_all g c hits vis L : Forall2 (does g c hits) vis L -> forall w, In w L -> exists v, In v vis /\ does g c hits v w.
Proof. induction 1 as [|v w vis L D F IH]; intros x []; [subst; exists v; split; [left; reflexivity|exact D]|]. destruct (IH x H) as (v' & I & D'). exists v'. split; [right; exact I|exact D']. Qed.
Lemma simple_fitted g hits hs id : regular g -> (forall h, In h hits -> (0 < hsig h)%Qc) -> incl hs hits -> hs <> [] -> fitted g (fun _ => 1%Qc) hs (simple_point g hs id).
Proof.
  intros R P I N. apply point_fitted; [|exact N|reflexivity]. intros h H. split; [apply P, I, H|]. split; [apply (r_straight g R)|apply (r_pitch g R)].
Qed.

Theorem make_plain g c hits vis : regular g -> placed g hits -> visited (g_shape g) 0 vis -> filt c = false -> merge c = false ->
  exists Cs, Forall2 (combinations g c hits) vis Cs /\
    (late_triplet Cs -> make g c hits = Throw UserExn) /\
    (~ late_triplet Cs -> exists out m, make g c hits = Ok (out, m) /\ single m /\ Permutation (map snd m) (concat Cs) /\
      (forall p, In p out -> exists hs, hits_of m p hs /\ ((forall h, In h hits -> (0 < hsig h)%Qc) -> fitted g (fun _ => 1%Qc) hs p)) /\
      forall k C hs, nth_error Cs k = Some C -> In hs C -> counts (fun p => hits_of m p hs) out (length vis - k)).
Proof.
  intros R Pl V Fc Mc. destruct (make_eq g c hits vis R Pl V) as (L & F & E). exists (map both L). split; [apply F2_combos; exact F|].
  assert (Sa : forall w, In w L -> sane w) by (intros w W; destruct (does_all _ _ _ _ _ F w W) as (v & _ & D); exact (does_sane _ _ _ _ _ D)).
  assert (Len : length vis = length L) by (clear -F; induction F; cbn; congruence).
  assert (Nd : NoDup (flat_map both L)) by (apply (all_nodup g c hits vis L (visited_fst_nodup _ _ _ V) F)).
  rewrite <- (late_eq _ _ _ _ _ F). split.
  - intros La. rewrite E, (steps_throw g c fin_copy (copy_fin g c Fc Mc) L [] s0 false (inv0 g) ids0 Sa La). reflexivity.
  - intros La. destruct (steps_ok g c fin_copy (copy_fin g c Fc Mc)) with (L := L) (D := @nil (list hit)) (s := s0) (seen := false) as (s' & snaps & E' & I' & Ln & O' & Sp);
      [intros s1 s2 X _; unfold fin_copy; rewrite X; reflexivity|apply inv0|apply ids0|exact Sa|exact La|].
    cbn [app] in *. exists (s_out s'), (s_map s'). split; [rewrite E, E'; reflexivity|]. pose proof (i_single _ _ _ I') as Sg. split; [exact Sg|]. cbn [s0 s_out app] in O'.
    split; [rewrite (i_hits _ _ _ I'), concat_map_both; apply Permutation_sym, Permutation_rev|]. split.
    + intros p I. rewrite O' in I. apply in_flat_map in I as (sn & J & I). apply In_nth_error in J as (k & J). destruct (Sp k sn J) as (Ik & m2 & Em).
      unfold fin_copy in I. apply in_map_iff in I as ((key & p') & X & I). cbn in X. subst p'. apply (Permutation_in _ (i_mm _ _ _ Ik)), in_map_iff in I as ((id & hs) & X & I).
      unfold entry in X. cbn [fst snd] in X. injection X as _ <-. exists hs. split; [apply hits_of_simple; [exact Sg|rewrite Em; apply in_or_app; right; exact I|reflexivity]|].
      assert (Ih : In hs (flat_map both L)). { apply (in_map snd) in I. cbn in I. rewrite (i_hits _ _ _ Ik) in I. apply in_rev in I. apply flat_firstn_incl in I. exact I. }
      apply in_flat_map in Ih as (w & W & Ih). destruct (does_all _ _ _ _ _ F w W) as (v & _ & D).
      intros P. apply (simple_fitted g hits hs); [exact R|exact P| |].
      * intros h H. apply (does_at _ _ _ _ _ hs h D Ih H).
      * intros ->. pose proof (no_hit_two w (Sa w W) [] Ih) as X. cbn in X. lia.
    + intros k C hs Hk I. rewrite nth_error_map in Hk. destruct (nth_error L k) as [w|] eqn:Ek; [|discriminate]. injection Hk as <-.
      rewrite O', Len, <- Ln. apply counts_tail; [rewrite Ln; apply Nat.lt_le_incl, nth_error_Some; congruence|]. intros i sn J. destruct (Sp i sn J) as (Ii & Mi).
      pose proof (copy_counts g _ sn (s_map s') Ii Sg Mi (nodup_flat_firstn both (S i) L Nd) hs) as X. cbn [app] in X.
      pose proof (firstn_flat_in both L i k w hs Ek I Nd) as Y. destruct (in_dec _ _ _) as [Z|Z]; [rewrite (proj2 (Nat.leb_le _ _)) by (apply Y; exact Z); exact X|].
      destruct (Nat.leb_spec k i) as [K|K]; [exfalso; apply Z, Y; exact K|exact X].
Qed.
