(** Find3DVertices: the candidates, the selection, the storage. *)
From Verif Require Import Base QcUtil TV_Model TV_Spec TV_Kill TV_High TV_Ops TV_Kill2 TV_Ops2 TV_FModel TV_Spec3.
From Coq Require Import QArith Qcanon Permutation.
Import TV_Model.
Local Open Scope nat_scope.

Section S.
Variable cut : Qc.
Variable g : f3_geo.
Variable s0 : slice.
Hypothesis H0 : sound 3 s0.

Lemma flags_nth s s' i v : flags s s' -> nth_error (vs s') i = Some v ->
  exists u, nth_error (vs s) i = Some u /\ vid v = vid u /\ vctp v = vctp u /\ v3 v = v3 u /\ vsc v = vsc u.
Proof.
  intros (_ & F & _) H. destruct (map_nth_r _ _ _ i v F H) as (u & U1 & U2). exists u. split; [auto|]. apply vhi_shape in U2. destruct U2 as (A & B & C & D & _). auto.
Qed.

Lemma flags_nth' s s' i : flags s s' -> (nth_error (vs s) i = None <-> nth_error (vs s') i = None).
Proof. intros F. apply flags_len in F. rewrite !nth_error_None. rewrite F. tauto. Qed.

Lemma usable_flags s s' i : flags s s' -> usable cut g s' i = usable cut g s i.
Proof.
  intros F. unfold usable. destruct (nth_error (vs s') i) as [v|] eqn:E.
  - destruct (flags_nth s s' i v F E) as (u & -> & -> & _ & _ & ->). reflexivity.
  - apply (flags_nth' _ _ _ F) in E. rewrite E. reflexivity.
Qed.

Lemma vindex_flags s s' p : flags s s' -> vindex s' p = vindex s p.
Proof.
  intros F. unfold vindex. rewrite (flags_len _ _ F). apply filter_ext. intros i. destruct (nth_error (vs s') i) as [v|] eqn:E.
  - destruct (flags_nth s s' i v F E) as (u & -> & -> & -> & _ & _). reflexivity.
  - apply (flags_nth' _ _ _ F) in E. rewrite E. reflexivity.
Qed.

Lemma in_vindex s p i : sound 3 s -> (In i (vindex s p) <-> exists v, is_2V s (S i) v /\ vctp v mod 10 = p).
Proof.
  intros H. unfold vindex. rewrite filter_In, in_seq. unfold is_2V. simpl nth1. split.
  - intros (A & B). destruct (nth_error (vs s) i) as [v|] eqn:E; [|discriminate]. apply andb_true_iff in B. destruct B as (B & C).
    apply negb_true_iff, Nat.eqb_neq in B. apply Nat.eqb_eq in C. exists v. split; [|auto]. split; [auto|]. destruct (s_vid 3 s H i v E); [contradiction|auto].
  - intros (v & (A & B) & C). split; [split; [lia|]; apply nth_error_Some; congruence|]. rewrite A, B. simpl. apply Nat.eqb_eq. exact C.
Qed.

Lemma usable_iff s p i : sound 3 s -> In i (vindex s p) -> (usable cut g s i = true <-> usable_2V cut g s p (S i)).
Proof.
  intros H Hi. apply (in_vindex s p i H) in Hi. destruct Hi as (v & (A & B) & C). simpl in A. unfold usable, usable_2V. rewrite A. split.
  - intros Q. apply andb_true_iff in Q. destruct Q as (Q & Q3). apply andb_true_iff in Q. destruct Q as (Q1 & Q2).
    exists v. split; [split; auto|]. split; [auto|]. split; [|simpl; rewrite Nat.sub_0_r; auto].
    apply negb_true_iff in Q2. unfold qlt in Q2. destruct (Qclt_le_dec (vsc v) cut); [discriminate|auto].
  - intros (u & (U1 & U2) & U3 & U4 & U5). simpl in U1. assert (u = v) by congruence. subst u. simpl in U5. rewrite Nat.sub_0_r in U5. rewrite U5, U2. simpl.
    unfold qlt. destruct (Qclt_le_dec (vsc v) cut) as [Q|Q]; [|reflexivity]. exfalso. eapply Qclt_not_le; eauto.
Qed.

Lemma vsc_flags s s' : flags s s' -> map vsc (vs s) = map vsc (vs s').
Proof. intros (_ & F & _). eapply map_via; [|exact F]. intros a b G. apply vhi_shape in G. tauto. Qed.

Lemma three : Q2Qc (inject_Z (Z.of_nat 3)) = Q2Qc 3.
Proof. reflexivity. Qed.

Lemma cand_score_ok s ids pe : flags s0 s -> (forall x, In x ids -> x <> 0 -> exists v, is_2V s0 x v) ->
  exists s', cand_score 3 cut g s ids pe = Ok (s', fom3 g s0 ids pe) /\ flags s0 s'.
Proof.
  intros F Hi. unfold cand_score.
  assert (H : sound 3 s) by (eapply same_sound; [apply flags_same; exact F|auto]).
  assert (Hi' : forall x, In x ids -> x <> 0 -> exists v, nth1 (vs s) x = Some v).
  { intros x A B. destruct (Hi x A B) as (v & V). destruct (same_2V s0 s x v (flags_same _ _ F) V) as (v' & (V' & _) & _). eauto. }
  rewrite (vx3_score_ok 3 s ids Hi'). cbn [obind]. rewrite three. rewrite (score_sum_ext s s0) by (symmetry; apply vsc_flags; auto).
  assert (E : forall A (r : A), (clamp (score_sum s0 ids / Q2Qc 3)%Qc) = avg3 s0 ids).
  { intros. unfold clamp, avg3, qlt. cbv zeta. destruct (Qclt_le_dec _ _); reflexivity. }
  rewrite (E nat 0). destruct (qlt cut (avg3 s0 ids)).
  - destruct (high_bits_total 3 s ids H Hi') as (s' & A & B). rewrite A. cbn [obind]. exists s'. split; [reflexivity|]. eapply flags_trans; eauto.
  - cbn [obind]. exists s. auto.
Qed.

(** the state of the search grows by exactly the candidates [M] *)
Definition ext (st st' : f3_state) (M : cand -> Prop) : Prop :=
  flags s0 (fst (fst st')) /\ (snd st <= snd st')%Qc /\
  exists new, snd (fst st') = snd (fst st) ++ new /\ (forall c, In c new <-> M c) /\
    (forall c, In c new -> ~ In 0 (c2 c) -> (csc c <= snd st')%Qc).

Lemma ext_none st (M : cand -> Prop) : flags s0 (fst (fst st)) -> (forall c, ~ M c) -> ext st st M.
Proof.
  intros F N. split; [auto|]. split; [apply Qcle_refl|]. exists []. rewrite app_nil_r. split; [auto|]. split; [|intros c []].
  intros c. split; [intros []|intros Q; destruct (N c Q)].
Qed.

Lemma ext_trans a b c M N K : ext a b M -> ext b c N -> (forall x, K x <-> M x \/ N x) -> ext a c K.
Proof.
  intros (A1 & A2 & n & A3 & A4 & A5) (B1 & B2 & m & B3 & B4 & B5) E. split; [auto|]. split; [eapply Qcle_trans; eauto|].
  exists (n ++ m). split; [rewrite B3, A3, app_assoc; reflexivity|]. split.
  - intros x. rewrite in_app_iff, E, A4, B4. tauto.
  - intros x Hx Z. apply in_app_or in Hx. destruct Hx as [Hx|Hx]; [|auto]. eapply Qcle_trans; [apply A5; auto|exact B2].
Qed.

Lemma ext_iff a b M K : ext a b M -> (forall x, K x <-> M x) -> ext a b K.
Proof. intros (A1 & A2 & n & A3 & A4 & A5) E. split; [auto|]. split; [auto|]. exists n. split; [auto|]. split; [|auto]. intros x. rewrite A4, E. tauto. Qed.

Lemma foreach_ext {A} (l : list A) body M : (forall st a, In a l -> flags s0 (fst (fst st)) -> exists st', body st a = Ok st' /\ ext st st' (M a)) ->
  forall st, flags s0 (fst (fst st)) -> exists st', foreach l body st = Ok st' /\ ext st st' (fun c => exists a, In a l /\ M a c).
Proof.
  induction l as [|a l IH]; intros Hb st F; cbn [foreach].
  - exists st. split; [auto|]. apply ext_none; [auto|]. intros c (a & [] & _).
  - destruct (Hb st a (or_introl eq_refl) F) as (st1 & E1 & X1). rewrite E1. cbn [obind].
    destruct (IH (fun st a Ha => Hb st a (or_intror Ha)) st1 (proj1 X1)) as (st2 & E2 & X2). exists st2. split; [auto|].
    eapply ext_trans; [exact X1|exact X2|]. intros c. split.
    + intros (b & [<-|Hb'] & Q); [left; auto|right; eauto].
    + intros [Q|(b & Hb' & Q)]; [exists a; simpl; auto|exists b; simpl; auto].
Qed.

Definition U := usable_2V cut g s0.

Lemma U_2V p x : U p x -> exists v, is_2V s0 x v /\ vctp v mod 10 = p.
Proof. intros (v & A & B & _). eauto. Qed.

Lemma third_ok i j kpl l st k : flags s0 (fst (fst st)) -> In k (vindex s0 kpl) -> length l = 3 -> kpl < 3 ->
  (forall x, In x l -> x <> 0 -> exists v, is_2V s0 x v) ->
  exists st', f3_third 3 cut g i j kpl l st k = Ok st' /\
    ext st st' (fun c => U kpl (S k) /\ exists pe, m3 g i j k = Some pe /\ c = C3 (upd l kpl (S k)) (-1)%Z (fom3 g s0 (upd l kpl (S k)) pe)).
Proof.
  intros F Hk Ll Lk Hl. destruct st as [[s cs] mx]. cbn [fst snd] in F. unfold f3_third. rewrite (usable_flags s0 s k F).
  pose proof (usable_iff s0 kpl k H0 Hk) as Ui. destruct (usable cut g s0 k); cbn [negb].
  2:{ exists (s, cs, mx). split; [auto|]. apply ext_none; [auto|]. intros c (Q & _). apply Ui in Q. discriminate. }
  destruct (m3 g i j k) as [pe|] eqn:Em.
  2:{ exists (s, cs, mx). split; [auto|]. apply ext_none; [auto|]. intros c (_ & pe & Q & _). discriminate. }
  apply (in_vindex s0 kpl k H0) in Hk. destruct Hk as (v & Hv & Hp).
  destruct (same_2V s0 s (S k) v (flags_same _ _ F) Hv) as (v' & (V1 & V2) & _). simpl in V1. rewrite (idx_some _ _ _ V1). cbn [obind].
  rewrite set_idx_ok by lia. cbn [obind]. rewrite V2.
  destruct (cand_score_ok s (upd l kpl (S k)) pe F) as (s' & E & F').
  { intros x Hx Hx0. apply In_nth_error in Hx. destruct Hx as (n & Hn). rewrite nth_error_upd in Hn. destruct ((n =? kpl) && _); [injection Hn as <-; eauto|]. apply nth_error_In in Hn. auto. }
  rewrite E. cbn [obind fst snd]. eexists; split; [reflexivity|]. split; [exact F'|]. cbn [fst snd].
  assert (Q : (mx <= (if qlt mx (fom3 g s0 (upd l kpl (S k)) pe) then fom3 g s0 (upd l kpl (S k)) pe else mx) /\
               fom3 g s0 (upd l kpl (S k)) pe <= (if qlt mx (fom3 g s0 (upd l kpl (S k)) pe) then fom3 g s0 (upd l kpl (S k)) pe else mx))%Qc).
  { unfold qlt. destruct (Qclt_le_dec mx (fom3 g s0 (upd l kpl (S k)) pe)) as [q|q]; split; try apply Qcle_refl; auto. apply Qclt_le_weak; auto. }
  split; [apply Q|]. eexists; split; [reflexivity|]. split.
  - intros c. split.
    + intros [<-|[]]. split; [apply Ui; auto|]. eauto.
    + intros (_ & pe' & Q1 & ->). injection Q1 as <-. left. reflexivity.
  - intros c [<-|[]] _. apply Q.
Qed.

Definition pairM (p i q j : nat) (c : cand) : Prop :=
  exists pe kw, m2 g i j = Some (pe, kw) /\
   ((c = C3 (upd (upd [0; 0; 0] p (S i)) q (S j)) kw (fom3 g s0 (upd (upd [0; 0; 0] p (S i)) q (S j)) pe)) \/
    exists k pe3, U (3 - p - q) (S k) /\ m3 g i j k = Some pe3 /\
      c = C3 (upd (upd (upd [0; 0; 0] p (S i)) q (S j)) (3 - p - q) (S k)) (-1)%Z (fom3 g s0 (upd (upd (upd [0; 0; 0] p (S i)) q (S j)) (3 - p - q) (S k)) pe3)).

Lemma has_zero p q a b : p < q -> q < 3 -> In 0 (upd (upd [0; 0; 0] p a) q b).
Proof. intros A B. destruct q as [|[|[|q]]], p as [|[|p]]; try lia; simpl; auto. Qed.

Lemma pair_ok p i q st j : flags s0 (fst (fst st)) -> p < q -> q < 3 -> In i (vindex s0 p) -> In j (vindex s0 q) ->
  exists st', f3_pair 3 cut g p i q st j = Ok st' /\ ext st st' (fun c => U q (S j) /\ pairM p i q j c).
Proof.
  intros F Pq Q3 Hi Hj. destruct st as [[s cs] mx]. cbn [fst snd] in F. unfold f3_pair. rewrite (usable_flags s0 s j F).
  pose proof (usable_iff s0 q j H0 Hj) as Ui. destruct (usable cut g s0 j); cbn [negb].
  2:{ exists (s, cs, mx). split; [auto|]. apply ext_none; [auto|]. intros c (Q & _). apply Ui in Q. discriminate. }
  destruct (m2 g i j) as [[pe kw]|] eqn:Em.
  2:{ exists (s, cs, mx). split; [auto|]. apply ext_none; [auto|]. intros c (_ & pe & kw & Q & _). congruence. }
  apply (in_vindex s0 p i H0) in Hi. destruct Hi as (v & Hv & Hp). apply (in_vindex s0 q j H0) in Hj. destruct Hj as (u & Hu & Hq).
  destruct (same_2V s0 s (S i) v (flags_same _ _ F) Hv) as (v' & (V1 & V2) & _). simpl in V1. rewrite (idx_some _ _ _ V1). cbn [obind].
  destruct (same_2V s0 s (S j) u (flags_same _ _ F) Hu) as (u' & (U1 & U2) & _). simpl in U1. rewrite (idx_some _ _ _ U1). cbn [obind].
  change (repeat 0 3) with [0; 0; 0]. rewrite set_idx_ok by (simpl; lia). cbn [obind]. rewrite set_idx_ok by (rewrite upd_length; simpl; lia). cbn [obind].
  change (3 =? 2) with false. cbn iota. cbn [obind]. rewrite V2, U2. set (l := upd (upd [0; 0; 0] p (S i)) q (S j)).
  assert (Hl : forall x, In x l -> x <> 0 -> exists v, is_2V s0 x v).
  { intros x Hx Hx0. apply In_nth_error in Hx. destruct Hx as (n & Hn). unfold l in Hn. rewrite !nth_error_upd in Hn.
    destruct ((n =? q) && _); [injection Hn as <-; eauto|]. destruct ((n =? p) && _); [injection Hn as <-; eauto|].
    destruct n as [|[|[|n]]]; simpl in Hn; try (injection Hn as <-; lia). destruct n; discriminate. }
  destruct (cand_score_ok s l pe F Hl) as (s' & E & F'). rewrite E. cbn [obind fst snd].
  cbv zeta. rewrite (vindex_flags s0 s _ F).
  assert (X1 : ext (s, cs, mx) (s', cs ++ [C3 l kw (fom3 g s0 l pe)], mx) (fun c => c = C3 l kw (fom3 g s0 l pe))).
  { split; [exact F'|]. split; [apply Qcle_refl|]. exists [C3 l kw (fom3 g s0 l pe)]. split; [reflexivity|]. split.
    - intros c. simpl. split; [intros [Q|[]]; auto|intros ->; auto].
    - intros c [<-|[]] Z. exfalso. apply Z. unfold l. simpl. apply has_zero; auto. }
  assert (Ll : length l = 3) by (unfold l; rewrite !upd_length; reflexivity).
  destruct (foreach_ext (vindex s0 (3 - p - q)) (f3_third 3 cut g i j (3 - p - q) l)
     (fun k c => U (3 - p - q) (S k) /\ exists pe, m3 g i j k = Some pe /\ c = C3 (upd l (3 - p - q) (S k)) (-1)%Z (fom3 g s0 (upd l (3 - p - q) (S k)) pe))
     (fun st k Hk Fk => third_ok i j (3 - p - q) l st k Fk Hk Ll ltac:(lia) Hl) (s', cs ++ [C3 l kw (fom3 g s0 l pe)], mx) F') as (st2 & E2 & X2).
  exists st2. split; [exact E2|]. eapply ext_trans; [exact X1|exact X2|]. intros c. split.
  - intros (_ & pe' & kw' & Q & [->|(k & pe3 & K1 & K2 & ->)]).
    + rewrite Em in Q. injection Q as <- <-. left. reflexivity.
    + right. exists k. split; [apply (in_vindex s0 _ k H0); apply U_2V; auto|]. split; [auto|]. exists pe3. auto.
  - intros [->|(k & Hk & K1 & pe3 & K2 & ->)]; (split; [apply Ui; auto|]); exists pe, kw; (split; [auto|]); [left; reflexivity|right; exists k, pe3; auto].
Qed.

Definition allM (c : cand) : Prop :=
  exists p q i j, p < q /\ q < 3 /\ U p (S i) /\ U q (S j) /\ pairM p i q j c.

Lemma cands_ok : exists st, f3_cands 3 cut g s0 = Ok st /\ ext (s0, [], 0%Qc) st allM.
Proof.
  unfold f3_cands.
  set (f1 := fun i p (st : f3_state) q => foreach (vindex s0 q) (f3_pair 3 cut g p i q) st).
  set (f2 := fun p (st : f3_state) i => if negb (usable cut g (fst (fst st)) i) then Ok st else foreach (seq (p + 1) (2 - p)) (f1 i p) st).
  assert (S1 : forall i p st q, p < q -> q < 3 -> In i (vindex s0 p) -> flags s0 (fst (fst st)) -> exists st', f1 i p st q = Ok st' /\ ext st st' (fun c => exists j, In j (vindex s0 q) /\ (U q (S j) /\ pairM p i q j c))).
  { intros i p st q A B C F. apply foreach_ext; [|auto]. intros st1 j Hj F1. apply pair_ok; auto. }
  assert (S2 : forall p st i, p < 2 -> In i (vindex s0 p) -> flags s0 (fst (fst st)) -> exists st', f2 p st i = Ok st' /\
     ext st st' (fun c => U p (S i) /\ exists q, In q (seq (p + 1) (2 - p)) /\ exists j, In j (vindex s0 q) /\ (U q (S j) /\ pairM p i q j c))).
  { intros p st i A B F. unfold f2. rewrite (usable_flags s0 _ i F). pose proof (usable_iff s0 p i H0 B) as Ui. destruct (usable cut g s0 i); cbn [negb].
    - destruct (foreach_ext (seq (p + 1) (2 - p)) (f1 i p) (fun q c => exists j, In j (vindex s0 q) /\ (U q (S j) /\ pairM p i q j c))) with (st := st) as (st' & E & X).
      + intros st1 q Hq F1. apply in_seq in Hq. apply S1; auto; lia.
      + auto.
      + exists st'. split; [auto|]. eapply ext_iff; [exact X|]. intros c. split; [intros (_ & Q); auto|]. intros Q. split; [apply Ui; auto|auto].
    - exists st. split; [auto|]. apply ext_none; [auto|]. intros c (Q & _). apply Ui in Q. discriminate. }
  destruct (foreach_ext [0; 1] (fun st p => foreach (vindex s0 p) (f2 p) st)
     (fun p c => exists i, In i (vindex s0 p) /\ (U p (S i) /\ exists q, In q (seq (p + 1) (2 - p)) /\ exists j, In j (vindex s0 q) /\ (U q (S j) /\ pairM p i q j c)))) with (st := (s0, @nil cand, 0%Qc)) as (st & E & X).
  - intros st p Hp F. apply foreach_ext; [|auto]. intros st1 i Hi F1. apply S2; auto. simpl in Hp. lia.
  - apply flags_refl.
  - exists st. split; [exact E|]. eapply ext_iff; [exact X|]. intros c. split.
    + intros (p & q & i & j & A & B & C & D & M). exists p. split; [simpl; lia|]. exists i. split; [apply (in_vindex s0 p i H0), U_2V; auto|]. split; [auto|].
      exists q. split; [apply in_seq; lia|]. exists j. split; [apply (in_vindex s0 q j H0), U_2V; auto|]. auto.
    + intros (p & Hp & i & _ & C & q & Hq & j & _ & D & M). apply in_seq in Hq. exists p, q, i, j. simpl in Hp. split; [lia|]. split; [lia|]. auto.
Qed.

Lemma U_pos p x : U p x -> exists i, x = S i.
Proof. intros (v & (A & _) & _). destruct x; [discriminate|eauto]. Qed.

Lemma place2 p q x y l : p < q -> q < 3 -> (in_planes l p x q y 0 <-> l = upd (upd [0; 0; 0] p x) q y).
Proof.
  intros A B. split.
  - intros (L & X & Y & Z). destruct l as [|a [|b [|c [|d l]]]]; try discriminate. destruct q as [|[|[|q]]], p as [|[|p]]; try lia; simpl in *; congruence.
  - intros ->. destruct q as [|[|[|q]]], p as [|[|p]]; try lia; repeat split.
Qed.
Lemma place3 p q x y z l : p < q -> q < 3 -> (in_planes l p x q y z <-> l = upd (upd (upd [0; 0; 0] p x) q y) (3 - p - q) z).
Proof.
  intros A B. split.
  - intros (L & X & Y & Z). destruct l as [|a [|b [|c [|d l]]]]; try discriminate. destruct q as [|[|[|q]]], p as [|[|p]]; try lia; simpl in *; congruence.
  - intros ->. destruct q as [|[|[|q]]], p as [|[|p]]; try lia; repeat split.
Qed.

Lemma allM_iff c : allM c <-> match2 cut g s0 c \/ match3 cut g s0 c.
Proof.
  split.
  - intros (p & q & i & j & A & B & C & D & pe & kw & E & [->|(k & pe3 & K1 & K2 & ->)]).
    + left. exists p, q, (S i), (S j), pe, kw. rewrite !Nat.sub_succ, !Nat.sub_0_r. cbn [c2 cw csc]. repeat (split; [assumption|]). split; [apply place2; auto|]. split; reflexivity.
    + right. exists p, q, (S i), (S j), (S k), pe, kw, pe3. rewrite !Nat.sub_succ, !Nat.sub_0_r. cbn [c2 cw csc]. repeat (split; [assumption|]). split; [apply place3; auto|]. split; reflexivity.
  - intros [(p & q & x & y & pe & kw & A & B & C & D & E & F & W & K)|(p & q & x & y & z & pe & kw & pe3 & A & B & C & D & D' & E & E' & F & W & K)];
      destruct (U_pos _ _ C) as (i & ->), (U_pos _ _ D) as (j & ->); rewrite !Nat.sub_succ, !Nat.sub_0_r in E; exists p, q, i, j; repeat (split; [assumption|]); exists pe, kw; (split; [assumption|]).
    + left. apply place2 in F; auto. destruct c as [l w sc]. cbn [c2 cw csc] in *. subst. reflexivity.
    + right. destruct (U_pos _ _ D') as (k & ->). rewrite !Nat.sub_succ, !Nat.sub_0_r in E'. exists k, pe3. repeat (split; [assumption|]). apply place3 in F; auto. destruct c as [l w sc]. cbn [c2 cw csc] in *. subst. reflexivity.
Qed.

End S.

(** ---- the selection ---- *)
Lemma select_snoc n l c : select n (l ++ [c]) = if existsb (clash n c) (select n l) then select n l else select n l ++ [c].
Proof. unfold select. rewrite fold_left_app. reflexivity. Qed.

Lemma select_in n l c : In c (select n l) -> In c l.
Proof.
  revert c. induction l as [|a l IH] using rev_ind; intros c H; [auto|]. rewrite select_snoc in H. rewrite in_app_iff. destruct (existsb _ _); [auto|].
  apply in_app_or in H. destruct H; auto.
Qed.

Lemma select_apart n l i j a b : i < j -> nth_error (select n l) i = Some a -> nth_error (select n l) j = Some b -> clash n b a = false.
Proof.
  revert i j a b. induction l as [|c l IH] using rev_ind; intros i j a b Hij Ha Hb; [destruct i; discriminate|]. rewrite select_snoc in Ha, Hb.
  destruct (existsb (clash n c) (select n l)) eqn:E; [apply (IH i j a b); auto|].
  assert (Lj : j < length (select n l ++ [c])) by (apply nth_error_Some; congruence). rewrite app_length in Lj. simpl in Lj.
  rewrite nth_error_app1 in Ha by lia. destruct (Nat.eq_dec j (length (select n l))) as [->|Q].
  - rewrite nth_error_app2, Nat.sub_diag in Hb by lia. simpl in Hb. injection Hb as <-. apply nth_error_In in Ha.
    destruct (clash n c a) eqn:F; [|auto]. exfalso. assert (existsb (clash n c) (select n l) = true); [|congruence]. apply existsb_exists. eauto.
  - rewrite nth_error_app1 in Hb by lia. apply (IH i j a b); auto.
Qed.

Lemma select_best n l : (forall i j a b, i < j -> nth_error l i = Some a -> nth_error l j = Some b -> (csc a <= csc b)%Qc) ->
  forall c, In c l -> In c (select n l) \/ exists d, In d (select n l) /\ clash n c d = true /\ (csc d <= csc c)%Qc.
Proof.
  induction l as [|a l IH] using rev_ind; intros Hs c Hc; [destruct Hc|]. rewrite select_snoc.
  assert (Hs' : forall i j x y, i < j -> nth_error l i = Some x -> nth_error l j = Some y -> (csc x <= csc y)%Qc).
  { intros i j x y Hij Hx Hy. assert (i < length l) by (apply nth_error_Some; congruence). assert (j < length l) by (apply nth_error_Some; congruence).
    apply (Hs i j); [auto| |]; rewrite nth_error_app1; auto. }
  apply in_app_or in Hc. destruct Hc as [Hc|[<-|[]]].
  - destruct (IH Hs' c Hc) as [Q|(d & Q1 & Q2 & Q3)]; destruct (existsb _ _); rewrite ?in_app_iff; eauto. right. exists d. rewrite in_app_iff. auto.
  - destruct (existsb (clash n a) (select n l)) eqn:E; [|left; apply in_or_app; simpl; auto]. right. apply existsb_exists in E. destruct E as (d & D1 & D2).
    exists d. split; [auto|]. split; [auto|]. apply select_in in D1. apply In_nth_error in D1. destruct D1 as (i & D1).
    assert (Li : i < length l) by (apply nth_error_Some; congruence). apply (Hs i (length l)); [auto| |]; [rewrite nth_error_app1; auto|rewrite nth_error_app2, Nat.sub_diag by lia; reflexivity].
Qed.

(** every 2D vertex of the candidate is in its place *)
Definition placed (s : slice) (c : cand) : Prop := length (c2 c) = 3 /\
  forall p x, nth_error (c2 c) p = Some x -> x <> 0 -> in_plane s p x.

Lemma clash_iff s c d : placed s c -> placed s d -> (clash 3 c d = true <-> shares (c2 c) (c2 d)).
Proof.
  intros (Lc & Pc) (Ld & Pd). unfold clash. rewrite existsb_exists. split.
  - intros (p & A & B). apply in_seq in A. apply andb_true_iff in B. destruct B as (B & C). apply negb_true_iff, Nat.eqb_neq in B. apply Nat.eqb_eq in C.
    exists (nth p (c2 c) 0). split; [auto|]. split; [apply nth_In; lia|]. rewrite C. apply nth_In. lia.
  - intros (x & X0 & Xc & Xd). apply In_nth_error in Xc, Xd. destruct Xc as (p & Xc), Xd as (q & Xd).
    destruct (Pc p x Xc X0) as (v & (V1 & _) & V2). destruct (Pd q x Xd X0) as (u & (U1 & _) & U2). assert (u = v) by congruence. subst u.
    assert (Epq : q = p) by congruence. rewrite Epq in Xd. clear U2 V2 Epq. exists p. assert (p < 3) by (rewrite <- Lc; apply nth_error_Some; congruence). split; [apply in_seq; lia|].
    rewrite (nth_error_nth _ _ 0 Xc), (nth_error_nth _ _ 0 Xd), Nat.eqb_refl, andb_true_r. apply negb_true_iff, Nat.eqb_neq. auto.
Qed.

Lemma match_placed cut g s c : match2 cut g s c \/ match3 cut g s c -> placed s c /\ shares (c2 c) (c2 c).
Proof.
  assert (Nz : forall p x, usable_2V cut g s p x -> x <> 0 /\ in_plane s p x).
  { intros p x (v & V & P & _). split; [destruct V as (V & _); apply nth1_pos in V; lia|]. exists v. auto. }
  assert (G : forall p q x y z, p < q -> q < 3 -> usable_2V cut g s p x -> usable_2V cut g s q y -> (z = 0 \/ usable_2V cut g s (3 - p - q) z) -> in_planes (c2 c) p x q y z -> placed s c /\ shares (c2 c) (c2 c)).
  { intros p q x y z A B Ux Uy Uz (L & X & Y & Z). destruct (Nz _ _ Ux) as (X0 & Xp). destruct (Nz _ _ Uy) as (Y0 & Yp). split.
    - split; [auto|]. intros n t Ht T0. assert (Ln : n < 3) by (rewrite <- L; apply nth_error_Some; congruence).
      destruct (Nat.eq_dec n p) as [->|N1]; [replace t with x by congruence; auto|]. destruct (Nat.eq_dec n q) as [->|N2]; [replace t with y by congruence; auto|].
      assert (n = 3 - p - q) by lia. subst n. assert (t = z) by congruence. subst t. destruct Uz as [Uz|Uz]; [contradiction|]. apply Nz; auto.
    - exists x. split; [auto|]. apply nth_error_In in X. auto. }
  intros [(p & q & x & y & pe & kw & A & B & C & D & _ & E & _)|(p & q & x & y & z & pe & kw & pe3 & A & B & C & D & D' & _ & _ & E & _)].
  - apply (G p q x y 0); auto.
  - apply (G p q x y z); auto.
Qed.

Lemma shares_sym l l' : shares l l' -> shares l' l.
Proof. intros (x & A & B & C). exists x. auto. Qed.

(** the rescored candidates *)
Definition moved (M : Qc) (c : cand) : cand := if (0 <=? cw c)%Z then C3 (c2 c) (cw c) (csc c + (M + 1))%Qc else c.
Lemma moved_facts M c : c2 (moved M c) = c2 c /\ cw (moved M c) = cw c /\ csc (moved M c) = rank M c.
Proof. unfold moved, rank. destruct (0 <=? cw c)%Z; auto. Qed.

(** a list with the same candidates but the original scores *)
Lemma unmove M (l : list cand) (P : cand -> Prop) : (forall c, In c l -> exists c0, P c0 /\ c = moved M c0) ->
  exists l0, l = map (moved M) l0 /\ forall c, In c l0 -> P c.
Proof.
  induction l as [|c l IH]; intros H.
  - exists []. split; [auto|intros c []].
  - destruct (H c (or_introl eq_refl)) as (c0 & P0 & ->). destruct IH as (l0 & -> & Hl); [intros; apply H; right; auto|].
    exists (c0 :: l0). split; [auto|]. intros d [<-|Hd]; auto.
Qed.

Lemma select_spec cut g s M cs : (0 <= M)%Qc -> sorts3 (srt g) ->
  (forall c, In c cs <-> match2 cut g s c \/ match3 cut g s c) -> (forall c, match3 cut g s c -> (csc c <= M)%Qc) ->
  exists sel, map (moved M) sel = select 3 (srt g (map (moved M) cs)) /\ selection cut g s M sel.
Proof.
  intros M0 Hs Hc Hm. destruct (Hs (map (moved M) cs)) as (Hp & Ho). set (l := srt g (map (moved M) cs)) in *.
  assert (Src : forall c, In c l -> exists c0, (match2 cut g s c0 \/ match3 cut g s c0) /\ c = moved M c0).
  { intros c Hin. apply (Permutation_in c (Permutation_sym Hp)) in Hin. apply in_map_iff in Hin. destruct Hin as (c0 & <- & Hin). exists c0. split; [apply Hc; auto|auto]. }
  destruct (unmove M (select 3 l) (fun c => match2 cut g s c \/ match3 cut g s c)) as (sel & E & Hsel); [intros c Hin; apply Src; eapply select_in; eauto|].
  assert (Pl : forall c, match2 cut g s c \/ match3 cut g s c -> placed s (moved M c)).
  { intros c Q. apply match_placed in Q. destruct Q as ((A & B) & _). unfold placed. destruct (moved_facts M c) as (-> & _). split; auto. }
  exists sel. split; [auto|]. constructor; auto.
  - intros i j a b Hij Ha Hb Sh. assert (Ka : In a sel) by (eapply nth_error_In; eauto). assert (Kb : In b sel) by (eapply nth_error_In; eauto).
    assert (Q : clash 3 (moved M b) (moved M a) = false).
    { apply (select_apart 3 l i j); [auto| |]; rewrite E, nth_error_map; [rewrite Ha|rewrite Hb]; reflexivity. }
    assert (R : clash 3 (moved M b) (moved M a) = true).
    { apply (clash_iff s); [apply Pl; auto|apply Pl; auto|]. rewrite !(proj1 (moved_facts M _)). apply shares_sym. auto. }
    congruence.
  - intros c Q. assert (Hin : In (moved M c) l) by (apply (Permutation_in _ Hp), in_map, Hc; auto).
    destruct (select_best 3 l Ho (moved M c) Hin) as [K|(d & D1 & D2 & D3)].
    + rewrite E in K. apply in_map_iff in K. destruct K as (d & K1 & K2). exists d. split; [auto|]. split.
      * destruct (match_placed cut g s c Q) as (_ & R). apply (f_equal c2) in K1. rewrite !(proj1 (moved_facts M _)) in K1. rewrite K1. auto.
      * apply (f_equal csc) in K1. destruct (moved_facts M d) as (_ & _ & Rd), (moved_facts M c) as (_ & _ & Rc). rewrite Rd, Rc in K1. rewrite K1. apply Qcle_refl.
    + rewrite E in D1. apply in_map_iff in D1. destruct D1 as (d0 & <- & K2). exists d0. split; [auto|]. split.
      * apply (clash_iff s) in D2; [|apply Pl; auto|apply Pl; auto]. rewrite !(proj1 (moved_facts M _)) in D2. auto.
      * destruct (moved_facts M d0) as (_ & _ & Rd), (moved_facts M c) as (_ & _ & Rc). rewrite Rd, Rc in D3. auto.
Qed.
