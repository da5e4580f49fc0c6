(** WalkStitch and CommonComponentStitch: what holds for every event *)
From Coq Require Import QArith Qcanon.
From Verif Require Import Base QcUtil Solver_Model STI_Model STI_Spec STI_Find.
Import STI_Model.
Local Open Scope nat_scope.

Definition conn (c : cfg) (ts : list trk) : nat -> nat -> Prop := clos_refl_sym_trans nat (tied c ts).

(* ---------------------------------------------------------------- FirstStitch *)
Definition bw (ht : list (tend * tend)) (k : nat) : bool :=
  if length ht =? 0 then false else match k with 0 => tend_eqb (fst (nth 0 ht (TL, HD))) HD | Datatypes.S k => tend_eqb (snd (nth k ht (TL, HD))) TL end.
Definition oriented (c : comp) : list (nat * bool) := combine (fst c) (map (bw (snd c)) (seq 0 (length (fst c)))).
Lemma backwards_ok ht k : k <= length ht -> backwards ht k = Ok (bw ht k).
Proof.
  intros L. unfold backwards, bw. destruct (Nat.eqb_spec (length ht) 0) as [Z|Z]; [reflexivity|]. destruct k as [|k].
  - unfold at_. destruct ht; [cbn in Z; lia|reflexivity].
  - unfold at_. destruct (nth_error ht k) as [x|] eqn:E; [|apply nth_error_None in E; lia]. cbn [obind]. rewrite (nth_error_nth _ _ _ E). reflexivity.
Qed.
Lemma first_stitch_ok ts c : proper_points ts -> fst c <> [] -> length (snd c) + 1 = length (fst c) -> (forall x, In x (fst c) -> x < length ts) ->
  exists pts, first_stitch ts c = Ok pts /\ laid ts (oriented c) pts.
Proof.
  intros P Ne L B. unfold first_stitch, oriented.
  match goal with |- context [foreach _ ?f _] => set (body := f) end.
  assert (G : forall m a acc, a + m = length (fst c) -> exists pts, foreach (seq a m) body acc = Ok (acc ++ pts) /\ laid ts (combine (skipn a (fst c)) (map (bw (snd c)) (seq a m))) pts /\ (0 < m -> pts <> [])).
  { induction m as [|m IH]; intros a acc E; cbn [seq map].
    - exists []. rewrite app_nil_r. split; [reflexivity|]. split; [|lia]. destruct (skipn a (fst c)); constructor.
    - cbn [foreach]. destruct (nth_error (fst c) a) as [i|] eqn:Ei; [|apply nth_error_None in Ei; lia].
      assert (Li : i < length ts) by (apply B; apply (nth_error_In _ _ Ei)). destruct (nth_error ts i) as [t|] eqn:Et; [|apply nth_error_None in Et; lia].
      assert (Np : t_pts t <> []) by (apply P; apply (nth_error_In _ _ Et)).
      assert (Hb : body acc a = Ok (acc ++ if bw (snd c) a then rev (t_pts t) else t_pts t)).
      { unfold body, idx. rewrite Ei. cbn [obind]. rewrite Et. cbn [obind]. destruct (Nat.eqb_spec (length (t_pts t)) 0) as [Z|Z]; [destruct (t_pts t); [contradiction|discriminate]|].
        rewrite backwards_ok by lia. reflexivity. }
      rewrite Hb. cbn [obind]. destruct (IH (Datatypes.S a) (acc ++ if bw (snd c) a then rev (t_pts t) else t_pts t)) as (pts & E1 & E2 & _); [lia|].
      exists ((if bw (snd c) a then rev (t_pts t) else t_pts t) ++ pts). split; [rewrite E1, app_assoc; reflexivity|]. split.
      + assert (Sk : skipn a (fst c) = i :: skipn (Datatypes.S a) (fst c)).
        { clear -Ei. revert a Ei. generalize (fst c). induction l as [|y l IH]; intros [|a] X; try discriminate; cbn in *; [injection X as ->; reflexivity|]. apply IH; exact X. }
        rewrite Sk. cbn [combine]. constructor; assumption.
      + intros _ Z. apply app_eq_nil in Z as (Z & _). destruct (bw (snd c) a); [|contradiction]. apply (f_equal (@rev nat)) in Z. rewrite rev_involutive in Z. contradiction. }
  destruct (G (length (fst c)) 0 [] eq_refl) as (pts & E1 & E2 & E3). rewrite E1. cbn [obind app]. exists pts.
  assert (pts <> []) by (apply E3; destruct (fst c); [contradiction|cbn; lia]). destruct (Nat.eqb_spec (length pts) 0) as [Z|Z]; [destruct pts; [contradiction|discriminate]|]. split; [reflexivity|exact E2].
Qed.

(* ---------------------------------------------------------------- removal of repeated components *)
Lemma remove_length {A} (l : list A) : forall i, i < length l -> length (remove_at i l) + 1 = length l.
Proof. induction l as [|x l IH]; intros [|i] L; cbn in *; try lia. specialize (IH i). lia. Qed.
Lemma remove_in {A} (l : list A) : forall i x, In x (remove_at i l) -> In x l.
Proof. induction l as [|y l IH]; intros [|i] x X; cbn in *; auto. destruct X as [X|X]; [auto|]. right. apply (IH i). exact X. Qed.
Lemma in_remove {A} (l : list A) : forall i x, In x l -> In x (remove_at i l) \/ nth_error l i = Some x.
Proof. induction l as [|y l IH]; intros [|i] x X; cbn in *; auto; destruct X as [X|X]; subst; auto. destruct (IH i x X); auto. Qed.
Lemma remove_nth {A} (l : list A) : forall i k, nth_error (remove_at i l) k = nth_error l (if k <? i then k else Datatypes.S k).
Proof.
  induction l as [|y l IH]; intros [|i] [|k]; cbn [remove_at]; try reflexivity.
  - destruct (_ <? _); reflexivity.
  - cbn [nth_error]. rewrite IH. change (Datatypes.S k <? Datatypes.S i) with (k <? i). destruct (k <? i); reflexivity.
Qed.
Lemma pos_some x l : forall p, pos x l = Some p -> nth_error l p = Some x /\ p < length l.
Proof.
  induction l as [|y l IH]; intros p E; cbn in E; [discriminate|]. destruct (Nat.eqb_spec y x); [injection E as <-; subst; cbn; split; [reflexivity|lia]|].
  destruct (pos x l) as [q|]; [|discriminate]. injection E as <-. destruct (IH q eq_refl). cbn. split; [assumption|lia].
Qed.
Lemma pos_none x l : pos x l = None -> ~ In x l.
Proof. induction l as [|y l IH]; cbn; [auto|]. destruct (Nat.eqb_spec y x); [discriminate|]. destruct (pos x l); [discriminate|]. intros _ [X|X]; [contradiction|]. apply IH; auto. Qed.
Lemma dedup_ok fuel : forall i c, length (snd c) + 1 = length (fst c) -> exists c', dedup fuel i c = Ok c' /\ length (snd c') + 1 = length (fst c') /\ (forall x, In x (fst c') <-> In x (fst c)).
Proof.
  induction fuel as [|fuel IH]; intros i c L; cbn [dedup]; [exists c; split; [reflexivity|]; split; [exact L|tauto]|].
  destruct (nth_error (fst c) i) as [x|] eqn:E; [|exists c; split; [reflexivity|]; split; [exact L|tauto]].
  destruct (pos x (skipn (i + 1) (fst c))) as [p|] eqn:Ep; [|apply IH; exact L]. apply pos_some in Ep as (Ep & Lp). rewrite skipn_length in Lp.
  destruct (Nat.ltb_spec p (length (snd c))); [|lia].
  assert (Ek : nth_error (fst c) (i + 1 + p) = Some x).
  { clear -Ep. rewrite <- Ep. clear Ep. revert p. generalize (i + 1). generalize (fst c). induction l as [|y l IH]; intros [|n] p; cbn; try reflexivity; [destruct p; reflexivity|apply IH]. }
  destruct (IH (i + 1) (remove_at (i + 1 + p) (fst c), remove_at p (snd c))) as (c' & E1 & L1 & M).
  { cbn [fst snd]. pose proof (remove_length (fst c) (i + 1 + p)). pose proof (remove_length (snd c) p). lia. }
  exists c'. split; [exact E1|]. split; [exact L1|]. intros y. rewrite M. cbn [fst]. split; [apply remove_in|]. intros I. destruct (in_remove (fst c) (i + 1 + p) y I) as [X|X]; [exact X|].
  assert (y = x) by congruence. subst y. apply (nth_error_In _ i). rewrite remove_nth. destruct (Nat.ltb_spec i (i + 1 + p)); [exact E|lia].
Qed.

(* ---------------------------------------------------------------- the walks *)
Section Walk.
Variables (c : cfg) (ts : list trk) (fh ft : list link).
Hypotheses (Lh : length fh = length ts) (Lt : length ft = length ts) (Oh : all_ok c ts fh) (Ot : all_ok c ts ft).

Lemma conn_link i b : lok c ts i b -> conn c ts i (snd (fst b)).
Proof. intros (_ & X). apply rst_step. exact X. Qed.

Lemma chain_ok fuel : forall front ii walk sh st cm done, ii <= walk -> walk < length ts -> length ts - walk < fuel -> llok c ts ii sh -> llok c ts ii st -> length done = length ts ->
  length (snd cm) + 1 = length (fst cm) -> (forall x, In x (fst cm) -> x < length ts) -> In walk (fst cm) ->
  exists cm' done', chain fuel front fh ft ii walk sh st cm done = Ok (cm', done') /\ length (snd cm') + 1 = length (fst cm') /\ (forall x, In x (fst cm') -> x < length ts) /\
    incl (fst cm) (fst cm') /\ (forall x, In x (fst cm') -> In x (fst cm) \/ conn c ts walk x) /\ length done' = length ts /\
    (forall x, nth_error done x = Some true -> nth_error done' x = Some true) /\ (forall x, nth_error done' x = Some true -> nth_error done x = Some true \/ In x (fst cm')).
Proof.
  induction fuel as [|fuel IH]; intros front ii walk sh st cm done W Wn F Sh St Ld Lc B Iw; [lia|]. cbn [chain].
  assert (G : exists sh' st', (if walk =? ii then Ok (sh, st) else do a <- at_ fh walk; do b <- at_ ft walk; Ok (a, b)) = Ok (sh', st') /\ llok c ts walk sh' /\ llok c ts walk st').
  { destruct (Nat.eqb_spec walk ii) as [->|D]; [exists sh, st; auto|]. destruct (nth_error fh walk) as [a|] eqn:Ea; [|apply nth_error_None in Ea; lia]. destruct (nth_error ft walk) as [b|] eqn:Eb; [|apply nth_error_None in Eb; lia].
    unfold at_. rewrite Ea. cbn [obind]. rewrite Eb. exists a, b. split; [reflexivity|]. split; [exact (Oh _ _ Ea)|exact (Ot _ _ Eb)]. }
  destruct G as (sh' & st' & -> & Sh' & St'). cbn [obind]. cbv zeta.
  assert (K : forall (e1 : tend) (l : link) (cm1 : comp) (w : nat), llok c ts walk l -> length (snd cm1) + 1 = length (fst cm1) -> (forall x, In x (fst cm1) -> x < length ts) -> In w (fst cm1) -> walk <= w -> w < length ts -> In walk (fst cm1) ->
    exists cm2 w2, grow front e1 l cm1 w = (cm2, w2) /\
      length (snd cm2) + 1 = length (fst cm2) /\ (forall x, In x (fst cm2) -> x < length ts) /\ In w2 (fst cm2) /\ In walk (fst cm2) /\ walk <= w2 /\ w2 < length ts /\ incl (fst cm1) (fst cm2) /\ (forall x, In x (fst cm2) -> In x (fst cm1) \/ conn c ts walk x) /\
      (w2 = w \/ conn c ts walk w2) /\ (l = None -> w2 = w) /\ (l <> None -> walk < w2)).
  { intros e1 [((e, j), q)|] cm1 w O L1 B1 I1 W1 Wn1 Iwk.
    - destruct O as ((O1 & O2) & O3). cbn [fst snd] in *. assert (Cj : conn c ts walk j) by (apply rst_step; exact O3). eexists _, j. split; [reflexivity|]. destruct front; cbn [fst snd].
      + split; [cbn; lia|]. split; [intros x [<-|X]; [exact O2|apply B1; exact X]|]. split; [left; reflexivity|]. split; [right; exact Iwk|]. split; [lia|]. split; [exact O2|]. split; [intros x X; right; exact X|]. split; [intros x [<-|X]; auto|]. split; [auto|]. split; [discriminate|]. intros _; lia.
      + rewrite !app_length. split; [cbn; lia|]. split; [intros x X; apply in_app_or in X as [X|[<-|[]]]; [apply B1; exact X|exact O2]|]. split; [apply in_or_app; right; left; reflexivity|]. split; [apply in_or_app; left; exact Iwk|]. split; [lia|]. split; [exact O2|].
        split; [intros x X; apply in_or_app; left; exact X|]. split; [intros x X; apply in_app_or in X as [X|[<-|[]]]; auto|]. split; [auto|]. split; [discriminate|]. intros _; lia.
    - eexists _, _. split; [reflexivity|]. split; [exact L1|]. split; [exact B1|]. split; [exact I1|]. split; [exact Iwk|]. split; [exact W1|]. split; [exact Wn1|]. split; [intros x X; exact X|]. split; [auto|]. split; [auto|]. split; [reflexivity|]. intros X; contradiction. }
  destruct (K HD sh' cm walk Sh' Lc B Iw (le_n _) Wn Iw) as (cm1 & w1 & E1 & L1 & B1 & I1 & J1 & W1 & Wn1 & Inc1 & C1 & D1 & N1 & P1).
  destruct (K TL st' cm1 w1 St' L1 B1 I1 W1 Wn1 J1) as (cm2 & w2 & E2 & L2 & B2 & I2 & J2 & W2 & Wn2 & Inc2 & C2 & D2 & N2 & P2).
  rewrite E1. cbv beta iota. rewrite E2. cbv beta iota. unfold set_at. rewrite (proj2 (Nat.ltb_lt _ _)) by lia. cbn [obind].
  assert (C12 : forall x, In x (fst cm2) -> In x (fst cm) \/ conn c ts walk x) by (intros x X; destruct (C2 x X) as [Y|Y]; [apply C1; exact Y|auto]).
  assert (Cw : conn c ts walk w2) by (destruct D2 as [->|X]; [destruct D1 as [->|X]; [apply rst_refl|exact X]|exact X]).
  assert (U1 : forall x, nth_error done x = Some true -> nth_error (upd done w2 true) x = Some true) by (intros x X; rewrite nth_error_upd; destruct ((x =? w2) && (w2 <? length done)); auto).
  assert (U2 : forall x, nth_error (upd done w2 true) x = Some true -> nth_error done x = Some true \/ In x (fst cm2)) by (intros x X; rewrite nth_error_upd in X; destruct (Nat.eqb_spec x w2); [subst; auto|cbn in X; auto]).
  assert (End : (sh' = None /\ st' = None) \/ walk < w2).
  { destruct st' as [b|]; [right; apply P2; discriminate|]. rewrite (N2 eq_refl). destruct sh' as [b|]; [right; apply P1; discriminate|auto]. }
  destruct End as [(-> & ->)|Lw].
  - exists cm2, (upd done w2 true). split; [reflexivity|]. split; [exact L2|]. split; [exact B2|]. split; [intros x X; apply Inc2, Inc1, X|]. split; [exact C12|]. split; [rewrite upd_length; exact Ld|]. split; [exact U1|exact U2].
  - assert (E : match sh', st' with None, None => Ok (cm2, upd done w2 true) | _, _ => chain fuel front fh ft ii w2 sh' st' cm2 (upd done w2 true) end = chain fuel front fh ft ii w2 sh' st' cm2 (upd done w2 true)).
    { destruct sh'; [destruct st'; reflexivity|]. destruct st'; [reflexivity|]. rewrite (N2 eq_refl), (N1 eq_refl) in Lw. lia. }
    rewrite E. 
    assert (Any : chain fuel front fh ft ii w2 sh' st' cm2 (upd done w2 true) = chain fuel front fh ft ii w2 None None cm2 (upd done w2 true)).
    { destruct fuel as [|fuel']; [reflexivity|]. cbn [chain]. destruct (Nat.eqb_spec w2 ii); [lia|]. reflexivity. }
    rewrite Any. destruct (IH front ii w2 None None cm2 (upd done w2 true)) as (cm3 & done3 & E3 & L3 & B3 & Inc3 & C3 & Ld3 & U3 & V3); [lia|lia|lia|exact Logic.I|exact Logic.I|rewrite upd_length; exact Ld|exact L2|exact B2|exact I2|].
    exists cm3, done3. split; [exact E3|]. split; [exact L3|]. split; [exact B3|]. split; [intros x X; apply Inc3, Inc2, Inc1, X|].
    split; [intros x X; destruct (C3 x X) as [Y|Y]; [apply C12; exact Y|right; apply (rst_trans _ _ _ w2); assumption]|]. split; [exact Ld3|]. split; [intros x X; apply U3, U1, X|].
    intros x X. destruct (V3 x X) as [Y|Y]; [|auto]. destruct (U2 x Y) as [Z|Z]; [auto|right; apply Inc3; exact Z].
Qed.
End Walk.
