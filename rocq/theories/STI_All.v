(** The whole stitching: what holds for every event *)
From Coq Require Import QArith Qcanon.
From Verif Require Import Base QcUtil Solver_Model CMgr_Proofs STI_Model STI_Spec STI_Find STI_Walk.
Import STI_Model.
Local Open Scope nat_scope.

Section All.
Variables (c : cfg) (ts : list trk) (no : nat).
Hypothesis Pp : proper_points ts.

Definition good (cm : comp) : Prop := fst cm <> [] /\ length (snd cm) + 1 = length (fst cm) /\ (forall x, In x (fst cm) -> x < length ts) /\ (forall x y, In x (fst cm) -> In y (fst cm) -> conn c ts x y).
Definition made (cm : comp) (t : strk) : Prop := good cm /\ laid ts (oriented cm) (snd t).
Definition sinv (s : st) : Prop := Forall2 made (s_comps s) (s_trks s) /\ NoDup (map fst (s_trks s)) /\ no <= s_no s /\ (forall t, In t (s_trks s) -> no <= fst t < s_no s).

Lemma F2_snoc {A B} (R : A -> B -> Prop) l l' a b : Forall2 R l l' -> R a b -> Forall2 R (l ++ [a]) (l' ++ [b]).
Proof. intros F X. apply Forall2_app; [exact F|]. constructor; [exact X|constructor]. Qed.
Lemma nodup_snoc {A} (l : list A) x : NoDup l -> ~ In x l -> NoDup (l ++ [x]).
Proof.
  induction l as [|y l IH]; intros N I; cbn; [constructor; [auto|constructor]|]. inversion N as [|? ? N1 N2]; subst. constructor.
  - intros X. apply in_app_or in X as [X|[X|[]]]; [contradiction|]. subst. apply I. left; reflexivity.
  - apply IH; [exact N2|]. intros X. apply I. right; exact X.
Qed.

Section Walks.
Variables (fh ft : list link).
Hypotheses (Lh : length fh = length ts) (Lt : length ft = length ts) (Oh : all_ok c ts fh) (Ot : all_ok c ts ft).
Definition held (s : st) (x : nat) : Prop := exists cm, In cm (s_comps s) /\ In x (fst cm).
Definition winv (ii : nat) (w : st * list bool) : Prop :=
  sinv (fst w) /\ length (snd w) = length ts /\ (forall x, x < ii -> held (fst w) x) /\ (forall x, nth_error (snd w) x = Some true -> held (fst w) x).
Lemma walk_one_ok ii w : ii < length ts -> winv ii w -> exists w', walk_one ts fh ft w ii = Ok w' /\ winv (Datatypes.S ii) w'.
Proof.
  intros L. destruct w as (s, done). intros ((F & N & Nn & Id) & Ld & Cv & Cd). cbn [fst snd] in *. unfold walk_one.
  destruct (nth_error done ii) as [d|] eqn:Ed; [|apply nth_error_None in Ed; lia]. unfold at_ at 1. rewrite Ed. cbn [obind]. destruct d.
  - eexists. split; [reflexivity|]. split; [split; [exact F|split; [exact N|split; assumption]]|]. split; [exact Ld|]. split; [|exact Cd]. cbn [fst]. intros x X. destruct (Nat.eq_dec x ii) as [->|D]; [apply Cd; exact Ed|apply Cv; lia].
  - destruct (nth_error fh ii) as [h|] eqn:Eh; [|apply nth_error_None in Eh; lia]. destruct (nth_error ft ii) as [t|] eqn:Et; [|apply nth_error_None in Et; lia].
    unfold at_. rewrite Eh. cbn [obind]. rewrite Lh.
    destruct (chain_ok c ts fh ft Lh Lt Oh Ot (Datatypes.S (length ts)) false ii ii h None ([ii], []) done) as (cm1 & d1 & E1 & L1 & B1 & I1 & C1 & Ld1 & U1 & V1); [lia|lia|lia|exact (Oh _ _ Eh)|exact Logic.I|exact Ld|reflexivity|cbn; intros x [<-|[]]; exact L|left; reflexivity|].
    rewrite E1. cbn [obind]. rewrite Et. cbn [obind fst snd].
    destruct (chain_ok c ts fh ft Lh Lt Oh Ot (Datatypes.S (length ts)) true ii ii None t cm1 d1) as (cm2 & d2 & E2 & L2 & B2 & I2 & C2 & Ld2 & U2 & V2); [lia|lia|lia|exact Logic.I|exact (Ot _ _ Et)|exact Ld1|exact L1|exact B1|apply I1; left; reflexivity|].
    rewrite E2. cbn [obind fst snd]. destruct (dedup_ok (length (fst cm2)) 0 cm2 L2) as (cm & E3 & L3 & M). rewrite E3. cbn [obind].
    assert (Ii : In ii (fst cm)) by (apply M, I2, I1; left; reflexivity). assert (Bc : forall x, In x (fst cm) -> x < length ts) by (intros x X; apply B2, M, X).
    assert (Ne : fst cm <> []) by (intros Z; rewrite Z in Ii; destruct Ii). destruct (first_stitch_ok ts cm Pp Ne L3 Bc) as (pts & E4 & La). rewrite E4. cbn [obind]. eexists. split; [reflexivity|].
    assert (Ci : forall x, In x (fst cm) -> conn c ts ii x).
    { intros x X. apply M in X. destruct (C2 x X) as [Y|Y]; [|exact Y]. destruct (C1 x Y) as [[<-|[]]|Z]; [apply rst_refl|exact Z]. }
    assert (G : good cm) by (split; [exact Ne|]; split; [exact L3|]; split; [exact Bc|]; intros x y X Y; apply (rst_trans _ _ _ ii); [apply rst_sym|]; apply Ci; assumption).
    assert (Hd : forall x, held s x -> held (St (s_comps s ++ [cm]) (s_trks s ++ [(s_no s, pts)]) (Datatypes.S (s_no s))) x) by (intros x (k & X & Y); exists k; split; [cbn; apply in_or_app; left; exact X|exact Y]).
    assert (Hn : forall x, In x (fst cm) -> held (St (s_comps s ++ [cm]) (s_trks s ++ [(s_no s, pts)]) (Datatypes.S (s_no s))) x) by (intros x X; exists cm; split; [cbn; apply in_or_app; right; left; reflexivity|exact X]).
    unfold winv. cbn [fst snd]. split; [|split; [exact Ld2|split]].
    + split; [cbn [s_comps s_trks]; apply F2_snoc; [exact F|split; [exact G|exact La]]|]. cbn [s_trks s_no]. split.
      * rewrite map_app. apply nodup_snoc; [exact N|]. intros X. apply in_map_iff in X as (t0 & X & Y). apply Id in Y. cbn [fst] in X. lia.
      * split; [lia|]. intros t0 X. apply in_app_or in X as [X|[<-|[]]]; [apply Id in X; lia|]. cbn [fst]. lia.
    + intros x X. destruct (Nat.eq_dec x ii) as [->|D]; [apply Hn; exact Ii|apply Hd, Cv; lia].
    + intros x X. destruct (V2 x X) as [Y|Y]; [|apply Hn, M; exact Y]. destruct (V1 x Y) as [Z|Z]; [apply Hd, Cd; exact Z|apply Hn, M, I2, Z].
Qed.
Lemma walk_ok : exists s, walk_stitch ts no (fh, ft) = Ok s /\ sinv s /\ forall x, x < length ts -> held s x.
Proof.
  unfold walk_stitch. cbn [fst snd]. rewrite Lh.
  assert (G : forall k, k <= length ts -> exists w, foreach (seq 0 k) (walk_one ts fh ft) (St [] [] no, repeat false (length ts)) = Ok w /\ winv k w).
  { induction k as [|k IH]; intros B.
    - eexists. split; [reflexivity|]. split; [split; [constructor|split; [constructor|split; [cbn; lia|intros t []]]]|]. split; [apply repeat_length|]. split; [intros x X; lia|].
      cbn [snd]. intros x X. assert (nth_error (repeat false (length ts)) x <> Some true); [|contradiction]. intros Y. apply nth_error_In in Y. apply repeat_spec in Y. discriminate.
    - destruct IH as (w & E & J); [lia|]. rewrite seq_S, CMgr_Proofs.foreach_app, E. cbn [obind foreach Nat.add]. destruct (walk_one_ok k w) as (w' & E' & J'); [lia|exact J|]. rewrite E'. cbn [obind]. eauto. }
  destruct (G (length ts) (le_n _)) as (w & E & (S & _ & Cv & _)). rewrite E. cbn [obind]. exists (fst w). split; [reflexivity|]. split; [exact S|exact Cv].
Qed.
End Walks.

(* ---------------------------------------------------------------- CommonComponentStitch *)
Lemma in_quads cs i j a b : In (i, j, a, b) (quads cs) <-> i < j < length cs /\ a < length (fst (nth i cs ([], []))) /\ b < length (fst (nth j cs ([], []))).
Proof.
  unfold quads. split.
  - intros X. apply in_flat_map in X as (i' & Ii & X). apply in_flat_map in X as (j' & Ij & X). apply in_flat_map in X as (a' & Ia & X). apply in_map_iff in X as (b' & E & Ib). injection E as -> -> -> ->.
    apply in_seq in Ii, Ia, Ib. unfold range in Ij. apply in_seq in Ij. lia.
  - intros ((L1 & L2) & L3 & L4). apply in_flat_map. exists i. split; [apply in_seq; lia|]. apply in_flat_map. exists j. split; [unfold range; apply in_seq; lia|].
    apply in_flat_map. exists a. split; [apply in_seq; lia|]. apply in_map_iff. exists b. split; [reflexivity|apply in_seq; lia].
Qed.
Definition apart (cs : list comp) : Prop := forall i j ci cj x, i < j -> nth_error cs i = Some ci -> nth_error cs j = Some cj -> In x (fst ci) -> In x (fst cj) -> False.
(** the first pair of composites with a track in common, where it is in each *)
Lemma find_none cs : find (same cs) (quads cs) = None -> apart cs.
Proof.
  intros E i j ci cj x L Ei Ej Xi Xj. apply In_nth_error in Xi as (a & Xi). apply In_nth_error in Xj as (b & Xj).
  pose proof (find_none _ _ E (i, j, a, b)) as Q. rewrite in_quads in Q. cbn [same] in Q. rewrite (nth_error_nth _ _ _ Ei), (nth_error_nth _ _ _ Ej), (nth_error_nth _ _ _ Xi), (nth_error_nth _ _ _ Xj), Nat.eqb_refl in Q.
  assert (true = false); [|discriminate]. apply Q. assert (j < length cs) by (apply nth_error_Some; congruence). assert (a < length (fst ci)) by (apply nth_error_Some; congruence). assert (b < length (fst cj)) by (apply nth_error_Some; congruence). lia.
Qed.
Lemma find_some cs i j a b : find (same cs) (quads cs) = Some (i, j, a, b) -> exists ci cj x, i < j /\ nth_error cs i = Some ci /\ nth_error cs j = Some cj /\ nth_error (fst ci) a = Some x /\ nth_error (fst cj) b = Some x.
Proof.
  intros E. destruct (List.find_some _ _ E) as (I & X). apply in_quads in I as ((L1 & L2) & L3 & L4). cbn [same] in X. apply Nat.eqb_eq in X.
  destruct (nth_error cs i) as [ci|] eqn:Ei; [|apply nth_error_None in Ei; lia]. destruct (nth_error cs j) as [cj|] eqn:Ej; [|apply nth_error_None in Ej; lia].
  rewrite (nth_error_nth _ _ _ Ei) in L3, X. rewrite (nth_error_nth _ _ _ Ej) in L4, X. exists ci, cj, (nth a (fst ci) 0). split; [exact L1|]. split; [reflexivity|]. split; [reflexivity|].
  split; [apply nth_error_nth'; exact L3|]. rewrite X. apply nth_error_nth'; exact L4.
Qed.
Lemma F2_upd {A B} (R : A -> B -> Prop) l l' : Forall2 R l l' -> forall j a b, R a b -> Forall2 R (upd l j a) (upd l' j b).
Proof. induction 1 as [|x y l l' X F IH]; intros [|j] a b Y; cbn; constructor; auto. Qed.
Lemma F2_remove {A B} (R : A -> B -> Prop) l l' : Forall2 R l l' -> forall j, Forall2 R (remove_at j l) (remove_at j l').
Proof. induction 1 as [|x y l l' X F IH]; intros [|j]; cbn; try constructor; auto. Qed.
Lemma map_upd {A B} (f : A -> B) l : forall j x, map f (upd l j x) = upd (map f l) j (f x).
Proof. induction l as [|y l IH]; intros [|j] x; cbn; try reflexivity. f_equal. apply IH. Qed.
Lemma map_remove {A B} (f : A -> B) l : forall j, map f (remove_at j l) = remove_at j (map f l).
Proof. induction l as [|y l IH]; intros [|j]; cbn; try reflexivity. f_equal. apply IH. Qed.
Lemma in_upd {A} (l : list A) : forall j x y, In y (upd l j x) -> In y l \/ y = x.
Proof. induction l as [|z l IH]; intros [|j] x y X; cbn in *; auto; destruct X as [X|X]; auto. destruct (IH j x y X); auto. Qed.
Lemma nodup_upd {A} (l : list A) : forall j x, NoDup l -> ~ In x l -> NoDup (upd l j x).
Proof.
  induction l as [|z l IH]; intros [|j] x N I; cbn; auto; inversion N; subst.
  - constructor; [intros X; apply I; right; exact X|assumption].
  - constructor; [|apply IH; [assumption|intros X; apply I; right; exact X]]. intros X. apply in_upd in X as [X|X]; [contradiction|]. subst. apply I. left; reflexivity.
Qed.
Lemma nodup_remove {A} (l : list A) : forall j, NoDup l -> NoDup (remove_at j l).
Proof. induction l as [|z l IH]; intros [|j] N; cbn; auto; inversion N; subst; [assumption|]. constructor; [intros X; apply remove_in in X; contradiction|apply IH; assumption]. Qed.
Lemma F2_nth1 {A B} (R : A -> B -> Prop) l l' : Forall2 R l l' -> forall i a, nth_error l i = Some a -> exists b, nth_error l' i = Some b /\ R a b.
Proof. induction 1 as [|x y l l' X F IH]; intros [|i] a E; cbn in *; try discriminate; [injection E as <-; eauto|apply IH; exact E]. Qed.

(** one call *)
Definition at_end (x : nat) (l : list nat) : Prop := (exists r, l = x :: r) \/ (exists r, l = r ++ [x]).
Lemma common_ok s : sinv s -> (apart (s_comps s) /\ common ts s = Ok None) \/
  (exists s', common ts s = Ok (Some s') /\ sinv s' /\ length (s_comps s') + 1 = length (s_comps s) /\ (forall x, held s' x -> held s x) /\
    ((forall i j ci cj x, i < j -> nth_error (s_comps s) i = Some ci -> nth_error (s_comps s) j = Some cj -> In x (fst ci) -> In x (fst cj) -> NoDup (fst cj) /\ at_end x (fst cj)) -> forall x, held s x -> held s' x)).
Proof.
  intros (F & N & Nn & Id). unfold common. destruct (find (same (s_comps s)) (quads (s_comps s))) as [(((i, j), a), b)|] eqn:E; [|left; split; [apply find_none; exact E|reflexivity]]. right.
  apply find_some in E as (ci & cj & x0 & L & Ei & Ej & Xa & Xb). unfold idx. rewrite Ei, Ej. cbn [obind].
  destruct (F2_nth1 _ _ _ F _ _ Ei) as (ti & Eti & Gi & _). destruct (F2_nth1 _ _ _ F _ _ Ej) as (tj & Etj & Gj & _).
  destruct Gi as (Ni & Li & Bi & Ci). destruct Gj as (Nj & Lj & Bj & Cj).
  assert (La : a < length (fst ci)) by (apply nth_error_Some; congruence). assert (Lb : b < length (fst cj)) by (apply nth_error_Some; congruence).
  pose proof (remove_length (fst ci) a La) as Lr. set (rest := remove_at a (fst ci)) in *.
  assert (Hr : length rest <= length (snd ci)) by lia.
  set (nc := (if b =? 0 then (rest ++ fst cj, firstn (length rest) (snd ci) ++ snd cj) else if b =? length (fst cj) - 1 then (fst cj ++ rest, snd cj ++ firstn (length rest) (snd ci)) else cj) : comp).
  assert (En : (if b =? 0 then if length rest <=? length (snd ci) then Ok (rest ++ fst cj, firstn (length rest) (snd ci) ++ snd cj) else Undef
      else if b =? length (fst cj) - 1 then if length rest <=? length (snd ci) then Ok (fst cj ++ rest, snd cj ++ firstn (length rest) (snd ci)) else Undef else Ok cj) = Ok nc).
  { unfold nc. rewrite (proj2 (Nat.leb_le _ _) Hr). destruct (b =? 0); [reflexivity|]. destruct (b =? length (fst cj) - 1); reflexivity. }
  rewrite En. cbn [obind].
  assert (Ix : In x0 (fst ci)) by (apply (nth_error_In _ _ Xa)). assert (Jx : In x0 (fst cj)) by (apply (nth_error_In _ _ Xb)).
  assert (Sub : forall x, In x (fst nc) -> In x (fst ci) \/ In x (fst cj)).
  { intros x X. unfold nc in X. destruct (b =? 0); [cbn [fst] in X; apply in_app_or in X as [X|X]; [left; apply (remove_in _ a); exact X|auto]|].
    destruct (b =? length (fst cj) - 1); [cbn [fst] in X; apply in_app_or in X as [X|X]; [auto|left; apply (remove_in _ a); exact X]|auto]. }
  assert (Sup : forall x, In x (fst cj) -> In x (fst nc)) by (intros x X; unfold nc; destruct (b =? 0); [cbn; apply in_or_app; auto|]; destruct (b =? length (fst cj) - 1); [cbn; apply in_or_app; auto|exact X]).
  assert (Gn : good nc).
  { split; [intros Z; specialize (Sup x0 Jx); rewrite Z in Sup; exact Sup|]. split.
    - unfold nc. destruct (b =? 0); [cbn [fst snd]; rewrite !app_length, firstn_length; lia|]. destruct (b =? length (fst cj) - 1); [cbn [fst snd]; rewrite !app_length, firstn_length; lia|exact Lj].
    - assert (Cx : forall x, In x (fst nc) -> conn c ts x0 x) by (intros x X; destruct (Sub x X) as [Y|Y]; [apply Ci; assumption|apply Cj; assumption]).
      split; [intros x X; destruct (Sub x X); auto|]. intros x y X Y. apply (rst_trans _ _ _ x0); [apply rst_sym|]; apply Cx; assumption. }
  destruct (first_stitch_ok ts nc Pp (proj1 Gn) (proj1 (proj2 Gn)) (proj1 (proj2 (proj2 Gn)))) as (pts & E4 & Lp). rewrite E4. cbn [obind].
  assert (Ljc : j < length (s_comps s)) by (apply nth_error_Some; congruence).
  eexists. split; [reflexivity|]. split; [|split; [|split]].
  - split; [cbn [s_comps s_trks]; apply F2_remove, F2_upd; [exact F|split; [exact Gn|exact Lp]]|]. cbn [s_trks s_no]. split; [|split; [lia|]].
    + rewrite map_remove, map_upd. apply nodup_remove, nodup_upd; [exact N|]. cbn [fst]. intros X. apply in_map_iff in X as (t0 & X & Y). apply Id in Y. lia.
    + intros t0 X. apply remove_in, in_upd in X as [X|X]; [apply Id in X; lia|subst; cbn [fst]; lia].
  - cbn [s_comps]. pose proof (remove_length (upd (s_comps s) j nc) i). rewrite upd_length in H. lia.
  - intros x (cm & X & Y). cbn [s_comps] in X. apply remove_in, in_upd in X as [X|X]; [exists cm; auto|]. subst cm. destruct (Sub x Y) as [Z|Z]; [exists ci|exists cj]; (split; [|exact Z]); eapply nth_error_In; eassumption.
  - intros Ends x (cm & X & Y). apply In_nth_error in X as (k & X).
    assert (Jn : In nc (remove_at i (upd (s_comps s) j nc))).
    { apply (nth_error_In _ (j - 1)). rewrite remove_nth. destruct (Nat.ltb_spec (j - 1) i); [lia|]. replace (Datatypes.S (j - 1)) with j by lia. rewrite nth_error_upd, Nat.eqb_refl, (proj2 (Nat.ltb_lt _ _) Ljc). reflexivity. }
    destruct (Nat.eq_dec k i) as [Q|Q].
    + subst k. rewrite Ei in X. injection X as <-. exists nc. split; [exact Jn|].
      destruct (Ends i j ci cj x0 L Ei Ej Ix Jx) as (Nd & En').
      assert (Bb : b = 0 \/ b = length (fst cj) - 1).
      { rewrite NoDup_nth_error in Nd. destruct En' as [(r & Z)|(r & Z)].
        - left. apply Nd; [exact Lb|]. rewrite Xb, Z. reflexivity.
        - right. apply Nd; [exact Lb|]. rewrite Xb, Z, app_length. cbn [length]. rewrite nth_error_app2 by lia. replace (length r + 1 - 1 - length r) with 0 by lia. reflexivity. }
      destruct (in_remove (fst ci) a x Y) as [Z|Z]; [|assert (x = x0) by congruence; subst; apply Sup; exact Jx].
      unfold nc. destruct (Nat.eqb_spec b 0); [cbn; apply in_or_app; auto|]. destruct (Nat.eqb_spec b (length (fst cj) - 1)); [cbn; apply in_or_app; auto|]. tauto.
    + destruct (Nat.eq_dec k j) as [Q'|Q']; [subst k; rewrite Ej in X; injection X as <-; exists nc; split; [exact Jn|apply Sup; exact Y]|].
      exists cm. split; [|exact Y]. cbn [s_comps]. apply (nth_error_In _ (if k <? i then k else k - 1)). rewrite remove_nth.
      assert (Hk : (if (if k <? i then k else k - 1) <? i then (if k <? i then k else k - 1) else Datatypes.S (if k <? i then k else k - 1)) = k).
      { destruct (Nat.ltb_spec k i); [destruct (Nat.ltb_spec k i); lia|]. destruct (Nat.ltb_spec (k - 1) i); lia. }
      rewrite Hk, nth_error_upd. destruct (Nat.eqb_spec k j); [contradiction|]. exact X.
Qed.
Lemma common_all_ok fuel : forall s, sinv s -> length (s_comps s) < fuel -> exists s', common_all fuel ts s = Ok s' /\ sinv s' /\ apart (s_comps s') /\ (forall x, held s' x -> held s x).
Proof.
  induction fuel as [|fuel IH]; intros s S L; [lia|]. cbn [common_all]. destruct (common_ok s S) as [(A & E)|(s' & E & S' & L' & K & _)]; rewrite E; cbn [obind]; [exists s; auto|].
  destruct (IH s' S') as (s2 & E2 & S2 & A2 & K2); [lia|]. exists s2. split; [exact E2|]. split; [exact S2|]. split; [exact A2|]. auto.
Qed.
Theorem stitch_ok both : exists s, stitch c both no ts = Ok s /\ sinv s /\ (both = true -> apart (s_comps s)) /\ (both = false -> forall x, x < length ts -> held s x).
Proof.
  destruct (find_ok c ts) as (fh & ft & E & L1 & L2 & O1 & O2 & _). unfold stitch. rewrite E. cbn [obind]. destruct (walk_ok fh ft L1 L2 O1 O2) as (s & E1 & S & Cv). rewrite E1. cbn [obind].
  destruct both; [|exists s; split; [reflexivity|]; split; [exact S|]; split; [discriminate|auto]].
  destruct (common_all_ok (Datatypes.S (length (s_comps s))) s S) as (s' & E2 & S' & A & _); [lia|]. exists s'. split; [exact E2|]. split; [exact S'|]. split; [auto|discriminate].
Qed.
End All.
