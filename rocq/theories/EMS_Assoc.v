(** Proofs about AssociateClustersAndTracks and FindShowers. *)
From Coq Require Import QArith Qcanon.
From Verif Require Import Base QcUtil RFF_Spec GHF_Any Solver_Model Solver_Proofs CMgr_Proofs EMS_Model EMS_Map EMS_Spec.
Local Open Scope nat_scope.

Section Assoc.
Variables (fmh fmt : list (list nat)) (len : nat -> Qc) (minlen : Qc) (ign : list Z).
Definition amap : Type := (zmap (list Z) * zmap (list Z))%type.

Definition link (c h : nat) : option nat :=
  match nth_error fmt h with
  | Some [t] => if qc_lt (len t) minlen then None else if zmem (Z.of_nat c) ign then None else Some t
  | _ => None
  end.
Definition astep (s : amap) (c t : nat) : amap :=
  (if zmem (Z.of_nat t) (mvec (Z.of_nat c) (fst s)) then fst s else mpush (Z.of_nat c) (Z.of_nat t) (fst s),
   if zmem (Z.of_nat c) (mvec (Z.of_nat t) (snd s)) then snd s else mpush (Z.of_nat t) (Z.of_nat c) (snd s)).
Lemma assoc_hit_eq c s h : h < length fmt ->
  assoc_hit fmt len minlen ign c s h = Ok (match link c h with Some t => astep s c t | None => s end).
Proof.
  intros H. unfold assoc_hit, link, at_. destruct (nth_error fmt h) as [ts|] eqn:E; [|apply nth_error_None in E; lia]. cbn [obind].
  destruct ts as [|t [|? ?] ]; try reflexivity. destruct (qc_lt (len t) minlen); [reflexivity|].
  cbv zeta. destruct (zmem (Z.of_nat c) ign); reflexivity.
Qed.

(** the state after links [L] *)
Definition Inv (L : list (nat * nat)) (s : amap) : Prop :=
  (forall k, NoDup (mvec k (fst s))) /\ (forall k, NoDup (mvec k (snd s))) /\
  (forall c z, In z (mvec c (fst s)) <-> exists c' t', c = Z.of_nat c' /\ z = Z.of_nat t' /\ In (c', t') L) /\
  (forall t z, In z (mvec t (snd s)) <-> exists c' t', t = Z.of_nat t' /\ z = Z.of_nat c' /\ In (c', t') L) /\
  ordered (fst s) /\ ordered (snd s) /\
  (forall k l, mfind k (fst s) = Some l -> l <> []) /\ (forall k l, mfind k (snd s) = Some l -> l <> []).

Lemma ndsnoc {A} (l : list A) x : NoDup l -> ~ In x l -> NoDup (l ++ [x]).
Proof. intros N H. apply (NoDup_Add (a := x) (l := l)); [rewrite <- (app_nil_r l) at 1; apply Add_app|auto]. Qed.

(** adding [x] to the set at [k] *)
Lemma addk (m : zmap (list Z)) (R : Z -> Z -> Prop) k x :
  (forall j, NoDup (mvec j m)) -> (forall j z, In z (mvec j m) <-> R j z) -> ordered m -> (forall j l, mfind j m = Some l -> l <> []) ->
  let m' := if zmem x (mvec k m) then m else mpush k x m in
  (forall j, NoDup (mvec j m')) /\ (forall j z, In z (mvec j m') <-> R j z \/ (j = k /\ z = x)) /\ ordered m' /\ (forall j l, mfind j m' = Some l -> l <> []).
Proof.
  intros N HR O E. cbv zeta. destruct (zmem x (mvec k m)) eqn:M.
  - apply zmem_spec in M. split; [exact N|]. split; [|auto]. intros j z. rewrite HR. split; [auto|]. intros [H|[-> ->] ]; [exact H|apply HR, M].
  - apply zmem_false in M. split; [|split; [|split] ].
    + intros j. rewrite mvec_mpush. destruct (j =? k)%Z; [apply ndsnoc; [apply N|exact M]|apply N].
    + intros j z. rewrite mvec_mpush. destruct (Z.eqb_spec j k) as [->|Ne].
      * rewrite in_app_iff, HR. cbn. intuition.
      * rewrite HR. intuition.
    + apply ordered_mset, O.
    + intros j l. unfold mpush. rewrite mfind_mset. destruct (j =? k)%Z; [|apply E]. intros [= <-]. destruct (mvec k m); discriminate.
Qed.

Lemma astep_inv L s c t : Inv L s -> Inv (L ++ [(c, t)]) (astep s c t).
Proof.
  intros (N1 & N2 & R1 & R2 & O1 & O2 & E1 & E2).
  destruct (addk (fst s) _ (Z.of_nat c) (Z.of_nat t) N1 R1 O1 E1) as (A1 & A2 & A3 & A4).
  destruct (addk (snd s) _ (Z.of_nat t) (Z.of_nat c) N2 R2 O2 E2) as (B1 & B2 & B3 & B4).
  unfold Inv, astep. cbn [fst snd]. split; [exact A1|]. split; [exact B1|]. split; [|split; [|auto] ].
  - intros j z. rewrite A2. split.
    + intros [(c' & t' & -> & -> & H)|[-> ->] ]; eexists _, _; (split; [reflexivity|]); (split; [reflexivity|]); apply in_app_iff; [left; exact H|right; left; reflexivity].
    + intros (c' & t' & -> & -> & H). apply in_app_iff in H. destruct H as [H|[ [= -> ->]|[] ] ]; [left; eauto 6|right; auto].
  - intros j z. rewrite B2. split.
    + intros [(c' & t' & -> & -> & H)|[-> ->] ]; eexists _, _; (split; [reflexivity|]); (split; [reflexivity|]); apply in_app_iff; [left; exact H|right; left; reflexivity].
    + intros (c' & t' & -> & -> & H). apply in_app_iff in H. destruct H as [H|[ [= -> ->]|[] ] ]; [left; eauto 6|right; auto].
Qed.

(** links of one cluster *)
Definition links1 (c : nat) (hs : list nat) : list (nat * nat) := flat_map (fun h => match link c h with Some t => [(c, t)] | None => [] end) hs.
Definition grows (c : Z) (s s' : amap) : Prop := forall t, mvec t (snd s') = mvec t (snd s) \/ mvec t (snd s') = mvec t (snd s) ++ [c].
Lemma cluster_ok c hs : (forall h, In h hs -> h < length fmt) -> forall L s, Inv L s ->
  exists s', foreach hs (assoc_hit fmt len minlen ign c) s = Ok s' /\ Inv (L ++ links1 c hs) s' /\
    (forall t, In (Z.of_nat c) (mvec t (snd s)) -> mvec t (snd s') = mvec t (snd s)) /\ grows (Z.of_nat c) s s'.
Proof.
  induction hs as [|h hs IH]; intros V L s HI; cbn [foreach links1 flat_map].
  - exists s. rewrite app_nil_r. split; [reflexivity|]. split; [exact HI|]. split; [auto|]. intros t. left; reflexivity.
  - rewrite (assoc_hit_eq c s h (V h (or_introl eq_refl))). cbn [obind].
    assert (V' : forall h, In h hs -> h < length fmt) by (intros; apply V; right; assumption).
    destruct (link c h) as [t|] eqn:Lk.
    + destruct (IH V' _ _ (astep_inv L s c t HI)) as (s' & E & HI' & K & G). exists s'. split; [exact E|].
      split; [rewrite app_assoc; exact HI'|].
      assert (St : forall t0, mvec t0 (snd (astep s c t)) = if ((t0 =? Z.of_nat t)%Z && negb (zmem (Z.of_nat c) (mvec (Z.of_nat t) (snd s))))%bool then mvec t0 (snd s) ++ [Z.of_nat c] else mvec t0 (snd s)).
      { intros t0. unfold astep. cbn [snd]. destruct (zmem (Z.of_nat c) (mvec (Z.of_nat t) (snd s))).
        - rewrite andb_false_r. reflexivity.
        - rewrite andb_true_r, mvec_mpush. destruct (Z.eqb_spec t0 (Z.of_nat t)) as [->|]; reflexivity. }
      assert (K0 : forall t0, In (Z.of_nat c) (mvec t0 (snd s)) -> mvec t0 (snd (astep s c t)) = mvec t0 (snd s)).
      { intros t0 Hi. rewrite St. destruct (Z.eqb_spec t0 (Z.of_nat t)) as [->|]; [|reflexivity].
        rewrite (proj2 (zmem_spec _ _) Hi). reflexivity. }
      split.
      * intros t0 Hi. rewrite K; [apply K0, Hi|rewrite K0; auto].
      * intros t0. specialize (St t0). match type of St with _ = (if ?b then _ else _) => destruct b end.
        -- right. rewrite K; [exact St|]. rewrite St. apply in_app_iff. right; left; reflexivity.
        -- destruct (G t0) as [-> | ->]; rewrite St; auto.
    + destruct (IH V' L s HI) as (s' & E & HI' & K & G). exists s'. cbn [app]. auto.
Qed.

Definition links (cls : list nat) : list (nat * nat) := flat_map (fun c => links1 c (nth c fmh [])) cls.
Lemma in_link c h t : link c h = Some t <-> nth_error fmt h = Some [t] /\ (minlen <= len t)%Qc /\ ~ In (Z.of_nat c) ign.
Proof.
  unfold link. destruct (nth_error fmt h) as [ts|]; [|split; [discriminate|intros (E & _); discriminate] ].
  destruct ts as [|t' [|? ?] ]; try (split; [discriminate|intros (E & _); discriminate]).
  destruct (qc_lt (len t') minlen) eqn:Q.
  - split; [discriminate|]. intros ([= ->] & Le & _). apply qc_lt_spec in Q. exfalso. exact (Qclt_not_le _ _ Q Le).
  - apply qc_lt_false in Q. destruct (zmem (Z.of_nat c) ign) eqn:M.
    + apply zmem_spec in M. split; [discriminate|]. intros (_ & _ & X). contradiction.
    + apply zmem_false in M. split; [intros [= ->]; auto|]. intros ([= ->] & _ & _). reflexivity.
Qed.
Lemma in_links cls c t : valid_assns cls fmh fmt -> (In (c, t) (links cls) <-> In c cls /\ linked fmh fmt len minlen ign c t).
Proof.
  intros V. unfold links, links1. rewrite in_flat_map. split.
  - intros (c' & Hc & H). apply in_flat_map in H. destruct H as (h & Hh & H).
    destruct (link c' h) as [t'|] eqn:Lk; [|destruct H]. destruct H as [[= -> ->]|[] ].
    split; [exact Hc|]. apply in_link in Lk. destruct Lk as (A & B & C). split; [exact C|].
    destruct (V c Hc) as (hs & E & _). exists hs, h. rewrite (nth_error_nth _ _ [] E) in Hh. auto.
  - intros [Hc (C & hs & h & E & Hh & A & B)]. exists c. split; [exact Hc|]. apply in_flat_map. exists h.
    rewrite (nth_error_nth _ _ [] E). split; [exact Hh|]. rewrite (proj2 (in_link c h t)); [left; reflexivity|auto].
Qed.

Lemma associate_ok cls : valid_assns cls fmh fmt -> forall L s, Inv L s ->
  exists s', associate cls fmh fmt len minlen ign s = Ok s' /\ Inv (L ++ links cls) s' /\
    forall pre, (forall t, subseq (mvec t (snd s)) (map Z.of_nat pre)) -> forall t, subseq (mvec t (snd s')) (map Z.of_nat (pre ++ cls)).
Proof.
  unfold associate. induction cls as [|c cls IH]; intros V L s HI; cbn [foreach links flat_map].
  - exists s. rewrite app_nil_r. split; [reflexivity|]. split; [exact HI|]. intros pre H t. rewrite app_nil_r. apply H.
  - destruct (V c (or_introl eq_refl)) as (hs & E & Vh). unfold at_. rewrite E. cbn [obind].
    destruct (cluster_ok c hs Vh L s HI) as (s1 & E1 & HI1 & K & G). rewrite E1. cbn [obind].
    destruct (IH (fun x Hx => V x (or_intror Hx)) _ _ HI1) as (s2 & E2 & HI2 & Sub). exists s2. split; [exact E2|].
    rewrite (nth_error_nth _ _ [] E), app_assoc. split; [exact HI2|]. intros pre H t.
    replace (pre ++ c :: cls) with ((pre ++ [c]) ++ cls) by (rewrite <- app_assoc; reflexivity). apply Sub.
    intros t'. rewrite map_app. destruct (G t') as [-> | ->].
    + rewrite <- (app_nil_r (mvec t' (snd s))). apply subseq_app; [apply H|apply ss_same_nil].
    + apply subseq_app; [apply H|]. cbn. constructor. constructor.
Qed.
Lemma inv0 : Inv [] ([], []).
Proof.
  unfold Inv, mvec, ordered. cbn [fst snd mfind keys map]. do 2 (split; [constructor|]).
  do 2 (split; [intros ? ?; split; [intros [] | intros (? & ? & _ & _ & [])]|]). do 2 (split; [constructor|]). split; discriminate.
Qed.
Lemma associate_valid cls s s' : associate cls fmh fmt len minlen ign s = Ok s' -> valid_assns cls fmh fmt.
Proof.
  unfold associate, valid_assns. revert s. induction cls as [|c cls IH]; intros s E x Hx; [destruct Hx|]. cbn [foreach] in E.
  unfold at_ in E at 1. destruct (nth_error fmh c) as [hs|] eqn:Q; cbn [obind] in E; [|discriminate].
  destruct (foreach hs (assoc_hit fmt len minlen ign c) s) as [s1| |] eqn:F; cbn [obind] in E; try discriminate.
  destruct Hx as [<-|Hx]; [|exact (IH _ E x Hx)]. exists hs. split; [exact Q|]. clear - F. revert s F.
  induction hs as [|a hs IH]; intros s F h Hh; [destruct Hh|]. cbn [foreach] in F.
  destruct (assoc_hit fmt len minlen ign c s a) as [s2| |] eqn:G; cbn [obind] in F; try discriminate.
  destruct Hh as [<-|Hh]; [|exact (IH _ F h Hh)]. unfold assoc_hit, at_ in G. destruct (nth_error fmt a) eqn:Z; cbn in G; [|discriminate].
  apply nth_error_Some. congruence.
Qed.
Lemma associate_throw cls s : associate cls fmh fmt len minlen ign s <> Undef /\ forall e, associate cls fmh fmt len minlen ign s = Throw e -> e = RangeExn.
Proof.
  assert (Hh : forall c hs s, foreach hs (assoc_hit fmt len minlen ign c) s <> Undef /\ forall e, foreach hs (assoc_hit fmt len minlen ign c) s = Throw e -> e = RangeExn).
  { intros c hs. induction hs as [|a hs IH]; intros s0; cbn [foreach]; [split; discriminate|].
    unfold assoc_hit at 1 3, at_. destruct (nth_error fmt a) as [ts|]; cbn [obind]; [|split; [discriminate|intros e [= <-]; reflexivity] ].
    destruct ts as [|t [|? ?] ]; cbn [obind]; try apply IH. destruct (qc_lt (len t) minlen); cbn [obind]; try apply IH.
    cbv zeta. destruct (zmem (Z.of_nat c) ign); cbn [obind]; apply IH. }
  unfold associate. revert s. induction cls as [|c cls IH]; intros s; cbn [foreach]; [split; discriminate|].
  unfold at_. destruct (nth_error fmh c) as [hs|]; cbn [obind]; [|split; [discriminate|intros e [= <-]; reflexivity] ].
  destruct (foreach hs (assoc_hit fmt len minlen ign c) s) as [s1|e|] eqn:F; cbn [obind].
  - apply IH.
  - split; [discriminate|]. intros e' [= <-]. apply (Hh c hs s), F.
  - exfalso. apply (proj1 (Hh c hs s)), F.
Qed.
End Assoc.
