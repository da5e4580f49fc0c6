(** OrderShowerHits: the hits kept; the start of the shower. *)
From Coq Require Import QArith Qround Qcanon Lqa.
From Verif Require Import Base QcUtil Solver_Model Solver_Proofs CMgr_Proofs SPS_Model CCB_Hist EMS_Model EMS_Map EMS_Spec EMS_Assoc EMS_Planes EMS_Order EMS_Iso EMS_Perm EMS_Orient EMS_Final.
Local Open Scope nat_scope.

Lemma order_hits_split np rms gneg ok2 ok3 want hs r : order_hits np rms gneg ok2 ok3 want hs = Ok r ->
  exists m, good hs m /\ orientate np ok2 ok3 m = Ok r.
Proof.
  unfold order_hits. intros E. apply ob in E. destruct E as (m1 & E1 & E). apply ob in E. destruct E as (m2 & E2 & E). exists m2. split; [|exact E].
  apply (isolated_good hs np m1); [|exact E2]. apply (order_planes_good hs np rms gneg want (group hs)); [apply group_good|exact E1].
Qed.
Lemma order_hits_good np rms gneg ok2 ok3 want hs r : order_hits np rms gneg ok2 ok3 want hs = Ok r -> good hs r.
Proof. intros E. destruct (order_hits_split _ _ _ _ _ _ _ _ E) as (m & G & E'). apply (good_re hs m r G). apply (orientate_re ok2 ok3 np m r (proj1 G) E'). Qed.
Lemma good_full hs m : good hs m -> full m.
Proof. intros (O & _ & G). split; [exact O|]. intros p v Hi. apply (G p v Hi). Qed.

Lemma stuck {A B} (l : list A) (b : B -> A -> outcome B) e s r : In e l -> (forall s, b s e = Throw RangeExn) -> foreach l b s <> Ok r.
Proof.
  revert s. induction l as [|y l IH]; intros s He Bb E; [destruct He|]. cbn [foreach] in E. apply ob in E. destruct E as (s1 & E1 & E2).
  destruct He as [->|He]; [rewrite Bb in E1; discriminate|exact (IH s1 He Bb E2)].
Qed.
(** with one plane asked for, a shower with hits on another plane is never ordered *)
Lemma order_hits_one np rms gneg ok2 ok3 want hs r : want <> (-1)%Z -> (exists h, In h hs /\ hpl h <> want) -> order_hits np rms gneg ok2 ok3 want hs <> Ok r.
Proof.
  intros W (h & Hh & D) E. unfold order_hits in E. apply ob in E. destruct E as (m & E & _). unfold order_planes in E.
  apply ob in E. destruct E as ([m1 pr] & E1 & E). cbv zeta in E. cbn [fst snd] in E. apply ob in E. destruct E as (m2 & E2 & _).
  assert (K : (forall p, In p (keys (group hs)) -> In p (keys m1)) /\ forall p, p <> want -> mfind p pr = None).
  { assert (X : forall (l : list (Z * list hit)) (s s' : hmap * zmap Qc), foreach l (fun (r : hmap * zmap Qc) (e : Z * list hit) => if negb (want =? fst e)%Z && negb (want =? -1)%Z then Ok r
        else do o <- find_order (snd e) false; Ok (mset (fst e) o (fst r), mset (fst e) (rms o) (snd r))) s = Ok s' ->
        (forall p, In p (keys (fst s)) -> In p (keys (fst s'))) /\ ((forall p, p <> want -> mfind p (snd s) = None) -> forall p, p <> want -> mfind p (snd s') = None)).
    { induction l as [|e l IH]; intros s s' F; cbn [foreach] in F; [injection F as <-; auto|]. apply ob in F. destruct F as (s1 & F1 & F2). apply IH in F2. destruct F2 as [A B].
      assert (Z : (want =? -1)%Z = false) by (apply Z.eqb_neq, W). rewrite Z in F1. destruct (Z.eqb_spec want (fst e)) as [Q|Q]; cbn [negb andb] in F1; [|injection F1 as <-; auto].
      apply ob in F1. destruct F1 as (o & _ & F1). injection F1 as <-. cbn [fst snd] in A, B. split; [intros p Hp; apply A; apply keys_mset; auto|]. intros N. apply B. intros p Hp. rewrite mfind_mset. destruct (Z.eqb_spec p (fst e)); [congruence|apply N, Hp]. }
    destruct (X _ _ _ E1) as [A B]. split; [exact A|]. apply B. reflexivity. }
  destruct K as [K1 K2]. assert (Hk : In (hpl h) (keys m1)) by (apply K1, (proj1 (proj2 (group_good hs))); eauto).
  unfold keys in Hk. apply in_map_iff in Hk. destruct Hk as (e & Ee & He).
  assert (N : mat (fst e) pr = Throw RangeExn) by (unfold mat; rewrite K2 by (rewrite Ee; exact D); reflexivity).
  revert E2. match goal with |- foreach m1 ?b m1 = Ok m2 -> False => assert (Bb : forall s, b s e = Throw RangeExn) by (intros s; cbv beta; rewrite N; reflexivity); exact (fun E => stuck m1 b e m1 m2 He Bb E) end.
Qed.
