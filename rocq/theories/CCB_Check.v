(** CheckHitClusterAssociations. *)
From Verif Require Import Base SortUtil CCB_Model CCB_Spec CCB_Store CCB_Hist.
Local Open Scope nat_scope.

(** the cluster at place k has ID k+1, or minus that when obsolete *)
Definition numbered (s : st) : Prop := forall k c, nth_error (tcl s) k = Some c -> cid c = Z.of_nat (S k) \/ cid c = (- Z.of_nat (S k))%Z.

Definition in1 (s : st) (c : clus) : chk -> nat -> outcome chk := fun r h => match r with Stop n => Ok (Stop n) | Go n =>
      if (0 <? length (hits s)) && (length (hits s) - 1 <? h) then Ok (Stop (S n))
      else do v <- idx (inc s) h; if (v =? cid c)%Z then Ok (Go n) else Ok (err n) end.
Definition out1 (s : st) : chk -> clus -> outcome chk := fun r c => match r with Stop n => Ok (Stop n) | Go n =>
    if (cid c <? 0)%Z then Ok (Go n) else foreach (ch c) (in1 s c) (Go n) end.
Definition step2 (s : st) : chk -> nat -> outcome chk := fun r h => match r with Stop n => Ok (Stop n) | Go n =>
    do v <- idx (inc s) h;
    if (v <=? 0)%Z then Ok (Go n)
    else do c <- idx (tcl s) (Z.to_nat v - 1);
         match (if (cid c <? 0)%Z then err n else Go n) with
         | Stop n => Ok (Stop n)
         | Go n => if existsb (Nat.eqb h) (ch c) then Ok (Go n) else Ok (err n)
         end end.
Lemma chk1_eq s : chk1 s = foreach (tcl s) (out1 s) (Go 0). Proof. reflexivity. Qed.
Lemma chk2_eq s n : chk2 s n = foreach (seq 0 (length (hits s))) (step2 s) (Go n).
Proof. unfold chk2. change (for_ (seq 0 (length (hits s))) (step2 s) (Go n) = foreach (seq 0 (length (hits s))) (step2 s) (Go n)). generalize (Go n). induction (seq 0 (length (hits s))) as [|a l IH]; intros x; cbn [for_ foreach]; [reflexivity|]. destruct (step2 s x a); cbn [obind]; auto. Qed.

Definition val (r : chk) : nat := match r with Go n => n | Stop n => n end.
(** no errors so far *)
Lemma fe_zero {A} (f : chk -> A -> outcome chk) (l : list A) r :
  (forall x y a, f x a = Ok y -> val y = 0 -> val x = 0 /\ (x = Go 0 -> y = Go 0)) ->
  foreach l f (Go 0) = Ok r -> val r = 0 -> r = Go 0 /\ forall a, In a l -> f (Go 0) a = Ok (Go 0).
Proof.
  intros F. assert (B : forall l x y, foreach l f x = Ok y -> val y = 0 -> val x = 0).
  { clear l r. induction l as [|a l IH]; intros x y E V; cbn [foreach] in E; [congruence|]. apply ob in E. destruct E as (z & E1 & E2). apply (F x z a E1). eapply IH; eauto. }
  revert r. induction l as [|a l IH]; intros r E V; cbn [foreach] in E; [injection E as <-; split; [auto|intros a []]|]. apply ob in E. destruct E as (z & E1 & E2).
  pose proof (B _ _ _ E2 V) as Vz. destruct (F _ _ _ E1 Vz) as (_ & Q). specialize (Q eq_refl). subst z. destruct (IH r E2 V) as (A1 & A2). split; [auto|]. intros b [<-|I]; auto.
Qed.
Lemma fe_go {A} (f : chk -> A -> outcome chk) (l : list A) : (forall a, In a l -> f (Go 0) a = Ok (Go 0)) -> foreach l f (Go 0) = Ok (Go 0).
Proof. induction l as [|a l IH]; intros F; [reflexivity|]. cbn [foreach]. rewrite F by (left; auto). cbn [obind]. apply IH. intros b I. apply F. right. auto. Qed.

Lemma err_pos n : val (err n) <> 0. Proof. unfold err. destruct (10 <? S n); simpl; lia. Qed.
Lemma in1_zero s c x y h : in1 s c x h = Ok y -> val y = 0 -> val x = 0 /\ (x = Go 0 -> y = Go 0).
Proof.
  intros E V. destruct x as [n|n]; cbn [in1] in E; [|injection E as <-; split; [exact V|discriminate]].
  match type of E with (if ?c then _ else _) = _ => destruct c end; [injection E as <-; simpl in V; lia|]. apply ob in E. destruct E as (v & _ & E). destruct (v =? cid c)%Z; injection E as <-.
  - simpl in *. split; auto.
  - destruct (err_pos n V).
Qed.
Lemma stop_in s c : forall l n, foreach l (in1 s c) (Stop n) = Ok (Stop n).
Proof. induction l; intros; cbn; auto. Qed.
Lemma in1_back s c : forall l x y, foreach l (in1 s c) x = Ok y -> val y = 0 -> val x = 0 /\ (x = Go 0 -> y = Go 0).
Proof.
  induction l as [|a l IH]; intros x y E V; cbn [foreach] in E; [injection E as <-; auto|]. apply ob in E. destruct E as (z & E1 & E2). destruct (IH _ _ E2 V) as (A & B). destruct (in1_zero _ _ _ _ _ E1 A) as (C1 & D). auto.
Qed.
Lemma out1_zero s x y c : out1 s x c = Ok y -> val y = 0 -> val x = 0 /\ (x = Go 0 -> y = Go 0).
Proof.
  intros E V. destruct x as [n|n]; cbn [out1] in E; [|injection E as <-; split; [exact V|discriminate]]. destruct (cid c <? 0)%Z; [injection E as <-; auto|]. eapply in1_back; eauto.
Qed.
Lemma step2_zero s x y h : step2 s x h = Ok y -> val y = 0 -> val x = 0 /\ (x = Go 0 -> y = Go 0).
Proof.
  intros E V. destruct x as [n|n]; cbn [step2] in E; [|injection E as <-; split; [exact V|discriminate]]. apply ob in E. destruct E as (v & _ & E). destruct (v <=? 0)%Z; [injection E as <-; auto|]. apply ob in E. destruct E as (c & _ & E).
  destruct (cid c <? 0)%Z.
  - pose proof (err_pos n) as P. destruct (err n) as [m|m]; simpl in P; [|injection E as <-; simpl in V; lia]. destruct (existsb (Nat.eqb h) (ch c)); injection E as <-; [simpl in V; lia|destruct (err_pos m V)].
  - destruct (existsb (Nat.eqb h) (ch c)); injection E as <-; [auto|destruct (err_pos n V)].
Qed.

Theorem check_iff s : numbered s -> check s = Ok 0 <-> consistent s.
Proof.
  intros Hid. unfold check. split.
  - intros E. destruct (length (hits s) =? length (inc s)) eqn:Q; cbn [negb] in E; [|discriminate]. apply Nat.eqb_eq in Q. apply ob in E. destruct E as (r & E1 & E).
    rewrite chk1_eq in E1.
    assert (R : r = Go 0 /\ exists r2, chk2 s 0 = Ok r2 /\ val r2 = 0 /\ forall c, In c (tcl s) -> out1 s (Go 0) c = Ok (Go 0)).
    { destruct r as [n|n].
      - apply ob in E. destruct E as (r2 & E2 & E). rewrite chk2_eq in E2. assert (V : val r2 = 0) by (destruct r2; injection E as ->; auto).
        assert (n = 0). { clear -E2 V. revert E2. generalize (seq 0 (length (hits s))). intros l. assert (B : forall l x, foreach l (step2 s) x = Ok r2 -> val x = 0).
          { clear l. induction l as [|a l IH]; intros x E; cbn [foreach] in E; [injection E as ->; auto|]. apply ob in E. destruct E as (z & E1 & E2). apply (step2_zero s x z a E1). eauto. }
          intros E. apply (B _ _ E). }
        subst n. destruct (fe_zero (out1 s) (tcl s) (Go 0) (out1_zero s) E1 eq_refl) as (_ & A). split; [auto|]. exists r2. rewrite chk2_eq. auto.
      - injection E as ->. destruct (fe_zero (out1 s) (tcl s) (Stop 0) (out1_zero s) E1 eq_refl) as (A & _). discriminate. }
    destruct R as (-> & r2 & E2 & V & A1). rewrite chk2_eq in E2. destruct (fe_zero (step2 s) _ r2 (step2_zero s) E2 V) as (_ & A2).
    constructor; [auto| |].
    + intros k c h (Ek & Hc) I. pose proof (A1 c (nth_error_In _ _ Ek)) as B. cbn [out1] in B. destruct (cid c <? 0)%Z eqn:Q2; [apply Z.ltb_lt in Q2; lia|].
      destruct (fe_zero (in1 s c) (ch c) (Go 0) (in1_zero s c) B eq_refl) as (_ & A3). specialize (A3 h I). cbn [in1] in A3.
      match type of A3 with (if ?c then _ else _) = _ => destruct c end; [discriminate|]. apply ob in A3. destruct A3 as (v & Ev & A3). apply idx_get in Ev. destruct (v =? cid c)%Z eqn:Q3; [apply Z.eqb_eq in Q3; rewrite Ev, Q3; destruct (Hid k c Ek); [f_equal; auto|lia]|].
      discriminate.
    + intros h v Ev Hv. assert (Ih : In h (seq 0 (length (hits s)))) by (apply in_seq; split; [lia|]; rewrite Q; simpl; apply nth_error_Some; congruence).
      specialize (A2 h Ih). cbn [step2] in A2. rewrite (idx_some _ _ _ Ev) in A2. cbn [obind] in A2. destruct (v <=? 0)%Z eqn:Q2; [apply Z.leb_le in Q2; lia|]. apply ob in A2. destruct A2 as (c & Ec & A2). apply idx_get in Ec.
      destruct (cid c <? 0)%Z eqn:Q3; [exfalso; simpl in A2; destruct (existsb (Nat.eqb h) (ch c)); discriminate|]. destruct (existsb (Nat.eqb h) (ch c)) eqn:Q4; [|discriminate].
      apply existsb_exists in Q4. destruct Q4 as (g & I & Q4). apply Nat.eqb_eq in Q4. subst g. apply Z.ltb_ge in Q3.
      exists (Z.to_nat v - 1), c. split; [lia|]. split; [split; [auto|destruct (Hid _ _ Ec); lia]|auto].
  - intros Hc. pose proof (q_len s Hc) as L. rewrite L, Nat.eqb_refl. cbn [negb]. rewrite chk1_eq. rewrite (fe_go (out1 s)).
    + cbn [obind]. rewrite chk2_eq. rewrite (fe_go (step2 s)); [reflexivity|]. intros h I. apply in_seq in I. cbn [step2]. destruct (nth_error (inc s) h) as [v|] eqn:Ev; [|apply nth_error_None in Ev; lia].
      rewrite (idx_some _ _ _ Ev). cbn [obind]. destruct (v <=? 0)%Z eqn:Q; [reflexivity|]. apply Z.leb_gt in Q. destruct (q_back s Hc h v Ev Q) as (k & c & -> & (Ek & Hp) & Ih).
      replace (Z.to_nat (Z.of_nat (S k)) - 1) with k by lia. rewrite (idx_some _ _ _ Ek). cbn [obind]. destruct (cid c <? 0)%Z eqn:Q2; [apply Z.ltb_lt in Q2; lia|].
      assert (B : existsb (Nat.eqb h) (ch c) = true) by (apply existsb_exists; exists h; split; [auto|apply Nat.eqb_refl]). rewrite B. reflexivity.
    + intros c I. apply In_nth_error in I. destruct I as (k & Ek). cbn [out1]. destruct (cid c <? 0)%Z eqn:Q; [reflexivity|]. apply Z.ltb_ge in Q. assert (Lv : live s k c) by (split; [auto|destruct (Hid k c Ek); lia]).
      apply fe_go. intros h Ih. cbn [in1]. pose proof (q_own s Hc k c h Lv Ih) as Ev. assert (Hh : h < length (hits s)) by (rewrite <- L; apply nth_error_Some; congruence).
      assert (B : (length (hits s) - 1 <? h) = false) by (apply Nat.ltb_ge; lia). rewrite B, andb_false_r. rewrite (idx_some _ _ _ Ev). cbn [obind]. destruct Lv as (_ & Hp). assert (B2 : (Z.of_nat (S k) =? cid c)%Z = true) by (apply Z.eqb_eq; destruct (Hid k c Ek); lia). rewrite B2. reflexivity.
Qed.
