(** What ClusterCrawler::produce writes; hits that become obsolete. *)
From Verif Require Import Base SortUtil CCB_Model CCB_Spec CCB_Store CCB_Hist CCB_Check CCB_Remove.
Local Open Scope nat_scope.

(** the hits of the cluster exist, lie in its plane and are marked as its own *)
Definition fits (s : st) (c : clus) : Prop := ch c <> [] /\ forall h, In h (ch c) -> exists x, nth_error (hits s) h = Some x /\ hp x = snd (cctp c) /\ nth_error (inc s) h = Some (cid c).

Lemma at_get {A} (l : list A) i x : at_ l i = Ok x <-> nth_error l i = Some x.
Proof. unfold at_. destruct (nth_error l i); split; intros E; congruence. Qed.

Definition inb (s : st) (c : clus) : bool -> nat -> outcome bool := fun b h => if negb b then Ok false
           else do x <- at_ (hits s) h; if negb (hp x =? snd (cctp c)) then Ok false else do v <- idx (inc s) h; Ok (v =? cid c)%Z.
Definition outb (s : st) : bool -> clus -> outcome bool := fun b c => if negb b then Ok false else if (cid c <? 0)%Z then Ok true else foreach (ch c) (inb s c) true.
Lemma inb_false s c : forall l, foreach l (inb s c) false = Ok false. Proof. induction l; auto. Qed.
Lemma outb_false s : forall l, foreach l (outb s) false = Ok false. Proof. induction l; auto. Qed.
Lemma inb_iff s c : forall l, foreach l (inb s c) true = Ok true <-> forall h, In h l -> exists x, nth_error (hits s) h = Some x /\ hp x = snd (cctp c) /\ nth_error (inc s) h = Some (cid c).
Proof.
  induction l as [|h l IH]; [split; [intros _ h []|reflexivity]|]. cbn [foreach]. split.
  - intros E. apply ob in E. destruct E as (b & E1 & E). destruct b; [|rewrite inb_false in E; discriminate]. unfold inb in E1. cbn [negb] in E1. apply ob in E1. destruct E1 as (x & Ex & E1). apply at_get in Ex.
    destruct (hp x =? snd (cctp c)) eqn:Q; cbn [negb] in E1; [|discriminate]. apply Nat.eqb_eq in Q. apply ob in E1. destruct E1 as (v & Ev & E1). apply idx_get in Ev. injection E1 as E1. apply Z.eqb_eq in E1. subst v.
    intros g [<-|I]; [eauto|apply (proj1 IH E g I)].
  - intros F. destruct (F h (or_introl eq_refl)) as (x & X1 & X2 & X3). unfold inb at 1. cbn [negb]. rewrite (proj2 (at_get _ _ _) X1). cbn [obind]. rewrite X2, Nat.eqb_refl. cbn [negb]. rewrite (idx_some _ _ _ X3). cbn [obind]. rewrite Z.eqb_refl. apply IH. intros g I. apply F. right. auto.
Qed.
Lemma outb_iff s : forall l, foreach l (outb s) true = Ok true <-> forall c, In c l -> (0 <= cid c)%Z -> forall h, In h (ch c) -> exists x, nth_error (hits s) h = Some x /\ hp x = snd (cctp c) /\ nth_error (inc s) h = Some (cid c).
Proof.
  induction l as [|c l IH]; [split; [intros _ c []|reflexivity]|]. cbn [foreach]. split.
  - intros E. apply ob in E. destruct E as (b & E1 & E). destruct b; [|rewrite outb_false in E; discriminate]. unfold outb in E1. cbn [negb] in E1.
    intros d [<-|I] Hd; [|apply (proj1 IH E d I Hd)]. destruct (cid c <? 0)%Z eqn:Q; [apply Z.ltb_lt in Q; lia|]. apply inb_iff. exact E1.
  - intros F. unfold outb at 1. cbn [negb]. destruct (cid c <? 0)%Z eqn:Q; cbn [obind].
    + apply IH. intros d I. apply F. right. auto.
    + apply Z.ltb_ge in Q. rewrite (proj2 (inb_iff s c (ch c)) (F c (or_introl eq_refl) Q)). cbn [obind]. apply IH. intros d I. apply F. right. auto.
Qed.

Theorem produce_iff s out : produce s = Ok (Some out) <->
  (forall c, In c (tcl s) -> (0 <= cid c)%Z -> fits s c) /\
  out = (hits s, map (fun c => (cctp c, ch c)) (filter (fun c => (0 <=? cid c)%Z) (tcl s))).
Proof.
  unfold produce. change (fun (b : bool) (c : clus) => if negb b then Ok false else if (cid c <? 0)%Z then Ok true else foreach (ch c) (fun (b0 : bool) (h : nat) => if negb b0 then Ok false else do x <- at_ (hits s) h; if negb (hp x =? snd (cctp c)) then Ok false else do v <- idx (inc s) h; Ok (v =? cid c)%Z) true) with (outb s).
  set (g := fun (acc : list ((nat * nat * nat) * list nat)) (c : clus) => if (cid c <? 0)%Z then Ok acc else do _x <- idx (ch c) 0; Ok (acc ++ [(cctp c, ch c)])).
  assert (W : forall l acc r, foreach l g acc = Ok r <-> (forall c, In c l -> (0 <= cid c)%Z -> ch c <> []) /\ r = acc ++ map (fun c => (cctp c, ch c)) (filter (fun c => (0 <=? cid c)%Z) l)).
  { induction l as [|c l IH]; intros acc r; cbn [foreach].
    - simpl. rewrite app_nil_r. split; [intros [= ->]; split; [intros c []|auto]|intros (_ & ->); reflexivity].
    - unfold g at 1. cbn [filter]. destruct (cid c <? 0)%Z eqn:Q; cbn [obind].
      + apply Z.ltb_lt in Q. assert (B : (0 <=? cid c)%Z = false) by (apply Z.leb_gt; lia). rewrite B, IH. split; intros (A & ->); (split; [|auto]); [intros d [<-|I] Hd; [lia|auto]|intros d I; apply A; right; auto].
      + apply Z.ltb_ge in Q. assert (B : (0 <=? cid c)%Z = true) by (apply Z.leb_le; lia). rewrite B. destruct (ch c) as [|h t] eqn:Ec.
        * split; [discriminate|]. intros (A & _). destruct (A c (or_introl eq_refl) Q Ec).
        * change (idx (h :: t) 0) with (Ok h). cbn [obind]. rewrite IH. cbn [map]. rewrite Ec, <- app_assoc. simpl app. split; intros (A & ->); (split; [|auto]); [intros d [<-|I] Hd; [rewrite Ec; discriminate|auto]|intros d I; apply A; right; auto]. }
  split.
  - intros E. apply ob in E. destruct E as (b & E1 & E). destruct b; cbn [negb] in E; [|discriminate]. apply ob in E. destruct E as (cl & E2 & E). injection E as <-. pose proof (proj1 (outb_iff s (tcl s)) E1) as E3. apply (proj1 (W _ _ _)) in E2. destruct E2 as (A & ->).
    split; [|reflexivity]. intros c I Hc. split; [auto|]. apply (E3 c I Hc).
  - intros (F & ->). rewrite (proj2 (outb_iff s (tcl s)) (fun c I Hc => proj2 (F c I Hc))). cbn [obind negb]. rewrite (proj2 (W (tcl s) [] _) (conj (fun c I Hc => proj1 (F c I Hc)) eq_refl)). reflexivity.
Qed.

(** the inClus values written by MergeHits, cxx:1642-1649: the free hits of the multiplet [lo, hi) other than
    [th] become obsolete *)
Lemma merge_marks_ok lo n th : forall s s', merge_marks s lo (lo + n) th = Ok s' -> s' = set_inc s (inc s') /\ length (inc s') = length (inc s) /\
  forall h, nth_error (inc s') h = if (lo <=? h) && (h <? lo + n) && negb (h =? th) && (match nth_error (inc s) h with Some v => (v =? 0)%Z | None => false end) then Some (-1)%Z else nth_error (inc s) h.
Proof.
  intros s s' E. unfold merge_marks in E. replace (lo + n - lo) with n in E by lia. apply ob in E. destruct E as (i & E & Q). injection Q as <-. split; [reflexivity|]. cbn [inc set_inc].
  revert i E. induction n as [|n IH]; intros i E.
  - simpl in E. injection E as <-. split; [auto|]. intros h. destruct (lo <=? h) eqn:B1, (h <? lo + 0) eqn:B2; cbn [andb]; auto. apply Nat.leb_le in B1. apply Nat.ltb_lt in B2. lia.
  - rewrite seq_S, for_app in E. apply ob in E. destruct E as (j & E1 & E). destruct (IH j E1) as (L & P). cbn [for_] in E. apply ob in E. destruct E as (j2 & E2 & E). injection E as <-.
    assert (Nx : forall h, (h <? lo + S n) = (h <? lo + n) || (h =? lo + n)).
    { intros h. destruct (h <? lo + S n) eqn:B1; symmetry; [apply Nat.ltb_lt in B1; apply orb_true_iff; destruct (Nat.eq_dec h (lo + n)); [right; apply Nat.eqb_eq; auto|left; apply Nat.ltb_lt; lia]|apply Nat.ltb_ge in B1; apply orb_false_iff; split; [apply Nat.ltb_ge|apply Nat.eqb_neq]; lia]. }
    destruct (lo + n =? th) eqn:Qt.
    + injection E2 as <-. split; [auto|]. intros h. rewrite P, Nx. destruct (h =? lo + n) eqn:B; [|rewrite orb_false_r; reflexivity]. apply Nat.eqb_eq in B. subst h. rewrite Qt, Nat.ltb_irrefl. cbn [negb]. rewrite !andb_false_r. reflexivity.
    + apply ob in E2. destruct E2 as (v & Ev & E2). apply idx_get in Ev.
      assert (Es : nth_error (inc s) (lo + n) = Some v).
      { rewrite P in Ev. rewrite Nat.ltb_irrefl, andb_false_r in Ev. exact Ev. }
      destruct (v =? 0)%Z eqn:Qv.
      * unfold set_idx in E2. destruct (lo + n <? length j) eqn:Bj; [|discriminate]. injection E2 as <-. split; [rewrite upd_length; auto|]. intros h. rewrite nth_error_upd, P, Nx, Bj. destruct (h =? lo + n) eqn:B; cbn [andb]; [|rewrite orb_false_r; reflexivity].
        apply Nat.eqb_eq in B. subst h. rewrite Qt, Es, Qv, orb_true_r. assert (B1 : (lo <=? lo + n) = true) by (apply Nat.leb_le; lia). rewrite B1. reflexivity.
      * injection E2 as <-. split; [auto|]. intros h. rewrite P, Nx. destruct (h =? lo + n) eqn:B; [|rewrite orb_false_r; reflexivity]. apply Nat.eqb_eq in B. subst h. rewrite Es, Qv, !andb_false_r. reflexivity.
Qed.
Theorem merge_marks_sound s lo hi th s' : sound s -> merge_marks s lo hi th = Ok s' -> sound s' /\ hits s' = hits s.
Proof.
  intros H E. destruct (le_lt_dec lo hi) as [Q|Q].
  - replace hi with (lo + (hi - lo)) in E by lia. destruct (merge_marks_ok _ _ _ _ _ E) as (-> & L & P). cbn [inc set_inc] in *. split; [|reflexivity]. destruct H as [[q1 q2 q3] n m i g u].
    constructor; try assumption. constructor; cbn [inc set_inc hits].
    + rewrite L. auto.
    + intros k c h Lv I. rewrite P. pose proof (q2 k c h Lv I) as X. rewrite X. destruct (Z.of_nat (S k) =? 0)%Z eqn:B; [apply Z.eqb_eq in B; lia|]. rewrite andb_false_r. reflexivity.
    + intros h v Ev Hv. rewrite P in Ev. match type of Ev with (if ?c then _ else _) = _ => destruct c end; [injection Ev as <-; lia|]. apply (q3 h v Ev Hv).
  - unfold merge_marks in E. replace (hi - lo) with 0 in E by lia. simpl in E. injection E as <-. split; [destruct H as [[]]; repeat (constructor; auto)|reflexivity].
Qed.
