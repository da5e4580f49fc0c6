(** SmallClusterFinder: theorems *)
From Coq Require Import QArith Qcanon Permutation Sorted Lqa.
From Verif Require Import Base QcUtil SortUtil Solver_Model Solver_Proofs SCF_Model SCF_Spec SCF_Proofs TJ_Proofs TJ_More CMgr_Proofs.
Import SCF_Model.
Local Open Scope nat_scope.

Lemma split_filter (f : hit -> bool) : forall l a x b, filter f l = a ++ x :: b -> exists p q, l = p ++ x :: q /\ filter f p = a.
Proof.
  induction l as [|y l IH]; intros a x b E; [destruct a; discriminate|]. cbn [filter] in E. destruct (f y) eqn:Fy.
  - destruct a as [|z a]; cbn [app] in E; injection E as -> E; [exists [], l; auto|]. destruct (IH a x b E) as (p & q & -> & Ep). exists (z :: p), q. cbn [app filter]. rewrite Fy, Ep. auto.
  - destruct (IH a x b E) as (p & q & -> & Ep). exists (y :: p), q. cbn [app filter]. rewrite Fy, Ep. auto.
Qed.
Lemma ord_filter (f : hit -> bool) l : ordered (filter f l) l. Proof. induction l as [|x l IH]; cbn; [constructor|]. destruct (f x); constructor; exact IH. Qed.
Lemma ord_trans b c : ordered b c -> forall a, ordered a b -> ordered a c.
Proof. induction 1 as [|x l m H IH|x l m H IH]; intros a A; [exact A|constructor; apply IH; exact A|]. inversion A; subst; constructor; apply IH; assumption. Qed.
Lemma ord_in a b : ordered a b -> forall x, In x a -> In x b. Proof. induction 1 as [|y l m H IH|y l m H IH]; intros x X; [destruct X|right; auto|]. destruct X as [<-|X]; [left; reflexivity|right; auto]. Qed.
Lemma nat_le a b : (qc_nat a <= qc_nat b)%Qc <-> a <= b.
Proof.
  unfold qc_nat, Qcle. cbn [this Q2Qc]. rewrite !Qred_correct. rewrite <- Zle_Qle. lia.
Qed.

Section Peel.
Variables (g : scale) (cf : cfg).
Hypothesis R : (0 < f_rad cf)%Qc.
Lemma in_took s l h : In h (took g cf s l) <-> In h l /\ within g (f_rad cf) h s. Proof. unfold took. rewrite filter_In, close_within. reflexivity. Qed.
Lemma in_rest s l h : In h (rest g cf s l) <-> In h l /\ ~ In h (took g cf s l).
Proof. unfold rest. rewrite filter_In, in_took, negb_true_iff, <- close_within. destruct (close g cf h s); intuition congruence. Qed.
Lemma peel_perm : forall n l, length l <= n -> Permutation (concat (peel g cf n l)) l.
Proof.
  induction n as [|n IH]; intros l L; [destruct l; [constructor|cbn in L; lia]|]. destruct l as [|s l]; [constructor|]. cbn [peel concat]. pose proof (rest_len g cf s l R). cbn in L.
  apply (Permutation_trans (l' := took g cf s (s :: l) ++ rest g cf s (s :: l))); [apply Permutation_app_head, IH; lia|]. unfold took, rest. generalize (s :: l). clear. intros m.
  induction m as [|x m IH]; cbn; [constructor|]. destruct (close g cf x s); cbn; [constructor; exact IH|]. apply Permutation_sym, Permutation_cons_app, Permutation_sym. exact IH.
Qed.
Lemma peel_seeded : forall n l, length l <= n -> forall k c, nth_error (peel g cf n l) k = Some c ->
  ordered c l /\ exists s r pre post, c = s :: r /\ l = pre ++ s :: post /\ (forall h, In h pre -> In h (concat (firstn k (peel g cf n l)))) /\
    (forall h, In h c <-> In h l /\ ~ In h (concat (firstn k (peel g cf n l))) /\ within g (f_rad cf) h s).
Proof.
  induction n as [|n IH]; intros l L k c E; [destruct l; destruct k; discriminate|]. destruct l as [|s l]; [destruct k; discriminate|]. cbn [peel] in *. pose proof (rest_len g cf s l R) as Lr. cbn in L. destruct k as [|k]; cbn [nth_error firstn concat] in *.
  - assert (Ec : c = took g cf s (s :: l)) by congruence. clear E. subst c. split; [exact (ord_filter (fun h => close g cf h s) (s :: l))|]. exists s, (took g cf s l), [], l. split; [unfold took; cbn [filter]; rewrite (close_refl g cf s R); reflexivity|]. split; [reflexivity|]. split; [intros h []|]. intros h. rewrite in_took. cbn. tauto.
  - destruct (IH (rest g cf s (s :: l)) ltac:(lia) k c E) as (O & s1 & r & pre & post & Ec & El & Fp & Fi). split; [apply (ord_trans _ _ (ord_filter _ (s :: l)) _ O)|].
    unfold rest in El. destruct (split_filter _ _ _ _ _ El) as (p & q & Ep & Eq). exists s1, r, p, q. split; [exact Ec|]. split; [exact Ep|]. split.
    + intros h I. apply in_or_app. destruct (close g cf h s) eqn:Cl.
      * left. apply in_took. split; [rewrite Ep; apply in_or_app; auto|apply close_within; exact Cl].
      * right. apply Fp. rewrite <- Eq. apply filter_In. rewrite Cl. auto.
    + intros h. rewrite Fi, in_rest, in_app_iff. tauto.
Qed.
Lemma peel_nonempty : forall n l c, In c (peel g cf n l) -> c <> [].
Proof.
  induction n as [|n IH]; intros l c I; [destruct l; destruct I|]. destruct l as [|s l]; [destruct I|]. cbn [peel] in I. destruct I as [<-|I]; [|apply (IH _ c I)]. unfold took. cbn [filter]. rewrite (close_refl g cf s R). discriminate.
Qed.
End Peel.

Section Crowd.
Variables (g : scale) (cf : cfg) (hits : list hit).
Hypothesis Nd : NoDup hits.
Lemma iso_crowded h : In h hits -> iso g cf (on (h_plane h) hits) h = true <-> ~ crowded g cf hits h.
Proof.
  intros Ih. unfold iso. set (l := filter (fun x => close g cf x h) (on (h_plane h) hits)).
  assert (In_l : forall x, In x l <-> In x hits /\ h_plane x = h_plane h /\ within g (f_rad cf) x h) by (intros x; unfold l, on; rewrite !filter_In, Nat.eqb_eq, close_within; tauto).
  assert (Nl : NoDup l) by (apply NoDup_filter, NoDup_filter; exact Nd). rewrite qc_lt_spec. split.
  - intros Lt (m & Nm & Fm & Le). assert (length m <= length l) by (apply NoDup_incl_length; [exact Nm|]; intros x X; apply In_l, Fm; exact X). apply nat_le in H. revert Lt Le H. generalize (qc_nat (length l)) (qc_nat (length m)) (f_n cf). intros a b c. intros. qclra.
  - intros Nc. destruct (qc_lt (qc_nat (length l)) (f_n cf)) eqn:E; [apply qc_lt_spec; exact E|]. exfalso. apply Nc. apply qc_lt_false in E. exists l. split; [exact Nl|]. split; [intros x X; apply In_l; exact X|exact E].
Qed.
Lemma in_refined p h : In h (refined g cf p hits) <-> In h hits /\ h_plane h = p /\ ~ crowded g cf hits h.
Proof.
  unfold refined, on at 2. rewrite filter_In, filter_In, Nat.eqb_eq. split.
  - intros ((A & B) & C). split; [exact A|]. split; [exact B|]. subst p. apply iso_crowded; assumption.
  - intros (A & B & C). subst p. split; [auto|]. apply iso_crowded; assumption.
Qed.
End Crowd.

(** the call from any state of the object, with any fuel that is large enough *)
Definition finds (g : scale) (cf : cfg) (s0 : st) (hits : list hit) (s : st) : Prop := exists n, forall fuel, n <= fuel -> find g cf fuel s0 hits = Some (Ok s).
Lemma small_at cf s p l : length (s_small s) = f_np cf -> nth_error (s_small s) p = Some l -> small_of cf s p = Ok l.
Proof. intros L E. unfold small_of, idx. assert (p < f_np cf) by (rewrite <- L; apply nth_error_Some; congruence). rewrite (proj2 (Nat.ltb_lt _ _) H), E. reflexivity. Qed.
Lemma left_at cf s p l : length (s_left s) = f_np cf -> nth_error (s_left s) p = Some l -> left_of cf s p = Ok l.
Proof. intros L E. unfold left_of, idx. assert (p < f_np cf) by (rewrite <- L; apply nth_error_Some; congruence). rewrite (proj2 (Nat.ltb_lt _ _) H), E. reflexivity. Qed.
Lemma loop_more g cf : forall f1 f2 sv sm r, f1 <= f2 -> split_loop g cf f1 sv sm = Some r -> split_loop g cf f2 sv sm = Some r.
Proof.
  induction f1 as [|f1 IH]; intros f2 sv sm r B X; destruct sv as [|x sv]; destruct f2 as [|f2]; cbn [split_loop] in *; try exact X; try discriminate; try lia. destruct (one_split g cf x (x :: sv) sm) as [(a, b)|e|]; try exact X. apply IH; [lia|exact X].
Qed.
Lemma all_more g cf f1 f2 : f1 <= f2 -> forall ps rf sm r, split_all g cf f1 ps rf sm = Some r -> split_all g cf f2 ps rf sm = Some r.
Proof.
  intros B. induction ps as [|p ps IH]; intros rf sm r X; cbn [split_all] in *; [exact X|]. destruct (idx rf p) as [sv|e|]; try exact X. destruct (split_loop g cf f1 sv sm) as [[q|e|]|] eqn:Y; try discriminate; rewrite (loop_more g cf _ _ _ _ _ B Y); try exact X. apply IH; assumption.
Qed.
Lemma find_more g cf f1 f2 s0 hits r : f1 <= f2 -> find g cf f1 s0 hits = Some r -> find g cf f2 s0 hits = Some r.
Proof.
  intros B. unfold find. destruct hits as [|h hs]; [auto|]. destruct (obind _ _) as [s1|e|]; auto. intros X. destruct (split_all g cf f1 _ _ _) as [q|] eqn:Y; [|discriminate]. rewrite (all_more g cf _ _ B _ _ _ _ Y). exact X.
Qed.
Lemma produce_more g cf f1 f2 s0 hits r : f1 <= f2 -> produce g cf f1 s0 hits = Some r -> produce g cf f2 s0 hits = Some r.
Proof.
  intros B. unfold produce. destruct hits as [|h hs]; [auto|]. intros X. destruct (find g cf f1 s0 (h :: hs)) as [q|] eqn:Y; [|discriminate]. rewrite (find_more g cf _ _ _ _ _ B Y). exact X.
Qed.
Lemma finds_ex g cf s0 hits : (0 < f_rad cf)%Qc -> event cf hits -> exists s, finds g cf s0 hits s /\ length (s_small s) = f_np cf /\ length (s_left s) = f_np cf /\
  (forall p, p < f_np cf -> small_of cf s p = Ok (peel g cf (length (refined g cf p hits)) (refined g cf p hits)) /\ left_of cf s p = Ok (filter (fun h => negb (iso g cf (on p hits) h)) (on p hits))).
Proof.
  intros R (Nd & P). destruct (find_eq g cf s0 hits (length hits) R P (le_n _)) as (s & E & L1 & L2 & N). exists s. split; [|split; [exact L1|split; [exact L2|]]].
  - exists (length hits). intros fuel L. destruct (find_eq g cf s0 hits fuel R P L) as (s' & E' & _). rewrite E'. f_equal. f_equal.
    rewrite (find_more g cf _ _ _ _ _ L E) in E'. congruence.
  - intros p Lp. destruct (N p Lp) as (A & B). split; [apply small_at; assumption|apply left_at; assumption].
Qed.

(* ---------------------------------------------------------------- C136 *)
(** The call always ends, whatever the object holds from earlier events, and on each plane the hits are divided: those with NHitsInClust hits or more within the radius are the leftovers, in the
    order of the event; each other hit is in exactly one small cluster. *)
Theorem C136_partition g cf s0 hits : (0 < f_rad cf)%Qc -> event cf hits -> exists s, finds g cf s0 hits s /\
  forall p, p < f_np cf -> exists cl lf, small_of cf s p = Ok cl /\ left_of cf s p = Ok lf /\ ordered lf hits /\ (forall h, In h lf <-> In h hits /\ h_plane h = p /\ crowded g cf hits h) /\
    NoDup (concat cl ++ lf) /\ (forall h, In h (concat cl) <-> In h hits /\ h_plane h = p /\ ~ crowded g cf hits h).
Proof.
  intros R Ev. destruct (finds_ex g cf s0 hits R Ev) as (s & Fi & _ & _ & N). exists s. split; [exact Fi|]. intros p Lp. destruct (N p Lp) as (A & B). eexists _, _. split; [exact A|]. split; [exact B|]. destruct Ev as (Nd & P).
  pose proof (peel_perm g cf R (length (refined g cf p hits)) (refined g cf p hits) (le_n _)) as Pm.
  assert (Ic : forall h, In h (concat (peel g cf (length (refined g cf p hits)) (refined g cf p hits))) <-> In h hits /\ h_plane h = p /\ ~ crowded g cf hits h).
  { intros h. rewrite <- (in_refined g cf hits Nd p h). split; apply Permutation_in; [exact Pm|apply Permutation_sym; exact Pm]. }
  assert (Il : forall h, In h (filter (fun h => negb (iso g cf (on p hits) h)) (on p hits)) <-> In h hits /\ h_plane h = p /\ crowded g cf hits h).
  { intros h. unfold on at 2. rewrite filter_In, filter_In, Nat.eqb_eq, negb_true_iff. split.
    - intros ((X & Y) & Z). split; [exact X|]. split; [exact Y|]. subst p. pose proof (iso_crowded g cf hits Nd h X) as I. unfold iso in *. set (l := filter (fun x => close g cf x h) (on (h_plane h) hits)) in *. apply qc_lt_false in Z. exists l.
      split; [apply NoDup_filter, NoDup_filter; exact Nd|]. split; [intros x W; unfold l, on in W; rewrite !filter_In, Nat.eqb_eq, close_within in W; tauto|exact Z].
    - intros (X & Y & Z). split; [auto|]. subst p. destruct (iso g cf (on (h_plane h) hits) h) eqn:I; [|reflexivity]. apply (iso_crowded g cf hits Nd h X) in I. contradiction. }
  split; [apply (ord_trans (on p hits)); apply ord_filter|]. split; [exact Il|]. split; [|exact Ic].
  apply nodup_app_iff. split; [apply (Permutation_NoDup (Permutation_sym Pm)); apply NoDup_filter, NoDup_filter; exact Nd|]. split; [apply NoDup_filter, NoDup_filter; exact Nd|].
  intros h X Y. apply Ic in X. apply Il in Y. tauto.
Qed.

(* ---------------------------------------------------------------- C137 *)
Lemma nth_first (A : Type) : forall k j (l : list A), k < j -> nth_error (firstn j l) k = nth_error l k.
Proof. induction k as [|k IH]; intros [|j] l Lj; try lia; destruct l; try reflexivity; cbn; apply IH; lia. Qed.
Lemma two_r (r a b c d : Qc) : (a * a + b * b < r * r)%Qc -> (c * c + d * d < r * r)%Qc -> ((a - c) * (a - c) + (b - d) * (b - d) < (r + r) * (r + r))%Qc.
Proof.
  intros A B. assert (Sq : forall x : Qc, (0 <= x * x)%Qc) by (intros x; qcnra). pose proof (Sq (a + c)%Qc) as X. pose proof (Sq (b + d)%Qc) as Y.
  assert (E : ((a - c) * (a - c) + (b - d) * (b - d) = (a * a + b * b) + (a * a + b * b) + ((c * c + d * d) + (c * c + d * d)) - (a + c) * (a + c) - (b + d) * (b + d))%Qc) by ring. rewrite E.
  assert (F : ((r + r) * (r + r) = r * r + r * r + (r * r + r * r))%Qc) by ring. rewrite F. clear E F Sq. revert A B X Y. generalize (a * a + b * b)%Qc (c * c + d * d)%Qc (r * r)%Qc ((a + c) * (a + c))%Qc ((b + d) * (b + d))%Qc. clear. intros. qclra.
Qed.
(** each cluster is what is within the radius of its first hit; it has between 1 and NHitsInClust - 1 hits, any two less than twice the radius apart; no hit of a later cluster is within the radius
    of its first hit *)
Theorem C137_shape_partial g cf s0 hits : (0 < f_rad cf)%Qc -> event cf hits -> exists s, finds g cf s0 hits s /\
  forall p, p < f_np cf -> exists cl, small_of cf s p = Ok cl /\ seeded g cf hits p cl /\
    forall k c, nth_error cl k = Some c -> c <> [] /\ (qc_nat (length c) < f_n cf)%Qc /\ (forall a b, In a c -> In b c -> within g (f_rad cf + f_rad cf) a b) /\
      forall j d a, k < j -> nth_error cl j = Some d -> In a d -> ~ within g (f_rad cf) a (hd a c).
Proof.
  intros R Ev. destruct (finds_ex g cf s0 hits R Ev) as (s & Fi & _ & _ & N). exists s. split; [exact Fi|]. intros p Lp. destruct (N p Lp) as (A & _). destruct Ev as (Nd & P).
  eexists. split; [exact A|]. set (l := refined g cf p hits). set (cl := peel g cf (length l) l). assert (Sd : seeded g cf hits p cl).
  { intros k c E. destruct (peel_seeded g cf R (length l) l (le_n _) k c E) as (O & s1 & r & pre & post & Ec & El & Fp & Fc). split; [apply (ord_trans l); [unfold l, refined, on; apply (ord_trans (filter (fun h => h_plane h =? p) hits)); apply ord_filter|exact O]|].
    unfold l, refined, on in El. destruct (split_filter _ _ _ _ _ El) as (p1 & q1 & E1 & F1). destruct (split_filter _ _ _ _ _ E1) as (p2 & q2 & E2 & F2). exists s1, r, p2, q2. split; [exact Ec|]. split; [exact E2|]. split.
    - intros h I Ip Nc. apply Fp. rewrite <- F1, <- F2. apply filter_In. rewrite filter_In, Nat.eqb_eq. split; [auto|]. change (iso g cf (on p hits) h = true). subst p. apply iso_crowded; [exact Nd|rewrite E2; apply in_or_app; auto|exact Nc].
    - intros h. fold cl in Fc. rewrite Fc. unfold l. rewrite (in_refined g cf hits Nd p h). tauto. }
  split; [exact Sd|]. intros k c E. destruct (Sd k c E) as (O & s1 & r & pre & post & Ec & El & Fp & Fc). split; [subst c; discriminate|]. split; [|split].
  - assert (Is : In s1 c) by (subst c; left; reflexivity). apply Fc in Is as (I1 & I2 & I3 & _). assert (Iso : iso g cf (on p hits) s1 = true) by (rewrite <- I2; apply iso_crowded; assumption). unfold iso in Iso. apply qc_lt_spec in Iso.
    assert (Len : length c <= length (filter (fun x => close g cf x s1) (on p hits))).
    { apply NoDup_incl_length.
      - clear -O Nd. revert Nd. induction O as [|x a b O IH|x a b O IH]; intros N; [constructor|inversion N; auto|]. inversion N; subst. constructor; [intros X; apply H1; apply (ord_in _ _ O); exact X|auto].
      - intros x X. apply Fc in X as (X1 & X2 & _ & _ & X5). apply filter_In. split; [apply filter_In; rewrite Nat.eqb_eq; auto|apply close_within; exact X5]. }
    apply nat_le in Len. revert Len Iso. generalize (qc_nat (length c)) (qc_nat (length (filter (fun x => close g cf x s1) (on p hits)))) (f_n cf). intros. qclra.
  - intros a b Ia Ib. apply Fc in Ia as (_ & _ & _ & _ & (_ & Wa)). apply Fc in Ib as (_ & _ & _ & _ & (_ & Wb)). split; [revert R; generalize (f_rad cf); intros; qclra|]. pose proof (two_r _ _ _ _ _ Wa Wb) as T. clear -T.
    match goal with |- (?x < _)%Qc => match type of T with (?y < _)%Qc => assert (Q : x = y) by ring end end. rewrite Q. exact T.
  - intros j d a Lj Ed Ia W. destruct (Sd j d Ed) as (_ & s2 & r2 & pre2 & post2 & _ & _ & _ & Fd). apply Fd in Ia as (I1 & I2 & I3 & I4 & _). subst c. cbn [hd] in W. apply I4.
    assert (Ek : nth_error (firstn j cl) k = Some (s1 :: r)) by (rewrite <- E; apply nth_first; exact Lj).
    apply in_concat. exists (s1 :: r). split; [apply (nth_error_In _ _ Ek)|]. apply Fc. split; [exact I1|]. split; [exact I2|]. split; [exact I3|]. split; [|exact W].
    intros X. apply I4. replace (firstn k cl) with (firstn k (firstn j cl)) in X by (rewrite firstn_firstn; f_equal; lia). rewrite <- (firstn_skipn k (firstn j cl)), concat_app. apply in_or_app. left. exact X.
Qed.
(** the radius is not the distance between a small cluster and any other hit: a chain of three hits, of which the first two make a cluster and the third another *)
Definition sc1 : scale := Sc 1 1.
Definition cf3 : cfg := Cfg 3 (Q2Qc 2) (Q2Qc 4).
Definition hw (id p w : nat) : hit := H id 0 p w 0.
Definition chain : list hit := [hw 0 0 10; hw 1 0 11; hw 2 0 12].
Lemma nodup_ids l : NoDup (map h_id l) -> NoDup l.
Proof. induction l as [|x l IH]; cbn; intros N; [constructor|]. inversion N; subst. constructor; [|auto]. intros I. apply H1. apply (in_map h_id) in I. exact I. Qed.
Theorem C137_separated_refuted : event cf3 chain /\ (0 < f_rad cf3)%Qc /\ exists s, finds sc1 cf3 (clear cf3) chain s /\ small_of cf3 s 0 = Ok [[hw 0 0 10; hw 1 0 11]; [hw 2 0 12]] /\ within sc1 (f_rad cf3) (hw 2 0 12) (hw 1 0 11).
Proof.
  assert (Ev : event cf3 chain) by (split; [apply nodup_ids; cbn; repeat constructor; cbn; intuition discriminate|intros h [<-|[<-|[<-|[]]]]; cbn; lia]). split; [exact Ev|]. assert (R : (0 < f_rad cf3)%Qc) by (vm_compute; reflexivity). split; [exact R|].
  destruct (finds_ex sc1 cf3 (clear cf3) chain R Ev) as (s & Fi & _ & _ & N). exists s. split; [exact Fi|]. destruct (N 0) as (A & _); [cbn; lia|]. rewrite A. split; [vm_compute; reflexivity|]. apply (close_within sc1 cf3). vm_compute. reflexivity.
Qed.

(* ---------------------------------------------------------------- C138: the call ends *)
(** with a radius that is not positive nothing is near anything, not even itself: the loop goes on for ever as soon as there is a hit and NHitsInClust is positive *)
Lemma close_no g cf a b : (f_rad cf <= 0)%Qc -> close g cf a b = false.
Proof. intros R. unfold close. assert (E : qc_lt 0 (f_rad cf) = false) by (apply qc_lt_false; exact R). rewrite E. reflexivity. Qed.
Theorem C138_ends_refuted : forall fuel, find sc1 (Cfg 3 0 (Q2Qc 4)) fuel (clear cf3) [hw 0 0 10] = None.
Proof.
  intros fuel. unfold find. remember (obind _ _) as o eqn:Eo. vm_compute in Eo. subst o. change (seq 0 (f_np (Cfg 3 0 (Q2Qc 4)))) with [0; 1; 2]. cbn [s_ref s_small split_all idx nth_error].
  match goal with |- context [split_loop ?g0 ?c0 ?n0 ?sv0 ?sm0] => assert (X : forall f sm q, nth_error sm 0 = Some q -> split_loop g0 c0 f sv0 sm = None) end.
  { induction f as [|f IH]; intros sm q E; [reflexivity|]. cbn [split_loop]. rewrite (one_split_eq _ _ _ _ sm q); [|cbn; apply nth_error_Some; congruence|unfold idx; cbn [h_plane]; rewrite E; reflexivity]. cbn [h_plane].
    match goal with |- split_loop _ _ _ ?a _ = None => assert (Ea : a = [hw 0 0 10]) end. { unfold rest. cbn [filter]. rewrite (close_no _ _ _ _) by (vm_compute; discriminate). reflexivity. }
    rewrite Ea. apply (IH _ (q ++ [took sc1 (Cfg 3 0 (Q2Qc 4)) (H 0 0 0 10 0) [H 0 0 0 10 0]])). rewrite nth_error_upd. cbn. destruct sm; [discriminate|reflexivity]. }
  rewrite (X _ _ []) by reflexivity. reflexivity.
Qed.
(** exactly when it ends *)
Theorem C138_ends_partial g cf s0 hits : (forall h, In h hits -> h_plane h < f_np cf) -> (exists fuel s, find g cf fuel s0 hits = Some (Ok s)) <-> ((0 < f_rad cf)%Qc \/ (f_n cf <= 0)%Qc \/ hits = []).
Proof.
  intros P. split.
  - intros (fuel & s & E). destruct (qc_lt 0 (f_rad cf)) eqn:R; [left; apply qc_lt_spec; exact R|right]. apply qc_lt_false in R. destruct (qc_lt 0 (f_n cf)) eqn:Nn; [right|left; apply qc_lt_false; exact Nn]. apply qc_lt_spec in Nn.
    destruct hits as [|h0 hs]; [reflexivity|]. exfalso. unfold find in E. assert (Hs : exists hits, h0 :: hs = hits) by eauto. destruct Hs as (hits & Hs). assert (I0 : In h0 hits) by (rewrite <- Hs; left; reflexivity). rewrite Hs in *. clear Hs hs. cbn [clear s_plane s_small s_ref s_left] in E.
    destruct (by_plane_eq hits (repeat [] (f_np cf))) as (bp & Eb & Lb & Nb); [intros h I; rewrite repeat_length; apply P; exact I|]. rewrite Eb in E. cbn [obind] in E. rewrite repeat_length in Lb.
    destruct (refine_eq g cf (St (repeat [] (f_np cf)) bp (repeat [] (f_np cf)) (repeat [] (f_np cf)))) as (s1 & Es & Ss & Sp & Lr & Ll & N); cbn [s_plane s_ref s_left s_small]; [exact Lb|apply repeat_length|apply repeat_length|intros p L; apply nth_repeat; exact L|].
    rewrite Es in E. cbn [s_small s_plane s_ref s_left] in Ss, Sp, N.
    assert (Rf : forall p, p < f_np cf -> nth_error (s_ref s1) p = Some (on p hits)).
    { intros p L. destruct (N p (on p hits)) as (N1 & _); [apply (Nb p []); apply nth_repeat; exact L|]. rewrite N1. f_equal. clear -R Nn. unfold iso. generalize (on p hits) at 1. intros l. induction (on p hits) as [|x m IH]; [reflexivity|]. cbn [filter]. rewrite IH.
      assert (Z : filter (fun y => close g cf y x) l = []) by (clear -R; induction l as [|y l IH]; [reflexivity|]; cbn [filter]; rewrite (close_no g cf y x R); exact IH). rewrite Z. cbn [length]. assert (Q : qc_lt (qc_nat 0) (f_n cf) = true) by (apply qc_lt_spec; exact Nn). rewrite Q. reflexivity. }
    assert (Inf : forall f p sv sm, sv <> [] -> (forall h, In h sv -> h_plane h = p) -> p < length sm -> split_loop g cf f sv sm = None).
    { induction f as [|f IH]; intros p sv sm Ne Ps Lp; (destruct sv as [|x sv]; [contradiction|]); [reflexivity|]. cbn [split_loop]. pose proof (Ps x (or_introl eq_refl)) as Px. destruct (nth_error sm p) as [q|] eqn:Eq; [|apply nth_error_None in Eq; lia].
      rewrite (one_split_eq g cf x (x :: sv) sm q); [|rewrite Px; exact Lp|unfold idx; rewrite Px, Eq; reflexivity]. assert (Er : rest g cf x (x :: sv) = x :: sv) by (unfold rest; generalize (x :: sv); clear -R; intros l; induction l as [|y l IH]; [reflexivity|]; cbn [filter]; rewrite (close_no g cf y x R); cbn [negb]; rewrite IH; reflexivity).
      rewrite Er. apply (IH p); [discriminate|exact Ps|rewrite upd_length; exact Lp]. }
    assert (G : forall ps sm, In (h_plane h0) ps -> (forall p, In p ps -> p < f_np cf) -> length sm = f_np cf -> split_all g cf fuel ps (s_ref s1) sm = None).
    { induction ps as [|p ps IH]; intros sm I B Ls; [destruct I|]. cbn [split_all]. unfold idx. pose proof (B p (or_introl eq_refl)) as Lp. rewrite (Rf p Lp). destruct (on p hits) as [|x l] eqn:Eo.
      - assert (Sl : split_loop g cf fuel [] sm = Some (Ok sm)) by (destruct fuel; reflexivity). rewrite Sl. destruct I as [Ep|I]; [subst p|apply IH; [exact I|intros; apply B; right; assumption|exact Ls]]. exfalso. assert (X : In h0 (on (h_plane h0) hits)) by (unfold on; apply filter_In; rewrite Nat.eqb_refl; auto). rewrite Eo in X. destruct X.
      - rewrite (Inf fuel p (x :: l) sm); [reflexivity|discriminate| |lia]. intros h Ih. rewrite <- Eo in Ih. unfold on in Ih. apply filter_In in Ih as (_ & Ih). apply Nat.eqb_eq. exact Ih. }
    rewrite (G (seq 0 (f_np cf)) (s_small s1)) in E; [discriminate|apply in_seq; split; [lia|apply P; exact I0]|intros p I; apply in_seq in I; lia|rewrite Ss; apply repeat_length].
  - intros [R|[Z|Z]].
    + destruct (find_eq g cf s0 hits (length hits) R P (le_n _)) as (s & E & _). eauto.
    + exists 0. unfold find. destruct hits as [|h0 hs]; [eauto|]. assert (Hs : exists hits, h0 :: hs = hits) by eauto. destruct Hs as (hits & Hs). rewrite Hs in *. clear Hs hs. cbn [clear s_plane s_small s_ref s_left].
      destruct (by_plane_eq hits (repeat [] (f_np cf))) as (bp & Eb & Lb & Nb); [intros h I; rewrite repeat_length; apply P; exact I|]. rewrite Eb. cbn [obind]. rewrite repeat_length in Lb.
      destruct (refine_eq g cf (St (repeat [] (f_np cf)) bp (repeat [] (f_np cf)) (repeat [] (f_np cf)))) as (s1 & Es & Ss & Sp & Lr & Ll & N); cbn [s_plane s_ref s_left s_small]; [exact Lb|apply repeat_length|apply repeat_length|intros p L; apply nth_repeat; exact L|].
      rewrite Es. cbn [s_small s_plane s_ref s_left] in Ss, Sp, N.
      assert (Rf : forall p, p < f_np cf -> nth_error (s_ref s1) p = Some []).
      { intros p L. destruct (N p (on p hits)) as (N1 & _); [apply (Nb p []); apply nth_repeat; exact L|]. rewrite N1. f_equal. clear -Z. unfold iso. generalize (on p hits) at 1. intros l. induction (on p hits) as [|x m IH]; [reflexivity|]. cbn [filter]. rewrite IH.
        assert (Q : qc_lt (qc_nat (length (filter (fun y => close g cf y x) l))) (f_n cf) = false) by (apply qc_lt_false; apply (Qcle_trans _ 0 _ Z); change 0%Qc with (qc_nat 0); apply nat_le; lia). rewrite Q. reflexivity. }
      assert (G : forall ps sm, (forall p, In p ps -> p < f_np cf) -> split_all g cf 0 ps (s_ref s1) sm = Some (Ok sm)).
      { induction ps as [|p ps IH]; intros sm B; [reflexivity|]. cbn [split_all]. unfold idx. rewrite (Rf p) by (apply B; left; reflexivity). cbn [split_loop]. apply IH. intros; apply B; right; assumption. }
      rewrite G by (intros p I; apply in_seq in I; lia). eauto.
    + subst hits. exists 0. cbn. eauto.
Qed.
