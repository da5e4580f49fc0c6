(** Proofs about FindOrderOfHits_ and CheckIsolatedHits_. *)
From Coq Require Import QArith Qcanon Lqa.
From Verif Require Import Base QcUtil Solver_Model Solver_Proofs CMgr_Proofs EMS_Model EMS_Map EMS_Spec EMS_Assoc EMS_Planes.
Local Open Scope nat_scope.

(* ------------------------------------------------------------ find_order *)
Section Q.
Variable A : Type.
Variable f : A -> Qc.
Definition qf (l : list A) : list (Qc * A) := fold_left (fun m h => qset (f h) h m) l [].
Definition qord (m : list (Qc * A)) : Prop := StronglySorted (fun a b => (fst a < fst b)%Qc) m /\ forall e, In e m -> fst e = f (snd e).
Lemma qset_in k v (m : list (Qc * A)) e : In e (qset k v m) -> e = (k, v) \/ In e m \/ (fst e = k /\ snd e = v).
Proof.
  induction m as [|[a x] m IH]; cbn [qset]; [intros [<-|[] ]; auto|]. destruct (qc_lt k a) eqn:L1; [intros [<-|H]; auto|].
  destruct (qc_lt a k) eqn:L2.
  - intros [<-|H]; [right; left; left; reflexivity|]. destruct (IH H) as [->|[H'|H'] ]; auto. right; left; right; exact H'.
  - intros [<-|H]; [|right; left; right; exact H]. right; right. cbn. apply qc_lt_false in L1, L2. split; [apply Qcle_antisym; assumption|reflexivity].
Qed.
Lemma qset_key k v (m : list (Qc * A)) x : In x (map fst (qset k v m)) <-> x = k \/ In x (map fst m).
Proof.
  induction m as [|[a y] m IH]; cbn [qset map In fst]; [intuition|]. destruct (qc_lt k a) eqn:L1; [cbn [map In fst]; intuition|].
  destruct (qc_lt a k) eqn:L2; cbn [map In fst].
  - rewrite IH. intuition.
  - apply qc_lt_false in L1, L2. pose proof (Qcle_antisym _ _ L1 L2). subst. intuition.
Qed.
Lemma qset_ord v m : qord m -> qord (qset (f v) v m).
Proof.
  intros [S K]. split.
  - clear K. induction m as [|[a x] m IH]; cbn [qset]; [repeat constructor|]. inversion S as [|? ? S' F]; subst. rewrite Forall_forall in F.
    destruct (qc_lt (f v) a) eqn:L1.
    + apply qc_lt_spec in L1. constructor; [exact S|]. constructor; [exact L1|]. apply Forall_forall. intros z Hz. specialize (F z Hz). cbn [fst] in *. eapply Qclt_trans; eassumption.
    + destruct (qc_lt a (f v)) eqn:L2.
      * apply qc_lt_spec in L2. constructor; [apply IH, S'|]. apply Forall_forall. intros z Hz. apply (in_map fst) in Hz.
        apply qset_key in Hz. cbn [fst]. destruct Hz as [->|Hz]; [exact L2|]. apply in_map_iff in Hz. destruct Hz as (w & <- & Hw). exact (F w Hw).
      * constructor; [exact S'|]. apply Forall_forall. intros z Hz. apply (F z Hz).
  - intros e He. apply qset_in in He. destruct He as [->|[He|[E1 E2] ] ]; [reflexivity|apply K, He|congruence].
Qed.
Lemma qord_nodup m : qord m -> NoDup (map fst m).
Proof.
  intros [S _]. induction S as [|a m S IH F]; cbn [map]; constructor; [|exact IH]. intros H. apply in_map_iff in H. destruct H as (w & E & Hw).
  rewrite Forall_forall in F. specialize (F w Hw). rewrite E in F. exact (Qclt_not_eq _ _ F eq_refl).
Qed.
Lemma qset_self v m : qord m -> In (f v, v) (qset (f v) v m).
Proof.
  intros [_ K]. clear K. induction m as [|[a x] m IH]; cbn [qset]; [left; reflexivity|]. destruct (qc_lt (f v) a) eqn:L1; [left; reflexivity|].
  destruct (qc_lt a (f v)) eqn:L2; [right; exact IH|]. left. apply qc_lt_false in L1, L2. f_equal. apply Qcle_antisym; assumption.
Qed.
Lemma qset_other v m e : qord m -> In e m -> fst e <> f v -> In e (qset (f v) v m).
Proof.
  intros _ He N. induction m as [|[a x] m IH]; [destruct He|]. cbn [qset]. destruct (qc_lt (f v) a) eqn:L1; [right; exact He|].
  destruct (qc_lt a (f v)) eqn:L2.
  - destruct He as [<-|He]; [left; reflexivity|right; apply IH, He].
  - destruct He as [<-|He]; [|right; exact He]. exfalso. apply N. cbn. apply qc_lt_false in L1, L2. apply Qcle_antisym; assumption.
Qed.
Definition lastat (hs : list A) (h : A) : Prop := exists l1 l2, hs = l1 ++ h :: l2 /\ forall x, In x l2 -> f x <> f h.
Lemma qf_inv l : qord (qf l) /\ (forall x, In x (map fst (qf l)) <-> In x (map f l)) /\ (forall e, In e (qf l) -> lastat l (snd e)).
Proof.
  induction l as [|h l IH] using rev_ind.
  - split; [split; [constructor|intros e []]|]. split; [intros x; reflexivity|intros e []].
  - destruct IH as (O & K & L). unfold qf in *. rewrite fold_left_app. cbn [fold_left]. split; [apply qset_ord, O|]. split.
    + intros x. rewrite qset_key, K, map_app, in_app_iff. cbn. intuition.
    + intros e He. pose proof (qset_ord h _ O) as O'. pose proof (proj2 O' e He) as Ek.
      destruct (Qc_eq_dec (fst e) (f h)) as [Q|Q].
      * pose proof (qset_self h _ O) as Hs. pose proof (qord_nodup _ O') as N.
        assert (e = (f h, h)) as ->.
        { clear -N He Hs Q. induction (qset (f h) h (fold_left (fun m h0 => qset (f h0) h0 m) l [])) as [|a m IH]; [destruct He|].
          cbn [map] in N. apply NoDup_cons_iff in N. destruct N as [Na N]. destruct He as [->|He], Hs as [Hs|Hs].
          - exact Hs.
          - exfalso. apply Na. rewrite Q. apply (in_map fst) in Hs. exact Hs.
          - exfalso. apply Na. subst a. cbn [fst]. rewrite <- Q. apply in_map, He.
          - exact (IH He Hs N). }
        cbn [snd]. exists l, []. split; [reflexivity|intros x []].
      * apply qset_in in He. destruct He as [->|[He|[E _] ] ]; [exfalso; apply Q; reflexivity| |contradiction].
        destruct (L e He) as (l1 & l2 & E & F). exists l1, (l2 ++ [h]). rewrite E, <- app_assoc. split; [reflexivity|].
        intros x Hx. apply in_app_iff in Hx. destruct Hx as [Hx|[<-|[] ] ]; [apply F, Hx|]. rewrite <- Ek. congruence.
Qed.
Lemma qf_sorted l : StronglySorted (fun a b => (f a < f b)%Qc) (map snd (qf l)).
Proof.
  destruct (qf_inv l) as ((S & K) & _). revert K. induction S as [|e m S IH F]; intros K; cbn [map]; constructor.
  - apply IH. intros; apply K; right; assumption.
  - apply Forall_forall. intros x Hx. apply in_map_iff in Hx. destruct Hx as (w & <- & Hw). rewrite Forall_forall in F.
    rewrite <- (K e (or_introl eq_refl)), <- (K w (or_intror Hw)). apply F, Hw.
Qed.
Lemma qf_in l h : In h (map snd (qf l)) <-> lastat l h.
Proof.
  destruct (qf_inv l) as (O & K & L). split.
  - intros H. apply in_map_iff in H. destruct H as (e & <- & He). apply L, He.
  - intros (l1 & l2 & E & F). assert (X : In (f h) (map fst (qf l))) by (apply K; rewrite E, map_app, in_app_iff; right; left; reflexivity).
    apply in_map_iff in X. destruct X as (e & Ek & He). rewrite (proj2 O e He) in Ek. apply in_map_iff. exists e. split; [|exact He].
    destruct (L e He) as (k1 & k2 & E' & F'). assert (G : l1 ++ h :: l2 = k1 ++ snd e :: k2) by congruence. clear -G F F' Ek.
    revert k1 G. induction l1 as [|a l1 IH]; intros [|b k1] G; cbn [app] in G; injection G as G1 G2.
    + symmetry; exact G1.
    + exfalso. apply (F (snd e)); [rewrite G2; apply in_app_iff; right; left; reflexivity|exact Ek].
    + exfalso. apply (F' h); [rewrite <- G2; apply in_app_iff; right; left; reflexivity|symmetry; exact Ek].
    + exact (IH k1 G2).
Qed.
Lemma qf_perm l : (forall i j a b, nth_error l i = Some a -> nth_error l j = Some b -> f a = f b -> i = j) -> Permutation (map snd (qf l)) l.
Proof.
  intros D. assert (Nl : NoDup l).
  { apply NoDup_nth_error. intros i j Hi E. destruct (nth_error l i) as [a|] eqn:Q; [|apply nth_error_None in Q; lia].
    apply (D i j a a Q); [symmetry; exact E|reflexivity]. }
  apply NoDup_Permutation; [|exact Nl|].
  - destruct (qf_inv l) as (O & _ & _). pose proof (qord_nodup _ O) as N. destruct O as [_ K]. revert N K. generalize (qf l). clear.
    induction l as [|e m IH]; cbn [map]; intros N K; constructor.
    + intros H. apply NoDup_cons_iff in N. destruct N as [Na N]. apply in_map_iff in H. destruct H as (w & E & Hw). apply Na.
      rewrite (K e (or_introl eq_refl)), <- E, <- (K w (or_intror Hw)). apply in_map, Hw.
    + apply NoDup_cons_iff in N. apply IH; [apply N|intros; apply K; right; assumption].
  - intros h. rewrite qf_in. split; [intros (l1 & l2 & -> & _); apply in_app_iff; right; left; reflexivity|].
    intros H. apply in_split in H. destruct H as (l1 & l2 & E). exists l1, l2. split; [exact E|]. intros x Hx Q.
    apply In_nth_error in Hx. destruct Hx as (k & Ek).
    assert (length l1 = length l1 + S k); [|lia]. apply (D _ _ h x); [| |symmetry; exact Q]; rewrite E.
    + rewrite nth_error_app2, Nat.sub_diag by lia. reflexivity.
    + rewrite nth_error_app2 by lia. replace (length l1 + S k - length l1) with (S k) by lia. exact Ek.
Qed.
End Q.
Lemma qf_shift A (f g : A -> Qc) c l : (forall x, f x = (g x + c)%Qc) -> map snd (qf A f l) = map snd (qf A g l).
Proof.
  intros H. assert (G : forall m, fold_left (fun m h => qset (f h) h m) l (map (fun e => (fst e + c, snd e)%Qc) m)
    = map (fun e => (fst e + c, snd e)%Qc) (fold_left (fun m h => qset (g h) h m) l m)).
  { induction l as [|h l IH]; intros m; cbn [fold_left]; [reflexivity|]. rewrite <- IH. f_equal. clear IH.
    induction m as [|[a x] m IH]; cbn [qset map fst snd]; [rewrite H; reflexivity|]. rewrite H.
    assert (L : forall u v, qc_lt (u + c) (v + c) = qc_lt u v).
    { intros u v. destruct (qc_lt u v) eqn:Q; [apply qc_lt_spec in Q; apply qc_lt_spec; qclra|apply qc_lt_false in Q; apply qc_lt_false; qclra]. }
    rewrite !L. destruct (qc_lt (g h) a); [reflexivity|]. destruct (qc_lt a (g h)); [|reflexivity]. cbn [map fst snd]. rewrite <- IH, H. reflexivity. }
  unfold qf. pose proof (G []) as G0. cbn [map] in G0. rewrite G0. rewrite map_map. reflexivity.
Qed.

Lemma qsuml_total {A} (f : A -> Qc) l : qsuml (map f l) = total f l.
Proof. unfold qsuml. rewrite fold_plus, total_map. change (total (fun x => f x) l) with (total f l). ring. Qed.
Lemma total_ext {A} (f g : A -> Qc) l : (forall x, f x = g x) -> total f l = total g l.
Proof. intros H. induction l as [|x l IH]; [reflexivity|]. cbn [total fold_right]. unfold total in IH. rewrite IH, H. reflexivity. Qed.
Lemma gradient_slope hs : gradient hs = match slope hs with Some g => Ok g | None => Undef end.
Proof.
  unfold gradient, slope. cbv zeta. rewrite !qsuml_total.
  rewrite (total_ext (fun h => hq h * hq h)%Qc (fun h => hq h * hq h * Q2Qc 1)%Qc) by (intros; ring).
  rewrite (total_ext (fun h => hq h * hq h * hpx h * hpx h)%Qc (fun h => hq h * hq h * (hpx h * hpx h))%Qc) by (intros; ring).
  rewrite (total_ext (fun h => hq h * hq h * hpx h * hpy h)%Qc (fun h => hq h * hq h * (hpx h * hpy h))%Qc) by (intros; ring).
  unfold qc_eqb. match goal with |- context [Qc_eq_dec ?a ?b] => destruct (Qc_eq_dec a b) end; reflexivity.
Qed.
Lemma find_order_eq hs perp g : charge hs <> Q2Qc 0 -> slope hs = Some g -> find_order hs perp = Ok (map snd (qf hit (along g perp) hs)).
Proof.
  intros C S. unfold find_order, centre. rewrite (qsuml_total hq). fold (charge hs).
  unfold qc_eqb. destruct (Qc_eq_dec (charge hs) (Q2Qc 0)) as [X|_]; [contradiction|]. cbn [obind]. rewrite gradient_slope, S. cbn [obind].
  f_equal. cbv zeta. cbn [fst snd]. match goal with |- map snd (fold_left (fun m h => qset ((fst _ * (hpx h - ?cx) + snd _ * (hpy h - ?cy))%Qc) h m) hs []) = _ => generalize cx as ux; generalize cy as uy; intros uy ux end.
  destruct perp; cbn [fst snd].
  - apply (qf_shift hit (fun h => (- g * (hpx h - ux) + Q2Qc 1 * (hpy h - uy))%Qc) (along g true) (g * ux - uy)%Qc). intros h. unfold along. ring.
  - apply (qf_shift hit (fun h => (Q2Qc 1 * (hpx h - ux) + g * (hpy h - uy))%Qc) (along g false) (- ux - g * uy)%Qc). intros h. unfold along. ring.
Qed.
Lemma find_order_undef hs perp : find_order hs perp = Undef <-> charge hs = Q2Qc 0 \/ slope hs = None.
Proof.
  split.
  - intros E. destruct (Qc_eq_dec (charge hs) (Q2Qc 0)) as [X|X]; [auto|]. destruct (slope hs) as [g|] eqn:S; [|auto].
    rewrite (find_order_eq hs perp g X S) in E. discriminate.
  - intros H. unfold find_order, centre. rewrite (qsuml_total hq). fold (charge hs). unfold qc_eqb.
    destruct (Qc_eq_dec (charge hs) (Q2Qc 0)) as [X|X]; [reflexivity|]. cbn [obind]. rewrite gradient_slope. destruct H as [H| ->]; [contradiction|reflexivity].
Qed.
Lemma find_order_cases hs perp : (exists g, charge hs <> Q2Qc 0 /\ slope hs = Some g /\ find_order hs perp = Ok (map snd (qf hit (along g perp) hs))) \/ find_order hs perp = Undef.
Proof.
  destruct (Qc_eq_dec (charge hs) (Q2Qc 0)) as [X|X]; [right; apply find_order_undef; auto|]. destruct (slope hs) as [g|] eqn:S.
  - left. exists g. split; [exact X|]. split; [reflexivity|]. apply find_order_eq; assumption.
  - right. apply find_order_undef. auto.
Qed.
(** all hits on one wire: no slope *)
Lemma one_wire_slope hs x : (forall h, In h hs -> hpx h = x) -> slope hs = None.
Proof.
  intros H. unfold slope. cbv zeta.
  assert (E1 : total (fun h => hq h * hq h * (hpx h * hpx h))%Qc hs = (x * x * total (fun h => hq h * hq h * Q2Qc 1)%Qc hs)%Qc).
  { induction hs as [|h hs IH]; cbn [total fold_right]; [ring|]. unfold total in IH. rewrite IH by (intros; apply H; right; assumption). rewrite (H h (or_introl eq_refl)). ring. }
  assert (E2 : total (fun h => hq h * hq h * hpx h)%Qc hs = (x * total (fun h => hq h * hq h * Q2Qc 1)%Qc hs)%Qc).
  { clear E1. induction hs as [|h hs IH]; cbn [total fold_right]; [ring|]. unfold total in IH. rewrite IH by (intros; apply H; right; assumption). rewrite (H h (or_introl eq_refl)). ring. }
  rewrite E1, E2. match goal with |- (if ?d then _ else _) = _ => destruct d as [|N]; [reflexivity|] end. exfalso. apply N. ring.
Qed.
