(** SimpleClustering: proofs *)
From Coq Require Import QArith Qcanon Permutation Sorted Lqa.
From Verif Require Import Base QcUtil Solver_Model Solver_Proofs SEG_Model SEG_Spec.
Import SEG_Model.
Local Open Scope nat_scope.

Lemma absorb_perm : forall l c, Permutation (fst (fst (absorb c l)) ++ concat (snd (fst (absorb c l)))) (c ++ concat l).
Proof.
  induction l as [|x l IH]; intros c; cbn [absorb]; [reflexivity|]. destruct (touch2 c x); cbn [fst snd concat].
  - rewrite IH, <- app_assoc. reflexivity.
  - transitivity (x ++ fst (fst (absorb c l)) ++ concat (snd (fst (absorb c l)))); [apply Permutation_app_swap_app|]. rewrite IH. apply Permutation_app_swap_app.
Qed.
Lemma absorb_len : forall l c, length (snd (fst (absorb c l))) + (if snd (absorb c l) then 1 else 0) <= length l.
Proof.
  induction l as [|x l IH]; intros c; cbn [absorb]; [cbn; lia|]. destruct (touch2 c x); cbn [fst snd length].
  - specialize (IH (c ++ x)). destruct (snd (absorb (c ++ x) l)); lia.
  - specialize (IH c). destruct (snd (absorb c l)); lia.
Qed.
Lemma absorb_none : forall l c, snd (absorb c l) = false -> fst (absorb c l) = (c, l) /\ forall x, In x l -> touch2 c x = false.
Proof.
  induction l as [|x l IH]; intros c; cbn [absorb]; [split; [reflexivity|intros y []]|]. destruct (touch2 c x) eqn:T; cbn [fst snd]; [discriminate|].
  intros E. destruct (IH c E) as (A & B). rewrite A. cbn [fst snd]. split; [reflexivity|]. intros y [<-|Iy]; auto.
Qed.
Lemma sweep_perm : forall n l, Permutation (concat (fst (sweep n l))) (concat l).
Proof.
  induction n as [|n IH]; intros l; [reflexivity|]. destruct l as [|c l]; [reflexivity|]. cbn [sweep].
  destruct (absorb c l) as [[c' r] m] eqn:E. cbn [fst concat]. rewrite IH. pose proof (absorb_perm l c) as P. rewrite E in P. exact P.
Qed.
Lemma sweep_len : forall n l, length (fst (sweep n l)) + (if snd (sweep n l) then 1 else 0) <= length l.
Proof.
  induction n as [|n IH]; intros l; [cbn; lia|]. destruct l as [|c l]; [cbn; lia|]. cbn [sweep].
  destruct (absorb c l) as [[c' r] m] eqn:E. cbn [fst snd length]. pose proof (absorb_len l c) as P. rewrite E in P. cbn [fst snd] in P. specialize (IH r). destruct m, (snd (sweep n r)); cbn [orb] in *; lia.
Qed.
Lemma sweep_none : forall n l, length l <= n -> snd (sweep n l) = false -> fst (sweep n l) = l /\ ForallOrdPairs (fun c d => touch2 c d = false) l.
Proof.
  induction n as [|n IH]; intros l L; [destruct l; [|cbn in L; lia]; split; [reflexivity|constructor]|]. destruct l as [|c l]; [split; [reflexivity|constructor]|]. cbn [sweep].
  destruct (absorb c l) as [[c' r] m] eqn:E. cbn [fst snd]. intros F. apply orb_false_iff in F as [F1 F2]. pose proof (absorb_none l c) as P. rewrite E in P. cbn [fst snd] in P. destruct (P F1) as (A & B). injection A as -> ->.
  destruct (IH l ltac:(cbn in L; lia) F2) as (C & D). rewrite C. split; [reflexivity|]. constructor; [apply Forall_forall; exact B|exact D].
Qed.
(** an invariant of the clusters that union and insertion of touching things keep *)
Section Keep.
Variable P : list hit -> Prop.
Hypothesis Pu : forall c d, P c -> P d -> touch2 c d = true -> P (c ++ d).
Lemma absorb_keep : forall l c, P c -> Forall P l -> P (fst (fst (absorb c l))) /\ Forall P (snd (fst (absorb c l))).
Proof.
  induction l as [|x l IH]; intros c Pc F; cbn [absorb]; [cbn; auto|]. inversion F as [|? ? Fx Fl]; subst. destruct (touch2 c x) eqn:T; cbn [fst snd].
  - apply IH; [apply Pu; assumption|exact Fl].
  - destruct (IH c Pc Fl). split; [assumption|constructor; assumption].
Qed.
Lemma sweep_keep : forall n l, Forall P l -> Forall P (fst (sweep n l)).
Proof.
  induction n as [|n IH]; intros l F; [exact F|]. destruct l as [|c l]; [exact F|]. cbn [sweep]. inversion F as [|? ? Fc Fl]; subst.
  destruct (absorb c l) as [[c' r] m] eqn:E. cbn [fst]. pose proof (absorb_keep l c Fc Fl) as K. rewrite E in K. destruct K. constructor; [assumption|apply IH; assumption].
Qed.
Lemma merge_keep : forall n l r, merge n l = Some r -> Forall P l -> Forall P r.
Proof.
  induction n as [|n IH]; intros l r E F; [discriminate|]. cbn [merge] in E. pose proof (sweep_keep (length l) l F) as K. destruct (sweep (length l) l) as [l' m]. cbn [fst] in K. destruct m; [apply (IH l' r E K)|]. assert (r = l') by congruence. subst; exact K.
Qed.
Hypothesis Ps : forall h, P [h].
Hypothesis Pi : forall c h, P c -> touch1 c h = true -> P (c ++ [h]).
Lemma put_keep h : forall l, Forall P l -> Forall P (put h l).
Proof.
  induction l as [|c l IH]; intros F; cbn [put]; [constructor; [apply Ps|constructor]|]. inversion F as [|? ? Fc Fl]; subst. destruct (touch1 c h) eqn:T; constructor; auto.
Qed.
Lemma gather_keep inp : Forall P (gather inp).
Proof.
  unfold gather. assert (G : forall r, Forall P r -> Forall P (fold_left (fun r h => put h r) inp r)); [|apply G; constructor].
  induction inp as [|h inp IH]; intros r F; [exact F|]. cbn [fold_left]. apply IH, put_keep, F.
Qed.
End Keep.

Lemma merge_perm : forall n l r, merge n l = Some r -> Permutation (concat r) (concat l).
Proof.
  induction n as [|n IH]; intros l r E; [discriminate|]. cbn [merge] in E. pose proof (sweep_perm (length l) l) as K. destruct (sweep (length l) l) as [l' m]. cbn [fst] in K. destruct m; [rewrite (IH l' r E); exact K|]. assert (r = l') by congruence. subst; exact K.
Qed.
Lemma merge_apart : forall n l r, merge n l = Some r -> ForallOrdPairs (fun c d => touch2 c d = false) r.
Proof.
  induction n as [|n IH]; intros l r E; [discriminate|]. cbn [merge] in E. pose proof (sweep_none (length l) l (le_n _)) as K. destruct (sweep (length l) l) as [l' m]. cbn [fst snd] in K. destruct m; [apply (IH l' r E)|]. assert (r = l') by congruence. subst. destruct (K eq_refl) as [-> F]. exact F.
Qed.
Lemma merge_ends : forall n l, length l < n -> exists r, merge n l = Some r.
Proof.
  induction n as [|n IH]; intros l L; [lia|]. cbn [merge]. pose proof (sweep_len (length l) l) as K. destruct (sweep (length l) l) as [l' m]. cbn [fst snd] in K. destruct m; [apply IH; lia|eauto].
Qed.
Lemma merge_more : forall n l r, merge n l = Some r -> forall m, n <= m -> merge m l = Some r.
Proof.
  induction n as [|n IH]; intros l r E m L; [discriminate|]. destruct m as [|m]; [lia|]. cbn [merge] in *. destruct (sweep (length l) l) as [l' b]. destruct b; [|exact E]. apply (IH l' r E). lia.
Qed.
Lemma put_perm h : forall l, Permutation (concat (put h l)) (h :: concat l).
Proof.
  induction l as [|c l IH]; cbn [put]; [reflexivity|]. destruct (touch1 c h); cbn [concat].
  - rewrite <- app_assoc. apply Permutation_sym, Permutation_middle.
  - rewrite IH. apply Permutation_sym, Permutation_middle.
Qed.
Lemma put_len h : forall l, length (put h l) <= S (length l).
Proof. induction l as [|c l IH]; cbn [put]; [cbn; lia|]. destruct (touch1 c h); cbn [length]; lia. Qed.
Lemma gather_perm inp : Permutation (concat (gather inp)) inp.
Proof.
  unfold gather. assert (G : forall r, Permutation (concat (fold_left (fun r h => put h r) inp r)) (concat r ++ inp)); [|rewrite G; reflexivity].
  induction inp as [|h inp IH]; intros r; cbn [fold_left]; [rewrite app_nil_r; reflexivity|]. rewrite IH, put_perm. apply Permutation_middle.
Qed.
Lemma gather_len inp : length (gather inp) <= length inp.
Proof.
  unfold gather. assert (G : forall r, length (fold_left (fun r h => put h r) inp r) <= length r + length inp); [|apply (G [])].
  induction inp as [|h inp IH]; intros r; cbn [fold_left length]; [lia|]. specialize (IH (put h r)). pose proof (put_len h r). lia.
Qed.

(** the result, whatever the fuel *)
Lemma simple_ends inp : exists cls, forall n, length inp < n -> simple n inp = Some cls.
Proof.
  destruct (merge_ends (S (length inp)) (gather inp)) as (r & E); [pose proof (gather_len inp); lia|]. exists r. intros n L. unfold simple. apply (merge_more _ _ _ E). lia.
Qed.
Lemma simple_more n inp r : simple n inp = Some r -> forall m, n <= m -> simple m inp = Some r.
Proof. unfold simple. intros E m L. apply (merge_more _ _ _ E m L). Qed.
Lemma simple_perm n inp r : simple n inp = Some r -> Permutation (concat r) inp.
Proof. intros E. rewrite (merge_perm _ _ _ E). apply gather_perm. Qed.
Lemma simple_keep (P : list hit -> Prop) (Pu : forall c d, P c -> P d -> touch2 c d = true -> P (c ++ d)) (Ps : forall h, P [h]) (Pi : forall c h, P c -> touch1 c h = true -> P (c ++ [h])) n inp r : simple n inp = Some r -> forall c, In c r -> P c.
Proof. intros E c I. pose proof (merge_keep P Pu _ _ _ E (gather_keep P Ps Pi inp)) as F. rewrite Forall_forall in F. auto. Qed.
Lemma simple_nonempty n inp r : simple n inp = Some r -> forall c, In c r -> c <> [].
Proof.
  apply (simple_keep (fun c => c <> [])).
  - intros c d Nc _ _. destruct c; [congruence|discriminate].
  - discriminate.
  - intros c h Nc _. destruct c; discriminate.
Qed.

Lemma qeq a b : Qc_eq_bool a b = true <-> a = b.
Proof. split; [apply Qc_eq_bool_correct|intros ->]. unfold Qc_eq_bool. destruct (Qc_eq_dec b b); congruence. Qed.
(** for sane hits the test is the symmetric one *)
Lemma touch_spec a b : sane a -> sane b -> touch a b = true <-> neighbours a b.
Proof.
  intros ((A1 & A2) & A3) ((B1 & B2) & B3). unfold touch, neighbours, u32. rewrite !Z.mod_small by lia.
  destruct ((wire a =? wire b)%Z && Qc_eq_bool (peak a) (peak b)) eqn:E.
  - apply andb_true_iff in E as [E1 E2]. apply Z.eqb_eq in E1. apply qeq in E2. split; [discriminate|]. intros (_ & _ & _ & N). tauto.
  - assert (N : ~ (wire a = wire b /\ peak a = peak b)). { intros [X Y]. rewrite X, Y, Z.eqb_refl in E. cbn in E. assert (Qc_eq_bool (peak b) (peak b) = true) by (apply qeq; reflexivity). congruence. }
    destruct ((wire b - 1 <=? wire a)%Z && (wire a <=? wire b + 1)%Z) eqn:W; rewrite ?andb_true_iff, ?andb_false_iff, ?Z.leb_le, ?Z.leb_gt in W.
    + rewrite !orb_true_iff, !andb_true_iff, !Z.leb_le. split; [intros Hc; split; [lia|]; split; [lia|]; split; [lia|exact N]|intros (_ & X & Y & _)]. lia.
    + split; [discriminate|]. intros (X & _). lia.
Qed.
Lemma neighbours_sym a b : neighbours a b -> neighbours b a.
Proof. unfold neighbours. intros (A & B & C & D). split; [lia|]. split; [lia|]. split; [lia|]. intros [X Y]. apply D. split; congruence. Qed.

Section Comp.
Variable inp : list hit.
Hypothesis Sn : forall h, In h inp -> sane h.
Definition block (c : list hit) : Prop := incl c inp -> forall a b, In a c -> In b c -> linked inp a b.
Lemma linked_sym a b : linked inp a b -> linked inp b a.
Proof. induction 1 as [x y (A & B & C)|x|x y z _ IH1 _ IH2]; [apply rt_step; split; [exact B|]; split; [exact A|apply neighbours_sym, C]|apply rt_refl|apply (rt_trans _ _ _ y); assumption]. Qed.
Lemma touch1_ex c h : touch1 c h = true <-> exists x, In x c /\ touch x h = true.
Proof. unfold touch1. rewrite existsb_exists. reflexivity. Qed.
Lemma touch2_ex c d : touch2 c d = true <-> exists x y, In x c /\ In y d /\ touch y x = true.
Proof. unfold touch2. rewrite existsb_exists. split; [intros (x & I & T); apply touch1_ex in T as (y & J & T); eauto|]. intros (x & y & I & J & T). exists x. split; [exact I|]. apply touch1_ex. eauto. Qed.
Lemma block_join c d x y : block c -> block d -> In x c -> In y d -> touch y x = true \/ touch x y = true -> block (c ++ d).
Proof.
  intros Bc Bd Ix Iy T I. assert (Ic : incl c inp) by (intros z Z; apply I, in_or_app; auto). assert (Id : incl d inp) by (intros z Z; apply I, in_or_app; auto).
  assert (N : neighbours x y). { destruct T as [T|T]; apply touch_spec in T; auto. apply neighbours_sym, T. }
  assert (XY : linked inp x y) by (apply rt_step; auto).
  assert (CD : forall a b, In a c -> In b d -> linked inp a b). { intros a b A B. apply (rt_trans _ _ _ x); [apply Bc; auto|]. apply (rt_trans _ _ _ y); [exact XY|apply Bd; auto]. }
  intros a b A B. apply in_app_or in A, B. destruct A as [A|A], B as [B|B]; [apply Bc; auto|apply CD; auto|apply linked_sym, CD; auto|apply Bd; auto].
Qed.
Lemma simple_block n r : simple n inp = Some r -> forall c, In c r -> forall a b, In a c -> In b c -> linked inp a b.
Proof.
  intros E c I. apply (simple_keep block) with (n := n) (inp := inp) (r := r); auto.
  - intros x y Bx By T. apply touch2_ex in T as (u & v & A & B & T). apply (block_join x y u v); auto.
  - intros h _ a b [<-|[]] [<-|[]]. apply rt_refl.
  - intros x h Bx T. apply touch1_ex in T as (u & A & T). apply (block_join x [h] u h); auto; [|left; reflexivity]. intros _ a b [<-|[]] [<-|[]]. apply rt_refl.
  - intros a A. apply (Permutation_in _ (simple_perm _ _ _ E)). apply in_concat. eauto.
Qed.
Lemma fop_in {A} (R : A -> A -> Prop) (l : list A) : ForallOrdPairs R l -> forall x y, In x l -> In y l -> x = y \/ R x y \/ R y x.
Proof. induction 1 as [|z l F G IH]; intros x y X Y; [destruct X|]. rewrite Forall_forall in F. destruct X as [X|X], Y as [Y|Y]; subst; auto. Qed.
Lemma components n r : simple n inp = Some r -> forall a b, In a inp -> together r a b <-> linked inp a b.
Proof.
  intros E a b Ia. split; [intros (c & I & A & B); apply (simple_block n r E c I a b A B)|]. intros L. apply clos_rt_rtn1_iff in L. revert Ia.
  assert (Own : forall h, In h inp -> exists c, In c r /\ In h c). { intros h Ih. apply (Permutation_in _ (Permutation_sym (simple_perm _ _ _ E))), in_concat in Ih as (c & X & Y). eauto. }
  induction L as [|y z (Iy & Iz & N) L IH]; intros Ia; [destruct (Own a Ia) as (c & X & Y); exists c; auto|].
  destruct (IH Ia) as (c & Ic & A & Y). destruct (Own z Iz) as (d & Id & Z). destruct (fop_in _ _ (merge_apart _ _ _ E) c d Ic Id) as [->|[T|T]]; [exists d; auto| |]; exfalso.
  - assert (T' : touch2 c d = true) by (apply touch2_ex; exists y, z; split; [exact Y|]; split; [exact Z|]; apply touch_spec; auto; apply neighbours_sym, N). congruence.
  - assert (T' : touch2 d c = true) by (apply touch2_ex; exists z, y; split; [exact Z|]; split; [exact Y|]; apply touch_spec; auto). congruence.
Qed.
End Comp.
