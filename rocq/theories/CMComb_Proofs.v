From Verif Require Import Base Util CMComb_Model CMComb_Spec.

(* ---- enumeration by a successor function ---- *)
Fixpoint chain {A} (next : A -> option A) (l : list A) (o : option A) : Prop :=
  match l with
  | [] => True
  | x :: t => next x = (match t with [] => o | y :: _ => Some y end) /\ chain next t o
  end.

Lemma chain_app {A} (next : A -> option A) l1 l2 o :
  chain next l1 (match l2 with [] => o | y :: _ => Some y end) -> chain next l2 o -> chain next (l1 ++ l2) o.
Proof.
  induction l1 as [|x l1 IH]; simpl; intros H1 H2; [exact H2|].
  destruct H1 as [Hx H1]. split; [|apply IH; assumption].
  destruct l1 as [|y l1]; simpl; [|exact Hx]. destruct l2; exact Hx.
Qed.

(* ---- bool vectors ---- *)
Fixpoint vecs (n r : nat) : list (list bool) :=
  match n with
  | 0 => match r with 0 => [[]] | S _ => [] end
  | S n' => map (cons false) (vecs n' r) ++ (match r with 0 => [] | S r' => map (cons true) (vecs n' r') end)
  end.

Fixpoint count (v : list bool) : nat := match v with [] => 0 | b :: t => (if b then 1 else 0) + count t end.

Lemma in_vecs : forall n r v, In v (vecs n r) <-> length v = n /\ count v = r.
Proof.
  induction n as [|n IH]; intros r v; simpl.
  - destruct r; simpl; split.
    + intros [<-|[]]; auto.
    + intros [H _]. destruct v; [auto|discriminate].
    + intros [].
    + intros [H C]. destruct v; [discriminate C|discriminate H].
  - rewrite in_app_iff, in_map_iff. split.
    + intros [(t & <- & H)|H].
      * apply IH in H. simpl. destruct H; subst; auto.
      * destruct r as [|r]; [destruct H|]. apply in_map_iff in H. destruct H as (t & <- & H).
        apply IH in H. simpl. destruct H; subst; auto.
    + intros [L C]. destruct v as [|b t]; [discriminate|]. simpl in *. destruct b.
      * right. destruct r; [discriminate|]. apply in_map_iff. exists t. split; [reflexivity|]. apply IH. lia.
      * left. exists t. split; [reflexivity|]. apply IH. lia.
Qed.

Lemma vecs_hd : forall n r, r <= n -> exists t, vecs n r = (repeat false (n - r) ++ repeat true r) :: t.
Proof.
  induction n as [|n IH]; intros r H; cbn [vecs].
  - assert (r = 0) by lia. subst. exists []. reflexivity.
  - destruct (Nat.eq_dec r (S n)) as [->|N].
    + assert (E : vecs n (S n) = []).
      { destruct (vecs n (S n)) as [|v l] eqn:E; [reflexivity|]. exfalso.
        assert (In v (vecs n (S n))) by (rewrite E; left; reflexivity). apply in_vecs in H0. destruct H0 as [L C].
        assert (K : forall w, count w <= length w) by (induction w as [|[] w IHw]; simpl; lia). specialize (K v). lia. }
      rewrite E, Nat.sub_diag. simpl. destruct (IH n (le_n n)) as [t Ht]. rewrite Ht, Nat.sub_diag. simpl. eexists; reflexivity.
    + destruct (IH r ltac:(lia)) as [t Ht]. rewrite Ht. replace (S n - r) with (S (n - r)) by lia.
      cbn [map repeat app]. eexists; reflexivity.
Qed.

Lemma vecs_nil n r : n < r -> vecs n r = [].
Proof.
  intros H. destruct (vecs n r) as [|v l] eqn:E; [reflexivity|]. exfalso.
  assert (Hi : In v (vecs n r)) by (rewrite E; left; reflexivity). apply in_vecs in Hi. destruct Hi as [L C].
  assert (K : forall w, count w <= length w) by (induction w as [|[] w IHw]; simpl; lia). specialize (K v). lia.
Qed.

Lemma last_true_none : forall t, last_true t = None <-> t = repeat false (length t).
Proof.
  induction t as [|b t IH]; simpl; [tauto|].
  destruct (last_true t) as [j|] eqn:E.
  - split; [discriminate|]. intros H. exfalso. assert (X : Some j = None) by (apply IH; congruence). discriminate.
  - destruct b; split; try discriminate; intros _; [|reflexivity]. f_equal. apply IH. reflexivity.
Qed.

Lemma next_none : forall t, next_permutation t = None -> t = repeat true (count t) ++ repeat false (length t - count t).
Proof.
  induction t as [|b t IH]; simpl; intros H; [reflexivity|].
  destruct (next_permutation t) as [t'|] eqn:E; [discriminate|]. specialize (IH eq_refl).
  destruct b; simpl.
  - f_equal. exact IH.
  - destruct (last_true t) as [j|] eqn:L; [discriminate|]. apply last_true_none in L.
    assert (C : count t = 0) by (rewrite L; clear; induction (length t); simpl; auto).
    rewrite C in *. simpl. f_equal. rewrite L at 1. reflexivity.
Qed.

Lemma repeat_S_end {A} (x : A) n : repeat x (S n) = repeat x n ++ [x].
Proof. change (repeat x (S n)) with ([x] ++ repeat x n). induction n; simpl in *; [reflexivity|]. f_equal. exact IHn. Qed.

Lemma last_true_block a b : last_true (repeat true (S a) ++ repeat false b) = Some a.
Proof.
  induction a as [|a IH]; simpl.
  - assert (H : last_true (repeat false b) = None) by (apply last_true_none; rewrite repeat_length; reflexivity).
    rewrite H. reflexivity.
  - simpl in IH. rewrite IH. reflexivity.
Qed.

Lemma upd_block a b : upd (repeat true (S a) ++ repeat false b) a false = repeat true a ++ repeat false (S b).
Proof. induction a as [|a IH]; simpl in *; [reflexivity|]. f_equal. exact IH. Qed.

Lemma rev_repeat {A} (x : A) n : rev (repeat x n) = repeat x n.
Proof. induction n as [|n IH]; [reflexivity|]. rewrite repeat_S_end at 1. rewrite rev_app_distr, IH. reflexivity. Qed.

Lemma next_pivot t : count t <> 0 -> next_permutation t = None ->
  next_permutation (false :: t) = Some (true :: repeat false (S (length t - count t)) ++ repeat true (count t - 1)).
Proof.
  intros C N. cbn [next_permutation]. rewrite N. pose proof (next_none t N) as Et. clear N.
  destruct (count t) as [|a] eqn:Ec; [congruence|]. clear Ec C.
  remember (length t) as n eqn:En. clear En. subst t.
  rewrite last_true_block, upd_block, rev_app_distr, !rev_repeat.
  replace (S a - 1) with a by lia. reflexivity.
Qed.

Lemma chain_map_cons x : forall l o, chain next_permutation l None ->
  (forall t, In t l -> next_permutation t = None -> next_permutation (x :: t) = option_map (fun a => a) o) ->
  chain next_permutation (map (cons x) l) o.
Proof.
  induction l as [|t l IH]; simpl; intros o H HL; [exact I|].
  destruct H as [Ht Hl]. split.
  - destruct l as [|y l]; simpl.
    + rewrite (HL t (or_introl eq_refl) Ht). destruct o; reflexivity.
    + rewrite Ht. reflexivity.
  - apply IH; [exact Hl|]. intros t' Ht'. apply HL. right; exact Ht'.
Qed.

Lemma vecs_chain : forall n r, chain next_permutation (vecs n r) None.
Proof.
  induction n as [|n IH]; intros r.
  - destruct r; simpl; auto.
  - simpl. apply chain_app.
    + apply chain_map_cons; [apply IH|]. intros t Ht Hn. apply in_vecs in Ht. destruct Ht as [L C].
      destruct r as [|r].
      * simpl. rewrite Hn. assert (Z : last_true t = None).
        { apply last_true_none. rewrite (next_none t Hn) at 1. rewrite C. simpl. rewrite Nat.sub_0_r. reflexivity. }
        rewrite Z. reflexivity.
      * rewrite next_pivot by (assumption || lia).
        assert (Hr : r <= n). { assert (K : forall w, count w <= length w) by (induction w as [|[] w IHw]; simpl; lia). specialize (K t). lia. }
        destruct (vecs_hd n r Hr) as [tl Htl]. rewrite Htl. simpl. do 2 f_equal. rewrite L, C.
        replace (S r - 1) with r by lia. replace (n - r) with (S (n - S r)) by (assert (K : forall w, count w <= length w) by (induction w as [|[] w IHw]; simpl; lia); specialize (K t); lia).
        reflexivity.
    + destruct r as [|r]; [exact I|]. apply chain_map_cons; [apply IH|]. intros t _ Hn. simpl. rewrite Hn. reflexivity.
Qed.

Lemma vecs_length_le : forall n r, length (vecs n r) <= 2 ^ n.
Proof.
  induction n as [|n IH]; intros r; simpl.
  - destruct r; simpl; lia.
  - rewrite app_length, map_length. pose proof (IH r). destruct r as [|r]; simpl; [lia|]. rewrite map_length. pose proof (IH r). lia.
Qed.

Lemma vecs_NoDup : forall n r, NoDup (vecs n r).
Proof.
  assert (M : forall (b : bool) l, NoDup l -> NoDup (map (cons b) l)).
  { induction l as [|x l IH]; simpl; intros H; [constructor|]. inversion H; subst. constructor; [|auto].
    rewrite in_map_iff. intros (y & E & Hy). inversion E; subst. contradiction. }
  assert (A : forall (l1 l2 : list (list bool)), NoDup l1 -> NoDup l2 -> (forall x, In x l1 -> In x l2 -> False) -> NoDup (l1 ++ l2)).
  { induction l1 as [|x l1 IH]; simpl; intros l2 H1 H2 D; [exact H2|]. inversion H1; subst. constructor.
    - rewrite in_app_iff. intros [H|H]; [contradiction|]. apply (D x); auto.
    - apply IH; auto. intros y Hy. apply D. right; exact Hy. }
  induction n as [|n IH]; intros r; simpl.
  - destruct r; constructor; [intros []|constructor].
  - apply A; [apply M, IH|destruct r; [constructor|apply M, IH]|].
    intros x H1 H2. apply in_map_iff in H1. destruct H1 as (t & <- & _).
    destruct r; [destruct H2|]. apply in_map_iff in H2. destruct H2 as (t' & E & _). discriminate.
Qed.

Lemma perm_loop_chain : forall l x fuel res, chain next_permutation (x :: l) None -> length (x :: l) <= fuel ->
  perm_loop fuel x res = Some (res ++ map (positions 0) (x :: l)).
Proof.
  induction l as [|y l IH]; intros x fuel res [Hx Hl] Hf; simpl in Hf; (destruct fuel as [|fuel]; [lia|]); cbn [perm_loop]; rewrite Hx.
  - reflexivity.
  - rewrite IH; [|exact Hl|simpl; lia]. rewrite <- app_assoc. reflexivity.
Qed.

(* ---- positions ---- *)
Lemma in_positions : forall v k i, In i (positions k v) <-> k <= i < k + length v /\ nth (i - k) v false = true.
Proof.
  induction v as [|b v IH]; intros k i; simpl.
  - split; [intros []|lia].
  - assert (K : In i (positions (S k) v) <-> (S k <= i < S k + length v) /\ nth (i - k) (b :: v) false = true).
    { rewrite IH. split; intros [R N]; (split; [exact R|]).
      - replace (i - k) with (S (i - S k)) by lia. exact N.
      - replace (i - k) with (S (i - S k)) in N by lia. exact N. }
    destruct b.
    + simpl. rewrite K. split.
      * intros [<-|[R N]]; [rewrite Nat.sub_diag; split; [lia|reflexivity]|]. split; [lia|exact N].
      * intros [R N]. destruct (Nat.eq_dec k i) as [E|E]; [left; exact E|right; split; [lia|exact N]].
    + rewrite K. split; intros [R N].
      * split; [lia|exact N].
      * destruct (Nat.eq_dec k i) as [->|E]; [rewrite Nat.sub_diag in N; discriminate|split; [lia|exact N]].
Qed.

Lemma positions_sorted : forall v k, StronglySorted lt (positions k v).
Proof.
  induction v as [|b v IH]; intros k; simpl; [constructor|].
  destruct b; [|apply IH]. constructor; [apply IH|]. apply Forall_forall. intros i Hi. apply in_positions in Hi. lia.
Qed.

Lemma positions_length : forall v k, length (positions k v) = count v.
Proof. induction v as [|[] v IH]; intros k; simpl; auto. Qed.

Lemma sorted_lt_eq : forall l l', StronglySorted lt l -> StronglySorted lt l' ->
  (forall x, In x l <-> In x l') -> l = l'.
Proof.
  induction l as [|a l IH]; intros l' S S' H.
  - destruct l' as [|b l']; [reflexivity|]. exfalso. apply (H b). left; reflexivity.
  - destruct l' as [|b l']; [exfalso; apply (H a); left; reflexivity|].
    inversion S as [|? ? S1 F1]; subst. inversion S' as [|? ? S2 F2]; subst.
    rewrite Forall_forall in F1, F2.
    assert (E : a = b).
    { destruct (proj1 (H a) (or_introl eq_refl)) as [E|Ha]; [auto|].
      destruct (proj2 (H b) (or_introl eq_refl)) as [E|Hb]; [auto|].
      specialize (F1 b Hb). specialize (F2 a Ha). lia. }
    subst b. f_equal. apply IH; [assumption|assumption|].
    intros x. split; intros Hx.
    + destruct (proj1 (H x) (or_intror Hx)) as [<-|K]; [|exact K]. specialize (F1 a Hx). lia.
    + destruct (proj2 (H x) (or_intror Hx)) as [<-|K]; [|exact K]. specialize (F2 a Hx). lia.
Qed.

Lemma positions_inj v w : length v = length w -> positions 0 v = positions 0 w -> v = w.
Proof.
  intros L E. apply (nth_ext_length false); [exact L|]. intros i Hi.
  pose proof (in_positions v 0 i) as A. pose proof (in_positions w 0 i) as B. rewrite E, B in A. rewrite Nat.sub_0_r in A.
  destruct (nth i v false) eqn:V, (nth i w false) eqn:W'; try reflexivity; exfalso.
  - assert (X : 0 <= i < 0 + length w /\ false = true) by (apply A; split; [lia|reflexivity]). destruct X; discriminate.
  - assert (X : 0 <= i < 0 + length v /\ false = true) by (apply A; split; [lia|reflexivity]). destruct X; discriminate.
Qed.

Lemma choice_vec n c : StronglySorted lt c -> (forall i, In i c -> i < n) ->
  let v := map (fun i => existsb (Nat.eqb i) c) (seq 0 n) in length v = n /\ positions 0 v = c.
Proof.
  intros S H v. assert (L : length v = n) by (unfold v; rewrite map_length, seq_length; reflexivity). split; [exact L|].
  apply sorted_lt_eq; [apply positions_sorted|exact S|]. intros i. rewrite in_positions, L, Nat.sub_0_r. split.
  - intros [R N]. unfold v in N. rewrite nth_map_seq in N by lia. apply existsb_exists in N. destruct N as (x & Hx & E). apply Nat.eqb_eq in E. rewrite E; exact Hx.
  - intros Hi. specialize (H i Hi). split; [lia|]. unfold v. rewrite nth_map_seq by lia. apply existsb_exists. exists i. split; [exact Hi|apply Nat.eqb_refl].
Qed.

Lemma fact32_small n : n <= 33 -> (fact32 n =? 0)%Z = false.
Proof.
  intros H. assert (K : forallb (fun n => negb (fact32 n =? 0)%Z) (seq 0 34) = true) by (vm_compute; reflexivity).
  rewrite forallb_forall in K. specialize (K n). rewrite negb_true_iff in K. apply K. apply in_seq. lia.
Qed.

Lemma fact32_big n : 34 <= n -> fact32 n = 0%Z.
Proof.
  intros H. replace n with ((n - 34) + 34) by lia. generalize (n - 34) as k.
  assert (E34 : fact32 34 = 0%Z) by (vm_compute; reflexivity).
  induction k as [|k IH]; [exact E34|]. change (S k + 34) with (S (k + 34)). cbn [fact32]. rewrite IH. reflexivity.
Qed.

Lemma NoDup_map_inj_in {A B} (f : A -> B) l : (forall x y, In x l -> In y l -> f x = f y -> x = y) -> NoDup l -> NoDup (map f l).
Proof.
  induction l as [|x l IH]; simpl; intros Hi H; [constructor|]. inversion H; subst. constructor.
  - rewrite in_map_iff. intros (y & E & Hy). apply H2. rewrite <- (Hi y x); auto.
  - apply IH; auto.
Qed.

Lemma simple_combination_ok n r : 0 < r <= n -> n <= 33 ->
  exists res, simple_combination n r = Ok res /\ NoDup res /\ forall c, In c res <-> index_choice n r c.
Proof.
  intros Hr Hn. unfold simple_combination.
  destruct (Nat.eqb_spec n 0); [lia|]. destruct (Nat.eqb_spec r 0); [lia|]. cbn [orb].
  destruct (Nat.ltb_spec n r); [lia|]. rewrite !fact32_small by lia. cbn [orb].
  destruct (vecs_hd n r ltac:(lia)) as [t Ht].
  pose proof (vecs_chain n r) as Hc. pose proof (vecs_length_le n r) as Hl. rewrite Ht in Hc, Hl.
  rewrite (perm_loop_chain _ _ _ _ Hc Hl). cbn [app]. rewrite <- Ht.
  exists (map (positions 0) (vecs n r)). split; [reflexivity|]. split.
  - apply NoDup_map_inj_in; [|apply vecs_NoDup]. intros x y Hx Hy E. apply in_vecs in Hx, Hy. apply positions_inj; [lia|exact E].
  - intros c. rewrite in_map_iff. split.
    + intros (v & <- & Hv). apply in_vecs in Hv. destruct Hv as [L C]. split; [rewrite positions_length; exact C|].
      split; [apply positions_sorted|]. intros i Hi. apply in_positions in Hi. lia.
    + intros (L & S & B). destruct (choice_vec n c S B) as [V P]. eexists. split; [exact P|].
      apply in_vecs. split; [exact V|]. rewrite <- (positions_length _ 0), P. exact L.
Qed.

(* ---- odometer ---- *)
Fixpoint tuples (seed : list nat) : list (list nat) :=
  match seed with
  | [] => [[]]
  | s :: ss => flat_map (fun i => map (cons i) (tuples ss)) (seq 0 s)
  end.

Definition next_ctr (seed ctr : list nat) : option (list nat) :=
  let (c', carry) := increment ctr seed in if carry then None else Some c'.

Lemma in_tuples : forall seed t, In t (tuples seed) <-> length t = length seed /\ forall i, i < length seed -> nth i t 0 < nth i seed 0.
Proof.
  induction seed as [|s ss IH]; intros t; simpl.
  - split; [intros [<-|[]]; split; [reflexivity|intros; lia]|]. intros [L _]. destruct t; [auto|discriminate].
  - rewrite in_flat_map. split.
    + intros (i & Hi & H). apply in_map_iff in H. destruct H as (u & <- & Hu). apply IH in Hu. destruct Hu as [L B].
      apply in_seq in Hi. split; [simpl; lia|]. intros [|j] Hj; simpl; [lia|]. apply B. lia.
    + intros [L B]. destruct t as [|i u]; [discriminate|]. exists i. pose proof (B 0 ltac:(lia)) as B0. simpl in B0.
      split; [apply in_seq; lia|]. apply in_map_iff. exists u. split; [reflexivity|]. apply IH. split; [simpl in L; lia|].
      intros j Hj. apply (B (S j)). lia.
Qed.

Lemma tuples_NoDup : forall seed, NoDup (tuples seed).
Proof.
  induction seed as [|s ss IH]; simpl; [constructor; [intros []|constructor]|].
  generalize (seq_NoDup s 0). generalize (seq 0 s) as l. induction l as [|i l IHl]; intros N; simpl; [constructor|].
  inversion N as [|? ? N1 N2]; subst.
  assert (A : forall (l1 l2 : list (list nat)), NoDup l1 -> NoDup l2 -> (forall x, In x l1 -> In x l2 -> False) -> NoDup (l1 ++ l2)).
  { induction l1 as [|x l1 IH1]; simpl; intros l2 H1 H2 D; [exact H2|]. inversion H1; subst. constructor.
    - rewrite in_app_iff. intros [H|H]; [contradiction|]. apply (D x); auto.
    - apply IH1; auto. intros y Hy. apply D. right; exact Hy. }
  apply A; [|apply IHl, N2|].
  - apply NoDup_map_inj_in; [|exact IH]. intros x y _ _ E. inversion E. reflexivity.
  - intros x H1 H2. apply in_map_iff in H1. destruct H1 as (t & <- & _). apply in_flat_map in H2.
    destruct H2 as (j & Hj & H2). apply in_map_iff in H2. destruct H2 as (t' & E & _). inversion E; subst. contradiction.
Qed.

Lemma tuples_hd : forall seed, Forall (fun s => 0 < s) seed -> exists t, tuples seed = repeat 0 (length seed) :: t.
Proof.
  induction seed as [|s ss IH]; intros F; simpl; [exists []; reflexivity|].
  inversion F as [|? ? Fs Fss]; subst. destruct (IH Fss) as [t Ht]. destruct s; [lia|]. simpl. rewrite Ht. simpl. eexists; reflexivity.
Qed.

Lemma next_ctr_cons s ss i t : next_ctr (s :: ss) (i :: t) =
  match next_ctr ss t with
  | Some t' => Some (i :: t')
  | None => if i + 1 <? s then Some (i + 1 :: fst (increment t ss)) else None
  end.
Proof.
  unfold next_ctr. simpl. destruct (increment t ss) as [c carry]. destruct carry; [|reflexivity].
  simpl. destruct (i + 1 <? s); reflexivity.
Qed.

Lemma carry_zero : forall seed ctr, length ctr = length seed -> snd (increment ctr seed) = true ->
  fst (increment ctr seed) = repeat 0 (length seed).
Proof.
  induction seed as [|s ss IH]; intros [|c cs] L H; try discriminate; simpl in *; [reflexivity|].
  destruct (increment cs ss) as [cs' carry] eqn:E. destruct carry; simpl in H; [|discriminate].
  destruct (c + 1 <? s); [discriminate|]. simpl. f_equal.
  specialize (IH cs ltac:(lia)). rewrite E in IH. apply IH. reflexivity.
Qed.

Lemma zero_carry : forall seed ctr, length ctr = length seed ->
  forallb (fun v => v =? 0) (fst (increment ctr seed)) = snd (increment ctr seed).
Proof.
  induction seed as [|s ss IH]; intros [|c cs] L; try discriminate; simpl in *; [reflexivity|].
  specialize (IH cs ltac:(lia)). destruct (increment cs ss) as [cs' carry]. simpl in IH. destruct carry; simpl.
  - destruct (c + 1 <? s); simpl; [|rewrite IH; reflexivity]. destruct (Nat.eqb_spec (c + 1) 0); [lia|reflexivity].
  - rewrite IH. apply andb_false_r.
Qed.

Lemma next_none_carry seed ctr : next_ctr seed ctr = None <-> snd (increment ctr seed) = true.
Proof. unfold next_ctr. destruct (increment ctr seed) as [c []]; simpl; split; congruence. Qed.

Lemma tuples_chain : forall seed, Forall (fun s => 0 < s) seed -> chain (next_ctr seed) (tuples seed) None.
Proof.
  induction seed as [|s ss IH]; intros F; [simpl; auto|].
  inversion F as [|? ? Fs Fss]; subst. specialize (IH Fss). destruct (tuples_hd ss Fss) as [t0 Ht0].
  cbn [tuples].
  assert (R : forall i, chain (next_ctr (s :: ss)) (map (cons i) (tuples ss)) (if i + 1 <? s then Some (i + 1 :: repeat 0 (length ss)) else None)).
  { intros i. assert (HL : forall t, In t (tuples ss) -> length t = length ss) by (intros t Ht; apply in_tuples in Ht; tauto).
    revert IH HL. generalize (tuples ss) as l. induction l as [|t l IHl]; intros H HL; [exact I|].
    destruct H as [Ht Hl]. cbn [map chain]. split.
    - rewrite next_ctr_cons, Ht. destruct l as [|y l]; simpl; [|reflexivity].
      apply next_none_carry in Ht. rewrite (carry_zero ss t); [reflexivity|apply HL; left; reflexivity|exact Ht].
    - apply IHl; [exact Hl|]. intros t' Ht'. apply HL. right; exact Ht'. }
  assert (G : forall k i, i + k = s -> chain (next_ctr (s :: ss)) (flat_map (fun i => map (cons i) (tuples ss)) (seq i k)) None).
  { induction k as [|k IHk]; intros i Hk; [exact I|]. cbn [seq flat_map]. apply chain_app; [|apply IHk; lia].
    specialize (R i). destruct (Nat.ltb_spec (i + 1) s) as [L|L].
    - destruct k as [|k]; [lia|]. cbn [seq flat_map]. rewrite Ht0 at 2. cbn [map app]. rewrite <- (Nat.add_1_r i). exact R.
    - assert (k = 0) by lia. subst k. exact R. }
  apply (G s 0). lia.
Qed.

Lemma odometer_chain seed : forall l x fuel res, (forall t, In t (x :: l) -> length t = length seed) ->
  chain (next_ctr seed) (x :: l) None -> length (x :: l) <= fuel ->
  odometer fuel seed x res = Some (res ++ x :: l).
Proof.
  induction l as [|y l IH]; intros x fuel res HL [Hx Hl] Hf; simpl in Hf; (destruct fuel as [|fuel]; [lia|]); cbn [odometer];
    rewrite zero_carry by (apply HL; left; reflexivity).
  - apply next_none_carry in Hx. rewrite Hx. reflexivity.
  - assert (E : fst (increment x seed) = y /\ snd (increment x seed) = false).
    { unfold next_ctr in Hx. destruct (increment x seed) as [c []]; [discriminate|]. inversion Hx; auto. }
    destruct E as [-> ->]. rewrite IH; [rewrite <- app_assoc; reflexivity| |exact Hl|simpl; lia].
    intros t Ht. apply HL. right; exact Ht.
Qed.

Lemma tuples_length : forall seed, length (tuples seed) = fold_right Nat.mul 1 seed.
Proof.
  induction seed as [|s ss IH]; simpl; [reflexivity|].
  rewrite <- IH. generalize 0 as k. induction s as [|s IHs]; intros k; simpl; [reflexivity|]. rewrite app_length, map_length, IHs. reflexivity.
Qed.

Lemma cluster_combinations_ok seed : Forall (fun s => 0 < s) seed -> cluster_combinations seed = Ok (tuples seed).
Proof.
  intros F. unfold cluster_combinations. destruct (tuples_hd seed F) as [t Ht].
  pose proof (tuples_chain seed F) as C. pose proof (tuples_length seed) as L.
  assert (HL : forall u, In u (tuples seed) -> length u = length seed) by (intros u Hu; apply in_tuples in Hu; tauto).
  rewrite Ht in C, L, HL.
  rewrite (odometer_chain seed t _ _ [] HL C) by lia. rewrite <- Ht. reflexivity.
Qed.

(* ---- all together ---- *)
Definition pick (seed pc : list nat) : list nat := map (fun p => nth p seed 0) pc.

Lemma gather_ok seed : forall pc acc, (forall p, In p pc -> p < length seed) ->
  foreach pc (fun acc index => do x <- idx seed index; Ok (acc ++ [x])) acc = Ok (acc ++ pick seed pc).
Proof.
  induction pc as [|p pc IH]; intros acc H; simpl; [rewrite app_nil_r; reflexivity|].
  rewrite (idx_ok seed p 0) by (apply H; left; reflexivity). cbn [obind].
  rewrite IH by (intros q Hq; apply H; right; exact Hq). rewrite <- app_assoc. reflexivity.
Qed.

Lemma row_ok (pc comb : list nat) : length comb = length pc ->
  for_ (range 0 (length comb)) (fun row i => do p <- at_ pc i; do c <- at_ comb i; Ok (row ++ [(p, c)])) [] = Ok (combine pc comb).
Proof.
  intros L. destruct (for_range_inv (fun i (row : list (nat * nat)) => row = firstn i (combine pc comb))
    (fun row i => do p <- at_ pc i; do c <- at_ comb i; Ok (row ++ [(p, c)])) 0 (length comb) []) as (row & E & H).
  - lia.
  - reflexivity.
  - intros i row Hi ->. rewrite (at_ok pc i 0) by lia. cbn [obind]. rewrite (at_ok comb i 0) by lia. cbn [obind].
    eexists. split; [reflexivity|].
    assert (Hn : nth_error (combine pc comb) i = Some (nth i pc 0, nth i comb 0)).
    { rewrite <- combine_nth by congruence. apply nth_error_nth'. rewrite combine_length. lia. }
    assert (G : forall (l : list (nat * nat)) i x, nth_error l i = Some x -> firstn i l ++ [x] = firstn (S i) l).
    { clear. induction l as [|y l IH]; intros [|i] x H; try discriminate; simpl in *; [congruence|]. f_equal. apply IH. exact H. }
    apply G. exact Hn.
  - rewrite E, H. f_equal. apply firstn_all2. rewrite combine_length. lia.
Qed.

Lemma rows_ok (pc : list nat) : forall (cc : list (list nat)) result, (forall c, In c cc -> length c = length pc) ->
  foreach cc (fun result comb =>
    do row <- for_ (range 0 (length comb)) (fun row i =>
                do p <- at_ pc i; do c <- at_ comb i; Ok (row ++ [(p, c)])) [];
    Ok (result ++ [row])) result = Ok (result ++ map (combine pc) cc).
Proof.
  induction cc as [|c cc IH]; intros result H; [simpl; rewrite app_nil_r; reflexivity|].
  cbn [foreach]. rewrite row_ok by (apply H; left; reflexivity). cbn [obind].
  rewrite IH by (intros d Hd; apply H; right; exact Hd). rewrite <- app_assoc. reflexivity.
Qed.

Definition rows_for (seed pc : list nat) : list (list (nat * nat)) := map (combine pc) (tuples (pick seed pc)).

Lemma combine_planes_ok seed pc result : Forall (fun s => 0 < s) seed -> (forall p, In p pc -> p < length seed) ->
  combine_planes seed result pc = Ok (result ++ rows_for seed pc).
Proof.
  intros F H. unfold combine_planes. rewrite gather_ok by exact H. cbn [obind app].
  rewrite cluster_combinations_ok.
  - cbn [obind]. rewrite rows_ok; [reflexivity|]. intros c Hc. apply in_tuples in Hc. unfold pick in Hc. rewrite map_length in Hc. tauto.
  - apply Forall_forall. intros x Hx. apply in_map_iff in Hx. destruct Hx as (p & <- & Hp). rewrite Forall_forall in F. apply F, nth_In, H, Hp.
Qed.

Lemma foreach_planes_ok seed : Forall (fun s => 0 < s) seed -> forall pcs result,
  (forall pc p, In pc pcs -> In p pc -> p < length seed) ->
  foreach pcs (combine_planes seed) result = Ok (result ++ flat_map (rows_for seed) pcs).
Proof.
  intros F. induction pcs as [|pc pcs IH]; intros result H; simpl; [rewrite app_nil_r; reflexivity|].
  rewrite combine_planes_ok; [|exact F|intros p Hp; apply (H pc p (or_introl eq_refl) Hp)]. cbn [obind].
  rewrite IH by (intros pc' p Hpc Hp; apply (H pc' p (or_intror Hpc) Hp)). rewrite <- app_assoc. reflexivity.
Qed.

Lemma in_rows_for seed pc c : In c (rows_for seed pc) <->
  map fst c = pc /\ forall p k, In (p, k) c -> k < nth p seed 0.
Proof.
  unfold rows_for. rewrite in_map_iff. split.
  - intros (t & <- & Ht). apply in_tuples in Ht. destruct Ht as [L B]. unfold pick in L, B. rewrite map_length in L, B.
    revert t L B. induction pc as [|p pc IH]; intros [|k t] L B; try discriminate; simpl.
    + split; [reflexivity|intros p k []].
    + destruct (IH t) as [E H]; [simpl in L; lia|intros i Hi; apply (B (S i)); simpl; lia|].
      split; [rewrite E; reflexivity|]. intros q j [Eq|Hq]; [|apply H, Hq]. inversion Eq; subst.
      apply (B 0). simpl; lia.
  - intros [E H]. exists (map snd c). split.
    + subst pc. clear. induction c as [|[p k] c IH]; simpl; [reflexivity|]. rewrite IH. reflexivity.
    + apply in_tuples. unfold pick. subst pc. rewrite !map_length. split; [reflexivity|]. intros i Hi.
      rewrite map_map.
      destruct (nth_error c i) as [[p k]|] eqn:Ec; [|apply nth_error_None in Ec; lia].
      erewrite (nth_error_nth (map snd c)); [|rewrite nth_error_map, Ec; reflexivity].
      erewrite (nth_error_nth (map (fun x => nth (fst x) seed 0) c)); [|rewrite nth_error_map, Ec; reflexivity].
      apply H. eapply nth_error_In, Ec.
Qed.

Lemma rows_for_NoDup seed pc : NoDup (rows_for seed pc).
Proof.
  unfold rows_for. apply NoDup_map_inj_in; [|apply tuples_NoDup].
  intros x y Hx Hy E. apply in_tuples in Hx, Hy. unfold pick in Hx, Hy. rewrite map_length in Hx, Hy.
  assert (G : forall (pc x : list nat), length x = length pc -> map snd (combine pc x) = x).
  { clear. induction pc as [|p pc IH]; intros [|k x] L; try discriminate; simpl; [reflexivity|]. rewrite IH; [reflexivity|simpl in L; lia]. }
  rewrite <- (G pc x), <- (G pc y) by tauto. rewrite E. reflexivity.
Qed.

Lemma NoDup_app_intro {A} : forall (l1 l2 : list A), NoDup l1 -> NoDup l2 -> (forall x, In x l1 -> In x l2 -> False) -> NoDup (l1 ++ l2).
Proof.
  induction l1 as [|x l1 IH]; simpl; intros l2 H1 H2 D; [exact H2|]. inversion H1; subst. constructor.
  - rewrite in_app_iff. intros [H|H]; [contradiction|]. apply (D x); auto.
  - apply IH; auto. intros y Hy. apply D. right; exact Hy.
Qed.

Lemma flat_rows_NoDup seed : forall pcs, NoDup pcs -> NoDup (flat_map (rows_for seed) pcs).
Proof.
  induction pcs as [|pc pcs IH]; intros N; simpl; [constructor|]. inversion N; subst.
  apply NoDup_app_intro; [apply rows_for_NoDup|apply IH; assumption|].
  intros c H1' H2'. apply in_rows_for in H1'. apply in_flat_map in H2'. destruct H2' as (pc' & Hp & Hc). apply in_rows_for in Hc.
  destruct H1' as [E1 _], Hc as [E2 _]. subst pc pc'. contradiction.
Qed.

Lemma plane_loop_ok seed : Forall (fun s => 0 < s) seed -> length seed <= 33 -> forall k i result,
  i + k = length seed ->
  exists new, plane_loop seed (seq i k) result = Ok (result ++ new) /\ NoDup new /\
    (forall c, In c new <-> plane_choice seed c /\ length c <= length seed - i) /\
    StronglySorted (fun a b : list (nat * nat) => length b <= length a) new.
Proof.
  intros F H33. induction k as [|k IH]; intros i result Hk; cbn [seq plane_loop].
  - exists []. rewrite app_nil_r. split; [reflexivity|]. split; [constructor|]. split; [|constructor].
    intros c. split; [intros []|]. intros [[L _] ?]. lia.
  - destruct (Nat.ltb_spec (length seed) (2 + i)) as [L|L].
    + exists []. rewrite app_nil_r. split; [reflexivity|]. split; [constructor|]. split; [|constructor].
      intros c. split; [intros []|]. intros [[L' _] ?]. lia.
    + destruct (simple_combination_ok (length seed) (length seed - i)) as (pcs & E & N & Hpc); [lia|lia|].
      rewrite E. cbn [obind]. rewrite foreach_planes_ok; [|exact F|intros pc p Hp; apply Hpc; exact Hp]. cbn [obind].
      destruct (IH (S i) (result ++ flat_map (rows_for seed) pcs)) as (new & E2 & N2 & In2 & S2); [lia|].
      exists (flat_map (rows_for seed) pcs ++ new). split; [rewrite E2, <- app_assoc; reflexivity|].
      assert (HL : forall c, In c (flat_map (rows_for seed) pcs) <-> plane_choice seed c /\ length c = length seed - i).
      { intros c. rewrite in_flat_map. split.
        - intros (pc & Hp & Hc). apply Hpc in Hp. destruct Hp as (Lp & Sp & Bp). apply in_rows_for in Hc. destruct Hc as [Em Hk'].
          assert (Lc : length c = length seed - i) by (rewrite <- Lp, <- Em, map_length; reflexivity).
          split; [|exact Lc]. split; [lia|]. split; [rewrite Em; exact Sp|]. intros p j Hpj. split; [|apply (Hk' p j Hpj)].
          apply Bp. rewrite <- Em. apply (in_map fst c (p, j)). exact Hpj.
        - intros [(L2 & Sp & B) Lc]. exists (map fst c). split.
          + apply Hpc. split; [rewrite map_length; exact Lc|]. split; [exact Sp|]. intros p Hp. apply in_map_iff in Hp.
            destruct Hp as ([q j] & <- & Hq). apply (B q j Hq).
          + apply in_rows_for. split; [reflexivity|]. intros p j Hpj. apply (B p j Hpj). }
      split; [|split].
      * apply NoDup_app_intro; [apply flat_rows_NoDup; exact N|exact N2|]. intros c H1 H2. apply HL in H1. apply In2 in H2. lia.
      * intros c. rewrite in_app_iff, HL, In2. split; [intros [[A B]|[A B]]; split; auto; lia|].
        intros [A B]. destruct (Nat.eq_dec (length c) (length seed - i)); [left|right]; split; auto. lia.
      * assert (A : forall c d, In c (flat_map (rows_for seed) pcs) -> In d (flat_map (rows_for seed) pcs ++ new) -> length d <= length c).
        { intros c d Hc Hd. apply HL in Hc. apply in_app_or in Hd. destruct Hd as [Hd|Hd]; [apply HL in Hd|apply In2 in Hd]; lia. }
        revert A. generalize (flat_map (rows_for seed) pcs) as l. induction l as [|c l IHl]; simpl; intros A; [exact S2|].
        constructor; [apply IHl; intros x y Hx Hy; apply A; right; assumption|].
        apply Forall_forall. intros d Hd. apply A; [left; reflexivity|right; exact Hd].
Qed.
