(** Proofs for C38 *)
From Coq Require Import QArith Qcanon Lqa.
From Verif Require Import Base Util QcUtil Solver_Model Solver_Proofs MCBT_Proofs GFC_Model GFC_Spec.
Local Open Scope nat_scope.

Lemma nth_skip {A} (l : list A) k i d : nth i (skipn k l) d = nth (k + i) l d.
Proof. revert l. induction k as [|k IH]; intros [|x l]; cbn; try reflexivity; [destruct i; reflexivity|apply IH]. Qed.
Lemma skip_skip {A} (l : list A) a b : skipn a (skipn b l) = skipn (a + b) l.
Proof. revert l. induction b as [|b IH]; intros l; [rewrite Nat.add_0_r; reflexivity|]. rewrite <- plus_n_Sm. destruct l; [rewrite !skipn_nil; reflexivity|]. cbn [skipn]. apply IH. Qed.
Lemma gaus_bell exp x p k : gaus exp x (skipn k p) = bell exp (nth k p 0%Qc) (nth (k + 1) p 0%Qc) (nth (k + 2) p 0%Qc) x.
Proof. unfold gaus, bell. rewrite !nth_skip, !Nat.add_0_r. reflexivity. Qed.
Lemma trunc_bell exp cut x p k : gaus_trunc exp cut x (skipn k p) = bell_cut exp cut (nth k p 0%Qc) (nth (k + 1) p 0%Qc) (nth (k + 2) p 0%Qc) x.
Proof. unfold gaus_trunc, bell_cut, bell. rewrite !nth_skip, !Nat.add_0_r. reflexivity. Qed.

Lemma ngaus_sum exp n : forall x p k, ngaus exp n x (skipn (3 * k) p) = qsum (fun i => bell exp (nth (3 * i) p 0%Qc) (nth (3 * i + 1) p 0%Qc) (nth (3 * i + 2) p 0%Qc) x) (seq k n).
Proof.
  induction n as [|n IH]; intros x p k; [reflexivity|]. cbn [ngaus seq]. rewrite qsum_cons, gaus_bell, skip_skip. f_equal. replace (3 + 3 * k) with (3 * S k) by lia. apply IH.
Qed.
Lemma funcsum_sum exp cut n : forall x p, funcsum (gaus_trunc exp cut) n x p = qsum (fun i => bell_cut exp cut (nth (3 * i) p 0%Qc) (nth (3 * i + 1) p 0%Qc) (nth (3 * i + 2) p 0%Qc) x) (seq 0 n).
Proof.
  induction n as [|n IH]; intros x p; [reflexivity|]. rewrite seq_S, qsum_app, qsum_cons. cbn [funcsum]. rewrite IH, trunc_bell. cbn [qsum fold_right]. cbn [Nat.add]. change (qsum (fun i => bell_cut exp cut (nth (3 * i) p 0%Qc) (nth (3 * i + 1) p 0%Qc) (nth (3 * i + 2) p 0%Qc) x) []) with 0%Qc. ring.
Qed.
Lemma formula_all n : formula n = map (fun i => i * 3) (seq 0 n).
Proof. destruct n as [|n]; [reflexivity|]. unfold formula, range. cbn [Nat.eqb seq map]. rewrite Nat.sub_succ, Nat.sub_0_r. reflexivity. Qed.
Lemma formula_sum exp x p : forall l s, fold_left (fun s k => s + gaus exp x (skipn k p))%Qc (map (fun i => i * 3) l) s = (s + qsum (fun i => bell exp (nth (3 * i) p 0) (nth (3 * i + 1) p 0) (nth (3 * i + 2) p 0) x) l)%Qc.
Proof.
  induction l as [|i l IH]; intros s; [cbn; ring|]. cbn [map fold_left]. rewrite IH, qsum_cons, gaus_bell. rewrite (Nat.mul_comm i 3). ring.
Qed.
Lemma formula_params n : nparams (Formula (formula n)) = 3 * n.
Proof.
  rewrite formula_all. cbn [nparams]. assert (X : forall m k a, a <= 3 * k -> fold_left (fun m k => Nat.max m (k + 3)) (map (fun i => i * 3) (seq k m)) a = if Nat.eqb m 0 then a else 3 * (k + m)).
  { induction m as [|m IH]; intros k a Ha; [reflexivity|]. cbn [seq map fold_left Nat.eqb]. rewrite IH by lia. destruct m; cbn [Nat.eqb]; lia. }
  rewrite X by lia. destruct n; reflexivity.
Qed.
Lemma right_formula exp n : sum_of exp RunTime n (Formula (formula n)).
Proof. split; [apply formula_params|]. intros x p. cbn [eval shape]. rewrite formula_all, formula_sum. ring. Qed.
Lemma right_ngaus exp m n : sum_of exp (Compiled m) n (NGaus n).
Proof. split; [reflexivity|]. intros x p. cbn [eval shape]. apply (ngaus_sum exp n x p 0). Qed.
Lemma right_funcsum exp m cut n : sum_of exp (Truncated m cut) n (FuncSum n cut).
Proof. split; [cbn; lia|]. intros x p. cbn [eval shape]. apply funcsum_sum. Qed.
(** the function of a kind for n *)
Definition fun_of (k : kind) (n : nat) : tf1 := match k with RunTime => Formula (formula n) | Compiled _ => NGaus n | Truncated _ cut => FuncSum n cut end.
Lemma right_fun exp k n : sum_of exp k n (fun_of k n).
Proof. destruct k; [apply right_formula|apply right_ngaus|apply right_funcsum]. Qed.

(** invariant of a cache *)
Record good (k : kind) (c : cache) : Prop := mkGood {
  g_fun : forall n p, nth n (funcs c) None = Some p -> nth_error (heap c) p = Some (fun_of k n) /\ supports k n;
  g_once : forall n m p, nth n (funcs c) None = Some p -> nth m (funcs c) None = Some p -> n = m;
  g_have : forall n, match k with RunTime => False | _ => True end -> supports k n -> nth n (funcs c) None <> None }.

(** [c2] has everything [c1] has *)
Definition ext (c1 c2 : cache) : Prop :=
  (forall n p, nth n (funcs c1) None = Some p -> nth n (funcs c2) None = Some p) /\ (forall p f, nth_error (heap c1) p = Some f -> nth_error (heap c2) p = Some f) /\ length (funcs c1) <= length (funcs c2).
Lemma ext_refl c : ext c c.
Proof. repeat split; auto. Qed.
Lemma ext_trans a b c : ext a b -> ext b c -> ext a c.
Proof. intros (A & B & C) (A' & B' & C'). repeat split; auto; lia. Qed.

Definition grown (c : cache) (n : nat) : list (option nat) := if length (funcs c) <=? n then resize_null (funcs c) (n + 1) else funcs c.
Lemma grown_nth c n m : nth m (grown c n) None = nth m (funcs c) None.
Proof.
  unfold grown, resize_null. destruct (length (funcs c) <=? n); [|reflexivity]. destruct (Nat.lt_ge_cases m (length (funcs c))) as [L|L]; [apply app_nth1, L|]. rewrite app_nth2 by exact L. rewrite (nth_overflow (funcs c)) by exact L.
  destruct (Nat.lt_ge_cases (m - length (funcs c)) (n + 1 - length (funcs c))); [apply nth_repeat|apply nth_overflow; rewrite repeat_length; lia].
Qed.
Lemma grown_len c n : n < length (grown c n) /\ length (funcs c) <= length (grown c n).
Proof. unfold grown, resize_null. destruct (Nat.leb_spec (length (funcs c)) n); [rewrite app_length, repeat_length|]; lia. Qed.

Lemma heap_lt {A} (h : list A) p f : nth_error h p = Some f -> p < length h.
Proof. intros H. apply nth_error_Some. congruence. Qed.

Lemma get_ok k c n : good k c -> good k (snd (get k c n)) /\ ext c (snd (get k c n)) /\
  (supports k n -> exists p, fst (get k c n) = Ok p /\ nth n (funcs (snd (get k c n))) None = Some p /\ nth_error (heap (snd (get k c n))) p = Some (fun_of k n)) /\
  (~ supports k n -> fst (get k c n) = Throw UserExn).
Proof.
  intros G. unfold get. fold (grown c n). destruct (grown_len c n) as [L1 L2]. destruct (nth n (grown c n) None) as [p|] eqn:E.
  - cbn [fst snd funcs heap]. assert (E' := E). rewrite grown_nth in E'. destruct (g_fun _ _ G n p E') as [F S]. split; [|split; [|split]].
    + constructor; cbn; intros; rewrite ?grown_nth in *; [apply (g_fun _ _ G); assumption|eapply (g_once _ _ G); eassumption|apply (g_have _ _ G); assumption].
    + repeat split; cbn; intros; rewrite ?grown_nth; auto.
    + intros _. exists p. auto.
    + contradiction.
  - assert (E' := E). rewrite grown_nth in E'.
    assert (Gsame : good k (mkCache (grown c n) (heap c))) by (constructor; cbn; intros; rewrite ?grown_nth in *; [apply (g_fun _ _ G); assumption|eapply (g_once _ _ G); eassumption|apply (g_have _ _ G); assumption]).
    assert (Xsame : ext c (mkCache (grown c n) (heap c))) by (repeat split; cbn; intros; rewrite ?grown_nth; auto).
    destruct k as [|m|m cut]; cbn [create].
    + unfold alloc. cbn [fst snd funcs heap].
      assert (Nu : forall j, nth j (upd (grown c n) n (Some (length (heap c)))) None = if Nat.eqb j n then Some (length (heap c)) else nth j (funcs c) None).
      { intros j. rewrite nth_upd. rewrite (proj2 (Nat.ltb_lt n (length (grown c n))) L1), andb_true_r. destruct (Nat.eqb j n); [reflexivity|apply grown_nth]. }
      assert (Hn : nth_error (heap c ++ [Formula (formula n)]) (length (heap c)) = Some (Formula (formula n))) by (rewrite nth_error_app2, Nat.sub_diag by lia; reflexivity).
      split; [|split; [|split]].
      * constructor; cbn [funcs heap].
        -- intros j p. rewrite Nu. destruct (Nat.eqb_spec j n) as [->|Ne]; intros H; [inversion H; subst; split; [exact Hn|exact I]|]. destruct (g_fun _ _ G j p H) as [F _]. split; [|exact I]. rewrite nth_error_app1 by (eapply heap_lt; exact F). exact F.
        -- intros i j p. rewrite !Nu. destruct (Nat.eqb_spec i n) as [->|Ni], (Nat.eqb_spec j n) as [->|Nj]; intros H1 H2; auto.
           ++ inversion H1; subst. apply (g_fun _ _ G) in H2. destruct H2 as [H2 _]. apply heap_lt in H2. lia.
           ++ inversion H2; subst. apply (g_fun _ _ G) in H1. destruct H1 as [H1 _]. apply heap_lt in H1. lia.
           ++ eapply (g_once _ _ G); eassumption.
        -- intros j [].
      * split; [|split]; cbn [funcs heap].
        -- intros j p H. rewrite Nu. destruct (Nat.eqb_spec j n) as [->|Ne]; [congruence|exact H].
        -- intros p f H. rewrite nth_error_app1 by (eapply heap_lt; exact H). exact H.
        -- rewrite upd_length. exact L2.
      * intros _. exists (length (heap c)). split; [reflexivity|]. rewrite Nu, Nat.eqb_refl. split; [reflexivity|exact Hn].
      * intros H. exfalso. apply H. exact I.
    + cbn [fst snd]. split; [exact Gsame|]. split; [exact Xsame|]. split; [|reflexivity]. intros S. exfalso. apply (g_have _ _ G n I S E').
    + cbn [fst snd]. split; [exact Gsame|]. split; [exact Xsame|]. split; [|reflexivity]. intros S. exfalso. apply (g_have _ _ G n I S E').
Qed.
Lemma clone_ok k c n : good k c -> good k (snd (get_clone k c n)) /\ ext c (snd (get_clone k c n)) /\
  match k with
  | RunTime => exists q, fst (get_clone k c n) = Ok q /\ nth_error (heap (snd (get_clone k c n))) q = Some (fun_of k n) /\ length (heap c) <= q /\ forall m, nth m (funcs (snd (get_clone k c n))) None <> Some q
  | _ => fst (get_clone k c n) = Throw UserExn
  end.
Proof.
  intros G. destruct k as [|m|m cut]; [|split; [exact G|split; [apply ext_refl|reflexivity]]..]. cbn [get_clone]. destruct (get_ok RunTime c n G) as (G1 & X1 & P1 & _). destruct (P1 I) as (p & E1 & E2 & E3). destruct (get RunTime c n) as [r c1]. cbn [fst snd] in *. subst r. rewrite E3. unfold alloc. cbn [fst snd].
  assert (Xh : forall q f, nth_error (heap c1) q = Some f -> nth_error (heap c1 ++ [Formula (formula n)]) q = Some f) by (intros q f H; rewrite nth_error_app1 by (eapply heap_lt; exact H); exact H).
  split; [|split].
  - constructor; cbn [funcs heap]; [|apply (g_once _ _ G1)|intros ? []]. intros j q H. destruct (g_fun _ _ G1 j q H). split; [apply Xh; assumption|assumption].
  - eapply ext_trans; [exact X1|]. split; [|split]; cbn; auto.
  - exists (length (heap c1)). split; [reflexivity|]. cbn [heap]. split; [rewrite nth_error_app2, Nat.sub_diag by lia; reflexivity|]. split.
    + destruct X1 as (_ & X & _). destruct (Nat.le_gt_cases (length (heap c)) (length (heap c1))) as [L|L]; [exact L|]. destruct (nth_error (heap c) (length (heap c1))) as [f|] eqn:Ef; [|apply nth_error_None in Ef; lia]. apply X, heap_lt in Ef. lia.
    + intros j H. apply (g_fun _ _ G1) in H. destruct H as [H _]. apply heap_lt in H. lia.
Qed.
Lemma after_ok k os : forall c, good k c -> good k (after k os c) /\ ext c (after k os c).
Proof.
  induction os as [|o os IH]; intros c G; [split; [exact G|apply ext_refl]|]. cbn [after fold_left]. fold (after k os).
  assert (G1 : good k (do_call k c o) /\ ext c (do_call k c o)) by (destruct o as [n|n]; cbn [do_call]; [destruct (get_ok k c n G) as (A & B & _)|destruct (clone_ok k c n G) as (A & B & _)]; auto).
  destruct G1 as [G1 X1]. destruct (IH _ G1) as [G2 X2]. split; [exact G2|eapply ext_trans; eassumption].
Qed.

(** what the constructors make *)
Lemma init_gen (mk : nat -> tf1) (init : nat -> cache -> cache) : (forall c, init 0 c = append_function (mk 0) c) -> (forall n c, init (S n) c = append_function (mk (S n)) (init n c)) ->
  forall n, funcs (init n (mkCache [] [])) = map Some (seq 0 (S n)) /\ heap (init n (mkCache [] [])) = map mk (seq 0 (S n)).
Proof.
  intros H0 HS. induction n as [|n [IH1 IH2]]; [rewrite H0; split; reflexivity|]. rewrite HS. unfold append_function, alloc. cbn [funcs heap]. rewrite IH1, IH2, map_length, seq_length. rewrite (seq_S (S n) 0), !map_app. split; reflexivity.
Qed.
Lemma new_good k : good k (new_cache k).
Proof.
  assert (N : forall n j (p : nat), nth j (map Some (seq 0 (S n))) None = Some p -> p = j /\ j <= n).
  { intros n j p H. destruct (Nat.lt_ge_cases j (S n)) as [L|L]; [|rewrite nth_overflow in H by (rewrite map_length, seq_length; lia); discriminate]. erewrite nth_indep with (d' := Some 0) in H by (rewrite map_length, seq_length; lia). rewrite map_nth, seq_nth in H by lia. inversion H. lia. }
  assert (M : forall (mk : nat -> tf1) n j, j <= n -> nth_error (map mk (seq 0 (S n))) j = Some (mk j)).
  { intros mk n j L. rewrite nth_error_map, (nth_error_nth' _ 0) by (rewrite seq_length; lia). rewrite seq_nth by lia. reflexivity. }
  assert (H : forall n j, j <= n -> nth j (map (@Some nat) (seq 0 (S n))) None <> None).
  { intros n j L. erewrite nth_indep with (d' := Some 0) by (rewrite map_length, seq_length; lia). rewrite map_nth. discriminate. }
  destruct k as [|m|m cut]; cbn [new_cache].
  - constructor; cbn [funcs heap]; [intros [|n] p X; discriminate|intros [|n] m p X; discriminate|intros ? []].
  - destruct (init_gen NGaus init_compiled (fun _ => eq_refl) (fun _ _ => eq_refl) m) as [E1 E2]. constructor; rewrite ?E1, ?E2.
    + intros n p X. apply N in X. destruct X as [-> X]. split; [apply M, X|exact X].
    + intros n j p X Y. apply N in X, Y. lia.
    + intros n _ S. apply H, S.
  - destruct (init_gen (fun n => FuncSum n cut) (init_truncated cut) (fun _ => eq_refl) (fun _ _ => eq_refl) m) as [E1 E2]. constructor; rewrite ?E1, ?E2.
    + intros n p X. apply N in X. destruct X as [-> X]. split; [apply (M (fun n => FuncSum n cut)), X|exact X].
    + intros n j p X Y. apply N in X, Y. lia.
    + intros n _ S. apply H, S.
Qed.
