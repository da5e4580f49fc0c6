From Coq Require Import QArith Qcanon Lqa.
From Verif Require Import Base QcUtil Solver_Model Solver_Proofs HULL_Model HULL_Spec.
Local Open Scope nat_scope.

Lemma side_cross a b p : cross a b p = side a b p. Proof. reflexivity. Qed.
Lemma left_t a b p : is_left a b p = true <-> (0 < side a b p)%Qc. Proof. apply qc_lt_spec. Qed.
Lemma left_f a b p : is_left a b p = false <-> (side a b p <= 0)%Qc. Proof. apply qc_lt_false. Qed.
Lemma peqb_spec a b : peqb a b = true <-> a = b.
Proof.
  unfold peqb. rewrite !andb_true_iff, !qc_eqb_spec, Nat.eqb_eq. destruct a, b; simpl. split; [intros ((-> & ->) & ->); reflexivity|].
  intros [= -> -> ->]. repeat split.
Qed.

Section Nums.
Local Open Scope Qc_scope.
Lemma mul_nn (x y : Qc) : 0 <= x -> 0 <= y -> 0 <= x * y.
Proof. intros A B. qcnra. Qed.
Lemma add_nn (x y : Qc) : 0 <= x -> 0 <= y -> 0 <= x + y.
Proof. intros A B. qclra. Qed.
Lemma div_nn (x y : Qc) : 0 < x -> 0 <= x * y -> 0 <= y.
Proof. intros A B. apply Qcnot_lt_le; intros C. assert (0 < x * (0 - y)) by (qcnra). qcnra. Qed.
Definition nn (x y : Qc) : Prop := 0 < x \/ (x = 0 /\ 0 <= y).
Definition pos (x y : Qc) : Prop := 0 < x \/ (x = 0 /\ 0 < y).
Lemma nn_trans ax ay bx by_ cx cy : nn ax ay -> pos bx by_ -> nn cx cy ->
  0 <= ax * by_ - ay * bx -> 0 <= bx * cy - by_ * cx -> 0 <= ax * cy - ay * cx.
Proof.
  intros A B C H1 H2.
  assert (Ax : 0 <= ax) by (destruct A as [A|(-> & _)]; [qclra|apply Qcle_refl]).
  assert (Cx : 0 <= cx) by (destruct C as [C|(-> & _)]; [qclra|apply Qcle_refl]).
  destruct B as [B|(-> & B)].
  - apply (div_nn bx _ B). assert (E := mul_nn _ _ Cx H1). assert (F := mul_nn _ _ Ax H2).
    replace (bx * (ax * cy - ay * cx)) with (cx * (ax * by_ - ay * bx) + ax * (bx * cy - by_ * cx)) by ring. qclra.
  - destruct C as [C|(-> & C)]; [exfalso; assert (0 < by_ * cx) by qcnra; qclra|].
    assert (E := mul_nn _ _ Ax C). replace (ax * cy - ay * 0) with (ax * cy) by ring. exact E.
Qed.
End Nums.

Lemma lexle_nn a b : lexle a b <-> nn (px b - px a)%Qc (py b - py a)%Qc.
Proof.
  unfold lexle, nn. split; (intros [A|(A & B)]; [left; qclra|right; split; [|qclra]]).
  - rewrite A. ring.
  - assert (px b = (px b - px a) + px a)%Qc by ring. rewrite H, A. ring.
Qed.
Lemma lexle_refl a : lexle a a. Proof. right. split; [reflexivity|apply Qcle_refl]. Qed.
Lemma lexle_trans a b c : lexle a b -> lexle b c -> lexle a c.
Proof. unfold lexle. intros [A|(A & A')] [B|(B & B')]; [left; qclra|left; qclra|left; qclra|right; split; [congruence|qclra]]. Qed.
Lemma lexle_total a b : lexle a b \/ lexle b a.
Proof.
  unfold lexle. destruct (Qclt_le_dec (px a) (px b)) as [E|E]; [left; left; exact E|].
  destruct (Qclt_le_dec (px b) (px a)) as [F|F]; [right; left; exact F|].
  assert (G : px a = px b) by (apply Qcle_antisym; assumption).
  destruct (Qclt_le_dec (py a) (py b)) as [K|K]; [left; right; split; [exact G|qclra]|right; right; split; [congruence|exact K]].
Qed.
Lemma lexle_antisym a b : lexle a b -> lexle b a -> same a b.
Proof.
  unfold lexle, same. intros [A|(A & A')] [B|(B & B')]; [exfalso; qclra|exfalso; qclra|exfalso; qclra|].
  split; [exact A|apply Qcle_antisym; assumption].
Qed.
Lemma same_refl a : same a a. Proof. split; reflexivity. Qed.
Lemma same_sym a b : same a b -> same b a. Proof. intros (A & B); split; congruence. Qed.
Lemma same_trans a b c : same a b -> same b c -> same a c. Proof. unfold same; intros (A & B) (C & D); split; congruence. Qed.
Lemma same_dec a b : same a b \/ ~ same a b.
Proof. unfold same. destruct (Qc_eq_dec (px a) (px b)), (Qc_eq_dec (py a) (py b)); tauto. Qed.
Lemma same_le a b : same a b -> lexle a b.
Proof. intros (A & B). right. split; [exact A|rewrite B; apply Qcle_refl]. Qed.
Lemma lexlt_pos a b : lexle a b -> ~ same a b -> pos (px b - px a)%Qc (py b - py a)%Qc.
Proof.
  unfold lexle, same, pos. intros [A|(A & B)] N; [left; qclra|]. right. split; [rewrite A; ring|].
  destruct (Qclt_le_dec (py a) (py b)) as [E|E]; [qclra|]. exfalso. apply N. split; [exact A|apply Qcle_antisym; assumption].
Qed.

(** linear arithmetic with [side] kept as it is *)
Ltac slra := repeat match goal with
  | H : context [side ?a ?b ?c] |- _ => let s := fresh "s" in set (s := side a b c) in *; clearbody s
  | |- context [side ?a ?b ?c] => let s := fresh "s" in set (s := side a b c) in *; clearbody s
  end; qclra.
(** side *)
Lemma side_same_l a b p : same a b -> side a b p = 0%Qc.
Proof. intros (A & B). unfold side. rewrite A, B. ring. Qed.
Lemma side_a a b : side a b a = 0%Qc. Proof. unfold side. ring. Qed.
Lemma side_b a b : side a b b = 0%Qc. Proof. unfold side. ring. Qed.
Lemma side_cong a b p a' b' p' : same a a' -> same b b' -> same p p' -> side a b p = side a' b' p'.
Proof. intros (A & A') (B & B') (C & C'). unfold side. congruence. Qed.
Lemma side_cyc a b c : side a b c = side b c a. Proof. unfold side. ring. Qed.
Lemma side_swap a b c : side a b c = (- side b a c)%Qc. Proof. unfold side. ring. Qed.
Lemma side_ne a b c : (0 < side a b c)%Qc -> ~ same a b /\ ~ same b c.
Proof.
  intros H. split; intros E.
  - rewrite (side_same_l _ _ _ E) in H. apply (Qclt_not_le _ _ H). apply Qcle_refl.
  - rewrite side_cyc, (side_same_l _ _ _ E) in H. apply (Qclt_not_le _ _ H). apply Qcle_refl.
Qed.

Lemma step1 a b d c : lexle a b -> lexle b d -> ~ same b d -> lexle d c ->
  (0 <= side a b d -> 0 <= side b d c -> 0 <= side a b c)%Qc.
Proof.
  intros A B N C H1 H2. apply lexle_nn in A. apply (lexlt_pos _ _ B) in N. apply lexle_nn in C.
  assert (T := nn_trans _ _ _ _ _ _ A N C).
  assert (E1 : (0 <= (px b - px a) * (py d - py b) - (py b - py a) * (px d - px b))%Qc).
  { unfold side in H1. replace ((px b - px a) * (py d - py b) - (py b - py a) * (px d - px b))%Qc with ((px b - px a) * (py d - py a) - (py b - py a) * (px d - px a))%Qc by ring. exact H1. }
  assert (E2 : (0 <= (px d - px b) * (py c - py d) - (py d - py b) * (px c - px d))%Qc).
  { unfold side in H2. replace ((px d - px b) * (py c - py d) - (py d - py b) * (px c - px d))%Qc with ((px d - px b) * (py c - py b) - (py d - py b) * (px c - px b))%Qc by ring. exact H2. }
  specialize (T E1 E2). unfold side.
  replace ((px b - px a) * (py c - py a) - (py b - py a) * (px c - px a))%Qc with
    (((px b - px a) * (py d - py b) - (py b - py a) * (px d - px b)) + ((px b - px a) * (py c - py d) - (py b - py a) * (px c - px d)))%Qc by ring.
  qclra.
Qed.
(** a point left of [u, t] and not beyond [t] is left of [t, c] when [c] is left of [u, t] *)
Lemma step2 u t c q : lexle u t -> ~ same u t -> lexle t c -> lexle q t ->
  (0 <= side u t c -> 0 <= side u t q -> 0 <= side t c q)%Qc.
Proof.
  intros A N B C H1 H2. apply (lexlt_pos _ _ A) in N. apply lexle_nn in B. apply lexle_nn in C.
  assert (T := nn_trans _ _ _ _ _ _ C N B).
  assert (E1 : (0 <= (px t - px q) * (py t - py u) - (py t - py q) * (px t - px u))%Qc).
  { unfold side in H2. replace ((px t - px q) * (py t - py u) - (py t - py q) * (px t - px u))%Qc with ((px t - px u) * (py q - py u) - (py t - py u) * (px q - px u))%Qc by ring. exact H2. }
  assert (E2 : (0 <= (px t - px u) * (py c - py t) - (py t - py u) * (px c - px t))%Qc).
  { unfold side in H1. replace ((px t - px u) * (py c - py t) - (py t - py u) * (px c - px t))%Qc with ((px t - px u) * (py c - py u) - (py t - py u) * (px c - px u))%Qc by ring. exact H1. }
  specialize (T E1 E2). unfold side.
  replace ((px c - px t) * (py q - py t) - (py c - py t) * (px q - px t))%Qc with ((px t - px q) * (py c - py t) - (py t - py q) * (px c - px t))%Qc by ring. exact T.
Qed.
(** popping [d]: points beyond [d] *)
Lemma step3 t d c q : lexle d q ->
  (side t d c <= 0 -> 0 <= side t d q -> 0 <= side d c q -> 0 <= side t c q)%Qc.
Proof.
  intros _ H1 H2 H3. assert (E : (side t c q = side t d q + side d c q - side t d c)%Qc) by (unfold side; ring). rewrite E; clear E. slra.
Qed.
(** popping [d]: points between *)
Lemma step4 t d c q : lexle t d -> lexle d c -> lexle t q -> lexle q d ->
  (side t d c <= 0 -> 0 <= side t d q -> 0 <= side t c q)%Qc.
Proof.
  intros A B C D H1 H2. destruct (same_dec t d) as [S|N].
  - assert (Q : same t q) by (apply lexle_antisym; [exact C|]; apply (lexle_trans _ d); [exact D|apply same_le, same_sym, S]).
    rewrite (side_cong t c q t c t (same_refl _) (same_refl _) (same_sym _ _ Q)), side_a. apply Qcle_refl.
  - apply (lexlt_pos _ _ A) in N. apply lexle_nn in B. apply lexle_nn in C.
    assert (T := nn_trans _ _ _ _ _ _ B N C).
    assert (E1 : (0 <= (px c - px d) * (py d - py t) - (py c - py d) * (px d - px t))%Qc).
    { replace ((px c - px d) * (py d - py t) - (py c - py d) * (px d - px t))%Qc with (0 - side t d c)%Qc by (unfold side; ring). slra. }
    specialize (T E1 H2).
    replace (side t c q) with (side t d q + ((px c - px d) * (py q - py t) - (py c - py d) * (px q - px t)))%Qc by (unfold side; ring). apply add_nn; assumption.
Qed.

(** a property of every edge of a stack (its back first) *)
Fixpoint all_edges (Q : point -> point -> Prop) (st : list point) : Prop :=
  match st with
  | y :: r => match r with x :: _ => Q x y /\ all_edges Q r | [] => True end
  | [] => True
  end.
(** ascending, with a strict turn to the left at every vertex *)
Fixpoint chain_ok (st : list point) : Prop :=
  match st with
  | y :: r => match r with x :: r' => lexle x y /\ (match r' with w :: _ => (0 < side w x y)%Qc | [] => True end) /\ chain_ok r | [] => True end
  | [] => True
  end.
Definition covers (P : list point) (x y : point) : Prop := forall q, In q P -> (0 <= side x y q)%Qc.

Lemma all_edges_impl (Q Q' : point -> point -> Prop) st : (forall x y, Q x y -> Q' x y) -> all_edges Q st -> all_edges Q' st.
Proof. intros H. induction st as [|y [|x r] IH]; simpl; auto. intros (A & B). split; [auto|]. apply IH; exact B. Qed.
Lemma all_edges_and (Q Q' : point -> point -> Prop) st : all_edges Q st -> all_edges Q' st -> all_edges (fun x y => Q x y /\ Q' x y) st.
Proof. induction st as [|y [|x r] IH]; simpl; auto. intros (A & B) (C & D). split; [auto|]. apply IH; assumption. Qed.

(** the rest of the stack sees the new point on its left *)
Lemma sees r : forall c, chain_ok r -> (forall x, In x r -> lexle x c) ->
  (match r with t :: u :: _ => (0 <= side u t c)%Qc /\ ~ same u t | _ => True end) ->
  all_edges (fun x y => (0 <= side x y c)%Qc) r.
Proof.
  induction r as [|t [|u r] IH]; intros c C L H; [exact Logic.I|exact Logic.I|].
  destruct C as (C1 & C2 & C3). destruct H as (H & N). split; [exact H|].
  apply IH; [exact C3|intros x Hx; apply L; right; exact Hx|].
  destruct r as [|w r]; [exact Logic.I|]. destruct C3 as (C4 & _ & _). split; [|exact (proj1 (side_ne _ _ _ C2))].
  apply (step1 w u t c C4 C1 N (L t (or_introl eq_refl))); [apply Qclt_le_weak; exact C2|exact H].
Qed.

Lemma unwind_ok (P : list point) c : (forall q, In q P -> lexle q c) ->
  forall st, st <> [] -> chain_ok st -> all_edges (covers P) st -> (forall x, In x st -> In x P) ->
  (forall q, In q P -> lexle (hd no_point st) q -> (0 <= side (hd no_point st) c q)%Qc) ->
  exists s1 t r, st = s1 ++ t :: r /\ unwind st c = t :: r /\
    chain_ok (t :: r) /\ all_edges (covers P) (t :: r) /\
    (match r with u :: _ => (0 < side u t c)%Qc | [] => True end) /\
    (forall q, In q P -> lexle t q -> (0 <= side t c q)%Qc).
Proof.
  intros LP. induction st as [|d [|t r] IH]; intros N C E S T; [contradiction| |].
  - exists [], d, []. repeat split; auto.
  - cbn [unwind]. destruct (is_left t d c) eqn:Hl.
    + exists [], d, (t :: r). apply left_t in Hl. repeat split; auto.
      * exact (proj1 C). * exact (proj1 (proj2 C)). * exact (proj2 (proj2 C)). * exact (proj1 E). * exact (proj2 E).
    + apply left_f in Hl. destruct C as (C1 & C2 & C3). destruct E as (E1 & E2).
      destruct IH as (s1 & t' & r' & A1 & A2 & A3).
      * discriminate. * exact C3. * exact E2. * intros x Hx. apply S. right. exact Hx.
      * intros q Hq Hle. cbn [hd] in *. destruct (lexle_total d q) as [D|D].
        { apply (step3 t d c q D Hl (E1 q Hq) (T q Hq D)). }
        apply (step4 t d c q C1 (LP d (S d (or_introl eq_refl))) Hle D Hl (E1 q Hq)).
      * exists (d :: s1), t', r'. split; [rewrite A1; reflexivity|]. split; [exact A2|exact A3].
Qed.

Definition push (st : list point) (c : point) : list point := c :: unwind st c.
(** what is known of the stack after the points of [K] *)
Record stack_ok (a : point) (K st : list point) : Prop := {
  so_bottom : exists s, st = s ++ [a];
  so_chain : chain_ok st;
  so_cov : all_edges (covers (a :: K)) st;
  so_in : forall x, In x st -> In x (a :: K);
  so_top : hd no_point st = last K a;
  so_len : K <> [] -> 2 <= length st }.

Lemma last_snoc {A} (l : list A) x d : last (l ++ [x]) d = x.
Proof. induction l as [|y [|z l] IH]; simpl in *; auto. Qed.
Lemma push_ok a K st c : (forall x, In x (a :: K) -> lexle x (last K a)) -> (forall q, In q (a :: K) -> lexle q c /\ lexle a q) -> lexle a c ->
  stack_ok a K st -> stack_ok a (K ++ [c]) (push st c).
Proof.
  intros LL LP La [ (s & Hs) C E S T Len].
  destruct (unwind_ok (a :: K) c (fun q Hq => proj1 (LP q Hq)) st) as (s1 & t & r & A1 & A2 & A3 & A4 & A5 & A6).
  { rewrite Hs. destruct s; discriminate. } { exact C. } { exact E. } { exact S. }
  { intros q Hq Hle. rewrite T in *. assert (Q : same (last K a) q) by (apply lexle_antisym; [exact Hle|apply LL; exact Hq]).
    rewrite (side_cong _ c q _ c (last K a) (same_refl _) (same_refl _) (same_sym _ _ Q)), side_a. apply Qcle_refl. }
  assert (Hin : forall x, In x (t :: r) -> In x (a :: K)) by (intros x Hx; apply S; rewrite A1; apply in_app_iff; right; exact Hx).
  assert (Hb : exists s', t :: r = s' ++ [a]).
  { rewrite A1 in Hs. destruct (exists_last (l := t :: r)) as (s' & z & Hz); [discriminate|]. exists s'. rewrite Hz in *.
    rewrite app_assoc in Hs. apply app_inj_tail in Hs. destruct Hs as (_ & ->). reflexivity. }
  unfold push. rewrite A2. split.
  - destruct Hb as (s' & ->). exists (c :: s'). reflexivity.
  - simpl. split; [apply LP, Hin; left; reflexivity|]. split; [|exact A3]. destruct r; [exact Logic.I|exact A5].
  - split.
    + intros q Hq. assert (Hq' : In q (a :: K) \/ q = c) by (destruct Hq as [->|Hq]; [left; left; reflexivity|apply in_app_iff in Hq; destruct Hq as [Hq|[->|[]]]; [left; right; exact Hq|right; reflexivity]]).
      destruct Hq' as [Hq'| ->]; [|rewrite side_b; apply Qcle_refl].
      destruct (lexle_total t q) as [D|D]; [apply A6; assumption|].
      destruct r as [|u r].
      * destruct Hb as (s' & Hs'). destruct s' as [|? [|]]; try discriminate. injection Hs' as ->.
        apply A6; [exact Hq'|]. apply (proj2 (LP q Hq')).
      * destruct A3 as (B1 & _). destruct A4 as (B2 & _). destruct (side_ne _ _ _ A5) as (N & _).
        apply (step2 u t c q B1 N (proj1 (LP t (Hin t (or_introl eq_refl)))) D); [apply Qclt_le_weak; exact A5|apply B2; exact Hq'].
    + assert (V : all_edges (fun x y => (0 <= side x y c)%Qc) (t :: r)).
      { apply sees; [exact A3|intros x Hx; apply LP, Hin; exact Hx|]. destruct r as [|u r]; [exact Logic.I|].
        split; [apply Qclt_le_weak; exact A5|exact (proj1 (side_ne _ _ _ A5))]. }
      apply (all_edges_impl _ _ _ (fun x y H => H)) in V. revert V. intros V.
      assert (W := all_edges_and _ _ _ A4 V). revert W. apply all_edges_impl. intros x y (W1 & W2) q Hq.
      destruct Hq as [->|Hq]; [apply W1; left; reflexivity|]. apply in_app_iff in Hq. destruct Hq as [Hq|[->|[]]]; [apply W1; right; exact Hq|exact W2].
  - intros x [->|Hx]; [right; apply in_app_iff; right; left; reflexivity|]. destruct (Hin x Hx) as [->|Hk]; [left; reflexivity|].
    right. apply in_app_iff. left. exact Hk.
  - cbn [hd]. rewrite last_snoc. reflexivity.
  - intros _. simpl. lia.
Qed.

Lemma ss_snoc {A} (R : A -> A -> Prop) l x : StronglySorted R (l ++ [x]) <-> StronglySorted R l /\ (forall y, In y l -> R y x).
Proof.
  induction l as [|y l IH]; simpl.
  - split; [intros _; split; [constructor|intros ? []]|intros _; repeat constructor].
  - split.
    + intros H. apply StronglySorted_inv in H. destruct H as (H & F). apply IH in H. destruct H as (H1 & H2). rewrite Forall_app in F. destruct F as (F1 & F2).
      split; [constructor; assumption|]. intros z [->|Hz]; [inversion F2; assumption|auto].
    + intros (H & F). apply StronglySorted_inv in H. destruct H as (H1 & H2). constructor; [apply IH; split; auto|].
      apply Forall_app. split; [exact H2|repeat constructor; apply F; left; reflexivity].
Qed.
Lemma last_in {A} (K : list A) a : In (last K a) (a :: K).
Proof.
  induction K as [|x [|y K] IH]; [left; reflexivity|right; left; reflexivity|]. change (last (x :: y :: K) a) with (last (y :: K) a).
  destruct IH as [E|E]; [left; exact E|right; right; exact E].
Qed.
Lemma ss_last a K : StronglySorted lexle (a :: K) -> forall x, In x (a :: K) -> lexle x (last K a).
Proof.
  induction K as [|y K IH] using rev_ind; intros H x Hx.
  - destruct Hx as [->|[]]. apply lexle_refl.
  - rewrite last_snoc. change (a :: K ++ [y]) with ((a :: K) ++ [y]) in *. apply ss_snoc in H. destruct H as (_ & H).
    apply in_app_iff in Hx. destruct Hx as [Hx|[->|[]]]; [apply H; exact Hx|apply lexle_refl].
Qed.
Lemma chain_full a K : StronglySorted lexle (a :: K) -> stack_ok a K (fold_left push K [a]).
Proof.
  induction K as [|c K IH] using rev_ind; intros H.
  - split; simpl; auto; [exists []; reflexivity|contradiction].
  - rewrite fold_left_app. simpl. change (a :: K ++ [c]) with ((a :: K) ++ [c]) in H. apply ss_snoc in H. destruct H as (H1 & H2).
    apply push_ok; [apply ss_last; exact H1| |apply H2; left; reflexivity|apply IH; exact H1].
    intros q Hq. split; [apply H2; exact Hq|]. apply StronglySorted_inv in H1. destruct H1 as (_ & F). destruct Hq as [->|Hq]; [apply lexle_refl|].
    rewrite Forall_forall in F. apply F. exact Hq.
Qed.
