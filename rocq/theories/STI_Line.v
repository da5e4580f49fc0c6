(** Events in which the tracks meet in line: the matches found are the true ones, and the walks follow them *)
From Coq Require Import QArith Qcanon Permutation.
From Verif Require Import Base QcUtil Solver_Model Solver_Proofs STI_Model STI_Spec STI_Find STI_Walk.
Import STI_Model.
Local Open Scope nat_scope.

Section Line.
Variables (c : cfg) (ts : list trk).
Hypothesis Il : in_line c ts.

(** [f] holds the matches of end [e] of the first [k] tracks *)
Definition lines (k : nat) (e : tend) (f : list link) : Prop :=
  length f = k /\ (forall i g j s, nth_error f i = Some (Some (g, j, s)) -> i < j /\ touches c ts i e j g) /\
  (forall i j g, i < k -> i < j -> touches c ts i e j g -> exists s, nth_error f i = Some (Some (g, j, s))).

Lemma cc_touches i j t u e f : nth_error ts i = Some t -> nth_error ts j = Some u -> cc c t u e f = true <-> touches c ts i e j f.
Proof.
  intros A B. unfold cc. rewrite match_touch. split; [intros X; exists t, u; auto|]. intros (t' & u' & A' & B' & X). congruence.
Qed.
Lemma cc_one i j t u e f e' f' : i < j -> nth_error ts i = Some t -> nth_error ts j = Some u -> cc c t u e f = true -> cc c t u e' f' = true -> e = e' /\ f = f'.
Proof.
  intros L A B X Y. apply (cc_touches i j) in X; [|assumption..]. apply (cc_touches i j) in Y; [|assumption..].
  destruct Il as (U & _). specialize (U i e j f e' j f' L L X Y). split; congruence.
Qed.

(** a candidate in a state: none, or the only match *)
Definition start (fh ft : list link) : fst_ := FS fh ft [] [] None None false false.
Definition one (fh ft : list link) (e : tend) (b : entry) (s : fst_) : Prop :=
  f_h s = fh /\ f_t s = ft /\ f_hv s = (match e with HD => [b] | TL => [] end) /\ f_tv s = (match e with HD => [] | TL => [b] end).

Lemma look_no t u jj s : any c t u = false -> look c t u jj s = s.
Proof. intros A. unfold look. cbv zeta. rewrite <- any_eq, A. reflexivity. Qed.
Lemma look_one i j t u e f fh ft : i < j -> nth_error ts i = Some t -> nth_error ts j = Some u -> cc c t u e f = true ->
  exists s, one fh ft e (f, j, s) (look c t u j (start fh ft)).
Proof.
  intros L A B X.
  assert (O : forall e' f', cc c t u e' f' = tend_eqb e e' && tend_eqb f f').
  { intros e' f'. destruct (cc c t u e' f') eqn:Y; [destruct (cc_one i j t u e f e' f' L A B X Y); subst; destruct e', f'; reflexivity|].
    destruct e, e', f, f'; try reflexivity; congruence. }
  assert (An : any c t u = true) by (unfold any; rewrite !O; destruct e, f; reflexivity).
  unfold look, start. cbv zeta. rewrite <- any_eq, An.
  assert (O1 := O HD TL). assert (O2 := O TL HD). assert (O3 := O HD HD). assert (O4 := O TL TL). unfold cc in O1, O2, O3, O4. cbn [dir_at end_at] in O1, O2, O3, O4. rewrite match_sym in O2.
  rewrite O1, O2, O3, O4. destruct e, f; cbn [tend_eqb andb orb f_head f_tail f_mh f_mt f_hv f_tv f_h f_t better push2 length Nat.ltb Nat.leb app fst snd]; eexists; unfold one; cbn [f_h f_t f_hv f_tv]; repeat split.
Qed.

Lemma resolve_same f j s ks : forall (fh : list link) (v : list entry), (forall k, In k ks -> k < length fh) -> (forall k s', In k ks -> nth_error fh k <> Some (Some (f, j, s'))) -> resolve (f, j, s) ks fh v = Ok (fh, v).
Proof.
  induction ks as [|k ks IH]; intros fh v B N; cbn [resolve]; [reflexivity|].
  assert (L : k < length fh) by (apply B; left; reflexivity). destruct (nth_error fh k) as [l|] eqn:E; [|apply nth_error_None in E; lia]. unfold at_. rewrite E. cbn [obind].
  assert (R : resolve (f, j, s) ks fh v = Ok (fh, v)) by (apply IH; [intros; apply B; right; assumption|intros k' s' I; apply N; right; exact I]).
  destruct l as [((e', j'), s')|]; [|exact R]. destruct (Nat.eqb_spec j' j) as [->|D]; cbn [andb]; [|exact R]. destruct (tend_eqb f e') eqn:Ee; [|exact R].
  exfalso. apply (N k s'); [left; reflexivity|]. rewrite E. destruct f, e'; try discriminate; reflexivity.
Qed.
Lemma resolve_back_same ii e (fh : list link) (v : list entry) : length fh = ii -> (forall i g j s, nth_error fh i = Some (Some (g, j, s)) -> i < j /\ touches c ts i e j g) ->
  (forall g j s, In (g, j, s) v -> ii < j /\ exists e', touches c ts ii e' j g) -> resolve_back ii fh v = Ok (fh, v).
Proof.
  intros L T V. unfold resolve_back. destruct (@back entry v) as [((g, j), s)|] eqn:E; [|reflexivity]. apply back_in in E. destruct (V g j s E) as (Lj & e' & X).
  apply resolve_same; [intros k I; apply in_seq in I; lia|]. intros k s' I Y. apply in_seq in I. destruct (T _ _ _ _ Y) as (Lk & Z).
  destruct Il as (_ & U & _). specialize (U ii e' j g k e g Lj Lk X Z). injection U as U _. lia.
Qed.

(** the state of the loop over jj *)
Definition seen (ii jj : nat) (fh ft : list link) (s : fst_) : Prop :=
  (s = start fh ft /\ forall e j g, ii < j -> j < jj -> ~ touches c ts ii e j g) \/
  (exists e g j x, ii < j < jj /\ touches c ts ii e j g /\ one fh ft e (g, j, x) s).
Lemma jj_seen ii jj t fh ft s : lines ii HD fh -> lines ii TL ft -> nth_error ts ii = Some t -> ii < jj -> jj < length ts -> seen ii jj fh ft s ->
  exists s', jj_step c ts ii t s jj = Ok s' /\ seen ii (Datatypes.S jj) fh ft s'.
Proof.
  intros (L1 & T1 & _) (L2 & T2 & _) Et Lj Ln S. unfold jj_step, idx. destruct (nth_error ts jj) as [u|] eqn:Eu; [|apply nth_error_None in Eu; lia]. cbn [obind]. cbv zeta.
  assert (Q : exists s1, look c t u jj s = s1 /\ seen ii (Datatypes.S jj) fh ft s1).
  { eexists. split; [reflexivity|]. destruct S as [(-> & N)|(e & g & j & x & Lij & X & O)].
    - destruct (any c t u) eqn:A.
      + right. assert (Z : exists e f, cc c t u e f = true) by (unfold any in A; rewrite !orb_true_iff in A; destruct A as [[[A|A]|A]|A]; eauto).
        destruct Z as (e & f & Z). destruct (look_one ii jj t u e f fh ft Lj Et Eu Z) as (x & O). exists e, f, jj, x. split; [lia|]. split; [apply (cc_touches ii jj t u e f Et Eu); exact Z|exact O].
      + rewrite look_no by exact A. left. split; [reflexivity|]. intros e j g Lij Ljj X. destruct (Nat.eq_dec j jj) as [->|D]; [|apply (N e j g); [exact Lij|lia|exact X]].
        apply (cc_touches ii jj t u e g Et Eu) in X. unfold any in A. rewrite !orb_false_iff in A. destruct A as (((A1 & A2) & A3) & A4). destruct e, g; congruence.
    - right. destruct (any c t u) eqn:A; [|rewrite look_no by exact A; exists e, g, j, x; split; [lia|auto]].
      destruct (any_tied c ts ii jj t u Et Eu A) as (e' & f' & Y). assert (Y' : touches c ts ii e' jj f') by (destruct Y as [Y|Y]; [exact Y|apply touches_sym; exact Y]).
      destruct Il as (U & _). specialize (U ii e j g e' jj f' (proj1 Lij) Lj X Y'). injection U as _ -> _. lia. }
  destruct Q as (s1 & -> & S1).
  assert (P : f_h s1 = fh /\ f_t s1 = ft /\ (forall g j x, In (g, j, x) (f_hv s1) -> ii < j /\ exists e', touches c ts ii e' j g) /\ (forall g j x, In (g, j, x) (f_tv s1) -> ii < j /\ exists e', touches c ts ii e' j g)).
  { destruct S1 as [(-> & _)|(e & g & j & x & Lij & X & (O1 & O2 & O3 & O4))]; [repeat split; cbn in *; contradiction|]. rewrite O1, O2, O3, O4. split; [reflexivity|]. split; [reflexivity|].
    destruct e; (split; intros g' j' x' I; [..]); cbn in I; try contradiction; destruct I as [I|[]]; injection I as <- <- <-; (split; [lia|eauto]). }
  destruct P as (P1 & P2 & P3 & P4). rewrite P1, P2.
  rewrite (resolve_back_same ii HD fh _ L1 T1 P3). cbn [obind]. rewrite (resolve_back_same ii TL ft _ L2 T2 P4). cbn [obind fst snd].
  eexists. split; [reflexivity|]. destruct s1 as [a b hv tv mh mt h t0]. cbn [f_h f_t f_hv f_tv f_mh f_mt f_head f_tail] in *. subst a b. exact S1.
Qed.
Lemma lines_snoc k e f (v : list entry) : lines k e f -> (forall g j s, In (g, j, s) v -> k < j /\ touches c ts k e j g) -> (forall j g, k < j -> touches c ts k e j g -> exists s, back v = Some (g, j, s)) ->
  lines (Datatypes.S k) e (f ++ [back v]).
Proof.
  intros (L & A & B) C D. split; [rewrite app_length; cbn; lia|].
  assert (Z : forall i, k <= i -> nth_error (f ++ [back v]) i = if i =? k then Some (back v) else None).
  { intros i Li. rewrite nth_error_app2 by lia. destruct (Nat.eqb_spec i k) as [->|N]; [rewrite L, Nat.sub_diag; reflexivity|]. apply nth_error_None. cbn. lia. }
  split.
  - intros i g j s X. destruct (Nat.lt_ge_cases i k) as [Li|Li]; [rewrite nth_error_app1 in X by lia; apply (A _ _ _ _ X)|]. rewrite Z in X by exact Li. destruct (Nat.eqb_spec i k) as [->|N]; [|discriminate].
    injection X as X. apply back_in in X. apply (C g j s X).
  - intros i j g Li Lj X. destruct (Nat.lt_ge_cases i k) as [Lk|Lk]; [rewrite nth_error_app1 by lia; apply B; assumption|]. rewrite Z by exact Lk. replace i with k in * by lia. rewrite Nat.eqb_refl. destruct (D j g Lj X) as (s & ->). eauto.
Qed.
Lemma touches_lt i e j f : touches c ts i e j f -> i < length ts /\ j < length ts.
Proof. intros (t & u & A & B & _). split; apply nth_error_Some; congruence. Qed.
Theorem find_line : exists fh ft, find_ht c ts = Ok (fh, ft) /\ lines (length ts) HD fh /\ lines (length ts) TL ft.
Proof.
  unfold find_ht.
  assert (G : forall k, k <= length ts -> exists r, for_ (seq 0 k) (ii_step c ts) ([], []) = Ok r /\ lines k HD (fst r) /\ lines k TL (snd r)).
  { induction k as [|k IH]; intros B.
    - eexists. split; [reflexivity|]. unfold lines. cbn. repeat split; try (destruct i; discriminate); intros; lia.
    - destruct IH as (r & E & J1 & J2); [lia|]. rewrite seq_S, for_app, E. cbn [obind for_ Nat.add]. unfold ii_step, idx. destruct (nth_error ts k) as [t|] eqn:Et; [|apply nth_error_None in Et; lia]. cbn [obind].
      assert (Q : forall m, k + 1 + m <= length ts -> exists s, for_ (seq (k + 1) m) (jj_step c ts k t) (start (fst r) (snd r)) = Ok s /\ seen k (k + 1 + m) (fst r) (snd r) s).
      { induction m as [|m IHm]; intros Bm; [eexists; split; [reflexivity|]; left; split; [reflexivity|intros; lia]|].
        destruct IHm as (s & Es & Ss); [lia|]. rewrite seq_S, for_app, Es. cbn [obind for_]. destruct (jj_seen k (k + 1 + m) t _ _ s J1 J2 Et) as (s' & Es' & Ss'); [lia|lia|exact Ss|]. rewrite Es'. cbn [obind]. exists s'. split; [reflexivity|].
        replace (k + 1 + Datatypes.S m) with (Datatypes.S (k + 1 + m)) by lia. exact Ss'. }
      unfold range. destruct (Q (length ts - (k + 1))) as (s & Es & Ss); [lia|]. unfold start in Es. rewrite Es. cbn [obind]. eexists. split; [reflexivity|]. cbn [fst snd].
      replace (k + 1 + (length ts - (k + 1))) with (length ts) in Ss by lia. destruct Ss as [(-> & N)|(e & g & j & x & Lij & X & (O1 & O2 & O3 & O4))].
      + unfold start. cbn [f_h f_t f_hv f_tv]. split; (apply lines_snoc; [assumption|intros g j s' []|]); intros j g Lj X; exfalso; apply (N _ j g Lj (proj2 (touches_lt _ _ _ _ X)) X).
      + rewrite O1, O2, O3, O4. destruct Il as (U & _). split; (apply lines_snoc; [assumption| |]).
        * destruct e; intros g' j' s' I; cbn in I; try contradiction; destruct I as [I|[]]; injection I as <- <- <-. split; [lia|exact X].
        * intros j' g' Lj' Y. specialize (U k e j g HD j' g' (proj1 Lij) Lj' X Y). injection U as -> -> ->. exists x. reflexivity.
        * destruct e; intros g' j' s' I; cbn in I; try contradiction; destruct I as [I|[]]; injection I as <- <- <-. split; [lia|exact X].
        * intros j' g' Lj' Y. specialize (U k e j g TL j' g' (proj1 Lij) Lj' X Y). injection U as -> -> ->. exists x. reflexivity. }
  destruct (G (length ts) (le_n _)) as ((fh, ft) & E & J1 & J2). exists fh, ft. auto.
Qed.
End Line.
