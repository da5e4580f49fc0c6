(** FindHeadsAndTails: what holds for every event *)
From Coq Require Import QArith Qcanon Lqa.
From Verif Require Import Base QcUtil Solver_Model Solver_Proofs STI_Model STI_Spec.
Import STI_Model.
Local Open Scope nat_scope.

Lemma match_touch c t e u f : match_ends c (dir_at t e) (dir_at u f) (end_at t e) (end_at u f) = true <-> touch c t e u f.
Proof.
  unfold match_ends, touch. cbv zeta. cbn [vx vy vz]. rewrite !andb_true_iff, !qc_lt_spec. unfold dot, dist2, qabs.
  set (d := (vx (dir_at t e) * vx (dir_at u f) + vy (dir_at t e) * vy (dir_at u f) + vz (dir_at t e) * vz (dir_at u f))%Qc).
  assert (A : (c_cos c < (if qc_lt d 0 then - d else d))%Qc <-> ((c_cos c < d)%Qc \/ (c_cos c < - d)%Qc)).
  { destruct (qc_lt d 0) eqn:E; [apply qc_lt_spec in E|apply qc_lt_false in E]; split; intros X; try (destruct X as [X|X]); try tauto; revert E X; generalize d (c_cos c); intros; qclra. }
  tauto.
Qed.
Lemma dist_sym a b : dist2 a b = dist2 b a. Proof. unfold dist2. ring. Qed.
Lemma match_sym c d1 d2 p1 p2 : match_ends c d1 d2 p1 p2 = match_ends c d1 d2 p2 p1. Proof. unfold match_ends. rewrite (dist_sym p2 p1). reflexivity. Qed.
Lemma dot_sym a b : dot a b = dot b a. Proof. unfold dot. ring. Qed.
Lemma match_sym2 c d1 d2 p1 p2 : match_ends c d1 d2 p1 p2 = match_ends c d2 d1 p2 p1. Proof. unfold match_ends. rewrite (dot_sym d1 d2), (dist_sym p1 p2). reflexivity. Qed.
Lemma touch_sym c t e u f : touch c t e u f -> touch c u f t e. Proof. intros X. apply match_touch. rewrite match_sym2. apply match_touch. exact X. Qed.
Lemma touches_sym c ts i e j f : touches c ts i e j f -> touches c ts j f i e. Proof. intros (t & u & A & B & X). exists u, t. split; [exact B|]. split; [exact A|]. apply touch_sym; exact X. Qed.

(** the four comparisons of the loop *)
Definition cc (c : cfg) (t u : trk) (e f : tend) : bool := match_ends c (dir_at t e) (dir_at u f) (end_at t e) (end_at u f).
Definition sep_of (t u : trk) (e f : tend) : Qc := dist2 (end_at t e) (end_at u f).

(** what is true of a tuple: it names a later track that matches at some ends *)
Definition lok (c : cfg) (ts : list trk) (i : nat) (b : entry) : Prop := i < snd (fst b) < length ts /\ tied c ts i (snd (fst b)).
Definition llok (c : cfg) (ts : list trk) (i : nat) (l : link) : Prop := match l with None => True | Some b => lok c ts i b end.
Definition all_ok (c : cfg) (ts : list trk) (f : list link) : Prop := forall i l, nth_error f i = Some l -> llok c ts i l.

Lemma push2_in v e x : In x (push2 v e) -> In x v \/ x = e.
Proof. unfold push2. intros X. apply in_app_or in X as [X|[X|[]]]; [|auto]. left. destruct (1 <? length v); [|exact X]. destruct v; [destruct X|right; exact X]. Qed.

Definition any (c : cfg) (t u : trk) : bool := cc c t u HD TL || cc c t u TL HD || cc c t u HD HD || cc c t u TL TL.
Lemma any_tied c ts i j t u : nth_error ts i = Some t -> nth_error ts j = Some u -> any c t u = true -> tied c ts i j.
Proof.
  intros A B X. unfold any, cc in X. rewrite !orb_true_iff, !match_touch in X.
  destruct X as [[[X|X]|X]|X]; do 2 eexists; left; exists t, u; (split; [exact A|]; split; [exact B|exact X]).
Qed.
Lemma any_eq c t u : any c t u = match_ends c (t_sdir t) (t_edir u) (t_start t) (t_end u) || match_ends c (t_edir t) (t_sdir u) (t_start u) (t_end t) || match_ends c (t_sdir t) (t_sdir u) (t_start t) (t_start u) || match_ends c (t_edir t) (t_edir u) (t_end t) (t_end u).
Proof. unfold any, cc. cbn [dir_at end_at]. rewrite (match_sym c (t_edir t) (t_sdir u) (t_end t)). reflexivity. Qed.

(** [look] changes one of the lists of candidates, by pushing the new track *)
Inductive looked (c : cfg) (t u : trk) (jj : nat) (s s' : fst_) : Prop :=
  | look_none : f_hv s' = f_hv s -> f_tv s' = f_tv s -> looked c t u jj s s'
  | look_head e x : any c t u = true -> f_hv s' = push2 (f_hv s) (e, jj, x) -> f_tv s' = f_tv s -> x = sep_of t u HD e -> looked c t u jj s s'
  | look_tail e x : any c t u = true -> f_hv s' = f_hv s -> f_tv s' = push2 (f_tv s) (e, jj, x) -> x = sep_of t u TL (match e with HD => TL | TL => HD end) -> looked c t u jj s s'.
Lemma look_spec c t u jj s : looked c t u jj s (look c t u jj s) /\ f_h (look c t u jj s) = f_h s /\ f_t (look c t u jj s) = f_t s.
Proof.
  unfold look. cbv zeta. rewrite <- any_eq. destruct (any c t u) eqn:A; [|split; [apply look_none; reflexivity|auto]].
  match goal with |- context [if ?a && ?b then (?n, negb ?n) else _] => destruct (if a && b then (n, negb n) else (a, b)) as (hd, tl) end.
  destruct hd.
  - destruct (better _ (f_mh s)); [|split; [apply look_none; reflexivity|auto]]. split; [|auto]. eapply look_head; [exact A|reflexivity|reflexivity|].
    match goal with |- context [tend_eqb ?x HD] => destruct x end; reflexivity.
  - destruct tl; [|split; [apply look_none; reflexivity|auto]]. destruct (better _ (f_mt s)); [|split; [apply look_none; reflexivity|auto]]. split; [|auto]. eapply look_tail; [exact A|reflexivity|reflexivity|].
    match goal with |- context [tend_eqb ?x TL] => destruct x end; cbn [tend_eqb fst snd]; unfold sep_of; cbn [end_at]; [reflexivity|apply dist_sym].
Qed.

(** [resolve] only erases entries, and only drops the last candidate *)
Lemma resolve_ok b ks : forall f v, (forall k, In k ks -> k < length f) -> exists f' v', resolve b ks f v = Ok (f', v') /\ length f' = length f /\
  (forall k, nth_error f' k = nth_error f k \/ nth_error f' k = Some None) /\ (v' = v \/ v' = removelast v).
Proof.
  destruct b as ((e, j), sep). induction ks as [|k ks IH]; intros f v B; cbn [resolve]; [exists f, v; auto|].
  assert (L : k < length f) by (apply B; left; reflexivity). destruct (nth_error f k) as [l|] eqn:E; [|apply nth_error_None in E; lia]. unfold at_. rewrite E. cbn [obind].
  assert (B' : forall k', In k' ks -> k' < length f) by (intros; apply B; right; assumption).
  destruct l as [((e', j'), sep')|]; [|apply IH; exact B']. destruct ((j' =? j) && tend_eqb e e'); [|apply IH; exact B'].
  destruct (qc_lt sep sep' && negb (qc_eqb sep 0)).
  - unfold set_at. rewrite (proj2 (Nat.ltb_lt _ _) L). cbn [obind]. destruct (IH (upd f k None) v) as (f' & v' & E' & L' & C & D); [intros; rewrite upd_length; auto|].
    exists f', v'. split; [exact E'|]. split; [rewrite L'; apply upd_length|]. split; [|exact D]. intros k'. destruct (C k') as [X|X]; [|auto]. rewrite X, nth_error_upd. destruct ((k' =? k) && (k <? length f)); auto.
  - destruct (negb (qc_eqb sep 0)); [exists f, (removelast v); auto|apply IH; exact B'].
Qed.
Lemma resolve_back_ok ii f v : ii <= length f -> exists f' v', resolve_back ii f v = Ok (f', v') /\ length f' = length f /\
  (forall k, nth_error f' k = nth_error f k \/ nth_error f' k = Some None) /\ (v' = v \/ v' = removelast v).
Proof.
  intros L. unfold resolve_back. destruct (back v) as [b|]; [|exists f, v; auto]. apply resolve_ok. intros k I. apply in_seq in I. lia.
Qed.
Lemma removelast_in {A} (v : list A) x : In x (removelast v) -> In x v.
Proof. induction v as [|y v IH]; [auto|]. cbn [removelast]. destruct v as [|z v]; [intros []|]. intros [<-|X]; [left; reflexivity|right; apply IH; exact X]. Qed.
Lemma back_in {A} (v : list A) x : back v = Some x -> In x v. Proof. unfold back. apply nth_error_In. Qed.

Section Any.
Variables (c : cfg) (ts : list trk).

(** while track [ii] is compared with the tracks before [jj] *)
Definition jinv (ii jj : nat) (s : fst_) : Prop :=
  length (f_h s) = ii /\ length (f_t s) = ii /\ all_ok c ts (f_h s) /\ all_ok c ts (f_t s) /\
  (forall b, In b (f_hv s) -> lok c ts ii b /\ snd (fst b) < jj) /\ (forall b, In b (f_tv s) -> lok c ts ii b /\ snd (fst b) < jj) /\
  (forall a b, In a (f_hv s) -> In b (f_tv s) -> snd (fst a) <> snd (fst b)) /\
  (forall i a b, nth_error (f_h s) i = Some (Some a) -> nth_error (f_t s) i = Some (Some b) -> snd (fst a) <> snd (fst b)).

Lemma all_ok_sub f f' : all_ok c ts f -> (forall k, nth_error f' k = nth_error f k \/ nth_error f' k = Some None) -> all_ok c ts f'.
Proof. intros A B i l X. destruct (B i) as [Y|Y]; [apply A; congruence|]. rewrite Y in X. injection X as <-. exact I. Qed.

Lemma jj_step_ok ii jj t s : nth_error ts ii = Some t -> ii < jj -> jj < length ts -> jinv ii jj s -> exists s', jj_step c ts ii t s jj = Ok s' /\ jinv ii (S jj) s'.
Proof.
  intros Et Lj Ln (L1 & L2 & A1 & A2 & H1 & H2 & D & Di). unfold jj_step. destruct (nth_error ts jj) as [u|] eqn:Eu; [|apply nth_error_None in Eu; lia]. unfold idx. rewrite Eu. cbn [obind].
  destruct (look_spec c t u jj s) as (K & K1 & K2). set (s1 := look c t u jj s) in *. clearbody s1.
  destruct (resolve_back_ok ii (f_h s1) (f_hv s1)) as (fh & hv & E1 & M1 & S1 & V1); [rewrite K1, L1; lia|]. destruct (resolve_back_ok ii (f_t s1) (f_tv s1)) as (ft & tv & E2 & M2 & S2 & V2); [rewrite K2, L2; lia|].
  cbv zeta. rewrite E1. cbn [obind]. rewrite E2. cbn [obind fst snd]. eexists. split; [reflexivity|]. unfold jinv. cbn [f_h f_t f_hv f_tv].
  assert (Q1 : forall b, In b (f_hv s1) -> (In b (f_hv s) \/ (snd (fst b) = jj /\ any c t u = true /\ f_tv s1 = f_tv s))).
  { intros b X. destruct K as [Y _|e x An Y Z _|e x An Y Z _]; rewrite Y in X; [auto| |auto]. apply push2_in in X as [X| ->]; [auto|]. right. auto. }
  assert (Q2 : forall b, In b (f_tv s1) -> (In b (f_tv s) \/ (snd (fst b) = jj /\ any c t u = true /\ f_hv s1 = f_hv s))).
  { intros b X. destruct K as [_ Z|e x An Y Z _|e x An Y Z _]; rewrite Z in X; [auto|auto|]. apply push2_in in X as [X| ->]; [auto|]. right. auto. }
  assert (I1 : forall b, In b hv -> In b (f_hv s1)) by (intros b X; destruct V1 as [Y|Y]; rewrite Y in X; [exact X|apply removelast_in; exact X]).
  assert (I2 : forall b, In b tv -> In b (f_tv s1)) by (intros b X; destruct V2 as [Y|Y]; rewrite Y in X; [exact X|apply removelast_in; exact X]).
  rewrite K1 in M1, S1. rewrite K2 in M2, S2. split; [lia|]. split; [lia|]. split; [apply (all_ok_sub (f_h s)); assumption|]. split; [apply (all_ok_sub (f_t s)); assumption|].
  split; [|split; [|split]].
  - intros b X. destruct (Q1 b (I1 b X)) as [Y|(Y & An & _)]; [destruct (H1 b Y); split; [assumption|lia]|]. unfold lok. rewrite Y. split; [split; [lia|apply (any_tied c ts ii jj t u); assumption]|lia].
  - intros b X. destruct (Q2 b (I2 b X)) as [Y|(Y & An & _)]; [destruct (H2 b Y); split; [assumption|lia]|]. unfold lok. rewrite Y. split; [split; [lia|apply (any_tied c ts ii jj t u); assumption]|lia].
  - intros a b X Y. destruct (Q1 a (I1 a X)) as [Z|(Z & _ & Z')], (Q2 b (I2 b Y)) as [W|(W & _ & W')].
    + apply D; assumption.
    + rewrite W. destruct (H1 a Z). lia.
    + rewrite Z. destruct (H2 b W). lia.
    + pose proof (I2 b Y) as W2. rewrite Z' in W2. destruct (H2 b W2). lia.
  - intros i a b X Y. destruct (S1 i) as [Z|Z]; [|congruence]. destruct (S2 i) as [W|W]; [|congruence]. apply (Di i); congruence.
Qed.

Definition iinv (ii : nat) (s : list link * list link) : Prop :=
  length (fst s) = ii /\ length (snd s) = ii /\ all_ok c ts (fst s) /\ all_ok c ts (snd s) /\
  (forall i a b, nth_error (fst s) i = Some (Some a) -> nth_error (snd s) i = Some (Some b) -> snd (fst a) <> snd (fst b)).

Lemma all_ok_snoc f l : all_ok c ts f -> llok c ts (length f) l -> all_ok c ts (f ++ [l]).
Proof.
  intros A B i x X. destruct (Nat.lt_ge_cases i (length f)) as [L|L]; [rewrite nth_error_app1 in X by exact L; apply A; exact X|].
  rewrite nth_error_app2 in X by exact L. assert (i = length f) by (assert (i - length f < 1) by (change 1 with (length [l]); apply nth_error_Some; congruence); lia). subst i.
  rewrite Nat.sub_diag in X. injection X as <-. exact B.
Qed.
Lemma ii_step_ok ii s : ii < length ts -> iinv ii s -> exists s', ii_step c ts s ii = Ok s' /\ iinv (S ii) s'.
Proof.
  intros L (L1 & L2 & A1 & A2 & D). unfold ii_step. destruct (nth_error ts ii) as [t|] eqn:Et; [|apply nth_error_None in Et; lia]. unfold idx. rewrite Et. cbn [obind].
  assert (G : forall k, ii + 1 + k <= length ts -> exists r, for_ (seq (ii + 1) k) (jj_step c ts ii t) (FS (fst s) (snd s) [] [] None None false false) = Ok r /\ jinv ii (ii + 1 + k) r).
  { induction k as [|k IH]; intros B.
    - eexists. split; [reflexivity|]. unfold jinv. cbn. do 4 (split; [assumption|]). split; [intros b []|]. split; [intros b []|]. split; [intros a b []|exact D].
    - destruct IH as (r & E & J); [lia|]. rewrite seq_S, for_app, E. cbn [obind for_]. destruct (jj_step_ok ii (ii + 1 + k) t r Et) as (r' & E' & J'); [lia|lia|exact J|].
      rewrite E'. cbn [obind]. exists r'. split; [reflexivity|]. replace (ii + 1 + S k) with (S (ii + 1 + k)) by lia. exact J'. }
  unfold range. destruct (G (length ts - (ii + 1))) as (r & E & (M1 & M2 & B1 & B2 & H1 & H2 & Dj & Di)); [lia|]. rewrite E. cbn [obind]. eexists. split; [reflexivity|].
  unfold iinv. cbn [fst snd]. rewrite !app_length. cbn [length]. split; [lia|]. split; [lia|].
  split; [apply all_ok_snoc; [exact B1|rewrite M1; destruct (back (f_hv r)) eqn:X; [apply H1, back_in; exact X|exact Logic.I]]|].
  split; [apply all_ok_snoc; [exact B2|rewrite M2; destruct (back (f_tv r)) eqn:X; [apply H2, back_in; exact X|exact Logic.I]]|].
  intros i a b X Y. destruct (Nat.lt_ge_cases i ii) as [Q|Q]; [rewrite nth_error_app1 in X, Y by lia; apply (Di i); assumption|].
  rewrite nth_error_app2 in X, Y by lia. rewrite M1 in X. rewrite M2 in Y. destruct (i - ii) as [|m]; [|destruct m; discriminate]. injection X as X. injection Y as Y. apply Dj; apply back_in; assumption.
Qed.
Theorem find_ok : exists fh ft, find_ht c ts = Ok (fh, ft) /\ length fh = length ts /\ length ft = length ts /\ all_ok c ts fh /\ all_ok c ts ft /\
  (forall i a b, nth_error fh i = Some (Some a) -> nth_error ft i = Some (Some b) -> snd (fst a) <> snd (fst b)).
Proof.
  unfold find_ht. assert (G : forall k, k <= length ts -> exists r, for_ (seq 0 k) (ii_step c ts) ([], []) = Ok r /\ iinv k r).
  { induction k as [|k IH]; intros B.
    - eexists. split; [reflexivity|]. unfold iinv. cbn. repeat split; intros [|]; discriminate.
    - destruct IH as (r & E & J); [lia|]. rewrite seq_S, for_app, E. cbn [obind for_ Nat.add]. destruct (ii_step_ok k r) as (r' & E' & J'); [lia|exact J|]. rewrite E'. cbn [obind]. eauto. }
  destruct (G (length ts) (le_n _)) as ((fh, ft) & E & J). exists fh, ft. split; [exact E|]. exact J.
Qed.
End Any.
