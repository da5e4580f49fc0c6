(** StitchAlg and TrackStitcher: theorems about the public calls *)
From Coq Require Import QArith Qcanon Permutation.
From Verif Require Import Base QcUtil Solver_Model STI_Model STI_Spec STI_Find STI_Walk STI_All STI_Uniq STI_Line STI_Line2 STI_Line3.
Import STI_Model.
Local Open Scope nat_scope.

(* ---------------------------------------------------------------- events used as witnesses *)
Definition qi (z : Z) : Qc := Q2Qc (inject_Z z).
Definition tr (n : nat) (a b a' b' : Z) : trk := Trk (V (qi a) (qi b) 0) (V (qi a') (qi b') 0) (V 1 0 0) (V 1 0 0) [10 * n; 10 * n + 1].
Definition cf : cfg := Cfg (Q2Qc (9 # 10)) (qi 2).
(** the components of the composites, the points of the tracks *)
Definition seen_ (o : outcome st) : option (list (list nat) * list strk) := match o with Ok s => Some (composites s, tracks s) | _ => None end.
Definition line3 : list trk := [tr 0 0 0 5 0; tr 1 10 0 6 0; tr 2 11 0 20 0].

(* ---------------------------------------------------------------- C126 *)
Lemma map_fst_combine {A B} (l : list A) : forall (m : list B), length m = length l -> map fst (combine l m) = l.
Proof. induction l as [|x l IH]; intros [|y m] L; cbn in *; try discriminate; [reflexivity|]. f_equal. apply IH. lia. Qed.
Lemma nth_map_inv {A B} (f : A -> B) l : forall k b, nth_error (map f l) k = Some b -> exists a, nth_error l k = Some a /\ b = f a.
Proof. induction l as [|x l IH]; intros [|k] b X; cbn in *; try discriminate; [injection X as <-; eauto|apply IH; exact X]. Qed.
Theorem C126_stitching c both no ts : proper_points ts ->
  exists s, stitch c both no ts = Ok s /\ length (composites s) = length (tracks s) /\ NoDup (map fst (tracks s)) /\
    (forall k cm id pts, nth_error (composites s) k = Some cm -> nth_error (tracks s) k = Some (id, pts) ->
       no <= id /\ cm <> [] /\ (forall x, In x cm -> x < length ts) /\
       (forall x y, In x cm -> In y cm -> clos_refl_sym_trans nat (tied c ts) x y) /\
       (exists l, map fst l = cm /\ laid ts l pts) /\
       (forall i t, cm = [i] -> nth_error ts i = Some t -> pts = t_pts t)) /\
    (both = true -> forall i j x, In x (nth i (composites s) []) -> In x (nth j (composites s) []) -> i = j) /\
    (both = false -> forall x, x < length ts -> exists cm, In cm (composites s) /\ In x cm).
Proof.
  intros Pp. destruct (stitch_ok c ts no Pp both) as (s & E & (F & N & Nn & Id) & A & Cv). exists s. split; [exact E|]. unfold composites, tracks.
  assert (Len : length (s_comps s) = length (s_trks s)) by (clear -F; induction F; cbn; congruence).
  split; [rewrite map_length; exact Len|]. split; [exact N|]. split; [|split].
  - intros k cm id pts Ec Et. destruct (nth_map_inv _ _ _ _ Ec) as ((cm', ht) & Ek & Ec'). cbn [fst] in Ec'. subst cm'.
    destruct (F2_nth1 _ _ _ F k _ Ek) as (t & Et' & (Ne & L & B & Cn) & La). unfold comp, strk in *. rewrite Et in Et'. injection Et' as <-. cbn [fst snd] in *. split; [apply (Id (id, pts)), (nth_error_In _ _ Et)|]. split; [exact Ne|]. split; [exact B|]. split; [exact Cn|].
    split.
    + exists (oriented (cm, ht)). split; [|exact La]. unfold oriented. cbn [fst snd]. apply map_fst_combine. rewrite map_length, seq_length. reflexivity.
    + intros i t -> Ei. destruct ht; [|cbn in L; lia]. cbn in La. inversion La as [|? t' r l p Ei' La']; subst. inversion La'; subst. rewrite app_nil_r. congruence.
  - intros B i j x X Y. assert (G : forall i j, i < j -> In x (nth i (map fst (s_comps s)) []) -> In x (nth j (map fst (s_comps s)) []) -> False).
    { clear i j X Y. intros i j L X Y. change (@nil nat) with (fst (@nil nat, @nil (tend * tend))) in X, Y. rewrite map_nth in X, Y.
      destruct (nth_error (s_comps s) i) as [ci|] eqn:Ei; [|rewrite nth_overflow in X by (apply nth_error_None; exact Ei); destruct X]. destruct (nth_error (s_comps s) j) as [cj|] eqn:Ej; [|rewrite nth_overflow in Y by (apply nth_error_None; exact Ej); destruct Y].
      rewrite (nth_error_nth _ _ _ Ei) in X. rewrite (nth_error_nth _ _ _ Ej) in Y. apply (A B i j ci cj x L Ei Ej X Y). }
    destruct (Nat.lt_trichotomy i j) as [L|[L|L]]; [destruct (G i j L X Y)|exact L|destruct (G j i L Y X)].
  - intros B x X. destruct (Cv B x X) as (cm & I & J). exists (fst cm). split; [apply in_map; exact I|exact J].
Qed.
Example C126_applies : proper_points line3 /\ seen_ (stitch cf true 5 line3) = Some ([[2; 1; 0]], [(5, [21; 20; 10; 11; 1; 0])]).
Proof. split; [intros t [<-|[<-|[<-|[]]]]; discriminate|vm_compute; reflexivity]. Qed.

(* ---------------------------------------------------------------- C127: the joined ends are near each other *)
Definition no_jumps (c : cfg) (both : bool) (ts : list trk) : Prop :=
  forall no s k cm id pts, stitch c both no ts = Ok s -> nth_error (composites s) k = Some cm -> nth_error (tracks s) k = Some (id, pts) ->
    exists l, map fst l = cm /\ laid ts l pts /\ smooth c ts l.
Definition overlap : list trk := [tr 0 1 1 5 1; tr 1 2 1 6 1].
Definition fork : list trk := [tr 0 5 0 0 0; tr 1 11 0 20 0; tr 2 10 0 6 0].
Lemma smooth2 c ts i r j r' l t u : smooth c ts ((i, r) :: (j, r') :: l) -> nth_error ts i = Some t -> nth_error ts j = Some u -> cc c t u (left_by r) (entered r') = true.
Proof.
  intros S A B. specialize (S 0 i r j r' eq_refl eq_refl). assert (X : touches c ts i (left_by r) j (entered r')) by (destruct S as [S|S]; [exact S|apply touches_sym; exact S]).
  destruct X as (t' & u' & A' & B' & X). unfold cc. apply match_touch. congruence.
Qed.
Theorem C127_no_jumps_refuted :
  ~ (forall c ts, proper_points ts -> no_jumps c false ts) /\
  ~ (forall c ts, proper_points ts -> no_jumps c false ts -> no_jumps c true ts).
Proof.
  assert (P : proper_points overlap) by (intros t [<-|[<-|[]]]; discriminate). assert (P' : proper_points fork) by (intros t [<-|[<-|[<-|[]]]]; discriminate).
  split; intros X.
  - specialize (X cf overlap P 0 (St [([0; 1], [(HD, TL)])] [(0, [1; 0; 11; 10])] 1) 0 [0; 1] 0 [1; 0; 11; 10]).
    destruct X as (l & M & La & S); [vm_compute; reflexivity|reflexivity|reflexivity|].
    destruct l as [|(a, r) [|(b, r') [|]]]; try discriminate. injection M as -> ->. inversion La as [|? t ? ? p Ei La']; subst. inversion La' as [|? t' ? ? p' Ei' La'']; subst. inversion La''; subst.
    pose proof (smooth2 _ _ _ _ _ _ _ _ _ S Ei Ei') as Q. cbn in Ei, Ei'. injection Ei as <-. injection Ei' as <-. destruct r, r'; try discriminate; vm_compute in Q; discriminate.
  - assert (Ok1 : no_jumps cf false fork).
    { intros no s k cm id pts E Ec Et. assert (E' : stitch cf false no fork = Ok (St [([0; 2], [(HD, TL)]); ([1; 2], [(HD, HD)])] [(no, [1; 0; 21; 20]); (S no, [11; 10; 20; 21])] (S (S no)))) by (vm_compute; reflexivity).
      rewrite E' in E. clear E'. injection E as <-. clear X P P'. destruct k as [|[|[|k]]]; try discriminate; cbn in Ec, Et; injection Ec as <-; injection Et as _ <-.
      - exists [(0, true); (2, true)]. split; [reflexivity|]. split; [apply (laid_cons fork 0 (tr 0 5 0 0 0) true [(2, true)] [21; 20]); [reflexivity|]; apply (laid_cons fork 2 (tr 2 10 0 6 0) true [] []); [reflexivity|constructor]|].
        intros [|[|k]] i r j r' A B; try discriminate. cbn in A, B. injection A as <- <-. injection B as <- <-. left. do 2 eexists. split; [reflexivity|]. split; [reflexivity|]. apply match_touch. vm_compute. reflexivity.
      - exists [(1, true); (2, false)]. split; [reflexivity|]. split; [apply (laid_cons fork 1 (tr 1 11 0 20 0) true [(2, false)] [20; 21]); [reflexivity|]; apply (laid_cons fork 2 (tr 2 10 0 6 0) false [] []); [reflexivity|constructor]|].
        intros [|[|k]] i r j r' A B; try discriminate. cbn in A, B. injection A as <- <-. injection B as <- <-. left. do 2 eexists. split; [reflexivity|]. split; [reflexivity|]. apply match_touch. vm_compute. reflexivity. }
    specialize (X cf fork P' Ok1 0 (St [([1; 2; 0], [(HD, HD); (HD, TL)])] [(2, [11; 10; 20; 21; 1; 0])] 3) 0 [1; 2; 0] 2 [11; 10; 20; 21; 1; 0]).
    destruct X as (l & M & La & Sm); [vm_compute; reflexivity|reflexivity|reflexivity|].
    destruct l as [|(a, r) [|(b, r') [|(d, r'') [|]]]]; try discriminate. injection M as -> -> ->. inversion La as [|? t ? ? p Ei La']; subst. inversion La' as [|? t' ? ? p' Ei' La'']; subst. inversion La'' as [|? t'' ? ? p'' Ei'' La3]; subst. inversion La3; subst.
    assert (Sm' : smooth cf fork [(2, r'); (0, r'')]) by (intros k i0 r0 j0 r0' A B; apply (Sm (S k)); assumption).
    pose proof (smooth2 _ _ _ _ _ _ _ _ _ Sm' Ei' Ei'') as Q. cbn in Ei, Ei', Ei''. injection Ei as <-. injection Ei' as <-. injection Ei'' as <-. destruct r, r', r''; try discriminate; vm_compute in Q; discriminate.
Qed.
(** when the tracks meet in line, nothing is lost, nothing is repeated, no jumps, and every match is a joint *)
Theorem C127_in_line_partial c both no ts : proper_points ts -> in_line c ts ->
  exists s, stitch c both no ts = Ok s /\ Permutation (concat (composites s)) (seq 0 (length ts)) /\ length (tracks s) = length (composites s) /\
    (forall k cm id pts, nth_error (composites s) k = Some cm -> nth_error (tracks s) k = Some (id, pts) -> exists l, map fst l = cm /\ laid ts l pts /\ smooth c ts l) /\
    (forall x e y f, x < y -> touches c ts x e y f -> exists cm, In cm (composites s) /\ beside cm x y).
Proof.
  intros Pp Il. destruct (stitch_line c ts both no Pp Il) as (s & E & P & F). exists s. split; [exact E|]. split; [exact P|]. unfold composites, tracks in *.
  split; [rewrite map_length; clear -F; induction F; cbn; congruence|]. split.
  - intros k cm id pts Ec Et. destruct (nth_map_inv _ _ _ _ Ec) as ((cm', ht) & Ek & Ec'). cbn [fst] in Ec'. subst cm'. destruct (F2_nth1 _ _ _ F k _ Ek) as (t & Et' & J & La & _). unfold comp, strk in *. rewrite Et in Et'. injection Et' as <-. cbn [fst snd] in *.
    exists (oriented (cm, ht)). split; [unfold oriented; cbn [fst snd]; apply map_fst_combine; rewrite map_length, seq_length; reflexivity|]. split; [exact La|apply joined_smooth; exact J].
  - intros x e y f L X. assert (I : In x (concat (map fst (s_comps s)))) by (apply (Permutation_in _ (Permutation_sym P)), in_seq; pose proof (touches_lt _ _ _ _ _ _ X); lia).
    apply in_concat in I as (cm & I & J). exists cm. split; [exact I|]. apply in_map_iff in I as (cm' & <- & I). apply In_nth_error in I as (k & I). destruct (F2_nth1 _ _ _ F k _ I) as (t & _ & _ & _ & B). apply (B x e y f J L X).
Qed.
Lemma tr_touch ts i e j f : touches cf ts i e j f -> exists t u, nth_error ts i = Some t /\ nth_error ts j = Some u /\ cc cf t u e f = true.
Proof. intros (t & u & A & B & X). exists t, u. split; [exact A|]. split; [exact B|]. apply match_touch. exact X. Qed.
Lemma line3_only i e j f : i < j -> touches cf line3 i e j f -> (i, e, j, f) = (0, TL, 1, TL) \/ (i, e, j, f) = (1, HD, 2, HD).
Proof.
  intros L X. apply tr_touch in X as (t & u & A & B & X). unfold line3 in A, B.
  destruct j as [|[|[|j]]]; [lia| | |cbn in B; destruct j; discriminate]; (destruct i as [|[|i]]; [| |try lia]); try lia; cbn in A, B; injection A as <-; injection B as <-; destruct e, f; vm_compute in X; try discriminate X; auto.
Qed.
Example C127_in_line_applies : proper_points line3 /\ in_line cf line3 /\ touches cf line3 0 TL 1 TL /\ touches cf line3 1 HD 2 HD.
Proof.
  split; [intros t [<-|[<-|[<-|[]]]]; discriminate|]. split; [split; [|split]|split].
  - intros i e j f e' j' f' L L' X Y. apply line3_only in X; [|exact L]. apply line3_only in Y; [|exact L']. destruct X as [X|X], Y as [Y|Y]; congruence.
  - intros i e j f i' e' f' L L' X Y. apply line3_only in X; [|exact L]. apply line3_only in Y; [|exact L']. destruct X as [X|X], Y as [Y|Y]; congruence.
  - intros i e j f k g L L' X Y. apply line3_only in X; [|exact L]. apply line3_only in Y; [|exact L']. destruct X as [X|X], Y as [Y|Y]; congruence.
  - do 2 eexists. split; [reflexivity|]. split; [reflexivity|]. apply match_touch. vm_compute. reflexivity.
  - do 2 eexists. split; [reflexivity|]. split; [reflexivity|]. apply match_touch. vm_compute. reflexivity.
Qed.

(* ---------------------------------------------------------------- C128: an end is matched with one end *)
(** [fh], [ft]: the matches of the heads and of the tails, by track. [claims f k e j]: the end kept in [f] for track [k] is end [e] of track [j] *)
Definition claims (f : list link) (k : nat) (e : tend) (j : nat) : Prop := exists s, nth_error f k = Some (Some (e, j, s)).
Definition exclusive (fh ft : list link) : Prop :=
  (forall k k' e j, claims fh k e j -> claims fh k' e j -> k = k') /\ (forall k k' e j, claims ft k e j -> claims ft k' e j -> k = k') /\ (forall k k' e j, claims fh k e j -> claims ft k' e j -> False).
Definition same_end : list trk := [tr 0 2 0 6 0; tr 1 5 0 9 0; tr 2 2 0 5 0].
Definition both_ends : list trk := [tr 0 2 0 5 0; tr 1 9 1 4 1; tr 2 9 0 4 0].
Theorem C128_exclusive_refuted :
  (exists fh ft, find_ht cf same_end = Ok (fh, ft) /\ claims fh 0 TL 2 /\ claims fh 1 TL 2) /\
  (exists fh ft, find_ht cf both_ends = Ok (fh, ft) /\ claims ft 0 TL 2 /\ claims fh 1 TL 2 /\ forall i j t u e f, i <> j -> nth_error both_ends i = Some t -> nth_error both_ends j = Some u -> end_at t e <> end_at u f).
Proof.
  split.
  - remember (find_ht cf same_end) as o eqn:E. vm_compute in E. subst o. eexists _, _. split; [reflexivity|]. split; eexists; reflexivity.
  - remember (find_ht cf both_ends) as o eqn:E. vm_compute in E. subst o. eexists _, _. split; [reflexivity|]. split; [eexists; reflexivity|]. split; [eexists; reflexivity|].
    intros i j t u e f D A B Z. apply (f_equal (fun v => (this (vx v), this (vy v)))) in Z.
    destruct i as [|[|[|i]]]; try (cbn in A; destruct i; discriminate A); destruct j as [|[|[|j]]]; try (cbn in B; destruct j; discriminate B); try contradiction; cbn in A, B; injection A as <-; injection B as <-; destruct e, f; vm_compute in Z; discriminate Z.
Qed.
(** no end in common: at most one head and at most one tail claim it; in line: at most one of all *)
Theorem C128_exclusive_partial c ts fh ft : find_ht c ts = Ok (fh, ft) -> length fh = length ts /\ length ft = length ts /\
  ((forall i j t u e f, i <> j -> nth_error ts i = Some t -> nth_error ts j = Some u -> end_at t e <> end_at u f) ->
     (forall k k' e j, claims fh k e j -> claims fh k' e j -> k = k') /\ (forall k k' e j, claims ft k e j -> claims ft k' e j -> k = k')) /\
  (in_line c ts -> exclusive fh ft /\ forall i e j f, i < j -> (claims (match e with HD => fh | TL => ft end) i f j <-> touches c ts i e j f)).
Proof.
  intros E. destruct (find_ok c ts) as (fh0 & ft0 & E0 & L1 & L2 & _). rewrite E in E0. injection E0 as <- <-. split; [exact L1|]. split; [exact L2|]. split.
  - intros Nc. destruct (find_uq c ts Nc fh ft E) as (A & B). split; intros k k' e j (s & X) (s' & Y); [apply (A k k' (e, j))|apply (B k k' (e, j))]; eexists; eassumption.
  - intros Il. destruct (find_line c ts Il) as (fh0 & ft0 & E0 & H1 & H2). rewrite E in E0. injection E0 as <- <-.
    assert (T : forall i e j f, i < j -> (claims (match e with HD => fh | TL => ft end) i f j <-> touches c ts i e j f)).
    { intros i e j f L. destruct H1 as (_ & A1 & B1), H2 as (_ & A2 & B2). split.
      - intros (s & X). destruct e; [apply (A1 _ _ _ _ X)|apply (A2 _ _ _ _ X)].
      - intros X. pose proof (touches_lt _ _ _ _ _ _ X) as (L3 & _). destruct e; [apply (B1 i j f L3 L X)|apply (B2 i j f L3 L X)]. }
    split; [|exact T]. destruct H1 as (_ & A1 & _), H2 as (_ & A2 & _). destruct Il as (_ & U & _). split; [|split].
    + intros k k' e j (s & X) (s' & Y). destruct (A1 _ _ _ _ X) as (P1 & P2), (A1 _ _ _ _ Y) as (Q1 & Q2). specialize (U k HD j e k' HD e P1 Q1 P2 Q2). congruence.
    + intros k k' e j (s & X) (s' & Y). destruct (A2 _ _ _ _ X) as (P1 & P2), (A2 _ _ _ _ Y) as (Q1 & Q2). specialize (U k TL j e k' TL e P1 Q1 P2 Q2). congruence.
    + intros k k' e j (s & X) (s' & Y). destruct (A1 _ _ _ _ X) as (P1 & P2), (A2 _ _ _ _ Y) as (Q1 & Q2). specialize (U k HD j e k' TL e P1 Q1 P2 Q2). discriminate.
Qed.
Example C128_applies : (forall i j t u e f, i <> j -> nth_error both_ends i = Some t -> nth_error both_ends j = Some u -> end_at t e <> end_at u f) /\ exists fh ft, find_ht cf both_ends = Ok (fh, ft) /\ claims ft 0 TL 2.
Proof. destruct C128_exclusive_refuted as (_ & fh & ft & A & B & _ & C). split; [exact C|]. exists fh, ft. auto. Qed.

(* ---------------------------------------------------------------- C129: no track twice in a stitched track *)
Definition thrice : list trk := [tr 0 12 1 8 1; tr 1 8 0 12 0; tr 2 6 1 11 1; tr 3 5 1 8 1].
Theorem C129_no_repeats_refuted both : exists s cm, proper_points thrice /\ stitch cf both 0 thrice = Ok s /\ In cm (composites s) /\ ~ NoDup cm.
Proof.
  assert (P : proper_points thrice) by (intros t [<-|[<-|[<-|[<-|[]]]]]; discriminate).
  destruct both; remember (stitch cf _ 0 thrice) as o eqn:E; vm_compute in E; subst o.
  - eexists _, _. split; [exact P|]. split; [reflexivity|]. split; [left; reflexivity|]. cbn. intros N. repeat match goal with H : NoDup (_ :: _) |- _ => inversion H; subst; clear H end; cbn in *; intuition.
  - eexists _, _. split; [exact P|]. split; [reflexivity|]. split; [left; reflexivity|]. cbn. intros N. repeat match goal with H : NoDup (_ :: _) |- _ => inversion H; subst; clear H end; cbn in *; intuition.
Qed.
Theorem C129_no_repeats_partial c both no ts s cm : proper_points ts -> in_line c ts -> stitch c both no ts = Ok s -> In cm (composites s) -> NoDup cm.
Proof.
  intros Pp Il E I. destruct (C127_in_line_partial c both no ts Pp Il) as (s' & E' & P & _). rewrite E in E'. injection E' as <-.
  assert (N : NoDup (concat (composites s))) by (apply (Permutation_NoDup (Permutation_sym P)), seq_NoDup). revert N I. generalize (composites s). induction l as [|a l IH]; intros N X; [destruct X|]. cbn in N; apply TJ_Proofs.nodup_app_iff in N. destruct X as [<-|X]; [apply N|apply IH; [apply N|exact X]].
Qed.

(* ---------------------------------------------------------------- C130: stitching composites with a common track loses no track *)
Definition four : list trk := [tr 0 7 0 3 0; tr 1 6 0 10 0; tr 2 5 0 8 0; tr 3 5 1 1 1].
Theorem C130_keeps_refuted : exists s, proper_points four /\ stitch cf true 0 four = Ok s /\ forall cm, In cm (composites s) -> ~ In 0 cm.
Proof.
  assert (P : proper_points four) by (intros t [<-|[<-|[<-|[<-|[]]]]]; discriminate).
  remember (stitch cf true 0 four) as o eqn:E; vm_compute in E; subst o. eexists. split; [exact P|]. split; [reflexivity|]. cbn. intros cm X Y. intuition; subst; cbn in *; intuition.
Qed.
(** one call, after the walks or after earlier calls: if the tracks shared by two composites are at an end of the later one, which has no repeated track, none is lost *)
Theorem C130_keeps_partial c no ts s0 s s' : proper_points ts -> stitch c false no ts = Ok s0 -> clos_refl_trans st (fun a b => common ts a = Ok (Some b)) s0 s -> common ts s = Ok (Some s') ->
  (forall i j ci cj x, i < j -> nth_error (composites s) i = Some ci -> nth_error (composites s) j = Some cj -> In x ci -> In x cj -> NoDup cj /\ (exists r, cj = x :: r \/ cj = r ++ [x])) ->
  length (composites s') + 1 = length (composites s) /\ forall x, (exists cm, In cm (composites s) /\ In x cm) <-> (exists cm, In cm (composites s') /\ In x cm).
Proof.
  intros Pp E R Cm Sh. assert (I0 : sinv c ts no s0) by (destruct (stitch_ok c ts no Pp false) as (s1 & E1 & I1 & _); rewrite E in E1; injection E1 as <-; exact I1).
  assert (St1 : forall a b, common ts a = Ok (Some b) -> sinv c ts no a -> sinv c ts no b).
  { intros a b X Ia. destruct (common_ok c ts no Pp a Ia) as [(_ & Y)|(b' & Y & Ib & _)]; rewrite X in Y; [discriminate|]. injection Y as <-. exact Ib. }
  assert (I1 : sinv c ts no s).
  { assert (G : forall a b, clos_refl_trans st (fun a b => common ts a = Ok (Some b)) a b -> sinv c ts no a -> sinv c ts no b) by (intros a b X; induction X as [a b X|a|a b d X IHX Y IHY]; [apply St1; exact X|auto|auto]).
    apply (G s0 s R I0). }
  destruct (common_ok c ts no Pp s I1) as [(_ & Y)|(s1 & Y & _ & Ln & Sub & Kp)]; rewrite Cm in Y; [discriminate|]. injection Y as <-. unfold composites in *. rewrite !map_length. split; [exact Ln|].
  assert (H : forall s x, held s x <-> exists cm, In cm (map fst (s_comps s)) /\ In x cm).
  { intros s2 x. split; [intros (cm & A & B); exists (fst cm); split; [apply in_map; exact A|exact B]|]. intros (cm & A & B). apply in_map_iff in A as (cm' & <- & A). exists cm'. auto. }
  intros x. rewrite <- !H. split; [|apply Sub]. apply Kp. intros i j ci cj y L Ei Ej Xi Xj.
  destruct (Sh i j (fst ci) (fst cj) y L) as (N & r & W); [apply map_nth_error; exact Ei|apply map_nth_error; exact Ej|exact Xi|exact Xj|]. split; [exact N|]. unfold at_end. destruct W as [W|W]; [left|right]; exists r; exact W.
Qed.
Example C130_applies : exists s0 s', proper_points fork /\ stitch cf false 0 fork = Ok s0 /\ common fork s0 = Ok (Some s') /\ composites s0 = [[0; 2]; [1; 2]] /\ composites s' = [[1; 2; 0]].
Proof.
  remember (stitch cf false 0 fork) as o eqn:E; vm_compute in E; subst o. eexists _, _. split; [intros t [<-|[<-|[<-|[]]]]; discriminate|]. split; [reflexivity|]. split; [vm_compute; reflexivity|]. split; reflexivity.
Qed.

(* ---------------------------------------------------------------- C131: the associations *)
Lemma of_components_ok per_track cm : (forall x, In x cm -> x < length per_track) -> of_components per_track cm = Ok (concat (map (fun x => nth x per_track []) cm)).
Proof.
  intros B. unfold of_components. assert (G : forall acc, foreach cm (fun acc i => do l <- idx per_track i; Ok (acc ++ l)) acc = Ok (acc ++ concat (map (fun x => nth x per_track []) cm))).
  { induction cm as [|x cm IH]; intros acc; cbn [foreach map concat]; [rewrite app_nil_r; reflexivity|]. unfold idx. destruct (nth_error per_track x) as [l|] eqn:E; [|apply nth_error_None in E; specialize (B x (or_introl eq_refl)); lia].
    cbn [obind]. rewrite IH by (intros; apply B; right; assumption). rewrite (nth_error_nth _ _ _ E), app_assoc. reflexivity. }
  apply (G []).
Qed.
Theorem C131_associations_partial c both no ts hits_of points_of hits_at flat : proper_points ts -> length hits_of = length ts -> length points_of = length ts ->
  exists s a, produce c both no ts hits_of points_of hits_at None (Some flat) = Ok (s, a) /\ stitch c both no ts = Ok s /\
    (forall k, map snd (filter (fun x => fst x =? k) (a_th a)) = concat (map (fun x => nth x hits_of []) (nth k (composites s) []))) /\
    (forall k, map snd (filter (fun x => fst x =? k) (a_ts a)) = concat (map (fun x => nth x points_of []) (nth k (composites s) []))) /\
    (forall p h, In (p, h) (a_sh a) <-> In p flat /\ In h (hits_at p) /\ exists k, In (k, p) (a_ts a)).
Proof.
  intros Pp Lh Lp. destruct (C126_stitching c both no ts Pp) as (s & E & Ln & _ & K & _). unfold produce, read_points. cbn [obind app]. rewrite E. cbn [obind]. rewrite Ln, Nat.eqb_refl. cbn [negb].
  assert (B : forall cm x, In cm (composites s) -> In x cm -> x < length ts).
  { intros cm x I X. apply In_nth_error in I as (k & I). destruct (nth_error (tracks s) k) as [(id, pts)|] eqn:Et; [|apply nth_error_None in Et; rewrite <- Ln in Et; apply nth_error_None in Et; congruence]. apply (K k cm id pts I Et); exact X. }
  set (body := associate hits_of points_of hits_at flat (composites s)).
  assert (G : forall n, n <= length (composites s) -> exists a, foreach (seq 0 n) body (As [] [] []) = Ok a /\
    (forall k, map snd (filter (fun x => fst x =? k) (a_th a)) = if k <? n then concat (map (fun x => nth x hits_of []) (nth k (composites s) [])) else []) /\
    (forall k, map snd (filter (fun x => fst x =? k) (a_ts a)) = if k <? n then concat (map (fun x => nth x points_of []) (nth k (composites s) [])) else []) /\
    (forall p h, In (p, h) (a_sh a) <-> In p flat /\ In h (hits_at p) /\ exists k, In (k, p) (a_ts a))).
  { induction n as [|n IH]; intros L.
    - exists (As [] [] []). split; [reflexivity|]. cbn. split; [intros k; reflexivity|]. split; [intros k; reflexivity|]. intros p h. split; [intros []|intros (_ & _ & k & [])].
    - destruct IH as (a & Ea & A1 & A2 & A3); [lia|]. rewrite seq_S, CMgr_Proofs.foreach_app, Ea. cbn [obind foreach Nat.add]. unfold body at 1, associate, idx. destruct (nth_error (composites s) n) as [cm|] eqn:Ec; [|apply nth_error_None in Ec; lia]. cbn [obind].
      rewrite !of_components_ok by (intros x X; rewrite ?Lh, ?Lp; apply (B cm x); [apply (nth_error_In _ _ Ec)|exact X]). cbn [obind]. eexists. split; [reflexivity|]. cbn [a_th a_ts a_sh].
      assert (Mine : forall (l : list nat) k, map snd (filter (fun x => fst x =? k) (map (pair n) l)) = if n =? k then l else []).
      { intros l k. destruct (n =? k) eqn:Q; induction l as [|x l IHl]; cbn [map filter fst]; try reflexivity; rewrite Q; [cbn [map snd]; f_equal; exact IHl|exact IHl]. }
      assert (Glue : forall (old l : list nat) k, (if k <? n then old else []) ++ (if n =? k then l else []) = if k <? S n then (if n =? k then l else old) else []).
      { intros old l k. destruct (Nat.ltb_spec k n), (Nat.eqb_spec n k), (Nat.ltb_spec k (S n)); try lia; cbn; rewrite ?app_nil_r; reflexivity. }
      split; [intros k; rewrite filter_app, map_app, A1, Mine, Glue; destruct (Nat.eqb_spec n k) as [->|]; [rewrite (nth_error_nth _ _ _ Ec)|]; reflexivity|].
      split; [intros k; rewrite filter_app, map_app, A2, Mine, Glue; destruct (Nat.eqb_spec n k) as [->|]; [rewrite (nth_error_nth _ _ _ Ec)|]; reflexivity|].
      intros p h. rewrite in_app_iff, A3. split.
      + intros [(P1 & P2 & k & P3)|X]; [split; [exact P1|]; split; [exact P2|]; exists k; apply in_or_app; auto|]. apply in_flat_map in X as (p' & P1 & P2). destruct (existsb (Nat.eqb p') flat) eqn:Ex; [|destruct P2]. apply in_map_iff in P2 as (h' & P2 & P3). injection P2 as -> ->.
        apply existsb_exists in Ex as (q & Q1 & Q2). apply Nat.eqb_eq in Q2. subst q. split; [exact Q1|]. split; [exact P3|]. exists n. apply in_or_app. right. apply in_map. exact P1.
      + intros (P1 & P2 & k & P3). apply in_app_or in P3 as [P3|P3]; [left; split; [exact P1|]; split; [exact P2|]; eauto|]. right. apply in_map_iff in P3 as (p' & P3 & P4). injection P3 as _ ->. apply in_flat_map. exists p. split; [exact P4|].
        rewrite (proj2 (existsb_exists _ _)); [apply in_map; exact P2|]. exists p. split; [exact P1|apply Nat.eqb_refl]. }
  destruct (G (length (composites s)) (le_n _)) as (a & Ea & A1 & A2 & A3). rewrite <- Ln. fold body. rewrite Ea. cbn [obind]. exists s, a. split; [reflexivity|]. split; [reflexivity|].
  split; [intros k; rewrite A1|split; [intros k; rewrite A2|exact A3]]; destruct (Nat.ltb_spec k (length (composites s))); try reflexivity; rewrite nth_overflow by lia; reflexivity.
Qed.
Example C131_applies : match produce cf false 0 line3 [[1]; [2; 3]; [4]] [[7]; [8]; []] (fun p => [p + 100]) None (Some [8; 9]) with
  Ok (_, a) => a = As [(0, 4); (0, 2); (0, 3); (0, 1)] [(0, 8); (0, 7)] [(8, 108)] | _ => False end.
Proof. vm_compute. reflexivity. Qed.
(** space points kept as a vector per track: all are taken *)
Theorem C131_nested_refuted :
  (** only the first of each *)
  read_points (Some [[1; 2]; [3; 4]; []]) None = Ok [1; 3] /\
  (** the usual event, in which the last vector is not empty: the loop runs off the end, and without a flattened collection produce fails *)
  (forall l v, v <> [] -> read_points (Some (l ++ [v])) None = Throw UserExn).
Proof.
  split; [reflexivity|]. intros l v Nv. unfold read_points. assert (G : forall b acc, snd (read_nested b (l ++ [v]) acc) = true).
  { induction l as [|[|x y] l IH]; intros b acc; cbn [app read_nested]; [destruct v; [contradiction|reflexivity]|apply IH|apply IH]. }
  specialize (G false []). destruct (read_nested false (l ++ [v]) []) as (acc, q). cbn in G. subst q. reflexivity.
Qed.

Print Assumptions C126_stitching. Print Assumptions C127_no_jumps_refuted. Print Assumptions C127_in_line_partial. Print Assumptions C128_exclusive_refuted. Print Assumptions C128_exclusive_partial.
Print Assumptions C129_no_repeats_refuted. Print Assumptions C129_no_repeats_partial. Print Assumptions C130_keeps_refuted. Print Assumptions C130_keeps_partial. Print Assumptions C131_associations_partial. Print Assumptions C131_nested_refuted.
