From Verif Require Import Base Util MultiMap CMatchBK_Model CMatchBK_Spec.

Definition fits (i : nat) : Prop := (Z.of_nat i + 1 < 4294967296)%Z.

Lemma u32_succ_ok i : fits i -> u32_succ i = S i.
Proof. unfold fits, u32_succ. intros H. rewrite Z.mod_small by lia. lia. Qed.

Definition usedp (u : list bool) (i : nat) : Prop := nth i u false = true.

Lemma resize_grow u n i : length u <= n -> nth i (resize_false u n) false = nth i u false.
Proof.
  intros H. unfold resize_false. rewrite firstn_all2 by exact H.
  destruct (Nat.lt_ge_cases i (length u)).
  - apply app_nth1; assumption.
  - rewrite app_nth2 by assumption. rewrite (nth_overflow u) by assumption.
    destruct (Nat.lt_ge_cases (i - length u) (n - length u)) as [L|L].
    + apply nth_repeat.
    + apply nth_overflow. rewrite repeat_length. exact L.
Qed.

Lemma resize_len u n : length u <= n -> length (resize_false u n) = n.
Proof. intros. unfold resize_false. rewrite app_length, firstn_length, repeat_length. lia. Qed.

Lemma check_set_ok : forall s used, Forall fits s ->
  exists used' valid, check_set used s = Ok (used', valid) /\
    (forall i, usedp used' i <-> usedp used i) /\ length used <= length used' /\
    (forall i, In i s -> i < length used') /\
    (valid = true <-> forall i, In i s -> ~ usedp used i).
Proof.
  intros s used F. unfold check_set.
  assert (G : forall s used0 v0, Forall fits s -> (forall i, usedp used0 i <-> usedp used i) ->
    exists used' valid, foreach s (fun (st : list bool * bool) i =>
      let (used, valid) := st in
      if length used <=? i then Ok (resize_false used (u32_succ i), valid)
      else do u <- at_ used i; Ok (used, if (u : bool) then false else valid)) (used0, v0) = Ok (used', valid) /\
    (forall i, usedp used' i <-> usedp used i) /\ length used0 <= length used' /\
    (forall i, In i s -> i < length used') /\
    (valid = true <-> v0 = true /\ forall i, In i s -> ~ usedp used i)).
  { clear s F. induction s as [|x s IH]; intros used0 v0 F HU.
    - exists used0, v0. simpl. split; [reflexivity|]. split; [exact HU|]. split; [lia|].
      split; [intros i []|]. split; [intros H; split; [exact H|intros i []]|intros [H _]; exact H].
    - inversion F as [|? ? Fx Fs]; subst. cbn [foreach].
      destruct (Nat.leb_spec (length used0) x) as [L|L]; cbn [obind].
      + rewrite u32_succ_ok by exact Fx.
        destruct (IH (resize_false used0 (S x)) v0 Fs) as (u' & v' & E & A & B & C & D).
        { intros i. unfold usedp. rewrite resize_grow by lia. apply HU. }
        rewrite resize_len in B by lia.
        exists u', v'. split; [exact E|]. split; [exact A|]. split; [lia|]. split.
        * intros i [<-|Hi]; [lia|apply C, Hi].
        * rewrite D. split; intros [V H]; (split; [exact V|]).
          -- intros i [<-|Hi]; [|apply H, Hi]. rewrite <- HU. unfold usedp.
             rewrite nth_overflow by exact L. discriminate.
          -- intros i Hi. apply H. right; exact Hi.
      + assert (EN : nth_error used0 x = Some (nth x used0 false)) by (apply nth_error_nth'; exact L).
        unfold at_. rewrite EN. cbn [obind].
        destruct (IH used0 (if nth x used0 false then false else v0) Fs HU) as (u' & v' & E & A & B & C & D).
        exists u', v'. split; [exact E|]. split; [exact A|]. split; [exact B|]. split.
        * intros i [<-|Hi]; [lia|apply C, Hi].
        * rewrite D. pose proof (HU x) as HUx. unfold usedp in HUx at 1.
          destruct (nth x used0 false) eqn:Ex.
          -- split; [intros [V _]; discriminate|]. intros [V H]. exfalso. apply (H x (or_introl eq_refl)).
             apply HUx; reflexivity.
          -- split; intros [V H]; (split; [exact V|]).
             ++ intros i [<-|Hi]; [|apply H, Hi]. intros K. apply HUx in K. discriminate.
             ++ intros i Hi. apply H. right; exact Hi. }
  destruct (G s used true F (fun i => conj (fun h => h) (fun h => h))) as (u' & v' & E & A & B & C & D).
  exists u', v'. split; [exact E|]. split; [exact A|]. split; [exact B|]. split; [exact C|].
  rewrite D. split; [intros [_ H]; exact H|auto].
Qed.

Lemma mark_ok : forall s used, (forall i, In i s -> i < length used) ->
  exists used', foreach s (fun u i => set_at u i true) used = Ok used' /\ length used' = length used /\
    (forall i, usedp used' i <-> usedp used i \/ In i s).
Proof.
  induction s as [|x s IH]; intros used H.
  - exists used. simpl. split; [reflexivity|]. split; [reflexivity|]. tauto.
  - cbn [foreach]. assert (Hx : x < length used) by (apply H; left; reflexivity).
    rewrite set_at_ok by exact Hx. cbn [obind].
    destruct (IH (upd used x true)) as (u' & E & L & U).
    + intros i Hi. rewrite upd_length. apply H. right; exact Hi.
    + exists u'. split; [exact E|]. split; [rewrite L; apply upd_length|].
      intros i. rewrite U. unfold usedp. destruct (Nat.eq_dec i x) as [->|N].
      * rewrite nth_upd_same by exact Hx. simpl. tauto.
      * rewrite nth_upd_other by congruence. simpl. intuition congruence.
Qed.

Section Hist.
Variable h : list (Z * list nat).
Hypothesis Hfit : forall p i, In i (set_at_pos h p) -> fits i.

(** loop over the positions [todo], all worse than those already treated *)
Lemma pass_ok : forall todo done used sel res,
  StronglySorted (preferred h) (done ++ todo) ->
  (forall p, In p sel -> In p done) ->
  StronglySorted (preferred h) sel ->
  res = map (set_at_pos h) sel ->
  (forall i, usedp used i <-> exists p, In p sel /\ In i (set_at_pos h p)) ->
  (forall p q, In p sel -> In q sel -> p <> q -> ~ share (set_at_pos h p) (set_at_pos h q)) ->
  (forall p, In p done -> ~ In p sel -> exists q, In q sel /\ preferred h q p /\ share (set_at_pos h q) (set_at_pos h p)) ->
  exists used' sel', foreach (map (fun p => nth p h (0%Z, [])) todo) pass_step (used, res)
      = Ok (used', map (set_at_pos h) sel') /\
    (forall p, In p sel' -> In p (done ++ todo)) /\
    StronglySorted (preferred h) sel' /\
    (forall p q, In p sel' -> In q sel' -> p <> q -> ~ share (set_at_pos h p) (set_at_pos h q)) /\
    (forall p, In p (done ++ todo) -> ~ In p sel' -> exists q, In q sel' /\ preferred h q p /\ share (set_at_pos h q) (set_at_pos h p)).
Proof.
  induction todo as [|x todo IH]; intros done used sel res HS Hsd HSs Hres HU Hdis Hcov.
  - rewrite app_nil_r in *. exists used, sel. simpl. subst res. auto.
  - cbn [map foreach].
    assert (HSx : forall p, In p done -> preferred h p x).
    { intros p Hp. clear - HS Hp. induction done as [|d done IHd]; [destruct Hp|].
      simpl in HS. inversion HS as [|? ? HS' HF]; subst. destruct Hp as [->|Hp].
      - rewrite Forall_forall in HF. apply HF, in_or_app. right; left; reflexivity.
      - apply IHd; assumption. }
    assert (Hxnd : forall p, In p done -> p <> x).
    { intros p Hp ->. specialize (HSx x Hp). unfold preferred in HSx. lia. }
    set (s := set_at_pos h x).
    destruct (check_set_ok s used) as (u1 & v & E1 & U1 & L1 & B1 & V1).
    { apply Forall_forall. intros i Hi. apply (Hfit x i Hi). }
    assert (Ep : pass_step (used, res) (nth x h (0%Z, [])) =
      (if v then do used'' <- foreach s (fun u i => set_at u i true) u1; Ok (used'', res ++ [s]) else Ok (u1, res))).
    { unfold pass_step. change (snd (nth x h (0%Z, []))) with s. rewrite E1. reflexivity. }
    rewrite Ep. clear Ep.
    rewrite (app_assoc done [x] todo : done ++ x :: todo = (done ++ [x]) ++ todo) in HS |- *.
    destruct v.
    + destruct (mark_ok s u1 B1) as (u2 & E2 & L2 & U2). rewrite E2. cbn [obind].
      assert (Hno : forall p, In p sel -> ~ share (set_at_pos h p) s).
      { intros p Hp (i & Hi1 & Hi2). apply (proj1 V1 eq_refl i Hi2). apply HU. exists p; auto. }
      apply (IH (done ++ [x]) u2 (sel ++ [x]) (res ++ [s])); clear IH.
      * exact HS.
      * intros p Hp. apply in_app_or in Hp. apply in_or_app. destruct Hp as [Hp|Hp]; [left; auto|right; exact Hp].
      * clear - HSs HSx Hsd. induction sel as [|y sel IHs]; simpl; [constructor; constructor|].
        inversion HSs as [|? ? A B]; subst. constructor.
        -- apply IHs; [intros p Hp; apply Hsd; right; exact Hp|exact A].
        -- apply Forall_app. split; [exact B|]. constructor; [|constructor]. apply HSx, Hsd. left; reflexivity.
      * subst res. rewrite map_app. reflexivity.
      * intros i. rewrite U2, U1, HU. split.
        -- intros [(p & Hp & Hi)|Hi]; [exists p; split; [apply in_or_app; left|]; assumption|].
           exists x. split; [apply in_or_app; right; left; reflexivity|exact Hi].
        -- intros (p & Hp & Hi). apply in_app_or in Hp. destruct Hp as [Hp|[<-|[]]]; [left; exists p; auto|right; exact Hi].
      * intros p q Hp Hq N. apply in_app_or in Hp, Hq.
        destruct Hp as [Hp|[<-|[]]], Hq as [Hq|[<-|[]]].
        -- apply Hdis; assumption.
        -- apply Hno; assumption.
        -- intros (i & A & B). apply (Hno q Hq). exists i; auto.
        -- congruence.
      * intros p Hp Hn. apply in_app_or in Hp. destruct Hp as [Hp|[<-|[]]].
        -- destruct (Hcov p Hp) as (q & Q1 & Q2).
           { intros C. apply Hn, in_or_app. left; exact C. }
           exists q. split; [apply in_or_app; left; exact Q1|exact Q2].
        -- exfalso. apply Hn, in_or_app. right; left; reflexivity.
    + apply (IH (done ++ [x]) u1 sel res); clear IH; try assumption.
      * intros p Hp. apply in_or_app. left. apply Hsd, Hp.
      * intros i. rewrite U1. apply HU.
      * intros p Hp Hn. apply in_app_or in Hp. destruct Hp as [Hp|[<-|[]]]; [apply Hcov; assumption|].
        assert (K : exists i, In i s /\ usedp used i).
        { clear - V1. assert (V2 : ~ forall i, In i s -> ~ usedp used i) by (intros H; apply V1 in H; discriminate).
          clear V1. induction s as [|y s IHs].
          - exfalso. apply V2. intros i [].
          - unfold usedp. destruct (nth y used false) eqn:Ey; [exists y; split; [left; reflexivity|exact Ey]|].
            destruct IHs as (i & A & B); [|exists i; split; [right; exact A|exact B]].
            intros K. apply V2. intros i [<-|Hi]; [unfold usedp; congruence|apply K, Hi]. }
        destruct K as (i & Hi & Ui). apply HU in Ui. destruct Ui as (q & Q & Qi).
        exists q. split; [exact Q|]. split; [apply HSx, Hsd, Q|]. exists i; auto.
Qed.
End Hist.

(** the register is the list of registrations ordered by precedence (worst first) *)
Lemma reg_order : forall h, exists ord,
  fold_left (fun r x => reg_match r (snd x) (fst x)) h [] = map (fun p => nth p h (0%Z, [])) ord /\
  Permutation ord (seq 0 (length h)) /\
  StronglySorted (preferred h) (rev ord).
Proof.
  induction h as [|[s i] h IH] using rev_ind.
  - exists []. simpl. repeat constructor.
  - destruct IH as (ord & E & P & S).
    rewrite fold_left_app. cbn [fold_left fst snd]. rewrite E. unfold reg_match.
    assert (Hlt : forall p, In p ord -> p < length h).
    { intros p Hp. apply (Permutation_in _ P) in Hp. apply in_seq in Hp. lia. }
    assert (Hnth : forall p, p < length h -> nth p (h ++ [(s, i)]) (0%Z, []) = nth p h (0%Z, [])) by (intros; apply app_nth1; assumption).
    assert (Hpref : forall p q, p < length h -> q < length h -> preferred h p q -> preferred (h ++ [(s, i)]) p q).
    { intros p q Hp Hq. unfold preferred, score_at. rewrite !Hnth by assumption. auto. }
    (* splitting the sorted list at the insertion point *)
    assert (G : forall ord, (forall p, In p ord -> p < length h) -> StronglySorted (preferred h) (rev ord) ->
      exists o1 o2, ord = o1 ++ o2 /\
        mm_insert s i (map (fun p => nth p h (0%Z, [])) ord) = map (fun p => nth p h (0%Z, [])) o1 ++ (s, i) :: map (fun p => nth p h (0%Z, [])) o2 /\
        (forall p, In p o1 -> (score_at h p <= s)%Z) /\ (forall p, In p o2 -> (score_at h p > s)%Z)).
    { clear. induction ord as [|x ord IHo]; intros Hl Hs.
      - exists [], []. simpl. repeat split; auto; intros p [].
      - simpl in Hs. assert (Hs' : StronglySorted (preferred h) (rev ord) /\ forall p, In p ord -> preferred h p x).
        { clear - Hs. assert (K : forall l, StronglySorted (preferred h) (l ++ [x]) -> StronglySorted (preferred h) l /\ forall p, In p l -> preferred h p x).
          { induction l as [|y l IHl]; simpl; intros H; [split; [constructor|intros p []]|].
            inversion H as [|? ? A B]; subst. destruct (IHl A) as [C D]. split.
            - constructor; [exact C|]. apply Forall_app in B. tauto.
            - intros p [<-|Hp]; [|apply D, Hp]. apply Forall_app in B. destruct B as [_ B]. inversion B; assumption. }
          destruct (K _ Hs) as [A B]. split; [exact A|]. intros p Hp. apply B. rewrite <- in_rev. exact Hp. }
        destruct Hs' as [Hs1 Hs2].
        destruct (IHo (fun p Hp => Hl p (or_intror Hp)) Hs1) as (o1 & o2 & Eo & Em & A & B).
        cbn [map mm_insert]. destruct (nth x h (0%Z, [])) as [k' v'] eqn:Ex.
        assert (Hk : score_at h x = k') by (unfold score_at; rewrite Ex; reflexivity).
        destruct (Z.ltb_spec s k') as [L|L].
        + exists [], (x :: ord). simpl. rewrite Ex. split; [reflexivity|]. split; [reflexivity|]. split; [intros p []|].
          intros p [<-|Hp]; [lia|]. specialize (Hs2 p Hp). unfold preferred in Hs2. lia.
        + exists (x :: o1), o2. simpl. rewrite Em, Ex, Eo. split; [reflexivity|]. split; [reflexivity|].
          split; [|exact B]. intros p [<-|Hp]; [lia|apply A, Hp]. }
    destruct (G ord Hlt S) as (o1 & o2 & Eo & Em & A & B). clear G.
    exists (o1 ++ length h :: o2). split; [|split].
    + rewrite Em, map_app. cbn [map]. rewrite (app_nth2 h) by lia. rewrite Nat.sub_diag. cbn [nth].
      subst ord. f_equal; [|f_equal]; apply map_ext_in; intros p Hp; symmetry; apply Hnth, Hlt, in_or_app; tauto.
    + rewrite app_length. simpl length. rewrite Nat.add_1_r, seq_S. simpl.
      rewrite <- Permutation_middle. rewrite <- Permutation_cons_append. constructor. rewrite <- Eo. exact P.
    + rewrite rev_app_distr. simpl. rewrite <- app_assoc. simpl.
      subst ord. rewrite rev_app_distr in S.
      assert (S2 : StronglySorted (preferred (h ++ [(s, i)])) (rev o2 ++ rev o1)).
      { assert (Hl : forall p, In p (rev o2 ++ rev o1) -> p < length h).
        { intros p Hp. apply Hlt. apply in_app_or in Hp. rewrite <- !in_rev in Hp. apply in_or_app. tauto. }
        revert S Hl. generalize (rev o2 ++ rev o1) as l. induction l as [|y l IHl]; intros S Hl; [constructor|].
        inversion S as [|? ? C D]; subst. constructor; [apply IHl; [exact C|intros p Hp; apply Hl; right; exact Hp]|].
        apply Forall_forall. intros q Hq. apply Hpref; [apply Hl; left; reflexivity|apply Hl; right; exact Hq|].
        rewrite Forall_forall in D. apply D, Hq. }
      assert (Hb : forall p, In p (rev o2) -> preferred (h ++ [(s, i)]) p (length h)).
      { intros p Hp. rewrite <- in_rev in Hp. specialize (B p Hp). left. unfold score_at in *.
        rewrite Hnth by (apply Hlt, in_or_app; right; exact Hp).
        rewrite (app_nth2 h) by lia. rewrite Nat.sub_diag. exact B. }
      assert (Ha : forall p, In p (rev o1) -> preferred (h ++ [(s, i)]) (length h) p).
      { intros p Hp. rewrite <- in_rev in Hp. specialize (A p Hp). assert (p < length h) by (apply Hlt, in_or_app; left; exact Hp).
        unfold preferred, score_at in *. rewrite (Hnth p) by assumption. rewrite (app_nth2 h) by lia. rewrite Nat.sub_diag. cbn [nth fst]. lia. }
      revert S2 Hb. generalize (rev o2) as l2. induction l2 as [|y l2 IHl]; simpl; intros S2 Hb.
      * constructor; [exact S2|]. apply Forall_forall. exact Ha.
      * inversion S2 as [|? ? C D]; subst. constructor; [apply IHl; [exact C|intros p Hp; apply Hb; right; exact Hp]|].
        apply Forall_app in D. apply Forall_app. split; [tauto|]. constructor; [apply Hb; left; reflexivity|tauto].
Qed.

Lemma registered_run : forall ops acc,
  match_run (fold_left (fun r x => reg_match r (snd x) (fst x)) acc []) ops
  = fold_left (fun r x => reg_match r (snd x) (fst x)) (registered acc ops) [].
Proof.
  induction ops as [|[i s|] ops IH]; intros acc; [reflexivity| |]; simpl; unfold match_run in *; simpl.
  - rewrite <- IH, fold_left_app. reflexivity.
  - rewrite <- IH. reflexivity.
Qed.

Lemma greedy_ok h : (forall s i, In s h -> In i (snd s) -> fits i) ->
  exists res, match_result (fold_left (fun r x => reg_match r (snd x) (fst x)) h []) = Ok res /\ greedy_selection h res.
Proof.
  intros Hf. destruct (reg_order h) as (ord & E & P & S). rewrite E.
  unfold match_result. rewrite <- map_rev.
  assert (Hin : forall p, In p (rev ord) <-> p < length h).
  { intros p. rewrite <- in_rev. split; intros H.
    - apply (Permutation_in _ P) in H. apply in_seq in H. lia.
    - apply (Permutation_in _ (Permutation_sym P)). apply in_seq. lia. }
  destruct (pass_ok h) with (todo := rev ord) (done := @nil nat) (used := @nil bool) (sel := @nil nat) (res := @nil (list nat))
    as (used & sel & E2 & A & B & C & D).
  - intros p i Hi. unfold set_at_pos in Hi. destruct (Nat.lt_ge_cases p (length h)).
    + apply (Hf (nth p h (0%Z, []))); [apply nth_In; assumption|exact Hi].
    + rewrite nth_overflow in Hi by assumption. destruct Hi.
  - exact S.
  - intros p [].
  - constructor.
  - reflexivity.
  - intros i. unfold usedp. destruct i; simpl; split; try discriminate; intros (p & [] & _).
  - intros p q [].
  - intros p [].
  - rewrite E2. cbn [obind snd]. exists (map (set_at_pos h) sel). split; [reflexivity|].
    exists sel. split; [reflexivity|]. split; [intros p Hp; apply Hin, (A p Hp)|]. split; [exact B|]. split; [exact C|].
    intros p Hp. apply D. apply Hin. exact Hp.
Qed.
