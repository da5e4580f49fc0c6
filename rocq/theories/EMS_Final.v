(** OrderShowerHits: orientation and hits kept, end to end. *)
From Coq Require Import QArith Qround Qcanon Lqa.
From Verif Require Import Base QcUtil Solver_Model Solver_Proofs CMgr_Proofs SPS_Model CCB_Hist EMS_Model EMS_Map EMS_Spec EMS_Assoc EMS_Planes EMS_Order EMS_Iso EMS_Perm EMS_Orient.
Local Open Scope nat_scope.

Lemma full_inj m p v w : full m -> In (p, v) m -> In (p, w) m -> v = w.
Proof. intros [O _] A B. apply (mfind_in _ _ _ O) in A. apply (mfind_in _ _ _ O) in B. congruence. Qed.
Lemma kof_sep m e e' : full m -> wires_apart m -> In e m -> In e' m -> fst e <> fst e' -> wless (kof m e) (kof m e') = true \/ wless (kof m e') (kof m e) = true.
Proof.
  intros F A He He' D. destruct e as [p v], e' as [q w]. cbn in D. destruct (Z.lt_trichotomy (wires v) (wires w)) as [L|[L|L] ].
  - left. apply kof_lt; assumption.
  - destruct (D (A p q v w He He' L)).
  - right. apply kof_lt; assumption.
Qed.
Lemma widths_main np m ws : full m -> in_range' np m -> wires_apart m -> wire_widths np m = Ok ws ->
  length ws = length m /\ forall x, In x ws <-> exists e, In e m /\ x = (kof m e, fst e).
Proof.
  intros F R A. rewrite (wire_widths_eq np m F R).
  assert (X : forall l pre acc ws, (forall e, In e (pre ++ l) -> In e m) -> NoDup (map fst (pre ++ l)) -> length acc = length pre -> (forall x, In x acc <-> exists e, In e pre /\ x = (kof m e, fst e)) ->
    foreach l (wstep m) acc = Ok ws -> length ws = length (pre ++ l) /\ forall x, In x ws <-> exists e, In e (pre ++ l) /\ x = (kof m e, fst e)).
  { induction l as [|e l IH]; intros pre acc r Hm Nd La Ha E; cbn [foreach] in E; [injection E as <-; rewrite app_nil_r; auto|].
    apply ob in E. destruct E as (a1 & E1 & E2). unfold wstep in E1.
    match type of E1 with (if ?c then _ else _) = _ => destruct c; [discriminate|] end. injection E1 as <-.
    assert (Fr : forall a x, In (a, x) acc -> wless (kof m e) a = true \/ wless a (kof m e) = true).
    { intros a x Hi. apply Ha in Hi. destruct Hi as (e' & He' & Eq). injection Eq as -> ->. apply kof_sep; [exact F|exact A|apply Hm, in_app_iff; right; left; reflexivity|apply Hm, in_app_iff; auto|].
      intros Q. rewrite map_app in Nd. apply in_split in He'. destruct He' as (l1 & l2 & ->). apply NoDup_remove_2 in Nd. apply Nd. rewrite Q, map_app. apply in_app_iff; left. apply in_app_iff; right; left; reflexivity. }
    replace (pre ++ e :: l) with ((pre ++ [e]) ++ l) in * by (rewrite <- app_assoc; reflexivity).
    apply (IH (pre ++ [e]) (wset (kof m e) (fst e) acc) r Hm Nd); [rewrite wset_fresh_len by exact Fr; rewrite app_length; cbn; lia| |exact E2].
    intros x. rewrite wset_fresh by exact Fr. rewrite Ha. split.
    - intros [->|(e' & He' & ->)]; [exists e|exists e']; (split; [apply in_app_iff; cbn; auto|reflexivity]).
    - intros (e' & He' & ->). apply in_app_iff in He'. destruct He' as [He'|[<-|[] ] ]; [right; eauto|left; reflexivity]. }
  intros E. apply (X m [] [] ws (fun e H => H)); [apply (ordered_nodup m), F|reflexivity|intros x; split; [intros []|intros (e & [] & _)]|exact E].
Qed.

Section C.
Variables (ok2 : hit -> hit -> bool) (ok3 : Z -> hit -> hit -> hit -> bool).
Notation chk := (check_hits ok2 ok3).
Notation agrees := (agree ok2 ok3).
Lemma firsts_eq (m : hmap) acc : (forall p v, In (p, v) m -> v <> []) -> exists st, foreach m (fun l e => do h <- idx (snd e) 0; Ok (l ++ [(fst e, h)])) acc = Ok (acc ++ st) /\
  Forall2 (fun a e => fst a = fst e /\ exists r, snd e = snd a :: r) st m.
Proof.
  revert acc. induction m as [|[p v] m IH]; intros acc N; cbn [foreach]; [exists []; rewrite app_nil_r; auto|].
  destruct v as [|h r]; [destruct (N p [] (or_introl eq_refl) eq_refl)|]. cbn [snd idx nth_error obind fst].
  destruct (IH (acc ++ [(p, h)]) (fun q w Hi => N q w (or_intror Hi))) as (st & E & F). exists ((p, h) :: st). rewrite E, <- app_assoc. split; [reflexivity|]. constructor; [|exact F]. cbn. eauto.
Qed.
Lemma three np (m : hmap) : np <= 3 -> full m -> in_range' np m -> length m <= 3 /\ (length m = 3 -> map fst m = [0; 1; 2]%Z).
Proof.
  intros L [O _] R. unfold in_range' in R. assert (I : incl (map fst m) [0; 1; 2]%Z) by (intros p Hp; apply R in Hp; cbn; lia).
  split; [rewrite <- (map_length fst); apply (NoDup_incl_length (ordered_nodup m O) I)|]. intros E. rewrite <- (map_length fst) in E. destruct (map fst m) as [|a [|b [|c [|? ?] ] ] ]; try discriminate.
  inversion O as [|? ? O1 F1]; subst. inversion O1 as [|? ? O2 F2]; subst. inversion F1; subst. inversion F2; subst.
  pose proof (R a (or_introl eq_refl)). pose proof (R b (or_intror (or_introl eq_refl))). pose proof (R c (or_intror (or_intror (or_introl eq_refl)))). repeat f_equal; lia.
Qed.
Lemma check_agree np m : np <= 3 -> full m -> in_range' np m -> exists b, chk m = Ok b /\ (b = true <-> agrees m).
Proof.
  intros L F R. destruct (three np m L F R) as [Lm L3]. destruct F as [O N]. unfold check_hits. destruct (firsts_eq m [] N) as (st & E & F2). rewrite E. cbn [app obind]. clear E.
  destruct m as [|[p u] [|[q v] [|[r w] [|? m] ] ] ]; cbn [length] in Lm; [| | | |lia].
  - inversion F2; subst. exists true. split; [reflexivity|]. split; [|reflexivity]. intros _. split; intros; discriminate.
  - inversion F2 as [|? ? ? ? ? F3]; subst. inversion F3; subst. exists true. split; [destruct x; reflexivity|]. split; [|reflexivity]. intros _. split; intros; discriminate.
  - inversion F2 as [|[p1 a] ? ? ? [E1 (u' & E1')] F3]; subst. inversion F3 as [|[q1 b] ? ? ? [E2 (v' & E2')] F4]; subst. inversion F4; subst. cbn in *. subst. exists (ok2 a b). split; [reflexivity|]. split.
    + intros X. split; intros; [|discriminate]. injection H as _ -> _ _ -> _. exact X.
    + intros [X _]. apply (X p a u' q b v' eq_refl).
  - inversion F2 as [|[p1 a] ? ? ? [E1 (u' & E1')] F3]; subst. inversion F3 as [|[q1 b] ? ? ? [E2 (v' & E2')] F4]; subst. inversion F4 as [|[r1 c] ? ? ? [E3 (w' & E3')] F5]; subst. inversion F5; subst.
    cbn [fst snd map] in *. specialize (L3 eq_refl). injection L3 as -> -> ->. subst. cbn. eexists. split; [reflexivity|]. rewrite !andb_true_iff. split.
    + intros (X0 & X1 & X2 & _). split; intros; [discriminate|]. injection H as -> _ -> _ -> _. assert (p = 0 \/ p = 1 \/ p = 2)%Z as [-> | [-> | ->] ] by lia; assumption.
    + intros [_ X]. repeat split; apply (X a u' b v' c w' _ eq_refl); lia.
Qed.

Lemma re_full m m' : full m -> reoriented m m' -> full m' /\ map fst m' = map fst m /\ length m' = length m.
Proof.
  intros [O N] R. assert (Ek : map fst m' = map fst m). { clear -R. induction R as [|a b l l' [E _] _ IH]; [reflexivity|]. cbn. rewrite E, IH. reflexivity. }
  split; [|split; [exact Ek|rewrite <- (map_length fst m'), Ek, map_length; reflexivity] ]. split; [rewrite Ek; exact O|]. clear -R N.
  induction R as [|a b l l' [E D] R IH]; [intros p v []|]. intros p v [->|Hi]; [|apply (IH (fun p v Hp => N p v (or_intror Hp)) p v Hi)].
  destruct a as [q u]. cbn in D. specialize (N q u (or_introl eq_refl)). destruct D as [-> | ->]; [exact N|]. intros X. apply N. rewrite <- (rev_involutive u), X. reflexivity.
Qed.
Lemma settle_main np m r : np <= 3 -> full m -> in_range' np m -> settle np ok2 ok3 m = Ok r ->
  reoriented m r /\ (agrees r \/ r = m /\ (wires_apart m -> forall m', reoriented m m' -> ~ agrees m')).
Proof.
  intros L F R E. unfold settle in E. apply ob in E. destruct E as (ws & Ew & E). apply ob in E. destruct E as (m2 & Es & E). apply ob in E. destruct E as (b & Eb & E). injection E as <-.
  pose proof (search_re ok2 ok3 _ _ _ _ _ _ (re_refl m) Es) as R2. destruct (re_full m m2 F R2) as (F2 & K2 & L2).
  assert (Rg : forall m', reoriented m m' -> in_range' np m') by (intros m' X; destruct (re_full m m' F X) as (_ & K & _); unfold in_range'; rewrite K; exact R).
  destruct (check_agree np m2 L F2 (Rg _ R2)) as (b' & Eb' & Ab). rewrite Eb in Eb'. injection Eb' as <-.
  destruct b; [split; [exact R2|left; apply Ab; reflexivity]|]. split; [apply re_refl|]. right. split; [reflexivity|]. intros A m' Rm Ag.
  destruct (widths_main np m ws F R A Ew) as (Lw & _). pose proof (wire_widths_keys np m ws Ew Lw) as P.
  destruct (search_fail ok2 ok3 _ _ _ _ _ _ Es) as [X|[X Y] ]; [congruence|].
  destruct (re_full m m' F Rm) as (F' & K' & L'). destruct (check_agree np m' L F' (Rg _ Rm)) as (c & Ec & Ac). assert (c = true) by (apply Ac, Ag). subst c.
  destruct (three np m L F R) as [Lm L3]. destruct (re_dirs m m' Rm) as (bs & Lb & ->).
  assert (Z : exists i, i < 2 ^ length m /\ orient m (nth i (permutations (map fst m) (map snd ws)) []) = dirs m bs \/ length m <= 1).
  { destruct m as [|[p u] [|[q v] [|[w z] [|? m] ] ] ]; cbn [length] in Lm; [exists 0; right; cbn; lia|exists 0; right; cbn; lia| | |lia].
    - destruct (all2 p u q v (map snd ws) bs) as (i & Hi & Ei); [destruct F as [O _]; inversion O as [|? ? O1 F1]; subst; inversion F1; subst; assumption|exact P|exact Lb|]. exists i. left. split; [exact Hi|exact Ei].
    - specialize (L3 eq_refl). cbn [map fst] in L3. injection L3 as -> -> ->. destruct (all3 u v z (map snd ws) bs) as (i & Hi & Ei); [exact P|exact Lb|]. exists i. left. split; [exact Hi|exact Ei]. }
  destruct Z as (i & [ [Hi Ei]|Hi]).
  - specialize (Y i Hi). cbv zeta in Y. cbn [Nat.add] in Y. rewrite Ei in Y. rewrite Ec in Y. destruct Y as [Y|Y]; [discriminate|]. rewrite Y in Ec. rewrite Ec in Eb. discriminate.
  - assert (T : agrees m2) by (split; intros; subst m2; cbn [length] in L2; lia). apply Ab in T. discriminate.
Qed.

Lemma re_erase m r b v : ordered m -> mfind b m = Some v -> reoriented (merase b m) r -> reoriented m (mset b v r).
Proof.
  unfold ordered. revert r. induction m as [|[a x] m IH]; intros r O E R; [discriminate|]. cbn [keys map fst] in O. inversion O as [|? ? S F]; subst. cbn [mfind merase] in *.
  destruct (Z.eqb_spec b a) as [->|D].
  - injection E as ->. assert (Hr : match r with [] => True | (c, _) :: _ => (a < c)%Z end).
    { destruct r as [|[c y] r]; [exact Logic.I|]. inversion R as [|[c' y'] ? l ? [Q _] ?]; subst. cbn in Q. subst c'. rewrite Forall_forall in F. apply F. left; reflexivity. }
    destruct r as [|[c y] r]; cbn [mset]; [|destruct (Z.ltb_spec a c); [|lia] ]; constructor; auto.
  - inversion R as [|? [c y] ? r' [Q D'] R']; subst. cbn in Q, D'. subst c.
    assert (a < b)%Z. { rewrite Forall_forall in F. apply F. apply mfind_keys. eauto. }
    cbn [mset]. destruct (Z.ltb_spec b a); [lia|]. destruct (Z.eqb_spec b a); [lia|]. constructor; [cbn; auto|]. apply IH; assumption.
Qed.
Lemma without_erase b m : ordered m -> merase b m = without b m.
Proof.
  unfold ordered, without. induction m as [|[a x] m IH]; intros O; [reflexivity|]. cbn [keys map fst] in O. inversion O as [|? ? S F]; subst. cbn [merase filter fst]. rewrite (Z.eqb_sym a b).
  destruct (Z.eqb_spec b a) as [->|]; cbn [negb]; [|rewrite IH by exact S; reflexivity]. rewrite (filter_ext_in (fun e : Z * list hit => negb (fst e =? a)%Z) (fun _ => true)); [clear; induction m as [|x m IH]; cbn; [reflexivity|rewrite <- IH; reflexivity]|].
  intros e He. rewrite Forall_forall in F. specialize (F (fst e) (in_map fst _ _ He)). destruct (Z.eqb_spec (fst e) a); [lia|reflexivity].
Qed.
Lemma wires_re m r : reoriented m r -> map (fun e => (fst e, wires (snd e))) m = map (fun e => (fst e, wires (snd e))) r.
Proof. induction 1 as [|a b l l' [E D] _ IH]; [reflexivity|]. cbn [map]. rewrite IH, E. do 2 f_equal. destruct D as [-> | ->]; [reflexivity|symmetry; apply wires_rev]. Qed.
Lemma in_wires (m : hmap) p n : In (p, n) (map (fun e => (fst e, wires (snd e))) m) <-> exists v, In (p, v) m /\ wires v = n.
Proof. rewrite in_map_iff. split; [intros ([q v] & E & H); injection E as <- <-; eauto|intros (v & H & <-); exists (p, v); auto]. Qed.
Lemma others_map (m : hmap) p : others_sq m p = zsum (map (fun e => sq (snd e)) (filter (fun e => negb (fst e =? p)%Z) (map (fun e => (fst e, wires (snd e))) m))).
Proof. unfold others_sq, zsum. f_equal. induction m as [|x m IH]; [reflexivity|]. cbn [filter map fst]. destruct (negb (fst x =? p)%Z); cbn [map snd]; [f_equal; exact IH|exact IH]. Qed.
Lemma narrow_re m r p : reoriented m r -> narrow m p <-> narrow r p.
Proof.
  intros R. pose proof (wires_re m r R) as W. assert (L : length m = length r) by (rewrite <- (map_length (fun e => (fst e, wires (snd e))) m), W, map_length; reflexivity).
  unfold narrow. rewrite !others_map, W, L. split; intros (v & Hi & X).
  - assert (Y : In (p, wires v) (map (fun e => (fst e, wires (snd e))) m)) by (apply in_wires; eauto). rewrite W in Y. apply in_wires in Y. destruct Y as (w & Hw & Ew). exists w. rewrite Ew. auto.
  - assert (Y : In (p, wires v) (map (fun e => (fst e, wires (snd e))) r)) by (apply in_wires; eauto). rewrite <- W in Y. apply in_wires in Y. destruct Y as (w & Hw & Ew). exists w. rewrite Ew. auto.
Qed.
Lemma apart_re m r : reoriented m r -> wires_apart r -> wires_apart m.
Proof.
  intros R A p q v w Hp Hq E. pose proof (wires_re m r R) as W.
  assert (Y : In (p, wires v) (map (fun e => (fst e, wires (snd e))) m)) by (apply in_wires; eauto). assert (Z : In (q, wires w) (map (fun e => (fst e, wires (snd e))) m)) by (apply in_wires; eauto).
  rewrite W in Y, Z. apply in_wires in Y, Z. destruct Y as (v' & Hv & Ev), Z as (w' & Hw & Ew). apply (A p q v' w'); congruence.
Qed.
Lemma without_full b m : full m -> full (without b m).
Proof.
  intros [O N]. split; [rewrite <- without_erase by exact O; apply merase_ordered, O|]. intros p v Hi. apply filter_In in Hi. apply (N p), Hi.
Qed.
Lemma without_re b m r : reoriented m r -> reoriented (without b m) (without b r).
Proof. unfold without. induction 1 as [|x y l l' [E D] _ IH]; [constructor|]. cbn [filter]. rewrite E. destruct (negb (fst y =? b)%Z); [constructor; auto|exact IH]. Qed.
Lemma re_sym m r : reoriented m r -> reoriented r m.
Proof. induction 1 as [|x y l l' [E D] _ IH]; constructor; [|exact IH]. split; [auto|]. destruct D as [-> | ->]; [auto|rewrite rev_involutive; auto]. Qed.
Lemma re_trans m r s : reoriented m r -> reoriented r s -> reoriented m s.
Proof.
  intros A. revert s. induction A as [|x y l l' [E D] _ IH]; intros s B; inversion B as [|? z ? s' [E' D'] B']; subst; constructor; [|apply IH, B'].
  split; [congruence|]. destruct D as [D|D], D' as [D'|D']; rewrite D', D; rewrite ?rev_involutive; auto.
Qed.
Lemma filter_one (f : option Qc * Z -> bool) ws b : map snd (filter f ws) = [b] -> exists k, In (k, b) ws /\ f (k, b) = true /\ forall x, In x ws -> f x = true -> x = (k, b).
Proof.
  intros E. destruct (filter f ws) as [|[k c] [|? ?] ] eqn:Ef; try discriminate. injection E as ->. exists k.
  assert (H : In (k, b) (filter f ws)) by (rewrite Ef; left; reflexivity). apply filter_In in H. split; [apply H|]. split; [apply H|].
  intros x Hx Fx. assert (H' : In x (filter f ws)) by (apply filter_In; auto). rewrite Ef in H'. destruct H' as [<-|[] ]. reflexivity.
Qed.
Lemma orientate_re np m r : ordered m -> orientate np ok2 ok3 m = Ok r -> reoriented m r.
Proof.
  intros O E. unfold orientate in E. apply ob in E. destruct E as (ws & _ & E). cbv zeta in E. apply ob in E. destruct E as (ig & Ei & E). apply ob in E. destruct E as (m3 & Es & E). injection E as <-.
  assert (Sr : forall m r, settle np ok2 ok3 m = Ok r -> reoriented m r).
  { clear. intros m r E. unfold settle in E. apply ob in E. destruct E as (w1 & _ & E). apply ob in E. destruct E as (m2 & E2 & E). apply ob in E. destruct E as (b & _ & E). injection E as <-. destruct b; [apply (search_re ok2 ok3 _ _ _ _ _ _ (re_refl m) E2)|apply re_refl]. }
  match type of Ei with match ?u with [] => _ | _ => _ end = _ => destruct u as [|b [|? ?] ] end; try (injection Ei as <-; apply Sr, Es).
  apply ob in Ei. destruct Ei as (v & Ev & Ei). injection Ei as <-. apply Sr in Es. apply re_erase; [exact O| |exact Es]. unfold mat in Ev. destruct (mfind b m); [injection Ev as ->; reflexivity|discriminate].
Qed.
Lemma orientate_main np m r : np <= 3 -> full m -> in_range' np m -> wires_apart m -> orientate np ok2 ok3 m = Ok r ->
  exists r', ((exists b, narrow r b /\ (forall p, narrow r p -> p = b) /\ r' = without b r) \/ (~ (exists b, narrow r b /\ forall p, narrow r p -> p = b) /\ r' = r)) /\
    (agrees r' \/ forall m', reoriented r' m' -> ~ agrees m').
Proof.
  intros L F R A E. pose proof (orientate_re np m r (proj1 F) E) as Rr. unfold orientate in E. apply ob in E. destruct E as (ws & Ew & E). cbv zeta in E.
  destruct (widths_main np m ws F R A Ew) as (Lw & Iw). rewrite Lw in E.
  set (f := fun e : option Qc * Z => wless (fst e) (Some (Q2Qc 1 / (qn (length m) * qn (length m)))%Qc)) in *.
  assert (Fn : forall p, narrow m p <-> exists k, In (k, p) ws /\ f (k, p) = true).
  { intros p. split.
    - intros N. pose proof N as (v & Hv & _). exists (kof m (p, v)). split; [apply Iw; exists (p, v); auto|]. apply (kof_lim m p v F Hv), N.
    - intros (k & Hk & Fk). apply Iw in Hk. destruct Hk as ([q v] & He & Eq). injection Eq as -> ->. apply (kof_lim m q v F He), Fk. }
  apply ob in E. destruct E as (ig & Ei & E). apply ob in E. destruct E as (m3 & Es & E). injection E as Er.
  destruct (map snd (filter f ws)) as [|b [|? ?] ] eqn:Eb.
  - injection Ei as <-. subst r. exists m3. destruct (settle_main np m m3 L F R Es) as [Re S]. split.
    + right. split; [|reflexivity]. intros (b & Nb & _). rewrite <- (narrow_re m m3 b Re) in Nb. apply Fn in Nb. destruct Nb as (k & Hk & Fk). apply map_eq_nil in Eb.
      assert (H : In (k, b) (filter f ws)) by (apply filter_In; auto). rewrite Eb in H. destruct H.
    + destruct S as [S|[-> S] ]; [auto|]. right. apply S, A.
  - apply ob in Ei. destruct Ei as (v & Ev & Ei). injection Ei as <-. unfold mat in Ev. destruct (mfind b m) as [v'|] eqn:Em; [|discriminate]. injection Ev as ->.
    rewrite (without_erase b m (proj1 F)) in Es.
    assert (Rw : in_range' np (without b m)) by (intros p Hp; apply R; apply in_map_iff in Hp; destruct Hp as (x & <- & Hx); apply filter_In in Hx; apply in_map, Hx).
    destruct (settle_main np (without b m) m3 L (without_full b m F) Rw Es) as [Re S].
    assert (E3 : m3 = without b r).
    { subst r. rewrite <- without_erase by (apply ordered_mset; destruct (re_full _ _ (without_full b m F) Re) as ([X _] & _); exact X).
      destruct (re_full _ _ (without_full b m F) Re) as ([X _] & K3 & _). assert (Nb : ~ In b (map fst m3)). { rewrite K3. intros Hb. apply in_map_iff in Hb. destruct Hb as (x & <- & Hx). apply filter_In in Hx. rewrite Z.eqb_refl in Hx. destruct Hx; discriminate. }
      apply ordered_ext; [exact X|apply merase_ordered, ordered_mset, X|]. intros k. rewrite mfind_merase by (apply ordered_mset, X). rewrite mfind_mset. destruct (Z.eqb_spec k b) as [->|]; [apply mfind_none, Nb|reflexivity]. }
    exists m3. split.
    + left. exists b. destruct (filter_one f ws b Eb) as (k & Hk & Fk & U). split; [apply (narrow_re m r b Rr), Fn; eauto|]. split; [|exact E3].
      intros p Np. apply (narrow_re m r p Rr) in Np. apply Fn in Np. destruct Np as (k' & Hk' & Fk'). pose proof (U _ Hk' Fk') as Q. injection Q as _ ->. reflexivity.
    + destruct S as [S|[-> S] ]; [auto|]. right. apply S. intros p q x y Hx Hy. apply filter_In in Hx, Hy. apply A; [apply Hx|apply Hy].
  - injection Ei as <-. subst r. exists m3. destruct (settle_main np m m3 L F R Es) as [Re S]. split.
    + right. split; [|reflexivity]. intros (c & Nc & U).
      assert (Nd : NoDup (map snd ws)) by (apply (Permutation_NoDup (Permutation_sym (wire_widths_keys np m ws Ew Lw))), ordered_nodup, F).
      assert (Nf : NoDup (map snd (filter f ws))).
      { clear -Nd. induction ws as [|x ws IH]; [constructor|]. cbn [map] in Nd. inversion Nd as [|? ? H1 H2]; subst. cbn [filter]. destruct (f x); [|apply IH, H2]. cbn [map]. constructor; [|apply IH, H2].
        intros Hi. apply H1. apply in_map_iff in Hi. destruct Hi as (y & Ey & Hy). apply filter_In in Hy. apply in_map_iff. exists y. split; [exact Ey|apply Hy]. }
      rewrite Eb in Nf. assert (Ha : forall p, In p (b :: z :: l) -> p = c).
      { intros p Hp. rewrite <- Eb in Hp. apply in_map_iff in Hp. destruct Hp as ([k p'] & E' & Hp). cbn in E'. subst p'. apply filter_In in Hp. apply U. apply (narrow_re m m3 p Re). apply Fn. eauto. }
      pose proof (Ha b (or_introl eq_refl)) as Q1. pose proof (Ha z (or_intror (or_introl eq_refl))) as Q2. inversion Nf as [|? ? Hn _]; subst. apply Hn. left; reflexivity.
    + destruct S as [S|[-> S] ]; [auto|]. right. apply S, A.
Qed.
End C.
