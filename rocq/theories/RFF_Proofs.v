From Coq Require Import QArith Qcanon Qround Lqa.
From Verif Require Import Base Util QcUtil Solver_Model Solver_Proofs Solver_Sched GaussElim_Model GaussElim_Proofs CandHit_Spec CandHit_Proofs RFF_Model RFF_Spec.
Local Open Scope nat_scope.

Lemma qceqb x y : reflect (x = y) (qc_eqb x y).
Proof. unfold qc_eqb. destruct (Qc_eq_dec x y); constructor; assumption. Qed.
Definition F2 (p : Qc * Qc) : xf * xf := (Fin (fst p), Fin (snd p)).
Definition leq (a b : Qc * Qc) : Prop := (fst a <= fst b)%Qc.
Lemma place_ok x l : StronglySorted leq l -> exists l', place (F2 x) (map F2 l) = map F2 l' /\ Permutation (x :: l) l' /\ StronglySorted leq l'.
Proof.
  induction 1 as [|y l S IH Hf]; cbn [place map]; [exists [x]; split; [reflexivity|]; split; [reflexivity|repeat constructor]|].
  cbn [F2 fst xlt]. destruct (qc_lt (fst x) (fst y)) eqn:E.
  - apply qc_lt_spec in E. exists (x :: y :: l). split; [reflexivity|]. split; [reflexivity|]. constructor; [constructor; assumption|]. constructor; [apply Qclt_le_weak, E|].
    eapply Forall_impl; [|exact Hf]. intros a Ha. unfold leq in *. eapply Qcle_trans; [apply Qclt_le_weak, E|exact Ha].
  - apply qc_lt_false in E. destruct IH as (l' & El & Hp & Hs). exists (y :: l'). split; [change ((Fin (fst y), Fin (snd y)) :: place (F2 x) (map F2 l) = map F2 (y :: l')); rewrite El; reflexivity|].
    split; [rewrite perm_swap; constructor; exact Hp|]. constructor; [exact Hs|]. apply (Permutation_Forall Hp). constructor; assumption.
Qed.
Lemma no_nan l : existsb (fun y => is_nan (fst y)) (map F2 l) = false.
Proof. induction l as [|a l IH]; [reflexivity|exact IH]. Qed.
Lemma insert_ok x l : StronglySorted leq l -> exists l', insert (F2 x) (map F2 l) = Ok (map F2 l') /\ Permutation (x :: l) l' /\ StronglySorted leq l'.
Proof.
  intros H. destruct (place_ok x l H) as (l' & E & Hp & Hs). exists l'. split; [|split; assumption]. unfold insert. destruct l as [|a l]; [cbn in E; rewrite <- E; reflexivity|].
  change (map F2 (a :: l)) with (F2 a :: map F2 l) at 1. cbn [F2 fst is_nan orb existsb]. rewrite no_nan. rewrite <- E. reflexivity.
Qed.

Lemma two_nz : qc_nat 2 <> 0%Qc.
Proof. discriminate. Qed.
Section Means.
Variables (sq : Qc -> Qc) (s : list Qc).
Hypothesis Hnz : forall i, 1 <= i < length s - 1 -> nth i s 0%Qc <> 0%Qc.
Lemma tick_ok i set : 1 <= i < length s - 1 -> StronglySorted leq set ->
  exists set', tick sq s (Fin (dev s (i - 1)), map F2 set) i = Ok (Fin (dev s i), map F2 set') /\ StronglySorted leq set' /\ Permutation set' (set ++ estimates sq s [i]).
Proof using Hnz.
  intros Hi Hs. unfold tick. rewrite (idx_ok s (i + 1) 0%Qc), (idx_ok s (i - 1) 0%Qc), (idx_ok s i 0%Qc) by lia. cbn [obind fst snd].
  assert (Hz := Hnz i Hi). cbn [xdiv]. destruct (qceqb (nth i s 0%Qc) 0%Qc) as [X|_]; [contradiction|].
  assert (Ed : (half * (nth (i + 1) s 0 - nth (i - 1) s 0) / nth i s 0 = dev s i)%Qc).
  { unfold dev, half. destruct (Nat.eqb_spec i 0); [lia|]. field. split; [exact Hz|exact two_nz]. }
  rewrite Ed. cbn [xsub xneg xadd]. replace (dev s i + - dev s (i - 1))%Qc with (slope s i) by (unfold slope; ring).
  unfold xge0. unfold estimates. cbn [filter]. destruct (qc_lt (slope s i) 0%Qc) eqn:E; cbn [negb map].
  2:{ exists set. split; [reflexivity|]. split; [exact Hs|]. rewrite app_nil_r. reflexivity. }
  apply qc_lt_spec in E. assert (Hsl : slope s i <> 0%Qc) by (intros X; rewrite X in E; qclra).
  cbn [xdiv xmul xsub xneg xadd]. destruct (qceqb (slope s i) 0%Qc) as [X|_]; [contradiction|].
  cbn [xsqrt]. destruct (qc_lt (- (1) / slope s i)%Qc 0%Qc) eqn:E2.
  { exfalso. apply qc_lt_spec in E2. assert (X : (- (1) / slope s i * slope s i = - (1))%Qc) by (field; exact Hsl). set (a := (- (1) / slope s i)%Qc) in *. set (b := slope s i) in *. clearbody a b. clear - X E E2. qcnra. }
  replace (- (1) * (dev s i + - (slope s i * qc_nat i)) / slope s i)%Qc with (qc_nat i - dev s i / slope s i)%Qc by (field; exact Hsl).
  destruct (insert_ok (qc_nat i - dev s i / slope s i, sq (- (1) / slope s i))%Qc set Hs) as (set' & E3 & Hp & Hs').
  unfold F2 in E3 at 1. cbn [fst snd] in E3. rewrite E3. cbn [obind]. exists set'. split; [reflexivity|]. split; [exact Hs'|]. rewrite <- Hp. apply Permutation_cons_append.
Qed.
Lemma all_means_ok : exists set, all_means sq s = Ok (map F2 set) /\ StronglySorted leq set /\ Permutation set (estimates sq s (range 1 (length s - 1))).
Proof using Hnz.
  unfold all_means. destruct (Nat.leb_spec (length s) 2).
  - exists []. split; [reflexivity|]. split; [constructor|]. replace (range 1 (length s - 1)) with (@nil nat) by (unfold range; replace (length s - 1 - 1) with 0 by lia; reflexivity). reflexivity.
  - destruct (for_range_inv (fun i st => exists set, st = (Fin (dev s (i - 1)), map F2 set) /\ StronglySorted leq set /\ Permutation set (estimates sq s (range 1 i)))
      (tick sq s) 1 (length s - 1) (Fin 0%Qc, [])) as (st & E & set & -> & Hs & Hp).
    + lia.
    + exists []. split; [reflexivity|]. split; [constructor|reflexivity].
    + intros i st Hi (set & -> & Hs & Hp). destruct (tick_ok i set ltac:(lia) Hs) as (set' & E & Hs' & Hp'). exists (Fin (dev s i), map F2 set'). split; [exact E|].
      exists set'. replace (S i - 1) with i by lia. split; [reflexivity|]. split; [exact Hs'|]. rewrite Hp', Hp. unfold range. replace (S i - 1) with (S (i - 1)) by lia. rewrite seq_S.
      unfold estimates. rewrite filter_app, map_app. replace (1 + (i - 1)) with i by lia. reflexivity.
    + rewrite E. cbn [obind snd]. exists set. split; [reflexivity|]. split; assumption.
Qed.
End Means.

(* ------------------------------------------------------------------ groups *)
Section Groups.
Variable thr : Qc.
Definition W (gs : list (list (Qc * Qc))) : Prop := Forall (fun g => g <> []) gs /\ Forall (chain (close thr)) gs /\ chain (apart thr) gs.
Lemma push_last_app {A} (gs : list (list A)) g x : push_last (gs ++ [g]) x = gs ++ [g ++ [x]].
Proof. induction gs as [|a gs IH]; [reflexivity|]. cbn [push_last app]. destruct (gs ++ [g]) eqn:E; [destruct gs; discriminate|]. rewrite IH. reflexivity. Qed.
Lemma chain_last {A} (R : A -> A -> Prop) l x y : chain R (l ++ [x]) -> (forall a, R a x -> R a y) -> chain R (l ++ [y]).
Proof.
  induction l as [|a l IH]; intros H HR; [exact I|]. destruct l as [|b l]; [simpl in *; intuition|]. destruct H as [H1 H2]. split; [exact H1|]. apply IH; assumption.
Qed.
Lemma chain_cons_snoc {A} (R : A -> A -> Prop) l x y : chain R (l ++ [x]) -> R x y -> chain R (l ++ [x; y]).
Proof. intros H HR. change [x; y] with ([x] ++ [y]). rewrite app_assoc. apply chain_snoc; assumption. Qed.
Lemma merge_groups_ok : forall set gs g0 c, W (gs ++ [g0 ++ [c]]) ->
  exists gs', merge_groups thr (map F2 set) (Fin (fst c)) (map (map F2) (gs ++ [g0 ++ [c]])) = map (map F2) gs' /\ W gs' /\ concat gs' = concat (gs ++ [g0 ++ [c]]) ++ set.
Proof using.
  induction set as [|d set IH]; intros gs g0 c HW; cbn [map merge_groups].
  - exists (gs ++ [g0 ++ [c]]). split; [reflexivity|]. split; [exact HW|]. rewrite app_nil_r. reflexivity.
  - destruct HW as (H1 & H2 & H3). apply Forall_app in H1. destruct H1 as [N1 N2]. apply Forall_app in H2. destruct H2 as [C1 C2]. inversion C2 as [|? ? C3 _]; subst.
    change (fst (F2 d)) with (Fin (fst d)). cbn [xsub xneg xadd xabs xlt]. replace (fst d + - fst c)%Qc with (fst d - fst c)%Qc by reflexivity.
    assert (L : Nat.eqb (length (map (map F2) (gs ++ [g0 ++ [c]]))) 0 = false) by (rewrite map_length, app_length; cbn; destruct (length gs); reflexivity). rewrite L, orb_false_r.
    destruct (qc_lt thr (qabs (fst d - fst c))) eqn:E.
    + apply qc_lt_spec in E. destruct (IH (gs ++ [g0 ++ [c]]) [] d) as (gs' & E' & HW' & Hc').
      * split; [|split].
        -- rewrite <- app_assoc. apply Forall_app. split; [exact N1|]. constructor; [destruct g0; discriminate|]. constructor; [discriminate|constructor].
        -- rewrite <- app_assoc. apply Forall_app. split; [exact C1|]. constructor; [exact C3|]. constructor; [exact I|constructor].
        -- rewrite <- app_assoc. apply chain_cons_snoc; [exact H3|]. exists g0, c, d, []. split; [reflexivity|]. split; [reflexivity|exact E].
      * exists gs'. cbn [app] in E'. rewrite map_app in E'. split; [exact E'|]. split; [exact HW'|]. rewrite Hc', concat_app. cbn [concat app]. rewrite <- app_assoc. reflexivity.
    + apply qc_lt_false in E. rewrite map_app. cbn [map]. rewrite push_last_app. destruct (IH gs (g0 ++ [c]) d) as (gs' & E' & HW' & Hc').
      * split; [|split].
        -- apply Forall_app. split; [exact N1|]. constructor; [destruct (g0 ++ [c]); discriminate|constructor].
        -- apply Forall_app. split; [exact C1|]. constructor; [|constructor]. apply chain_snoc; [exact C3|exact E].
        -- apply (chain_last _ gs (g0 ++ [c])); [exact H3|]. intros a (x & y & z & t & Ha & Hz & Hg). exists x, y, z, (t ++ [d]). split; [exact Ha|]. split; [rewrite Hz; reflexivity|exact Hg].
      * exists gs'. rewrite map_app in E'. cbn [map] in E'. rewrite map_app in E'. cbn [map] in E'. split; [exact E'|]. split; [exact HW'|]. rewrite Hc', !concat_app. cbn [concat]. rewrite !app_nil_r, <- !app_assoc. reflexivity.
Qed.
Lemma create_merge_ok set : exists gs, create_merge thr (map F2 set) = map (map F2) gs /\ grouping thr set gs.
Proof using.
  unfold create_merge. destruct set as [|c set]; cbn [map merge_groups].
  - exists []. split; [reflexivity|]. constructor; try (intros g []); try reflexivity; exact I.
  - cbn [length Nat.eqb]. rewrite orb_true_r. destruct (merge_groups_ok set [] [] c) as (gs & E & (W1 & W2 & W3) & Hc).
    + split; [repeat constructor; discriminate|]. split; [repeat constructor|exact I].
    + exists gs. split; [exact E|]. rewrite Forall_forall in W1, W2. constructor; [exact Hc|exact W1|exact W2|exact W3].
Qed.
End Groups.

(* ------------------------------------------------------------------ averages *)
Lemma fold_xadd l a : fold_left xadd (map Fin l) (Fin a) = Fin (a + qsum (fun x => x) l)%Qc.
Proof. revert a; induction l as [|x l IH]; intros a; cbn [map fold_left xadd]; [cbn; f_equal; ring|]. rewrite IH, qsum_cons. f_equal. ring. Qed.
Lemma qc_nat_nz n : 0 < n -> qc_nat n <> 0%Qc.
Proof. intros H E. assert (X := qc_nat_pos n H). rewrite E in X. qclra. Qed.
Lemma xmean_ok l : l <> [] -> xmean (map Fin l) = Fin (avg l).
Proof.
  intros H. unfold xmean. rewrite fold_xadd, map_length. cbn [xdiv]. destruct (qceqb (qc_nat (length l)) 0%Qc) as [X|_].
  - exfalso. revert X. apply qc_nat_nz. destruct l; [contradiction|cbn; lia].
  - f_equal. unfold avg. replace (0 + qsum (fun x => x) l)%Qc with (qsum (fun x => x) l) by ring. reflexivity.
Qed.
Lemma fold_xsq l c a : fold_left (fun a x => xadd a (xmul (xsub x (Fin c)) (xsub x (Fin c)))) (map Fin l) (Fin a) = Fin (a + qsum (fun x => (x - c) * (x - c)) l)%Qc.
Proof. revert a; induction l as [|x l IH]; intros a; cbn [map fold_left xadd xmul xsub xneg]; [cbn; f_equal; ring|]. rewrite IH, qsum_cons. f_equal. unfold Qcminus. ring. Qed.
Lemma xerr_ok sq l : l <> [] -> xerr sq (map Fin l) (Fin (avg l)) = Fin (err sq l).
Proof.
  intros H. unfold xerr. rewrite fold_xsq, map_length. replace (0 + qsum (fun x => (x - avg l) * (x - avg l)) l)%Qc with (qsum (fun x => (x - avg l) * (x - avg l)) l)%Qc by ring.
  cbn [xsqrt]. destruct (qc_lt (qsum (fun x => (x - avg l) * (x - avg l)) l)%Qc 0%Qc) eqn:E.
  { exfalso. apply qc_lt_spec in E. assert (X := qsum_nonneg (fun x => (x - avg l) * (x - avg l))%Qc l). assert (Y : (0 <= qsum (fun x => (x - avg l) * (x - avg l)) l)%Qc).
    { apply X. intros x _. set (a := (x - avg l)%Qc). clearbody a. qcnra. } qclra. }
  cbn [xdiv]. destruct (qceqb (qc_nat (length l)) 0%Qc) as [X|_]; [|reflexivity].
  exfalso. revert X. apply qc_nat_nz. destruct l; [contradiction|cbn; lia].
Qed.

(* ------------------------------------------------------------------ pruning *)
Section Fit.
Variables (sq : Qc -> Qc) (solver : nat -> list xf -> list xf -> list Qc -> list xf) (mthr : Qc) (multi0 : nat) (athr : Qc).
Notation group := (list (Qc * Qc)).
Definition fmean (g : group) : xf := Fin (gmean g).
Definition fsig (g : group) : xf := Fin (avg (map snd g)).
Definition fme (g : group) : xf := Fin (err sq (map fst g)).
Definition fse (g : group) : xf := Fin (err sq (map snd g)).
Definition of_rows (s : list Qc) (rows : list (group * xf)) : res :=
  mkRes (map (fun r => fmean (fst r)) rows) (map (fun r => fsig (fst r)) rows) (map (fun r => fme (fst r)) rows) (map (fun r => fse (fst r)) rows)
        (map snd rows) (map (fun r => interp s (gmean (fst r))) rows).

Lemma merged_ok size : forall gs r, Forall (fun g => g <> []) gs ->
  fold_left (merged sq multi0 size) (map (map F2) gs) r =
  let acc := filter (accepted (multi multi0) size) gs in
  mkRes (r_mean r ++ map fmean acc) (r_sigma r ++ map fsig acc) (r_merr r ++ map fme acc) (r_serr r ++ map fse acc) (r_amp r) (r_height r).
Proof using.
  induction gs as [|g gs IH]; intros r Hne; cbn [map fold_left filter].
  - cbn [map]. rewrite !app_nil_r. destruct r; reflexivity.
  - inversion Hne as [|? ? Hg Hne']; subst. rewrite IH by exact Hne'. cbv zeta.
    assert (Em : map fst (map F2 g) = map Fin (map fst g)) by (rewrite !map_map; reflexivity). assert (Es : map snd (map F2 g) = map Fin (map snd g)) by (rewrite !map_map; reflexivity).
    assert (N1 : map fst g <> []) by (destruct g; [contradiction|discriminate]). assert (N2 : map snd g <> []) by (destruct g; [contradiction|discriminate]).
    unfold merged, accepted. rewrite map_length, Em, Es, !xmean_ok by assumption. fold (gmean g). cbn [xlt].
    destruct (Nat.ltb_spec (length g) (multi multi0)), (Nat.leb_spec (multi multi0) (length g)); try lia; cbn [andb]; [reflexivity|].
    destruct (qc_lt (gmean g) 0%Qc); cbn [negb andb orb]; [reflexivity|]. destruct (qc_lt (qc_nat (size - 1)) (gmean g)); cbn [negb]; [reflexivity|].
    cbn [r_mean r_sigma r_merr r_serr r_amp r_height map]. rewrite (xerr_ok sq (map snd g) N2). assert (X := xerr_ok sq (map fst g) N1). fold (gmean g) in X. rewrite X. rewrite <- !app_assoc. reflexivity.
Qed.

Lemma height_ok s q : (0 <= q)%Qc -> (q <= qc_nat (length s - 1))%Qc -> 0 < length s ->
  height s (Fin q) = if qc_eqb q (qc_nat (length s - 1)) then Throw UserExn else Ok (interp s q).
Proof using.
  intros H0 H1 Hl. unfold height. cbn [xlt]. destruct (qc_lt q 0%Qc) eqn:E; [apply qc_lt_spec in E; exfalso; qclra|]. cbn [xadd xlt].
  destruct (qc_lt (qc_nat (length s)) (q + 1)%Qc) eqn:E1.
  { exfalso. apply qc_lt_spec in E1. replace (length s) with (S (length s - 1)) in E1 at 1 by lia. rewrite qc_nat_S in E1. qclra. }
  cbn [obind]. destruct (qfloor_spec q H0) as [F1 F2']. destruct (qceqb q (qc_nat (length s - 1))) as [->|Hne].
  - destruct (Nat.leb_spec (length s - 1) (qfloor (qc_nat (length s - 1)))) as [_|H]; [reflexivity|]. exfalso. apply qc_nat_lt in H. apply qc_nat_lt in H. apply qc_nat_lt in F2'. lia.
  - destruct (Nat.leb_spec (length s - 1) (qfloor q)) as [H|H].
    + exfalso. apply qc_nat_le in H. apply Hne. qclra.
    + rewrite (idx_ok s (qfloor q) 0%Qc), (idx_ok s (qfloor q + 1) 0%Qc) by lia. cbn [obind]. f_equal. unfold interp. ring.
Qed.

Lemma traverse_throw {A B} (f : A -> outcome B) l : (forall a, In a l -> f a = Throw UserExn \/ exists b, f a = Ok b) -> (exists a, In a l /\ f a = Throw UserExn) -> traverse f l = Throw UserExn.
Proof using.
  induction l as [|a l IH]; intros H (b & Hb & E); [destruct Hb|]. cbn [traverse]. destruct (H a (or_introl eq_refl)) as [Ea|(v & Ea)]; rewrite Ea; [reflexivity|]. cbn [obind].
  destruct Hb as [->|Hb]; [congruence|]. rewrite IH; [reflexivity|intros; apply H; right; assumption|exists b; split; assumption].
Qed.

Definition del {A} (l : list A) (i : nat) : list A := firstn i l ++ skipn (S i) l.
Lemma erase_ok {A B} (f : A -> B) l i : i < length l -> erase (map f l) i = Ok (map f (del l i)).
Proof using. intros H. unfold erase, del. rewrite map_length. destruct (Nat.ltb_spec i (length l)); [|lia]. rewrite map_app, firstn_map, skipn_map. reflexivity. Qed.
Lemma subseq_refl {A} (l : list A) : subseq l l.
Proof using. induction l; constructor; assumption. Qed.
Lemma subseq_trans {A} (a b c : list A) : subseq a b -> subseq b c -> subseq a c.
Proof using. intros H1 H2. revert a H1. induction H2; intros a H1; [exact H1| |]. - inversion H1; subst; constructor; apply IHsubseq; assumption. - constructor. apply IHsubseq, H1. Qed.
Lemma subseq_del {A} (l : list A) i : subseq (del l i) l.
Proof using. revert i; induction l as [|a l IH]; intros [|i]; unfold del; cbn; try (constructor; fail). - constructor. apply subseq_refl. - constructor. apply (IH i). Qed.
Lemma del_length {A} (l : list A) i : i < length l -> length (del l i) = length l - 1.
Proof using. intros H. unfold del. rewrite app_length, firstn_length, skipn_length. lia. Qed.
Lemma subseq_length {A} (a b : list A) : subseq a b -> length a <= length b.
Proof using. induction 1; simpl; lia. Qed.
Lemma subseq_map {A B} (f : A -> B) a b : subseq a b -> subseq (map f a) (map f b).
Proof using. induction 1; simpl; constructor; assumption. Qed.

Lemma prune_pass_ok s : forall n i rows, length rows - i <= n ->
  exists rows', prune_pass athr n i (of_rows s rows) = Ok (of_rows s rows') /\ subseq rows' rows /\
    ((exists j, i <= j < length rows /\ xlt (nth j (map snd rows) NaN) (Fin athr) = true) -> length rows' < length rows).
Proof using.
  induction n as [|n IH]; intros i rows Hn; cbn [prune_pass].
  - exists rows. split; [reflexivity|]. split; [apply subseq_refl|]. intros (j & Hj & _). lia.
  - cbn [of_rows r_amp]. rewrite map_length. destruct (Nat.ltb_spec i (length rows)) as [Hi|Hi].
    2:{ exists rows. split; [reflexivity|]. split; [apply subseq_refl|]. intros (j & Hj & _). lia. }
    rewrite (idx_ok (map snd rows) i NaN) by (rewrite map_length; exact Hi). cbn [obind]. destruct (xlt (nth i (map snd rows) NaN) (Fin athr)) eqn:E.
    + cbn [of_rows r_mean r_merr r_sigma r_serr r_amp r_height]. rewrite !erase_ok by exact Hi. cbn [obind].
      destruct (IH (S i) (del rows i)) as (rows' & E' & Hs & _); [rewrite del_length by exact Hi; lia|]. exists rows'. split; [exact E'|].
      split; [eapply subseq_trans; [exact Hs|apply subseq_del]|]. intros _. apply subseq_length in Hs. rewrite del_length in Hs by exact Hi. lia.
    + destruct (IH (S i) rows) as (rows' & E' & Hs & Hd); [lia|]. exists rows'. split; [exact E'|]. split; [exact Hs|].
      intros (j & Hj & Hb). apply Hd. exists j. split; [|exact Hb]. destruct (Nat.eq_dec j i) as [->|]; [congruence|lia].
Qed.

Hypothesis Hsolver : forall k m sg h, length sg = length m -> length h = length m -> length (solver k m sg h) = length m.
Definition resolved (k : nat) (r : res) : Prop := r_amp r = solver k (r_mean r) (r_sigma r) (r_height r).
Lemma set_amp_rows s k rows : exists rows', set_amp (of_rows s rows) (solver k (r_mean (of_rows s rows)) (r_sigma (of_rows s rows)) (r_height (of_rows s rows))) = of_rows s rows' /\
  map fst rows' = map fst rows /\ resolved k (of_rows s rows').
Proof using Hsolver.
  set (a := solver _ _ _ _). assert (Ha : length a = length rows) by (unfold a; rewrite Hsolver; cbn [of_rows r_mean r_sigma r_height]; rewrite !map_length; reflexivity).
  exists (List.combine (map fst rows) a).
  assert (M1 : map fst (List.combine (map fst rows) a) = map fst rows). { clearbody a. revert a Ha. induction rows as [|r rows IH]; intros [|b a] Ha; try discriminate; [reflexivity|]. cbn in *. f_equal. apply IH. lia. }
  assert (M2 : map snd (List.combine (map fst rows) a) = a). { clearbody a. clear M1. revert a Ha. induction rows as [|r rows IH]; intros [|b a] Ha; try discriminate; [reflexivity|]. cbn in *. f_equal. apply IH. lia. }
  assert (M3 : forall B (f : group -> B), map (fun r => f (fst r)) (List.combine (map fst rows) a) = map (fun r => f (fst r)) rows).
  { intros B f. rewrite <- (map_map fst f), <- (map_map fst f). rewrite M1. reflexivity. }
  assert (E : set_amp (of_rows s rows) a = of_rows s (List.combine (map fst rows) a)).
  { unfold set_amp, of_rows. cbn [r_mean r_sigma r_merr r_serr r_height]. rewrite M2. rewrite (M3 _ fmean), (M3 _ fsig), (M3 _ fme), (M3 _ fse), (M3 _ (fun g => interp s (gmean g))). reflexivity. }
  split; [exact E|]. split; [exact M1|]. unfold resolved. rewrite <- E. reflexivity.
Qed.

Lemma prune_ok s : forall fuel k rows, length rows < fuel -> resolved k (of_rows s rows) ->
  exists rows' k', prune solver athr fuel (S k) (of_rows s rows) = Some (Ok (of_rows s rows')) /\ subseq (map fst rows') (map fst rows) /\
    hits_below athr (of_rows s rows') = false /\ resolved k' (of_rows s rows').
Proof using Hsolver.
  induction fuel as [|fuel IH]; intros k rows Hf Hr; [lia|]. cbn [prune]. destruct (hits_below athr (of_rows s rows)) eqn:Hb.
  - unfold hits_below in Hb. apply existsb_exists in Hb. destruct Hb as (a & Ha & Hlt). cbn [of_rows r_amp] in Ha. destruct (In_nth _ _ NaN Ha) as (j & Hj & Ej). rewrite map_length in Hj.
    destruct (prune_pass_ok s (length (r_amp (of_rows s rows))) 0 rows) as (rows1 & E1 & Hs1 & Hd1); [cbn [of_rows r_amp]; rewrite map_length; lia|]. rewrite E1.
    destruct (set_amp_rows s (S k) rows1) as (rows2 & E2 & Hm2 & Hr2). rewrite E2.
    assert (Hlen : length rows2 = length rows1) by (rewrite <- (map_length fst rows2), Hm2, map_length; reflexivity).
    destruct (IH (S k) rows2) as (rows' & k' & E' & Hs' & Hb' & Hr'); [|exact Hr2|].
    + assert (length rows1 < length rows) by (apply Hd1; exists j; split; [lia|rewrite Ej; exact Hlt]). lia.
    + exists rows', k'. split; [exact E'|]. split; [|split; assumption]. eapply subseq_trans; [exact Hs'|]. rewrite Hm2. apply subseq_map, Hs1.
  - exists rows, k. split; [reflexivity|]. split; [apply subseq_refl|]. split; assumption.
Qed.

Theorem run_ok s : (forall i, 1 <= i < length s - 1 -> nth i s 0%Qc <> 0%Qc) ->
  exists set gs, Permutation set (estimates sq s (range 1 (length s - 1))) /\ StronglySorted leq set /\ grouping mthr set gs /\
    let acc := filter (accepted (multi multi0) (length s)) gs in
    forall fuel, length acc < fuel ->
    ((exists g, In g acc /\ gmean g = qc_nat (length s - 1)) -> run_fitter sq solver mthr multi0 athr fuel s = Some (Throw UserExn)) /\
    ((forall g, In g acc -> gmean g <> qc_nat (length s - 1)) ->
       exists rows k, run_fitter sq solver mthr multi0 athr fuel s = Some (Ok (of_rows s rows, repeat (Fin 0%Qc) (length rows))) /\
         subseq (map fst rows) acc /\ hits_below athr (of_rows s rows) = false /\ resolved k (of_rows s rows)).
Proof using Hsolver.
  intros Hnz. destruct (all_means_ok sq s Hnz) as (set & E & Hs & Hp). destruct (create_merge_ok mthr set) as (gs & Eg & Hg).
  exists set, gs. split; [exact Hp|]. split; [exact Hs|]. split; [exact Hg|]. intros acc fuel Hf.
  unfold run_fitter. rewrite E, Eg. unfold calc_merged. rewrite merged_ok by (apply Forall_forall; apply Hg). cbv zeta. fold acc. cbn [r_mean r_sigma r_merr r_serr r_amp r_height app].
  unfold amplitudes. cbn [r_mean r_sigma r_merr r_serr r_amp r_height].
  assert (Hacc : forall g, In g acc -> (0 <= gmean g)%Qc /\ (gmean g <= qc_nat (length s - 1))%Qc).
  { intros g Hin. apply filter_In in Hin. destruct Hin as [_ Ha]. unfold accepted in Ha. apply andb_true_iff in Ha. destruct Ha as [Ha A2]. apply andb_true_iff in Ha. destruct Ha as [_ A1].
    apply negb_true_iff in A1, A2. apply qc_lt_false in A1, A2. split; assumption. }
  assert (Hl : acc <> [] -> 0 < length s).
  { intros Hne. destruct (length s) eqn:El; [|lia]. exfalso. apply Hne. assert (set = []). { apply Permutation_nil. symmetry. etransitivity; [exact Hp|]. apply Permutation_refl. } subst set.
    assert (X := gr_split _ _ _ Hg). unfold acc. destruct gs as [|g gs]; [reflexivity|]. exfalso. assert (Y := gr_nonempty _ _ _ Hg g (or_introl eq_refl)). destruct g; [contradiction|discriminate]. }
  assert (Hh : forall g, In g acc -> height s (fmean g) = if qc_eqb (gmean g) (qc_nat (length s - 1)) then Throw UserExn else Ok (interp s (gmean g))).
  { intros g Hin. destruct (Hacc g Hin). apply height_ok; try assumption. apply Hl. intros X. rewrite X in Hin. destruct Hin. }
  split.
  - intros (g & Hin & Eg'). rewrite traverse_throw; [reflexivity| |].
    + intros a Ha. apply in_map_iff in Ha. destruct Ha as (g' & <- & Hin'). rewrite Hh by exact Hin'. destruct (qc_eqb _ _); [left; reflexivity|right; eexists; reflexivity].
    + exists (fmean g). split; [apply in_map, Hin|]. rewrite Hh by exact Hin. destruct (qceqb (gmean g) (qc_nat (length s - 1))); [reflexivity|contradiction].
  - intros Hno. rewrite (traverse_ok (height s) (fun x => match x with Fin q => interp s q | _ => 0%Qc end)).
    2:{ intros a Ha. apply in_map_iff in Ha. destruct Ha as (g' & <- & Hin'). rewrite Hh by exact Hin'. destruct (qceqb (gmean g') (qc_nat (length s - 1))) as [X|_]; [exfalso; apply (Hno g' Hin' X)|reflexivity]. }
    rewrite map_map. cbn [fmean].
    set (rows0 := map (fun g => (g, NaN)) acc). assert (M0 : map fst rows0 = acc) by (unfold rows0; rewrite map_map; apply map_id).
    destruct (set_amp_rows s 0 rows0) as (rows1 & E1 & Hm1 & Hr1).
    assert (Er : mkRes (map fmean acc) (map fsig acc) (map fme acc) (map fse acc) (solver 0 (map fmean acc) (map fsig acc) (map (fun x => interp s (gmean x)) acc)) (map (fun x => interp s (gmean x)) acc) = of_rows s rows1).
    { rewrite <- E1. unfold set_amp, of_rows, rows0. cbn [r_mean r_sigma r_merr r_serr r_height]. rewrite !map_map. cbn [fst]. reflexivity. }
    rewrite Er. destruct (prune_ok s fuel 0 rows1) as (rows' & k' & E' & Hs' & Hb' & Hr'); [|exact Hr1|].
    { rewrite <- (map_length fst rows1), Hm1, M0. exact Hf. }
    rewrite E'. exists rows', k'. split; [cbn [of_rows r_amp]; rewrite map_length; reflexivity|]. split; [rewrite Hm1, M0 in Hs'; exact Hs'|]. split; assumption.
Qed.
End Fit.
