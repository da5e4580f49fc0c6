(** Segmentation2D::mergeDenseParts *)
From Coq Require Import QArith Qcanon Permutation Sorted Lqa.
From Verif Require Import Base QcUtil Solver_Model Solver_Proofs SEG_Model SEG_Spec SEG_Simple SEG_Split SEG_Run SEG_Tag.
Import SEG_Model.
Local Open Scope nat_scope.

Section A.
Variable cf : cfg.
Lemma close_near a b : close_by (f_vrad cf) a b = if near cf a b then 1 else 0.
Proof. unfold close_by, near, rad2, qc_lt. destruct (Qclt_le_dec (dist2 a b) (f_vrad cf * f_vrad cf)); reflexivity. Qed.
Definition full (g : list clu) : Prop := Forall (fun c => hs c <> []) g.
Lemma full_nth g j c : full g -> nth_error g j = Some c -> hs c <> []. Proof. intros F E. unfold full in F. rewrite Forall_forall in F. apply F, (nth_error_In _ _ E). Qed.
Lemma skipn_nth {T} : forall k (l : list T) x, nth_error l k = Some x -> skipn k l = x :: skipn (S k) l.
Proof. induction k as [|k IH]; intros [|y l] x E; try discriminate; cbn [nth_error] in E; [assert (y = x) by congruence; subst; reflexivity|]. cbn [skipn]. rewrite (IH l x E). destruct l; reflexivity. Qed.
Lemma around_ok g i p : full g -> exists l, around cf i p g = Ok (count_ends (f_vrad cf) g i p, l) /\ (forall j, In j l -> exists d, nth_error g j = Some d /\ em d = false) /\ (l = [] -> count_ends (f_vrad cf) g i p <= 1).
Proof.
  intros F. unfold around, count_ends.
  set (W := fun '(j, c) => if em c then 0 else if j =? i then (if 1 <? length (hs c) then close_by (f_vrad cf) (first_of c) (last_of c) else 0) else close_by (f_vrad cf) p (first_of c) + (if 1 <? length (hs c) then close_by (f_vrad cf) p (last_of c) else 0)).
  destruct (for_range_inv (fun k (s : nat * list nat) => fst s + list_sum (map W (combine (seq k (length g - k)) (skipn k g))) = list_sum (map W (combine (seq 0 (length g)) g)) /\
     (forall j, In j (snd s) -> exists d, nth_error g j = Some d /\ em d = false) /\ (snd s = [] -> fst s <= (if i <? k then 1 else 0))) (around_one cf i p g) 0 (length g) (0, [])) as ([n l] & E & Q1 & Q2 & Q3); [lia| | |].
  - cbn [fst snd]. rewrite Nat.sub_0_r. cbn [skipn]. split; [reflexivity|]. split; [intros j []|]. intros _. lia.
  - intros j [n l] Hj (Q1 & Q2 & Q3). cbn [fst snd] in *. destruct (nth_error g j) as [c|] eqn:Ej; [|apply nth_error_None in Ej; lia]. pose proof (full_nth g j c F Ej) as N.
    rewrite (skipn_nth j g c Ej) in Q1. replace (length g - j) with (S (length g - S j)) in Q1 by lia. cbn [seq combine map] in Q1. change (list_sum (?a :: ?b)) with (a + list_sum b) in Q1.
    unfold around_one, idx. rewrite Ej. cbn [obind]. unfold W in Q1 at 1. destruct (em c) eqn:Em.
    + exists (n, l). split; [reflexivity|]. cbn [fst snd]. split; [lia|]. split; [exact Q2|]. intros X. specialize (Q3 X). destruct (Nat.ltb_spec i j), (Nat.ltb_spec i (S j)); lia.
    + rewrite startp_ok, endp_ok by exact N. cbn [obind]. rewrite (Nat.eqb_sym j i) in Q1. destruct (Nat.eqb_spec i j) as [->|Nij].
      * rewrite close_near in Q1. unfold near in Q1. eexists. split; [reflexivity|]. destruct (1 <? length (hs c)), (qc_lt (dist2 (first_of c) (last_of c)) (rad2 cf)); cbn [andb fst snd] in *; (split; [lia|]); (split; [exact Q2|]); intros X; specialize (Q3 X); rewrite Nat.ltb_irrefl in Q3; rewrite (proj2 (Nat.ltb_lt j (S j)) (le_n _)); lia.
      * rewrite !close_near in Q1. eexists. split; [reflexivity|]. cbn [fst snd]. split; [destruct (1 <? length (hs c)), (near cf p (first_of c)), (near cf p (last_of c)); cbn [andb] in *; lia|].
        assert (Z : near cf p (first_of c) || ((1 <? length (hs c)) && near cf p (last_of c)) = false -> (if near cf p (first_of c) then 1 else 0) + (if (1 <? length (hs c)) && near cf p (last_of c) then 1 else 0) = 0).
        { intros X. apply orb_false_iff in X as [-> ->]. reflexivity. }
        destruct (near cf p (first_of c) || ((1 <? length (hs c)) && near cf p (last_of c))).
        -- split; [intros k Ik; apply in_app_or in Ik as [Ik|[<-|[]]]; [auto|eauto]|]. intros X. destruct l; discriminate.
        -- split; [exact Q2|]. intros X. specialize (Q3 X). specialize (Z eq_refl). destruct (Nat.ltb_spec i j), (Nat.ltb_spec i (S j)); lia.
  - exists l. cbn [fst snd] in *. rewrite Nat.sub_diag in Q1. cbn [seq combine map list_sum fold_right] in Q1. rewrite E. split; [f_equal; f_equal; lia|]. split; [exact Q2|]. intros X. specialize (Q3 X). destruct (i <? length g); lia.
Qed.

Definition goodbest (g : list clu) (b : best) : Prop :=
  (b_idx b = None -> b_max b = f_minN cf) /\ f_minN cf <= b_max b /\
  (forall i, b_idx b = Some i -> f_minN cf < b_max b /\ (exists c, nth_error g i = Some c /\ em c = false) /\ (forall j, In j (b_list b) -> exists d, nth_error g j = Some d /\ em d = false) /\ (b_list b = [] -> b_max b <= 1)).
Lemma better_good g b i r : goodbest g b -> (exists c, nth_error g i = Some c /\ em c = false) -> (forall j, In j (snd r) -> exists d, nth_error g j = Some d /\ em d = false) -> (snd r = [] -> fst r <= 1) -> goodbest g (better b i r) /\ fst r <= b_max (better b i r) /\ b_max b <= b_max (better b i r).
Proof.
  intros (B1 & B2 & B3) C J Z. unfold better. destruct (Nat.ltb_spec (b_max b) (fst r)) as [L|L]; cbn [b_max b_idx b_list].
  - split; [|lia]. split; [discriminate|]. cbn [b_max b_idx b_list]. split; [lia|]. intros i' X. assert (i' = i) by congruence. subst. split; [lia|]. auto.
  - split; [split; [exact B1|split; [exact B2|exact B3]]|lia].
Qed.
Lemma look_ok g : full g -> exists bs be, look cf g = Ok (bs, be) /\ goodbest g bs /\ goodbest g be /\
  forall i c, nth_error g i = Some c -> em c = false -> (dstart c = true -> count_ends (f_vrad cf) g i (first_of c) <= b_max bs) /\ (1 < length (hs c) -> dend c = true -> count_ends (f_vrad cf) g i (last_of c) <= b_max be).
Proof.
  intros F. unfold look.
  destruct (for_range_inv (fun k (s : best * best) => goodbest g (fst s) /\ goodbest g (snd s) /\ forall i c, i < k -> nth_error g i = Some c -> em c = false -> (dstart c = true -> count_ends (f_vrad cf) g i (first_of c) <= b_max (fst s)) /\ (1 < length (hs c) -> dend c = true -> count_ends (f_vrad cf) g i (last_of c) <= b_max (snd s)))
    (fun s i => do c <- idx g i; if em c then Ok s else
      do bs <- (if dstart c then do p <- startp c; do r <- around cf i p g; Ok (better (fst s) i r) else Ok (fst s));
      do be <- (if (1 <? length (hs c)) && dend c then do p <- endp c; do r <- around cf i p g; Ok (better (snd s) i r) else Ok (snd s)); Ok (bs, be)) 0 (length g) (Best (f_minN cf) None [], Best (f_minN cf) None [])) as ([bs be] & E & G1 & G2 & M); [lia| | |].
  - assert (G0 : goodbest g (Best (f_minN cf) None [])) by (split; [reflexivity|]; split; [cbn; lia|discriminate]). cbn [fst snd]. split; [exact G0|]. split; [exact G0|]. intros; lia.
  - intros i [bs be] Hi (G1 & G2 & M). cbn [fst snd] in *. destruct (nth_error g i) as [c|] eqn:Ei; [|apply nth_error_None in Ei; lia]. pose proof (full_nth g i c F Ei) as N. unfold idx. rewrite Ei. cbn [obind].
    assert (St0 : forall bs' be', b_max bs <= b_max bs' -> b_max be <= b_max be' -> forall i' c', i' < i -> nth_error g i' = Some c' -> em c' = false -> (dstart c' = true -> count_ends (f_vrad cf) g i' (first_of c') <= b_max bs') /\ (1 < length (hs c') -> dend c' = true -> count_ends (f_vrad cf) g i' (last_of c') <= b_max be')).
    { intros bs' be' L1 L2 i' c' Li E' Em. destruct (M i' c' Li E' Em) as (A & B). split; [intros X; specialize (A X); lia|intros X Y; specialize (B X Y); lia]. }
    destruct (em c) eqn:Em.
    + exists (bs, be). split; [reflexivity|]. cbn [fst snd]. split; [exact G1|]. split; [exact G2|]. intros i' c' Li E' Em'. destruct (Nat.eq_dec i' i) as [->|Ne]; [congruence|]. apply (M i' c'); auto; lia.
    + assert (Ic : exists c, nth_error g i = Some c /\ em c = false) by eauto.
      assert (Xs : exists bs', (if dstart c then do p <- startp c; do r <- around cf i p g; Ok (better bs i r) else Ok bs) = Ok bs' /\ goodbest g bs' /\ b_max bs <= b_max bs' /\ (dstart c = true -> count_ends (f_vrad cf) g i (first_of c) <= b_max bs')).
      { destruct (dstart c); [|exists bs; split; [reflexivity|]; split; [exact G1|]; split; [lia|discriminate]]. rewrite startp_ok by exact N. cbn [obind]. destruct (around_ok g i (first_of c) F) as (l & E & J & Z). rewrite E. cbn [obind]. destruct (better_good g bs i (count_ends (f_vrad cf) g i (first_of c), l) G1 Ic J Z) as (B1 & B2 & B3). cbn [fst] in B2. eauto 8. }
      assert (Xe : exists be', (if (1 <? length (hs c)) && dend c then do p <- endp c; do r <- around cf i p g; Ok (better be i r) else Ok be) = Ok be' /\ goodbest g be' /\ b_max be <= b_max be' /\ (1 < length (hs c) -> dend c = true -> count_ends (f_vrad cf) g i (last_of c) <= b_max be')).
      { destruct ((1 <? length (hs c)) && dend c) eqn:Cn; [|exists be; split; [reflexivity|]; split; [exact G2|]; split; [lia|]; intros X Y; apply Nat.ltb_lt in X; rewrite X, Y in Cn; discriminate]. rewrite endp_ok by exact N. cbn [obind]. destruct (around_ok g i (last_of c) F) as (l & E & J & Z). rewrite E. cbn [obind]. destruct (better_good g be i (count_ends (f_vrad cf) g i (last_of c), l) G2 Ic J Z) as (B1 & B2 & B3). cbn [fst] in B2. eauto 8. }
      destruct Xs as (bs' & -> & S1 & S2 & S3). cbn [obind]. destruct Xe as (be' & -> & E1 & E2 & E3). cbn [obind]. exists (bs', be'). split; [reflexivity|]. cbn [fst snd]. split; [exact S1|]. split; [exact E1|].
      intros i' c' Li E' Em'. destruct (Nat.eq_dec i' i) as [->|Ne]; [assert (c' = c) by congruence; subst c'; auto|]. apply (St0 bs' be' S2 E2 i' c'); auto; lia.
  - exists bs, be. split; [exact E|]. cbn [fst snd] in *. split; [exact G1|]. split; [exact G2|]. intros i c Ei Em. apply (M i c); auto. apply nth_error_Some. congruence.
Qed.
Lemma chosen_none g bs be : goodbest g bs -> goodbest g be -> chosen (bs, be) = None -> b_max bs = f_minN cf /\ b_max be = f_minN cf.
Proof. intros (A & _) (B & _). unfold chosen. cbn [fst snd]. destruct (b_idx bs), (b_idx be); try discriminate; [destruct (_ <? _); discriminate|]. auto. Qed.
Lemma chosen_some g bs be i l : goodbest g bs -> goodbest g be -> 1 <= f_minN cf -> chosen (bs, be) = Some (i, l) -> (exists c, nth_error g i = Some c /\ em c = false) /\ l <> [] /\ (forall j, In j l -> exists d, nth_error g j = Some d /\ em d = false).
Proof.
  intros (_ & A2 & A) (_ & B2 & B) M. unfold chosen. cbn [fst snd]. intros E.
  assert (K : (b_idx bs = Some i /\ l = b_list bs) \/ (b_idx be = Some i /\ l = b_list be)) by (destruct (b_idx bs), (b_idx be); try discriminate; try (destruct (_ <? _)); injection E as <- <-; auto).
  destruct K as [[K ->]|[K ->]]; [destruct (A i K) as (A3 & A4 & A5 & A6)|destruct (B i K) as (A3 & A4 & A5 & A6)]; (split; [exact A4|]); (split; [intros X; specialize (A6 X); lia|exact A5]).
Qed.

(** merging *)
Definition same_but_tag (c d : clu) : Prop := hs d = hs c /\ dstart d = dstart c /\ dend d = dend c /\ em d = em c.
Lemma sbt_refl l : Forall2 same_but_tag l l. Proof. induction l; constructor; [repeat split|assumption]. Qed.
Lemma sbt_upd : forall g g1 i c, Forall2 same_but_tag g g1 -> nth_error g1 i = Some c -> Forall2 same_but_tag g (upd g1 i (set_tag true c)).
Proof.
  induction g as [|x g IH]; intros g1 i c F E; inversion F as [|? y ? g1' Fx Fl]; subst; [destruct i; discriminate|]. destruct i as [|i]; cbn [upd nth_error] in *.
  - assert (y = c) by congruence. subst y. constructor; [|exact Fl]. destruct Fx as (A & B & C & D). repeat split; assumption.
  - constructor; [exact Fx|]. apply IH; assumption.
Qed.
Lemma merge_clusters_ok g k k2 idxs : (forall j, In j (k :: k2 :: idxs) -> j < length g) -> exists g1 c, Forall2 same_but_tag g g1 /\ nth_error g1 k = Some c /\
  merge_clusters g (k :: k2 :: idxs) = Ok (firstn k g1 ++ Clu (hs c ++ concat (map hs (filter tag (skipn (S k) g1)))) false (dstart c) (dend c) (em c) :: filter (fun x => negb (tag x)) (skipn (S k) g1), Some k).
Proof.
  intros L. unfold merge_clusters.
  set (body := fun '(g, ok) (i : nat) => if negb ok then Ok (g, ok) else if i <? length g then do c <- idx g i; do g' <- set_idx g i (set_tag true c); Ok (g', true) else Ok (g, false)).
  assert (G : forall l g0, Forall2 same_but_tag g g0 -> (forall j, In j l -> j < length g) -> exists g1, foreach l body (g0, true) = Ok (g1, true) /\ Forall2 same_but_tag g g1).
  { induction l as [|j l IH]; intros g0 F Lj; cbn [foreach]; [exists g0; auto|]. assert (Ll : length g0 = length g) by (clear -F; induction F; cbn; congruence). assert (Hj : j < length g0) by (rewrite Ll; apply Lj; left; reflexivity).
    unfold body at 1. cbn [negb]. rewrite (proj2 (Nat.ltb_lt _ _) Hj). destruct (nth_error g0 j) as [c|] eqn:Ej; [|apply nth_error_None in Ej; lia]. unfold idx. rewrite Ej. cbn [obind]. rewrite set_idx_ok by exact Hj. cbn [obind]. apply IH; [apply sbt_upd; assumption|]. intros i Ii. apply Lj. right. exact Ii. }
  destruct (G (k :: k2 :: idxs) g (sbt_refl g) L) as (g1 & E & F). rewrite E. cbn [obind negb]. assert (Ll : length g1 = length g) by (clear -F; induction F; cbn; congruence).
  destruct (nth_error g1 k) as [c|] eqn:Ek; [|apply nth_error_None in Ek; specialize (L k (or_introl eq_refl)); lia]. exists g1, c. split; [exact F|]. split; [exact Ek|]. unfold idx. rewrite Ek. cbn [obind swallow]. reflexivity.
Qed.
Definition todo (g : list clu) : nat := length (filter (fun c => negb (em c)) g).
Lemma todo_app a b : todo (a ++ b) = todo a + todo b. Proof. unfold todo. rewrite filter_app, app_length. reflexivity. Qed.
Lemma todo_filter f a : todo (filter f a) <= todo a. Proof. unfold todo. induction a as [|x a IH]; cbn; [lia|]. destruct (f x); cbn; destruct (negb (em x)); cbn; lia. Qed.
Lemma todo_sbt g g1 : Forall2 same_but_tag g g1 -> todo g1 = todo g.
Proof. unfold todo. induction 1 as [|x y l l' (_ & _ & _ & E) F IH]; [reflexivity|]. cbn. rewrite E. destruct (negb (em x)); cbn; lia. Qed.
Lemma hits_sbt g g1 : Forall2 same_but_tag g g1 -> map hs g1 = map hs g.
Proof. induction 1 as [|x y l l' (E & _) F IH]; [reflexivity|]. cbn. congruence. Qed.
Lemma filter_hits l : Permutation (concat (map hs (filter tag l)) ++ concat (map hs (filter (fun x => negb (tag x)) l))) (concat (map hs l)).
Proof.
  induction l as [|x l IH]; [constructor|]. cbn [filter map concat]. destruct (tag x); cbn [negb map concat].
  - rewrite <- app_assoc, IH. reflexivity.
  - transitivity (hs x ++ concat (map hs (filter tag l)) ++ concat (map hs (filter (fun x => negb (tag x)) l))); [apply Permutation_app_swap_app|]. rewrite IH. reflexivity.
Qed.
Lemma split_nth {T} (l : list T) k x : nth_error l k = Some x -> l = firstn k l ++ x :: skipn (S k) l.
Proof. intros E. rewrite <- (firstn_skipn k l) at 1. rewrite (skipn_nth k l x E). reflexivity. Qed.

Lemma upd_at {T} (b : list T) x y : forall a k, length a = k -> upd (a ++ x :: b) k y = a ++ y :: b.
Proof. induction a as [|z a IH]; intros k <-; cbn; [reflexivity|]. rewrite (IH _ eq_refl). reflexivity. Qed.
Variable orig : list clu.
(** what the merging preserves *)
Definition made (c : clu) : Prop := (em c = false -> exists o, In o orig /\ hs o = hs c /\ dstart o = dstart c /\ dend o = dend c /\ em o = false) /\ (exists l, incl l orig /\ hs c = concat (map hs l)).
Definition Inv (g : list clu) : Prop := full g /\ Permutation (concat (map hs g)) (concat (map hs orig)) /\ Forall made g.
Lemma made_sbt g g1 : Forall2 same_but_tag g g1 -> Forall made g -> Forall made g1.
Proof.
  induction 1 as [|x y l l' (A & B & C & D) F IH]; intros M; [constructor|]. inversion M as [|? ? (M1 & M2) Ml]; subst. constructor; [|apply IH, Ml]. split; [|rewrite A; exact M2].
  intros Em. rewrite D in Em. rewrite A, B, C. apply M1, Em.
Qed.
Lemma made_concat l : Forall made l -> exists m, incl m orig /\ concat (map hs l) = concat (map hs m).
Proof.
  induction l as [|x l IH]; intros M; [exists []; split; [intros z []|reflexivity]|]. inversion M as [|? ? (_ & mx & I1 & E1) Ml]; subst. destruct (IH Ml) as (m & I2 & E2). exists (mx ++ m). split; [apply incl_app; assumption|]. cbn [map concat]. rewrite E1, E2, map_app, concat_app. reflexivity.
Qed.
Lemma step_ok g i l : Inv g -> (exists c, nth_error g i = Some c /\ em c = false) -> l <> [] -> (forall j, In j l -> exists d, nth_error g j = Some d /\ em d = false) ->
  exists g' k c g2, merge_clusters g (l ++ [i]) = Ok (g', Some k) /\ nth_error g' k = Some c /\ set_idx g' k (set_em c) = Ok g2 /\ Inv g2 /\ todo g2 < todo g.
Proof.
  intros (F & P & M) (ci & Ei & Emi) Nl J. destruct l as [|k l]; [congruence|]. destruct (J k (or_introl eq_refl)) as (d & Ed & Emd).
  assert (K : exists k2 idxs, (k :: l) ++ [i] = k :: k2 :: idxs) by (destruct l; cbn; eauto). destruct K as (k2 & idxs & Ek). rewrite Ek.
  assert (Lt : forall j, In j (k :: k2 :: idxs) -> j < length g). { intros j Ij. rewrite <- Ek in Ij. apply in_app_or in Ij as [Ij|[<-|[]]]; apply nth_error_Some; [destruct (J j Ij) as (dj & -> & _); discriminate|rewrite Ei; discriminate]. }
  destruct (merge_clusters_ok g k k2 idxs Lt) as (g1 & c & Sb & Ec & E). rewrite E.
  set (c2 := Clu (hs c ++ concat (map hs (filter tag (skipn (S k) g1)))) false (dstart c) (dend c) (em c)) in *. set (rest := filter (fun x => negb (tag x)) (skipn (S k) g1)) in *.
  assert (Ll : length g1 = length g) by (clear -Sb; induction Sb; cbn; congruence). assert (Lk : length (firstn k g1) = k) by (apply firstn_length_le; assert (k < length g1) by (apply nth_error_Some; congruence); lia).
  assert (Emc : em c = false). { clear -Sb Ed Emd Ec. revert k Ed Ec. induction Sb as [|x y l l' (_ & _ & _ & D) F IH]; intros k Ed Ec; [destruct k; discriminate|]. destruct k as [|k]; cbn [nth_error] in *; [assert (x = d) by congruence; assert (y = c) by congruence; subst; congruence|]. apply (IH k Ed Ec). }
  assert (Hc : hs c <> []) by (assert (X : In (hs c) (map hs g)) by (rewrite <- (hits_sbt g g1 Sb); apply in_map, (nth_error_In _ _ Ec)); apply in_map_iff in X as (x & <- & X); unfold full in F; rewrite Forall_forall in F; apply F, X).
  assert (En : nth_error (firstn k g1 ++ c2 :: rest) k = Some c2) by (rewrite nth_error_app2 by lia; rewrite Lk, Nat.sub_diag; reflexivity).
  exists (firstn k g1 ++ c2 :: rest), k, c2, (firstn k g1 ++ set_em c2 :: rest). split; [reflexivity|]. split; [exact En|].
  assert (M1 : Forall made g1) by (apply (made_sbt g g1 Sb M)). assert (F1 : full g1). { unfold full in *. rewrite Forall_forall in *. intros x X. assert (Y : In (hs x) (map hs g)) by (rewrite <- (hits_sbt g g1 Sb); apply in_map, X). apply in_map_iff in Y as (y & <- & Y). auto. }
  pose proof (split_nth g1 k c Ec) as Sp. assert (M2 : Forall made (firstn k g1) /\ made c /\ Forall made (skipn (S k) g1)) by (rewrite Sp in M1; apply Forall_app in M1 as [X Y]; inversion Y; subst; auto). destruct M2 as (Ma & Mc & Mb).
  assert (F2 : full (firstn k g1) /\ full (skipn (S k) g1)) by (unfold full in *; rewrite Sp in F1; apply Forall_app in F1 as [X Y]; inversion Y; subst; auto). destruct F2 as (Fa & Fb).
  assert (Sub : forall f, Forall made (filter f (skipn (S k) g1)) /\ full (filter f (skipn (S k) g1))). { unfold full in *. rewrite Forall_forall in Mb, Fb. intros f. rewrite !Forall_forall. split; intros x X; apply filter_In in X as [X _]; auto. }
  split; [|split; [split; [|split]|]].
  - rewrite set_idx_ok by (apply nth_error_Some; congruence). f_equal. apply upd_at. exact Lk.
  - unfold full. apply Forall_app. split; [exact Fa|]. constructor; [|apply Sub]. cbn. destruct (hs c); [congruence|discriminate].
  - rewrite <- P, <- (hits_sbt g g1 Sb). rewrite Sp at 2. rewrite !map_app, !concat_app. apply Permutation_app_head. cbn [map concat]. cbn [hs set_em c2]. rewrite <- app_assoc. apply Permutation_app_head. apply filter_hits.
  - apply Forall_app. split; [exact Ma|]. constructor; [|apply Sub]. split; [discriminate|]. destruct (made_concat (c :: filter tag (skipn (S k) g1))) as (m & I & Em); [constructor; [exact Mc|apply Sub]|]. exists m. split; [exact I|]. exact Em.
  - rewrite <- (todo_sbt g g1 Sb). rewrite Sp at 2. rewrite !todo_app. pose proof (todo_filter (fun x => negb (tag x)) (skipn (S k) g1)) as T. fold rest in T.
    assert (T1 : todo (set_em c2 :: rest) = todo rest) by reflexivity. assert (T2 : todo (c :: skipn (S k) g1) = S (todo (skipn (S k) g1))) by (unfold todo; cbn [filter]; rewrite Emc; reflexivity). rewrite T1, T2. lia.
Qed.
(** no dense vertex is left *)
Definition thinned (g : list clu) : Prop := forall i c, nth_error g i = Some c -> em c = false ->
  (dstart c = true -> count_ends (f_vrad cf) g i (first_of c) <= f_minN cf) /\ (1 < length (hs c) -> dend c = true -> count_ends (f_vrad cf) g i (last_of c) <= f_minN cf).
Lemma merge_dense_ok : 1 <= f_minN cf -> forall k g, todo g <= k -> Inv g -> exists g', (forall n, k < n -> merge_dense cf n g = Some (Ok g')) /\ Inv g' /\ thinned g'.
Proof.
  intros Mn. induction k as [|k IH]; intros g T V.
  all: destruct (look_ok g (proj1 V)) as (bs & be & E & G1 & G2 & M).
  all: destruct (chosen (bs, be)) as [[i l]|] eqn:Ch.
  - destruct (chosen_some g bs be i l G1 G2 Mn Ch) as ((c & Ec & Emc) & _). exfalso. assert (X : In c (filter (fun c => negb (em c)) g)) by (apply filter_In; rewrite Emc; split; [apply (nth_error_In _ _ Ec)|reflexivity]). unfold todo in T. destruct (filter _ g); [destruct X|cbn in T; lia].
  - destruct (chosen_none g bs be G1 G2 Ch) as (X & Y). exists g. split; [|split; [exact V|intros i c Ei Em; rewrite <- X at 1; rewrite <- Y; apply M; assumption]]. intros n Ln. destruct n; [lia|]. cbn [merge_dense]. rewrite E, Ch. reflexivity.
  - destruct (chosen_some g bs be i l G1 G2 Mn Ch) as (Ic & Nl & J). destruct (step_ok g i l V Ic Nl J) as (g' & k' & c & g2 & Em & En & Es & V2 & T2). destruct (IH g2 ltac:(lia) V2) as (g3 & E3 & V3 & Th). exists g3. split; [|split; assumption].
    intros n Ln. destruct n; [lia|]. cbn [merge_dense]. rewrite E, Ch, Em. unfold idx. rewrite En. cbn [obind]. rewrite Es. apply E3. lia.
  - destruct (chosen_none g bs be G1 G2 Ch) as (X & Y). exists g. split; [|split; [exact V|intros i c Ei Em; rewrite <- X at 1; rewrite <- Y; apply M; assumption]]. intros n Ln. destruct n; [lia|]. cbn [merge_dense]. rewrite E, Ch. reflexivity.
Qed.
End A.
