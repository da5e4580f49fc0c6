(** Segmentation2D::tagDenseEnds *)
From Coq Require Import QArith Qcanon Permutation Sorted Lqa.
From Verif Require Import Base QcUtil Solver_Model Solver_Proofs SEG_Model SEG_Spec SEG_Simple SEG_Split SEG_Run.
Import SEG_Model.
Local Open Scope nat_scope.

Lemma startp_ok c : hs c <> [] -> startp c = Ok (first_of c). Proof. unfold startp, first_of. destruct (hs c); [congruence|reflexivity]. Qed.
Lemma endp_ok c : hs c <> [] -> endp c = Ok (last_of c).
Proof. intros N. unfold endp, last_of. destruct (rev (hs c)) eqn:E; [|reflexivity]. apply (f_equal (@rev hit)) in E. rewrite rev_involutive in E. cbn in E. congruence. Qed.
Section A.
Variable cf : cfg.
Lemma near_spec a b : near cf a b = true <-> (dist2 a b < f_vrad cf * f_vrad cf)%Qc. Proof. unfold near, rad2. apply qc_lt_spec. Qed.
Lemma near_sym a b : near cf a b = near cf b a. Proof. unfold near. rewrite dist2_sym. reflexivity. Qed.

(** all but the two flags *)
Definition core (c d : clu) : Prop := hs d = hs c /\ tag d = tag c /\ em d = em c.
Variable g0 : list clu.
Hypothesis Ne : Forall (fun c => hs c <> []) g0.
Definition sound (g : list clu) : Prop := length g = length g0 /\ forall j c, nth_error g0 j = Some c -> exists d, nth_error g j = Some d /\ core c d /\
  (dstart d = true -> dstart c = true \/ end_near (f_vrad cf) g0 j (first_of c)) /\ (dend d = true -> dend c = true \/ end_near (f_vrad cf) g0 j (last_of c)) /\ (dstart c = true -> dstart d = true) /\ (dend c = true -> dend d = true).
(** the flags cluster i gives to cluster j *)
Definition given (g : list clu) (i j : nat) : Prop := forall ci cj d, nth_error g0 i = Some ci -> nth_error g0 j = Some cj -> nth_error g j = Some d ->
  (near cf (first_of cj) (first_of ci) || near cf (first_of cj) (last_of ci) = true -> dstart d = true) /\
  (near cf (last_of cj) (first_of ci) || near cf (last_of cj) (last_of ci) = true -> dend d = true).
Definition grows (g g' : list clu) : Prop := forall j d, nth_error g j = Some d -> exists d', nth_error g' j = Some d' /\ (dstart d = true -> dstart d' = true) /\ (dend d = true -> dend d' = true).
Lemma grows_refl g : grows g g. Proof. intros j d E. exists d. auto. Qed.
Lemma grows_trans a b c : grows a b -> grows b c -> grows a c.
Proof. intros A B j d E. destruct (A j d E) as (d1 & E1 & X1 & Y1). destruct (B j d1 E1) as (d2 & E2 & X2 & Y2). exists d2. auto. Qed.
Lemma given_grows g g' i j : length g = length g' -> grows g g' -> given g i j -> given g' i j.
Proof.
  intros L Gr G ci cj d Ei Ej Ed. destruct (nth_error g j) as [d0|] eqn:E0; [|apply nth_error_None in E0; assert (nth_error g' j <> None) by congruence; apply nth_error_Some in H; lia].
  destruct (Gr j d0 E0) as (d' & E' & X & Y). assert (d' = d) by congruence. subst d'. destruct (G ci cj d0 Ei Ej E0) as (P & Q). auto.
Qed.
Lemma ne_of j c : nth_error g0 j = Some c -> hs c <> []. Proof. intros E. rewrite Forall_forall in Ne. apply Ne, (nth_error_In _ _ E). Qed.
Lemma core_ends c d : hs d = hs c -> first_of d = first_of c /\ last_of d = last_of c. Proof. unfold first_of, last_of. intros ->. auto. Qed.
Lemma sound_upd g j c d : sound g -> nth_error g0 j = Some c -> core c d ->
  (dstart d = true -> dstart c = true \/ end_near (f_vrad cf) g0 j (first_of c)) -> (dend d = true -> dend c = true \/ end_near (f_vrad cf) g0 j (last_of c)) -> (dstart c = true -> dstart d = true) -> (dend c = true -> dend d = true) -> sound (upd g j d).
Proof.
  intros (L & S) E C X Y X2 Y2. split; [rewrite upd_length; exact L|]. intros k e Ek. rewrite nth_error_upd. destruct (Nat.eqb_spec k j) as [->|N]; cbn [andb]; [|apply S, Ek].
  assert (j < length g) by (rewrite L; apply nth_error_Some; congruence). rewrite (proj2 (Nat.ltb_lt _ _) H). assert (e = c) by congruence. subst e. exists d. auto 8.
Qed.
Lemma tag_one_ok i ci j g fs fe : nth_error g0 i = Some ci -> j < length g0 -> sound g ->
  exists g' fs' fe', tag_one cf i (first_of ci) (last_of ci) (g, (fs, fe)) j = Ok (g', (fs', fe')) /\ sound g' /\ grows g g' /\ (j <> i -> given g' i j) /\
    (fs' = true -> fs = true \/ end_near (f_vrad cf) g0 i (first_of ci)) /\ (fe' = true -> fe = true \/ end_near (f_vrad cf) g0 i (last_of ci)).
Proof.
  intros Ei Lj S. unfold tag_one. cbn [fst snd]. destruct (Nat.eqb_spec i j) as [->|Nij].
  - exists g, fs, fe. split; [reflexivity|]. split; [exact S|]. split; [apply grows_refl|]. split; [congruence|]. auto.
  - destruct (nth_error g0 j) as [cj|] eqn:Ej; [|apply nth_error_None in Ej; lia]. destruct S as (L & Sj). destruct (Sj j cj Ej) as (d & Ed & (H1 & H2 & H3) & Ss & Se & Sa & Sb). pose proof (ne_of j cj Ej) as Nj.
    unfold idx. rewrite Ed. cbn [obind]. rewrite startp_ok, endp_ok by congruence. cbn [obind]. destruct (core_ends cj d H1) as (F1 & F2). rewrite F1, F2.
    assert (Nr : forall p q, near cf p q = true -> (p = first_of cj \/ p = last_of cj) -> end_near (f_vrad cf) g0 i q). { intros p q X Y. exists j, cj. split; [congruence|]. split; [exact Ej|]. apply near_spec in X. rewrite dist2_sym in X. destruct Y as [-> | ->]; auto. }
    assert (Nl : forall p q, near cf p q = true -> (q = first_of ci \/ q = last_of ci) -> end_near (f_vrad cf) g0 j p). { intros p q X Y. exists i, ci. split; [congruence|]. split; [exact Ei|]. apply near_spec in X. destruct Y as [-> | ->]; auto. }
    assert (Lj' : j < length g) by lia.
    set (ss := near cf (first_of cj) (first_of ci)). set (se := near cf (first_of cj) (last_of ci)). set (es := near cf (last_of cj) (first_of ci)). set (ee := near cf (last_of cj) (last_of ci)).
    (* the cluster that is written back *)
    assert (W : forall c2, hs c2 = hs d -> tag c2 = tag d -> em c2 = em d -> dstart c2 = dstart d || (negb (dstart d) && (ss || se)) -> dend c2 = dend d || (negb (dend d) && (es || ee)) ->
      sound (upd g j c2) /\ grows g (upd g j c2) /\ (j <> i -> given (upd g j c2) i j)).
    { intros c2 A1 A2 A3 A4 A5. assert (U : nth_error (upd g j c2) j = Some c2) by (rewrite nth_error_upd, Nat.eqb_refl, (proj2 (Nat.ltb_lt _ _) Lj'); reflexivity). split; [|split].
      - apply (sound_upd g j cj c2); [split; assumption|exact Ej|split; [congruence|]; split; congruence| | | |].
        + rewrite A4. intros X. apply orb_true_iff in X as [X|X]; [apply Ss, X|]. apply andb_true_iff in X as [_ X]. right. apply orb_true_iff in X as [X|X]; [apply (Nl _ _ X); auto|apply (Nl _ _ X); auto].
        + rewrite A5. intros X. apply orb_true_iff in X as [X|X]; [apply Se, X|]. apply andb_true_iff in X as [_ X]. right. apply orb_true_iff in X as [X|X]; [apply (Nl _ _ X); auto|apply (Nl _ _ X); auto].
        + intros X. rewrite A4, (Sa X). reflexivity.
        + intros X. rewrite A5, (Sb X). reflexivity.
      - intros k e Ek. destruct (Nat.eq_dec k j) as [->|Nk]; [|exists e; rewrite nth_error_upd; destruct (Nat.eqb_spec k j); [congruence|]; auto]. exists c2. split; [exact U|]. assert (e = d) by congruence. subst e. rewrite A4, A5. split; intros ->; reflexivity.
      - intros _ ci' cj' d' X1 X2 X3. assert (ci' = ci) by congruence. assert (cj' = cj) by congruence. assert (d' = c2) by congruence. subst ci' cj' d'. fold ss se es ee. rewrite A4, A5. split; intros ->; [destruct (dstart d)|destruct (dend d)]; reflexivity. }
    destruct (dstart d) eqn:Ds.
    + destruct (dend d) eqn:De.
      * rewrite set_idx_ok by exact Lj'. cbn [obind]. eexists _, _, _. split; [reflexivity|]. destruct (W d eq_refl eq_refl eq_refl) as (W1 & W2 & W3); [cbn; exact Ds|cbn; exact De|]. do 3 (split; [assumption|]). auto.
      * rewrite set_idx_ok by exact Lj'. cbn [obind]. eexists _, _, _. split; [reflexivity|]. destruct (W (if es || ee then set_end d else d)) as (W1 & W2 & W3); [destruct (es || ee); reflexivity|destruct (es || ee); reflexivity|destruct (es || ee); reflexivity|destruct (es || ee); cbn; exact Ds|destruct (es || ee); cbn; [reflexivity|exact De]|]. do 3 (split; [assumption|]).
        split; intros X; apply orb_true_iff in X as [X|X]; auto; right; apply (Nr _ _ X); auto.
    + set (c1 := if ss || se then set_start d else d). assert (D1 : dend c1 = dend d) by (unfold c1; destruct (ss || se); reflexivity). rewrite D1. destruct (dend d) eqn:De.
      * rewrite set_idx_ok by exact Lj'. cbn [obind]. eexists _, _, _. split; [reflexivity|]. destruct (W c1) as (W1 & W2 & W3); [unfold c1; destruct (ss || se); reflexivity|unfold c1; destruct (ss || se); reflexivity|unfold c1; destruct (ss || se); reflexivity|unfold c1; destruct (ss || se); cbn; [reflexivity|exact Ds]|rewrite D1; reflexivity|]. do 3 (split; [assumption|]).
        split; intros X; apply orb_true_iff in X as [X|X]; auto; right; apply (Nr _ _ X); auto.
      * rewrite set_idx_ok by exact Lj'. cbn [obind]. eexists _, _, _. split; [reflexivity|].
        destruct (W (if es || ee then set_end c1 else c1)) as (W1 & W2 & W3); [unfold c1; destruct (ss || se), (es || ee); reflexivity|unfold c1; destruct (ss || se), (es || ee); reflexivity|unfold c1; destruct (ss || se), (es || ee); reflexivity|unfold c1; destruct (ss || se), (es || ee); cbn; try reflexivity; exact Ds|unfold c1; destruct (ss || se), (es || ee); cbn; try reflexivity; exact De|]. do 3 (split; [assumption|]).
        split; intros X; repeat (apply orb_true_iff in X as [X|X]); auto; right; apply (Nr _ _ X); auto.
Qed.
Lemma sound_len g : sound g -> length g = length g0. Proof. intros [L _]. exact L. Qed.
Lemma tag_dense_ok : exists g, tag_dense cf g0 = Ok g /\ sound g /\ forall i j, i < length g0 -> j < length g0 -> i <> j -> given g i j.
Proof.
  unfold tag_dense. assert (S0 : sound g0). { split; [reflexivity|]. intros j c E. exists c. split; [exact E|]. split; [split; auto|]. auto 8. }
  apply (for_range_inv (fun k g => sound g /\ forall i j, i < k -> j < length g0 -> i <> j -> given g i j)); [lia|split; [exact S0|intros; lia]|].
  intros i g Hi (S & Gv). destruct (nth_error g0 i) as [ci|] eqn:Ei; [|apply nth_error_None in Ei; lia]. pose proof S as (L & Sj). destruct (Sj i ci Ei) as (d & Ed & (H1 & H2 & H3) & _). pose proof (ne_of i ci Ei) as Ni.
  unfold idx at 1. rewrite Ed. cbn [obind]. rewrite startp_ok, endp_ok by congruence. cbn [obind]. destruct (core_ends ci d H1) as (F1 & F2). rewrite F1, F2.
  destruct (for_range_inv (fun k (s : list clu * (bool * bool)) => sound (fst s) /\ grows g (fst s) /\ (forall j, j < k -> i <> j -> given (fst s) i j) /\ (fst (snd s) = true -> end_near (f_vrad cf) g0 i (first_of ci)) /\ (snd (snd s) = true -> end_near (f_vrad cf) g0 i (last_of ci)))
    (tag_one cf i (first_of ci) (last_of ci)) 0 (length g) (g, (false, false))) as ([g1 [fs fe]] & E1 & S1 & Gr1 & Gv1 & Fs & Fe); [lia| | |].
  - cbn [fst snd]. split; [exact S|]. split; [apply grows_refl|]. split; [intros; lia|]. split; discriminate.
  - intros j [g2 [fs fe]] Hj (S2 & Gr2 & Gv2 & Fs & Fe). cbn [fst snd] in *. destruct (tag_one_ok i ci j g2 fs fe Ei ltac:(lia) S2) as (g3 & fs' & fe' & E & S3 & Gr3 & Gv3 & Fs' & Fe'). exists (g3, (fs', fe')). split; [exact E|]. cbn [fst snd].
    split; [exact S3|]. split; [apply (grows_trans _ _ _ Gr2 Gr3)|]. split.
    + intros k Lk Nk. destruct (Nat.eq_dec k j) as [->|N2]; [apply Gv3; congruence|]. apply (given_grows g2 g3); [rewrite (sound_len _ S2), (sound_len _ S3); reflexivity|exact Gr3|apply Gv2; lia].
    + split; intros X; [destruct (Fs' X)|destruct (Fe' X)]; auto.
  - rewrite E1. cbn [obind fst snd] in *. pose proof S1 as (L1 & Sj1). destruct (Sj1 i ci Ei) as (d1 & Ed1 & (K1 & K2 & K3) & Ks & Ke & Ka & Kb). unfold idx. rewrite Ed1. cbn [obind]. assert (Li : i < length g1) by lia. rewrite set_idx_ok by exact Li.
    set (c2 := if fe then set_end (if fs then set_start d1 else d1) else (if fs then set_start d1 else d1)). exists (upd g1 i c2). split; [reflexivity|].
    assert (A4 : dstart c2 = fs || dstart d1) by (unfold c2; destruct fe, fs; reflexivity). assert (A5 : dend c2 = fe || dend d1) by (unfold c2; destruct fe, fs; reflexivity).
    assert (Gr : grows g1 (upd g1 i c2)). { intros k e Ek. rewrite nth_error_upd. destruct (Nat.eqb_spec k i) as [->|Nk]; cbn [andb]; [|exists e; auto]. rewrite (proj2 (Nat.ltb_lt _ _) Li). exists c2. split; [reflexivity|]. assert (e = d1) by congruence. subst e. rewrite A4, A5. split; intros ->; apply orb_true_r. }
    split.
    + apply (sound_upd g1 i ci c2 S1 Ei); [unfold c2; destruct fe, fs; split; cbn; auto| | | |].
      * rewrite A4. intros X. apply orb_true_iff in X as [X|X]; [right; apply Fs, X|apply Ks, X].
      * rewrite A5. intros X. apply orb_true_iff in X as [X|X]; [right; apply Fe, X|apply Ke, X].
      * intros X. rewrite A4, (Ka X). apply orb_true_r.
      * intros X. rewrite A5, (Kb X). apply orb_true_r.
    + intros i' j Li' Lj Nij. apply (given_grows g1); [rewrite upd_length; reflexivity|exact Gr|]. destruct (Nat.eq_dec i' i) as [->|Ni']; [apply Gv1; lia|]. apply (given_grows g); [rewrite L, L1; reflexivity|exact Gr1|apply Gv; lia].
Qed.
(** exactly the ends that have an end of another cluster within the radius are tagged *)
Lemma tag_exact : exists g, tag_dense cf g0 = Ok g /\ length g = length g0 /\ forall i c, nth_error g0 i = Some c -> exists d, nth_error g i = Some d /\ hs d = hs c /\ tag d = tag c /\ em d = em c /\
  (dstart d = true <-> dstart c = true \/ end_near (f_vrad cf) g0 i (first_of c)) /\ (dend d = true <-> dend c = true \/ end_near (f_vrad cf) g0 i (last_of c)).
Proof.
  destruct tag_dense_ok as (g & E & (L & S) & Gv). exists g. split; [exact E|]. split; [exact L|]. intros i c Ei. destruct (S i c Ei) as (d & Ed & (H1 & H2 & H3) & Ss & Se & Sa & Sb). exists d. split; [exact Ed|]. split; [exact H1|]. split; [exact H2|]. split; [exact H3|].
  assert (K : forall p, p = first_of c \/ p = last_of c -> end_near (f_vrad cf) g0 i p -> (p = first_of c -> dstart d = true) /\ (p = last_of c -> dend d = true)).
  { intros p _ (j & cj & Nj & Ej & X). destruct (Gv j i) with (ci := cj) (cj := c) (d := d) as (P & Q); auto; [apply nth_error_Some; congruence|apply nth_error_Some; congruence|]. rewrite !orb_true_iff, !near_spec in P, Q. split; intros ->; auto. }
  split; split; [exact Ss| |exact Se|].
  - intros [X|X]; [auto|]. apply (K (first_of c) (or_introl eq_refl) X). reflexivity.
  - intros [X|X]; [auto|]. apply (K (last_of c) (or_intror eq_refl) X). reflexivity.
Qed.
End A.
