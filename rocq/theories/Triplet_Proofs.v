From Coq Require Import QArith Qcanon.
From Verif Require Import Base Util QcUtil Solver_Model Solver_Proofs Triplet_Model Triplet_Spec.
Local Open Scope Qc_scope.

Ltac qb :=
  repeat match goal with
  | H : qc_lt _ _ = true |- _ => apply qc_lt_spec in H
  | H : qc_lt _ _ = false |- _ => apply qc_lt_false in H
  end.

Lemma close_near thr a b : close_drift thr a b = near thr a b.
Proof.
  unfold close_drift, near, qc_abs. destruct (qc_lt (a - b) 0) eqn:E.
  - replace (- (a - b)) with (b - a) by ring. destruct (qc_lt (b - a) thr) eqn:E2; [|rewrite andb_false_r; reflexivity].
    rewrite andb_true_r. symmetry. apply qc_lt_spec. qb. qclra.
  - destruct (qc_lt (a - b) thr) eqn:E2; [|reflexivity]. simpl. symmetry. apply qc_lt_spec. qb. qclra.
Qed.
Lemma near_sym thr a b : near thr a b = near thr b a.
Proof. unfold near. apply andb_comm. Qed.
Lemma near_spec thr a b : near thr a b = true <-> a - b < thr /\ b - a < thr.
Proof. unfold near. rewrite andb_true_iff, !qc_lt_spec. reflexivity. Qed.
Lemma near_false thr a b : near thr a b = false <-> thr <= a - b \/ thr <= b - a.
Proof. unfold near. rewrite andb_false_iff, !qc_lt_false. reflexivity. Qed.

(** cache transparency *)
Definition cache_valid (isect : nat -> nat -> option point) (c : cache) : Prop :=
  forall a b r, cache_find c (a, b) = Some r -> r = isect a b.
Lemma cache_ask_ok isect c a b : cache_valid isect c -> snd (cache_ask isect c a b) = isect a b /\ cache_valid isect (fst (cache_ask isect c a b)).
Proof.
  intros V. unfold cache_ask. destruct (cache_find c (a, b)) as [r|] eqn:E; cbn [fst snd].
  - split; [apply V, E|exact V].
  - split; [reflexivity|]. intros a' b' r H. unfold cache_find in H. cbn [List.find fst snd] in H.
    destruct (Nat.eqb_spec a a') as [->|]; destruct (Nat.eqb_spec b b') as [->|]; cbn [andb] in H; try (apply V; exact H).
    inversion H. reflexivity.
Qed.
Fixpoint cache_asks isect (c : cache) (qs : list (nat * nat)) : list (option point) :=
  match qs with [] => [] | q :: qs' => snd (cache_ask isect c (fst q) (snd q)) :: cache_asks isect (fst (cache_ask isect c (fst q) (snd q))) qs' end.
Lemma cache_transparent isect qs : cache_asks isect [] qs = map (fun q => isect (fst q) (snd q)) qs.
Proof.
  assert (G : forall ks c, cache_valid isect c -> cache_asks isect c ks = map (fun q => isect (fst q) (snd q)) ks).
  { induction ks as [|q ks IH]; intros c V; simpl; [reflexivity|]. destruct (cache_ask_ok isect c (fst q) (snd q) V) as [H1 H2]. rewrite H1, IH; auto. }
  apply G. intros a b r H. discriminate.
Qed.

(* -------------------------------------------------------------- doublets *)
Definition asc (l : list hoc) : Prop := StronglySorted (fun a b => hc_x a <= hc_x b) l.

Definition pairs thr (isect : nat -> nat -> option point) (a : hoc) (bs : list hoc) : list doublet :=
  flat_map (fun b => if near thr (hc_x a) (hc_x b) then crossing isect (mkD a b) (hc_chan a) (hc_chan b) else []) bs.

Lemma scan_bad_eq isect a bads : scan_bad isect a bads = flat_map (fun c => crossing isect (mkD a (bad_chan c)) (hc_chan a) c) bads.
Proof. induction bads as [|c bads IH]; simpl; [reflexivity|]. unfold crossing at 1. rewrite IH. destruct (isect (hc_chan a) c); reflexivity. Qed.

Lemma pairs_none thr isect a bs : (forall b, In b bs -> near thr (hc_x a) (hc_x b) = false) -> pairs thr isect a bs = [].
Proof.
  intros H. induction bs as [|b bs IH]; simpl; [reflexivity|]. rewrite (H b (or_introl eq_refl)). apply IH. intros; apply H; right; assumption.
Qed.

Lemma scan_eq thr isect a : 0 < thr -> forall bs, asc bs ->
  (forall b, In b bs -> ~ (hc_x b < hc_x a /\ near thr (hc_x b) (hc_x a) = false)) ->
  scan thr isect a bs = pairs thr isect a bs.
Proof.
  intros Ht. induction bs as [|b bs IH]; intros Hs Hn; [reflexivity|]. inversion Hs as [|? ? Hs' Hall]; subst. cbn [scan].
  rewrite close_near. destruct (qc_lt (hc_x a) (hc_x b) && negb (near thr (hc_x b) (hc_x a))) eqn:E.
  - apply andb_prop in E. destruct E as [E1 E2]. apply negb_true_iff in E2. symmetry. apply pairs_none.
    intros c Hc. assert (hc_x b <= hc_x c).
    { destruct Hc as [->|Hc]; [apply Qcle_refl|]. rewrite Forall_forall in Hall. apply Hall, Hc. }
    apply near_false in E2. apply near_false. qb. destruct E2 as [E2|E2]; [right|left]; qclra.
  - assert (N : near thr (hc_x a) (hc_x b) = true).
    { rewrite near_sym. destruct (near thr (hc_x b) (hc_x a)) eqn:En; [reflexivity|exfalso].
      rewrite andb_true_r in E. qb. destruct (Qclt_le_dec (hc_x b) (hc_x a)) as [L|L].
      - apply (Hn b (or_introl eq_refl)). split; assumption.
      - apply near_false in En. destruct En; qclra. }
    cbn [pairs flat_map]. rewrite N. unfold crossing at 1. fold (pairs thr isect a bs).
    rewrite <- IH; [destruct (isect (hc_chan a) (hc_chan b)); reflexivity|exact Hs'|intros; apply Hn; right; assumption].
Qed.

Lemma advance_split thr xa bs : exists sk, bs = sk ++ advance thr xa bs /\
  (forall b, In b sk -> hc_x b < xa /\ near thr (hc_x b) xa = false) /\
  match advance thr xa bs with [] => True | b :: _ => ~ (hc_x b < xa /\ near thr (hc_x b) xa = false) end.
Proof.
  induction bs as [|b bs (sk & E & H1 & H2)]; simpl; [exists []; repeat split; try contradiction|].
  rewrite close_near. destruct (qc_lt (hc_x b) xa && negb (near thr (hc_x b) xa)) eqn:Ec.
  - exists (b :: sk). split; [simpl; f_equal; exact E|]. split; [|exact H2]. apply andb_prop in Ec. destruct Ec as [C1 C2].
    apply negb_true_iff in C2. qb. intros c [<-|Hc]; [split; assumption|apply H1, Hc].
  - exists []. split; [reflexivity|]. split; [intros c []|]. intros [C1 C2]. apply qc_lt_spec in C1. rewrite C1, C2 in Ec. discriminate.
Qed.

Lemma asc_app_r l1 l2 : asc (l1 ++ l2) -> asc l2.
Proof. induction l1 as [|x l1 IH]; intros H; [exact H|]. inversion H; subst. auto. Qed.

Lemma doublet_helper_eq thr isect bbads : 0 < thr -> forall ahits bhits, asc ahits -> asc bhits ->
  doublet_helper thr isect ahits bhits bbads =
  flat_map (fun a => flat_map (fun c => crossing isect (mkD a (bad_chan c)) (hc_chan a) c) bbads ++ pairs thr isect a bhits) ahits.
Proof.
  intros Ht. induction ahits as [|a ahits IH]; intros bhits Ha Hb; [reflexivity|]. inversion Ha as [|? ? Ha' Hall]; subst.
  cbn [doublet_helper flat_map]. destruct (advance_split thr (hc_x a) bhits) as (sk & E & Hsk & Hhd).
  set (bs := advance thr (hc_x a) bhits) in *. clearbody bs. subst bhits. assert (Hbs := asc_app_r _ _ Hb).
  rewrite scan_bad_eq, <- app_assoc. f_equal. f_equal.
  - rewrite scan_eq; [|exact Ht|exact Hbs|].
    + unfold pairs at 2. rewrite flat_map_app. fold (pairs thr isect a sk). fold (pairs thr isect a bs).
      rewrite (pairs_none thr isect a sk); [reflexivity|]. intros b Hin. rewrite near_sym. apply Hsk, Hin.
    + intros b Hin. destruct bs as [|b0 bs]; [destruct Hin|]. destruct Hin as [<-|Hin]; [exact Hhd|].
      inversion Hbs as [|? ? _ Hf]; subst. rewrite Forall_forall in Hf. specialize (Hf b Hin).
      intros [C1 C2]. apply Hhd. split; [qclra|]. apply near_false in C2. apply near_false. destruct C2 as [C2|C2]; [left|right]; qclra.
  - rewrite (IH bs Ha' Hbs). assert (X : forall l, (forall a', In a' l -> hc_x a <= hc_x a') ->
       flat_map (fun a' => flat_map (fun c => crossing isect (mkD a' (bad_chan c)) (hc_chan a') c) bbads ++ pairs thr isect a' bs) l =
       flat_map (fun a' => flat_map (fun c => crossing isect (mkD a' (bad_chan c)) (hc_chan a') c) bbads ++ pairs thr isect a' (sk ++ bs)) l).
    { induction l as [|a' l IHl]; intros Hl; [reflexivity|]. cbn [flat_map]. f_equal; [|apply IHl; intros; apply Hl; right; assumption]. f_equal.
      unfold pairs at 2. rewrite flat_map_app. fold (pairs thr isect a' sk). fold (pairs thr isect a' bs).
      rewrite (pairs_none thr isect a' sk); [reflexivity|]. intros b Hin. destruct (Hsk b Hin) as [C1 C2].
      specialize (Hl a' (or_introl eq_refl)). apply near_false in C2. apply near_false. destruct C2 as [C2|C2]; [right|left]; qclra. }
    apply X. rewrite Forall_forall in Hall. exact Hall.
Qed.

Lemma flat_map_app_perm {A B} (f g : A -> list B) l : Permutation (flat_map (fun x => f x ++ g x) l) (flat_map f l ++ flat_map g l).
Proof.
  induction l as [|x l IH]; simpl; [constructor|]. rewrite <- app_assoc. rewrite <- app_assoc. apply Permutation_app_head.
  rewrite IH. rewrite !app_assoc. apply Permutation_app_tail, Permutation_app_comm.
Qed.
Lemma flat_map_perm {A B} (f : A -> list B) l1 l2 : Permutation l1 l2 -> Permutation (flat_map f l1) (flat_map f l2).
Proof.
  induction 1; simpl; try reflexivity.
  - apply Permutation_app_head; assumption.
  - rewrite !app_assoc. apply Permutation_app_tail, Permutation_app_comm.
  - etransitivity; eassumption.
Qed.
Lemma flat_map_perm_ext {A B} (f g : A -> list B) l : (forall x, In x l -> Permutation (f x) (g x)) -> Permutation (flat_map f l) (flat_map g l).
Proof.
  induction l as [|x l IH]; intros H; simpl; [constructor|]. apply Permutation_app; [apply H; left; reflexivity|apply IH; intros; apply H; right; assumption].
Qed.
Lemma flat_map_map {A B C} (f : B -> list C) (g : A -> B) l : flat_map f (map g l) = flat_map (fun x => f (g x)) l.
Proof. induction l as [|x l IH]; simpl; [reflexivity|]. rewrite IH. reflexivity. Qed.
Lemma map_flat_map {A B C} (f : B -> C) (g : A -> list B) l : map f (flat_map g l) = flat_map (fun x => map f (g x)) l.
Proof. induction l as [|x l IH]; simpl; [reflexivity|]. rewrite map_app, IH. reflexivity. Qed.

Lemma doublets_perm thr isect xs os xbad obad : 0 < thr -> asc xs -> asc os ->
  Permutation (doublets thr isect xs os xbad obad) (all_doublets thr isect xs os xbad obad).
Proof.
  intros Ht Hx Ho. unfold doublets, all_doublets. rewrite doublet_helper_eq by assumption. rewrite app_assoc. apply Permutation_app.
  - rewrite flat_map_app_perm. rewrite Permutation_app_comm. reflexivity.
  - rewrite doublet_helper_eq by (auto; constructor). unfold bad_hit. rewrite map_flat_map. apply flat_map_perm_ext. intros o _.
    unfold pairs. simpl. rewrite app_nil_r. rewrite map_flat_map. apply flat_map_perm_ext. intros c _. unfold crossing.
    destruct (isect (hc_chan o) c); reflexivity.
Qed.
Lemma all_doublets_perm thr isect xs xs' os os' xbad obad : Permutation xs xs' -> Permutation os os' ->
  Permutation (all_doublets thr isect xs os xbad obad) (all_doublets thr isect xs' os' xbad obad).
Proof.
  intros Hx Ho. unfold all_doublets, hit_hit, hit_bad, bad_hit. apply Permutation_app; [|apply Permutation_app].
  - rewrite (flat_map_perm _ _ _ Hx). apply flat_map_perm_ext. intros x _. apply flat_map_perm, Ho.
  - apply flat_map_perm, Hx.
  - apply flat_map_perm, Ho.
Qed.

(* -------------------------------------------------------------- the join *)
Definition key (d : doublet) : nat * nat := match hc_hit (d_a d) with None => (0, hc_chan (d_a d)) | Some q => (1, q) end%nat.
Definition klt (a b : nat * nat) : Prop := (fst a < fst b \/ (fst a = fst b /\ snd a < snd b))%nat.
Lemma less_x_key a b : less_x a b = true <-> klt (key a) (key b).
Proof.
  unfold less_x, klt, key. destruct (hc_hit (d_a a)) as [q1|], (hc_hit (d_a b)) as [q2|]; cbn [fst snd]; rewrite ?Nat.ltb_lt; split; intros; try lia; try discriminate.
Qed.
Lemma less_x_false a b : less_x a b = false <-> ~ klt (key a) (key b).
Proof. rewrite <- less_x_key. destruct (less_x a b); split; intros; congruence. Qed.
Lemma same_x_key a b : same_x a b = true <-> key a = key b.
Proof.
  unfold same_x, key. destruct (hc_hit (d_a a)) as [q1|], (hc_hit (d_a b)) as [q2|]; rewrite ?Nat.eqb_eq; split; intros H; try discriminate; try congruence; try (inversion H; reflexivity).
Qed.
Lemma same_first_x a b : same_first a b = same_x b a.
Proof. unfold same_first, same_x. destruct (hc_hit (d_a a)), (hc_hit (d_a b)); auto; apply Nat.eqb_sym. Qed.
Lemma klt_total a b : klt a b \/ a = b \/ klt b a.
Proof. unfold klt. destruct a as [a1 a2], b as [b1 b2]; cbn [fst snd]. destruct (Nat.lt_trichotomy a1 b1) as [|[->|]]; [auto| |auto]. destruct (Nat.lt_trichotomy a2 b2) as [|[->|]]; auto. Qed.

Definition ksorted (l : list doublet) : Prop := StronglySorted (fun a b => less_x b a = false) l.
Lemma ksorted_app_r l1 l2 : ksorted (l1 ++ l2) -> ksorted l2.
Proof. induction l1 as [|x l1 IH]; intros H; [exact H|]. inversion H; subst. auto. Qed.

Section Join.
Variables (thr thrD : Qc) (isect : nat -> nat -> option point).
Definition jpairs (xu : doublet) (xvs : list doublet) : list triplet :=
  flat_map (fun xv => if same_x xv xu then opt_list (make_triplet thr thrD isect xu xv) else []) xvs.

Lemma jpairs_none xu xvs : (forall xv, In xv xvs -> same_x xv xu = false) -> jpairs xu xvs = [].
Proof. intros H. induction xvs as [|xv xvs IH]; simpl; [reflexivity|]. rewrite (H xv (or_introl eq_refl)). apply IH. intros; apply H; right; assumption. Qed.

(** without a limit *)
Lemma inner_eq xu : forall xvs n, ksorted xvs -> (forall xv, In xv xvs -> less_x xv xu = false) ->
  fst (inner thr thrD isect 0 xu xvs n) = jpairs xu xvs.
Proof.
  induction xvs as [|xv xvs IH]; intros n Hs Hl; [reflexivity|]. inversion Hs as [|? ? Hs' Hall]; subst. cbn [inner].
  destruct (same_x xv xu) eqn:E; cbn [negb].
  - unfold over. cbn [Nat.ltb Nat.leb andb]. cbn [jpairs flat_map]. rewrite E. fold (jpairs xu xvs).
    destruct (make_triplet thr thrD isect xu xv) as [t|]; cbn [opt_list app fst]; rewrite IH; auto; intros; apply Hl; right; assumption.
  - symmetry. apply jpairs_none. intros xw [<-|Hw]; [exact E|].
    destruct (same_x xw xu) eqn:Ew; [exfalso|reflexivity]. apply same_x_key in Ew.
    rewrite Forall_forall in Hall. specialize (Hall xw Hw). apply less_x_false in Hall.
    assert (H1 := Hl xv (or_introl eq_refl)). apply less_x_false in H1. rewrite Ew in Hall.
    destruct (klt_total (key xv) (key xu)) as [H|[H|H]]; [contradiction| |contradiction].
    apply same_x_key in H. congruence.
Qed.

Lemma catch_up_split xu xvs : exists sk, xvs = sk ++ catch_up xu xvs /\ (forall xv, In xv sk -> less_x xv xu = true) /\
  match catch_up xu xvs with [] => True | xv :: _ => less_x xv xu = false end.
Proof.
  induction xvs as [|xv xvs (sk & E & H1 & H2)]; simpl; [exists []; repeat split; intros ? []|].
  destruct (less_x xv xu) eqn:El.
  - exists (xv :: sk). split; [simpl; f_equal; exact E|]. split; [|exact H2]. intros y [<-|Hy]; auto.
  - exists []. split; [reflexivity|]. split; [intros ? []|exact El].
Qed.

Lemma klt_trans_ge a b c : klt a b -> ~ klt c b -> klt a c.
Proof. unfold klt. destruct a, b, c; cbn [fst snd]. lia. Qed.
Lemma klt_irrefl a : ~ klt a a. Proof. unfold klt. lia. Qed.

Lemma join_eq : forall xus xvs n, ksorted xus -> ksorted xvs ->
  join thr thrD isect 0 xus xvs n = flat_map (fun xu => jpairs xu xvs) xus.
Proof.
  induction xus as [|xu xus IH]; intros xvs n Hu Hv; [reflexivity|]. inversion Hu as [|? ? Hu' Hall]; subst. cbn [join flat_map].
  destruct (catch_up_split xu xvs) as (sk & E & Hsk & Hhd). set (r := catch_up xu xvs) in *. clearbody r. subst xvs.
  assert (Hr := ksorted_app_r _ _ Hv).
  assert (Drop : forall xw, less_x xw xu = false -> jpairs xw (sk ++ r) = jpairs xw r).
  { intros xw Hw. unfold jpairs. rewrite flat_map_app. fold (jpairs xw sk). fold (jpairs xw r). rewrite jpairs_none; [reflexivity|].
    intros xv Hxv. destruct (same_x xv xw) eqn:Es; [exfalso|reflexivity]. apply same_x_key in Es. specialize (Hsk xv Hxv).
    apply less_x_key in Hsk. apply less_x_false in Hw. rewrite Es in Hsk. contradiction. }
  f_equal.
  - rewrite inner_eq; [|exact Hr|].
    + symmetry. apply Drop. apply less_x_false, klt_irrefl.
    + intros xv Hin. destruct r as [|x0 r]; [destruct Hin|]. destruct Hin as [<-|Hin]; [exact Hhd|].
      inversion Hr as [|? ? _ Hf]; subst. rewrite Forall_forall in Hf. specialize (Hf xv Hin).
      apply less_x_false. apply less_x_false in Hf. apply less_x_false in Hhd. intros C. apply Hhd.
      destruct (klt_total (key x0) (key xv)) as [H|[H|H]]; [|rewrite H; exact C|contradiction].
      unfold klt in *. lia.
  - rewrite IH by assumption. rewrite Forall_forall in Hall. clear IH Hu Hu'. induction xus as [|xw xus IHx]; [reflexivity|]. cbn [flat_map]. f_equal.
    + symmetry. apply Drop. apply Hall. left; reflexivity.
    + apply IHx. intros; apply Hall; right; assumption.
Qed.

Lemma over_0 n : over 0 n = false. Proof. reflexivity. Qed.
Lemma over_pos m n : (0 < m)%nat -> over m n = Nat.ltb m n.
Proof. intros H. unfold over. apply Nat.ltb_lt in H. rewrite H. reflexivity. Qed.
(** with a limit m > 0: the first m+1 of them *)
Lemma inner_limit m xu : (0 < m)%nat -> forall xvs n, (n <= m + 1)%nat ->
  fst (inner thr thrD isect m xu xvs n) = firstn (m + 1 - n) (fst (inner thr thrD isect 0 xu xvs n)) /\
  snd (inner thr thrD isect m xu xvs n) = (n + length (fst (inner thr thrD isect m xu xvs n)))%nat /\
  (snd (inner thr thrD isect m xu xvs n) <= m + 1)%nat.
Proof.
  intros Hm. induction xvs as [|xv xvs IH]; intros n Hn; cbn [inner]; [rewrite firstn_nil; simpl; repeat split; lia|].
  destruct (negb (same_x xv xu)); [rewrite firstn_nil; simpl; repeat split; lia|].
  rewrite !over_0, !(over_pos m) by assumption.
  destruct (Nat.ltb_spec m n) as [L|L].
  - replace (m + 1 - n)%nat with 0%nat by lia. cbn [fst snd firstn length]. repeat split; lia.
  - destruct (make_triplet thr thrD isect xu xv) as [t|]; [|apply IH; lia].
    destruct (Nat.ltb_spec m (S n)) as [L2|L2].
    + assert (n = m) by lia. subst n. replace (m + 1 - m)%nat with 1%nat by lia. cbn [fst snd]. cbn [firstn length]. split; [reflexivity|lia].
    + destruct (IH (S n)) as (I1 & I2 & I3); [lia|]. cbn [fst snd]. replace (m + 1 - n)%nat with (S (m + 1 - S n)) by lia. cbn [firstn length].
      split; [f_equal; exact I1|]. split; [rewrite I2; lia|exact I3].
Qed.
Lemma inner_count0 xu : forall xvs n n', fst (inner thr thrD isect 0 xu xvs n) = fst (inner thr thrD isect 0 xu xvs n').
Proof.
  induction xvs as [|xv xvs IH]; intros n n'; cbn [inner]; [reflexivity|]. destruct (negb _); [reflexivity|].
  unfold over. cbn [Nat.ltb Nat.leb andb]. destruct (make_triplet thr thrD isect xu xv); cbn [fst]; [f_equal|]; apply IH.
Qed.
Lemma join_count0 : forall xus xvs n n', join thr thrD isect 0 xus xvs n = join thr thrD isect 0 xus xvs n'.
Proof.
  induction xus as [|xu xus IH]; intros xvs n n'; cbn [join]; [reflexivity|]. f_equal; [apply inner_count0|apply IH].
Qed.
Lemma join_limit m : (0 < m)%nat -> forall xus xvs n, (n <= m + 1)%nat ->
  join thr thrD isect m xus xvs n = firstn (m + 1 - n) (join thr thrD isect 0 xus xvs n).
Proof.
  intros Hm. induction xus as [|xu xus IH]; intros xvs n Hn; cbn [join]; [rewrite firstn_nil; reflexivity|].
  set (r := catch_up xu xvs). destruct (inner_limit m xu Hm r n Hn) as (I1 & I2 & I3).
  rewrite IH by exact I3. rewrite I1. rewrite firstn_app. f_equal.
  rewrite (join_count0 xus r (snd (inner thr thrD isect 0 xu r n)) (snd (inner thr thrD isect m xu r n))). 
  set (F := fst (inner thr thrD isect 0 xu r n)) in *. rewrite I2, I1.
  rewrite firstn_length.
  destruct (Nat.le_ge_cases (length F) (m + 1 - n)) as [L|L].
  - f_equal. lia.
  - replace (m + 1 - n - length F)%nat with 0%nat by lia. replace (m + 1 - (n + Nat.min (m + 1 - n) (length F)))%nat with 0%nat by lia. reflexivity.
Qed.

Lemma make_spec xu xv : (if same_x xv xu then make_triplet thr thrD isect xu xv else None) = spec_triplet thr thrD isect xu xv.
Proof.
  unfold spec_triplet, make_triplet. replace (same_first xu xv) with (same_x xv xu) by (symmetry; apply same_first_x).
  set (x := d_a xu). set (u := d_b xu). set (v := d_b xv).
  assert (R : forall h, real h = negb (is_bad h)) by (intros h; unfold real, is_bad; destruct (hc_hit h); reflexivity).
  destruct (same_x xv xu) eqn:Es; [|destruct (isect (hc_chan u) (hc_chan v)); reflexivity].
  cbn [filter]. rewrite !R. rewrite close_near. change (close_space thr) with (points_near thr).
  destruct (isect (hc_chan u) (hc_chan v)) as [uv|].
  2:{ destruct (is_bad x), (is_bad u), (is_bad v); cbn [andb negb]; try reflexivity; destruct (near _ _ _); reflexivity. }
  destruct (points_near thr (d_pt xu) (d_pt xv)) eqn:P1; destruct (points_near thr (d_pt xu) uv) eqn:P2; destruct (points_near thr (d_pt xv) uv) eqn:P3;
  cbn [negb orb andb];
  destruct (is_bad x) eqn:Bx, (is_bad u) eqn:Bu, (is_bad v) eqn:Bv; cbn [andb negb length Nat.leb map fst snd]; rewrite ?andb_false_r; try reflexivity;
    try (destruct (near thrD (hc_x u) (hc_x v)); cbn [andb negb]; try reflexivity);
    unfold mean; cbn [length map qsum fold_right]; f_equal; f_equal; f_equal; ring.
Qed.
End Join.

Lemma jpairs_spec thr thrD isect xu xvs : jpairs thr thrD isect xu xvs = flat_map (fun xv => opt_list (spec_triplet thr thrD isect xu xv)) xvs.
Proof.
  unfold jpairs. induction xvs as [|xv xvs IH]; simpl; [reflexivity|]. rewrite IH. f_equal. rewrite <- make_spec. destruct (same_x xv xu); reflexivity.
Qed.
Lemma all_triplets_perm thr thrD isect xus xus' xvs xvs' : Permutation xus xus' -> Permutation xvs xvs' ->
  Permutation (all_triplets thr thrD isect xus xvs) (all_triplets thr thrD isect xus' xvs').
Proof.
  intros H1 H2. unfold all_triplets. rewrite (flat_map_perm _ _ _ H1). apply flat_map_perm_ext. intros x _. apply flat_map_perm, H2.
Qed.
Lemma hits_in_eq I hits tpc : hits_in I hits tpc = tpc_hits I hits tpc.
Proof.
  unfold hits_in, tpc_hits. induction hits as [|h hits IH]; simpl; [reflexivity|]. rewrite IH. f_equal. apply map_ext_in.
  intros t Ht. apply filter_In in Ht. destruct Ht as [_ Ht]. apply Nat.eqb_eq in Ht. subst. reflexivity.
Qed.
Lemma sorted_asc l : StronglySorted (fun a b => hoc_less b a = false) l -> asc l.
Proof.
  induction 1 as [|a l H IH Hf]; constructor; [exact IH|]. rewrite Forall_forall in *. intros b Hb. specialize (Hf b Hb).
  unfold hoc_less in Hf. apply qc_lt_false in Hf. exact Hf.
Qed.
