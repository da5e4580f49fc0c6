(** Proofs about the output of DBcluster. *)
From Coq Require Import Sorted.
From Verif Require Import Base SortUtil CCB_Hist CMergeBK_Hist TJ_More DB2_Model DB2_Spec DB2_FN.
Import DB2_Model DB2_Spec. Local Open Scope nat_scope.

Definition isin (i : nat) (y : label) : bool := match y with In_ c => c =? i | _ => false end.
Definition sel (all : list nat) (ls : list label) (i : nat) : list nat := map (fun j => nth j all 0) (filter (fun j => isin i (nth j ls Free)) (seq 0 (length ls))).
Definition nonempty {A} (l : list A) : bool := match l with [] => false | _ => true end.
Lemma filter_snoc {A} (f : A -> bool) l x : filter f (l ++ [x]) = filter f l ++ (if f x then [x] else []).
Proof. rewrite filter_app. cbn. destruct (f x); reflexivity. Qed.
Lemma for_snoc {S} l x (body : S -> nat -> outcome S) s : for_ (l ++ [x]) body s = do s <- for_ l body s; body s x.
Proof. revert s. induction l as [|y l IH]; intros s; cbn; [destruct (body s x); reflexivity|]. destruct (body s y); cbn; [apply IH|reflexivity|reflexivity]. Qed.

Lemma sel_ok all ls i ch : for_ (seq 0 (length ls)) (fun ch j =>
        do y <- idx ls j;
        match y with In_ c => if c =? i then do h <- idx all j; Ok (ch ++ [h]) else Ok ch | _ => Ok ch end) [] = Ok ch ->
  ch = sel all ls i /\ forall j, nth_error ls j = Some (In_ i) -> j < length all.
Proof.
  unfold sel. assert (G : forall m ch, m <= length ls -> for_ (seq 0 m) (fun ch j =>
        do y <- idx ls j;
        match y with In_ c => if c =? i then do h <- idx all j; Ok (ch ++ [h]) else Ok ch | _ => Ok ch end) [] = Ok ch ->
    ch = map (fun j => nth j all 0) (filter (fun j => isin i (nth j ls Free)) (seq 0 m)) /\ forall j, j < m -> nth_error ls j = Some (In_ i) -> j < length all).
  { clear ch. induction m as [|m IH]; intros ch Hm E; [injection E as <-; split; [reflexivity|lia]|].
    rewrite seq_S in E. cbn [plus] in E. rewrite for_snoc in E. apply ob in E. destruct E as (c0 & E0 & E1). destruct (IH c0 ltac:(lia) E0) as [-> K].
    rewrite (idx_ok ls m Free) in E1 by lia. cbn [obind] in E1. rewrite seq_S, filter_snoc, map_app. cbn [plus].
    assert (Kn : nth m ls Free <> In_ i -> forall j, j < S m -> nth_error ls j = Some (In_ i) -> j < length all). { intros X j Hj Ej. destruct (Nat.eq_dec j m) as [->|]; [apply nth_error_nth with (d := Free) in Ej; contradiction|apply K; [lia|exact Ej] ]. }
    destruct (nth m ls Free) as [| |c] eqn:Y; cbn [isin].
    1-2: injection E1 as <-; cbn [map]; rewrite app_nil_r; split; [reflexivity|apply Kn; discriminate].
    destruct (Nat.eqb_spec c i) as [->|D].
    - apply ob in E1. destruct E1 as (h & Eh & E1). injection E1 as <-. apply idx_inv in Eh. destruct Eh as [Lh Eh]. rewrite <- (nth_error_nth all m 0 Eh). cbn [map]. split; [reflexivity|]. intros j Hj Ej. destruct (Nat.eq_dec j m) as [->|]; [exact Lh|apply K; [lia|exact Ej] ].
    - injection E1 as <-. cbn [map]. rewrite app_nil_r. split; [reflexivity|apply Kn; congruence]. }
  intros E. destruct (G (length ls) ch ltac:(lia) E) as [A B']. split; [exact A|]. intros j Ej. apply B'; [apply nth_error_Some; congruence|exact Ej].
Qed.
Lemma in_sel all ls i h : In h (sel all ls i) <-> exists j, nth_error ls j = Some (In_ i) /\ nth j all 0 = h.
Proof.
  unfold sel. rewrite in_map_iff. split.
  - intros (j & E & Hj). apply filter_In in Hj. destruct Hj as [Hj X]. apply in_seq in Hj. exists j. split; [|exact E]. rewrite (nth_error_nth' ls Free) by lia. f_equal. unfold isin in X. destruct (nth j ls Free); try discriminate. apply Nat.eqb_eq in X. congruence.
  - intros (j & E & X). exists j. split; [exact X|]. apply filter_In. assert (Hj : j < length ls) by (apply nth_error_Some; congruence). split; [apply in_seq; lia|]. rewrite (nth_error_nth ls j Free E). cbn. apply Nat.eqb_refl.
Qed.
Lemma ss_map_nth (all : list nat) (js : list nat) : StronglySorted lt all -> StronglySorted lt js -> (forall j, In j js -> j < length all) -> StronglySorted lt (map (fun j => nth j all 0) js).
Proof.
  intros A J H. induction J as [|j js J IH F]; cbn; constructor; [apply IH; intros x Hx; apply H; right; exact Hx|]. rewrite Forall_forall in *. intros y Hy. apply in_map_iff in Hy. destruct Hy as (x & <- & Hx). specialize (F x Hx).
  assert (Lx : x < length all) by (apply H; right; exact Hx). clear -A F Lx. revert j x F Lx. induction A as [|a all A IH G]; intros j x F Lx; cbn in Lx; [lia|]. destruct x as [|x]; [lia|]. destruct j as [|j]; cbn.
  - rewrite Forall_forall in G. apply G, nth_In. lia.
  - apply IH; lia.
Qed.

(** the entries of a plane, numbered *)
Definition block (all : list nat) (ls : list label) (k p : nat) : list (nat * nat) := map (pair p) (filter (fun i => nonempty (sel all ls i)) (seq 0 k)).
Definition number (F : nat * nat -> list nat) (base : nat) (l : list (nat * nat)) : list (nat * nat * list nat) := map (fun e => (fst e, fst (snd e), F (snd e))) (List.combine (seq base (length l)) l).
Lemma number_len F b l : length (number F b l) = length l.
Proof. unfold number. rewrite map_length, combine_length, seq_length. lia. Qed.
Lemma number_snoc F b l x : number F b (l ++ [x]) = number F b l ++ [(b + length l, fst x, F x)].
Proof.
  unfold number. revert b. induction l as [|y l IH]; intros b; cbn; [rewrite Nat.add_0_r; reflexivity|]. f_equal. specialize (IH (S b)). unfold number in IH. rewrite IH. replace (S b + length l) with (b + S (length l)) by lia. reflexivity.
Qed.
Lemma number_nth F b l k e : nth_error (number F b l) k = Some e -> exists x, nth_error l k = Some x /\ e = (b + k, fst x, F x).
Proof.
  unfold number. revert b k. induction l as [|y l IH]; intros b [|k] E; cbn in E; try discriminate; [injection E as <-; exists y; split; [reflexivity|cbn; rewrite Nat.add_0_r; reflexivity]|]. destruct (IH (S b) k E) as (x & A & B'). exists x. split; [exact A|]. rewrite B'. replace (S b + k) with (b + S k) by lia. reflexivity.
Qed.
Lemma number_in F b l x : In x l -> exists id, In (id, fst x, F x) (number F b l).
Proof. intros H. revert b. induction l as [|y l IH]; intros b; [destruct H|]. destruct H as [->|H]; [exists b; left; reflexivity|]. destruct (IH H (S b)) as [id X]. exists id. right. exact X. Qed.
Lemma number_map F b l : map (fun e => snd (fst e)) (number F b l) = map fst l.
Proof. revert b. induction l as [|y l IH]; intros b; [reflexivity|]. unfold number in *. cbn. f_equal. apply IH. Qed.

Section P.
Variables (pl : list nat) (run : list nat -> outcome (list label * nat)).
Definition ans (p : nat) : list label * nat := match run (hits_of_plane pl p) with Ok r => r | _ => ([], 0) end.
Definition FF (e : nat * nat) : list nat := sel (hits_of_plane pl (fst e)) (fst (ans (fst e))) (snd e).
Definition fits (p : nat) : Prop := run (hits_of_plane pl p) = Ok (ans p) /\ forall j i, i < snd (ans p) -> nth_error (fst (ans p)) j = Some (In_ i) -> j < length (hits_of_plane pl p).

Lemma plane_ok p l o : (do r <- run (hits_of_plane pl p);
    for_ (seq 0 (snd r)) (fun o i =>
      do ch <- for_ (seq 0 (length (fst r))) (fun ch j =>
        do y <- idx (fst r) j;
        match y with In_ c => if c =? i then do h <- idx (hits_of_plane pl p) j; Ok (ch ++ [h]) else Ok ch | _ => Ok ch end) [];
      match ch with [] => Ok o | _ => Ok (o ++ [(length o, p, ch)]) end) (number FF 0 l)) = Ok o ->
  fits p /\ o = number FF 0 (l ++ block (hits_of_plane pl p) (fst (ans p)) (snd (ans p)) p).
Proof.
  intros E. apply ob in E. destruct E as (r & Er & E). assert (Ea : ans p = r) by (unfold ans; rewrite Er; reflexivity). unfold fits. rewrite Er, Ea in *. unfold block.
  assert (G : forall m o, for_ (seq 0 m) (fun o i =>
      do ch <- for_ (seq 0 (length (fst r))) (fun ch j =>
        do y <- idx (fst r) j;
        match y with In_ c => if c =? i then do h <- idx (hits_of_plane pl p) j; Ok (ch ++ [h]) else Ok ch | _ => Ok ch end) [];
      match ch with [] => Ok o | _ => Ok (o ++ [(length o, p, ch)]) end) (number FF 0 l) = Ok o ->
    (forall j i, i < m -> nth_error (fst r) j = Some (In_ i) -> j < length (hits_of_plane pl p)) /\
    o = number FF 0 (l ++ map (pair p) (filter (fun i => nonempty (sel (hits_of_plane pl p) (fst r) i)) (seq 0 m)))).
  { clear o E. induction m as [|m IH]; intros o E; [injection E as <-; split; [lia|cbn; rewrite app_nil_r; reflexivity]|].
    rewrite seq_S in E. cbn [plus] in E. rewrite for_snoc in E. apply ob in E. destruct E as (o0 & E0 & E1). destruct (IH o0 E0) as [K ->]. apply ob in E1. destruct E1 as (ch & Ec & E1). apply sel_ok in Ec. destruct Ec as [Ec Kc]. split.
    - intros j i Hi Ej. destruct (Nat.eq_dec i m) as [->|]; [apply Kc, Ej|apply (K j i); [lia|exact Ej] ].
    - rewrite seq_S, filter_snoc, map_app. cbn [plus]. rewrite <- Ec. destruct ch as [|h ch]; cbn [nonempty map]; injection E1 as <-; [rewrite app_nil_r; reflexivity|].
      rewrite app_assoc, number_snoc, number_len. cbn [plus fst]. do 3 f_equal. unfold FF. cbn [fst snd]. rewrite Ea. exact Ec. }
  destruct (G (snd r) o E) as [A B']. split; [split; [reflexivity|exact A]|exact B'].
Qed.
Definition keys (ps : list nat) : list (nat * nat) := flat_map (fun p => block (hits_of_plane pl p) (fst (ans p)) (snd (ans p)) p) ps.
Lemma produce_ok o : produce pl run = Ok o -> (forall p, In p (planes_in pl) -> fits p) /\ o = number FF 0 (keys (planes_in pl)).
Proof.
  unfold produce. assert (G : forall ps l o, foreach ps (fun o p =>
    let hs := hits_of_plane pl p in
    do r <- run hs;
    for_ (seq 0 (snd r)) (fun o i =>
      do ch <- for_ (seq 0 (length (fst r))) (fun ch j =>
        do y <- idx (fst r) j;
        match y with In_ c => if c =? i then do h <- idx hs j; Ok (ch ++ [h]) else Ok ch | _ => Ok ch end) [];
      match ch with [] => Ok o | _ => Ok (o ++ [(length o, p, ch)]) end) o) (number FF 0 l) = Ok o ->
    (forall p, In p ps -> fits p) /\ o = number FF 0 (l ++ keys ps)).
  { induction ps as [|p ps IH]; intros l o1 E; [injection E as <-; split; [intros p []|cbn; rewrite app_nil_r; reflexivity]|].
    cbn [foreach] in E. cbv zeta in E. apply ob in E. destruct E as (o2 & E2 & E). apply plane_ok in E2. destruct E2 as [Fp ->]. destruct (IH _ _ E) as [A ->]. split; [intros q [<-|Hq]; [exact Fp|apply A, Hq]|]. cbn [keys flat_map]. rewrite app_assoc. reflexivity. }
  intros E. exact (G (planes_in pl) [] o E).
Qed.

Lemma hits_on p : on_plane pl p (hits_of_plane pl p).
Proof.
  unfold hits_of_plane. split; [apply sorted_filter_seq|]. intros h. rewrite filter_In, in_seq, Nat.eqb_eq. split.
  - intros [ [_ L] X]. cbn in L. rewrite (nth_error_nth' pl 0 L). congruence.
  - intros X. assert (L : h < length pl) by (apply nth_error_Some; congruence). split; [lia|]. rewrite (nth_error_nth pl h 0 X). reflexivity.
Qed.
Lemma planes_spec : StronglySorted lt (planes_in pl) /\ forall p, In p (planes_in pl) <-> In p pl.
Proof.
  unfold planes_in. pose proof (isort_perm Nat.ltb (nodup Nat.eq_dec pl)) as Pm. pose proof (isort_sorted Nat.ltb ltac:(intros a b c X Y; rewrite Nat.ltb_ge in *; lia) ltac:(intros a b X; rewrite Nat.ltb_ge, Nat.ltb_lt in *; lia) (nodup Nat.eq_dec pl)) as Sm.
  assert (Nd : NoDup (isort Nat.ltb (nodup Nat.eq_dec pl))) by (eapply Permutation_NoDup; [symmetry; exact Pm|apply NoDup_nodup]).
  split; [|intros p; rewrite <- (nodup_In Nat.eq_dec pl); split; apply Permutation_in; [exact Pm|symmetry; exact Pm] ].
  revert Sm Nd. generalize (isort Nat.ltb (nodup Nat.eq_dec pl)). clear. intros l Sm. induction Sm as [|a l S0 IH F]; intros Nd; [constructor|]. inversion Nd; subst. constructor; [auto|]. rewrite Forall_forall in *. intros x Hx. specialize (F x Hx). rewrite Nat.ltb_ge in F. destruct (Nat.eq_dec a x) as [->|]; [contradiction|lia].
Qed.
Lemma in_keys p i ps : In (p, i) (keys ps) <-> In p ps /\ i < snd (ans p) /\ FF (p, i) <> [].
Proof.
  unfold keys. rewrite in_flat_map. unfold block, FF. cbn [fst snd]. split.
  - intros (q & Hq & X). apply in_map_iff in X. destruct X as (k & E & X). injection E as -> ->. apply filter_In in X. destruct X as [X Y]. apply in_seq in X. split; [exact Hq|]. split; [lia|]. intros Z. rewrite Z in Y. discriminate.
  - intros (Hp & Hi & N). exists p. split; [exact Hp|]. apply in_map_iff. exists i. split; [reflexivity|]. apply filter_In. split; [apply in_seq; lia|]. destruct (sel _ _ i); [contradiction|reflexivity].
Qed.
Lemma keys_sorted ps : StronglySorted lt ps -> StronglySorted (fun e f => fst e < fst f \/ (fst e = fst f /\ snd e < snd f)) (keys ps).
Proof.
  intros H. induction H as [|p ps S0 IH F]; [constructor|]. cbn [keys flat_map]. fold (keys ps). unfold block.
  assert (G : StronglySorted lt (filter (fun i => nonempty (sel (hits_of_plane pl p) (fst (ans p)) i)) (seq 0 (snd (ans p))))) by apply sorted_filter_seq.
  induction G as [|i is G IHi Fi]; [exact IH|]. cbn [map app]. constructor; [exact IHi|]. rewrite Forall_forall in *. intros [q k] X. apply in_app_iff in X. cbn [fst snd]. destruct X as [X|X].
  - apply in_map_iff in X. destruct X as (k' & E & X). injection E as -> ->. right. split; [reflexivity|apply Fi, X].
  - left. apply in_keys in X. apply F, X.
Qed.
Lemma ss_nodup {A} (R : A -> A -> Prop) l : (forall x, ~ R x x) -> StronglySorted R l -> NoDup l.
Proof. intros I0 H. induction H as [|a l S0 IH F]; constructor; [|exact IH]. intros X. rewrite Forall_forall in F. exact (I0 a (F a X)). Qed.
Lemma ss_lift {A B} (f : A -> B) (R : A -> A -> Prop) (Q : B -> B -> Prop) l : (forall x y, R x y -> Q (f x) (f y)) -> StronglySorted R l -> StronglySorted Q (map f l).
Proof. intros I0 H. induction H as [|a l S0 IH F]; cbn; constructor; [exact IH|]. rewrite Forall_forall in *. intros y Hy. apply in_map_iff in Hy. destruct Hy as (x & <- & Hx). apply I0, F, Hx. Qed.
Lemma ss_unmap {A B} (f : A -> B) (Q : B -> B -> Prop) l : StronglySorted Q (map f l) -> StronglySorted (fun x y => Q (f x) (f y)) l.
Proof. induction l as [|a l IH]; intros H; [constructor|]. cbn in H. inversion H as [|? ? H1 H2]; subst. constructor; [apply IH, H1|]. rewrite Forall_forall in *. intros y Hy. apply H2, in_map, Hy. Qed.

Theorem produce_written o : produce pl run = Ok o -> written pl run o.
Proof.
  intros E. destruct (produce_ok o E) as [Fi Eo]. destruct planes_spec as [Ps Pi].
  assert (Ent : forall k id p hs, nth_error o k = Some (id, p, hs) -> id = k /\ exists i, nth_error (keys (planes_in pl)) k = Some (p, i) /\ hs = FF (p, i) /\ In p (planes_in pl) /\ i < snd (ans p) /\ FF (p, i) <> []).
  { intros k id p hs H. rewrite Eo in H. destruct (number_nth _ _ _ _ _ H) as ([q i] & Hx & X). cbn [fst snd] in X. injection X as -> -> ->. split; [reflexivity|]. exists i. split; [exact Hx|]. split; [reflexivity|]. apply in_keys. apply (nth_error_In _ _ Hx). }
  assert (Mem : forall p i h, In p (planes_in pl) -> i < snd (ans p) -> (In h (FF (p, i)) <-> exists j, nth_error (fst (ans p)) j = Some (In_ i) /\ nth_error (hits_of_plane pl p) j = Some h)).
  { intros p i h Hp Hi. unfold FF. cbn [fst snd]. rewrite in_sel. split; intros (j & A & B'); exists j; (split; [exact A|]).
    - rewrite (nth_error_nth' _ 0) by (apply (proj2 (Fi p Hp) j i Hi A)). congruence.
    - apply nth_error_nth. exact B'. }
  assert (Nh : forall p, NoDup (hits_of_plane pl p)) by (intros p; apply (ss_nodup lt); [lia|apply (hits_on p)]).
  constructor.
  - intros k id p hs H. apply (Ent k id p hs H).
  - intros id p hs H. apply In_nth_error in H. destruct H as [k H]. destruct (Ent k id p hs H) as (_ & i & _ & -> & Hp & Hi & N). exists (hits_of_plane pl p), (fst (ans p)), (snd (ans p)), i.
    split; [apply hits_on|]. split; [rewrite (proj1 (Fi p Hp)); destruct (ans p); reflexivity|]. split; [exact Hi|]. split; [exact N|]. split.
    + unfold FF, sel. cbn [fst snd]. apply ss_map_nth; [apply hits_on|apply sorted_filter_seq|]. intros j Hj. apply filter_In in Hj. destruct Hj as [Hj X]. apply in_seq in Hj. apply (proj2 (Fi p Hp) j i Hi). rewrite (nth_error_nth' _ Free) by lia. f_equal. unfold isin in X. destruct (nth j (fst (ans p)) Free); try discriminate. apply Nat.eqb_eq in X. congruence.
    + intros j h Hj. rewrite (Mem p i h Hp Hi). split; [|intros X; exists j; auto]. intros (j' & A & B'). replace j with j'; [exact A|]. apply (proj1 (NoDup_nth_error (hits_of_plane pl p)) (Nh p)); [apply nth_error_Some; congruence|congruence].
  - intros p all ls k h j c [So Sa] Ne Er Hj Lj Lc. assert (Ea : all = hits_of_plane pl p) by (apply sorted_eq; [exact So|apply (hits_on p)|]; intros x; rewrite Sa; symmetry; apply (hits_on p)). subst all.
    assert (Hp : In p (planes_in pl)) by (apply Pi; apply (nth_error_In pl h); apply Sa; apply (nth_error_In _ _ Hj)).
    assert (An : ans p = (ls, k)) by (unfold ans; rewrite Er; reflexivity).
    assert (Hh : In h (FF (p, c))) by (apply Mem; [exact Hp|rewrite An; exact Lc|]; exists j; rewrite An; auto).
    assert (K : In (p, c) (keys (planes_in pl))) by (apply in_keys; rewrite An; split; [exact Hp|]; split; [exact Lc|]; intros X; rewrite X in Hh; destruct Hh).
    destruct (number_in FF 0 _ _ K) as [id X]. exists id, (FF (p, c)). rewrite Eo. auto.
  - intros k1 k2 i1 i2 p1 p2 h1 h2 h H1 H2 I1 I2. destruct (Ent _ _ _ _ H1) as (_ & c1 & K1 & -> & P1 & C1 & _). destruct (Ent _ _ _ _ H2) as (_ & c2 & K2 & -> & P2 & C2 & _).
    apply (Mem p1 c1 h P1 C1) in I1. apply (Mem p2 c2 h P2 C2) in I2. destruct I1 as (j1 & A1 & B1). destruct I2 as (j2 & A2 & B2).
    pose proof (proj1 (proj2 (hits_on p1) h) (nth_error_In _ _ B1)) as X1. pose proof (proj1 (proj2 (hits_on p2) h) (nth_error_In _ _ B2)) as X2. assert (p2 = p1) by congruence. subst p2.
    assert (j1 = j2) by (apply (proj1 (NoDup_nth_error (hits_of_plane pl p1)) (Nh p1)); [apply nth_error_Some; congruence|congruence]). subst j2. assert (c2 = c1) by congruence. subst c2.
    assert (Nk : NoDup (keys (planes_in pl))) by (apply (ss_nodup (fun e f => fst e < fst f \/ (fst e = fst f /\ snd e < snd f))); [intros [a b]; cbn; lia|apply keys_sorted, Ps]).
    apply (proj1 (NoDup_nth_error (keys (planes_in pl))) Nk); [apply nth_error_Some; congruence|congruence].
  - apply (ss_unmap (fun e => snd (fst e)) le). rewrite Eo, number_map. apply (ss_lift fst (fun e f => fst e < fst f \/ (fst e = fst f /\ snd e < snd f))); [intros; lia|apply keys_sorted, Ps].
Qed.
End P.
