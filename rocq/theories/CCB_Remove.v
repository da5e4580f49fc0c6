(** RemoveObsoleteHits and what ClusterCrawler::produce writes. *)
From Verif Require Import Base SortUtil CCB_Model CCB_Spec CCB_Store CCB_Hist CCB_Check.
Local Open Scope nat_scope.

(** hit [h] is not obsolete *)
Definition keeps (i : list Z) (h : nat) : bool := match nth_error i h with Some v => (0 <=? v)%Z | None => false end.
(** the number of hits kept before hit [h]: its new place *)
Definition rank (i : list Z) (h : nat) : nat := length (filter (keeps i) (seq 0 h)).
(** the list without the places of obsolete hits *)
Definition kept {A} (i : list Z) (l : list A) : list A := flat_map (fun h => if keeps i h then match nth_error l h with Some x => [x] | None => [] end else []) (seq 0 (length l)).

Lemma rank_S i h : rank i (S h) = rank i h + (if keeps i h then 1 else 0).
Proof. unfold rank. rewrite seq_S, filter_app, app_length. simpl. destruct (keeps i h); reflexivity. Qed.
Lemma rank_le i h : rank i h <= h.
Proof. induction h as [|h IH]; [auto|]. rewrite rank_S. destruct (keeps i h); lia. Qed.
Lemma rank_mono i a b : a <= b -> rank i a <= rank i b.
Proof. induction 1 as [|b _ IH]; [auto|]. rewrite rank_S. lia. Qed.
Lemma rank_lt i a b : a < b -> keeps i a = true -> rank i a < rank i b.
Proof. intros L K. pose proof (rank_mono i (S a) b L) as M. rewrite rank_S, K in M. lia. Qed.
Lemma rank_inj i a b : keeps i a = true -> keeps i b = true -> rank i a = rank i b -> a = b.
Proof. intros Ka Kb E. destruct (lt_eq_lt_dec a b) as [[L|L]|L]; [pose proof (rank_lt i a b L Ka); lia|auto|pose proof (rank_lt i b a L Kb); lia]. Qed.

Definition keptn {A} (i : list Z) (l : list A) (n : nat) : list A := flat_map (fun h => if keeps i h then match nth_error l h with Some x => [x] | None => [] end else []) (seq 0 n).
Lemma keptn_S {A} i (l : list A) n : keptn i l (S n) = keptn i l n ++ (if keeps i n then match nth_error l n with Some x => [x] | None => [] end else []).
Proof. unfold keptn. rewrite seq_S, flat_map_app. simpl. rewrite app_nil_r. reflexivity. Qed.
Lemma keptn_len {A} i (l : list A) n : n <= length l -> length (keptn i l n) = rank i n.
Proof.
  induction n as [|n IH]; intros L; [reflexivity|]. rewrite keptn_S, app_length, IH, rank_S by lia. destruct (keeps i n); [|simpl; lia]. destruct (nth_error l n) eqn:E; [reflexivity|apply nth_error_None in E; lia].
Qed.
Lemma keptn_nth {A} i (l : list A) n h : n <= length l -> h < n -> keeps i h = true -> nth_error (keptn i l n) (rank i h) = nth_error l h.
Proof.
  induction n as [|n IH]; intros L Hh K; [lia|]. rewrite keptn_S. destruct (Nat.eq_dec h n) as [-> |Ne].
  - rewrite nth_error_app2 by (rewrite keptn_len; lia). rewrite keptn_len, Nat.sub_diag, K by lia. destruct (nth_error l n) eqn:E; [reflexivity|apply nth_error_None in E; lia].
  - rewrite nth_error_app1; [apply IH; auto; lia|]. rewrite keptn_len by lia. apply rank_lt; [lia|auto].
Qed.
Lemma keptn_inv {A} i (l : list A) n j x : n <= length l -> nth_error (keptn i l n) j = Some x -> exists h, h < n /\ keeps i h = true /\ rank i h = j /\ nth_error l h = Some x.
Proof.
  induction n as [|n IH]; intros L E; [destruct j; discriminate|]. rewrite keptn_S in E. destruct (lt_dec j (rank i n)) as [Q|Q].
  - rewrite nth_error_app1 in E by (rewrite keptn_len; lia). destruct (IH ltac:(lia) E) as (h & A1 & A2). exists h. split; [lia|auto].
  - rewrite nth_error_app2 in E by (rewrite keptn_len; lia). rewrite keptn_len in E by lia. destruct (keeps i n) eqn:K; [|destruct (j - rank i n); discriminate].
    destruct (nth_error l n) eqn:En; [|destruct (j - rank i n); discriminate]. destruct (j - rank i n) as [|m] eqn:Q2; [|destruct m; discriminate]. injection E as <-. exists n. split; [lia|]. split; [auto|]. split; [lia|auto].
Qed.

Lemma replace1_map l a b : NoDup l -> replace1 l a b = map (fun h => if h =? a then b else h) l.
Proof.
  induction 1 as [|x l Nx Nd IH]; [reflexivity|]. cbn [replace1 map]. destruct (x =? a) eqn:Q.
  - f_equal. apply Nat.eqb_eq in Q. subst x. clear -Nx. induction l as [|y l IH]; [reflexivity|]. simpl. destruct (y =? a) eqn:Q; [apply Nat.eqb_eq in Q; subst; destruct Nx; left; auto|]. f_equal. apply IH. intros I. apply Nx. right. auto.
  - f_equal. apply IH.
Qed.
Lemma nodup_map_in {A B} (f : A -> B) l : (forall x y, In x l -> In y l -> f x = f y -> x = y) -> NoDup l -> NoDup (map f l).
Proof.
  intros Inj N. induction N as [|x l Nx N IH]; [constructor|]. simpl. constructor; [|apply IH; intros a b Ia Ib; apply Inj; right; auto].
  intros I. apply in_map_iff in I. destruct I as (y & Q & I). apply Nx. rewrite <- (Inj y x); [auto|right; auto|left; auto|auto].
Qed.

Section R.
Variable s : st.
Hypothesis Hc : consistent s.
Hypothesis Hnd : forall k c, live s k c -> NoDup (ch c).
Hypothesis Hid : numbered s.
Notation r := (rank (inc s)).

(** the clusters when the hits before [n] have moved *)
Definition moved (n : nat) (c : clus) : clus := if (0 <? cid c)%Z then set_ch c (map (fun h => if h <? n then r h else h) (ch c)) else c.
Definition inv (n : nat) (sd : st * nat) : Prop :=
  snd sd = r n /\ length (hits (fst sd)) = length (hits s) /\ length (inc (fst sd)) = length (hits s) /\
  firstn (r n) (hits (fst sd)) = keptn (inc s) (hits s) n /\ firstn (r n) (inc (fst sd)) = keptn (inc s) (inc s) n /\
  (forall h, n <= h -> nth_error (hits (fst sd)) h = nth_error (hits s) h) /\ (forall h, n <= h -> nth_error (inc (fst sd)) h = nth_error (inc s) h) /\
  tcl (fst sd) = map (moved n) (tcl s) /\ ncl (fst sd) = ncl s /\ vtx (fst sd) = vtx s.

Lemma firstn_upd {A} (l : list A) n x : n < length l -> firstn (S n) (upd l n x) = firstn n l ++ [x].
Proof.
  revert n. induction l as [|a l IH]; intros n L; [simpl in L; lia|]. destruct n as [|n]; [reflexivity|]. simpl in L. change (firstn (S (S n)) (upd (a :: l) (S n) x)) with (a :: firstn (S n) (upd l n x)). rewrite IH by lia. reflexivity.
Qed.
Lemma firstn_S' {A} (l : list A) n x : nth_error l n = Some x -> firstn (S n) l = firstn n l ++ [x].
Proof. revert n. induction l as [|a l IH]; intros [|n] E; try discriminate; [injection E as <-; reflexivity|]. simpl in E. change (firstn (S (S n)) (a :: l)) with (a :: firstn (S n) l). rewrite (IH n E). reflexivity. Qed.

Lemma live_hit k c h : live s k c -> In h (ch c) -> keeps (inc s) h = true /\ h < length (hits s).
Proof.
  intros Lv I. pose proof (q_own s Hc k c h Lv I) as E. split; [unfold keeps; rewrite E; apply Z.leb_le; lia|]. rewrite <- (q_len s Hc). apply nth_error_Some. congruence.
Qed.
Lemma moved_skip n c k : nth_error (tcl s) k = Some c -> (~ (live s k c /\ In n (ch c)) \/ r n = n) -> moved (S n) c = moved n c.
Proof.
  intros Ek Or. unfold moved. destruct (0 <? cid c)%Z eqn:Q; [|reflexivity]. apply Z.ltb_lt in Q. f_equal. apply map_ext_in. intros h I.
  destruct (Nat.eq_dec h n) as [-> |Ne].
  - assert (B : (n <? S n) = true) by (apply Nat.ltb_lt; lia). rewrite B, Nat.ltb_irrefl. destruct Or as [N|N]; [exfalso; apply N; split; [split; auto|auto]|auto].
  - destruct (h <? n) eqn:B; [apply Nat.ltb_lt in B; assert (B2 : (h <? S n) = true) by (apply Nat.ltb_lt; lia); rewrite B2; reflexivity|].
    apply Nat.ltb_ge in B. assert (B2 : (h <? S n) = false) by (apply Nat.ltb_ge; lia). rewrite B2. reflexivity.
Qed.
Lemma moved_map_skip n : (forall k c, nth_error (tcl s) k = Some c -> ~ (live s k c /\ In n (ch c)) \/ r n = n) -> map (moved (S n)) (tcl s) = map (moved n) (tcl s).
Proof. intros F. apply map_ext_in. intros c I. apply In_nth_error in I. destruct I as (k & Ek). eapply moved_skip; eauto. Qed.

Lemma moved_step n k c : live s k c -> In n (ch c) -> moved (S n) c = set_ch (moved n c) (replace1 (ch (moved n c)) n (r n)).
Proof.
  intros Lv I. pose proof Lv as (Ek & Q). assert (B0 : (0 <? cid c)%Z = true) by (apply Z.ltb_lt; auto). unfold moved. rewrite B0. cbn [ch set_ch]. rewrite replace1_map.
  - rewrite map_map. unfold set_ch. cbn [cid proc cctp bw ew bv ev ch]. f_equal. apply map_ext_in. intros h Ih. destruct (Nat.eq_dec h n) as [-> |Ne].
    + assert (B : (n <? S n) = true) by (apply Nat.ltb_lt; lia). rewrite B, Nat.ltb_irrefl, Nat.eqb_refl. reflexivity.
    + destruct (h <? n) eqn:B.
      * apply Nat.ltb_lt in B. assert (B2 : (h <? S n) = true) by (apply Nat.ltb_lt; lia). rewrite B2. destruct (r h =? n) eqn:B3; [|reflexivity]. apply Nat.eqb_eq in B3. pose proof (rank_le (inc s) h). lia.
      * apply Nat.ltb_ge in B. assert (B2 : (h <? S n) = false) by (apply Nat.ltb_ge; lia). rewrite B2. destruct (h =? n) eqn:B3; [apply Nat.eqb_eq in B3; lia|reflexivity].
  - apply nodup_map_in; [|apply (Hnd k c Lv)]. intros x y Ix Iy. destruct (live_hit k c x Lv Ix) as (Kx & _). destruct (live_hit k c y Lv Iy) as (Ky & _).
    destruct (x <? n) eqn:Bx, (y <? n) eqn:By; intros E; auto.
    + apply (rank_inj (inc s)); auto.
    + apply Nat.ltb_lt in Bx. apply Nat.ltb_ge in By. pose proof (rank_le (inc s) x). lia.
    + apply Nat.ltb_ge in Bx. apply Nat.ltb_lt in By. pose proof (rank_le (inc s) y). lia.
Qed.

Lemma step_ok n sd : n < length (hits s) -> inv n sd -> exists sd', rm_step sd n = Ok sd' /\ inv (S n) sd'.
Proof.
  intros Ln (I1 & I2 & I3 & I4 & I5 & I6 & I7 & I8 & I9 & I10). destruct sd as (t & dst). cbn [fst snd] in *. subst dst. pose proof (q_len s Hc) as L. pose proof (rank_le (inc s) n) as Rl.
  destruct (nth_error (inc s) n) as [v|] eqn:Ev; [|apply nth_error_None in Ev; lia]. destruct (nth_error (hits s) n) as [x|] eqn:Ex; [|apply nth_error_None in Ex; lia].
  cbn [rm_step]. rewrite (idx_some _ n v) by (rewrite I7; auto). cbn [obind].
  assert (Kn : keeps (inc s) n = (0 <=? v)%Z) by (unfold keeps; rewrite Ev; reflexivity).
  destruct (v <? 0)%Z eqn:Q.
  - apply Z.ltb_lt in Q. assert (B : (0 <=? v)%Z = false) by (apply Z.leb_gt; lia). rewrite B in Kn. eexists. split; [reflexivity|]. unfold inv. cbn [fst snd]. rewrite rank_S, !keptn_S, Kn, Nat.add_0_r, !app_nil_r.
    assert (M : map (moved (S n)) (tcl s) = map (moved n) (tcl s)).
    { apply moved_map_skip. intros k c Ek. left. intros (Lv & I). destruct (live_hit k c n Lv I). congruence. }
    do 5 (split; [auto|]). split; [intros h Hh; apply I6; lia|]. split; [intros h Hh; apply I7; lia|]. rewrite M. auto.
  - apply Z.ltb_ge in Q. assert (B : (0 <=? v)%Z = true) by (apply Z.leb_le; lia). rewrite B in Kn. destruct (n =? r n) eqn:Qr.
    + apply Nat.eqb_eq in Qr. eexists. split; [reflexivity|]. unfold inv. cbn [fst snd]. rewrite rank_S, !keptn_S, Kn, Ev, Ex. replace (r n + 1) with (S (r n)) by lia. split; [auto|]. split; [auto|]. split; [auto|].
      split; [rewrite (firstn_S' _ _ x) by (rewrite <- Qr, I6; auto); rewrite I4; reflexivity|]. split; [rewrite (firstn_S' _ _ v) by (rewrite <- Qr, I7; auto); rewrite I5; reflexivity|].
      split; [intros h Hh; apply I6; lia|]. split; [intros h Hh; apply I7; lia|]. rewrite moved_map_skip; auto.
    + apply Nat.eqb_neq in Qr. rewrite (idx_some _ n x) by (rewrite I6; auto). cbn [obind]. rewrite !set_idx_ok by lia. cbn [obind].
      assert (G : exists t', (if (0 <? v)%Z then do c <- idx (tcl t) (Z.to_nat v - 1); Ok (ST (upd (hits t) (r n) x) (upd (inc t) (r n) v) (upd (tcl t) (Z.to_nat v - 1) (set_ch c (replace1 (ch c) n (r n)))) (ncl t) (vtx t), S (r n))
               else Ok (ST (upd (hits t) (r n) x) (upd (inc t) (r n) v) (tcl t) (ncl t) (vtx t), S (r n))) = Ok (ST (upd (hits t) (r n) x) (upd (inc t) (r n) v) t' (ncl t) (vtx t), S (r n)) /\ t' = map (moved (S n)) (tcl s)).
      { destruct (0 <? v)%Z eqn:Qv.
        - apply Z.ltb_lt in Qv. destruct (q_back s Hc n v Ev Qv) as (k & c & -> & Lv & In'). pose proof Lv as (Ek & Hp). replace (Z.to_nat (Z.of_nat (S k)) - 1) with k by lia.
          rewrite (idx_some _ k (moved n c)) by (rewrite I8, nth_error_map, Ek; reflexivity). cbn [obind]. eexists. split; [reflexivity|]. rewrite <- (moved_step n k c Lv In'), I8.
          apply nth_ext'; [rewrite upd_length, !map_length; auto|]. intros j Hj. rewrite upd_length, map_length in Hj. rewrite nth_error_upd, map_length, !nth_error_map. destruct (j =? k) eqn:B2.
          + apply Nat.eqb_eq in B2. subst j. apply Nat.ltb_lt in Hj. rewrite Hj, Ek. reflexivity.
          + cbn [andb]. apply Nat.eqb_neq in B2. destruct (nth_error (tcl s) j) as [d|] eqn:Ed; [|reflexivity]. cbn [option_map]. f_equal. symmetry. apply (moved_skip n d j Ed). left. intros (Ld & Id). apply B2.
            pose proof (q_own s Hc j d n Ld Id) as X. rewrite Ev in X. injection X as X. lia.
        - apply Z.ltb_ge in Qv. eexists. split; [reflexivity|]. rewrite I8. symmetry. apply moved_map_skip. intros k c Ek. left. intros (Lv & I). pose proof (q_own s Hc k c n Lv I) as X. rewrite Ev in X. injection X as X. lia. }
      destruct G as (t' & G & Et). eexists. split; [exact G|]. unfold inv. cbn [fst snd hits inc tcl ncl vtx]. rewrite rank_S, !keptn_S, Kn, Ev, Ex, !upd_length. replace (r n + 1) with (S (r n)) by lia. split; [auto|]. split; [auto|]. split; [auto|].
      split; [rewrite firstn_upd by lia; rewrite I4; reflexivity|]. split; [rewrite firstn_upd by lia; rewrite I5; reflexivity|].
      split; [intros h Hh; rewrite nth_error_upd; destruct (h =? r n) eqn:B2; [apply Nat.eqb_eq in B2; lia|apply I6; lia]|].
      split; [intros h Hh; rewrite nth_error_upd; destruct (h =? r n) eqn:B2; [apply Nat.eqb_eq in B2; lia|apply I7; lia]|]. auto.
Qed.

Theorem remove_ok : exists s', remove_obsolete s = Ok s' /\ hits s' = kept (inc s) (hits s) /\ inc s' = kept (inc s) (inc s) /\ ncl s' = ncl s /\ vtx s' = vtx s /\
  tcl s' = map (fun c => if (0 <? cid c)%Z then set_ch c (map r (ch c)) else c) (tcl s).
Proof.
  unfold remove_obsolete. pose proof (q_len s Hc) as L. rewrite L, Nat.eqb_refl. cbn [negb].
  assert (F : forall m n sd, n + m = length (hits s) -> inv n sd -> exists sd', for_ (seq n m) rm_step sd = Ok sd' /\ inv (length (hits s)) sd').
  { induction m as [|m IH]; intros n sd E Iv; cbn [seq for_]; [exists sd; split; [reflexivity|]; replace (length (hits s)) with n by lia; auto|].
    destruct (step_ok n sd ltac:(lia) Iv) as (sd1 & E1 & I1). rewrite E1. cbn [obind]. apply IH; [lia|auto]. }
  destruct (F (length (hits s)) 0 (s, 0)) as ((t & dst) & E & Iv); [reflexivity| |].
  { unfold inv. cbn [fst snd]. split; [reflexivity|]. split; [auto|]. split; [auto|]. split; [reflexivity|]. split; [reflexivity|]. split; [auto|]. split; [auto|]. split; [|auto].
    rewrite <- (map_id (tcl s)) at 1. apply map_ext. intros c. unfold moved. destruct (0 <? cid c)%Z; [|reflexivity]. rewrite map_id. destruct c; reflexivity. }
  rewrite E. cbn [obind]. destruct Iv as (J1 & J2 & J3 & J4 & J5 & _ & _ & J8 & J9 & J10). cbn [fst snd] in *. subst dst. eexists. split; [reflexivity|]. cbn [hits inc tcl ncl vtx].
  split; [exact J4|]. split; [unfold kept; rewrite L; exact J5|]. split; [auto|]. split; [auto|]. rewrite J8. apply map_ext_in. intros c I. apply In_nth_error in I. destruct I as (k & Ek). unfold moved. destruct (0 <? cid c)%Z eqn:Q; [|reflexivity]. f_equal.
  apply map_ext_in. intros h Ih. apply Z.ltb_lt in Q. destruct (live_hit k c h (conj Ek Q) Ih) as (_ & B). apply Nat.ltb_lt in B. rewrite B. reflexivity.
Qed.
End R.

Lemma kept_keptn {A} i (l : list A) : kept i l = keptn i l (length l). Proof. reflexivity. Qed.

(** the clusters after the hits are renumbered hold the same hits, and the book-keeping agrees again *)
Theorem remove_consistent s s' : consistent s -> numbered s -> (forall k c, live s k c -> good (hits s) c) -> remove_obsolete s = Ok s' ->
  consistent s' /\ numbered s' /\ (forall h v, nth_error (inc s') h = Some v -> (0 <= v)%Z) /\
  (forall k c', live s' k c' -> good (hits s') c') /\
  (forall k c, live s k c -> exists c', live s' k c' /\ cctp c' = cctp c /\ map (nth_error (hits s')) (ch c') = map (nth_error (hits s)) (ch c)).
Proof.
  intros Hc Hid Hg E. destruct (remove_ok s Hc (fun k c Lv => g_nodup _ _ (Hg k c Lv))) as (t & E1 & R1 & R2 & R3 & R4 & R5). rewrite E in E1. injection E1 as <-. pose proof (q_len s Hc) as L.
  set (rk := rank (inc s)) in *.
  assert (Lv' : forall k c', live s' k c' <-> exists c, live s k c /\ c' = set_ch c (map rk (ch c))).
  { intros k c'. unfold live. rewrite R5, nth_error_map. destruct (nth_error (tcl s) k) as [c|] eqn:Ek; cbn [option_map].
    - destruct (0 <? cid c)%Z eqn:Q.
      + apply Z.ltb_lt in Q. split; [intros (A & B); injection A as <-; exists c; auto|intros (d & (A & B) & ->); injection A as <-; auto].
      + apply Z.ltb_ge in Q. split; [intros (A & B); injection A as <-; lia|intros (d & (A & B) & ->); injection A as <-; lia].
    - split; [intros (A & _); discriminate|intros (c & (A & _) & _); discriminate]. }
  assert (Hn : forall k c h, live s k c -> In h (ch c) -> nth_error (hits s') (rk h) = nth_error (hits s) h /\ nth_error (inc s') (rk h) = nth_error (inc s) h).
  { intros k c h Lv I. destruct (live_hit s Hc k c h Lv I) as (K & B). rewrite R1, R2, !kept_keptn. split; apply keptn_nth; auto; lia. }
  split; [constructor|split; [|split; [|split]]].
  - rewrite R1, R2, !kept_keptn, !keptn_len by lia. rewrite L. reflexivity.
  - intros k c' h' A I. apply Lv' in A. destruct A as (c & Lv & ->). cbn [ch set_ch] in I. apply in_map_iff in I. destruct I as (h & <- & I). rewrite (proj2 (Hn k c h Lv I)). apply (q_own s Hc k c h Lv I).
  - intros h' v Ev Hv. rewrite R2, kept_keptn in Ev. apply keptn_inv in Ev; [|auto]. destruct Ev as (h & _ & K & <- & Ev). destruct (q_back s Hc h v Ev Hv) as (k & c & -> & Lv & I).
    exists k, (set_ch c (map rk (ch c))). split; [auto|]. split; [apply Lv'; eauto|]. cbn [ch set_ch]. apply in_map. auto.
  - intros k c' A. rewrite R5, nth_error_map in A. destruct (nth_error (tcl s) k) as [c|] eqn:Ek; [|discriminate]. cbn [option_map] in A. injection A as <-. destruct (0 <? cid c)%Z; apply (Hid k c Ek).
  - intros h' v Ev. rewrite R2, kept_keptn in Ev. apply keptn_inv in Ev; [|auto]. destruct Ev as (h & _ & K & _ & Ev). unfold keeps in K. rewrite Ev in K. apply Z.leb_le. auto.
  - intros k c' A. apply Lv' in A. destruct A as (c & Lv & ->). pose proof (Hg k c Lv) as G. destruct (ch c) as [|h0 t0] eqn:Ech; [destruct G as [G2]; rewrite Ech in G2; simpl in G2; lia|].
    assert (In0 : In h0 (ch c)) by (rewrite Ech; left; auto).
    assert (Inl : In (last (ch c) 0) (ch c)) by (apply last_in; rewrite Ech; discriminate).
    assert (Lm : forall (l : list nat), l <> [] -> last (map rk l) 0 = rk (last l 0)).
    { induction l as [|a l IH]; [contradiction|]. intros _. destruct l as [|b l]; [reflexivity|]. change (last (map rk (b :: l)) 0 = rk (last (b :: l) 0)). apply IH. discriminate. }
    rewrite <- Ech. constructor; cbn [ch set_ch cctp bw ew].
    + rewrite map_length. apply (g_two _ _ G).
    + apply nodup_map_in; [|apply (g_nodup _ _ G)]. intros x y Ix Iy. apply rank_inj; [apply (live_hit s Hc k c x Lv Ix)|apply (live_hit s Hc k c y Lv Iy)].
    + intros h' I. apply in_map_iff in I. destruct I as (h & <- & I). destruct (g_plane _ _ G h I) as (x & X & Y). exists x. rewrite (proj1 (Hn k c h Lv I)). auto.
    + rewrite (g_bw _ _ G), Ech. cbn [hd map]. unfold wire. rewrite (proj1 (Hn k c h0 Lv In0)). reflexivity.
    + rewrite (g_ew _ _ G), Lm by (rewrite Ech; discriminate). unfold wire. rewrite (proj1 (Hn k c _ Lv Inl)). reflexivity.
  - intros k c Lv. exists (set_ch c (map rk (ch c))). split; [apply Lv'; eauto|]. split; [reflexivity|]. cbn [ch set_ch]. rewrite map_map. apply map_ext_in. intros h I. apply (Hn k c h Lv I).
Qed.
