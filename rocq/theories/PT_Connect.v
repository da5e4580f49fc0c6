From Verif Require Import Base Util SortedObj_Model SortedObj_Spec SortedObj_Proofs PT_Model PT_Spec PT_Proofs PT_Ids CMComb_Proofs.
Import PT_Spec.

Section Connect.
Context (w : world) (Hw : wf w) (cs0 : list cand) (Hc : holds w cs0) (Hv : forall c, In c cs0 -> c_trk c <> None).
Notation h := (w_heap w).
Notation N := (length cs0).
Definition dummy : cand := mkC None 0 0 [] 0 [].
Definition rep (P : nat -> Z) (D : nat -> list nat) : list cand := map (fun j => set_dau (set_parent (nth j cs0 dummy) (P j)) (D j)) (seq 0 N).
Definition upf {A} (f : nat -> A) (j : nat) (x : A) (i : nat) : A := if i =? j then x else f i.

Lemma rep_len P D : length (rep P D) = N.
Proof. unfold rep. rewrite map_length, seq_length. reflexivity. Qed.
Lemma rep_nth P D j : j < N -> nth_error (rep P D) j = Some (set_dau (set_parent (nth j cs0 dummy) (P j)) (D j)).
Proof. intros Hj. unfold rep. rewrite (map_nth_error _ j (seq 0 N) (d := j)); [reflexivity|]. rewrite (nth_error_nth' _ 0); [rewrite seq_nth by exact Hj; reflexivity|rewrite seq_length; exact Hj]. Qed.
Lemma rep_none P D j : N <= j -> nth_error (rep P D) j = None.
Proof. intros Hj. apply nth_error_None. rewrite rep_len. exact Hj. Qed.
Lemma rep_idx P D j : j < N -> idx (rep P D) j = Ok (set_dau (set_parent (nth j cs0 dummy) (P j)) (D j)).
Proof. intros Hj. unfold idx. rewrite rep_nth by exact Hj. reflexivity. Qed.
Lemma rep_ext P D P' D' : (forall j, j < N -> P j = P' j) -> (forall j, j < N -> D j = D' j) -> rep P D = rep P' D'.
Proof. intros H1 H2. unfold rep. apply map_ext_in. intros j Hj. apply in_seq in Hj. rewrite H1, H2 by lia. reflexivity. Qed.
Lemma rep_nth_d P D j : j < N -> nth j (rep P D) dummy = set_dau (set_parent (nth j cs0 dummy) (P j)) (D j).
Proof. intros Hj. apply nth_error_nth. apply rep_nth. exact Hj. Qed.
Lemma rep_set P D j x p d : j < N -> x = set_dau (set_parent (nth j cs0 dummy) p) d -> set_idx (rep P D) j x = Ok (rep (upf P j p) (upf D j d)).
Proof.
  intros Hj Ex. rewrite set_idx_ok by (rewrite rep_len; exact Hj). f_equal. apply (nth_ext_length dummy); [rewrite upd_length, !rep_len; reflexivity|]. intros i Hi. rewrite upd_length, rep_len in Hi. rewrite nth_upd, rep_len, !rep_nth_d by exact Hi. unfold upf.
  destruct (Nat.eqb_spec i j) as [->|]; [|reflexivity]. destruct (Nat.ltb_spec j N); [|lia]. exact Ex.
Qed.
Lemma upf_same {A} (f : nat -> A) j : forall i, upf f j (f j) i = f i.
Proof. intros i. unfold upf. destruct (Nat.eqb_spec i j) as [->|]; reflexivity. Qed.
Lemma rep_set_parent P D j p : j < N -> set_idx (rep P D) j (set_parent (set_dau (set_parent (nth j cs0 dummy) (P j)) (D j)) p) = Ok (rep (upf P j p) D).
Proof. intros Hj. etransitivity; [apply (rep_set P D j _ p (D j) Hj); reflexivity|]. f_equal. apply rep_ext; [reflexivity|]. intros i _. apply upf_same. Qed.
Lemma rep_set_dau P D j d : j < N -> set_idx (rep P D) j (set_dau (set_dau (set_parent (nth j cs0 dummy) (P j)) (D j)) d) = Ok (rep P (upf D j d)).
Proof. intros Hj. etransitivity; [apply (rep_set P D j _ (P j) d Hj); reflexivity|]. f_equal. apply rep_ext; [|reflexivity]. intros i _. apply upf_same. Qed.
Lemma rep_trk P D : map c_trk (rep P D) = map c_trk cs0.
Proof.
  apply (nth_ext_length None); [rewrite !map_length, rep_len; reflexivity|]. intros i Hi. rewrite map_length, rep_len in Hi. change (@None nat) with (c_trk dummy). rewrite !map_nth, rep_nth_d by exact Hi. reflexivity.
Qed.
Lemma rep_index P D t : cand_index (rep P D) t = cand_index cs0 t.
Proof. apply cand_index_trks, rep_trk. Qed.

(** position of a track *)
Definition ix (u : nat) : nat := match cand_index cs0 (Some u) with Some k => k | None => 0 end.
Definition at_ (j u : nat) : Prop := exists c, nth_error cs0 j = Some c /\ c_trk c = Some u.
Lemma ix_ok u T : w_trk w u = Some T -> cand_index cs0 (Some u) = Some (ix u) /\ at_ (ix u) u.
Proof using Hc. intros E. destruct Hc as (A & _ & _). destruct (A u T E) as (c & Hin & Ec). destruct (cand_index_some cs0 u (ex_intro _ c (conj Hin Ec))) as (k & c' & X & Y & Z). unfold ix. rewrite X. split; [reflexivity|]. exists c'. auto. Qed.
Lemma at_lt j u : at_ j u -> j < N.
Proof. intros (c & E & _). apply nth_error_Some. congruence. Qed.
Lemma at_inj j j' u : at_ j u -> at_ j' u -> j = j'.
Proof using Hc. intros (c & E & F) (c' & E' & F'). destruct Hc as (_ & _ & C). exact (C j j' c c' u E E' F F'). Qed.
Lemma at_fun j u u' : at_ j u -> at_ j u' -> u = u'.
Proof. intros (c & E & F) (c' & E' & F'). congruence. Qed.
Lemma at_trk j u : at_ j u -> exists T, w_trk w u = Some T.
Proof using Hc. intros (c & E & F). destruct Hc as (_ & B & _). destruct (w_trk w u) as [T|] eqn:X; [eauto|]. exfalso. apply (B c u); [eapply nth_error_In; exact E|exact F|exact X]. Qed.
Lemma at_ix j u : at_ j u -> ix u = j.
Proof using Hc. intros A. destruct (at_trk j u A) as (T & E). destruct (ix_ok u T E) as (_ & B). exact (at_inj _ _ u B A). Qed.
Lemma at_ex j : j < N -> exists u, at_ j u.
Proof using Hv. intros Hj. destruct (nth_error cs0 j) as [c|] eqn:E; [|apply nth_error_None in E; lia]. destruct (c_trk c) as [u|] eqn:F; [exists u, c; auto|]. exfalso. apply (Hv c); [eapply nth_error_In; exact E|exact F]. Qed.
Lemma at_c j u : at_ j u -> c_trk (nth j cs0 dummy) = Some u.
Proof. intros (c & E & F). rewrite (nth_error_nth _ _ dummy E). exact F. Qed.

Definition nx (n : nat) : list nat := match h n with Some o => o_nexts o | None => [] end.
Definition kl (u n : nat) : list nat := map (fun s => ix (w_par w s)) (filter (fun s => negb (w_par w s =? u)) (nx n)).
Definition par_live (l : list nat) : Prop := forall s, In s l -> exists T, w_trk w (w_par w s) = Some T.

Lemma dau_inner P t u l : at_ t u -> par_live l -> forall D,
  foreach l (fun cs s => if Nat.eqb (w_par w s) u then Ok cs else match cand_index cs (Some (w_par w s)) with Some k => do ct <- idx cs t; set_idx cs t (set_dau ct (c_dau ct ++ [k])) | None => Ok cs end) (rep P D)
  = Ok (rep P (upf D t (D t ++ map (fun s => ix (w_par w s)) (filter (fun s => negb (w_par w s =? u)) l)))).
Proof using Hc.
  intros Ht. assert (Htl := at_lt _ _ Ht). induction l as [|s l IH]; intros Hl D; cbn [foreach filter].
  - cbn [map]. rewrite app_nil_r. f_equal. apply rep_ext; [reflexivity|]. intros j _. symmetry. apply upf_same.
  - assert (Hl' : par_live l) by (intros x Hx; apply Hl; right; exact Hx). destruct (Nat.eqb (w_par w s) u) eqn:E; cbn [negb].
    + cbn [obind]. apply IH. exact Hl'.
    + destruct (Hl s (or_introl eq_refl)) as (T & ET). destruct (ix_ok _ _ ET) as (X & _). rewrite rep_index, X, rep_idx by exact Htl. cbn [obind]. cbn [c_dau set_dau]. rewrite rep_set_dau by exact Htl. cbn [obind]. rewrite IH by exact Hl'. f_equal. apply rep_ext; [reflexivity|].
      intros j _. unfold upf. rewrite Nat.eqb_refl. destruct (j =? t); [|reflexivity]. rewrite <- app_assoc. reflexivity.
Qed.
Lemma dau_outer P t u ns : at_ t u -> (forall n, In n ns -> exists o, h n = Some o /\ par_live (o_nexts o)) -> forall D,
  foreach ns (fun cs n => do l <- nexts w n; foreach l (fun cs s => if Nat.eqb (w_par w s) u then Ok cs else match cand_index cs (Some (w_par w s)) with Some k => do ct <- idx cs t; set_idx cs t (set_dau ct (c_dau ct ++ [k])) | None => Ok cs end) cs) (rep P D)
  = Ok (rep P (upf D t (D t ++ flat_map (kl u) ns))).
Proof using Hc.
  intros Ht. induction ns as [|n ns IH]; intros Hn D; cbn [foreach flat_map].
  - rewrite app_nil_r. f_equal. apply rep_ext; [reflexivity|]. intros j _. symmetry. apply upf_same.
  - destruct (Hn n (or_introl eq_refl)) as (o & Eo & Hl). rewrite (nexts_ok w n o Eo). cbn [obind]. rewrite (dau_inner P t u _ Ht Hl). cbn [obind]. rewrite IH by (intros x Hx; apply Hn; right; exact Hx). f_equal. apply rep_ext; [reflexivity|].
    intros j _. unfold upf. rewrite Nat.eqb_refl. destruct (j =? t); [|reflexivity]. rewrite <- app_assoc. unfold kl at 2, nx. rewrite Eo. reflexivity.
Qed.
Lemma pri_loop D z l : par_live l -> forall P acc,
  foreach l (fun r s => match cand_index (fst r) (Some (w_par w s)) with
                        | Some k => do ck <- idx (fst r) k; do cs1 <- set_idx (fst r) k (set_parent ck z); Ok (cs1, snd r ++ [k])
                        | None => Ok r end) (rep P D, acc)
  = Ok (rep (fun j => if in_dec Nat.eq_dec j (map (fun s => ix (w_par w s)) l) then z else P j) D, acc ++ map (fun s => ix (w_par w s)) l).
Proof using Hc.
  induction l as [|s l IH]; intros Hl P acc; cbn [foreach].
  - cbn [map]. rewrite app_nil_r. reflexivity.
  - destruct (Hl s (or_introl eq_refl)) as (T & ET). destruct (ix_ok _ _ ET) as (X & Y). assert (Yl := at_lt _ _ Y). cbn [fst snd]. rewrite rep_index, X, rep_idx by exact Yl. cbn [obind]. rewrite rep_set_parent by exact Yl. cbn [obind].
    rewrite IH by (intros x Hx; apply Hl; right; exact Hx). f_equal. f_equal; [|rewrite <- app_assoc; reflexivity]. apply rep_ext; [|reflexivity]. intros j _. unfold upf. cbn [map].
    destruct (in_dec Nat.eq_dec j (map (fun s => ix (w_par w s)) l)) as [i|i]; destruct (in_dec Nat.eq_dec j (ix (w_par w s) :: map (fun s => ix (w_par w s)) l)) as [i'|i']; try reflexivity.
    + exfalso. apply i'. right. exact i.
    + destruct (Nat.eqb_spec j (ix (w_par w s))); [reflexivity|]. destruct i'; [congruence|contradiction].
    + destruct (Nat.eqb_spec j (ix (w_par w s))) as [e|]; [|reflexivity]. exfalso. apply i'. left. congruence.
Qed.

(** one step, read off *)
Lemma node_par n o : h n = Some o -> o_branch o = true -> par_live (o_nexts o).
Proof using Hw. intros E Hb s Hs. destruct (next_seg w Hw n o s E Hb Hs) as (T & _ & X & _). eauto. Qed.
Definition dl (u : nat) : list nat := match w_trk w u with Some T => flat_map (kl u) (tl (t_nodes T)) | None => [] end.
Definition pl (n : nat) : list nat := map (fun s => ix (w_par w s)) (nx n).
Lemma step_ok P D ps t u T n o : at_ t u -> w_trk w u = Some T -> nth_error (t_nodes T) 0 = Some n -> h n = Some o ->
  link_one w (rep P D, ps) t = Ok
    (match o_prev o with
     | Some s => (rep (upf P t (Z.of_nat (ix (w_par w s)))) (upf D t (D t ++ dl u)), ps)
     | None => if (P t <? 0)%Z
               then (rep (fun j => if in_dec Nat.eq_dec j (pl n) then Z.of_nat (N + length ps) else P j) (upf D t (D t ++ dl u)), ps ++ [mkC None (-1) (c_tree (nth t cs0 dummy)) [] (-1) (pl n)])
               else (rep P (upf D t (D t ++ dl u)), ps)
     end).
Proof using Hw Hc.
  intros Ht ET En Eo. assert (Htl := at_lt _ _ Ht). unfold link_one. cbn [fst snd]. rewrite rep_idx by exact Htl. cbn [obind]. cbn [c_trk set_dau set_parent]. rewrite (at_c t u Ht). cbn [deref_t]. rewrite ET. cbn [obind]. unfold front, idx at 1. rewrite En. cbn [obind]. rewrite (prev_ok w n o Eo). cbn [obind].
  assert (Hnodes : forall m, In m (tl (t_nodes T)) -> exists o, h m = Some o /\ par_live (o_nexts o)). { intros m Hm. apply tl_nth in Hm. destruct Hm as (i & Ei). destruct (node_live w Hw u T _ m ET Ei) as (om & Em & Hb). exists om. split; [exact Em|exact (node_par m om Em Hb)]. }
  assert (Edl : dl u = flat_map (kl u) (tl (t_nodes T))) by (unfold dl; rewrite ET; reflexivity). destruct (node_live w Hw u T _ n ET En) as (o' & Eo' & Hb). assert (o' = o) by congruence. subst o'.
  destruct (o_prev o) as [s|] eqn:Ep.
  - assert (HT : exists Tp, w_trk w (w_par w s) = Some Tp). { assert (X := parent_prev w Hw u T n o ET En Eo). rewrite Ep in X. destruct X as (_ & Tp & _ & _ & X & _). eauto. } destruct HT as (Tp & HTp). destruct (ix_ok _ _ HTp) as (X & _).
    rewrite rep_index, X, rep_set_parent by exact Htl. cbn [obind fst snd]. rewrite (dau_outer _ t u _ Ht Hnodes). cbn [obind]. rewrite <- Edl. reflexivity.
  - change (c_parent _) with (P t). change (c_tree _) with (c_tree (nth t cs0 dummy)). destruct (P t <? 0)%Z.
    + rewrite (nexts_ok w n o Eo). cbn [obind]. rewrite (pri_loop D _ (o_nexts o) (node_par n o Eo Hb)). cbn [obind fst snd]. rewrite (dau_outer _ t u _ Ht Hnodes). cbn [obind]. rewrite <- Edl. unfold pl, nx. rewrite Eo, rep_len, app_length. cbn [length app]. replace (N + (length ps + 1) - 1) with (N + length ps) by lia. reflexivity.
    + cbn [obind fst snd]. rewrite (dau_outer _ t u _ Ht Hnodes). cbn [obind]. rewrite <- Edl. reflexivity.
Qed.

(* ------------------------------------------------------------ what the lists hold *)
Lemma flat_nodup {A B} (f : A -> list B) l : NoDup l -> (forall x, In x l -> NoDup (f x)) -> (forall x y b, In x l -> In y l -> In b (f x) -> In b (f y) -> x = y) -> NoDup (flat_map f l).
Proof.
  intros Nl Nf Hd. induction Nl as [|x l Hx Nl IH]; cbn; [constructor|]. apply NoDup_app_intro; [apply Nf; left; reflexivity|apply IH; [intros y Hy; apply Nf; right; exact Hy|intros y z b Hy Hz; apply Hd; right; assumption]|].
  intros b Hb Hb'. apply in_flat_map in Hb'. destruct Hb' as (y & Hy & Hb'). apply Hx. rewrite (Hd x y b (or_introl eq_refl) (or_intror Hy) Hb Hb'). exact Hy.
Qed.
Lemma seg_unique n o s s' : h n = Some o -> o_branch o = true -> In s (o_nexts o) -> In s' (o_nexts o) -> ix (w_par w s) = ix (w_par w s') -> s = s'.
Proof using Hw Hc.
  intros Eo Hb H1 H2 E. destruct (next_seg w Hw n o s Eo Hb H1) as (T & i & A & B & C). destruct (next_seg w Hw n o s' Eo Hb H2) as (T' & i' & A' & B' & C').
  destruct (ix_ok _ _ A) as (_ & X). destruct (ix_ok _ _ A') as (_ & X'). rewrite <- E in X'. assert (Ep := at_fun _ _ _ X X'). rewrite <- Ep in A'. assert (T' = T) by congruence. subst T'. destruct (track_len w Hw _ _ A) as (Nd & _). rewrite NoDup_nth_error in Nd. assert (i = i') by (apply Nd; [apply nth_error_Some; congruence|congruence]). congruence.
Qed.
Lemma map_nodup_in {A B} (f : A -> B) l : NoDup l -> (forall x y, In x l -> In y l -> f x = f y -> x = y) -> NoDup (map f l).
Proof. intros N H. induction N as [|x l Hx N IH]; cbn; constructor; [|apply IH; intros; apply H; try (right; assumption); assumption]. intros Hin. apply in_map_iff in Hin. destruct Hin as (y & Hy & Hin). apply Hx. rewrite (H x y (or_introl eq_refl) (or_intror Hin)); [exact Hin|congruence]. Qed.
Lemma nexts_nodup n o : h n = Some o -> o_branch o = true -> NoDup (o_nexts o).
Proof using Hw. intros E Hb. assert (X := l_nodup _ (wf_linked _ Hw) n o E). unfold kids in X. rewrite Hb in X. exact X. Qed.
Lemma pl_nodup n o : h n = Some o -> o_branch o = true -> NoDup (pl n).
Proof using Hw Hc. intros E Hb. unfold pl, nx. rewrite E. apply map_nodup_in; [exact (nexts_nodup n o E Hb)|]. intros x y Hx Hy. exact (seg_unique n o x y E Hb Hx Hy). Qed.
Lemma pl_in n o j : h n = Some o -> o_branch o = true -> (In j (pl n) <-> exists v, at_ j v /\ leads_from w v n).
Proof using Hw Hc.
  intros E Hb. unfold pl, nx. rewrite E, in_map_iff. split.
  - intros (s & <- & Hs). destruct (next_seg w Hw n o s E Hb Hs) as (T & i & A & B & C). exists (w_par w s). destruct (ix_ok _ _ A) as (_ & X). split; [exact X|]. apply (leads_next w Hw n o _ E Hb). eauto.
  - intros (v & Hv' & Hl). apply (leads_next w Hw n o v E Hb) in Hl. destruct Hl as (s & Hs & <-). exists s. split; [exact (at_ix _ _ Hv')|exact Hs].
Qed.
Lemma kl_in u n o j : h n = Some o -> o_branch o = true -> (In j (kl u n) <-> exists v, at_ j v /\ v <> u /\ leads_from w v n).
Proof using Hw Hc.
  intros E Hb. unfold kl, nx. rewrite E, in_map_iff. split.
  - intros (s & <- & Hs). apply filter_In in Hs. destruct Hs as (Hs & Hn). destruct (next_seg w Hw n o s E Hb Hs) as (T & i & A & B & C). exists (w_par w s). destruct (ix_ok _ _ A) as (_ & X). split; [exact X|]. split; [destruct (Nat.eqb_spec (w_par w s) u); [discriminate|assumption]|]. apply (leads_next w Hw n o _ E Hb). eauto.
  - intros (v & Hv' & Hne & Hl). apply (leads_next w Hw n o v E Hb) in Hl. destruct Hl as (s & Hs & <-). exists s. split; [exact (at_ix _ _ Hv')|]. apply filter_In. split; [exact Hs|]. destruct (Nat.eqb_spec (w_par w s) u); [contradiction|reflexivity].
Qed.
(** a track other than u leading on from a later node of u is a branch of u *)
Lemma branch_iff u T v : w_trk w u = Some T -> (branch_of w u v <-> exists i n, nth_error (t_nodes T) (S i) = Some n /\ v <> u /\ leads_from w v n).
Proof using Hw.
  intros E. split.
  - intros (Hne & T0 & T' & n & E0 & E' & Hin & Hd). assert (T0 = T) by congruence. subst T0. apply tl_nth in Hin. destruct Hin as (i & Ei). exists i, n. split; [exact Ei|]. split; [congruence|]. exists T'. split; [exact E'|]. apply removelast_nth. exists 0. rewrite <- hd_nth. split; [|exact Hd]. destruct (track_len w Hw v T' E') as (_ & L2 & _). lia.
  - intros (i & n & Ei & Hne & T' & E' & Hin). apply removelast_nth in Hin. destruct Hin as (i' & Hi' & Ei'). assert (i' = 0) by exact (share w Hw u T i v T' i' n E E' Ei Ei' (not_eq_sym Hne)). subst i'. split; [congruence|]. exists T, T', n. repeat (split; [assumption|]). split; [apply tl_nth; eauto|rewrite hd_nth; exact Ei'].
Qed.
Lemma dl_in i u j : at_ i u -> (In j (dl u) <-> exists v, at_ j v /\ branch_of w u v).
Proof using Hw Hc.
  intros Hi. destruct (at_trk i u Hi) as (T & E). unfold dl. rewrite E, in_flat_map. split.
  - intros (n & Hn & Hj). apply tl_nth in Hn. destruct Hn as (k & Ek). destruct (node_live w Hw u T _ n E Ek) as (o & Eo & Hb). apply (kl_in u n o j Eo Hb) in Hj. destruct Hj as (v & A & B & C). exists v. split; [exact A|]. apply (branch_iff u T v E). eauto.
  - intros (v & A & B). apply (branch_iff u T v E) in B. destruct B as (k & n & Ek & Hne & Hl). exists n. split; [apply tl_nth; eauto|]. destruct (node_live w Hw u T _ n E Ek) as (o & Eo & Hb). apply (kl_in u n o j Eo Hb). eauto.
Qed.
Lemma dl_nodup u : NoDup (dl u).
Proof using Hw Hc.
  unfold dl. destruct (w_trk w u) as [T|] eqn:E; [|constructor]. destruct (track_len w Hw u T E) as (Nd & _).
  apply flat_nodup.
  - destruct (t_nodes T); [constructor|inversion Nd; assumption].
  - intros n Hn. apply tl_nth in Hn. destruct Hn as (k & Ek). destruct (node_live w Hw u T _ n E Ek) as (o & Eo & Hb). unfold kl, nx. rewrite Eo. apply map_nodup_in; [apply NoDup_filter, (nexts_nodup n o Eo Hb)|]. intros x y Hx Hy. apply filter_In in Hx, Hy. exact (seg_unique n o x y Eo Hb (proj1 Hx) (proj1 Hy)).
  - intros n n' j Hn Hn' Hj Hj'. apply tl_nth in Hn, Hn'. destruct Hn as (k & Ek). destruct Hn' as (k' & Ek'). destruct (node_live w Hw u T _ n E Ek) as (o & Eo & Hb). destruct (node_live w Hw u T _ n' E Ek') as (o' & Eo' & Hb').
    apply (kl_in u n o j Eo Hb) in Hj. apply (kl_in u n' o' j Eo' Hb') in Hj'. destruct Hj as (v & A & B & Tv & C & D). destruct Hj' as (v' & A' & B' & Tv' & C' & D'). assert (v' = v) by exact (at_fun j v' v A' A). subst v'. assert (Tv' = Tv) by congruence. subst Tv'.
    apply removelast_nth in D, D'. destruct D as (m & _ & D). destruct D' as (m' & _ & D'). assert (m = 0) by exact (share w Hw u T k v Tv m n E C Ek D (not_eq_sym B)). assert (m' = 0) by exact (share w Hw u T k' v Tv m' n' E C Ek' D' (not_eq_sym B)). congruence.
Qed.
(** a node without a predecessor: whoever leads on from it starts there, and is no branch *)
Lemma leads_starts n o v : h n = Some o -> o_branch o = true -> o_prev o = None -> (leads_from w v n <-> starts_at w v n).
Proof using Hw.
  intros E Hb Hp. split; intros (T & ET & X); exists T; (split; [exact ET|]).
  - apply removelast_nth in X. destruct X as (i & Hi & Ei). rewrite hd_nth. destruct i as [|i]; [exact Ei|]. destruct (prev_seg w Hw v T i n o ET Ei E) as (s & Y & _). congruence.
  - rewrite hd_nth in X. apply removelast_nth. exists 0. split; [|exact X]. destruct (track_len w Hw v T ET) as (_ & L2 & _). lia.
Qed.
Lemma starts_root n o v : h n = Some o -> o_prev o = None -> starts_at w v n -> forall p, ~ branch_of w p v.
Proof using Hw. intros E Hp (T & ET & X). rewrite hd_nth in X. assert (Y := parent_prev w Hw v T n o ET X E). rewrite Hp in Y. exact Y. Qed.

(* ------------------------------------------------------------ the loop *)
Record inv (t : nat) (st : list cand * list cand) (P : nat -> Z) (D : nat -> list nat) : Prop := mkInv {
  i_rep : fst st = rep P D;
  i_dau : forall j u, at_ j u -> D j = if j <? t then dl u else [];
  i_par : forall j u p, at_ j u -> branch_of w p u -> P j = if j <? t then Z.of_nat (ix p) else (-1)%Z;
  i_pri : forall j u, at_ j u -> (forall p, ~ branch_of w p u) -> (P j = (-1)%Z /\ t <= j) \/ exists q c, P j = Z.of_nat (N + q) /\ nth_error (snd st) q = Some c /\ In j (c_dau c);
  i_prim : forall q c, nth_error (snd st) q = Some c -> exists n o i, h n = Some o /\ o_branch o = true /\ o_prev o = None /\ c = mkC None (-1) (c_tree (nth i cs0 dummy)) [] (-1) (pl n) /\ i < t /\ In i (pl n) /\
            (forall j, In j (pl n) -> P j = Z.of_nat (N + q) /\ i <= j) }.
Lemma loop_ok : (forall c, In c cs0 -> c_parent c = (-1)%Z /\ c_dau c = []) -> exists st P D, for_ (range 0 N) (link_one w) (cs0, []) = Ok st /\ inv N st P D.
Proof using Hw Hc Hv.
  intros H0. assert (X : exists st', for_ (range 0 N) (link_one w) (cs0, []) = Ok st' /\ exists P D, inv N st' P D).
  { apply (for_range_inv (fun t st => exists P D, inv t st P D)); [lia| |].
    - exists (fun _ => (-1)%Z), (fun _ => []). constructor; cbn [fst snd].
      + apply (nth_ext_length dummy); [rewrite rep_len; reflexivity|]. intros j Hj. rewrite rep_nth_d by exact Hj. destruct (H0 (nth j cs0 dummy) (nth_In _ _ Hj)) as (A & B). destruct (nth j cs0 dummy). cbn in *. subst. reflexivity.
      + intros j u _. reflexivity.
      + intros j u p _ _. reflexivity.
      + intros j u _ _. left. split; [reflexivity|lia].
      + intros [|q] c E; discriminate.
    - intros t st (_ & Htl) (P & D & [I1 I2 I3 I4 I5]). destruct (at_ex t Htl) as (u & Ht). destruct (at_trk t u Ht) as (T & ET). destruct (track_len w Hw u T ET) as (_ & L2 & _). destruct (nth_error (t_nodes T) 0) as [n|] eqn:En; [|apply nth_error_None in En; lia].
      destruct (node_live w Hw u T _ n ET En) as (o & Eo & Hb). destruct st as [cs ps]. cbn [fst snd] in *. subst cs. rewrite (step_ok P D ps t u T n o Ht ET En Eo). eexists. split; [reflexivity|]. assert (Hpp := parent_prev w Hw u T n o ET En Eo).
      assert (HD : forall j v, at_ j v -> upf D t (D t ++ dl u) j = if j <? S t then dl v else []).
      { intros j v Hj. unfold upf. destruct (Nat.eqb_spec j t) as [->|Hne].
        - rewrite (I2 t u Ht), Nat.ltb_irrefl. cbn [app]. destruct (Nat.ltb_spec t (S t)); [|lia]. f_equal. exact (at_fun _ _ _ Ht Hj).
        - rewrite (I2 j v Hj). destruct (Nat.ltb_spec j t), (Nat.ltb_spec j (S t)); try reflexivity; lia. }
      assert (Hlt : forall j, j <> t -> (j <? S t) = (j <? t)) by (intros j Hj; destruct (Nat.ltb_spec j t), (Nat.ltb_spec j (S t)); try reflexivity; lia).
      destruct (o_prev o) as [s|] eqn:Ep.
      + exists (upf P t (Z.of_nat (ix (w_par w s)))), (upf D t (D t ++ dl u)). constructor; cbn [fst snd]; [reflexivity|exact HD| | |].
        * intros j v p Hj Hbr. unfold upf. destruct (Nat.eqb_spec j t) as [->|Hne].
          -- destruct (Nat.ltb_spec t (S t)); [|lia]. assert (v = u) by exact (at_fun t v u Hj Ht). subst v. rewrite (parent_unique w Hw _ _ _ Hbr Hpp). reflexivity.
          -- rewrite Hlt by exact Hne. exact (I3 j v p Hj Hbr).
        * intros j v Hj Hr. unfold upf. destruct (Nat.eqb_spec j t) as [->|Hne]; [exfalso; assert (v = u) by exact (at_fun t v u Hj Ht); subst v; exact (Hr _ Hpp)|]. destruct (I4 j v Hj Hr) as [(A & B)|A]; [left; split; [exact A|lia]|right; exact A].
        * intros q c Eq. destruct (I5 q c Eq) as (m & om & i & A1 & A2 & A3 & A4 & A5 & A6 & A7). exists m, om, i. repeat (split; [assumption|]). split; [lia|]. split; [exact A6|]. intros j Hj. unfold upf. destruct (Nat.eqb_spec j t) as [->|Hne]; [|exact (A7 j Hj)]. exfalso.
          apply (pl_in m om t A1 A2) in Hj. destruct Hj as (v & Hj & Hl). assert (v = u) by exact (at_fun t v u Hj Ht). subst v. apply (leads_starts m om u A1 A2 A3) in Hl. exact (starts_root m om u A1 A3 Hl _ Hpp).
      + assert (Hnt : forall j v p, at_ j v -> branch_of w p v -> j <> t) by (intros j v p Hj Hbr ->; assert (v = u) by exact (at_fun t v u Hj Ht); subst v; exact (Hpp p Hbr)).
        assert (Hst : starts_at w u n) by (exists T; rewrite hd_nth; auto). assert (Htp : In t (pl n)) by (apply (pl_in n o t Eo Hb); exists u; split; [exact Ht|apply (leads_starts n o u Eo Hb Ep), Hst]).
        destruct (P t <? 0)%Z eqn:Elt.
        * exists (fun j => if in_dec Nat.eq_dec j (pl n) then Z.of_nat (N + length ps) else P j), (upf D t (D t ++ dl u)). apply Z.ltb_lt in Elt.
          assert (Hfirst : forall j, In j (pl n) -> t <= j /\ P j = (-1)%Z).
          { intros j Hj. assert (Hj' := Hj). apply (pl_in n o j Eo Hb) in Hj. destruct Hj as (v & Hj & Hl). apply (leads_starts n o v Eo Hb Ep) in Hl. destruct (I4 j v Hj (starts_root n o v Eo Ep Hl)) as [(A & B)|(q & c & A1 & A2 & A3)]; [auto|]. exfalso.
            destruct (I5 q c A2) as (m & om & i & B1 & B2 & B3 & B4 & B5 & B6 & B7). rewrite B4 in A3. cbn [c_dau] in A3. assert (A3' := A3). apply (pl_in m om j B1 B2) in A3. destruct A3 as (v' & C1 & C2). assert (v' = v) by exact (at_fun j v' v C1 Hj). subst v'. apply (leads_starts m om v B1 B2 B3) in C2.
            assert (m = n) by (destruct C2 as (T1 & X1 & X2), Hl as (T2 & Y1 & Y2); congruence). subst m. destruct (B7 t Htp) as (Z1 & _). lia. }
          constructor; cbn [fst snd]; [reflexivity|exact HD| | |].
          -- intros j v p Hj Hbr. destruct (in_dec Nat.eq_dec j (pl n)) as [Hin|Hin]; [|rewrite Hlt by exact (Hnt j v p Hj Hbr); exact (I3 j v p Hj Hbr)]. exfalso. apply (pl_in n o j Eo Hb) in Hin. destruct Hin as (v' & C1 & C2). assert (v' = v) by exact (at_fun j v' v C1 Hj). subst v'. apply (leads_starts n o v Eo Hb Ep) in C2. exact (starts_root n o v Eo Ep C2 p Hbr).
          -- intros j v Hj Hr. destruct (in_dec Nat.eq_dec j (pl n)) as [Hin|Hin].
             ++ right. exists (length ps). eexists. split; [reflexivity|]. split; [rewrite nth_error_app2, Nat.sub_diag by lia; reflexivity|exact Hin].
             ++ destruct (I4 j v Hj Hr) as [(A & B)|(q & c & A1 & A2 & A3)]; [left; split; [exact A|]|right; exists q, c; split; [exact A1|split; [|exact A3]]; rewrite nth_error_app1 by (apply nth_error_Some; congruence); exact A2]. destruct (Nat.eq_dec j t) as [->|]; [contradiction|lia].
          -- intros q c Eq. destruct (Nat.lt_ge_cases q (length ps)) as [Hq|Hq].
             ++ rewrite nth_error_app1 in Eq by exact Hq. destruct (I5 q c Eq) as (m & om & i & A1 & A2 & A3 & A4 & A5 & A6 & A7). exists m, om, i. repeat (split; [assumption|]). split; [lia|]. split; [exact A6|]. intros j Hj. destruct (in_dec Nat.eq_dec j (pl n)) as [Hin|Hin]; [|exact (A7 j Hj)]. exfalso. destruct (Hfirst j Hin) as (_ & X). destruct (A7 j Hj) as (Y & _). lia.
             ++ rewrite nth_error_app2 in Eq by exact Hq. destruct (q - length ps) as [|k] eqn:Ek; [|destruct k; discriminate]. cbn in Eq. injection Eq as <-. exists n, o, t. repeat (split; [assumption || reflexivity|]). split; [lia|]. split; [exact Htp|]. intros j Hj. destruct (in_dec Nat.eq_dec j (pl n)) as [Hin|Hin]; [|contradiction]. split; [f_equal; lia|exact (proj1 (Hfirst j Hj))].
        * exists P, (upf D t (D t ++ dl u)). apply Z.ltb_ge in Elt. constructor; cbn [fst snd]; [reflexivity|exact HD| | |].
          -- intros j v p Hj Hbr. rewrite Hlt by exact (Hnt j v p Hj Hbr). exact (I3 j v p Hj Hbr).
          -- intros j v Hj Hr. destruct (I4 j v Hj Hr) as [(A & B)|A]; [left; split; [exact A|]|right; exact A]. destruct (Nat.eq_dec j t) as [->|]; [lia|lia].
          -- intros q c Eq. destruct (I5 q c Eq) as (m & om & i & A1 & A2 & A3 & A4 & A5 & A6 & A7). exists m, om, i. repeat (split; [assumption|]). split; [lia|]. auto. }
  destruct X as (st & E & P & D & H). exists st, P, D. auto.
Qed.
End Connect.
