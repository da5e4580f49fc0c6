(** SmallClusterFinder: closed forms of the loops *)
From Coq Require Import QArith Qcanon Permutation Sorted Lqa.
From Verif Require Import Base QcUtil SortUtil Solver_Model Solver_Proofs SCF_Model SCF_Spec TJ_Proofs TJ_More CMgr_Proofs.
Import SCF_Model.
Local Open Scope nat_scope.

Section Cf.
Variables (g : scale) (cf : cfg).
Notation close := (close g cf). 
Lemma close_within a b : close a b = true <-> within g (f_rad cf) a b.
Proof. unfold close, within, dist2. cbv zeta. rewrite andb_true_iff, !qc_lt_spec. reflexivity. Qed.
Lemma close_refl a : (0 < f_rad cf)%Qc -> close a a = true.
Proof. intros R. apply close_within. split; [exact R|]. generalize (qc_nat (h_wire a)) (h_tick a) (wcm g) (tcm g). revert R. generalize (f_rad cf). intros r R w t x y.
  assert (E : ((w - w) * x * ((w - w) * x) + (t - t) * y * ((t - t) * y) = 0)%Qc) by ring. rewrite E. qcnra. Qed.

Lemma select_eq seed : forall l acc, select g cf l acc seed = Ok (acc ++ filter (fun h => close h seed) l).
Proof.
  unfold select. induction l as [|h l IH]; intros acc; cbn [foreach filter]; [rewrite app_nil_r; reflexivity|]. cbn [obind]. rewrite IH. destruct (close h seed); [rewrite <- app_assoc|]; reflexivity.
Qed.
Fixpoint pos (f : hit -> bool) (k : nat) (l : list hit) : list nat := match l with [] => [] | x :: l => (if f x then [k] else []) ++ pos f (S k) l end.
Lemma pos_in f : forall l k i, In i (pos f k l) -> k <= i.
Proof. induction l as [|x l IH]; intros k i I; [destruct I|]. cbn [pos] in I. apply in_app_or in I as [I|I]; [destruct (f x); [destruct I as [<-|[]]; lia|destruct I]|]. specialize (IH (S k) i I). lia. Qed.
Lemma pos_sorted f : forall l k, StronglySorted lt (pos f k l).
Proof.
  induction l as [|x l IH]; intros k; [constructor|]. cbn [pos]. destruct (f x); cbn [app]; [|apply IH]. constructor; [apply IH|]. apply Forall_forall. intros i I. apply pos_in in I. lia.
Qed.
Lemma isort_pos f k l : isort Nat.ltb (pos f k l) = pos f k l.
Proof.
  generalize (pos_sorted f l k). generalize (pos f k l). induction l0 as [|x r IH]; intros Srt; [reflexivity|]. apply StronglySorted_inv in Srt as (Sr & Fx). change (isort Nat.ltb (x :: r)) with (ins Nat.ltb x (isort Nat.ltb r)). rewrite (IH Sr).
  destruct r as [|y r]; [reflexivity|]. cbn [ins]. inversion Fx; subst. rewrite (proj2 (Nat.ltb_lt x y)); auto.
Qed.
Lemma select_ix_eq seed l : select_ix g cf l [] seed [] = Ok (filter (fun h => close h seed) l, pos (fun h => close h seed) 0 l).
Proof.
  unfold select_ix. assert (G : forall l acc ix i, foreach l (fun (s : list hit * list nat * nat) h => let '(acc, ix, i) := s in Ok (if close h seed then (acc ++ [h], ix ++ [i], i + 1) else (acc, ix, i + 1))) (acc, ix, i) =
    Ok (acc ++ filter (fun h => close h seed) l, ix ++ pos (fun h => close h seed) i l, i + length l)).
  { clear l. induction l as [|h l IH]; intros acc ix i; cbn [foreach filter pos length]; [rewrite !app_nil_r, Nat.add_0_r; reflexivity|]. destruct (close h seed); cbn [obind app]; rewrite IH, <- ?app_assoc; cbn [app]; replace (i + 1 + length l) with (i + S (length l)) by lia; replace (i + 1) with (S i) by lia; reflexivity. }
  rewrite G. cbn [obind app]. rewrite isort_pos. reflexivity.
Qed.
Lemma erase_pos f : forall l pre, foreach (rev (pos f (length pre) l)) erase (pre ++ l) = Ok (pre ++ filter (fun h => negb (f h)) l).
Proof.
  induction l as [|x l IH]; intros pre; [reflexivity|]. cbn [pos filter]. rewrite rev_app_distr, foreach_app. specialize (IH (pre ++ [x])). rewrite app_length in IH. cbn [length] in IH. rewrite Nat.add_1_r, <- !app_assoc in IH. cbn [app] in IH. rewrite IH. cbn [obind].
  destruct (f x); cbn [rev app foreach negb]; [|reflexivity]. unfold erase. rewrite app_length. cbn [length]. rewrite (proj2 (Nat.ltb_lt _ _)) by lia. cbn [obind].
  rewrite firstn_app, Nat.sub_diag, firstn_all. cbn [firstn]. rewrite app_nil_r. rewrite skipn_app. replace (S (length pre) - length pre) with 1 by lia. rewrite skipn_all2 by lia. reflexivity.
Qed.

(** the clusters made of a list *)
Definition rest (seed : hit) (l : list hit) : list hit := filter (fun h => negb (close h seed)) l.
Definition took (seed : hit) (l : list hit) : list hit := filter (fun h => close h seed) l.
Fixpoint peel (n : nat) (l : list hit) : list (list hit) := match n, l with S n, s :: _ => took s l :: peel n (rest s l) | _, _ => [] end.
Lemma rest_len s l : (0 < f_rad cf)%Qc -> length (rest s (s :: l)) <= length l.
Proof. intros R. unfold rest. cbn [filter]. rewrite (close_refl s R). cbn [negb]. induction l as [|x l IH]; cbn; [lia|]. destruct (negb _); cbn; lia. Qed.
Lemma one_split_eq s l small q : h_plane s < length small -> idx small (h_plane s) = Ok q -> one_split g cf s l small = Ok (rest s l, upd small (h_plane s) (q ++ [took s l])).
Proof.
  intros L E. unfold one_split. rewrite select_ix_eq. cbn [obind fst snd]. rewrite E. cbn [obind]. unfold set_idx. rewrite (proj2 (Nat.ltb_lt _ _) L). cbn [obind]. pose proof (erase_pos (fun h => close h s) l []) as X. cbn [length app] in X. rewrite X. reflexivity.
Qed.
Lemma split_loop_eq p : (0 < f_rad cf)%Qc -> forall fuel l small q, length l <= fuel -> (forall h, In h l -> h_plane h = p) -> nth_error small p = Some q ->
  split_loop g cf fuel l small = Some (Ok (upd small p (q ++ peel fuel l))).
Proof.
  intros R. induction fuel as [|fuel IH]; intros l small q L P E.
  - destruct l; [|cbn in L; lia]. cbn. rewrite app_nil_r. f_equal. f_equal. apply (nth_error_ext _ _). intros i. rewrite nth_error_upd. destruct (Nat.eqb_spec i p); [|reflexivity]. subst. destruct (p <? length small); [exact E|reflexivity].
  - destruct l as [|s l].
    + cbn. rewrite app_nil_r. f_equal. f_equal. apply (nth_error_ext _ _). intros i. rewrite nth_error_upd. destruct (Nat.eqb_spec i p); [|reflexivity]. subst. destruct (p <? length small); [exact E|reflexivity].
    + assert (Lp : p < length small) by (apply nth_error_Some; congruence). cbn [split_loop]. pose proof (P s (or_introl eq_refl)) as Ps. rewrite (one_split_eq s (s :: l) small q); [|rewrite Ps; exact Lp|unfold idx; rewrite Ps, E; reflexivity].
      rewrite Ps. rewrite (IH (rest s (s :: l)) (upd small p (q ++ [took s (s :: l)])) (q ++ [took s (s :: l)])).
      * cbn [peel]. rewrite <- app_assoc. cbn [app]. f_equal. f_equal. apply (nth_error_ext _ _). intros i. rewrite !nth_error_upd, upd_length. destruct (Nat.eqb_spec i p); [|reflexivity]. rewrite (proj2 (Nat.ltb_lt _ _) Lp). reflexivity.
      * pose proof (rest_len s l R). cbn in L. lia.
      * intros h I. unfold rest in I. apply filter_In in I as (I & _). apply P. exact I.
      * rewrite nth_error_upd, Nat.eqb_refl, (proj2 (Nat.ltb_lt _ _) Lp). reflexivity.
Qed.
Lemma peel_more : (0 < f_rad cf)%Qc -> forall n l, length l <= n -> peel n l = peel (length l) l.
Proof.
  intros R. assert (G : forall n m l, length l <= n -> length l <= m -> peel n l = peel m l).
  { induction n as [|n IH]; intros [|m] l A B; [reflexivity|destruct l; [reflexivity|cbn in A; lia]|destruct l; [reflexivity|cbn in B; lia]|]. destruct l as [|s l]; [reflexivity|]. cbn [peel]. f_equal. pose proof (rest_len s l R). cbn in A, B. apply IH; lia. }
  intros n l A. apply G; [exact A|lia].
Qed.

(* ---------------------------------------------------------------- the planes *)
Definition on (p : nat) (l : list hit) : list hit := filter (fun h => h_plane h =? p) l.
Lemma by_plane_eq : forall hs bp, (forall h, In h hs -> h_plane h < length bp) -> exists bp', by_plane hs bp = Ok bp' /\ length bp' = length bp /\ forall p l, nth_error bp p = Some l -> nth_error bp' p = Some (l ++ on p hs).
Proof.
  unfold by_plane. induction hs as [|h hs IH]; intros bp B; cbn [foreach]; [exists bp; split; [reflexivity|]; split; [reflexivity|]; intros p l E; cbn; rewrite app_nil_r; exact E|].
  pose proof (B h (or_introl eq_refl)) as Lh. destruct (nth_error bp (h_plane h)) as [q|] eqn:Eq; [|apply nth_error_None in Eq; lia]. unfold idx at 1. rewrite Eq. cbn [obind]. unfold set_idx at 1. rewrite (proj2 (Nat.ltb_lt _ _) Lh). cbn [obind].
  destruct (IH (upd bp (h_plane h) (q ++ [h]))) as (bp' & E & L & N); [intros x X; rewrite upd_length; apply B; right; exact X|]. exists bp'. split; [exact E|]. rewrite upd_length in L. split; [exact L|].
  intros p l El. unfold on. cbn [filter]. destruct (Nat.eqb_spec (h_plane h) p) as [<-|D].
  - rewrite Eq in El. injection El as <-. rewrite (N (h_plane h) (q ++ [h])); [rewrite <- app_assoc; reflexivity|]. rewrite nth_error_upd, Nat.eqb_refl, (proj2 (Nat.ltb_lt _ _) Lh). reflexivity.
  - apply N. rewrite nth_error_upd. destruct (Nat.eqb_spec p (h_plane h)); [congruence|exact El].
Qed.
Definition iso (l : list hit) (h : hit) : bool := qc_lt (qc_nat (length (filter (fun x => close x h) l))) (f_n cf).
Lemma create_high_eq l lf : create_high g cf l lf = Ok (filter (iso l) l, lf ++ filter (fun h => negb (iso l h)) l).
Proof.
  unfold create_high. assert (G : forall m t lf, foreach m (fun (s : list hit * list hit) h => let '(tot, lft) := s in do loc <- select g cf l [] h; Ok (if qc_lt (qc_nat (length loc)) (f_n cf) then (tot ++ [h], lft) else (tot, lft ++ [h]))) (t, lf) = Ok (t ++ filter (iso l) m, lf ++ filter (fun h => negb (iso l h)) m)).
  { induction m as [|h m IH]; intros t lf'; cbn [foreach filter]; [rewrite !app_nil_r; reflexivity|]. rewrite select_eq. cbn [obind app]. change (qc_lt (qc_nat (length (filter (fun h0 => close h0 h) l))) (f_n cf)) with (iso l h). destruct (iso l h); cbn [negb]; rewrite IH, <- ?app_assoc; reflexivity. }
  apply (G l [] lf).
Qed.
Lemma refine_eq s : length (s_plane s) = f_np cf -> length (s_ref s) = f_np cf -> length (s_left s) = f_np cf -> (forall p, p < f_np cf -> nth_error (s_left s) p = Some []) ->
  exists s', refine g cf s = Ok s' /\ s_small s' = s_small s /\ s_plane s' = s_plane s /\ length (s_ref s') = f_np cf /\ length (s_left s') = f_np cf /\
    forall p l, nth_error (s_plane s) p = Some l -> nth_error (s_ref s') p = Some (filter (iso l) l) /\ nth_error (s_left s') p = Some (filter (fun h => negb (iso l h)) l).
Proof.
  intros Lp Lr Ll E0. unfold refine. match goal with |- context [foreach _ ?f _] => set (body := f) end.
  assert (G : forall k, k <= f_np cf -> exists s', foreach (seq 0 k) body s = Ok s' /\ s_small s' = s_small s /\ s_plane s' = s_plane s /\ length (s_ref s') = f_np cf /\ length (s_left s') = f_np cf /\ (forall p, k <= p < f_np cf -> nth_error (s_left s') p = Some []) /\
    forall p l, p < k -> nth_error (s_plane s) p = Some l -> nth_error (s_ref s') p = Some (filter (iso l) l) /\ nth_error (s_left s') p = Some (filter (fun h => negb (iso l h)) l)).
  { induction k as [|k IH]; intros B; [exists s; split; [reflexivity|]; do 4 (split; [auto|]); split; [intros p X; apply E0; lia|intros; lia]|].
    destruct IH as (s1 & E1 & A1 & A2 & A3 & A4 & A5 & A6); [lia|]. rewrite seq_S, foreach_app, E1. cbn [obind foreach Nat.add].
    destruct (nth_error (s_plane s) k) as [l|] eqn:El; [|apply nth_error_None in El; lia]. unfold body at 1. unfold idx. rewrite A2, El. cbn [obind]. rewrite (A5 k) by lia. cbn [obind]. rewrite create_high_eq. cbn [obind fst snd app]. unfold set_idx. rewrite A3, A4, (proj2 (Nat.ltb_lt _ _)) by lia. cbn [obind].
    eexists. split; [reflexivity|]. cbn [s_small s_plane s_ref s_left]. split; [exact A1|]. split; [reflexivity|]. rewrite !upd_length. split; [exact A3|]. split; [exact A4|]. split.
    - intros p X. rewrite nth_error_upd. destruct (Nat.eqb_spec p k); [lia|]. apply A5. lia.
    - intros p m X Em. rewrite !nth_error_upd, A3, A4, (proj2 (Nat.ltb_lt k _)) by lia. destruct (Nat.eqb_spec p k) as [->|D]; cbn [andb]; [rewrite El in Em; injection Em as <-; auto|apply A6; [lia|exact Em]]. }
  destruct (G (f_np cf) (le_n _)) as (s' & E & A1 & A2 & A3 & A4 & _ & A6). exists s'. split; [exact E|]. do 4 (split; [assumption|]). intros p l X. apply A6; [|exact X]. rewrite <- Lp. apply nth_error_Some. congruence.
Qed.
Lemma split_all_eq fuel refined : (0 < f_rad cf)%Qc -> forall ps small, NoDup ps -> (forall p, In p ps -> p < length refined /\ nth_error small p = Some []) ->
  (forall p l, nth_error refined p = Some l -> length l <= fuel /\ forall h, In h l -> h_plane h = p) ->
  exists small', split_all g cf fuel ps refined small = Some (Ok small') /\ length small' = length small /\
    (forall p, ~ In p ps -> nth_error small' p = nth_error small p) /\ (forall p l, In p ps -> nth_error refined p = Some l -> nth_error small' p = Some (peel (length l) l)).
Proof.
  intros R. induction ps as [|p ps IH]; intros small N B F; cbn [split_all]; [exists small; split; [reflexivity|]; split; [reflexivity|]; split; [reflexivity|intros q l []]|].
  inversion N as [|? ? Np N']; subst. destruct (B p (or_introl eq_refl)) as (Lp & E0). destruct (nth_error refined p) as [sv|] eqn:Es; [|apply nth_error_None in Es; lia]. unfold idx. rewrite Es. destruct (F p sv Es) as (Lf & Pf).
  rewrite (split_loop_eq p R fuel sv small [] Lf Pf E0). cbn [app]. assert (Lsm : p < length small) by (apply nth_error_Some; congruence).
  destruct (IH (upd small p (peel fuel sv)) N') as (small' & E' & L' & O' & I'); [intros q Q; split; [apply B; right; exact Q|]; rewrite nth_error_upd; destruct (Nat.eqb_spec q p); [subst; contradiction|]; apply B; right; exact Q|exact F|].
  exists small'. split; [exact E'|]. rewrite upd_length in L'. split; [exact L'|]. split.
  - intros q Q. rewrite O' by (intros X; apply Q; right; exact X). rewrite nth_error_upd. destruct (Nat.eqb_spec q p); [subst; exfalso; apply Q; left; reflexivity|reflexivity].
  - intros q l [<-|Q] El; [|apply I'; assumption]. rewrite O' by exact Np. rewrite Es in El. injection El as <-. rewrite nth_error_upd, Nat.eqb_refl, (proj2 (Nat.ltb_lt _ _) Lsm). cbn [andb]. f_equal. apply peel_more; assumption.
Qed.
Lemma nth_repeat (A : Type) (x : A) n p : p < n -> nth_error (repeat x n) p = Some x.
Proof. revert p. induction n as [|n IH]; intros [|p] L; try lia; [reflexivity|]. apply IH. lia. Qed.

(** FindSmallClusters in closed form *)
Definition refined (p : nat) (hits : list hit) : list hit := filter (iso (on p hits)) (on p hits).
Theorem find_eq s0 hits fuel : (0 < f_rad cf)%Qc -> (forall h, In h hits -> h_plane h < f_np cf) -> length hits <= fuel -> exists s, find g cf fuel s0 hits = Some (Ok s) /\
  length (s_small s) = f_np cf /\ length (s_left s) = f_np cf /\
  forall p, p < f_np cf -> nth_error (s_small s) p = Some (peel (length (refined p hits)) (refined p hits)) /\ nth_error (s_left s) p = Some (filter (fun h => negb (iso (on p hits) h)) (on p hits)).
Proof.
  intros R P Fu. unfold find. destruct hits as [|h0 hs].
  - exists (clear cf). split; [reflexivity|]. cbn. rewrite !repeat_length. split; [reflexivity|]. split; [reflexivity|]. intros p L. rewrite !nth_repeat by exact L. auto.
  - assert (Hs : exists hits, h0 :: hs = hits) by eauto. destruct Hs as (hits & Hs). rewrite Hs in *. clear Hs h0 hs. cbn [clear s_plane s_small s_ref s_left].
    destruct (by_plane_eq hits (repeat [] (f_np cf))) as (bp & Eb & Lb & Nb); [intros h I; rewrite repeat_length; apply P; exact I|]. rewrite Eb. cbn [obind]. rewrite repeat_length in Lb.
    destruct (refine_eq (St (repeat [] (f_np cf)) bp (repeat [] (f_np cf)) (repeat [] (f_np cf)))) as (s & Es & Ss & Sp & Lr & Ll & N); cbn [s_plane s_ref s_left s_small]; [exact Lb|apply repeat_length|apply repeat_length|intros p L; apply nth_repeat; exact L|].
    rewrite Es. cbn [s_small s_plane s_ref s_left] in Ss, Sp, N. assert (On : forall p, p < f_np cf -> nth_error bp p = Some (on p hits)) by (intros p L; apply (Nb p []); apply nth_repeat; exact L).
    destruct (split_all_eq fuel (s_ref s) R (seq 0 (f_np cf)) (s_small s)) as (small & Em & Lm & _ & Im).
    + apply seq_NoDup.
    + intros p I. apply in_seq in I. split; [rewrite Lr; lia|]. rewrite Ss. apply nth_repeat. lia.
    + intros p l E. assert (L : p < f_np cf) by (rewrite <- Lr; apply nth_error_Some; congruence). destruct (N p _ (On p L)) as (N1 & _). rewrite N1 in E. injection E as <-. split.
      * assert (Fl : forall (f : hit -> bool) l, length (filter f l) <= length l) by (intros f l; induction l as [|x l IH]; cbn; [lia|]; destruct (f x); cbn; lia). pose proof (Fl (iso (on p hits)) (on p hits)). pose proof (Fl (fun h => h_plane h =? p) hits). unfold on in *. lia.
      * intros h I. apply filter_In in I as (I & _). apply filter_In in I as (_ & I). apply Nat.eqb_eq. exact I.
    + rewrite Em. eexists. split; [reflexivity|]. cbn [s_small s_left]. split; [rewrite Lm, Ss; apply repeat_length|]. split; [exact Ll|]. intros p L. destruct (N p _ (On p L)) as (N1 & N2). split; [|exact N2]. apply Im; [apply in_seq; lia|exact N1].
Qed.
End Cf.
