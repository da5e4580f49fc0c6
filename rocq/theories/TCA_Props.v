(** TrackCalorimetryAlg: one object per track and plane, its entries, the residual range *)
From Coq Require Import QArith Qcanon Lqa Field.
From Verif Require Import Base QcUtil Solver_Model Solver_Proofs TCA_Model TCA_Spec.
Local Open Scope nat_scope.
Section P.
Variable nplanes nstart : nat.
Variable wpitch : nat -> Qc.
Variable pitch_at : track -> hit -> nat -> Qc.
Variable dedx_of : hit -> Qc -> Qc.
Notation extract := (extract nplanes nstart wpitch pitch_at dedx_of).
Notation one_plane := (one_plane nstart wpitch pitch_at dedx_of).
Notation by_plane := (by_plane nplanes).
Notation analyze := (analyze wpitch pitch_at dedx_of).
Notation charge_of := (charge_of nstart).
Notation inverted := (inverted nstart).
Notation make_calo := (make_calo nstart).
(** * the nearest point *)
Lemma min_from_ok (f : Z * Qc -> Qc) (d : Z * Qc) (L : list (Z * Qc)) : forall r pre best, L = pre ++ r -> best < length pre -> (forall j, j < length pre -> (f (nth best L d) <= f (nth j L d))%Qc) -> (forall j, j < best -> (f (nth best L d) < f (nth j L d))%Qc) ->
  let k := min_from f best (length pre) (f (nth best L d)) r in k < length L /\ (forall j, j < length L -> (f (nth k L d) <= f (nth j L d))%Qc) /\ (forall j, j < k -> (f (nth k L d) < f (nth j L d))%Qc).
Proof.
  induction r as [|x r IH]; intros pre best E B Le Lt; cbn [min_from].
  - rewrite app_nil_r in E. subst pre. auto.
  - assert (X : nth (length pre) L d = x) by (rewrite E, app_nth2, Nat.sub_diag by lia; reflexivity). assert (E' : L = (pre ++ [x]) ++ r) by (rewrite <- app_assoc; exact E). assert (Ln : length (pre ++ [x]) = length pre + 1) by (rewrite app_length; reflexivity).
    destruct (qc_lt (f x) (f (nth best L d))) eqn:Q.
    + apply qc_lt_spec in Q. rewrite <- X in Q. rewrite <- X, <- Ln. apply (IH (pre ++ [x]) (length pre) E'); [lia| |].
      * intros j J. destruct (Nat.eq_dec j (length pre)) as [->|N]; [apply Qcle_refl|]. apply Qclt_le_weak. apply (Qclt_le_trans _ _ _ Q). apply Le. lia.
      * intros j J. apply (Qclt_le_trans _ _ _ Q). apply Le, J.
    + apply qc_lt_false in Q. rewrite <- Ln. apply (IH (pre ++ [x]) best E'); [lia| |exact Lt]. intros j J. destruct (Nat.eq_dec j (length pre)) as [->|N]; [rewrite X; exact Q|apply Le; lia].
Qed.
Definition points (t : track) (p : nat) : list (Z * Qc) := map (t_proj t p) (range 0 (t_pts t)).
Definition kk (t : track) (p : nat) (h : hit) : nat := min_element (dist2 wpitch p h) (points t p).
Lemma points_length t p : length (points t p) = t_pts t.
Proof. unfold points, range. rewrite map_length, seq_length. lia. Qed.
Lemma points_nth t p j d : j < t_pts t -> nth j (points t p) d = t_proj t p j.
Proof. intros J. unfold points, range. rewrite Nat.sub_0_r. rewrite (nth_indep _ d (t_proj t p 0)) by (rewrite map_length, seq_length; exact J). rewrite map_nth, seq_nth by exact J. reflexivity. Qed.
Lemma kk_nearest t p h : 0 < t_pts t -> nearest wpitch t p h (kk t p h).
Proof.
  intros P. unfold kk, min_element. destruct (points t p) as [|x r] eqn:E; [pose proof (points_length t p) as L; rewrite E in L; cbn in L; lia|].
  assert (X : nth 0 (points t p) (0%Z, 0%Qc) = x) by (rewrite E; reflexivity).
  assert (H0 : forall j, j < length [x] -> (dist2 wpitch p h (nth 0 (points t p) (0%Z, 0%Qc)) <= dist2 wpitch p h (nth j (points t p) (0%Z, 0%Qc)))%Qc) by (intros j J; replace j with 0 by (cbn in J; lia); apply Qcle_refl).
  assert (H1 : forall j, j < 0 -> (dist2 wpitch p h (nth 0 (points t p) (0%Z, 0%Qc)) < dist2 wpitch p h (nth j (points t p) (0%Z, 0%Qc)))%Qc) by (intros j J; lia).
  pose proof (min_from_ok (dist2 wpitch p h) (0%Z, 0%Qc) (points t p) r [x] 0 E ltac:(cbn; lia) H0 H1) as K. cbv zeta in K. rewrite X in K. change (length [x]) with 1 in K. rewrite points_length in K. destruct K as (A & B & C). split; [exact A|]. split.
  - intros j J. specialize (B j J). rewrite !points_nth in B by lia. exact B.
  - intros j J. specialize (C j J). rewrite !points_nth in C by lia. exact C.
Qed.
(** * the fractions *)
Lemma fractions_nth t : length (fractions t) = t_pts t /\ forall k, k < t_pts t -> nth k (fractions t) 0%Qc = (path t k / t_len t)%Qc.
Proof.
  assert (G : forall n, n < t_pts t -> forall s, s = fold_left (fun s i => let cum := (fst s + t_step t i)%Qc in (cum, upd (snd s) i (cum / t_len t)%Qc)) (seq 1 n) (0%Qc, repeat 0%Qc (t_pts t)) -> fst s = path t n /\ length (snd s) = t_pts t /\ forall k, k <= n -> nth k (snd s) 0%Qc = (path t k / t_len t)%Qc).
  { induction n as [|n IH]; intros L s E.
    - subst s. cbn [fst snd seq fold_left]. split; [reflexivity|]. split; [apply repeat_length|]. intros k K. replace k with 0 by lia. unfold path, Qcdiv. cbn [seq qsum fold_right]. rewrite Qcmult_0_l. destruct (t_pts t); reflexivity.
    - rewrite seq_S, fold_left_app in E. cbn [fold_left] in E. destruct (IH ltac:(lia) _ eq_refl) as (A & B & C). set (s0 := fold_left _ (seq 1 n) _) in *. assert (P : (fst s0 + t_step t (1 + n))%Qc = path t (S n)) by (rewrite A; unfold path; rewrite seq_S, qsum_app; cbn [qsum fold_right]; ring). cbv zeta in E. rewrite P in E. subst s. cbn [fst snd]. split; [reflexivity|]. split; [rewrite upd_length; exact B|]. intros k K. rewrite nth_upd, B. replace (1 + n <? t_pts t) with true by (symmetry; apply Nat.ltb_lt; lia). rewrite andb_true_r. destruct (Nat.eqb_spec k (1 + n)) as [->|N]; [reflexivity|]. apply C. lia. }
  unfold fractions, range. destruct (t_pts t) as [|n] eqn:E; [split; [reflexivity|intros; lia]|]. destruct (G n ltac:(lia) _ eq_refl) as (_ & B & C). replace (S n - 1) with n by lia. split; [exact B|]. intros k K. apply C. lia.
Qed.
Definition prop (t : track) (p : nat) (h : hit) : props :=
  {| p_charge := h_charge h; p_dqdx := (h_charge h / pitch_at t h (kk t p h))%Qc; p_dedx := dedx_of h (pitch_at t h (kk t p h)); p_pitch := pitch_at t h (kk t p h); p_xyz := kk t p h; p_frac := (path t (kk t p h) / t_len t)%Qc |}.
Lemma analyze_ok t p h m : 0 < t_pts t -> analyze t p h (points t p) (fractions t) m = Ok (emplace (prop t p h) m).
Proof.
  intros P. unfold TCA_Model.analyze. fold (kk t p h). destruct (kk_nearest t p h P) as (K & _). destruct (fractions_nth t) as (L & F). cbv zeta. unfold idx. rewrite (nth_error_nth' _ 0%Qc) by (rewrite L; exact K). cbn [obind]. rewrite F by exact K. reflexivity.
Qed.
Fixpoint ins (key : hit -> Qc) (x : hit) (l : list hit) : list hit := match l with [] => [x] | y :: r => if qc_lt (key x) (key y) then x :: l else y :: ins key x r end.
Definition key (t : track) (p : nat) (h : hit) : Qc := (path t (kk t p h) / t_len t)%Qc.
Lemma emplace_ins t p h l : emplace (prop t p h) (map (prop t p) l) = map (prop t p) (ins (key t p) h l).
Proof. induction l as [|y r IH]; [reflexivity|]. cbn [map emplace ins]. change (p_frac (prop t p h)) with (key t p h). change (p_frac (prop t p y)) with (key t p y). destruct (qc_lt _ _); [reflexivity|]. cbn [map]. rewrite IH. reflexivity. Qed.
Lemma ins_perm f x l : Permutation (ins f x l) (x :: l).
Proof. induction l as [|y r IH]; [reflexivity|]. cbn [ins]. destruct (qc_lt _ _); [reflexivity|]. rewrite IH. apply perm_swap. Qed.
Lemma ins_sorted f x l : StronglySorted (fun a b => f a <= f b)%Qc l -> StronglySorted (fun a b => f a <= f b)%Qc (ins f x l).
Proof.
  induction 1 as [|y r H IH F]; cbn [ins]; [repeat constructor|]. destruct (qc_lt (f x) (f y)) eqn:Q.
  - apply qc_lt_spec, Qclt_le_weak in Q. constructor; [constructor; assumption|]. constructor; [exact Q|]. eapply Forall_impl; [|exact F]. intros a A. apply (Qcle_trans _ _ _ Q A).
  - apply qc_lt_false in Q. constructor; [exact IH|]. rewrite Forall_forall in *. intros a A. apply (Permutation_in _ (ins_perm f x r)) in A as [<-|A]; [exact Q|apply F, A].
Qed.
Definition order (t : track) (p : nat) (hs : list hit) : list hit := fold_left (fun l h => ins (key t p) h l) hs [].
Lemma order_ok t p hs : Permutation (order t p hs) hs /\ StronglySorted (fun a b => key t p a <= key t p b)%Qc (order t p hs).
Proof.
  unfold order. assert (G : forall hs l, StronglySorted (fun a b => key t p a <= key t p b)%Qc l -> Permutation (fold_left (fun l h => ins (key t p) h l) hs l) (l ++ hs) /\ StronglySorted (fun a b => key t p a <= key t p b)%Qc (fold_left (fun l h => ins (key t p) h l) hs l)).
  { induction hs0 as [|h r IH]; intros l H; [rewrite app_nil_r; auto|]. cbn [fold_left]. destruct (IH _ (ins_sorted _ h _ H)) as (A & B). split; [|exact B]. rewrite A, (ins_perm _ h l). cbn [app]. apply Permutation_middle. }
  apply (G hs []). constructor.
Qed.
(** * the hits of a plane *)
Definition on (hits : list hit) (p : nat) (j : nat) : bool := match nth_error hits j with Some h => h_plane h =? p | None => false end.
Definition get (hits : list hit) (l : list nat) : list hit := flat_map (fun j => match nth_error hits j with Some h => [h] | None => [] end) l.
Lemma by_plane_ok hits l : (forall j, In j l -> exists h, nth_error hits j = Some h /\ h_plane h < nplanes) -> exists v, by_plane hits l = Ok v /\ length v = nplanes /\ forall p, p < nplanes -> nth p v [] = filter (on hits p) l.
Proof.
  unfold TCA_Model.by_plane. assert (G : forall l v0, length v0 = nplanes -> (forall j, In j l -> exists h, nth_error hits j = Some h /\ h_plane h < nplanes) -> exists v, foreach l (fun v i => do h <- idx hits i; do c <- idx v (h_plane h); set_idx v (h_plane h) (c ++ [i])) v0 = Ok v /\ length v = nplanes /\ forall p, p < nplanes -> nth p v [] = nth p v0 [] ++ filter (on hits p) l).
  { clear l. induction l as [|j l IH]; intros v0 L V; [exists v0; split; [reflexivity|]; split; [exact L|]; intros; cbn; rewrite app_nil_r; reflexivity|]. destruct (V j (or_introl eq_refl)) as (h & Hh & Hp). cbn [foreach]. unfold idx at 1. rewrite Hh. cbn [obind]. unfold idx. rewrite (nth_error_nth' v0 []) by lia. cbn [obind]. unfold set_idx. replace (h_plane h <? length v0) with true by (symmetry; apply Nat.ltb_lt; lia). cbn [obind].
    destruct (IH (upd v0 (h_plane h) (nth (h_plane h) v0 [] ++ [j]))) as (v & E & Lv & N); [rewrite upd_length; exact L|intros; apply V; right; assumption|]. exists v. split; [exact E|]. split; [exact Lv|]. intros p P. rewrite (N p P). rewrite nth_upd. replace (h_plane h <? length v0) with true by (symmetry; apply Nat.ltb_lt; lia). rewrite andb_true_r. cbn [filter]. unfold on at 2. rewrite Hh. rewrite (Nat.eqb_sym (h_plane h) p). destruct (p =? h_plane h) eqn:Q; [apply Nat.eqb_eq in Q; subst p; rewrite <- app_assoc; reflexivity|reflexivity]. }
  intros V. destruct (G l (repeat [] nplanes) (repeat_length _ _) V) as (v & E & L & N). exists v. split; [exact E|]. split; [exact L|]. intros p P. rewrite (N p P). replace (nth p (repeat [] nplanes) []) with (@nil nat); [reflexivity|]. clear. revert p. induction nplanes as [|n IH]; intros [|p]; cbn; auto.
Qed.
Lemma get_filter hits l p : get hits (filter (on hits p) l) = flat_map (fun j => match nth_error hits j with Some h => if h_plane h =? p then [h] else [] | None => [] end) l.
Proof.
  induction l as [|j l IH]; [reflexivity|]. cbn [filter flat_map]. unfold on at 1. destruct (nth_error hits j) as [h|] eqn:E; [|exact IH]. destruct (h_plane h =? p); [|exact IH]. cbn [get flat_map]. rewrite E. cbn [app]. f_equal. exact IH.
Qed.
Lemma inner_ok hits t p : forall l hs, (forall j, In j l -> nth_error hits j <> None) -> (l <> [] -> 0 < t_pts t) ->
  foreach l (fun m i => do h <- idx hits i; analyze t p h (map (t_proj t p) (range 0 (t_pts t))) (fractions t) m) (map (prop t p) hs) = Ok (map (prop t p) (fold_left (fun l h => ins (key t p) h l) (get hits l) hs)).
Proof.
  induction l as [|j l IH]; intros hs V P; [reflexivity|]. cbn [foreach]. unfold idx at 1. destruct (nth_error hits j) as [h|] eqn:E; [|exfalso; apply (V j (or_introl eq_refl)), E]. cbn [obind]. rewrite analyze_ok by (apply P; discriminate). cbn [obind]. rewrite emplace_ins. rewrite IH; [|intros; apply V; right; assumption|intros _; apply P; discriminate]. cbn [get flat_map]. rewrite E. reflexivity.
Qed.
Definition on_plane (hits : list hit) (l : list nat) (p : nat) : list hit := flat_map (fun j => match nth_error hits j with Some h => if h_plane h =? p then [h] else [] | None => [] end) l.
Definition result (hits : list hit) (t : track) (l : list nat) (p : nat) : calo := make_calo t p (map (prop t p) (order t p (on_plane hits l p))).
Lemma one_plane_ok hits t l v p : (forall j, In j l -> exists h, nth_error hits j = Some h /\ h_plane h < nplanes) -> (l <> [] -> 0 < t_pts t) -> by_plane hits l = Ok v -> p < nplanes -> one_plane hits t (fractions t) v p = Ok (result hits t l p).
Proof.
  intros V P B Lp. destruct (by_plane_ok hits l V) as (v' & E & L & N). assert (v' = v) by congruence. subst v'. unfold TCA_Model.one_plane. unfold idx at 1. rewrite (nth_error_nth' v []) by lia. cbn [obind]. rewrite (N p Lp). rewrite (inner_ok hits t p _ []).
  - cbn [obind]. rewrite get_filter. reflexivity.
  - intros j I. apply filter_In in I as (I & _). destruct (V j I) as (h & -> & _). discriminate.
  - intros X. apply P. intros ->. apply X. reflexivity.
Qed.
(** * the charge at the two ends *)
Lemma charge_of_total : forall l c s, nstart < c + 1 -> charge_of c s l = (s + qsum p_charge l)%Qc.
Proof. induction l as [|x r IH]; intros c s L; cbn [TCA_Model.charge_of]; [cbn; ring|]. cbv zeta. replace (c + 1 =? nstart) with false by (symmetry; apply Nat.eqb_neq; lia). rewrite IH by lia. rewrite qsum_cons. ring. Qed.
Lemma charge_of_first : forall l c s, c < nstart -> charge_of c s l = (s + qsum p_charge (firstn (nstart - c) l))%Qc.
Proof.
  induction l as [|x r IH]; intros c s L; cbn [TCA_Model.charge_of]; [rewrite firstn_nil; cbn; ring|]. cbv zeta. destruct (nstart - c) as [|n] eqn:E; [lia|]. cbn [firstn]. rewrite qsum_cons. destruct (Nat.eqb_spec (c + 1) nstart) as [Q|Q].
  - replace n with 0 by lia. cbn. ring.
  - rewrite IH by lia. replace (nstart - (c + 1)) with n by lia. ring.
Qed.
Lemma inverted_exact m : inverted m = true <-> nstart < length m /\ (qsum p_charge (firstn nstart (rev m)) < qsum p_charge (firstn nstart m))%Qc.
Proof.
  unfold TCA_Model.inverted. destruct (Nat.leb_spec (length m) nstart) as [L|L]; [split; [discriminate|intros (A & _); lia]|]. rewrite qc_lt_spec. destruct (Nat.eq_dec nstart 0) as [Z|Z].
  - rewrite !charge_of_total by lia. rewrite (qsum_perm p_charge (rev m) m) by (symmetry; apply Permutation_rev). rewrite Z. cbn [firstn]. split; [intros H|intros (_ & H)]; exfalso; revert H; apply Qclt_not_eq || (intros H; apply (Qlt_irrefl _ H)).
  - rewrite !charge_of_first by lia. rewrite Nat.sub_0_r, !Qcplus_0_l. tauto.
Qed.
(** * the object *)
Notation describes := (describes nstart wpitch pitch_at dedx_of).
Lemma push_all t p (rng : props -> Qc) (m : list props) :
  let c := fold_left (fun (c : calo) (x : props) =>
    {| c_energy := (c_energy c + p_dedx x * p_pitch x)%Qc; c_dedx := c_dedx c ++ [p_dedx x]; c_dqdx := c_dqdx c ++ [p_dqdx x]; c_range := c_range c ++ [rng x];
       c_dead := c_dead c; c_len := c_len c; c_pitch := c_pitch c ++ [p_pitch x]; c_xyz := c_xyz c ++ [p_xyz x]; c_plane := c_plane c |}) m
    {| c_energy := 0%Qc; c_dedx := []; c_dqdx := []; c_range := []; c_dead := []; c_len := t_len t; c_pitch := []; c_xyz := []; c_plane := p |} in
  c = {| c_energy := qsum (fun x => p_dedx x * p_pitch x)%Qc m; c_dedx := map p_dedx m; c_dqdx := map p_dqdx m; c_range := map rng m; c_dead := []; c_len := t_len t; c_pitch := map p_pitch m; c_xyz := map p_xyz m; c_plane := p |}.
Proof.
  induction m as [|x m IH] using rev_ind; [reflexivity|]. cbv zeta in *. rewrite fold_left_app. cbn [fold_left]. rewrite IH. cbn [c_energy c_dedx c_dqdx c_range c_dead c_len c_pitch c_xyz c_plane]. rewrite !map_app, qsum_app. f_equal. cbn [qsum fold_right]. ring.
Qed.
Lemma path_mono t a b : (forall k, 0 <= t_step t k)%Qc -> a <= b -> (path t a <= path t b)%Qc.
Proof.
  intros P L. replace b with (a + (b - a)) by lia. unfold path. rewrite seq_app, qsum_app. assert (0 <= qsum (t_step t) (seq (1 + a) (b - a)))%Qc by (apply qsum_nonneg; intros; apply P). revert H. generalize (qsum (t_step t) (seq 1 a)) (qsum (t_step t) (seq (1 + a) (b - a))). intros; qclra.
Qed.
Lemma div_back (x l : Qc) : l <> 0%Qc -> (x / l * l)%Qc = x. Proof. intros N. field. exact N. Qed.
Lemma sorted_map {A B} (f : A -> B) (R : B -> B -> Prop) l : StronglySorted (fun a b => R (f a) (f b)) l -> StronglySorted R (map f l).
Proof. induction 1 as [|a l H IH F]; [constructor|]. cbn [map]. constructor; [exact IH|]. rewrite Forall_forall in *. intros b I. apply in_map_iff in I as (x & <- & I). apply F, I. Qed.
Lemma result_ok hits t l p : (on_plane hits l p <> [] -> 0 < t_pts t) -> exists es inv, describes t p (on_plane hits l p) (result hits t l p) es inv.
Proof.
  intros Pt. set (os := order t p (on_plane hits l p)). set (e := fun h => (h, kk t p h)). exists (map e os), (inverted (map (prop t p) os)). destruct (order_ok t p (on_plane hits l p)) as (Pm & St). fold os in Pm, St.
  assert (E : result hits t l p = let o := if inverted (map (prop t p) os) then os else rev os in
    {| c_energy := qsum (fun h => p_dedx (prop t p h) * p_pitch (prop t p h))%Qc o; c_dedx := map (fun h => p_dedx (prop t p h)) o; c_dqdx := map (fun h => p_dqdx (prop t p h)) o;
       c_range := map (fun h => if inverted (map (prop t p) os) then p_frac (prop t p h) * t_len t else (1 - p_frac (prop t p h)) * t_len t)%Qc o; c_dead := []; c_len := t_len t; c_pitch := map (fun h => p_pitch (prop t p h)) o; c_xyz := map (fun h => p_xyz (prop t p h)) o; c_plane := p |}).
  { unfold result. fold os. unfold TCA_Model.make_calo. cbv zeta. destruct (inverted (map (prop t p) os)) eqn:I.
    - rewrite (push_all t p (fun x => p_frac x * t_len t)%Qc). rewrite !map_map, qsum_map. reflexivity.
    - rewrite (push_all t p (fun x => (1 - p_frac x) * t_len t)%Qc). rewrite <- map_rev, !map_map, qsum_map. reflexivity. }
  cbv zeta in E. set (inv := inverted (map (prop t p) os)) in *.
  assert (O : (if inv then map e os else rev (map e os)) = map e (if inv then os else rev os)) by (destruct inv; [reflexivity|rewrite map_rev; reflexivity]).
  constructor; rewrite ?E; cbn [c_energy c_dedx c_dqdx c_range c_dead c_len c_pitch c_xyz c_plane]; rewrite ?O, ?map_map; try reflexivity.
  - cbn [fst e]. rewrite map_id. exact Pm.
  - intros h k I. apply in_map_iff in I as (x & X & I). injection X as <- <-. apply kk_nearest, Pt. intros Z. rewrite Z in Pm. apply Permutation_sym, Permutation_nil in Pm. rewrite Pm in I. destruct I.
  - subst inv. rewrite inverted_exact. rewrite !map_length. rewrite <- !map_rev, !firstn_map, !qsum_map. reflexivity.
  - transitivity (qsum (fun h => p_dedx (prop t p h) * p_pitch (prop t p h))%Qc os); [|rewrite qsum_map; reflexivity]. apply qsum_perm. destruct inv; [reflexivity|symmetry; apply Permutation_rev].
  - auto.
  - intros (_ & _ & Pos). apply sorted_map. cbn [snd e]. clear -St Pos. induction St as [|a r H IH F]; constructor; [exact IH|]. rewrite Forall_forall in *. intros b I. specialize (F b I). unfold key in F. set (x := path t (kk t p a)) in *. set (y := path t (kk t p b)) in *. assert (N : t_len t <> 0%Qc) by (intros Z; rewrite Z in Pos; discriminate Pos).
    rewrite <- (div_back x _ N), <- (div_back y _ N). apply Qcmult_le_compat_r; [exact F|apply Qclt_le_weak, Pos].
  - intros (_ & _ & Pos). assert (N : t_len t <> 0%Qc) by (intros Z; rewrite Z in Pos; discriminate Pos). apply map_ext. intros h. cbn [snd e prop p_frac]. destruct inv; [apply div_back, N|field; exact N].
Qed.
(** * all tracks and planes *)
Lemma planes_loop hits t l v (i : nat) : (forall p, p < nplanes -> one_plane hits t (fractions t) v p = Ok (result hits t l p)) -> forall ps (s : list calo * list nat), (forall p, In p ps -> p < nplanes) ->
  for_ ps (fun s p => do c <- one_plane hits t (fractions t) v p; Ok (fst s ++ [c], snd s ++ [i])) s = Ok (fst s ++ map (result hits t l) ps, snd s ++ repeat i (length ps)).
Proof.
  intros H. induction ps as [|p ps IH]; intros (a, b) V; cbn [for_]; [cbn [map length repeat]; rewrite !app_nil_r; reflexivity|]. rewrite H by (apply V; left; reflexivity). cbn [obind]. rewrite IH by (intros; apply V; right; assumption). cbn [fst snd map length repeat]. rewrite <- !app_assoc. reflexivity.
Qed.
Lemma nth_blocks {A} (f : nat -> list A) w : forall n a i p, (forall k, length (f k) = w) -> i < n -> p < w -> nth_error (flat_map f (seq a n)) (i * w + p) = nth_error (f (a + i)) p.
Proof.
  induction n as [|n IH]; intros a i p L I P; [lia|]. cbn [seq flat_map]. destruct i as [|i].
  - cbn [Nat.mul Nat.add]. rewrite nth_error_app1 by (rewrite L; exact P). rewrite Nat.add_0_r. reflexivity.
  - rewrite nth_error_app2 by (rewrite L; cbn; lia). rewrite L. replace (S i * w + p - w) with (i * w + p) by (cbn; lia). rewrite IH by (try assumption; lia). f_equal. f_equal. lia.
Qed.
Lemma blocks_length {A} (f : nat -> list A) w : forall n a, (forall k, length (f k) = w) -> length (flat_map f (seq a n)) = n * w.
Proof. induction n as [|n IH]; intros a L; [reflexivity|]. cbn [seq flat_map]. rewrite app_length, L, IH by exact L. reflexivity. Qed.
Definition d0 : track := {| t_pts := 0; t_step := fun _ => 0%Qc; t_len := 0%Qc; t_proj := fun _ _ => (0%Z, 0%Qc) |}.
Lemma extract_form tracks hits idxs : sound nplanes tracks hits idxs ->
  extract tracks hits idxs = Ok (flat_map (fun i => map (result hits (nth i tracks d0) (nth i idxs [])) (range 0 nplanes)) (seq 0 (length tracks)), flat_map (fun i => repeat i nplanes) (seq 0 (length tracks))).
Proof.
  intros (Ln & V). unfold TCA_Model.extract, range at 1. rewrite Nat.sub_0_r.
  assert (G : forall ts (s : list calo * list nat), (forall i, In i ts -> i < length tracks) -> for_ ts (fun s i => do t <- idx tracks i; do l <- idx idxs i; do v <- by_plane hits l; for_ (range 0 nplanes) (fun s p => do c <- one_plane hits t (fractions t) v p; Ok (fst s ++ [c], snd s ++ [i])) s) s
     = Ok (fst s ++ flat_map (fun i => map (result hits (nth i tracks d0) (nth i idxs [])) (range 0 nplanes)) ts, snd s ++ flat_map (fun i => repeat i nplanes) ts)).
  { induction ts as [|i ts IH]; intros (a, b) B; cbn [for_]; [cbn [flat_map]; rewrite !app_nil_r; reflexivity|]. assert (Li : i < length tracks) by (apply B; left; reflexivity). unfold idx at 1. rewrite (nth_error_nth' tracks d0) by lia. cbn [obind]. unfold idx at 1. rewrite (nth_error_nth' idxs []) by lia. cbn [obind].
    destruct (V i (nth i tracks d0) (nth i idxs [])) as (Pt & Vj); [apply nth_error_nth'; lia|apply nth_error_nth'; lia|]. destruct (by_plane_ok hits _ Vj) as (v & Ev & _). rewrite Ev. cbn [obind]. rewrite (planes_loop hits _ (nth i idxs []) v i); [|intros p P; apply one_plane_ok; assumption|intros p P; apply in_range in P; lia]. cbn [obind]. rewrite IH by (intros; apply B; right; assumption). cbn [fst snd flat_map]. unfold range. rewrite seq_length, Nat.sub_0_r, <- !app_assoc. reflexivity. }
  rewrite G; [reflexivity|]. intros i I. apply in_seq in I. lia.
Qed.
(** C164: on sound input it ends well, with one object for each plane of each track, in that order and associated with the track; the object is what the specification says *)
Theorem extract_exact tracks hits idxs : sound nplanes tracks hits idxs -> exists cs ts, extract tracks hits idxs = Ok (cs, ts) /\ length cs = length tracks * nplanes /\ length ts = length tracks * nplanes /\
  forall i t l p r, nth_error tracks i = Some t -> nth_error idxs i = Some l -> p < nplanes -> hits_on hits l p r ->
    nth_error ts (i * nplanes + p) = Some i /\ exists c es inv, nth_error cs (i * nplanes + p) = Some c /\ describes t p r c es inv.
Proof.
  intros Sd. eexists. eexists. split; [apply extract_form, Sd|]. split; [apply blocks_length; intros; rewrite map_length; unfold range; rewrite seq_length; lia|]. split; [apply blocks_length; intros; apply repeat_length|]. intros i t l p r Ht Hl Hp ->. assert (Li : i < length tracks) by (apply nth_error_Some; congruence). split.
  - rewrite (nth_blocks (fun i => repeat i nplanes)) by (try assumption; intros; apply repeat_length). cbn [Nat.add]. clear -Hp. revert p Hp. induction nplanes as [|n IH]; intros [|p] P; try lia; [reflexivity|]. apply IH. lia.
  - rewrite (nth_blocks (fun i => map (result hits (nth i tracks d0) (nth i idxs [])) (range 0 nplanes))) by (try assumption; intros; rewrite map_length; unfold range; rewrite seq_length; lia). cbn [Nat.add]. rewrite (nth_error_nth _ _ _ Ht), (nth_error_nth _ _ _ Hl). destruct Sd as (_ & V). destruct (V i t l Ht Hl) as (Pt & _).
    destruct (result_ok hits t l p) as (es & inv & D); [intros N; apply Pt; intros ->; apply N; reflexivity|]. exists (result hits t l p), es, inv. split; [|exact D]. unfold range. rewrite Nat.sub_0_r. rewrite nth_error_map, (nth_error_nth' _ 0) by (rewrite seq_length; exact Hp). rewrite seq_nth by exact Hp. reflexivity.
Qed.
End P.
(** C165: the residual ranges of an object never fall and are between 0 and the length of the track *)
Lemma sorted_rev {A} (R : A -> A -> Prop) l : StronglySorted R l -> StronglySorted (fun a b => R b a) (rev l).
Proof.
  induction 1 as [|a l H IH F]; [constructor|]. cbn [rev]. assert (G : forall u, StronglySorted (fun a b => R b a) u -> (forall y, In y u -> R a y) -> StronglySorted (fun a b => R b a) (u ++ [a])).
  { clear. induction u as [|y u IH]; intros S F; [repeat constructor|]. inversion S as [|? ? S' F']; subst. cbn [app]. constructor; [apply IH; [exact S'|intros; apply F; right; assumption]|]. apply Forall_app. split; [exact F'|]. constructor; [apply F; left; reflexivity|constructor]. }
  apply G; [exact IH|]. intros y I. rewrite Forall_forall in F. apply F. apply in_rev, I.
Qed.
Lemma sorted_impl {A} (R R' : A -> A -> Prop) l : (forall a b, R a b -> R' a b) -> StronglySorted R l -> StronglySorted R' l.
Proof. intros H. induction 1 as [|a l S IH F]; constructor; [exact IH|]. eapply Forall_impl; [|exact F]. apply H. Qed.
Theorem residual_range ns wp pa de t p r c es inv : describes ns wp pa de t p r c es inv -> proper t -> StronglySorted Qcle (c_range c) /\ forall x, In x (c_range c) -> (0 <= x <= t_len t)%Qc.
Proof.
  intros D Pr. pose proof (d_near _ _ _ _ _ _ _ _ _ _ D) as d_near0. pose proof (d_order _ _ _ _ _ _ _ _ _ _ D Pr) as d_order0. rewrite (d_range _ _ _ _ _ _ _ _ _ _ D Pr). destruct Pr as (P & L & _). split.
  - apply sorted_map. destruct inv; [exact d_order0|]. apply sorted_rev in d_order0. revert d_order0. apply sorted_impl. intros a b H. revert H. generalize (path t (snd a)) (path t (snd b)) (t_len t). intros; qclra.
  - intros x I. apply in_map_iff in I as ((h & k) & <- & I). assert (I' : In (h, k) es) by (destruct inv; [exact I|apply in_rev; exact I]). destruct (d_near0 h k I') as (K & _). assert (A : (path t k <= t_len t)%Qc) by (rewrite L; apply path_mono; [exact P|lia]). assert (B : (0 <= path t k)%Qc) by (unfold path; apply qsum_nonneg; intros; apply P). cbn [snd]. revert A B. generalize (path t k) (t_len t). intros u v A B. destruct inv; split; qclra.
Qed.
(** a track of four points with three hits on two planes *)
Definition q (n : Z) : Qc := Q2Qc (n # 1).
Definition trk : track := {| t_pts := 4; t_step := fun _ => q 2; t_len := q 6; t_proj := fun p i => (Z.of_nat (10 + i), q (Z.of_nat (i * 5))) |}.
Definition hts : list hit := [{| h_plane := 0; h_wire := 12; h_time := q 10; h_charge := q 7 |}; {| h_plane := 1; h_wire := 11; h_time := q 5; h_charge := q 3 |}; {| h_plane := 0; h_wire := 10; h_time := q 1; h_charge := q 9 |}].
Example sound_case : sound 2 [trk] hts [[0; 1; 2]] /\ proper trk.
Proof.
  split.
  - split; [cbn; lia|]. intros [|i] t l Ht Hl; [|destruct i; discriminate Ht]. injection Ht as <-. injection Hl as <-. split; [intros _; cbn; lia|]. intros j I. cbn in I. destruct I as [<-|[<-|[<-|[]]]]; eexists; (split; [reflexivity|cbn; lia]).
  - split; [intros k; vm_compute; discriminate|]. split; [apply Qc_is_canon; vm_compute; reflexivity|vm_compute; reflexivity].
Qed.
Definition answer : outcome (list calo * list nat) := extract 2 1 (fun _ => q 1) (fun _ _ _ => q 1) (fun h x => (h_charge h / x)%Qc) [trk] hts [[0; 1; 2]].
Example extract_case : match answer with Ok (cs, ts) => ts = [0; 0] /\ map c_xyz cs = [[0; 2]; [1]] | _ => False end.
Proof. vm_compute. split; reflexivity. Qed.
Print Assumptions extract_exact.
Print Assumptions residual_range.
Print Assumptions inverted_exact.
