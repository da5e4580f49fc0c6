From Coq Require Import QArith Qcanon.
From Verif Require Import Base Util SortUtil QcUtil Solver_Model Solver_Proofs Triplet_Model Triplet_Proofs CMComb_Proofs PT_Connect SPS_Model SPS_Spec.
Local Open Scope nat_scope.

Lemma filter_ext_in' {A} (f g : A -> bool) l : (forall x, In x l -> f x = g x) -> filter f l = filter g l.
Proof. apply filter_ext_in. Qed.
Lemma where_snoc P pre t : where_ P (pre ++ [t]) = where_ P pre ++ (if P t then [length pre] else []).
Proof.
  unfold where_. rewrite app_length. cbn [length]. rewrite Nat.add_1_r, seq_S, filter_app. cbn [plus filter]. rewrite nth_error_app2, Nat.sub_diag by lia. cbn [nth_error]. f_equal. apply filter_ext_in. intros k Hk. apply in_seq in Hk. rewrite nth_error_app1 by lia. reflexivity.
Qed.
Lemma where_in P ts k : In k (where_ P ts) <-> exists t, nth_error ts k = Some t /\ P t = true.
Proof.
  unfold where_. rewrite filter_In, in_seq. split.
  - intros (_ & H). destruct (nth_error ts k) as [t|]; [eauto|discriminate].
  - intros (t & E & H). rewrite E. split; [|exact H]. assert (k < length ts) by (apply nth_error_Some; congruence). lia.
Qed.
Lemma where_nodup P ts : NoDup (where_ P ts).
Proof. apply NoDup_filter, seq_NoDup. Qed.
Lemma where_ext P Q ts : (forall t, In t ts -> P t = Q t) -> where_ P ts = where_ Q ts.
Proof. intros H. unfold where_. apply filter_ext_in. intros k _. destruct (nth_error ts k) as [t|] eqn:E; [|reflexivity]. apply H. eapply nth_error_In. exact E. Qed.
Lemma where_nil P ts : where_ P ts = [] <-> existsb P ts = false.
Proof.
  split.
  - intros E. destruct (existsb P ts) eqn:X; [|reflexivity]. apply existsb_exists in X. destruct X as (t & Hin & Ht). apply In_nth_error in Hin. destruct Hin as (k & Hk). assert (Y : In k (where_ P ts)) by (apply where_in; eauto). rewrite E in Y. destruct Y.
  - intros E. destruct (where_ P ts) as [|k l] eqn:W; [reflexivity|]. assert (Y : In k (where_ P ts)) by (rewrite W; left; reflexivity). apply where_in in Y. destruct Y as (t & Hk & Ht). assert (X : existsb P ts = true) by (apply existsb_exists; exists t; split; [eapply nth_error_In; exact Hk|exact Ht]). congruence.
Qed.
Definition has_x (x : option nat) (t : triplet) : bool := opt_eqb x (t_x t).
Lemma full_is t : is_some (t_u t) && is_some (t_v t) = full t.
Proof. unfold full. destruct (t_u t), (t_v t); reflexivity. Qed.

Record maps_of (ts : list triplet) (m : maps) : Prop := mkMO {
  mo_good : forall x, m_good m x = where_ (fun t => has_x x t && full t) ts;
  mo_bad : forall x, m_bad m x = where_ (fun t => has_x x t && negb (full t)) ts;
  mo_sat : forall w, existsb (Nat.eqb w) (m_sat m) = explained ts (Some w) }.
Lemma existsb_eqb w l : existsb (Nat.eqb w) l = true <-> In w l.
Proof. rewrite existsb_exists. split; [intros (x & H & E); apply Nat.eqb_eq in E; subst; exact H|intros H; exists w; split; [exact H|apply Nat.eqb_refl]]. Qed.
Lemma sort_ok ts : forall pre m, maps_of pre m -> maps_of (pre ++ ts) (sort_triplets ts (length pre) m).
Proof.
  induction ts as [|t ts IH]; intros pre m H; [rewrite app_nil_r; exact H|]. cbn [sort_triplets]. replace (pre ++ t :: ts) with ((pre ++ [t]) ++ ts) by (rewrite <- app_assoc; reflexivity).
  replace (S (length pre)) with (length (pre ++ [t])) by (rewrite app_length; cbn; lia). apply IH. rewrite full_is. destruct H as [G B S0]. destruct (full t) eqn:Ef.
  - constructor; cbn [m_good m_bad m_sat].
    + intros x. rewrite where_snoc, Ef, andb_true_r. unfold push, has_x at 2. rewrite G. destruct (opt_eqb x (t_x t)); [reflexivity|rewrite app_nil_r; reflexivity].
    + intros x. rewrite where_snoc, Ef. cbn [negb]. rewrite andb_false_r, app_nil_r. apply B.
    + intros w. cbn [explained]. rewrite existsb_app. cbn [existsb]. rewrite Ef, orb_false_r. cbn [andb]. specialize (S0 w). cbn [explained] in S0. rewrite <- S0. destruct (t_x t); cbn [is_some andb]; [|rewrite orb_false_r; reflexivity]. rewrite !existsb_app. f_equal.
      unfold full in Ef. destruct (t_u t) as [a|], (t_v t) as [b|]; try discriminate. cbn. rewrite !orb_false_r, (Nat.eqb_sym w a), (Nat.eqb_sym w b). reflexivity.
  - constructor; cbn [m_good m_bad m_sat].
    + intros x. rewrite where_snoc, Ef, andb_false_r, app_nil_r. apply G.
    + intros x. rewrite where_snoc, Ef. cbn [negb]. rewrite andb_true_r. unfold push, has_x at 2. rewrite B. destruct (opt_eqb x (t_x t)); [reflexivity|rewrite app_nil_r; reflexivity].
    + intros w. cbn [explained]. rewrite existsb_app. cbn [existsb]. rewrite Ef. cbn [andb]. rewrite !orb_false_r. specialize (S0 w). exact S0.
Qed.
Definition the_maps (ts : list triplet) : maps := sort_triplets ts 0 (mkMaps (fun _ => []) (fun _ => []) []).
Lemma maps_ok ts : maps_of ts (the_maps ts).
Proof. unfold the_maps. change 0 with (length (@nil triplet)). apply (sort_ok ts []). constructor; reflexivity. Qed.

Lemma set_of_in l x : In x (set_of l) <-> In x l.
Proof. unfold set_of. rewrite <- (nodup_In Nat.eq_dec l). split; intros H; [apply (Permutation_in _ (isort_perm Nat.ltb _) H)|apply (Permutation_in _ (Permutation_sym (isort_perm Nat.ltb _)) H)]. Qed.
Lemma set_of_nodup l : NoDup (set_of l).
Proof. unfold set_of. apply (Permutation_NoDup (Permutation_sym (isort_perm Nat.ltb _))), NoDup_nodup. Qed.
Lemma hit_is_spec o h : hit_is o h = true <-> o = Some h.
Proof. destruct o as [x|]; cbn; [rewrite Nat.eqb_eq; split; congruence|split; discriminate]. Qed.
Lemma has_x_hit h t : has_x (Some h) t = hit_is (t_x t) h.
Proof. unfold has_x, opt_eqb, hit_is. destruct (t_x t); [apply Nat.eqb_sym|reflexivity]. Qed.
Lemma chits_in ts h : In h (chits ts) <-> exists t, In t ts /\ t_x t = Some h.
Proof. unfold chits. rewrite set_of_in, in_flat_map. split; intros (t & Hin & H); exists t; (split; [exact Hin|]); destruct (t_x t) as [x|]; cbn in *; [destruct H as [->|[]]; reflexivity|destruct H|injection H as ->; left; reflexivity|discriminate]. Qed.

(** the wires and what is deleted for them *)
Definition bad_rest (ts : list triplet) (x : nat) : list nat := if existsb (fun t => hit_is (t_x t) x && full t) ts then where_ (fun t => hit_is (t_x t) x && negb (full t)) ts else [].
Lemma add_hit_ok ts s h : In h (chits ts) -> add_hit (the_maps ts) s h = mkSys (s_wires s ++ [(h, wire_triplets ts h)]) (s_orphans s) (s_deleted s ++ bad_rest ts h).
Proof.
  intros Hh. destruct (maps_ok ts) as [G B _]. unfold add_hit. rewrite G, B. unfold wire_triplets, bad_rest.
  rewrite (where_ext (fun t => has_x (Some h) t && full t) (fun t => hit_is (t_x t) h && full t)) by (intros t _; rewrite has_x_hit; reflexivity).
  rewrite (where_ext (fun t => has_x (Some h) t && negb (full t)) (fun t => hit_is (t_x t) h && negb (full t))) by (intros t _; rewrite has_x_hit; reflexivity).
  destruct (existsb (fun t => hit_is (t_x t) h && full t) ts) eqn:E.
  - destruct (where_ (fun t => hit_is (t_x t) h && full t) ts) as [|k l] eqn:W; [apply where_nil in W; congruence|]. reflexivity.
  - assert (W := proj2 (where_nil _ ts) E). rewrite W. assert (X : where_ (fun t => hit_is (t_x t) h && negb (full t)) ts = where_ (fun t => hit_is (t_x t) h) ts).
    { apply where_ext. intros t Hin. destruct (full t) eqn:Ef; cbn [negb]; [|apply andb_true_r]. rewrite andb_false_r. destruct (hit_is (t_x t) h) eqn:Ex; [|reflexivity]. exfalso. assert (Y : existsb (fun t => hit_is (t_x t) h && full t) ts = true) by (apply existsb_exists; exists t; rewrite Ex, Ef; auto). congruence. }
    rewrite X. destruct (where_ (fun t => hit_is (t_x t) h) ts) as [|k l] eqn:W'; [|reflexivity]. exfalso. apply chits_in in Hh. destruct Hh as (t & Hin & Ht). apply where_nil in W'. assert (Y : existsb (fun t => hit_is (t_x t) h) ts = true) by (apply existsb_exists; exists t; split; [exact Hin|apply hit_is_spec, Ht]). congruence.
Qed.
Lemma add_hits_ok ts : forall l s, (forall h, In h l -> In h (chits ts)) -> fold_left (add_hit (the_maps ts)) l s = mkSys (s_wires s ++ map (fun h => (h, wire_triplets ts h)) l) (s_orphans s) (s_deleted s ++ flat_map (bad_rest ts) l).
Proof.
  induction l as [|h l IH]; intros s H; cbn [fold_left map flat_map]; [destruct s; cbn; rewrite !app_nil_r; reflexivity|]. rewrite IH by (intros x Hx; apply H; right; exact Hx). rewrite add_hit_ok by (apply H; left; reflexivity). cbn [s_wires s_orphans s_deleted]. rewrite <- !app_assoc. reflexivity.
Qed.
Definition unexplained (ts : list triplet) (t : triplet) : bool := negb (explained ts (t_u t)) || negb (explained ts (t_v t)).
Lemma add_orphans_ok ts : forall l s, (forall k, In k l -> exists t, nth_error ts k = Some t) ->
  fold_left (add_orphan (nth_t t_u ts) (nth_t t_v ts) (the_maps ts)) l s
  = mkSys (s_wires s) (s_orphans s ++ filter (fun k => match nth_error ts k with Some t => unexplained ts t | None => false end) l)
          (s_deleted s ++ filter (fun k => match nth_error ts k with Some t => negb (unexplained ts t) | None => false end) l).
Proof.
  destruct (maps_ok ts) as [_ _ S0]. induction l as [|k l IH]; intros s H; cbn [fold_left filter]; [destruct s; cbn; rewrite !app_nil_r; reflexivity|]. rewrite IH by (intros x Hx; apply H; right; exact Hx). destruct (H k (or_introl eq_refl)) as (t & Et). rewrite Et. unfold add_orphan, nth_t. rewrite Et.
  assert (C : forall w, count (m_sat (the_maps ts)) w = explained ts w) by (intros [w|]; [apply S0|reflexivity]). rewrite !C. fold (unexplained ts t). destruct (unexplained ts t); cbn [negb s_wires s_orphans s_deleted]; rewrite <- ?app_assoc; reflexivity.
Qed.
Definition orphan_t (ts : list triplet) (t : triplet) : bool := negb (is_some (t_x t)) && full t && unexplained ts t.
Definition orphan_del (ts : list triplet) (t : triplet) : bool := negb (is_some (t_x t)) && full t && negb (unexplained ts t).
Lemma filter_filter {A} (f g : A -> bool) l : filter f (filter g l) = filter (fun x => g x && f x) l.
Proof. induction l as [|x l IH]; cbn; [reflexivity|]. destruct (g x); cbn; [destruct (f x); rewrite IH; reflexivity|exact IH]. Qed.
Lemma system_ok ts : build_system ts = mkSys (map (fun h => (h, wire_triplets ts h)) (chits ts)) (where_ (orphan_t ts) ts) (flat_map (bad_rest ts) (chits ts) ++ where_ (orphan_del ts) ts).
Proof.
  unfold build_system. fold (the_maps ts). destruct (maps_ok ts) as [G _ _]. rewrite add_hits_ok by auto. cbn [s_wires s_orphans s_deleted app]. rewrite add_orphans_ok; [|intros k Hk; rewrite G in Hk; apply where_in in Hk; destruct Hk as (t & E & _); eauto]. cbn [s_wires s_orphans s_deleted app]. rewrite G. unfold where_. rewrite !filter_filter. f_equal; [|f_equal]; apply filter_ext_in; intros k _; destruct (nth_error ts k) as [t|]; try reflexivity; unfold orphan_t, orphan_del, has_x; destruct (t_x t); reflexivity.
Qed.

(** every triplet in one place *)
Definition leaked (ts : list triplet) : list nat := where_ (fun t => negb (is_some (t_x t)) && negb (full t)) ts.
Lemma filter_part {A} (f g : A -> bool) l : Permutation (filter f l) (filter (fun x => f x && g x) l ++ filter (fun x => f x && negb (g x)) l).
Proof.
  induction l as [|x l IH]; cbn; [constructor|]. destruct (f x); cbn; [|exact IH]. destruct (g x); cbn; [constructor; exact IH|]. apply Permutation_cons_app. exact IH.
Qed.
Lemma where_part P Q ts : Permutation (where_ P ts) (where_ (fun t => P t && Q t) ts ++ where_ (fun t => P t && negb (Q t)) ts).
Proof.
  unfold where_. rewrite (filter_part _ (fun k => match nth_error ts k with Some t => Q t | None => false end)).
  apply Permutation_app; match goal with |- Permutation ?a ?b => replace a with b; [reflexivity|] end; symmetry; apply filter_ext_in; intros k _; destruct (nth_error ts k); reflexivity.
Qed.
Lemma where_all ts : where_ (fun _ => true) ts = seq 0 (length ts).
Proof.
  unfold where_. rewrite <- (filter_ext_in (fun _ => true)); [|intros k Hk; apply in_seq in Hk; destruct (nth_error ts k) eqn:E; [reflexivity|apply nth_error_None in E; lia]]. induction (seq 0 (length ts)); cbn; congruence.
Qed.
Lemma wire_split ts h : Permutation (where_ (fun t => hit_is (t_x t) h) ts) (wire_triplets ts h ++ bad_rest ts h).
Proof. unfold wire_triplets, bad_rest. destruct (existsb _ ts); [apply where_part|rewrite app_nil_r; reflexivity]. Qed.
Lemma group ts : Permutation (where_ (fun t => is_some (t_x t)) ts) (flat_map (fun h => where_ (fun t => hit_is (t_x t) h) ts) (chits ts)).
Proof.
  apply NoDup_Permutation; [apply where_nodup| |].
  - apply flat_nodup; [apply set_of_nodup|intros; apply where_nodup|]. intros x y k _ _ Hx Hy. apply where_in in Hx, Hy. destruct Hx as (t & E & X), Hy as (t' & E' & Y). apply hit_is_spec in X, Y. congruence.
  - intros k. rewrite where_in, in_flat_map. split.
    + intros (t & E & H). destruct (t_x t) as [h|] eqn:Ex; [|discriminate]. exists h. split; [apply chits_in; exists t; split; [eapply nth_error_In; exact E|exact Ex]|apply where_in; exists t; split; [exact E|apply hit_is_spec, Ex]].
    + intros (h & _ & H). apply where_in in H. destruct H as (t & E & X). apply hit_is_spec in X. exists t. split; [exact E|]. rewrite X. reflexivity.
Qed.
Lemma account ts : Permutation (charges (build_system ts) ++ s_deleted (build_system ts) ++ leaked ts) (seq 0 (length ts)).
Proof.
  rewrite system_ok. unfold charges. cbn [s_wires s_orphans s_deleted]. rewrite flat_map_concat_map, map_map, <- flat_map_concat_map. cbn [snd].
  rewrite <- where_all. rewrite (where_part (fun _ => true) (fun t => is_some (t_x t)) ts). cbn [andb]. rewrite (where_part (fun t => negb (is_some (t_x t))) full). rewrite (where_part (fun t => negb (is_some (t_x t)) && full t) (unexplained ts)). rewrite group.
  rewrite (flat_map_perm_ext (fun h => where_ (fun t => hit_is (t_x t) h) ts) (fun h => wire_triplets ts h ++ bad_rest ts h) (chits ts)) by (intros h _; apply wire_split). rewrite flat_map_app_perm.
  fold (leaked ts). fold (orphan_t ts). fold (orphan_del ts). set (A := flat_map (wire_triplets ts) (chits ts)). set (B := flat_map (bad_rest ts) (chits ts)). set (O := where_ (orphan_t ts) ts). set (Dl := where_ (orphan_del ts) ts).
  rewrite <- !app_assoc. apply Permutation_app_head. rewrite !app_assoc. apply Permutation_app_tail. rewrite <- !app_assoc. apply (Permutation_app_swap_app O B Dl).
Qed.
