(** the hits by plane *)
From Coq Require Import QArith Qcanon.
From Verif Require Import Base SPA_Model SPA_Spec SPA_Order.
Import SPA_Model.
Local Open Scope nat_scope.

Definition sel (c : cfg) (cr t p : nat) (h : hit) : bool := enabled c h && (hcryo h =? cr) && (htpc h =? t) && (hplane h =? p).
Lemma enabled_spec c h : enabled c h = true <-> used c h.
Proof. unfold enabled, used. destruct (hview h); try reflexivity. split; [discriminate|tauto]. Qed.
Lemma sel_spec c cr t p h : sel c cr t p h = true <-> used_at c cr t p h.
Proof. unfold sel, used_at, at_plane. rewrite !andb_true_iff, !Nat.eqb_eq, enabled_spec. tauto. Qed.

Lemma insw_perm h l : Permutation (insw h l) (h :: l).
Proof. induction l as [|k l IH]; cbn [insw]; [reflexivity|]. destruct (hwire h <? hwire k); [reflexivity|]. rewrite IH. apply perm_swap. Qed.

Definition repr (g : geo) (c : cfg) (hm : hitmap) (pre : list hit) : Prop :=
  forall cr t np, planes_in g cr t np -> exists a planes, nth_error hm cr = Some a /\ nth_error a t = Some planes /\ length planes = np /\
    forall p, p < np -> Permutation (nth p planes []) (filter (sel c cr t p) pre).

Lemma nth_repeat_nil {A} n p : nth p (repeat (@nil A) n) [] = [].
Proof. revert p. induction n as [|n IH]; intros [|p]; cbn; auto. Qed.
Lemma filter_one {A} (f : A -> bool) pre x : filter f (pre ++ [x]) = filter f pre ++ (if f x then [x] else []).
Proof. rewrite filter_app. cbn. destruct (f x); reflexivity. Qed.

Lemma add_ok g c hm pre h np : repr g c hm pre -> planes_in g (hcryo h) (htpc h) np -> hplane h < np -> enabled c h = true ->
  exists hm', add_hit hm h = Ok hm' /\ repr g c hm' (pre ++ [h]).
Proof.
  intros R P L En. destruct (R _ _ _ P) as (a & planes & Ha & Ht & Hl & Hp). unfold add_hit, idx. rewrite Ha. cbn [obind]. rewrite Ht. cbn [obind].
  assert (Lp : hplane h < length planes) by lia. rewrite (nth_error_nth' planes [] Lp). cbn [obind]. eexists. split; [reflexivity|].
  intros cr t np' P'. destruct (R _ _ _ P') as (a' & planes' & Ha' & Ht' & Hl' & Hp').
  assert (Lc : hcryo h < length hm) by (apply nth_error_Some; congruence). assert (Lt : htpc h < length a) by (apply nth_error_Some; congruence).
  rewrite nth_error_upd, (proj2 (Nat.ltb_lt _ _) Lc), andb_true_r.
  assert (Old : forall p, p < np' -> ~ (hcryo h = cr /\ htpc h = t /\ hplane h = p) -> Permutation (nth p planes' []) (filter (sel c cr t p) (pre ++ [h]))).
  { intros p Lp' D. rewrite filter_one. replace (sel c cr t p h) with false; [rewrite app_nil_r; apply Hp'; exact Lp'|].
    symmetry. apply not_true_iff_false. intros X. apply sel_spec in X as (_ & X). apply D. exact X. }
  destruct (Nat.eqb_spec cr (hcryo h)) as [->|Dc].
  - assert (a' = a) by congruence. subst a'. exists (upd a (htpc h) (upd planes (hplane h) (insw h (nth (hplane h) planes [])))).
    destruct (Nat.eqb_spec t (htpc h)) as [->|Dt].
    + assert (planes' = planes) by congruence. subst planes'. exists (upd planes (hplane h) (insw h (nth (hplane h) planes []))).
      split; [reflexivity|]. split; [rewrite nth_error_upd, Nat.eqb_refl, (proj2 (Nat.ltb_lt _ _) Lt); reflexivity|]. split; [rewrite upd_length; exact Hl'|].
      intros p Lp'. rewrite nth_upd, (proj2 (Nat.ltb_lt _ _) Lp), andb_true_r. destruct (Nat.eqb_spec p (hplane h)) as [->|Dp].
      * rewrite filter_one. rewrite (proj2 (sel_spec c _ _ _ h)); [|split; [apply enabled_spec; exact En|unfold at_plane; auto]].
        eapply Permutation_trans; [apply insw_perm|]. eapply Permutation_trans; [|apply Permutation_cons_append]. constructor. apply Hp'. exact Lp'.
      * apply Old; [exact Lp'|]. intros (_ & _ & X). congruence.
    + exists planes'. split; [reflexivity|]. split; [rewrite nth_error_upd; destruct (Nat.eqb_spec t (htpc h)); [contradiction|]; exact Ht'|]. split; [exact Hl'|].
      intros p Lp'. apply Old; [exact Lp'|]. intros (_ & X & _). congruence.
  - exists a', planes'. split; [exact Ha'|]. split; [exact Ht'|]. split; [exact Hl'|]. intros p Lp'. apply Old; [exact Lp'|]. intros (X & _). congruence.
Qed.

Lemma sort_ok g c hits : placed g hits -> exists hm, sort_hits g c hits = Ok hm /\ repr g c hm hits.
Proof.
  intros (_ & P). unfold sort_hits.
  assert (G : forall l pre hm, incl l hits -> repr g c hm pre -> exists hm', foreach l (fun hm h => if enabled c h then add_hit hm h else Ok hm) hm = Ok hm' /\ repr g c hm' (pre ++ l)).
  { induction l as [|h l IH]; intros pre hm I R; cbn [foreach].
    - exists hm. rewrite app_nil_r. auto.
    - assert (St : exists hm', (if enabled c h then add_hit hm h else Ok hm) = Ok hm' /\ repr g c hm' (pre ++ [h])).
      { destruct (enabled c h) eqn:En.
        - destruct (P h (I h (or_introl eq_refl))) as (np & Pn & L). apply (add_ok g c hm pre h np); assumption.
        - exists hm. split; [reflexivity|]. intros cr t np Pn. destruct (R _ _ _ Pn) as (a & planes & A & B & C & D). exists a, planes. repeat split; auto.
          intros p Lp. rewrite filter_one. unfold sel at 2. rewrite En. cbn [andb]. rewrite app_nil_r. apply D. exact Lp. }
      destruct St as (hm' & E & R'). rewrite E. cbn [obind].
      destruct (IH (pre ++ [h]) hm' (fun x X => I x (or_intror X)) R') as (hm2 & E2 & R2). exists hm2. split; [exact E2|]. rewrite <- app_assoc in R2. exact R2. }
  apply (G hits []); [intros x X; exact X|].
  intros cr t np (ts & A & B). unfold empty_map. exists (map (fun n => repeat [] n) ts), (repeat [] np).
  split; [rewrite nth_error_map, A; reflexivity|]. split; [rewrite nth_error_map, B; reflexivity|]. split; [apply repeat_length|].
  intros p L. rewrite nth_repeat_nil. reflexivity.
Qed.

(** counting *)
Lemma counts_filter {A} (P : A -> Prop) (f : A -> bool) l n : (forall x, f x = true <-> P x) -> counts P l n -> n = length (filter f l).
Proof.
  intros E C. induction C as [|x l n Px C IH|x l n Px C IH]; cbn [filter]; [reflexivity| |].
  - rewrite (proj2 (E x) Px). cbn. congruence.
  - destruct (f x) eqn:F; [exfalso; apply Px, E; exact F|exact IH].
Qed.
Lemma filter_counts {A} (P : A -> Prop) (f : A -> bool) l : (forall x, In x l -> (f x = true <-> P x)) -> counts P l (length (filter f l)).
Proof.
  induction l as [|x l IH]; intros E; cbn [filter]; [constructor|]. destruct (f x) eqn:F; cbn [length].
  - constructor; [apply E; [left; reflexivity|exact F]|]. apply IH. intros y Y. apply E. right; exact Y.
  - constructor; [intros X; apply E in X; [congruence|left; reflexivity]|]. apply IH. intros y Y. apply E. right; exact Y.
Qed.
Lemma counts_fun {A} (P Q : A -> Prop) l n m : (forall x, In x l -> (P x <-> Q x)) -> counts P l n -> counts Q l m -> n = m.
Proof.
  intros E C. revert m. induction C as [|x l n Px C IH|x l n Px C IH]; intros m D; inversion D; subst; try reflexivity.
  - f_equal. apply IH; [intros y Y; apply E; right; exact Y|assumption].
  - exfalso. match goal with H : ~ Q x |- _ => apply H, E; [left; reflexivity|exact Px] end.
  - exfalso. apply Px, E; [left; reflexivity|assumption].
  - apply IH; [intros y Y; apply E; right; exact Y|assumption].
Qed.
