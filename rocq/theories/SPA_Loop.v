(** the loops over pairs and triplets as one list of combinations *)
From Coq Require Import QArith Qcanon Qround Lqa.
From Verif Require Import Base QcUtil Solver_Model Solver_Proofs SPS_Model CMgr_Proofs SPA_Model SPA_Spec SPA_Compat SPA_Fit SPA_Order SPA_Hits SPA_Geom.
Import SPA_Model.
Local Open Scope nat_scope.

Lemma for_foreach {S} (l : list nat) (body : S -> nat -> outcome S) s : for_ l body s = foreach l body s.
Proof. revert s. induction l as [|i l IH]; intros s; cbn [for_ foreach]; [reflexivity|]. destruct (body s i); cbn [obind]; auto. Qed.
Lemma fe_ext {A S} (l : list A) (b1 b2 : S -> A -> outcome S) s : (forall s a, In a l -> b1 s a = b2 s a) -> foreach l b1 s = foreach l b2 s.
Proof. revert s. induction l as [|a l IH]; intros s E; cbn [foreach]; [reflexivity|]. rewrite E by (left; reflexivity). destruct (b2 s a); cbn [obind]; [apply IH; intros; apply E; right; assumption|reflexivity|reflexivity]. Qed.
Lemma fe_map {A B S} (f : A -> B) (l : list A) (body : S -> B -> outcome S) s : foreach l (fun s a => body s (f a)) s = foreach (map f l) body s.
Proof. revert s. induction l as [|a l IH]; intros s; cbn [map foreach]; [reflexivity|]. destruct (body s (f a)); cbn [obind]; auto. Qed.
Lemma fe_flat {A B S} (f : A -> list B) (l : list A) (body : S -> B -> outcome S) s : foreach l (fun s a => foreach (f a) body s) s = foreach (flat_map f l) body s.
Proof. revert s. induction l as [|a l IH]; intros s; cbn [flat_map foreach]; [reflexivity|]. rewrite foreach_app. destruct (foreach (f a) body s); cbn [obind]; auto. Qed.
Lemma fe_filter {A S} (f : A -> bool) (l : list A) (body : S -> A -> outcome S) s : foreach l (fun s a => if f a then body s a else Ok s) s = foreach (filter f l) body s.
Proof. revert s. induction l as [|a l IH]; intros s; cbn [filter foreach]; [reflexivity|]. destruct (f a); cbn [foreach obind]; [destruct (body s a); cbn [obind]; auto|apply IH]. Qed.
Lemma filter_filter {A} (f h : A -> bool) l : filter f (filter h l) = filter (fun x => h x && f x) l.
Proof. induction l as [|x l IH]; cbn [filter]; [reflexivity|]. destruct (h x); cbn [filter andb]; [destruct (f x)|]; rewrite IH; reflexivity. Qed.
Lemma flat_map_ext' {A B} (f h : A -> list B) l : (forall x, In x l -> f x = h x) -> flat_map f l = flat_map h l.
Proof. induction l as [|x l IH]; intros E; cbn [flat_map]; [reflexivity|]. rewrite (E x) by (left; reflexivity). f_equal. apply IH. intros y Y; apply E; right; exact Y. Qed.
Lemma filter_ext2 {A} (f h : A -> bool) l : (forall x, In x l -> f x = h x) -> filter f l = filter h l.
Proof. induction l as [|x l IH]; intros E; cbn [filter]; [reflexivity|]. rewrite (E x) by (left; reflexivity). rewrite IH by (intros y Y; apply E; right; exact Y). reflexivity. Qed.

Definition hit0 : hit := Hit 0 0 0 0 0 VX 0%Qc 0%Qc.
(** add a point for the hits [hs]: identifier size + k, filed under the last hit *)
Definition addk (g : geo) (k : Z) (s : st) (hs : list hit) : outcome st := add_point g hs (last hs hit0) (Z.of_nat (length (s_mm s)) + k) s.

Definition fitsb (g : geo) (c : cfg) (hs : list hit) : bool := match compatible g c hs with Ok b => b | _ => false end.
Definition reachb (g : geo) (cr t p2 : nat) (h1 h2 : hit) : bool :=
  match reach (wire_of g h1) (g_wire g cr t p2 0) (g_pitch g cr t p2) with Ok r => in_win r h2 | _ => false end.

Lemma fits3_inv g c a b d : fits g c [a; b; d] -> agree g c a b /\ agree g c a d /\ agree g c b d /\ within (maxs c) (sep3 (wr g a) (wr g b) (wr g d)).
Proof. inversion 1; auto. Qed.

Section tpc.
Context (g : geo) (c : cfg) (cr t : nat) (planes : list (list hit)) (index : list nat).
Let np := length planes.
Let hp p := nth p planes [].
Hypothesis R : regular g.
Hypothesis Np : np <= 3.
Hypothesis At : forall p h, In h (hp p) -> at_plane cr t p h /\ p < np.
Hypothesis Pi : Permutation (seq 0 np) index.

Lemma clean_two p q a b : p <> q -> In a (hp p) -> In b (hp q) -> clean g [a; b].
Proof.
  intros D A B. destruct (At p a A) as ((A1 & A2 & A3) & A4). destruct (At q b B) as ((B1 & B2 & B3) & B4).
  split; [|split].
  - intros h _. apply (r_straight g R).
  - cbn. constructor; [intros [X|[]]; congruence|]. constructor; [intros []|constructor].
  - intros h [<-|[<-|[]]]; lia.
Qed.
Lemma clean_three p q r a b d : p <> q -> p <> r -> q <> r -> In a (hp p) -> In b (hp q) -> In d (hp r) -> clean g [a; b; d].
Proof.
  intros D1 D2 D3 A B C. destruct (At p a A) as ((A1 & A2 & A3) & A4). destruct (At q b B) as ((B1 & B2 & B3) & B4). destruct (At r d C) as ((C1 & C2 & C3) & C4).
  split; [|split].
  - intros h _. apply (r_straight g R).
  - cbn. constructor; [intros [X|[X|[]]]; congruence|]. constructor; [intros [X|[]]; congruence|]. constructor; [intros []|constructor].
  - intros h [<-|[<-|[<-|[]]]]; lia.
Qed.
Lemma compat_fitsb hs : clean g hs -> compatible g c hs = Ok (fitsb g c hs) /\ (fitsb g c hs = true <-> fits g c hs).
Proof. intros C. destruct (compatible_spec g c hs C) as (b & E & S). unfold fitsb. rewrite E. auto. Qed.

Definition pairs_in (p q : nat) : list (list hit) :=
  flat_map (fun h1 => map (fun h2 => [h1; h2]) (filter (fun h2 => reachb g cr t q h1 h2 && fitsb g c [h1; h2]) (hp q))) (hp p).

Lemma pair_hit_eq p q h1 s : p <> q -> In h1 (hp p) ->
  pair_hit g c cr t q (hp q) s h1 = foreach (map (fun h2 => [h1; h2]) (filter (fun h2 => reachb g cr t q h1 h2 && fitsb g c [h1; h2]) (hp q))) (addk g 0) s.
Proof.
  intros D I. unfold pair_hit, reachb. destruct (reach_ok g R (wire_of g h1) cr t q) as (r & E & L & _). rewrite E. cbn [obind].
  unfold between. rewrite (proj2 (Z.leb_le _ _) L). cbn [obind].
  rewrite <- (filter_filter (fun h2 => fitsb g c [h1; h2]) (in_win r)), <- fe_map.
  rewrite <- (fe_filter (fun h2 => fitsb g c [h1; h2])). apply fe_ext. intros s0 h2 H2. apply filter_In in H2 as (H2 & _).
  rewrite (proj1 (compat_fitsb _ (clean_two p q h1 h2 D I H2))). cbn [obind]. destruct (fitsb g c [h1; h2]); [|reflexivity].
  unfold addk. cbn [last]. rewrite Z.add_0_r. reflexivity.
Qed.

Definition pi (i : nat) : nat := nth i index 0.
Lemma idx_index i : i < np -> idx index i = Ok (pi i) /\ pi i < np.
Proof.
  intros L. pose proof (Permutation_length Pi) as Len. rewrite seq_length in Len. unfold idx, pi. assert (L2 : i < length index) by lia.
  rewrite (nth_error_nth' index 0 L2). split; [reflexivity|]. pose proof (nth_In index 0 L2) as X. apply (Permutation_in _ (Permutation_sym Pi)), in_seq in X. lia.
Qed.
Lemma pi_inj i j : i < np -> j < np -> pi i = pi j -> i = j.
Proof.
  intros Li Lj E. pose proof (Permutation_length Pi) as Len. rewrite seq_length in Len.
  assert (N : NoDup index) by (apply (Permutation_NoDup Pi), seq_NoDup). apply (proj1 (NoDup_nth index 0) N); [lia|lia|exact E].
Qed.
Lemma idx_planes p : p < np -> idx planes p = Ok (hp p).
Proof. intros L. unfold idx. rewrite (nth_error_nth' planes [] L). reflexivity. Qed.

Definition combos2 : list (list hit) := flat_map (fun i => flat_map (fun j => pairs_in (pi i) (pi j)) (range (i + 1) np)) (range 0 (np - 1)).

Lemma two_views_eq s : (forall i j, i < j < np -> prefer c = false -> length (hp (pi i)) <= length (hp (pi j))) ->
  two_views g c cr t planes index s = foreach combos2 (addk g 0) s.
Proof.
  intros Srt. unfold two_views, combos2. fold np. rewrite for_foreach, <- fe_flat. apply fe_ext. intros s1 i Hi. apply in_range in Hi.
  destruct (idx_index i) as (Ei & Li); [lia|]. rewrite Ei. cbn [obind]. rewrite (idx_planes _ Li). cbn [obind].
  destruct (Nat.eqb_spec (length (hp (pi i))) 0) as [Z|Z].
  - assert (Em : flat_map (fun j => pairs_in (pi i) (pi j)) (range (i + 1) np) = []).
    { apply length_zero_iff_nil in Z. clear -Z. induction (range (i + 1) np) as [|j l IH]; [reflexivity|]. cbn [flat_map]. rewrite IH. unfold pairs_in. rewrite Z. reflexivity. }
    rewrite Em. reflexivity.
  - rewrite for_foreach, <- fe_flat. apply fe_ext. intros s2 j Hj. apply in_range in Hj.
    destruct (idx_index j) as (Ej & Lj); [lia|]. rewrite Ej. cbn [obind]. rewrite (idx_planes _ Lj). cbn [obind].
    assert (D : pi i <> pi j) by (intros X; apply pi_inj in X; lia).
    destruct (Nat.eqb_spec (length (hp (pi j))) 0) as [Y|Y].
    + assert (Em : pairs_in (pi i) (pi j) = []).
      { unfold pairs_in. apply length_zero_iff_nil in Y. rewrite Y. clear. induction (hp (pi i)) as [|h l IH]; [reflexivity|]. cbn [flat_map filter map app]. exact IH. }
      rewrite Em. reflexivity.
    + destruct (negb (prefer c) && (length (hp (pi j)) <? length (hp (pi i)))) eqn:B.
      { exfalso. apply andb_true_iff in B as (B1 & B2). apply negb_true_iff in B1. apply Nat.ltb_lt in B2. pose proof (Srt i j ltac:(lia) B1). lia. }
      unfold pairs_in. rewrite <- fe_flat. apply fe_ext. intros s3 h1 H1. apply (pair_hit_eq (pi i) (pi j) h1 s3 D H1).
Qed.

Definition combos3 : list (list hit) :=
  flat_map (fun h1 => flat_map (fun h2 => map (fun h3 => [h1; h2; h3]) (filter (fun h3 => fitsb g c [h1; h2; h3]) (hp (pi 2))))
    (filter (fun h2 => reachb g cr t (pi 1) h1 h2 && fitsb g c [h1; h2]) (hp (pi 1)))) (hp (pi 0)).

Lemma three_views_eq s : 3 <= np -> three_views g c cr t planes index s = foreach combos3 (addk g (-1)) s.
Proof.
  intros L3. unfold three_views, combos3.
  destruct (idx_index 0) as (E0 & L0); [lia|]. destruct (idx_index 1) as (E1 & L1); [lia|]. destruct (idx_index 2) as (E2 & L2); [lia|].
  rewrite E0. cbn [obind]. rewrite E1. cbn [obind]. rewrite E2. cbn [obind]. rewrite (idx_planes _ L0). cbn [obind]. rewrite (idx_planes _ L1). cbn [obind]. rewrite (idx_planes _ L2). cbn [obind].
  assert (D01 : pi 0 <> pi 1) by (intros X; apply pi_inj in X; lia). assert (D02 : pi 0 <> pi 2) by (intros X; apply pi_inj in X; lia). assert (D12 : pi 1 <> pi 2) by (intros X; apply pi_inj in X; lia).
  set (p1 := pi 0) in *. set (p2 := pi 1) in *. set (p3 := pi 2) in *. clearbody p1 p2 p3.
  rewrite <- fe_flat. apply fe_ext. intros s1 h1 H1.
  destruct (reach_ok g R (wire_of g h1) cr t p2) as (r & Er & Lr & _). unfold reachb. rewrite Er. cbn [obind]. unfold between at 1. rewrite (proj2 (Z.leb_le _ _) Lr). cbn [obind].
  rewrite <- (filter_filter (fun h2 => fitsb g c [h1; h2]) (in_win r)), <- fe_flat, <- (fe_filter (fun h2 => fitsb g c [h1; h2])). apply fe_ext. intros s2 h2 H2. apply filter_In in H2 as (H2 & _).
  destruct (At p1 h1 H1) as (A1 & _). destruct (At p2 h2 H2) as (A2 & _).
  pose proof A1 as (A11 & A12 & A13). pose proof A2 as (A21 & A22 & A23).
  destruct (compat_fitsb _ (clean_two p1 p2 h1 h2 D01 H1 H2)) as (C2 & S2).
  assert (T1 : (htime h1 - g_off g cr t p1)%Qc = tm g h1) by (unfold tm; rewrite A11, A12, A13; reflexivity).
  assert (T2 : (htime h2 - g_off g cr t p2)%Qc = tm g h2) by (unfold tm; rewrite A21, A22, A23; reflexivity).
  rewrite T1, T2, C2. cbn [obind].
  destruct (fitsb g c [h1; h2]) eqn:F2.
  2:{ destruct (qle (qabs (tm g h1 - tm g h2)) (maxdt c)); reflexivity. }
  assert (Ag : agree g c h1 h2) by (pose proof (proj1 S2 eq_refl) as X; inversion X; assumption).
  rewrite (proj2 (qabs_le _ _)) by (apply Ag).
  set (w1 := g_wire g cr t p1 0). set (w2 := g_wire g cr t p2 0). set (w3 := g_wire g cr t p3 0).
  set (s12 := (sin0 w1 * cos0 w2 - sin0 w2 * cos0 w1)%Qc).
  destruct (qc_eqb s12 0) eqn:Z1; [apply qc_eqb_spec in Z1; exfalso; exact (r_cross g R cr t p1 p2 D01 Z1)|].
  destruct (qc_eqb (g_pitch g cr t p3) 0) eqn:Z2; [apply qc_eqb_spec in Z2; exfalso; exact (pos_ne _ (r_pitch g R _ _ _) Z2)|]. cbn [orb].
  set (pred := ((_ / s12 - dist0 w3) / _)%Qc). set (delta := qabs (maxs c / (s12 * g_pitch g cr t p3))%Qc).
  unfold between. rewrite (proj2 (Z.leb_le _ _)).
  2:{ assert (X : (Qceiling (pred - delta)%Qc <= Qfloor (pred + delta)%Qc + 1)%Z).
      { apply ceil_floor. assert (0 <= delta)%Qc by (unfold delta, qabs; destruct (qc_lt _ 0) eqn:Q; [apply qc_lt_spec in Q|apply qc_lt_false in Q]; clear -Q; revert Q; generalize (maxs c / (s12 * g_pitch g cr t p3))%Qc; intros; qclra).
        clearbody pred delta. clear -H. qclra. }
      lia. }
  cbn [obind].
  rewrite <- fe_map.
  set (win := fun h => (Z.max 0 (Qceiling (pred - delta)%Qc) <=? Z.of_nat (hwire h))%Z && (Z.of_nat (hwire h) <=? Z.max 0 (Qfloor (pred + delta)%Qc))%Z).
  replace (filter (fun h3 => fitsb g c [h1; h2; h3]) (hp p3)) with (filter (fun h3 => fitsb g c [h1; h2; h3]) (filter win (hp p3))).
  - rewrite <- (fe_filter (fun h3 => fitsb g c [h1; h2; h3])). apply fe_ext. intros s3 h3 H3. apply filter_In in H3 as (H3 & _).
    unfold third_hit. destruct (At p3 h3 H3) as (A3 & _). pose proof A3 as (A31 & A32 & A33).
    destruct (compat_fitsb _ (clean_three p1 p2 p3 h1 h2 h3 D01 D02 D12 H1 H2 H3)) as (C3 & S3).
    assert (T3 : (htime h3 - g_off g cr t p3)%Qc = tm g h3) by (unfold tm; rewrite A31, A32, A33; reflexivity).
    rewrite T3, C3. cbn [obind]. destruct (fitsb g c [h1; h2; h3]) eqn:F3.
    + destruct (fits3_inv _ _ _ _ _ (proj1 S3 eq_refl)) as (Y1 & Y2 & Y3 & Y4).
      rewrite (proj2 (qabs_le _ _)) by apply Y2. rewrite (proj2 (qabs_le _ _)) by apply Y3. cbn [andb].
      rewrite (proj2 (qabs_le _ _)) by exact (proj1 (third_in g R c cr t p1 p2 p3 h1 h2 h3 A1 A2 A3 D01 Y4)).
      unfold addk. cbn [last]. reflexivity.
    + destruct (_ && _); [|reflexivity]. destruct (qle _ _); reflexivity.
  - rewrite filter_filter. apply filter_ext2. intros h3 H3. destruct (fitsb g c [h1; h2; h3]) eqn:F3; [|apply andb_false_r]. rewrite andb_true_r.
    destruct (At p3 h3 H3) as (A3 & _).
    destruct (compat_fitsb _ (clean_three p1 p2 p3 h1 h2 h3 D01 D02 D12 H1 H2 H3)) as (_ & S3). destruct (fits3_inv _ _ _ _ _ (proj1 S3 F3)) as (Y1 & Y2 & Y3 & Y4).
    pose proof (proj2 (third_in g R c cr t p1 p2 p3 h1 h2 h3 A1 A2 A3 D01 Y4)) as Q. cbv zeta in Q. fold w1 w2 w3 in Q. fold s12 in Q. rewrite in_win_pair in Q. unfold win, pred, delta. exact Q.
Qed.

(** which combinations there are *)
Lemma reachb_spec q a b : In b (hp q) -> (reachb g cr t q a b = true <-> reaches g a b).
Proof.
  intros I. destruct (At q b I) as ((B1 & B2 & B3) & _). unfold reachb. destruct (reach_ok g R (wire_of g a) cr t q) as (r & E & _ & S). rewrite E. apply S; auto.
Qed.
Lemma in_pairs p q hs : p <> q -> (In hs (pairs_in p q) <-> exists a b, hs = [a; b] /\ In a (hp p) /\ In b (hp q) /\ reaches g a b /\ fits g c hs).
Proof.
  intros D. unfold pairs_in. rewrite in_flat_map. split.
  - intros (a & Ia & H). apply in_map_iff in H as (b & <- & Ib). apply filter_In in Ib as (Ib & X). apply andb_true_iff in X as (X1 & X2).
    exists a, b. split; [reflexivity|]. split; [exact Ia|]. split; [exact Ib|]. split; [apply (reachb_spec q); auto|]. apply (compat_fitsb _ (clean_two p q a b D Ia Ib)). exact X2.
  - intros (a & b & -> & Ia & Ib & Re & F). exists a. split; [exact Ia|]. apply in_map_iff. exists b. split; [reflexivity|]. apply filter_In. split; [exact Ib|].
    apply andb_true_iff. split; [apply (reachb_spec q); auto|]. apply (compat_fitsb _ (clean_two p q a b D Ia Ib)). exact F.
Qed.
Lemma in_combos2 hs : In hs combos2 <-> exists i j a b, i < j < np /\ hs = [a; b] /\ In a (hp (pi i)) /\ In b (hp (pi j)) /\ reaches g a b /\ fits g c hs.
Proof.
  unfold combos2. rewrite in_flat_map. split.
  - intros (i & Hi & H). apply in_range in Hi. apply in_flat_map in H as (j & Hj & H). apply in_range in Hj.
    apply in_pairs in H; [|intros X; apply pi_inj in X; lia]. destruct H as (a & b & H). exists i, j, a, b. split; [lia|exact H].
  - intros (i & j & a & b & L & H). exists i. split; [apply in_range; lia|]. apply in_flat_map. exists j. split; [apply in_range; lia|].
    apply in_pairs; [intros X; apply pi_inj in X; lia|]. exists a, b. exact H.
Qed.
Lemma fits3_2 a b d : fits g c [a; b; d] -> fits g c [a; b].
Proof. inversion 1; subst. constructor. assumption. Qed.
Lemma in_combos3 hs : 3 <= np -> (In hs combos3 <-> exists a b d, hs = [a; b; d] /\ In a (hp (pi 0)) /\ In b (hp (pi 1)) /\ In d (hp (pi 2)) /\ reaches g a b /\ fits g c hs).
Proof.
  intros L3. assert (D01 : pi 0 <> pi 1) by (intros X; apply pi_inj in X; lia). assert (D02 : pi 0 <> pi 2) by (intros X; apply pi_inj in X; lia). assert (D12 : pi 1 <> pi 2) by (intros X; apply pi_inj in X; lia).
  unfold combos3. rewrite in_flat_map. split.
  - intros (a & Ia & H). apply in_flat_map in H as (b & Ib & H). apply in_map_iff in H as (d & <- & Id). apply filter_In in Ib as (Ib & X). apply filter_In in Id as (Id & Y).
    apply andb_true_iff in X as (X1 & X2). exists a, b, d. split; [reflexivity|]. split; [exact Ia|]. split; [exact Ib|]. split; [exact Id|]. split; [apply (reachb_spec (pi 1)); auto|].
    apply (compat_fitsb _ (clean_three _ _ _ a b d D01 D02 D12 Ia Ib Id)). exact Y.
  - intros (a & b & d & -> & Ia & Ib & Id & Re & F). exists a. split; [exact Ia|]. apply in_flat_map. exists b. split.
    + apply filter_In. split; [exact Ib|]. apply andb_true_iff. split; [apply (reachb_spec (pi 1)); auto|]. apply (compat_fitsb _ (clean_two _ _ a b D01 Ia Ib)). apply fits3_2 with d. exact F.
    + apply in_map_iff. exists d. split; [reflexivity|]. apply filter_In. split; [exact Id|]. apply (compat_fitsb _ (clean_three _ _ _ a b d D01 D02 D12 Ia Ib Id)). exact F.
Qed.

(** each once *)
Hypothesis Nd : forall p, NoDup (hp p).
Lemma nodup_flat {A B} (f : A -> list B) l : NoDup l -> (forall x, In x l -> NoDup (f x)) -> (forall x y z, In x l -> In y l -> In z (f x) -> In z (f y) -> x = y) -> NoDup (flat_map f l).
Proof.
  induction l as [|x l IH]; intros N F D; cbn [flat_map]; [constructor|]. apply NoDup_cons_iff in N as (N1 & N2).
  assert (A1 : NoDup (f x)) by (apply F; left; reflexivity).
  assert (A2 : NoDup (flat_map f l)) by (apply IH; [exact N2|intros; apply F; right; assumption|intros y y' z Y Y' Z Z'; apply (D y y' z); [right; assumption|right; assumption|exact Z|exact Z']]).
  assert (A3 : forall z, In z (f x) -> ~ In z (flat_map f l)).
  { intros z Z H. apply in_flat_map in H as (y & Y & Zy). apply N1. replace x with y; [exact Y|]. symmetry. apply (D x y z); [left; reflexivity|right; exact Y|exact Z|exact Zy]. }
  clear - A1 A2 A3. revert A1 A3. induction (f x) as [|a r IHr]; intros A1 A3; cbn [app]; [exact A2|]. apply NoDup_cons_iff in A1 as (B1 & B2). constructor.
  - intros H. apply in_app_or in H as [H|H]; [contradiction|]. apply (A3 a); [left; reflexivity|exact H].
  - apply IHr; [exact B2|]. intros z Z. apply A3. right; exact Z.
Qed.
Lemma nodup_map_inj {A B} (f : A -> B) l : (forall x y, f x = f y -> x = y) -> NoDup l -> NoDup (map f l).
Proof. intros I N. induction N as [|x l X N IH]; cbn; constructor; [|exact IH]. intros H. apply in_map_iff in H as (y & E & Y). apply I in E. subst. contradiction. Qed.
Lemma nodup_pairs p q : NoDup (pairs_in p q).
Proof.
  unfold pairs_in. apply nodup_flat; [apply Nd| |].
  - intros a _. apply nodup_map_inj; [intros x y [= ->]; reflexivity|]. apply NoDup_filter, Nd.
  - intros x y z _ _ A B. apply in_map_iff in A as (u & <- & _). apply in_map_iff in B as (v & E & _). injection E as -> _. reflexivity.
Qed.
Lemma hp_disj p q h : In h (hp p) -> In h (hp q) -> p = q.
Proof. intros A B. destruct (At p h A) as ((_ & _ & X) & _). destruct (At q h B) as ((_ & _ & Y) & _). congruence. Qed.
Lemma nodup_combos2 : NoDup combos2.
Proof.
  unfold combos2. apply nodup_flat; [apply seq_NoDup| |].
  - intros i Hi. apply in_range in Hi. apply nodup_flat; [apply seq_NoDup|intros; apply nodup_pairs|].
    intros j j' z J J' A B. apply in_range in J, J'. apply in_pairs in A; [|intros X; apply pi_inj in X; lia]. apply in_pairs in B; [|intros X; apply pi_inj in X; lia].
    destruct A as (a & b & -> & _ & A & _). destruct B as (a' & b' & E & _ & B & _). injection E as <- <-. apply pi_inj; [lia|lia|]. apply (hp_disj _ _ b); assumption.
  - intros i i' z I I' A B. apply in_range in I, I'. apply in_flat_map in A as (j & J & A). apply in_flat_map in B as (j' & J' & B). apply in_range in J, J'.
    apply in_pairs in A; [|intros X; apply pi_inj in X; lia]. apply in_pairs in B; [|intros X; apply pi_inj in X; lia].
    destruct A as (a & b & -> & A & _). destruct B as (a' & b' & E & B & _). injection E as <- <-. apply pi_inj; [lia|lia|]. apply (hp_disj _ _ a); assumption.
Qed.
Lemma nodup_combos3 : NoDup combos3.
Proof.
  unfold combos3. apply nodup_flat; [apply Nd| |].
  - intros a _. apply nodup_flat; [apply NoDup_filter, Nd| |].
    + intros b _. apply nodup_map_inj; [intros x y [= ->]; reflexivity|]. apply NoDup_filter, Nd.
    + intros x y z _ _ A B. apply in_map_iff in A as (u & <- & _). apply in_map_iff in B as (v & E & _). injection E as -> _. reflexivity.
  - intros x y z _ _ A B. apply in_flat_map in A as (b & _ & A). apply in_flat_map in B as (b' & _ & B). apply in_map_iff in A as (u & <- & _). apply in_map_iff in B as (v & E & _). injection E as -> _. reflexivity.
Qed.
End tpc.
