(** LineMerger: invariants of the loops *)
From Coq Require Import QArith Qcanon Permutation Lqa.
From Verif Require Import Base QcUtil Solver_Model Solver_Proofs LM_Model LM_Spec CMgr_Proofs.
Import LM_Model.
Local Open Scope nat_scope.

Section Inv.
Variables (atan : Qc -> Qc) (cf : cfg) (cls : list clu) (hits_of : list (list nat)).
Hypothesis Hy : healthy cls hits_of.

Lemma near_meets a b : near cf a b = true <-> meets cf a b.
Proof. unfold near, meets, qlt, dist2. cbv zeta. rewrite andb_true_iff, !qc_lt_spec. reflexivity. Qed.
Lemma slope_parallel a b : slope_ok atan cf (e_angle a) (e_angle b) = true <-> parallel atan cf a b.
Proof.
  unfold slope_ok, parallel, qlt, qabs. rewrite qc_lt_spec. generalize (atan (e_angle a) - atan (e_angle b))%Qc (f_slope cf). intros x s.
  destruct (qc_lt x 0) eqn:E; [apply qc_lt_spec in E|apply qc_lt_false in E]; split.
  - intros X. split; qclra.
  - intros (X & Y). qclra.
  - intros X. split; qclra.
  - intros (X & Y). qclra.
Qed.
Lemma lt_up (a b c : Qc) : (a <= b)%Qc -> (b < c)%Qc -> (a <= c)%Qc. Proof. intros; qclra. Qed.
Lemma lt_dn (a b c : Qc) : (a < b)%Qc -> (b <= c)%Qc -> (a <= c)%Qc. Proof. intros; qclra. Qed.
Lemma qle_refl (x : Qc) : (x <= x)%Qc. Proof. apply Qcle_refl. Qed.

(** what a merger holds, as the code computes it: the end has the LEAST end wire *)
Definition ends_least (g : list nat) (o : sclu) : Prop :=
  (exists i c, In i g /\ is cls i c /\ m_end (snd o) = c_end c) /\ (forall i c, In i g -> is cls i c -> (e_wire (m_end (snd o)) <= e_wire (c_end c))%Qc).
Definition plane_ok (g : list nat) (o : sclu) : Prop :=
  (forall i c, In i g -> is cls i c -> c_view c = m_view (snd o) /\ (c_plane c = None \/ c_plane c = m_plane (snd o))) /\ (m_plane (snd o) = None \/ exists i c, In i g /\ is cls i c /\ c_plane c = m_plane (snd o)).
Definition holds (g : list nat) (o : sclu) : Prop := made_of atan cf cls hits_of g o /\ starts_first cls g o /\ ends_least g o /\ plane_ok g o /\ (forall i, In i g -> i < length cls).

Lemma is_fun i c d : is cls i c -> is cls i d -> c = d. Proof. unfold is. congruence. Qed.
Lemma holds_first i c m : is cls i c -> first c (nth i hits_of []) = Some m -> holds [i] (c_id c, m).
Proof.
  intros I E. unfold first in E. destruct (c_valid c); [|discriminate]. injection E as <-.
  assert (O : forall j d, In j [i] -> is cls j d -> d = c) by (intros j d [<-|[]] X; apply (is_fun i); assumption).
  split; [|split; [|split; [|split]]].
  - split; [exists i, [], c; auto|]. split; [|split; [|split; [|split]]].
    + intros j k d e J K X Y. rewrite (O j d J X), (O k e K Y). auto.
    + intros k j d Lk X. destruct k as [|[|k]]; [lia|discriminate|discriminate].
    + exists [i]. split; [apply Permutation_refl|]. cbn. rewrite app_nil_r. reflexivity.
    + exists i, c. cbn. auto.
    + intros j d J X. rewrite (O j d J X). apply qle_refl.
  - split; [exists i, c; cbn; auto|]. intros j d J X. rewrite (O j d J X). apply qle_refl.
  - split; [exists i, c; cbn; auto|]. intros j d J X. rewrite (O j d J X). apply qle_refl.
  - split; [intros j d J X; rewrite (O j d J X); auto|]. cbn [snd m_plane]. destruct (c_plane c) eqn:P; [right; exists i, c; cbn; auto|left; reflexivity].
  - intros j [<-|[]]. apply nth_error_Some. unfold is in I. congruence.
Qed.
Lemma view_eqb_eq a b : view_eqb a b = true <-> a = b.
Proof. destruct a, b; cbn; try rewrite Nat.eqb_eq; split; intros; try congruence; try discriminate. Qed.
Lemma holds_add g id m i c prep : holds g (id, m) -> is cls i c -> continues atan cf (m_start m) (m_end m) c -> forall m', add m c (nth i hits_of []) prep = (true, m') -> holds (g ++ [i]) (id, m').
Proof.
  intros (((i0 & r & c0 & G0 & I0 & Id & Vw) & Al & Li & (g' & Pg & Hh) & (wi & wc & Wi & Wc & We) & Wm) & ((si & sc & Si & Sc & Se) & Sm) & ((ei & ec & Ei & Ec & Ee) & Em) & (Pa & Pe) & B) Ic Co m' E. cbn [fst snd] in *.
  unfold add in E. destruct (c_valid c); cbn [negb] in E; [|discriminate]. destruct (view_eqb (c_view c) (m_view m)) eqn:V; cbn [negb] in E; [|discriminate]. apply view_eqb_eq in V.
  destruct (plane_clash (c_plane c) (m_plane m)) eqn:P; [discriminate|]. injection E as <-.
  assert (Pl : c_plane c = None \/ m_plane m = None \/ c_plane c = m_plane m).
  { unfold plane_clash in P. destruct (c_plane c) as [p|]; [|auto]. destruct (m_plane m) as [q|]; [|auto]. apply negb_false_iff, Nat.eqb_eq in P. subst. auto. }
  assert (In2 : forall j, In j (g ++ [i]) -> In j g \/ j = i) by (intros j J; apply in_app_or in J as [J|[J|[]]]; auto).
  assert (Ig : forall j, In j g -> In j (g ++ [i])) by (intros; apply in_or_app; auto). assert (Ii : In i (g ++ [i])) by (apply in_or_app; right; left; reflexivity).
  assert (Pn : match m_plane m with None => c_plane c | p => p end = if m_plane m then m_plane m else c_plane c) by (destruct (m_plane m); reflexivity).
  split; [|split; [|split; [|split]]]; cbn [fst snd].
  - split; [exists i0, (r ++ [i]), c0; subst g; auto|]. split; [|split; [|split; [|split]]].
    + intros j k d e J K X Y. assert (Q : forall j d, In j (g ++ [i]) -> is cls j d -> c_view d = m_view m /\ (c_plane d = None \/ c_plane d = (if m_plane m then m_plane m else c_plane c))).
      { intros j' d' J' X'. apply In2 in J' as [J'| ->].
        - destruct (Pa j' d' J' X') as (A & [A'|A']); [auto|]. split; [exact A|]. destruct (m_plane m); [auto|left; exact A'].
        - rewrite (is_fun i d' c X' Ic). split; [exact V|]. destruct (m_plane m) as [q|]; [destruct Pl as [Pl|[Pl|Pl]]; [auto|discriminate|auto]|auto]. }
      destruct (Q j d J X) as (A1 & A2), (Q k e K Y) as (B1 & B2). split; [congruence|]. destruct A2 as [A2|A2]; [auto|]. destruct B2 as [B2|B2]; [auto|]. right; right. congruence.
    + intros k j d Lk X Y. destruct (Nat.lt_ge_cases k (length g)) as [L|L].
      * rewrite nth_error_app1 in X by exact L. destruct (Li k j d Lk X Y) as (a & b & ca & cb & A1 & A2 & A3). rewrite firstn_app. replace (k - length g) with 0 by lia. cbn [firstn]. rewrite app_nil_r. exists a, b, ca, cb. auto.
      * assert (k = length g) by (assert (k < length (g ++ [i])) by (apply nth_error_Some; congruence); rewrite app_length in *; cbn in *; lia). subst k. rewrite nth_error_app2, Nat.sub_diag in X by lia. injection X as <-. rewrite (is_fun i d c Y Ic).
        rewrite firstn_app, Nat.sub_diag, firstn_all. cbn [firstn]. rewrite app_nil_r. exists si, ei, sc, ec. rewrite <- Se, <- Ee. auto.
    + cbn [m_hits]. destruct prep.
      * exists (i :: g'). split; [apply (Permutation_trans (l' := i :: g)); [constructor; exact Pg|apply Permutation_cons_append]|]. cbn [map concat]. rewrite Hh. reflexivity.
      * exists (g' ++ [i]). split; [apply Permutation_app_tail; exact Pg|]. rewrite map_app, concat_app. cbn [map concat]. rewrite app_nil_r, Hh. reflexivity.
    + cbn [m_width]. unfold qlt. destruct (qc_lt (m_width m) (c_width c)); [exists i, c; auto|exists wi, wc; auto].
    + cbn [m_width]. intros j d J X. unfold qlt. apply In2 in J as [J| ->].
      * specialize (Wm j d J X). destruct (qc_lt (m_width m) (c_width c)) eqn:Q; [apply qc_lt_spec in Q; exact (lt_up _ _ _ Wm Q)|exact Wm].
      * rewrite (is_fun i d c X Ic). destruct (qc_lt (m_width m) (c_width c)) eqn:Q; [apply qle_refl|apply qc_lt_false in Q; exact Q].
  - cbn [m_start]. unfold qlt. split; cbn [snd m_start].
    + destruct (qc_lt (e_wire (c_start c)) (e_wire (m_start m))); [exists i, c; auto|exists si, sc; auto].
    + intros j d J X. apply In2 in J as [J| ->].
      * specialize (Sm j d J X). destruct (qc_lt (e_wire (c_start c)) (e_wire (m_start m))) eqn:Q; [apply qc_lt_spec in Q; exact (lt_dn _ _ _ Q Sm)|exact Sm].
      * rewrite (is_fun i d c X Ic). destruct (qc_lt (e_wire (c_start c)) (e_wire (m_start m))) eqn:Q; [apply qle_refl|apply qc_lt_false in Q; exact Q].
  - split; cbn [snd m_end]; unfold qlt.
    + destruct (qc_lt (e_wire (c_end c)) (e_wire (m_end m))); [exists i, c; auto|exists ei, ec; auto].
    + intros j d J X. apply In2 in J as [J| ->].
      * specialize (Em j d J X). destruct (qc_lt (e_wire (c_end c)) (e_wire (m_end m))) eqn:Q; [apply qc_lt_spec in Q; exact (lt_dn _ _ _ Q Em)|exact Em].
      * rewrite (is_fun i d c X Ic). destruct (qc_lt (e_wire (c_end c)) (e_wire (m_end m))) eqn:Q; [apply qle_refl|apply qc_lt_false in Q; exact Q].
  - split; cbn [snd m_view m_plane].
    + intros j d J X. apply In2 in J as [J| ->].
      * destruct (Pa j d J X) as (A & [A'|A']); [auto|]. split; [exact A|]. destruct (m_plane m); [auto|left; exact A'].
      * rewrite (is_fun i d c X Ic). split; [exact V|]. destruct (m_plane m) as [q|]; [destruct Pl as [Pl|[Pl|Pl]]; [auto|discriminate|auto]|auto].
    + destruct (m_plane m) as [q|] eqn:Q; [right; destruct Pe as [Pe|(j & d & J & X & Y)]; [discriminate|exists j, d; auto]|]. destruct (c_plane c) eqn:R; [right; exists i, c; auto|left; reflexivity].
  - intros j J. apply In2 in J as [J| ->]; [apply B; exact J|]. apply nth_error_Some. unfold is in Ic. congruence.
Qed.

(* ---------------------------------------------------------------- the loops *)
Definition sel (done : list bool) (ixs : list nat) : list nat := map snd (filter fst (combine done ixs)).
Lemma sel_upd ixs : forall done k i, nth_error done k = Some false -> nth_error ixs k = Some i -> Permutation (sel (upd done k true) ixs) (i :: sel done ixs).
Proof.
  induction ixs as [|x ixs IH]; intros [|d done] [|k] i A B; try discriminate; cbn [nth_error] in *.
  - injection A as ->. injection B as ->. cbn. apply Permutation_refl.
  - specialize (IH done k i A B). unfold sel in *. cbn [upd combine filter fst]. destruct d; cbn [map snd]; [|exact IH]. apply (Permutation_trans (l' := x :: i :: map snd (filter fst (combine done ixs)))); [constructor; exact IH|apply perm_swap].
Qed.
Lemma sel_all ixs : forall done, length done = length ixs -> (forall k, k < length ixs -> nth_error done k = Some true) -> sel done ixs = ixs.
Proof.
  induction ixs as [|x ixs IH]; intros [|d done] L A; try discriminate; [reflexivity|]. pose proof (A 0 (Nat.lt_0_succ _)) as Z. injection Z as ->. unfold sel. cbn. f_equal. apply IH; [cbn in L; lia|]. intros k K. apply (A (S k)). cbn. lia.
Qed.
Lemma sel_none ixs : sel (repeat false (length ixs)) ixs = []. Proof. induction ixs as [|x ixs IH]; [reflexivity|]. exact IH. Qed.

(** a cluster lost because its plane is not that of the line it continues *)
Definition clash (all : list nat) (x : nat) : Prop :=
  exists c p j d q, is cls x c /\ c_plane c = Some p /\ In j all /\ is cls j d /\ c_plane d = Some q /\ p <> q /\ c_view d = c_view c.
Lemma clash_mono a b x : incl a b -> clash a x -> clash b x.
Proof. intros I (c & p & j & d & q & A & B & D & R). exists c, p, j, d, q. split; [exact A|]. split; [exact B|]. split; [apply I; exact D|exact R]. Qed.

Section View.
Variables (v : view) (ixs : list nat).
Hypothesis Ix : forall i, In i ixs -> exists c, is cls i c /\ c_view c = v.
Lemma valid i c : is cls i c -> c_valid c = true. Proof. intros X. apply Hy. apply (nth_error_In _ _ X). Qed.
Lemma hits_at i c : is cls i c -> at_ hits_of i = Ok (nth i hits_of []).
Proof. intros X. unfold at_. assert (i < length hits_of) by (rewrite (proj2 Hy); apply nth_error_Some; unfold is in X; congruence). rewrite (nth_error_nth' _ [] H). reflexivity. Qed.

Definition J (base : list nat) (id : nat) (g lost : list nat) (s : list bool * merger) : Prop :=
  length (fst s) = length ixs /\ holds g (id, snd s) /\ m_view (snd s) = v /\ Permutation (base ++ g ++ lost) (sel (fst s) ixs) /\ (forall x, In x lost -> clash g x).
Lemma turn2_J base id g lost s c2 : c2 < length ixs -> J base id g lost s -> exists s' g' lost', turn2 atan cf cls hits_of ixs s c2 = Ok s' /\ J base id g' lost' s' /\
  (forall k, nth_error (fst s) k = Some true -> nth_error (fst s') k = Some true) /\ (length g < length g' \/ (g' = g /\ snd s' = snd s)) /\ (nth_error (fst s') c2 = Some true \/ forall i c, nth_error ixs c2 = Some i -> is cls i c -> ~ continues atan cf (m_start (snd s)) (m_end (snd s)) c).
Proof.
  destruct s as (done, m). intros L (Ld & Ho & Vw & P & Cl). cbn [fst snd] in *. unfold turn2. destruct (nth_error done c2) as [d|] eqn:Ed; [|apply nth_error_None in Ed; lia]. unfold idx at 1. rewrite Ed. cbn [obind].
  destruct d; [exists (done, m), g, lost; split; [reflexivity|]; split; [split; auto|split; [auto|split; [right; auto|left; exact Ed]]]|].
  destruct (nth_error ixs c2) as [i|] eqn:Ei; [|apply nth_error_None in Ei; lia]. destruct (Ix i (nth_error_In _ _ Ei)) as (c & Ic & Vc). unfold idx. rewrite Ei. cbn [obind]. unfold at_ at 1. rewrite Ic. cbn [obind]. rewrite (hits_at i c Ic). cbn [obind].
  assert (Same : ~ continues atan cf (m_start m) (m_end m) c -> exists s' g' lost', Ok (done, m) = Ok s' /\ J base id g' lost' s' /\ (forall k, nth_error done k = Some true -> nth_error (fst s') k = Some true) /\
     (length g < length g' \/ (g' = g /\ snd s' = m)) /\ (nth_error (fst s') c2 = Some true \/ forall i0 c0, Some i = Some i0 -> is cls i0 c0 -> ~ continues atan cf (m_start m) (m_end m) c0))
    by (intros Nc; exists (done, m), g, lost; split; [reflexivity|]; split; [split; auto|split; [auto|split; [right; auto|right]]]; intros i0 c0 Q X; injection Q as <-; rewrite (is_fun i c0 c X Ic); exact Nc).
  assert (Ns : same_slope atan cf m c = false -> ~ continues atan cf (m_start m) (m_end m) c) by (intros Q (_ & [X|X]); apply slope_parallel in X; unfold same_slope in Q; rewrite X in Q; [|rewrite orb_true_r in Q]; discriminate).
  destruct (endpoint cf (m_start m) (m_end m) c) eqn:En;
    [| |apply Same; intros ([X|X] & _); apply near_meets in X; unfold endpoint in En; rewrite X in En; [|destruct (near cf (m_end m) (c_start c))]; discriminate];
    (destruct (same_slope atan cf m c) eqn:Sl; [|apply Same, Ns; reflexivity]).
  all: unfold set_idx; rewrite Ld, (proj2 (Nat.ltb_lt _ _) L); cbn [obind].
  all: assert (Co : continues atan cf (m_start m) (m_end m) c) by
   (split; [unfold endpoint in En; destruct (near cf (m_end m) (c_start c)) eqn:N1; [left; apply near_meets; exact N1|]; destruct (near cf (m_start m) (c_end c)) eqn:N2; [right; apply near_meets; exact N2|discriminate]
          |unfold same_slope in Sl; apply orb_true_iff in Sl as [Sl|Sl]; apply slope_parallel in Sl; auto]).
  all: match goal with |- context [add ?m0 ?c0 ?h0 ?b] => destruct (add m0 c0 h0 b) as ([|], m') eqn:Ea end; cbn [snd].
  all: eexists; match type of Ea with _ = (true, _) => exists (g ++ [i]), lost | _ => exists g, (lost ++ [i]) end; split; [reflexivity|].
  all: split; [|split; [intros k K; cbn [fst]; rewrite nth_error_upd; destruct ((k =? c2) && (c2 <? length done)); auto|split;
      [cbn [snd]|left; cbn [fst]; rewrite nth_error_upd, Nat.eqb_refl, Ld, (proj2 (Nat.ltb_lt _ _) L); reflexivity]]].
  all: try (left; rewrite app_length; cbn; lia).
  all: try match type of Ea with _ = (false, _) => match goal with |- _ \/ _ => right; split; [reflexivity|]; unfold add in Ea; destruct (negb (c_valid c)); [injection Ea as <-; reflexivity|]; destruct (negb (view_eqb _ _)); [injection Ea as <-; reflexivity|]; destruct (plane_clash _ _); [injection Ea as <-; reflexivity|discriminate] end end.
  all: pose proof (sel_upd ixs done c2 i Ed Ei) as Su.
  all: split; [cbn [fst]; rewrite upd_length; exact Ld|]; cbn [fst snd].
  1, 3: split; [apply (holds_add g id m i c _ Ho Ic Co m' Ea)|]; split; [unfold add in Ea; destruct (negb (c_valid c)); [discriminate|]; destruct (negb (view_eqb _ _)); [discriminate|]; destruct (plane_clash _ _); [discriminate|]; injection Ea as <-; exact Vw|];
    split; [apply (Permutation_trans (l' := i :: base ++ g ++ lost)); [|apply Permutation_sym; apply (Permutation_trans Su); constructor; apply Permutation_sym; exact P];
            rewrite <- app_assoc; rewrite !app_assoc; cbn [app]; apply Permutation_sym; rewrite <- !app_assoc; cbn [app]; rewrite !app_assoc; apply Permutation_middle
           |intros x X; apply (clash_mono g); [intros y Y; apply in_or_app; auto|apply Cl; exact X]].
  all: assert (Cx : m' = m /\ clash g i).
  1, 3: unfold add in Ea; rewrite (valid i c Ic) in Ea; cbn [negb] in Ea; rewrite (proj2 (view_eqb_eq (c_view c) (m_view m))) in Ea by congruence; cbn [negb] in Ea; destruct (plane_clash (c_plane c) (m_plane m)) eqn:Pc; [|discriminate]; injection Ea as <-; split; [reflexivity|];
    unfold plane_clash in Pc; destruct (c_plane c) as [p|] eqn:Pp; [|discriminate]; destruct (m_plane m) as [q|] eqn:Pq; [|discriminate]; apply negb_true_iff, Nat.eqb_neq in Pc;
    destruct Ho as (_ & _ & _ & (Pa & Pe) & _); cbn [snd] in Pa, Pe; rewrite Pq in Pe; destruct Pe as [Pe|(j & d & Jj & Jd & Pj)]; [discriminate|]; exists c, p, j, d, q; do 5 (split; [assumption|]); split; [exact Pc|]; destruct (Pa j d Jj Jd) as (A & _); congruence.
  all: destruct Cx as (-> & Cx); split; [exact Ho|]; split; [exact Vw|]; split; [|intros x X; apply in_app_or in X as [X|[<-|[]]]; [apply Cl; exact X|exact Cx]].
  all: apply (Permutation_trans (l' := i :: base ++ g ++ lost)); [|apply Permutation_sym; apply (Permutation_trans Su); constructor; apply Permutation_sym; exact P].
  all: rewrite !app_assoc; apply Permutation_sym, Permutation_cons_append.
Qed.
Lemma loop2_J base id : forall l g lost s, (forall k, In k l -> k < length ixs) -> J base id g lost s -> exists s' g' lost', foreach l (turn2 atan cf cls hits_of ixs) s = Ok s' /\ J base id g' lost' s' /\
  (forall k, nth_error (fst s) k = Some true -> nth_error (fst s') k = Some true) /\
  (length g < length g' \/ (g' = g /\ snd s' = snd s /\ forall k, In k l -> nth_error (fst s') k = Some true \/ forall i c, nth_error ixs k = Some i -> is cls i c -> ~ continues atan cf (m_start (snd s)) (m_end (snd s)) c)).
Proof.
  induction l as [|k l IH]; intros g lost s B X; cbn [foreach]; [exists s, g, lost; split; [reflexivity|]; split; [exact X|]; split; [auto|]; right; split; [reflexivity|]; split; [reflexivity|]; intros k []|]. destruct (turn2_J base id g lost s k (B k (or_introl eq_refl)) X) as (s1 & g1 & l1 & E1 & J1 & M1 & G1 & C1). rewrite E1. cbn [obind].
  destruct (IH g1 l1 s1) as (s2 & g2 & l2 & E2 & J2 & M2 & G2); [intros; apply B; right; assumption|exact J1|]. exists s2, g2, l2. split; [exact E2|]. split; [exact J2|]. split; [auto|].
  destruct G1 as [G1|(-> & Em)]; [left; destruct G2 as [G2|(-> & _)]; lia|]. destruct G2 as [G2|(-> & Em2 & G2)]; [left; exact G2|]. right. split; [reflexivity|]. split; [congruence|]. rewrite Em in G2.
  intros j [<-|I]; [|apply G2; exact I]. destruct C1 as [C1|C1]; [left; apply M2; exact C1|right; exact C1].
Qed.

(** a cluster on its own: nothing that was still free continues it *)
Definition alone (groups : list (list nat)) (lost : list nat) : Prop :=
  forall n i c, nth_error groups n = Some [i] -> is cls i c -> forall j d, In j ixs -> is cls j d -> ~ In j (concat (firstn n groups)) -> ~ In j lost -> j <> i -> ~ continues atan cf (c_start c) (c_end c) d.
Lemma in_sel done : forall l k j, nth_error done k = Some true -> nth_error l k = Some j -> In j (sel done l).
Proof.
  unfold sel. induction done as [|d done IH]; intros l [|k] j A B; try discriminate; destruct l as [|y l]; try discriminate; cbn [nth_error] in *.
  - injection A as ->. injection B as ->. cbn. auto.
  - cbn [combine filter fst]. destruct d; [right|]; apply (IH l k j A B).
Qed.

(** the loop over c: [pre] are the outputs of the earlier views *)
Definition K (pre : list sclu) (groups : list (list nat)) (lost : list nat) (s : list bool * list sclu) : Prop :=
  length (fst s) = length ixs /\ (exists out, snd s = pre ++ out /\ Forall2 holds groups out /\ Forall (fun o => m_view (snd o) = v) out) /\ Permutation (concat groups ++ lost) (sel (fst s) ixs) /\ (forall x, In x lost -> clash (concat groups) x) /\ alone groups lost.
Lemma turn1_K pre groups lost s c : c < length ixs -> K pre groups lost s -> exists s' groups' lost', turn1 atan cf cls hits_of ixs s c = Ok s' /\ K pre groups' lost' s' /\
  (forall k, nth_error (fst s) k = Some true \/ k = c -> nth_error (fst s') k = Some true).
Proof.
  destruct s as (done, out). intros L (Ld & (o & Eo & F & Fv) & P & Cl & Al). cbn [fst snd] in *. unfold turn1. destruct (nth_error done c) as [d|] eqn:Ed; [|apply nth_error_None in Ed; lia]. unfold idx at 1. rewrite Ed. cbn [obind].
  destruct d; [exists (done, out), groups, lost; split; [reflexivity|]; split; [split; [exact Ld|split; [exists o; auto|auto]]|]; intros k [X| ->]; [exact X|exact Ed]|].
  destruct (nth_error ixs c) as [i|] eqn:Ei; [|apply nth_error_None in Ei; lia]. destruct (Ix i (nth_error_In _ _ Ei)) as (cl & Ic & Vc). unfold idx. rewrite Ei. cbn [obind]. unfold at_ at 1. rewrite Ic. cbn [obind]. rewrite (hits_at i cl Ic). cbn [obind].
  unfold set_idx. rewrite Ld, (proj2 (Nat.ltb_lt _ _) L). cbn [obind]. destruct (first cl (nth i hits_of [])) as [m|] eqn:Em; [|unfold first in Em; rewrite (valid i cl Ic) in Em; discriminate].
  assert (J0 : J (concat groups ++ lost) (c_id cl) [i] [] (upd done c true, m)).
  { split; [cbn; rewrite upd_length; exact Ld|]. split; [apply holds_first; assumption|]. split; [unfold first in Em; rewrite (valid i cl Ic) in Em; injection Em as <-; exact Vc|]. split; [|intros x []]. cbn [fst app].
    apply Permutation_sym, (Permutation_trans (sel_upd ixs done c i Ed Ei)). apply (Permutation_trans (l' := i :: concat groups ++ lost)); [constructor; apply Permutation_sym; exact P|apply Permutation_cons_append]. }
  destruct (loop2_J (concat groups ++ lost) (c_id cl) (seq 0 (length ixs)) [i] [] (upd done c true, m)) as (s' & g' & l' & E' & (Ld' & Ho & Vw & P' & Cl') & M' & Gr); [intros k I; apply in_seq in I; lia|exact J0|].
  rewrite E'. cbn [obind]. exists (fst s', out ++ [(c_id cl, snd s')]), (groups ++ [g']), (lost ++ l'). split; [reflexivity|]. split.
  - split; [exact Ld'|]. split; [exists (o ++ [(c_id cl, snd s')]); split; [cbn [snd]; rewrite Eo, app_assoc; reflexivity|]; split; [apply Forall2_app; [exact F|constructor; [exact Ho|constructor]]|apply Forall_app; split; [exact Fv|constructor; [exact Vw|constructor]]]|].
    assert (Al' : alone (groups ++ [g']) (lost ++ l')).
    { intros n x d Nx Ix' j e Jj Je Nj Nl Dj. destruct (Nat.lt_ge_cases n (length groups)) as [Ln|Ln].
      - rewrite nth_error_app1 in Nx by exact Ln. rewrite firstn_app in Nj. replace (n - length groups) with 0 in Nj by lia. cbn [firstn] in Nj. rewrite app_nil_r in Nj. apply (Al n x d Nx Ix' j e Jj Je Nj); [intros Y; apply Nl, in_or_app; auto|exact Dj].
      - assert (n = length groups) by (assert (n < length (groups ++ [g'])) by (apply nth_error_Some; congruence); rewrite app_length in *; cbn in *; lia). subst n. rewrite nth_error_app2, Nat.sub_diag in Nx by lia. injection Nx as Nx.
        rewrite firstn_app, Nat.sub_diag, firstn_all in Nj. cbn [firstn] in Nj. rewrite app_nil_r in Nj. destruct Gr as [Gr|(Eg & Em' & Gr)]; [rewrite Nx in Gr; cbn in Gr; lia|]. rewrite Eg in Nx. injection Nx as <-. rewrite (is_fun i d cl Ix' Ic).
        destruct (In_nth_error _ _ Jj) as (k & Ek). assert (Lk : k < length ixs) by (apply nth_error_Some; congruence). destruct (Gr k) as [Gk|Gk]; [apply in_seq; lia| |].
        + exfalso. pose proof (in_sel _ _ _ _ Gk Ek) as Y. apply (Permutation_in _ (Permutation_sym P')) in Y. rewrite Eg in Y. apply in_app_or in Y as [Y|[Y|Y]]; [apply in_app_or in Y as [Y|Y]; [apply Nj; exact Y|apply Nl, in_or_app; auto]|congruence|apply Nl, in_or_app; auto].
        + cbn [snd] in Gk. assert (Ss : m_start m = c_start cl /\ m_end m = c_end cl) by (unfold first in Em; rewrite (valid i cl Ic) in Em; injection Em as <-; auto). destruct Ss as (Q1 & Q2). rewrite Q1, Q2 in Gk. exact (Gk j e Ek Je). }
    rewrite concat_app. cbn [concat]. rewrite app_nil_r. cbn [fst]. split; [|split; [|exact Al']].
    + apply (Permutation_trans (l' := (concat groups ++ lost) ++ g' ++ l')); [|exact P']. rewrite <- !app_assoc. apply Permutation_app_head. rewrite !app_assoc. apply Permutation_app_tail. apply Permutation_app_comm.
    + intros x X. apply in_app_or in X as [X|X]; [apply (clash_mono (concat groups)); [intros y Y; apply in_or_app; auto|apply Cl; exact X]|apply (clash_mono g'); [intros y Y; apply in_or_app; auto|apply Cl'; exact X]].
  - cbn [fst]. intros k X. apply M'. cbn [fst]. rewrite nth_error_upd. destruct X as [X| ->]; [destruct ((k =? c) && (c <? length done)); auto|]. rewrite Nat.eqb_refl, Ld, (proj2 (Nat.ltb_lt _ _) L). reflexivity.
Qed.
Lemma view_K pre : exists r groups lost out, foreach (seq 0 (length ixs)) (turn1 atan cf cls hits_of ixs) (repeat false (length ixs), pre) = Ok r /\ snd r = pre ++ out /\
  Forall2 holds groups out /\ Forall (fun o => m_view (snd o) = v) out /\ Permutation (concat groups ++ lost) ixs /\ (forall x, In x lost -> clash (concat groups) x) /\ alone groups lost.
Proof.
  assert (G : forall k, k <= length ixs -> exists r groups lost, foreach (seq 0 k) (turn1 atan cf cls hits_of ixs) (repeat false (length ixs), pre) = Ok r /\ K pre groups lost r /\ forall j, j < k -> nth_error (fst r) j = Some true).
  { induction k as [|k IH]; intros B.
    - exists (repeat false (length ixs), pre), [], []. split; [reflexivity|]. split; [|intros; lia]. split; [apply repeat_length|]. split; [exists []; split; [cbn; rewrite app_nil_r; reflexivity|]; split; constructor|]. split; [cbn [fst]; rewrite sel_none; constructor|split; [intros x []|intros n i c X; destruct n; discriminate]].
    - destruct IH as (r & gs & lost & E & Kr & D); [lia|]. rewrite seq_S, foreach_app, E. cbn [obind foreach Nat.add]. destruct (turn1_K pre gs lost r k) as (r' & gs' & lost' & E' & Kr' & M); [lia|exact Kr|]. rewrite E'. cbn [obind]. exists r', gs', lost'. split; [reflexivity|]. split; [exact Kr'|].
      intros j Lj. apply M. destruct (Nat.eq_dec j k); [auto|left; apply D; lia]. }
  destruct (G (length ixs) (le_n _)) as (r & gs & lost & E & (Ld & (out & Eo & F & Fv) & P & Cl & Al) & D). rewrite (sel_all ixs (fst r) Ld D) in P. exists r, gs, lost, out. auto 10.
Qed.
End View.
End Inv.
