(** In-line events: the whole stitching *)
From Coq Require Import QArith Qcanon Permutation.
From Verif Require Import Base QcUtil Solver_Model STI_Model STI_Spec STI_Find STI_Walk STI_All STI_Line STI_Line2 TJ_Proofs.
Import STI_Model.
Local Open Scope nat_scope.

(** neighbours in a composite *)
Definition beside (l : list nat) (x y : nat) : Prop := exists k, (nth_error l k = Some x /\ nth_error l (Datatypes.S k) = Some y) \/ (nth_error l k = Some y /\ nth_error l (Datatypes.S k) = Some x).

Section Whole.
Variables (c : cfg) (ts : list trk) (no : nat) (fh ft : list link).
Hypotheses (Pp : proper_points ts) (Il : in_line c ts) (Hh : lines c ts (length ts) HD fh) (Ht : lines c ts (length ts) TL ft).

Definition fine (cm : comp) (t : strk) : Prop := joined c ts cm /\ laid ts (oriented cm) (snd t) /\ (forall x e y f, In x (fst cm) -> x < y -> touches c ts x e y f -> beside (fst cm) x y).
Definition all_of (s : st) : list nat := concat (map fst (s_comps s)).
Definition linv (ii : nat) (w : st * list bool) : Prop :=
  Forall2 fine (s_comps (fst w)) (s_trks (fst w)) /\ length (snd w) = length ts /\ NoDup (all_of (fst w)) /\ (forall x, In x (all_of (fst w)) -> x < length ts) /\
  (forall x, x < ii -> In x (all_of (fst w))) /\ (forall x, nth_error (snd w) x = Some true <-> In x (all_of (fst w))) /\
  (forall x e y f, In x (all_of (fst w)) -> x < y -> touches c ts x e y f -> In y (all_of (fst w))) /\
  (forall x e y f, In y (all_of (fst w)) -> x < y -> touches c ts x e y f -> In x (all_of (fst w))).

Lemma beside_rev l x y : beside l x y -> beside (rev l) x y.
Proof.
  intros (k & B). assert (G : forall a b, nth_error l k = Some a -> nth_error l (Datatypes.S k) = Some b -> nth_error (rev l) (length l - 2 - k) = Some b /\ nth_error (rev l) (Datatypes.S (length l - 2 - k)) = Some a).
  { intros a b X Y. assert (Datatypes.S k < length l) by (apply nth_error_Some; congruence). apply TJ_Merge.nth_error_rev' in X. apply TJ_Merge.nth_error_rev' in Y. split; [rewrite <- Y|rewrite <- X]; f_equal; lia. }
  exists (length l - 2 - k). destruct B as [(X & Y)|(X & Y)]; destruct (G _ _ X Y); auto.
Qed.
Lemma walk_line ii w : ii < length ts -> linv ii w -> exists w', walk_one ts fh ft w ii = Ok w' /\ linv (Datatypes.S ii) w'.
Proof.
  intros L. destruct w as (s, done). intros (F & Ld & N & B & Cv & Dn & Up & Dw). cbn [fst snd] in *. unfold walk_one.
  destruct (nth_error done ii) as [d|] eqn:Ed; [|apply nth_error_None in Ed; lia]. unfold at_ at 1. rewrite Ed. cbn [obind]. destruct d.
  - eexists. split; [reflexivity|]. split; [exact F|]. split; [exact Ld|]. split; [exact N|]. split; [exact B|]. split; [|auto]. cbn [fst]. intros x X. destruct (Nat.eq_dec x ii) as [->|D]; [apply Dn; exact Ed|apply Cv; lia].
  - assert (Nii : ~ In ii (all_of s)) by (intros X; apply Dn in X; congruence).
    pose proof (proj1 Hh) as Lh. pose proof (proj1 Ht) as Lt.
    destruct (nth_error fh ii) as [h|] eqn:Eh; [|apply nth_error_None in Eh; lia]. destruct (nth_error ft ii) as [t|] eqn:Et; [|apply nth_error_None in Et; lia].
    destruct (up_ex c ts fh ft Il Hh Ht ii L) as (l & U).
    unfold at_. rewrite Eh. cbn [obind]. rewrite Lh.
    destruct (both_chains c ts fh ft Il Hh Ht ii h t l done (Datatypes.S (length ts)) L Ld (Nat.lt_succ_diag_r _) Eh Et U) as (cm1 & d1 & cm & d2 & E1 & E2 & Ld2 & M & Cm).
    rewrite E1. cbn [obind]. rewrite Et. cbn [obind fst snd]. rewrite E2. cbn [obind fst snd].
    set (p := ii :: map node l) in *.
    assert (Np : NoDup p) by (apply (up_nodup c ts ii l U)).
    assert (Jp : joined c ts (p, map ends l)) by (apply up_joined; [exact Il|exact U]).
    assert (Bp : forall x, In x p -> x < length ts) by (intros x [<-|X]; [exact L|apply (up_lt c ts ii l U x X)]).
    assert (Bs : forall x e y f, In x p -> x < y -> touches c ts x e y f -> beside p x y).
    { intros x e y f X Y Z. destruct (up_next c ts Il ii l U x e y f X Y Z) as (k & A1 & A2). exists k. left. split; assumption. }
    assert (Ps : Permutation (fst cm) p) by (destruct Cm as [-> | ->]; [apply Permutation_refl|apply Permutation_sym, Permutation_rev]).
    assert (Jc : joined c ts cm) by (destruct Cm as [-> | ->]; [exact Jp|apply joined_rev; exact Jp]).
    assert (Bc : forall x e y f, In x (fst cm) -> x < y -> touches c ts x e y f -> beside (fst cm) x y).
    { intros x e y f X Y Z. assert (Q : beside p x y) by (apply (Bs x e y f); [apply (Permutation_in _ Ps X)|exact Y|exact Z]). destruct Cm as [-> | ->]; [exact Q|apply beside_rev; exact Q]. }
    rewrite dedup_same by (apply (Permutation_NoDup (Permutation_sym Ps)); exact Np). cbn [obind].
    destruct (first_stitch_ok ts cm Pp) as (pts & E4 & La).
    { intros Z. rewrite Z in Ps. apply Permutation_nil in Ps. discriminate. }
    { apply Jc. }
    { intros x X. apply Bp, (Permutation_in _ Ps X). }
    rewrite E4. cbn [obind]. eexists. split; [reflexivity|].
    assert (Al : forall x, In x (all_of (St (s_comps s ++ [cm]) (s_trks s ++ [(s_no s, pts)]) (Datatypes.S (s_no s)))) <-> In x (all_of s) \/ In x p).
    { intros x. unfold all_of. cbn [s_comps]. rewrite map_app, concat_app. cbn [map concat]. rewrite app_nil_r, in_app_iff. split; intros [X|X]; auto; right; [apply (Permutation_in _ Ps X)|apply (Permutation_in _ (Permutation_sym Ps) X)]. }
    assert (Dis : forall x, In x p -> ~ In x (all_of s)).
    { assert (G : forall i l, up c ts i l -> ~ In i (all_of s) -> forall x, In x (i :: map node l) -> ~ In x (all_of s)).
      { induction 1 as [i Z|i e j f l' Lj X U' IH]; intros Ni x; [intros [<-|[]]; exact Ni|]. intros [<-|I]; [exact Ni|]. apply IH; [|exact I]. intros Y. apply Ni. apply (Dw i e j f Y Lj X). }
      apply (G ii l U Nii). }
    assert (Nop : forall x e f, x < ii -> ~ touches c ts x e ii f) by (intros x e f X Y; apply Nii; apply (Up x e ii f); [apply Cv; exact X|exact X|exact Y]).
    unfold linv. cbn [fst snd]. split; [|split; [exact Ld2|split; [|split; [|split; [|split; [|split]]]]]].
    + cbn [s_comps s_trks]. apply F2_snoc; [exact F|]. split; [exact Jc|]. split; [exact La|exact Bc].
    + unfold all_of. cbn [s_comps]. rewrite map_app, concat_app. cbn [map concat]. rewrite app_nil_r. apply nodup_app_iff. split; [exact N|]. split; [apply (Permutation_NoDup (Permutation_sym Ps)); exact Np|].
      intros x X Y. apply (Dis x); [apply (Permutation_in _ Ps Y)|exact X].
    + intros x X. apply Al in X as [X|X]; [apply B; exact X|apply Bp; exact X].
    + intros x X. apply Al. destruct (Nat.eq_dec x ii) as [->|D]; [right; left; reflexivity|left; apply Cv; lia].
    + intros x. rewrite M, Al, Dn. reflexivity.
    + intros x e y f X Y Z. apply Al. apply Al in X as [X|X]; [left; apply (Up x e y f X Y Z)|]. right. destruct (Bs x e y f X Y Z) as (k & [(_ & Q)|(Q & _)]); apply nth_error_In in Q; exact Q.
    + intros x e y f X Y Z. apply Al. apply Al in X as [X|[<-|X]]; [left; apply (Dw x e y f X Y Z)|destruct (Nop x e f Y Z)|]. right. apply (up_prev c ts Il ii l U x e y f X Y Z).
Qed.
Lemma walk_all_line : exists s, walk_stitch ts no (fh, ft) = Ok s /\ Forall2 fine (s_comps s) (s_trks s) /\ Permutation (all_of s) (seq 0 (length ts)).
Proof.
  unfold walk_stitch. cbn [fst snd]. rewrite (proj1 Hh).
  assert (G : forall k, k <= length ts -> exists w, foreach (seq 0 k) (walk_one ts fh ft) (St [] [] no, repeat false (length ts)) = Ok w /\ linv k w).
  { induction k as [|k IH]; intros B.
    - eexists. split; [reflexivity|]. split; [constructor|]. split; [apply repeat_length|]. split; [constructor|]. split; [intros x []|]. split; [intros x X; lia|]. split; [|split; intros x e y f []].
      cbn [fst snd]. intros x. split; [|intros []]. intros Y. apply nth_error_In in Y. apply repeat_spec in Y. discriminate.
    - destruct IH as (w & E & J); [lia|]. rewrite seq_S, CMgr_Proofs.foreach_app, E. cbn [obind foreach Nat.add]. destruct (walk_line k w) as (w' & E' & J'); [lia|exact J|]. rewrite E'. cbn [obind]. eauto. }
  destruct (G (length ts) (le_n _)) as (w & E & (F & _ & N & B & Cv & _)). rewrite E. cbn [obind]. exists (fst w). split; [reflexivity|]. split; [exact F|].
  apply NoDup_Permutation; [exact N|apply seq_NoDup|]. intros x. rewrite in_seq. split; [intros X; specialize (B x X); lia|]. intros X. apply Cv. lia.
Qed.
End Whole.

Lemma nodup_apart (cs : list comp) : NoDup (concat (map fst cs)) -> apart cs.
Proof.
  induction cs as [|a cs IH]; intros N i j ci cj x L Ei Ej Xi Xj; [destruct i; discriminate|]. cbn [map concat] in N. apply nodup_app_iff in N as (_ & N2 & D). destruct j as [|j]; [lia|]. cbn [nth_error] in Ej. destruct i as [|i].
  - injection Ei as <-. apply (D x Xi). apply in_concat. exists (fst cj). split; [apply in_map, (nth_error_In _ _ Ej)|exact Xj].
  - apply (IH N2 i j ci cj x); [lia|exact Ei|exact Ej|exact Xi|exact Xj].
Qed.
Lemma common_apart ts s : apart (s_comps s) -> common ts s = Ok None.
Proof.
  intros A. unfold common. destruct (find (same (s_comps s)) (quads (s_comps s))) as [(((i, j), a), b)|] eqn:E; [|reflexivity]. exfalso.
  apply STI_All.find_some in E as (ci & cj & x & L & Ei & Ej & X & Y). apply (A i j ci cj x L Ei Ej); [apply (nth_error_In _ _ X)|apply (nth_error_In _ _ Y)].
Qed.
Theorem stitch_line c ts both no : proper_points ts -> in_line c ts -> exists s, stitch c both no ts = Ok s /\ Permutation (concat (composites s)) (seq 0 (length ts)) /\ Forall2 (fine c ts) (s_comps s) (s_trks s).
Proof.
  intros Pp Il. destruct (find_line c ts Il) as (fh & ft & E & Hh & Ht). destruct (walk_all_line c ts no fh ft Pp Il Hh Ht) as (s & E1 & F & P).
  unfold stitch. rewrite E. cbn [obind]. rewrite E1. cbn [obind]. exists s. split; [|split; [exact P|exact F]]. destruct both; [|reflexivity]. cbn [common_all].
  rewrite common_apart; [reflexivity|]. apply nodup_apart. apply (Permutation_NoDup (Permutation_sym P)), seq_NoDup.
Qed.
