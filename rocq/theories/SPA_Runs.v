(** fillSpacePoints: the hits of a track cut into runs *)
From Coq Require Import QArith Qcanon Lqa.
From Verif Require Import Base QcUtil Solver_Model Solver_Proofs SPS_Model SPA_Model SPA_Spec SPA_Compat SPA_Fit.
Import SPA_Model.
Local Open Scope nat_scope.

Lemma proper_compat g c hits hs : proper g hits -> incl hs hits -> exists b, compatible g c hs = Ok b /\ (b = true <-> fits g c hs).
Proof.
  intros (P & V) I. apply compatible_gen.
  - intros h H. apply P, I, H.
  - intros h H. apply P, I, H.
  - intros F. clear P. induction F as [|a l A F IH]; [constructor|]. cbn [map]. constructor; [|apply IH; intros x X; apply I; right; exact X].
    intros Ha. apply in_map_iff in Ha as (b & E & Hb). rewrite Forall_forall in A. destruct (A b Hb) as (T & C & W & _).
    apply W. apply V; auto; [apply I; left; reflexivity|apply I; right; exact Hb].
Qed.

Lemma mfind_none i m : mfind i m = None <-> ~ In i (map fst m).
Proof.
  unfold mfind. destruct (find (fun e => (fst e =? i)%Z) m) as [e|] eqn:E.
  - apply find_some in E as (I & X). apply Z.eqb_eq in X. split; [discriminate|]. intros H. exfalso. apply H. apply in_map_iff. exists e. auto.
  - split; [|reflexivity]. intros _ H. apply in_map_iff in H as (e & X & I). pose proof (find_none _ _ E e I) as F. cbv beta in F. apply Z.eqb_neq in F. contradiction.
Qed.
Lemma mfind_some i m hs : NoDup (map fst m) -> (mfind i m = Some hs <-> In (i, hs) m).
Proof.
  intros N. unfold mfind. destruct (find (fun e => (fst e =? i)%Z) m) as [e|] eqn:E.
  - apply find_some in E as (I & X). apply Z.eqb_eq in X. destruct e as (j, l). cbn [fst snd] in *. subst j. split; [intros [= ->]; exact I|].
    intros I2. f_equal. revert N I I2. clear. induction m as [|(k, x) m IH]; intros N I1 I2; [destruct I1|]. cbn [map fst] in N. apply NoDup_cons_iff in N as (N1 & N2).
    destruct I1 as [E1|I1], I2 as [E2|I2].
    + congruence.
    + exfalso. apply N1. injection E1 as -> ->. apply in_map_iff. exists (i, hs). auto.
    + exfalso. apply N1. injection E2 as -> ->. apply in_map_iff. exists (i, l). auto.
    + auto.
  - split; [discriminate|]. intros I. pose proof (find_none _ _ E _ I) as F. cbn [fst] in F. rewrite Z.eqb_refl in F. discriminate.
Qed.

(** all identifiers remembered are below their number *)
Definition below (m : hmap) : Prop := forall i, In i (map fst m) -> (i < Z.of_nat (length m))%Z.
Definition simple_point (g : geo) (hits : list hit) (id : Z) : sp := point g (fun _ => 1%Qc) (fun sumw _ _ => (1 / sumw)%Qc) hits id.
Lemma fill_ok g hits sptv id m : 2 <= length hits -> ~ In id (map fst m) -> fill g hits sptv id m = Ok (sptv ++ [simple_point g hits id], (id, hits) :: m).
Proof.
  intros L N. unfold fill. rewrite (proj2 (mfind_none id m) N). destruct (Nat.leb_spec 2 (length hits)); [reflexivity|lia].
Qed.
Lemma below_cons m hs : below m -> below ((Z.of_nat (length m), hs) :: m).
Proof. intros B i [<-|I]; cbn [fst length]; [lia|]. pose proof (B i I). lia. Qed.
Lemma below_fresh m : below m -> ~ In (Z.of_nat (length m)) (map fst m).
Proof. intros B I. pose proof (B _ I). lia. Qed.

(** the points made of the long runs [segs] when the map had [m] *)
Fixpoint made (g : geo) (m : hmap) (segs : list (list hit)) : list sp * hmap :=
  match segs with
  | [] => ([], m)
  | s :: r =>
    if 2 <=? length s then
      let id := Z.of_nat (length m) in let '(l, m') := made g ((id, s) :: m) r in (simple_point g s id :: l, m')
    else made g m r
  end.
Lemma made_app g : forall segs m s, made g m (segs ++ [s]) =
  let '(l, m') := made g m segs in
  if 2 <=? length s then (l ++ [simple_point g s (Z.of_nat (length m'))], (Z.of_nat (length m'), s) :: m') else (l, m').
Proof.
  induction segs as [|s0 segs IH]; intros m s.
  - cbn [app made]. destruct (2 <=? length s); reflexivity.
  - cbn [app made]. destruct (2 <=? length s0); [|apply IH]. rewrite IH. destruct (made g _ segs) as (l, m'). destruct (2 <=? length s); reflexivity.
Qed.
Lemma made_below g : forall segs m, below m -> below (snd (made g m segs)).
Proof.
  induction segs as [|s segs IH]; intros m B; cbn [made]; [exact B|]. destruct (2 <=? length s); [|apply IH; exact B].
  pose proof (IH _ (below_cons m s B)) as X. destruct (made g _ segs). exact X.
Qed.

Definition cut_ok (g : geo) (c : cfg) (ws : list hit) (segs : list (list hit)) := cut_in_runs g c ws segs.

Lemma cut_snoc g c ws segs s h : cut_in_runs g c ws (segs ++ [s]) -> ~ fits g c (s ++ [h]) -> cut_in_runs g c (ws ++ [h]) ((segs ++ [s]) ++ [[h]]).
Proof.
  intros (E & R & M) F. split; [|split].
  - rewrite concat_app, E. reflexivity.
  - intros x I. apply in_app_or in I as [I|[<-|[]]]; [apply R; exact I|]. split; [discriminate|]. cbn [length]. lia.
  - intros i a b k A B K. assert (Li : S i < length ((segs ++ [s]) ++ [[h]])) by (apply nth_error_Some; congruence).
    rewrite app_length in Li. cbn [length] in Li.
    destruct (Nat.eq_dec (S i) (length (segs ++ [s]))) as [X|X].
    + rewrite nth_error_app2 in B by lia. rewrite X, Nat.sub_diag in B. injection B as <-. cbn in K. injection K as <-.
      rewrite nth_error_app1 in A by lia. rewrite app_length in X. cbn [length] in X.
      rewrite nth_error_app2 in A by lia. replace (i - length segs) with 0 in A by lia. injection A as <-. exact F.
    + rewrite nth_error_app1 in A by lia. rewrite nth_error_app1 in B by lia. exact (M i a b k A B K).
Qed.
Lemma cut_grow g c ws segs s h : s <> [] -> cut_in_runs g c ws (segs ++ [s]) -> fits g c (s ++ [h]) -> cut_in_runs g c (ws ++ [h]) (segs ++ [s ++ [h]]).
Proof.
  intros Ns (E & R & M) F. split; [|split].
  - rewrite concat_app in *. cbn [concat] in *. rewrite app_nil_r in *. rewrite app_assoc, E. reflexivity.
  - intros x I. apply in_app_or in I as [I|[<-|[]]]; [apply R; apply in_or_app; left; exact I|].
    destruct (R s) as (_ & Rs); [apply in_or_app; right; left; reflexivity|]. split; [destruct s; discriminate|].
    intros n Ln. rewrite app_length in Ln. cbn [length] in Ln. destruct (Nat.eq_dec n (length s + 1)) as [X|X].
    + rewrite firstn_all2 by (rewrite app_length; cbn [length]; lia). exact F.
    + rewrite firstn_app. replace (n - length s) with 0 by lia. cbn [firstn]. rewrite app_nil_r. apply Rs. lia.
  - intros i a b k A B K. assert (Li : S i < length (segs ++ [s ++ [h]])) by (apply nth_error_Some; congruence).
    rewrite app_length in Li. cbn [length] in Li.
    rewrite nth_error_app1 in A by lia.
    destruct (Nat.eq_dec (S i) (length segs)) as [X|X].
    + rewrite nth_error_app2 in B by lia. rewrite X, Nat.sub_diag in B. injection B as <-.
      apply (M i a s k); [rewrite nth_error_app1 by lia; exact A|rewrite nth_error_app2 by lia; rewrite X, Nat.sub_diag; reflexivity|].
      destruct s; [congruence|exact K].
    + rewrite nth_error_app1 in B by lia. apply (M i a b k); [rewrite nth_error_app1 by lia; exact A|rewrite nth_error_app1 by lia; exact B|exact K].
Qed.

Section loop.
Context (g : geo) (c : cfg) (spts0 : list sp) (m0 : hmap).
Hypothesis B0 : below m0.

Definition inv (ws : list hit) (s : list hit * list hit * list sp * hmap) : Prop :=
  (ws = [] /\ s = ([], [], spts0, m0)) \/
  exists segs cur, cut_in_runs g c ws (segs ++ [cur]) /\ cur <> [] /\
    s = (cur, cur, spts0 ++ fst (made g m0 segs), snd (made g m0 segs)).

Lemma runs_loop : forall track ws s, proper g (ws ++ on_wires track) -> inv ws s ->
  exists s', foreach track (runs_step g c) s = Ok s' /\ inv (ws ++ on_wires track) s'.
Proof.
  induction track as [|k track IH]; intros ws s P Inv.
  - exists s. cbn [foreach on_wires]. rewrite app_nil_r in *. auto.
  - cbn [foreach]. destruct k as [h|].
    2:{ destruct s as (((a, b), e), f). cbn [on_wires] in *. unfold runs_step at 1. cbn [obind]. apply IH; assumption. }
    assert (St : exists s1, runs_step g c s (Some h) = Ok s1 /\ inv (ws ++ [h]) s1).
    { destruct Inv as [(-> & ->)|(segs & cur & C & Nc & ->)].
      - cbn. exists ([h], [h], spts0, m0). split; [reflexivity|]. right. exists [], [h]. split; [|split; [discriminate|]].
        + split; [reflexivity|]. split; [|intros i ? ? ? A B; destruct i; discriminate].
          intros x [<-|[]]. split; [discriminate|]. cbn [length]. lia.
        + cbn [made fst snd]. rewrite app_nil_r. reflexivity.
      - unfold runs_step.
        destruct (proper_compat g c _ (cur ++ [h]) P) as (b & Eb & Sb).
        { cbn [on_wires]. intros x I. destruct C as (C & _). rewrite concat_app in C. cbn [concat] in C. rewrite app_nil_r in C.
          apply in_app_or in I as [I|[<-|[]]]; apply in_or_app; [left|right; left; reflexivity]. rewrite <- C. apply in_or_app. right; exact I. }
        rewrite Eb. cbn [obind]. destruct b.
        + eexists. split; [reflexivity|]. right. exists segs, (cur ++ [h]). split; [apply cut_grow; [exact Nc|exact C|apply Sb; reflexivity]|].
          split; [destruct cur; discriminate|reflexivity].
        + assert (F : ~ fits g c (cur ++ [h])) by (intros X; apply Sb in X; discriminate).
          destruct (2 <=? length cur) eqn:L.
          * apply Nat.leb_le in L. rewrite fill_ok; [|exact L|apply below_fresh, made_below; exact B0]. cbn [obind fst snd].
            eexists. split; [reflexivity|]. right. exists (segs ++ [cur]), [h]. split; [apply cut_snoc; assumption|]. split; [discriminate|].
            rewrite made_app. destruct (made g m0 segs) as (l, m'). cbn [fst snd]. rewrite (proj2 (Nat.leb_le _ _) L). cbn [fst snd]. rewrite app_assoc. reflexivity.
          * cbn [obind fst snd]. eexists. split; [reflexivity|]. right. exists (segs ++ [cur]), [h]. split; [apply cut_snoc; assumption|]. split; [discriminate|].
            rewrite made_app. destruct (made g m0 segs) as (l, m'). rewrite L. reflexivity. }
    destruct St as (s1 & E1 & I1). rewrite E1. cbn [obind on_wires].
    replace (ws ++ h :: on_wires track) with ((ws ++ [h]) ++ on_wires track) by (rewrite <- app_assoc; reflexivity).
    apply IH; [|exact I1]. rewrite <- app_assoc. exact P.
Qed.

Lemma fill_runs_made track : proper g (on_wires track) ->
  exists segs, cut_in_runs g c (on_wires track) segs /\ fill_runs g c track spts0 m0 = Ok (spts0 ++ fst (made g m0 segs), snd (made g m0 segs)).
Proof.
  intros P. unfold fill_runs. destruct (runs_loop track [] ([], [], spts0, m0) P) as (s & E & I); [left; auto|]. rewrite E. cbn [obind]. cbn [app] in I.
  destruct I as [(-> & ->)|(segs & cur & C & Nc & ->)].
  - exists []. split; [split; [reflexivity|]; split; [intros s []|intros [|i] ? ? ? A; discriminate]|]. cbn. rewrite app_nil_r. reflexivity.
  - exists (segs ++ [cur]). split; [exact C|]. rewrite made_app. destruct (2 <=? length cur) eqn:L.
    + rewrite fill_ok; [|apply Nat.leb_le; exact L|apply below_fresh, made_below; exact B0]. destruct (made g m0 segs) as (l, m'). cbn [fst snd]. rewrite app_assoc. reflexivity.
    + destruct (made g m0 segs) as (l, m'). reflexivity.
Qed.
End loop.

(** what [made] returns, point by point *)
Lemma made_spec g : forall segs m, let long := filter (fun s : list hit => 2 <=? length s) segs in
  length (fst (made g m segs)) = length long /\
  (forall i s, nth_error long i = Some s -> nth_error (fst (made g m segs)) i = Some (simple_point g s (Z.of_nat (length m + i)))) /\
  (forall j s, In (j, s) (snd (made g m segs)) <-> In (j, s) m \/ exists i, j = Z.of_nat (length m + i) /\ nth_error long i = Some s).
Proof.
  induction segs as [|s segs IH]; intros m; cbn [made filter]; cbv zeta.
  - split; [reflexivity|]. split; [intros [|i] x; discriminate|]. intros j x. split; [tauto|]. intros [I|(i & _ & N)]; [exact I|destruct i; discriminate].
  - destruct (2 <=? length s); [|apply IH]. specialize (IH ((Z.of_nat (length m), s) :: m)). cbv zeta in IH.
    destruct (made g ((Z.of_nat (length m), s) :: m) segs) as (l, m') eqn:E. cbn [fst snd length] in *. destruct IH as (I1 & I2 & I3). split; [congruence|]. split.
    + intros [|i] x N; cbn [nth_error] in *.
      * injection N as <-. rewrite Nat.add_0_r. reflexivity.
      * rewrite (I2 i x N). do 2 f_equal. lia.
    + intros j x. rewrite I3. cbn [In]. split.
      * intros [[X|X]|(i & -> & N)]; [injection X as <- <-; right; exists 0; split; [f_equal; lia|reflexivity]|left; exact X|].
        right. exists (S i). split; [f_equal; lia|exact N].
      * intros [X|([|i] & -> & N)]; [left; right; exact X| |].
        -- cbn in N. injection N as <-. left. left. f_equal. f_equal. lia.
        -- right. exists i. split; [f_equal; lia|exact N].
Qed.
