(** Segmentation2D::run as a whole *)
From Coq Require Import QArith Qcanon Permutation Sorted Lqa.
From Verif Require Import Base QcUtil Solver_Model Solver_Proofs SEG_Model SEG_Spec SEG_Simple SEG_Split SEG_Run SEG_Tag SEG_Dense TJ_Proofs.
Import SEG_Model.
Local Open Scope nat_scope.

Section A.
Variable srt : pt -> list hit -> list hit.
Hypothesis So : sorts srt.
Variable cf : cfg.
Hypothesis U : usable cf.
Variable inp : list hit.
Hypothesis D : distinct inp.
Lemma run_ok : exists segs left tg g, returns (fun n => run srt cf n inp) (Ok g) /\ Permutation (concat (map hs segs) ++ left) inp /\ length left <= 1 /\ Forall (piece cf) segs /\
  length tg = length segs /\ (forall i c, nth_error segs i = Some c -> exists d, nth_error tg i = Some d /\ hs d = hs c /\ em d = false /\ (dstart d = true <-> end_near (f_vrad cf) segs i (first_of c)) /\ (dend d = true <-> end_near (f_vrad cf) segs i (last_of c))) /\
  Inv tg g /\ thinned cf g.
Proof.
  destruct U as (U1 & U2 & U3). destruct (split_spec cf srt So U1 U2 (length inp) inp [] (le_n _)) as (left & segs & Es & P & R & L); [exact D|constructor|].
  assert (Ne : Forall (fun c => hs c <> []) segs) by (rewrite Forall_forall in *; intros c C; destruct (R c C) as (_ & N & _); exact N).
  destruct (tag_exact cf segs Ne) as (tg & Et & Lt & Tg).
  assert (Hh : map hs tg = map hs segs). { apply (nth_ext_length []); [rewrite !map_length; exact Lt|]. intros i Hi. rewrite map_length in Hi. destruct (nth_error segs i) as [c|] eqn:Ec; [|apply nth_error_None in Ec; lia]. destruct (Tg i c Ec) as (d & Ed & Hd & _). rewrite (nth_error_nth _ _ _ (map_nth_error hs i tg Ed)), (nth_error_nth _ _ _ (map_nth_error hs i segs Ec)). exact Hd. }
  assert (Em : Forall (fun c => em c = false) tg). { rewrite Forall_forall. intros d Dd. apply In_nth_error in Dd as (i & Ei). destruct (nth_error segs i) as [c|] eqn:Ec; [|apply nth_error_None in Ec; assert (nth_error tg i <> None) by congruence; apply nth_error_Some in H; lia]. destruct (Tg i c Ec) as (d' & Ed & _ & _ & He & _). assert (d' = d) by congruence. subst. rewrite He. rewrite Forall_forall in R. destruct (R c (nth_error_In _ _ Ec)) as (-> & _). reflexivity. }
  assert (V : Inv tg tg). { split; [|split; [reflexivity|]].
    - unfold full. rewrite Forall_forall in *. intros d Dd. assert (X : In (hs d) (map hs segs)) by (rewrite <- Hh; apply in_map, Dd). apply in_map_iff in X as (x & <- & X). auto.
    - rewrite Forall_forall in *. intros d Dd. split; [intros _; exists d; auto 8|]. exists [d]. split; [intros z [<-|[]]; exact Dd|]. cbn. rewrite app_nil_r. reflexivity. }
  destruct (merge_dense_ok cf tg U3 (todo tg) tg (le_n _) V) as (g & Eg & Vg & Th).
  exists segs, left, tg, g. split; [|split; [exact P|split; [exact L|split; [exact R|split; [exact Lt|split; [|split; assumption]]]]]].
  - exists (S (length inp + todo tg)). intros n Ln. unfold run. rewrite Es by lia. rewrite Et. apply Eg. lia.
  - intros i c Ec. destruct (Tg i c Ec) as (d & Ed & Hd & _ & He & Hs & Hn). exists d. split; [exact Ed|]. split; [exact Hd|]. rewrite Forall_forall in R. destruct (R c (nth_error_In _ _ Ec)) as (Fr & _). rewrite Fr in He, Hs, Hn. cbn [em dstart dend fresh] in He, Hs, Hn.
    split; [rewrite He; reflexivity|]. rewrite Fr. split; [rewrite Hs|rewrite Hn]; (split; [intros [X|X]; [discriminate|exact X]|auto]).
Qed.
End A.
Lemma returns_fun {A} (f : nat -> option A) a b : returns f a -> returns f b -> a = b.
Proof. intros (n & E) (m & F). specialize (E (n + m) ltac:(lia)). specialize (F (n + m) ltac:(lia)). congruence. Qed.

Lemma close_by_le r a b : close_by r a b <= 1. Proof. unfold close_by. destruct (Qclt_le_dec _ _); lia. Qed.
Lemma close_by_0 r a b : ~ (dist2 a b < r * r)%Qc -> close_by r a b = 0. Proof. unfold close_by. destruct (Qclt_le_dec _ _); [tauto|reflexivity]. Qed.
Lemma count_le1 r g i p : (forall j d, j <> i -> nth_error g j = Some d -> em d = false -> ~ (dist2 p (first_of d) < r * r)%Qc /\ ~ (dist2 p (last_of d) < r * r)%Qc) -> count_ends r g i p <= 1.
Proof.
  intros Hj. unfold count_ends.
  match goal with |- list_sum (map ?W _) <= 1 => set (F := W) end.
  assert (G : forall l k, (forall j d, k + j <> i -> nth_error l j = Some d -> em d = false -> ~ (dist2 p (first_of d) < r * r)%Qc /\ ~ (dist2 p (last_of d) < r * r)%Qc) -> list_sum (map F (combine (seq k (length l)) l)) <= (if k <=? i then 1 else 0)).
  { induction l as [|c l IH]; intros k Hk; [cbn; lia|]. cbn [length seq combine map]. change (list_sum (?a :: ?b)) with (a + list_sum b).
    specialize (IH (S k)). assert (IH' : list_sum (map F (combine (seq (S k) (length l)) l)) <= (if S k <=? i then 1 else 0)) by (apply IH; intros j d N E; apply (Hk (S j) d); [lia|exact E]). clear IH.
    unfold F at 1. destruct (em c) eqn:Em; [destruct (Nat.leb_spec k i), (Nat.leb_spec (S k) i); lia|]. destruct (Nat.eqb_spec k i) as [->|N].
    - pose proof (close_by_le r (first_of c) (last_of c)). rewrite Nat.leb_refl. destruct (Nat.leb_spec (S i) i); [lia|]. destruct (1 <? length (hs c)); lia.
    - destruct (Hk 0 c) as (A & B); [lia|reflexivity|exact Em|]. rewrite (close_by_0 _ _ _ A), (close_by_0 _ _ _ B). destruct (1 <? length (hs c)), (Nat.leb_spec k i), (Nat.leb_spec (S k) i); lia. }
  apply (G g 0). exact Hj.
Qed.
Lemma nodup_two : forall (g : list clu) i j c d h, NoDup (map key (concat (map hs g))) -> nth_error g i = Some c -> nth_error g j = Some d -> i <> j -> In h (hs c) -> In h (hs d) -> False.
Proof.
  induction g as [|x g IH]; intros i j c d h N Ei Ej Nij Ic Id; [destruct i; discriminate|]. cbn [map concat] in N. rewrite map_app in N. apply nodup_app_iff in N as (N1 & N2 & N3).
  assert (Inn : forall k e, nth_error g k = Some e -> In h (hs e) -> In (key h) (map key (concat (map hs g)))). { intros k e E I. apply in_map, in_concat. exists (hs e). split; [apply in_map, (nth_error_In _ _ E)|exact I]. }
  destruct i as [|i], j as [|j]; cbn [nth_error] in *; [lia| | |apply (IH i j c d h); auto].
  - assert (x = c) by congruence. subst. apply (N3 (key h)); [apply in_map, Ic|apply (Inn j d Ej Id)].
  - assert (x = d) by congruence. subst. apply (N3 (key h)); [apply in_map, Id|apply (Inn i c Ei Ic)].
Qed.

(** more fuel changes nothing *)
Section More.
Variable srt : pt -> list hit -> list hit.
Variable cf : cfg.
Lemma run1_more n s r : run1 srt cf n s = Some r -> forall m, n <= m -> run1 srt cf m s = Some r.
Proof.
  unfold run1. intros E m L. destruct (s_cen s); [exact E|]. destruct (closest p (s_inp s)); [|exact E]. destruct (qc_lt _ _); [exact E|]. destruct (ring cf (s_inp s) (pos h)); [exact E|]. destruct (simple n (h0 :: l0)) as [sd|] eqn:Es; [|discriminate]. rewrite (simple_more _ _ _ Es m L). exact E.
Qed.
Lemma centers_more : forall n s r, centers_loop srt cf n s = Some r -> forall m, n <= m -> centers_loop srt cf m s = Some r.
Proof.
  induction n as [|n IH]; intros s r E m L.
  - cbn [centers_loop] in E. destruct (s_cen s) eqn:Ec; [|discriminate]. destruct m; cbn [centers_loop]; rewrite Ec; exact E.
  - destruct m as [|m]; [lia|]. cbn [centers_loop] in *. destruct (s_cen s); [exact E|]. destruct (run1 srt cf (S n) s) as [o|] eqn:E1; [|discriminate]. rewrite (run1_more _ _ _ E1 (S m) L). destruct o; [|exact E|exact E]. apply (IH _ _ E). lia.
Qed.
Lemma split_more : forall n inp res r, split_loop srt cf n inp res = Some r -> forall m, n <= m -> split_loop srt cf m inp res = Some r.
Proof.
  induction n as [|n IH]; intros inp res r E m L.
  - cbn [split_loop] in E. destruct (length inp <=? 1) eqn:Ec; [|discriminate]. destruct m; cbn [split_loop]; rewrite Ec; exact E.
  - destruct m as [|m]; [lia|]. cbn [split_loop] in *. destruct (length inp <=? 1); [exact E|]. destruct (outermost inp); [|exact E]. destruct (centers_loop srt cf (S n) (St inp res [pos h])) as [o|] eqn:E1; [|discriminate]. rewrite (centers_more _ _ _ E1 (S m) L). destruct o; [|exact E|exact E]. apply (IH _ _ _ E). lia.
Qed.
Lemma md_more : forall n g r, merge_dense cf n g = Some r -> forall m, n <= m -> merge_dense cf m g = Some r.
Proof.
  induction n as [|n IH]; intros g r E m L; [discriminate|]. destruct m as [|m]; [lia|]. cbn [merge_dense] in *. destruct (look cf g) as [b| |]; [|exact E|exact E]. destruct (chosen b) as [[i l]|]; [|exact E]. destruct (merge_clusters g (l ++ [i])) as [[g' [k|]]| |]; [|apply (IH _ _ E); lia|exact E|exact E].
  destruct (do c <- idx g' k; set_idx g' k (set_em c)); [apply (IH _ _ E); lia|exact E|exact E].
Qed.
Lemma run_more n inp r : run srt cf n inp = Some r -> forall m, n <= m -> run srt cf m inp = Some r.
Proof.
  unfold run. intros E m L. destruct (split_loop srt cf n inp []) as [o|] eqn:E1; [|discriminate]. rewrite (split_more _ _ _ _ E1 m L). destruct o as [[? res]| |]; [|exact E|exact E]. destruct (tag_dense cf res); [|exact E|exact E]. apply (md_more _ _ _ E m L).
Qed.
End More.
