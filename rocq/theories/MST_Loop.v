(** Prim's algorithm: the loop keeps its invariant, ends, and what it returns *)
From Coq Require Import QArith Qcanon Lqa.
From Verif Require Import Base QcUtil Solver_Model Solver_Proofs Triplet_Spec MST_Model MST_Spec MST_Proofs.
Local Open Scope nat_scope.

Lemma next_free_ok att l : (next_free att l = [] -> incl l att) /\ (forall h r, next_free att l = h :: r -> ~ In h att /\ In h l /\ incl r l /\ forall x, In x l -> In x att \/ In x (h :: r)).
Proof.
  induction l as [|x l [IH1 IH2]]; cbn [next_free]; [split; [intros _ y []|discriminate]|]. destruct (attached att x) eqn:E.
  - apply attached_in in E. split.
    + intros H y [<-|Hy]; [exact E|apply IH1; assumption].
    + intros h r H. destruct (IH2 h r H) as (A & B & C & D). split; [exact A|]. split; [right; exact B|]. split; [intros y Hy; right; apply C, Hy|].
      intros y [<-|Hy]; [left; exact E|apply D, Hy].
  - split; [discriminate|]. intros h r H. injection H as <- <-. assert (N : ~ In x att) by (intros X; apply attached_in in X; congruence).
    split; [exact N|]. split; [left; reflexivity|]. split; [intros y Hy; right; exact Hy|]. intros y Hy. right. exact Hy.
Qed.

Section P.
Context (nb : nat -> list nat) (wt : nat -> nat -> Qc) (sort : list edge -> list edge) (hits : list nat).
Context (Hsort : sorts_by lighter sort) (Hnb : forall h v, In h hits -> In v (nb h) -> In v hits).
Notation Inv := (Inv nb wt hits).
Notation good_done := (good_done nb wt).

Lemma step_eq s : step nb wt sort s =
  let cl := mkC (c_hits (s_cl s) ++ [s_last s]) (c_map (s_cl s)) in
  match frontier nb wt s with
  | [] => match next_free (s_last s :: s_att s) (s_free s) with [] => inl (s_done s ++ [cl]) | h :: r => inr (mkS (s_last s :: s_att s) [] h r (s_done s ++ [cl]) no_cluster) end
  | _ => match sort (frontier nb wt s) with
         | [] => inl (s_done s ++ [cl])
         | e :: l => inr (mkS (s_last s :: s_att s) (e :: l) (e_dst e) (s_free s) (s_done s) (mkC (c_hits cl) (mpush (mpush (c_map cl) (e_src e) e) (e_dst e) (flip e))))
         end
  end.
Proof. unfold step, frontier. cbn zeta. match goal with |- context [match ?x with [] => _ | _ :: _ => _ end] => destruct x as [|e0 l0] end; [reflexivity|]. match goal with |- context [sort ?x] => destruct (sort x); reflexivity end. Qed.

(** a finished cluster joins the others *)
Lemma finish s : Inv s -> frontier nb wt s = [] -> good_done (s_done s ++ [mkC (c_hits (s_cl s) ++ [s_last s]) (c_map (s_cl s))]).
Proof.
  intros HI Hf. destruct (i_done _ _ _ _ HI) as [D1 D2]. split.
  - intros c Hc. apply in_app_or in Hc. destruct Hc as [Hc|[<-|[]]]; [apply D1, Hc|]. exact (i_tree _ _ _ _ HI).
  - intros pre c post E u v Hu Hv. destruct (destruct_list post) as [[x [l El]]|En].
    + assert (Hp : post <> []) by (rewrite El; discriminate). destruct (exists_last Hp) as (post' & z & Ep). rewrite Ep in E.
      assert (E' : s_done s = pre ++ c :: post'). { change (pre ++ c :: post' ++ [z]) with (pre ++ (c :: post') ++ [z]) in E. rewrite app_assoc in E. apply app_inj_tail in E. apply E. }
      apply (D2 pre c post' E' u v Hu Hv).
    + rewrite En in E. apply app_inj_tail in E. destruct E as [E1 E2]. subst c. cbn [c_hits] in Hu. rewrite <- E1. clear E1.
      unfold all_hits. rewrite flat_map_app. cbn [flat_map c_hits]. rewrite app_nil_r.
      destruct (in_dec Nat.eq_dec v (s_last s :: s_att s)) as [Hi|Hi].
      * apply (att_split _ _ _ s v HI) in Hi. apply in_or_app. exact Hi.
      * pose proof (frontier_complete _ _ _ s u v HI Hu Hv Hi) as X. rewrite Hf in X. destruct X.
Qed.

Lemma att_perm s : Inv s -> Permutation (s_last s :: s_att s) (all_hits (s_done s) ++ (c_hits (s_cl s) ++ [s_last s])).
Proof. intros HI. rewrite (i_perm _ _ _ _ HI), app_assoc. apply Permutation_cons_append. Qed.

Lemma step_new s h r : Inv s -> frontier nb wt s = [] -> next_free (s_last s :: s_att s) (s_free s) = h :: r ->
  Inv (mkS (s_last s :: s_att s) [] h r (s_done s ++ [mkC (c_hits (s_cl s) ++ [s_last s]) (c_map (s_cl s))]) no_cluster).
Proof.
  intros HI Hf Hn. destruct (next_free_ok (s_last s :: s_att s) (s_free s)) as [_ F]. destruct (F h r Hn) as (F1 & F2 & F3 & F4).
  split; cbn [s_last s_att s_cur s_free s_done s_cl no_cluster c_hits c_map app].
  - constructor; [exact F1|exact (i_nodup _ _ _ _ HI)].
  - rewrite (att_perm s HI). unfold all_hits. rewrite flat_map_app. cbn [flat_map c_hits]. rewrite !app_nil_r. reflexivity.
  - intros x [<-|Hx]; [apply (i_free _ _ _ _ HI), F2|apply (i_sub _ _ _ _ HI), Hx].
  - intros x Hx. apply (i_free _ _ _ _ HI), F3, Hx.
  - intros x Hx. destruct (i_all _ _ _ _ HI x Hx) as [H|H]; [left; right; exact H|]. destruct (F4 x H) as [H'|[<-|H']]; [left; right; exact H'|left; left; reflexivity|right; exact H'].
  - exists []. apply singleton_tree.
  - intros e [].
  - intros u v [].
  - apply finish; assumption.
Qed.

Lemma step_grow s e l : Inv s -> frontier nb wt s <> [] -> sort (frontier nb wt s) = e :: l ->
  Inv (mkS (s_last s :: s_att s) (e :: l) (e_dst e) (s_free s) (s_done s) (mkC (c_hits (s_cl s) ++ [s_last s]) (mpush (mpush (c_map (s_cl s)) (e_src e) e) (e_dst e) (flip e)))).
Proof.
  intros HI Hf Hs. destruct (Hsort (frontier nb wt s)) as [P Sx]. rewrite Hs in P, Sx.
  assert (Hin : forall f, In f (e :: l) -> In f (frontier nb wt s)) by (intros f H; eapply Permutation_in; eauto).
  assert (Hin' : forall f, In f (frontier nb wt s) -> In f (e :: l)) by (intros f H; eapply Permutation_in; [apply Permutation_sym, P|exact H]).
  assert (He : In e (frontier nb wt s)) by (apply Hin; left; reflexivity).
  assert (Hmin : forall f, In f (frontier nb wt s) -> (e_w e <= e_w f)%Qc).
  { intros f H. apply Hin' in H. destruct H as [<-|H]; [apply Qcle_refl|]. inversion Sx as [|? ? _ Fa]; subst. rewrite Forall_forall in Fa. specialize (Fa f H). apply qc_lt_false in Fa. exact Fa. }
  destruct (frontier_sound _ _ _ s e HI He) as (Le & Se & De).
  split; cbn [s_last s_att s_cur s_free s_done s_cl c_hits c_map].
  - constructor; [exact De|exact (i_nodup _ _ _ _ HI)].
  - apply att_perm, HI.
  - intros x [<-|Hx]; [|apply (i_sub _ _ _ _ HI), Hx]. destruct Le as [Le _]. apply (Hnb (e_src e)); [|exact Le]. apply (i_sub _ _ _ _ HI). eapply Permutation_in; [apply Permutation_sym, (att_perm s HI)|]. apply in_or_app. right. exact Se.
  - exact (i_free _ _ _ _ HI).
  - intros x Hx. destruct (i_all _ _ _ _ HI x Hx) as [H|H]; [left; right; exact H|right; exact H].
  - destruct (i_tree _ _ _ _ HI) as [T HT]. exists (T ++ [e]). apply (grow_tree _ _ hits); assumption.
  - intros f H. apply (frontier_sound _ _ _ s f HI), Hin, H.
  - intros u v Hu Hv N. apply Hin', (frontier_complete _ _ _ s u v HI Hu Hv N).
  - exact (i_done _ _ _ _ HI).
Qed.

Definition result_ok (cs : list cluster) : Prop := Permutation (all_hits cs) hits /\ good_done cs.
Lemma loop_ok fuel : NoDup hits -> forall s, Inv s -> length hits <= fuel + length (s_att s) -> exists cs, loop nb wt sort fuel s = Some cs /\ result_ok cs.
Proof.
  intros Hnd. induction fuel as [|k IH]; intros s HI Hf.
  { exfalso. pose proof (NoDup_incl_length (i_nodup _ _ _ _ HI) (i_sub _ _ _ _ HI)) as L. cbn [length] in L. lia. }
  cbn [loop]. rewrite step_eq. cbn zeta. destruct (frontier nb wt s) as [|e0 l0] eqn:Ef.
  - destruct (next_free (s_last s :: s_att s) (s_free s)) as [|h r] eqn:En.
    + eexists. split; [reflexivity|]. split; [|apply finish; assumption]. unfold all_hits. rewrite flat_map_app. cbn [flat_map c_hits]. rewrite app_nil_r.
      rewrite <- (att_perm s HI). apply NoDup_Permutation; [exact (i_nodup _ _ _ _ HI)|exact Hnd|]. intros x. split; [apply (i_sub _ _ _ _ HI)|].
      intros Hx. destruct (i_all _ _ _ _ HI x Hx) as [H|H]; [exact H|]. apply (proj1 (next_free_ok _ _) En), H.
    + apply IH; [apply step_new; assumption|]. cbn [s_att length]. lia.
  - destruct (Hsort (frontier nb wt s)) as [P _]. rewrite Ef in P. destruct (sort (e0 :: l0)) as [|e l] eqn:Es; [apply Permutation_nil in P; discriminate|].
    apply IH; [|cbn [s_att length]; lia]. cbn [c_hits c_map]. apply step_grow; [exact HI|rewrite Ef; discriminate|rewrite Ef; exact Es].
Qed.
Lemma loop_more k j s cs : loop nb wt sort k s = Some cs -> loop nb wt sort (k + j) s = Some cs.
Proof. revert s. induction k as [|k IH]; intros s; cbn [loop Nat.add]; [discriminate|]. destruct (step nb wt sort s); [auto|apply IH]. Qed.
Lemma start_inv h r : hits = h :: r -> NoDup hits -> Inv (mkS [] [] h r [] no_cluster).
Proof.
  intros E Hnd. split; cbn [s_last s_att s_cur s_free s_done s_cl no_cluster c_hits c_map app all_hits flat_map].
  - repeat constructor. intros [].
  - constructor.
  - intros x [<-|[]]. rewrite E. left. reflexivity.
  - intros x Hx. rewrite E. right. exact Hx.
  - intros x Hx. rewrite E in Hx. destruct Hx as [<-|Hx]; [left; left; reflexivity|right; exact Hx].
  - exists []. apply singleton_tree.
  - intros e [].
  - intros u v [].
  - split; [intros c []|]. intros pre c post X. destruct pre; discriminate.
Qed.
Lemma run_ok : NoDup hits -> exists cs, result_ok cs /\ forall fuel, length hits <= fuel -> run_prims nb wt sort fuel hits = Some cs.
Proof.
  intros Hnd. assert (C : hits = [] \/ exists h r, hits = h :: r) by (case hits; [left; reflexivity|intros h r; right; exists h, r; reflexivity]).
  destruct C as [E|(h & r & E)].
  - exists []. split; [|intros fuel _; rewrite E; reflexivity]. split; [cbn; rewrite E; constructor|]. split; [intros c []|]. intros pre c post X. destruct pre; discriminate.
  - destruct (loop_ok (length hits) Hnd (mkS [] [] h r [] no_cluster)) as (cs & Ec & Ok); [apply start_inv; [exact E|exact Hnd]|cbn [s_att length]; lia|].
    exists cs. split; [exact Ok|]. intros fuel Hf. replace (run_prims nb wt sort fuel hits) with (loop nb wt sort fuel (mkS [] [] h r [] no_cluster)) by (rewrite E; reflexivity).
    replace fuel with (length hits + (fuel - length hits)) by lia. apply loop_more, Ec.
Qed.
End P.
