From Coq Require Import QArith Qcanon Lqa.
From Verif Require Import Base QcUtil Solver_Model Solver_Proofs HULL_Model HULL_Spec HULL_Proofs HULL_Half HULL_Whole.
Local Open Scope nat_scope.

(** the way from mm to MM below the points, seen as an ascending list *)
Record way (l : list point) (W : list point) : Prop := {
  w_asc : ascending W;
  w_in : forall x, In x W -> In x l;
  w_cov : forall x y p, is_edge W x y -> In p l -> (0 <= side x y p)%Qc;
  w_turn : ~ collinear l -> forall x y y' w, is_edge W x y -> is_edge W y' w -> same y y' -> ~ same x y -> ~ same y w -> (0 < side x y w)%Qc }.

Lemma last_cons {A} (x : A) l d : last (x :: l) d = last l x.
Proof. revert x d. induction l as [|y l IH]; intros x d; [reflexivity|]. change (last (x :: y :: l) d) with (last (y :: l) d). rewrite !IH. reflexivity. Qed.
Lemma half_way a b rest : ascending (a :: rest) -> In b (a :: rest) -> (forall p, In p (a :: rest) -> (px p <= px b)%Qc) ->
  (forall p, In p (a :: rest) -> px p = px b -> (py b <= py p)%Qc) ->
  way (a :: rest) (half_hull (a :: rest) a b ++ [last rest a]).
Proof.
  intros S Hb Hx Hy. split.
  - apply ext_asc; assumption.
  - intros x. apply ext_in; assumption.
  - intros x y p. apply ext_covers; assumption.
  - intros NC x y y' w. apply ext_turn; try assumption.
    destruct (Qclt_le_dec (px a) (px b)) as [D|D]; [exact D|]. exfalso. apply NC.
    assert (X : forall p, In p (a :: rest) -> px p = px b).
    { intros p Hp. apply Qcle_antisym; [apply Hx; exact Hp|]. apply (Qcle_trans _ (px a)); [exact D|]. apply lex_x. exact (a_min a b rest S Hb Hx Hy p Hp). }
    intros p q r Hp Hq Hr. unfold side. rewrite (X p Hp), (X q Hq), (X r Hr). ring.
Qed.

Lemma hull_pieces l : l <> [] -> ascending l -> exists h mm MM Lw U,
  convex_hull l = Ok h /\ facts l mm (last (take_while (same_x mm) l) mm) (last (take_while (same_x MM) (rev l)) MM) MM /\
  (exists s, Lw = mm :: s /\ s <> []) /\ (exists s, U = MM :: s /\ s <> []) /\
  way l (Lw ++ [MM]) /\ way (map neg (rev l)) (map neg (U ++ [mm])) /\
  (exists s z, Lw = s ++ [z] /\ px z = px MM) /\ chain Lw /\ (px mm = px MM -> exists s, Lw = s ++ [MM]) /\
  ((exists U0 cl, h = Lw ++ U0 ++ cl /\
      (U0 = U \/ (U = MM :: U0 /\ exists s z, Lw = s ++ [z] /\ same z MM)) /\
      (cl = [mm] \/ (cl = [] /\ exists s, U = s ++ [mm])))).
Proof.
  intros N S. destruct (corners_ok l N S) as (mm & mX & Mm & MM & EC & F & (t & Et) & (t' & Et')).
  assert (EmX : mX = last (take_while (same_x mm) l) mm /\ Mm = last (take_while (same_x MM) (rev l)) MM).
  { clear - EC Et Et'. rewrite Et' in *. unfold corners in EC. rewrite Et' in EC. rewrite Et in *. rewrite Et' in EC. cbv beta iota in EC. injection EC as E1 E2. split; symmetry; assumption. }
  destruct EmX as (EmX & EMm).
  set (Lw := half_hull l mm Mm). set (U := half_hull (rev l) MM mX).
  exists (Lw ++ (if peqb Mm MM then tl U else U) ++ (if peqb mm mX then [] else [mm])), mm, MM, Lw, U.
  split. { unfold convex_hull. rewrite EC. reflexivity. }
  split. { rewrite <- EmX, <- EMm. exact F. }
  assert (Sl : ascending (mm :: t)) by (rewrite <- Et; exact S).
  assert (El : last t mm = MM).
  { rewrite <- (last_cons mm t no_point), <- Et, <- (rev_involutive l), Et'. simpl. apply last_snoc. }
  assert (B1 : In Mm (mm :: t)) by (rewrite <- Et; apply F).
  assert (B2 : forall p, In p (mm :: t) -> (px p <= px Mm)%Qc).
  { intros p Hp. rewrite <- Et in Hp. rewrite (proj1 (f_Mm _ _ _ _ _ F)). apply lex_x, (f_MM _ _ _ _ _ F), Hp. }
  assert (B3 : forall p, In p (mm :: t) -> px p = px Mm -> (py Mm <= py p)%Qc).
  { intros p Hp Px. rewrite <- Et in Hp. apply (proj2 (f_Mm _ _ _ _ _ F)); [exact Hp|]. rewrite Px. apply F. }
  (* upper half, turned *)
  assert (Su : ascending (neg MM :: map neg t')) by (change (ascending (map neg (MM :: t'))); rewrite <- Et'; apply neg_sorted; exact S).
  assert (Iu : forall p, In p (neg MM :: map neg t') <-> In (neg p) l) by (intros p; change (neg MM :: map neg t') with (map neg (MM :: t')); rewrite <- Et', neg_in; symmetry; apply in_rev).
  assert (C1 : In (neg mX) (neg MM :: map neg t')) by (apply Iu; rewrite neg_neg; apply F).
  assert (C2 : forall p, In p (neg MM :: map neg t') -> (px p <= px (neg mX))%Qc).
  { intros p Hp. apply Iu in Hp. apply (f_mm _ _ _ _ _ F) in Hp. apply lex_x in Hp. unfold neg in *; simpl in *. rewrite (proj1 (f_mX _ _ _ _ _ F)). clear - Hp. qclra. }
  assert (C3 : forall p, In p (neg MM :: map neg t') -> px p = px (neg mX) -> (py (neg mX) <= py p)%Qc).
  { intros p Hp Px. apply Iu in Hp. assert (Q : px (neg p) = px mm). { unfold neg in *; simpl in *. rewrite Px, Qcopp_involutive. apply F. }
    assert (G := proj2 (f_mX _ _ _ _ _ F) _ Hp Q). unfold neg in *; simpl in *. clear - G. qclra. }
  assert (Eu : half_hull (neg MM :: map neg t') (neg MM) (neg mX) = map neg U) by (change (neg MM :: map neg t') with (map neg (MM :: t')); rewrite <- Et'; apply half_neg).
  assert (Elu : last (map neg t') (neg MM) = neg mm).
  { rewrite last_map. f_equal. rewrite <- (last_cons MM t' no_point), <- Et', Et. simpl. apply last_snoc. }
  assert (W1 : way l (Lw ++ [MM])). { rewrite <- El. unfold Lw. rewrite Et. apply half_way; assumption. }
  assert (W2 : way (map neg (rev l)) (map neg (U ++ [mm]))).
  { rewrite map_app. simpl. rewrite <- Elu, <- Eu, Et'. apply half_way; assumption. }
  assert (H1 := half_shape mm Mm t Sl B1 B2 B3). rewrite <- Et in H1. fold Lw in H1. destruct H1 as (s1 & st1 & Es1 & Ns1 & _).
  assert (H2 := half_shape (neg MM) (neg mX) (map neg t') Su C1 C2 C3). rewrite Eu in H2. destruct H2 as (s2 & st2 & Es2 & Ns2 & _).
  assert (Us : exists s, U = MM :: s /\ s <> []).
  { destruct U as [|u U']; [discriminate|]. assert (A := f_equal (hd no_point) Es2). assert (B := f_equal (@tl _) Es2). cbn [map hd tl] in A, B. exists U'. split; [rewrite <- (neg_neg u), A, neg_neg; reflexivity|]. intros ->. apply Ns2. rewrite <- B. reflexivity. }
  split; [exists s1; split; assumption|]. split; [exact Us|]. split; [exact W1|]. split; [exact W2|].
  assert (H3 := half_end mm Mm t Sl B1 B2 B3). rewrite <- Et in H3. fold Lw in H3. destruct H3 as (s3 & z & Ez & Zin & Zx & _).
  assert (Zx' : px z = px MM) by (rewrite Zx; apply F).
  split; [exists s3, z; split; assumption|].
  split. { assert (H5 := half_chain mm Mm t Sl B1 B2 B3). rewrite <- Et in H5. exact H5. }
  split.
  { intros Ex. assert (H6 := half_end_last mm Mm t Sl B1 B2 B3). rewrite El, <- Et in H6. apply H6. apply left_f.
    rewrite side_same_l; [apply Qcle_refl|]. apply lexle_antisym; [apply (f_mm _ _ _ _ _ F), F|]. right. assert (G := f_Mm _ _ _ _ _ F). split; [rewrite (proj1 G); congruence|].
    apply (proj2 G); [apply F|exact Ex]. }
  do 2 eexists. split; [reflexivity|]. split.
  - destruct (peqb Mm MM) eqn:Ep; [|left; reflexivity]. apply peqb_spec in Ep. right. destruct Us as (s & -> & _). split; [reflexivity|].
    exists s3, z. split; [exact Ez|]. apply lexle_antisym; [apply (f_MM _ _ _ _ _ F); exact Zin|]. right. split; [congruence|].
    rewrite <- Ep. apply (proj2 (f_Mm _ _ _ _ _ F)); assumption.
  - destruct (peqb mm mX) eqn:Ep; [|left; reflexivity]. apply peqb_spec in Ep. right. split; [reflexivity|].
    assert (H4 := half_end_last (neg MM) (neg mX) (map neg t') Su C1 C2 C3). rewrite Elu, Eu in H4. destruct H4 as (s & Es).
    { rewrite left_neg. apply left_f. rewrite <- Ep, side_b. apply Qcle_refl. }
    exists (map neg s). rewrite <- (map_id U), <- (map_ext _ _ neg_neg), <- map_map, Es, map_app. simpl. rewrite neg_neg. reflexivity.
Qed.

(** every edge is one of the way out or of the way back *)
Lemma hull_edge l h : l <> [] -> ascending l -> convex_hull l = Ok h -> exists mm MM A B,
  way l A /\ way (map neg (rev l)) (map neg B) /\
  (forall x y, is_edge h x y -> exists x', same x x' /\ (is_edge A x' y \/ is_edge B x' y)) /\
  (forall x, In x h -> In x A \/ In x B) /\
  (exists s, h = mm :: s /\ s <> []) /\ (exists s, h = s ++ [mm]) /\
  (exists out back, h = out ++ back /\ ascending out /\ descending back) /\
  (forall p, In p l -> lexle mm p) /\ (forall p, In p l -> lexle p MM) /\ In mm l /\ In MM l /\ (exists z, In z h /\ same z MM) /\
  (exists y s, h = mm :: y :: s /\ (same mm y -> forall p, In p l -> same mm p)).
Proof.
  intros N S E. destruct (hull_pieces l N S) as (h' & mm & MM & Lw & U & E' & F & (s1 & E1 & N1) & (s2 & E2 & N2) & W1 & W2 & (s3 & z & E3 & Zx) & CL & LL & (U0 & cl & Eh & CU & Ccl)).
  rewrite E in E'. injection E' as <-. exists mm, MM, (Lw ++ [MM]), (U ++ [mm]).
  split; [exact W1|]. split; [exact W2|]. split.
  { intros x y H. rewrite Eh in H. apply is_edge_app in H. destruct H as [H|[(s & t & A1 & A2)|H]].
    - exists x. split; [apply same_refl|]. left. apply is_edge_app. left. exact H.
    - destruct CU as [->|(Eu & s4 & z4 & E4 & Z4)].
      + rewrite E2 in A2. simpl in A2. injection A2 as <- _. exists x. split; [apply same_refl|]. left. apply is_edge_app. right. left. exists s, []. split; [exact A1|reflexivity].
      + rewrite A1 in E4. apply app_inj_tail in E4. destruct E4 as (_ & <-). exists MM. split; [exact Z4|]. right. rewrite Eu.
        rewrite E2 in Eu. injection Eu as Eu. rewrite <- Eu in A2. destruct s2 as [|v s2]; [contradiction|]. simpl in A2. injection A2 as -> A2. rewrite <- Eu. exists [], (s2 ++ [mm]). reflexivity.
    - exists x. split; [apply same_refl|]. right. assert (G : is_edge (U0 ++ [mm]) x y).
      { destruct Ccl as [->|(-> & _)]; [exact H|]. rewrite app_nil_r in H. apply is_edge_app. left. exact H. }
      destruct CU as [->|(-> & _)]; [exact G|]. simpl. apply is_edge_cons. right. exact G. }
  assert (LU : forall x, In x U0 -> In x U) by (intros x Hx; destruct CU as [->|(-> & _)]; [exact Hx|right; exact Hx]).
  split.
  { intros x Hx. rewrite Eh in Hx. rewrite !in_app_iff in Hx. destruct Hx as [Hx|[Hx|Hx]]; [left; apply in_app_iff; left; exact Hx|right; apply in_app_iff; left; apply LU; exact Hx|].
    destruct Ccl as [->|(-> & _)]; [right; apply in_app_iff; right; exact Hx|contradiction]. }
  split. { exists (s1 ++ U0 ++ cl). split; [rewrite Eh, E1; reflexivity|]. destruct s1; [contradiction|discriminate]. }
  split.
  { destruct Ccl as [->|(-> & s5 & E5)]; [exists (Lw ++ U0); rewrite Eh, app_assoc; reflexivity|].
    rewrite app_nil_r in Eh. destruct CU as [->|(Eu & _)]; [exists (Lw ++ s5); rewrite Eh, E5, app_assoc; reflexivity|].
    rewrite E2 in Eu. injection Eu as Eu. rewrite <- Eu in *. destruct s5 as [|u s5]; [rewrite E2 in E5; injection E5 as _ E5; contradiction|].
    rewrite E2 in E5. injection E5 as _ E5. exists (Lw ++ s5). rewrite Eh, E5, app_assoc. reflexivity. }
  assert (AscL : ascending Lw) by (apply w_asc in W1; apply ss_snoc in W1; apply W1).
  assert (DescU : descending (U ++ [mm])).
  { apply w_asc in W2. unfold descending. rewrite <- (map_id (U ++ [mm])), <- (map_ext _ _ neg_neg), <- map_map. apply ss_map. revert W2. apply ss_impl.
    intros x y H. apply lexle_neg. exact H. }
  split.
  { exists Lw, (U0 ++ cl). split; [exact Eh|]. split; [exact AscL|].
    assert (D0 : descending (U0 ++ [mm])) by (destruct CU as [->|(-> & _)]; [exact DescU|simpl in DescU; apply StronglySorted_inv in DescU; apply DescU]).
    destruct Ccl as [->|(-> & _)]; [exact D0|]. rewrite app_nil_r. unfold descending in *. apply ss_snoc in D0. apply D0. }
  split; [apply F|]. split; [apply F|]. split; [apply F|]. split; [apply F|]. split.
  { destruct CU as [->|(_ & s4 & z4 & E4 & Z4)].
    - exists MM. split; [|apply same_refl]. rewrite Eh, E2, !in_app_iff. right. left. left. reflexivity.
    - exists z4. split; [|exact Z4]. rewrite Eh, E4, !in_app_iff. left. right. left. reflexivity. }
  destruct s1 as [|y s1]; [contradiction|]. exists y, (s1 ++ U0 ++ cl). split; [rewrite Eh, E1; reflexivity|].
  intros Sy. (* the lower half does not move: one x only, and nothing above *)
  destruct s1 as [|y2 s1].
  - assert (Ez : z = y) by (rewrite E1 in E3; destruct s3 as [|? [|? [|? ?]]]; simpl in E3; try discriminate; injection E3 as _ ->; reflexivity). subst z.
    assert (Ex : px mm = px MM) by (rewrite <- Zx; apply Sy). destruct (LL Ex) as (s & Es). rewrite E3 in Es. apply app_inj_tail in Es. destruct Es as (_ & ->).
    intros p Hp. apply lexle_antisym; [apply (f_mm _ _ _ _ _ F), Hp|]. apply (lexle_trans _ MM); [apply (f_MM _ _ _ _ _ F), Hp|apply same_le, same_sym, Sy].
  - exfalso. assert (T := proj2 CL mm y y2). apply (proj1 (side_ne _ _ _ (T ltac:(exists [], s1; exact E1)))). exact Sy.
Qed.
