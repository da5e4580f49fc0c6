(** One half of the hull *)
From Coq Require Import QArith Qcanon Lqa.
From Verif Require Import Base QcUtil Solver_Model Solver_Proofs HULL_Model HULL_Spec HULL_Proofs.
Local Open Scope nat_scope.

Lemma fold_add a b pts : forall st, fold_left (add_point a b) pts st = fold_left push (filter (fun p => negb (is_left a b p)) pts) st.
Proof.
  induction pts as [|c pts IH]; intros st; simpl; [reflexivity|]. unfold add_point at 2. destruct (is_left a b c); simpl; apply IH.
Qed.
Lemma ss_filter {A} (R : A -> A -> Prop) f l : StronglySorted R l -> StronglySorted R (filter f l).
Proof.
  induction 1 as [|x l H IH F]; simpl; [constructor|]. destruct (f x); [|exact IH]. constructor; [exact IH|].
  rewrite Forall_forall in *. intros y Hy. apply filter_In in Hy. apply F. apply Hy.
Qed.
Lemma is_edge_cons x h a b : is_edge (x :: h) a b <-> (x = a /\ exists t, h = b :: t) \/ is_edge h a b.
Proof.
  split.
  - intros ([|y h1] & h2 & E); injection E as -> ->; [left; split; [reflexivity|exists h2; reflexivity]|right; exists h1, h2; reflexivity].
  - intros [(-> & t & ->)|(h1 & h2 & ->)]; [exists [], t; reflexivity|exists (x :: h1), h2; reflexivity].
Qed.
Lemma is_edge_app l1 l2 a b : is_edge (l1 ++ l2) a b <-> is_edge l1 a b \/ (exists s t, l1 = s ++ [a] /\ l2 = b :: t) \/ is_edge l2 a b.
Proof.
  induction l1 as [|x l1 IH]; simpl.
  - split; [intros H; right; right; exact H|]. intros [(h1 & h2 & E)|[(s & t & E & _)|H]]; [destruct h1; discriminate|destruct s; discriminate|exact H].
  - rewrite is_edge_cons, IH, is_edge_cons. destruct l1 as [|y l1]; simpl.
    + split.
      * intros [(-> & t & ->)|[(h1 & h2 & E)|[(s & t & E & _)|H]]]; [right; left; exists [], t; split; reflexivity|destruct h1; discriminate|destruct s; discriminate|right; right; exact H].
      * intros [[(-> & t & E)|(h1 & h2 & E)]|[(s & t & E & ->)|H]]; [discriminate|destruct h1; discriminate| |right; right; right; exact H].
        destruct s as [|z s]; [injection E as ->; left; split; [reflexivity|exists t; reflexivity]|destruct s; discriminate].
    + split.
      * intros [(-> & t & E)|[H|[(s & t & E & ->)|H]]]; [injection E as -> <-; left; left; split; [reflexivity|exists l1; reflexivity]|left; right; exact H| |right; right; exact H].
        right; left. exists (x :: s), t. split; [rewrite E; reflexivity|reflexivity].
      * intros [[(-> & t & E)|H]|[(s & t & E & ->)|H]]; [injection E as -> <-; left; split; [reflexivity|exists (l1 ++ l2); reflexivity]|right; left; exact H| |right; right; right; exact H].
        right; right; left. destruct s as [|z s]; [discriminate|]. injection E as -> E. exists s, t. split; [exact E|reflexivity].
Qed.
Lemma all_edges_rev Q h : all_edges Q (rev h) <-> (forall a b, is_edge h a b -> Q a b).
Proof.
  assert (G : forall st, all_edges Q st <-> (forall a b, is_edge st b a -> Q a b)).
  { induction st as [|y [|x r] IH].
    - split; [|intros _; exact Logic.I]. intros _ a b ([|] & h2 & E); discriminate.
    - split; [|intros _; exact Logic.I]. intros _ a b ([|? [|]] & h2 & E); discriminate.
    - cbn [all_edges]. rewrite IH. split.
      + intros (A & B) a b H. apply is_edge_cons in H. destruct H as [(-> & t & E)|H]; [injection E as -> ->; exact A|apply B; exact H].
      + intros H. split; [apply H; apply is_edge_cons; left; split; [reflexivity|exists r; reflexivity]|]. intros a b E. apply H. apply is_edge_cons. right. exact E. }
  rewrite G. split; intros H a b (h1 & h2 & E); apply H.
  - exists (rev h2), (rev h1). rewrite E, rev_app_distr. simpl. rewrite <- !app_assoc. reflexivity.
  - exists (rev h2), (rev h1). rewrite <- (rev_involutive h), E, rev_app_distr. simpl. rewrite <- !app_assoc. reflexivity.
Qed.

(** list in order: growing, strict left turns *)
Definition triple (h : list point) (a b c : point) : Prop := exists h1 h2, h = h1 ++ a :: b :: c :: h2.
Definition chain (h : list point) : Prop := ascending h /\ forall a b c, triple h a b c -> (0 < side a b c)%Qc.
Lemma ss_rev {A} (R : A -> A -> Prop) l : StronglySorted R l -> StronglySorted (fun a b => R b a) (rev l).
Proof.
  induction 1 as [|x l H IH F]; simpl; [constructor|]. apply ss_snoc. split; [exact IH|]. intros y Hy. apply in_rev in Hy. rewrite Forall_forall in F. auto.
Qed.
Lemma ss_linked {A} (R : A -> A -> Prop) l : (forall x y z, R x y -> R y z -> R x z) ->
  (forall h1 a b h2, l = h1 ++ a :: b :: h2 -> R a b) -> StronglySorted R l.
Proof.
  intros T H. apply Sorted_StronglySorted; [exact T|]. induction l as [|x l IH]; [constructor|]. constructor.
  - apply IH. intros h1 a b h2 E. apply (H (x :: h1) a b h2). rewrite E. reflexivity.
  - destruct l as [|y l]; [constructor|]. constructor. apply (H [] x y l). reflexivity.
Qed.
Lemma chain_ok_rev h : chain_ok (rev h) -> chain h.
Proof.
  assert (G : forall st, chain_ok st -> (forall y x, is_edge st y x -> lexle x y) /\ (forall z y x, triple st z y x -> (0 < side x y z)%Qc)).
  { induction st as [|y [|x r] IH]; intros H.
    - split; [intros ? ? ([|] & ? & E); discriminate|intros ? ? ? ([|] & ? & E); discriminate].
    - split; [intros ? ? ([|? [|]] & ? & E); discriminate|intros ? ? ? ([|? [|]] & ? & E); discriminate].
    - destruct H as (H1 & H2 & H3). destruct (IH H3) as (I1 & I2). split.
      + intros u v E. apply is_edge_cons in E. destruct E as [(-> & t & E)|E]; [injection E as -> ->; exact H1|apply I1; exact E].
      + intros u v w ([|z h1] & h2 & E); [injection E as -> -> E; rewrite E in H2; exact H2|]. injection E as -> E. apply I2. exists h1, h2. exact E. }
  intros H. destruct (G _ H) as (A & B). split.
  - apply ss_linked; [intros x y z; apply lexle_trans|]. intros h1 a b h2 E. apply A. exists (rev h2), (rev h1). rewrite E, rev_app_distr. simpl. rewrite <- !app_assoc. reflexivity.
  - intros a b c (h1 & h2 & E). apply B. exists (rev h2), (rev h1). rewrite E, rev_app_distr. simpl. rewrite <- !app_assoc. reflexivity.
Qed.

Section Half.
Variables (a b : point) (rest : list point).
Let pts := a :: rest.
Hypothesis (Sorted_ : ascending pts).
Hypothesis (Hb : In b pts).
(** [b]: among the points with the largest x, the one with the least y *)
Hypothesis (Hx : forall p, In p pts -> (px p <= px b)%Qc).
Hypothesis (Hy : forall p, In p pts -> px p = px b -> (py b <= py p)%Qc).
Let H := half_hull pts a b.

Lemma half_shape : exists s st, H = a :: s /\ s <> [] /\ H = rev st /\ stack_ok a (filter (fun p => negb (is_left a b p)) pts) st.
Proof using Sorted_ Hb Hx Hy.
  unfold H, half_hull. rewrite fold_add. set (K := filter _ pts). set (st := fold_left push K [a]).
  assert (Ka : exists K', K = a :: K').
  { unfold K, pts. simpl. destruct (is_left a b a) eqn:E; [|eexists; reflexivity]. exfalso. apply left_t in E. rewrite side_a in E. apply (Qclt_not_le _ _ E). apply Qcle_refl. }
  assert (SO : stack_ok a K st).
  { apply chain_full. constructor; [apply ss_filter; exact Sorted_|]. apply Forall_forall. intros x Hin. apply filter_In in Hin. destruct Hin as (Hin & _).
    apply StronglySorted_inv in Sorted_. destruct Sorted_ as (_ & F). destruct Hin as [->|Hin]; [apply lexle_refl|]. rewrite Forall_forall in F. apply F, Hin. }
  destruct (so_bottom _ _ _ SO) as (s & Es). exists (rev s), st. split; [|split; [|split; [reflexivity|exact SO]]].
  - rewrite Es, rev_app_distr. reflexivity.
  - intros E. destruct Ka as (K' & Ek). assert (L := so_len _ _ _ SO). rewrite Ek, Es in L. rewrite app_length in L. apply (f_equal (@length _)) in E. rewrite rev_length in E. simpl in E.
    specialize (L ltac:(discriminate)). simpl in L. clear - L E. lia.
Qed.
Lemma half_in x : In x H -> In x pts.
Proof using Sorted_ Hb Hx Hy.
  destruct half_shape as (s & st & _ & _ & E & SO). intros Hi. rewrite E in Hi. apply in_rev in Hi. apply (so_in _ _ _ SO) in Hi.
  destruct Hi as [<-|Hi]; [left; reflexivity|]. apply filter_In in Hi. apply Hi.
Qed.
Lemma half_chain : chain H.
Proof using Sorted_ Hb Hx Hy.
  destruct half_shape as (s & st & _ & _ & E & SO). apply chain_ok_rev. rewrite E, rev_involutive. apply (so_chain _ _ _ SO).
Qed.
Lemma a_min p : In p pts -> lexle a p.
Proof using Sorted_ Hb Hx Hy.
  intros Hp. apply StronglySorted_inv in Sorted_. destruct Sorted_ as (_ & F). destruct Hp as [->|Hp]; [apply lexle_refl|]. rewrite Forall_forall in F. apply F, Hp.
Qed.
Lemma edge_in h x y : is_edge h x y -> In x h /\ In y h.
Proof. intros (h1 & h2 & ->). split; apply in_app_iff; right; simpl; auto. Qed.
Lemma asc_edge h x y : ascending h -> is_edge h x y -> lexle x y.
Proof.
  intros S (h1 & h2 & ->). induction h1 as [|z h1 IH]; simpl in S; apply StronglySorted_inv in S; destruct S as (S & F); [inversion F; assumption|apply IH; exact S].
Qed.
Lemma lex_x u v : lexle u v -> (px u <= px v)%Qc.
Proof. intros [E|(E & _)]; [apply Qclt_le_weak; exact E|rewrite E; apply Qcle_refl]. Qed.
Lemma above_identity u v m M p :
  ((px M - px m) * side u v p = (px M - px p) * side u v m + (px p - px m) * side u v M + (px v - px u) * side m M p)%Qc.
Proof. unfold side. ring. Qed.
Lemma half_covers x y p : is_edge H x y -> In p pts -> (0 <= side x y p)%Qc.
Proof using Sorted_ Hb Hx Hy.
  intros E Hp. destruct half_shape as (s & st & _ & _ & Est & SO).
  assert (C : forall q, In q pts -> is_left a b q = false -> (0 <= side x y q)%Qc).
  { intros q Hq Lq. assert (A := so_cov _ _ _ SO). rewrite <- (rev_involutive st), <- Est in A. rewrite all_edges_rev in A.
    apply (A x y E). right. apply filter_In. split; [exact Hq|rewrite Lq; reflexivity]. }
  destruct (is_left a b p) eqn:L; [|apply C; assumption]. apply left_t in L.
  assert (Ca : (0 <= side x y a)%Qc) by (apply C; [left; reflexivity|apply left_f; rewrite side_a; apply Qcle_refl]).
  assert (Cb : (0 <= side x y b)%Qc) by (apply C; [exact Hb|apply left_f; rewrite side_b; apply Qcle_refl]).
  assert (Xp : (px p <= px b)%Qc) by (apply Hx; exact Hp). assert (Xa : (px a <= px p)%Qc) by (apply lex_x, a_min; exact Hp).
  assert (Xe : (px x <= px y)%Qc) by (apply lex_x, (asc_edge H); [apply half_chain|exact E]).
  destruct (Qclt_le_dec (px a) (px b)) as [D|D].
  - apply (div_nn (px b - px a)%Qc); [clear - D; qclra|]. rewrite above_identity.
    apply add_nn; [apply add_nn|]; apply mul_nn; try assumption; [clear - Xp; qclra|clear - Xa; qclra|clear - Xe; qclra|apply Qclt_le_weak; exact L].
  - exfalso. assert (Ex : px b = px a) by (apply Qcle_antisym; [exact D|apply (Qcle_trans _ (px p)); assumption]).
    assert (Ey : py b = py a) by (apply Qcle_antisym; [apply Hy; [left; reflexivity|congruence]|]; destruct (a_min b Hb) as [F|(_ & F)]; [exfalso; rewrite Ex in F; apply (Qclt_not_le _ _ F); apply Qcle_refl|exact F]).
    rewrite (side_same_l a b p) in L; [apply (Qclt_not_le _ _ L); apply Qcle_refl|]. split; congruence.
Qed.
Lemma filter_last {A} (f : A -> bool) l d : f d = true -> forall x, f x = true -> In x l -> In (last (filter f l) d) l.
Proof.
  intros _ x Fx Hi. destruct (last_in (filter f l) d) as [E|E].
  - assert (Hf : In x (filter f l)) by (apply filter_In; split; assumption). destruct (exists_last (l := filter f l)) as (l' & z & Ez); [intros N; rewrite N in Hf; contradiction|].
    rewrite Ez, last_snoc. assert (Hz : In z (filter f l)) by (rewrite Ez; apply in_app_iff; right; left; reflexivity). apply filter_In in Hz. apply Hz.
  - apply filter_In in E. apply E.
Qed.
(** the half ends at the x of [b] *)
Lemma half_end : exists s z, H = s ++ [z] /\ In z pts /\ px z = px b /\ ((px a < px b)%Qc -> same z b).
Proof using Sorted_ Hb Hx Hy.
  destruct half_shape as (s & st & Es & Ns & Est & SO). set (K := filter (fun p => negb (is_left a b p)) pts) in *.
  assert (Kb : In b K) by (apply filter_In; split; [exact Hb|]; apply negb_true_iff, left_f; rewrite side_b; apply Qcle_refl).
  assert (T := so_top _ _ _ SO). destruct st as [|z st']; [rewrite Est in Es; discriminate|]. cbn [hd] in T.
  exists (rev st'), z. split; [exact Est|].
  assert (SK : StronglySorted lexle K) by (apply ss_filter; exact Sorted_).
  destruct (exists_last (l := K)) as (K' & w & Ek); [intros N; rewrite N in Kb; contradiction|]. rewrite Ek, last_snoc in T. subst w.
  assert (Zin : In z K) by (rewrite Ek; apply in_app_iff; right; left; reflexivity). apply filter_In in Zin. destruct Zin as (Zin & Zl).
  assert (Lbz : lexle b z). { rewrite Ek in SK, Kb. apply ss_snoc in SK. apply in_app_iff in Kb. destruct Kb as [Kb|[->|[]]]; [apply SK; exact Kb|apply lexle_refl]. }
  assert (Xz : px z = px b). { apply Qcle_antisym; [apply Hx; exact Zin|apply lex_x; exact Lbz]. }
  split; [exact Zin|]. split; [exact Xz|]. intros D. split; [exact Xz|]. apply negb_true_iff, left_f in Zl.
  assert (Yz : (py b <= py z)%Qc) by (apply Hy; assumption). apply Qcle_antisym; [|exact Yz].
  apply Qcnot_lt_le. intros F. assert (P : (0 < (px b - px a) * (py z - py b))%Qc) by (clear - D F; qcnra).
  replace (side a b z) with ((px b - px a) * (py z - py b))%Qc in Zl by (unfold side; rewrite Xz; ring). apply (Qclt_not_le _ _ P Zl).
Qed.
Let e := last rest a.
Lemma e_max p : In p pts -> lexle p e.
Proof using Sorted_. apply ss_last. exact Sorted_. Qed.
Lemma e_x : px e = px b.
Proof using Sorted_ Hb Hx.
  apply Qcle_antisym; [apply Hx; apply last_in|]. apply lex_x, e_max, Hb.
Qed.
(** when the last point is not above, the half ends with it *)
Lemma half_end_last : is_left a b e = false -> exists s, H = s ++ [e].
Proof using Sorted_ Hb Hx Hy.
  intros Le. destruct half_shape as (s & st & Es & Ns & Est & SO). set (K := filter (fun p => negb (is_left a b p)) pts) in *.
  assert (T := so_top _ _ _ SO). destruct st as [|z st']; [rewrite Est in Es; discriminate|]. cbn [hd] in T.
  assert (Ek : exists K', K = K' ++ [e]).
  { assert (Ep : exists q, pts = q ++ [e]).
    { unfold pts, e. clear. destruct rest as [|y r] using rev_ind; [exists []; reflexivity|]. rewrite last_snoc. exists (a :: r). reflexivity. }
    destruct Ep as (q & Ep). unfold K. rewrite Ep, filter_app. simpl. rewrite Le. simpl. eexists. reflexivity. }
  destruct Ek as (K' & Ek). rewrite Ek, last_snoc in T. subst z. exists (rev st'). exact Est.
Qed.
Let E := H ++ [e].
Lemma ext_asc : ascending E.
Proof using Sorted_ Hb Hx Hy.
  apply ss_snoc. split; [apply half_chain|]. intros y Hi. apply e_max, half_in, Hi.
Qed.
Lemma ext_in x : In x E -> In x pts.
Proof using Sorted_ Hb Hx Hy.
  intros Hi. apply in_app_iff in Hi. destruct Hi as [Hi|[<-|[]]]; [apply half_in; exact Hi|apply last_in].
Qed.
Lemma ext_edge x y : is_edge E x y -> is_edge H x y \/ (y = e /\ exists s, H = s ++ [x]).
Proof using Type.
  intros Hi. apply is_edge_app in Hi. destruct Hi as [Hi|[(s & t & A & B)|(h1 & h2 & A)]]; [left; exact Hi| |destruct h1 as [|? [|]]; discriminate].
  injection B as <- _. right. split; [reflexivity|]. exists s. exact A.
Qed.
Lemma end_unique s z : H = s ++ [z] -> In z pts /\ px z = px b /\ ((px a < px b)%Qc -> same z b).
Proof using Sorted_ Hb Hx Hy.
  intros A. destruct half_end as (s' & z' & B & C). rewrite A in B. apply app_inj_tail in B. destruct B as (_ & ->). exact C.
Qed.
Lemma ext_covers x y p : is_edge E x y -> In p pts -> (0 <= side x y p)%Qc.
Proof using Sorted_ Hb Hx Hy.
  intros Hi Hp. apply ext_edge in Hi. destruct Hi as [Hi|(-> & s & A)]; [apply half_covers; assumption|].
  destruct (end_unique _ _ A) as (Zin & Zx & _). assert (Ex := e_x). assert (Px := Hx p Hp).
  assert (Ly : (py x <= py e)%Qc) by (destruct (e_max x Zin) as [F|(_ & F)]; [exfalso; rewrite Zx, Ex in F; apply (Qclt_not_le _ _ F); apply Qcle_refl|exact F]).
  replace (side x e p) with ((py e - py x) * (px b - px p))%Qc by (unfold side; rewrite Zx, Ex; ring).
  apply mul_nn; [clear - Ly; qclra|clear - Px; qclra].
Qed.
(** in a chain, the edges meeting at a point turn to the left *)
Lemma chain_meet h x y y' w : chain h -> is_edge h x y -> is_edge h y' w -> same y y' -> ~ same x y -> ~ same y w -> triple h x y w /\ y = y'.
Proof.
  intros (Asc & Trn) (h1 & h2 & A) (k1 & k2 & B) S N1 N2. rewrite A in B.
  assert (L : length h1 + 1 = length k1 \/ length k1 <= length h1 \/ length h1 + 2 <= length k1) by lia.
  destruct L as [L|[L|L]].
  - assert (C : exists u, h1 ++ [u] = k1 /\ y :: h2 = y' :: w :: k2).
    { exists x. change (h1 ++ x :: y :: h2) with (h1 ++ [x] ++ y :: h2) in B. rewrite app_assoc in B.
      apply app_eq_app in B. destruct B as (l & [(B1 & B2)|(B1 & B2)]).
      - assert (l = []) by (apply length_zero_iff_nil; apply (f_equal (@length _)) in B1; rewrite !app_length in B1; simpl in B1; lia). subst l.
        rewrite app_nil_r in B1. split; [exact B1|symmetry; exact B2].
      - assert (l = []) by (apply length_zero_iff_nil; apply (f_equal (@length _)) in B1; rewrite !app_length in B1; simpl in B1; lia). subst l.
        rewrite app_nil_r in B1. split; [symmetry; exact B1|exact B2]. }
    destruct C as (u & _ & C). injection C as <- C. split; [|reflexivity]. exists h1, k2. rewrite A, C. reflexivity.
  - exfalso. (* y' is not after x *)
    assert (Le : lexle y' x).
    { apply app_eq_app in B. destruct B as (l & [(B1 & B2)|(B1 & B2)]).
      - destruct l as [|z l].
        + simpl in B2. injection B2 as -> _. apply lexle_refl.
        + injection B2 as <- B2. rewrite A, B1 in Asc. clear - Asc. rewrite <- app_assoc in Asc. induction k1 as [|q k1 IH]; simpl in Asc; apply StronglySorted_inv in Asc; destruct Asc as (Asc & F); [|apply IH; exact Asc].
          rewrite Forall_forall in F. apply F. apply in_app_iff. right. left. reflexivity.
      - assert (l = []) by (apply length_zero_iff_nil; apply (f_equal (@length _)) in B1; rewrite app_length in B1; lia). subst l.
        simpl in B2. injection B2 as <- _. apply lexle_refl. }
    apply N1. apply lexle_antisym; [apply (asc_edge h); [exact Asc|exists h1, h2; exact A]|]. apply (lexle_trans _ y'); [apply same_le; exact S|exact Le].
  - exfalso. (* y' is after the point that follows y *)
    assert (C : exists l, h2 = l ++ y' :: w :: k2 /\ l <> [] \/ exists k, h2 = y' :: w :: k).
    { change (h1 ++ x :: y :: h2) with (h1 ++ [x; y] ++ h2) in B. rewrite app_assoc in B. apply app_eq_app in B.
      destruct B as (l & [(B1 & B2)|(B1 & B2)]).
      - assert (l = []) by (apply length_zero_iff_nil; apply (f_equal (@length _)) in B1; rewrite !app_length in B1; simpl in B1; lia). subst l.
        exists []. right. exists k2. symmetry. exact B2.
      - exists l. destruct l as [|z l]; [right; exists k2; exact B2|left; split; [exact B2|discriminate]]. }
    destruct h2 as [|v h2]; [destruct C as (l & [(C & _)|(k & C)]); [destruct l; discriminate|discriminate]|].
    assert (V : lexle v y').
    { destruct C as (l & [(C & Nl)|(k & C)]); [|injection C as -> _; apply lexle_refl]. destruct l as [|v' l]; [contradiction|]. injection C as <- C.
      rewrite A, C in Asc. clear - Asc. induction h1 as [|q h1 IH]; simpl in Asc; apply StronglySorted_inv in Asc; destruct Asc as (Asc & F); [|apply IH; exact Asc].
      apply StronglySorted_inv in Asc. destruct Asc as (Asc & _). apply StronglySorted_inv in Asc. destruct Asc as (_ & F'). rewrite Forall_forall in F'. apply F'. apply in_app_iff. right. left. reflexivity. }
    assert (Tv := Trn x y v ltac:(exists h1, h2; exact A)). apply (proj2 (side_ne _ _ _ Tv)).
    apply lexle_antisym; [apply (asc_edge h); [exact Asc|exists (h1 ++ [x]), h2; rewrite A, <- app_assoc; reflexivity]|].
    apply (lexle_trans _ y'); [exact V|apply same_le, same_sym; exact S].
Qed.
Lemma last_edge h x y z s : chain h -> is_edge h x y -> h = s ++ [z] -> same y z -> y = z \/ False.
Proof.
  intros (Asc & Trn) (h1 & h2 & A) B S. destruct h2 as [|v h2].
  - left. rewrite A in B. change (h1 ++ [x; y]) with (h1 ++ [x] ++ [y]) in B. rewrite app_assoc in B. apply app_inj_tail in B. apply B.
  - right. assert (Tv := Trn x y v ltac:(exists h1, h2; exact A)). apply (proj2 (side_ne _ _ _ Tv)).
    assert (V : lexle v z).
    { destruct (exists_last (l := v :: h2)) as (q & u & Eq); [discriminate|]. assert (Eu : u = z). { rewrite A in B. change (x :: y :: v :: h2) with ([x; y] ++ v :: h2) in B. rewrite Eq, !app_assoc in B. apply app_inj_tail in B. apply B. }
      subst u. rewrite A in Asc. rewrite Eq in Asc. clear - Asc Eq. assert (Hz : In z (v :: h2)) by (rewrite Eq; apply in_app_iff; right; left; reflexivity). rewrite <- Eq in Asc.
      induction h1 as [|r h1 IH]; simpl in Asc; apply StronglySorted_inv in Asc; destruct Asc as (Asc & F); [|apply IH; exact Asc].
      apply StronglySorted_inv in Asc. destruct Asc as (Asc & _). apply StronglySorted_inv in Asc. destruct Asc as (_ & F'). rewrite Forall_forall in F'. destruct Hz as [->|Hz]; [apply lexle_refl|apply F'; exact Hz]. }
    apply lexle_antisym; [apply (asc_edge h); [exact Asc|exists (h1 ++ [x]), h2; rewrite A, <- app_assoc; reflexivity]|].
    apply (lexle_trans _ z); [exact V|apply same_le, same_sym; exact S].
Qed.
Lemma ext_turn x y y' w : (px a < px b)%Qc -> is_edge E x y -> is_edge E y' w -> same y y' -> ~ same x y -> ~ same y w -> (0 < side x y w)%Qc.
Proof using Sorted_ Hb Hx Hy.
  intros D E1 E2 S N1 N2. assert (C := half_chain). assert (Xy := asc_edge _ _ _ ext_asc E1). apply ext_edge in E1. apply ext_edge in E2.
  destruct E1 as [E1|(-> & s1 & E1)], E2 as [E2|(-> & s2 & E2)].
  - destruct (chain_meet H x y y' w C E1 E2 S N1 N2) as (T & ->). apply C. exact T.
  - destruct (last_edge H x y y' s2 C E1 E2 S) as [->|[]]. destruct (end_unique _ _ E2) as (Zin & Zx & Zs). specialize (Zs D).
    assert (Xin : In x pts) by (apply half_in; apply (edge_in H _ _ E1)).
    assert (Xx : (px x < px b)%Qc).
    { assert (F := Hx x Xin). destruct (Qc_eq_dec (px x) (px b)) as [G|G]; [|clear - F G; destruct (Qcle_lt_or_eq _ _ F); [assumption|contradiction]].
      exfalso. apply N1. apply lexle_antisym; [exact Xy|]. right. split; [congruence|]. rewrite (proj2 Zs). apply Hy; assumption. }
    assert (Yw : (py y' < py e)%Qc).
    { destruct (e_max y' Zin) as [F|(_ & F)]; [exfalso; rewrite e_x, Zx in F; apply (Qclt_not_le _ _ F); apply Qcle_refl|].
      destruct (Qcle_lt_or_eq _ _ F) as [G|G]; [exact G|]. exfalso. apply N2. split; [rewrite e_x; exact Zx|exact G]. }
    assert (P : (0 < (px b - px x) * (py e - py y'))%Qc) by (clear - Xx Yw; qcnra).
    replace (side x y' e) with ((px b - px x) * (py e - py y'))%Qc; [exact P|]. unfold side. rewrite e_x, Zx. ring.
  - exfalso. apply N2. apply lexle_antisym; [|apply e_max, half_in; apply (edge_in H _ _ E2)].
    apply (lexle_trans _ y'); [apply same_le; exact S|]. apply (asc_edge H); [apply C|exact E2].
  - exfalso. rewrite E1 in E2. apply app_inj_tail in E2. destruct E2 as (_ & ->). apply N1. apply same_sym. exact S.
Qed.
End Half.
