(** Properties C92, C94, C95: the searches for TrajCluster vertices. *)
From Verif Require Import Base QcUtil SortUtil TV_Model TV_Spec TV_Kill TV_High TV_Ops TV_Kill2 TV_Ops2 TV_Merge TV_FModel TV_Find TV_Spec3 TV_Find3 TV_Store3 TV_Chk TV_Wit.
From Coq Require Import QArith Qcanon Permutation Lqa Relations.
Import TV_Model TV_FModel.
Local Open Scope nat_scope.

(* ------------------------------------------------------------------ C92 *)
(** Find3DVertices, three planes, every 2D vertex still without a 3D vertex: the new 3D vertices are a
    best-first selection of the matches, and the associations are consistent *)
Theorem find_3D_vertices cut g s : sound 3 s -> (forall x v, is_2V s x v -> v3 v = 0) -> sorts3 (srt g) ->
  exists s' M sel, find3d 3 cut g s = Ok s' /\ sound 3 s' /\ selection cut g s M sel /\
    map tj_shape (tjs s') = map tj_shape (tjs s) /\
    map (fun v => (vid v, vctp v)) (vs s') = map (fun v => (vid v, vctp v)) (vs s) /\ ps s' = ps s /\
    length (ws s') = length (ws s) + length sel /\
    map w_shape (firstn (length (ws s)) (ws s')) = map w_shape (ws s) /\
    (forall i c, nth_error sel i = Some c -> exists w, nth_error (ws s') (length (ws s) + i) = Some w /\
        wid w = S (length (ws s) + i) /\ w2 w = c2 c /\ wire w = cw c /\ prim w = false /\ neu w = false) /\
    (sel <> [] -> forall k w, is_3V s' k w -> wsc w = avg3 s' (w2 w)).
Proof. exact (find3d_ok cut g s). Qed.
Print Assumptions find_3D_vertices.

Lemma avg3_pos s l : (0 < avg3 s l)%Qc.
Proof.
  unfold avg3. destruct (Qclt_le_dec _ _) as [A|A]; [reflexivity|]. eapply Qclt_le_trans; [|exact A]. reflexivity.
Qed.
Lemma fom3_pos g s l pe : (0 <= pe)%Qc -> (0 <= wt g)%Qc -> (0 <= fom3 g s l pe)%Qc.
Proof.
  intros A B. unfold fom3. pose proof (avg3_pos s l) as P. assert (Q : (0 <= wt g / avg3 s l)%Qc).
  { unfold Qcdiv. apply (Qcmult_lt_0_le_reg_r _ _ (avg3 s l) P). rewrite <- Qcmult_assoc, (Qcmult_comm (/ _)), Qcmult_inv_r, Qcmult_1_r, Qcmult_0_l; [exact B|].
    intros Z. rewrite Z in P. discriminate. }
  replace 0%Qc with (0 + 0)%Qc by ring. apply Qcplus_le_compat; auto.
Qed.

(** three-plane matches first: when the wire in the third plane is never negative, a match in all three
    planes loses only against another one that is at least as good *)
Theorem three_planes_first cut g s s' c : sound 3 s -> (forall x v, is_2V s x v -> v3 v = 0) -> sorts3 (srt g) ->
  (0 <= wt g)%Qc -> (forall i j pe kw, m2 g i j = Some (pe, kw) -> (0 <= pe)%Qc /\ (0 <= kw)%Z) ->
  find3d 3 cut g s = Ok s' -> match3 cut g s c ->
  exists k w d, is_3V s' k w /\ match3 cut g s d /\ w2 w = c2 d /\ ~ In 0 (w2 w) /\ shares (c2 c) (w2 w) /\ (csc d <= csc c)%Qc.
Proof.
  intros H H3 Hs Hw Hm E Hc. destruct (find3d_ok cut g s H H3 Hs) as (s1 & M & sel & E1 & S1 & [P1 P2 P3 P4 P5] & _ & _ & _ & _ & _ & P6 & _).
  rewrite E in E1. injection E1 as <-. destruct (P5 c (or_intror Hc)) as (d & D1 & D2 & D3).
  assert (Rc : rank M c = csc c).
  { destruct Hc as (p & q & x & y & z & pe & kw & pe3 & _ & _ & _ & _ & _ & _ & _ & _ & Q & _). unfold rank. rewrite Q. reflexivity. }
  assert (D4 : match3 cut g s d).
  { destruct (P3 d D1) as [F|F]; [|exact F]. exfalso. destruct F as (p & q & x & y & pe & kw & _ & _ & _ & _ & F1 & _ & F2 & F3). destruct (Hm _ _ _ _ F1) as (A & B).
    pose proof (fom3_pos g s (c2 d) pe A Hw) as C. rewrite <- F3 in C. unfold rank in D3 at 1. rewrite F2, (proj2 (Z.leb_le 0 kw) B), Rc in D3. pose proof (P2 c Hc) as D. clear -C D3 D P1.
    assert (X : (M + 1 <= csc c)%Qc). { eapply Qcle_trans; [|exact D3]. rewrite <- (Qcplus_0_l (M + 1)) at 1. apply Qcplus_le_compat; [exact C|apply Qcle_refl]. }
    assert (Y : (M + 1 <= M)%Qc) by (eapply Qcle_trans; eauto). revert Y. apply Qclt_not_le. clear. qclra. }
  destruct (In_nth_error _ _ D1) as (i & Hi). destruct (P6 i d Hi) as (w & W1 & W2 & W3 & _). exists (S (length (ws s) + i)), w, d.
  split; [split; [exact W1|exact W2]|]. split; [exact D4|]. split; [exact W3|]. rewrite W3. split; [|split; [exact D2|]].
  - destruct D4 as (p & q & x & y & z & pe & kw & pe3 & L1 & L2 & (vx & (X1 & X2) & _) & (vy & (Y1 & Y2) & _) & (vz & (Z1 & Z2) & _) & _ & _ & (I0 & I1 & I2 & I3) & _).
    intros F. apply In_nth_error in F. destruct F as (r & F). assert (Hr : r < 3) by (rewrite <- I0; apply nth_error_Some; congruence).
    assert (Nx : x <> 0) by (intros ->; discriminate). assert (Ny : y <> 0) by (intros ->; discriminate). assert (Nz : z <> 0) by (intros ->; discriminate).
    assert (K : r = p \/ r = q \/ r = 3 - p - q) by lia. destruct K as [-> |[-> | ->]]; congruence.
  - assert (Rd : rank M d = csc d).
    { destruct D4 as (p & q & x & y & z & pe & kw & pe3 & _ & _ & _ & _ & _ & _ & _ & _ & Q & _). unfold rank. rewrite Q. reflexivity. }
    rewrite <- Rd, <- Rc. exact D3.
Qed.
Print Assumptions three_planes_first.

(** the claim without the hypothesis on the wire fails: a two-plane match whose wire in the third plane
    is negative is not moved behind the three-plane matches *)
Definition g_neg : f3_geo := F3 (fun _ => true) (fun _ _ => Some (0%Qc, (-2)%Z)) (fun _ _ _ => Some 1%Qc) q10 (isort score_lt) (fun _ _ => q30).
Lemma free_2V : forall x v, is_2V s_2V x v -> v3 v = 0.
Proof. intros x v (H & _). destruct x as [|[|[|[|x]]]]; vm_compute in H; try discriminate; try (injection H as <-; reflexivity). destruct x; discriminate. Qed.
Lemma use_2V g x : In x [1; 2; 3] -> posok g (x - 1) = true -> usable_2V q10 g s_2V (x - 1) x.
Proof.
  intros Hx Hp. unfold usable_2V, is_2V. destruct Hx as [<-|[<-|[<-|[]]]]; (eexists; split; [split; [vm_compute; reflexivity|reflexivity]|]; split; [reflexivity|]; split; [vm_compute; discriminate|exact Hp]).
Qed.
Theorem three_planes_first_refuted : ~ forall cut g s s' c, history cut s -> (forall x v, is_2V s x v -> v3 v = 0) -> sorts3 (srt g) ->
  (0 <= wt g)%Qc -> (forall i j pe kw, m2 g i j = Some (pe, kw) -> (0 <= pe)%Qc) ->
  find3d 3 cut g s = Ok s' -> match3 cut g s c -> exists k w, is_3V s' k w /\ ~ In 0 (w2 w) /\ shares (c2 c) (w2 w).
Proof.
  intros F. set (s' := run (find3d 3 q10 g_neg s_2V)).
  set (c := C3 [1; 2; 3] (-1)%Z (fom3 g_neg s_2V [1; 2; 3] 1)).
  destruct (F q10 g_neg s_2V s' c (hist_2V q10) free_2V sorts_score) as (k & w & (W1 & W2) & W3 & _).
  - vm_compute. discriminate.
  - intros i j pe kw E. simpl in E. injection E as <- <-. apply Qcle_refl.
  - apply run_ok. vm_compute. reflexivity.
  - exists 0, 1, 1, 2, 3, 0%Qc, (-2)%Z, 1%Qc. split; [lia|]. split; [lia|]. split; [apply (use_2V g_neg 1); simpl; auto|]. split; [apply (use_2V g_neg 2); simpl; auto|].
    split; [apply (use_2V g_neg 3); simpl; auto|]. split; [reflexivity|]. split; [reflexivity|]. split; [|split; reflexivity]. unfold in_planes, c. simpl. auto.
  - assert (K : map w2 (ws s') = [[1; 2; 0]] \/ map w2 (ws s') = [[0; 2; 3]] \/ map w2 (ws s') = [[1; 0; 3]]) by (vm_compute; auto). clearbody s'.
    assert (Hin : In (w2 w) (map w2 (ws s'))) by (apply in_map; destruct k; [discriminate|eapply nth_error_In; exact W1]).
    apply W3. destruct K as [K|[K|K]]; rewrite K in Hin; destruct Hin as [<-|[]]; simpl; auto.
Qed.
Print Assumptions three_planes_first_refuted.

(** the claim "the high-score flags after Find3DVertices are those of the stored 3D vertices" fails:
    candidates that lose leave their flags behind (ScoreVertices, called next, repairs them: C93) *)
Definition g_lose : f3_geo := F3 (fun _ => true)
  (fun i j => if (i =? 0) && (j =? 1) then Some (0%Qc, 7%Z) else if (i =? 0) && (j =? 2) then Some (1%Qc, 7%Z) else None) (fun _ _ _ => None) q10 (isort score_lt) (fun _ _ => q30).
Theorem flags_after_find3D_refuted : ~ forall cut g s s', history cut s -> (forall x v, is_2V s x v -> v3 v = 0) -> sorts3 (srt g) ->
  find3d 3 cut g s = Ok s' -> forall x v, is_2V s' x v -> vhi v = true -> exists u, high_seed cut s' u /\ connected s' u x.
Proof.
  intros F. set (s' := run (find3d 3 q10 g_lose s_2V)).
  assert (E : find3d 3 q10 g_lose s_2V = Ok s') by (apply run_ok; vm_compute; reflexivity).
  assert (K : map w2 (ws s') = [[1; 2; 0]]) by (vm_compute; reflexivity).
  assert (Z : forallb (fun t => e1 t =? 0) (tjs s') = true) by (vm_compute; reflexivity).
  assert (Q : exists v, is_2V s' 3 v /\ vhi v = true) by (unfold is_2V; eexists; split; [split; [vm_compute; reflexivity|reflexivity]|reflexivity]). clearbody s'.
  destruct Q as (v & V1 & V2). destruct (F q10 g_lose s_2V s' (hist_2V q10) free_2V sorts_score E 3 v V1 V2) as (u & (U0 & k & w & (W1 & W2) & _ & U1) & C).
  assert (Hin : In (w2 w) (map w2 (ws s'))) by (apply in_map; destruct k; [discriminate|eapply nth_error_In; exact W1]). rewrite K in Hin. destruct Hin as [Hin|[]]. rewrite <- Hin in U1.
  assert (L : forall x y, linked s' x y -> x = y).
  { intros x y (j & t & (T1 & _) & (X0 & X1) & (Y0 & Y1)).
    rewrite forallb_forall in Z. destruct j as [|j]; [discriminate|]. specialize (Z t (nth_error_In _ _ T1)). apply Nat.eqb_eq in Z. destruct X1, Y1; congruence. }
  assert (Eq : u = 3). { clear -C L. induction C as [x y H|x|x y z _ A _ B]; [apply L, H|reflexivity|congruence]. }
  subst u. simpl in U1. destruct U1 as [U1|[U1|[U1|[]]]]; congruence.
Qed.
Print Assumptions flags_after_find3D_refuted.

(** the claim "Find3DVertices keeps the associations consistent whatever was done before" fails: run
    again, it gives the 2D vertices to new 3D vertices and the old ones keep them as well *)
Theorem find3D_again_refuted : ~ forall cut g s s', history cut s -> sorts3 (srt g) -> find3d 3 cut g s = Ok s' ->
  forall k w p x, is_3V s' k w -> nth_error (w2 w) p = Some x -> x <> 0 -> exists v, is_2V s' x v /\ v3 v = k.
Proof.
  intros F.
  assert (E : find3d 3 q10 g_three s_3V = Ok (run (find3d 3 q10 g_three s_3V))) by (apply run_ok; vm_compute; reflexivity).
  assert (K : map v3 (vs (run (find3d 3 q10 g_three s_3V))) = [2; 2; 2]) by (vm_compute; reflexivity).
  assert (K2 : map w_shape (ws (run (find3d 3 q10 g_three s_3V))) = [(1, [1; 2; 3]); (2, [1; 2; 3])]) by (vm_compute; reflexivity).
  revert E K K2. generalize (run (find3d 3 q10 g_three s_3V)). intros s' E K K2.
  assert (Q : exists w, is_3V s' 1 w /\ nth_error (w2 w) 0 = Some 1).
  { destruct (ws s') as [|w l] eqn:Ew; [discriminate|]. injection K2 as A B _. exists w. rewrite B. split; [|reflexivity]. split; [unfold nth1; rewrite Ew; reflexivity|exact A]. }
  destruct Q as (w & W1 & W2). destruct (F q10 g_three s_3V s' hist_3V sorts_score E 1 w 0 1 W1 W2) as (v & (V1 & _) & V3); [discriminate|].
  change (nth_error (vs s') 0 = Some v) in V1. apply (map_nth_error v3) in V1. rewrite K in V1. simpl in V1. congruence.
Qed.
Print Assumptions find3D_again_refuted.

(** in a detector with two planes any match writes past the end of the list of 2D vertices *)
Lemma foreach_stuck {A St} (l : list A) (body : St -> A -> outcome St) s0 : (forall a, In a l -> body s0 a = Ok s0 \/ body s0 a = Undef) ->
  (foreach l body s0 = Ok s0 /\ forall a, In a l -> body s0 a = Ok s0) \/ (foreach l body s0 = Undef).
Proof.
  induction l as [|a l IH]; intros H; cbn [foreach].
  - left. split; [reflexivity|]. intros a [].
  - destruct (H a (or_introl eq_refl)) as [E|E]; rewrite E; cbn [obind]; [|auto]. destruct IH as [(I1 & I2)|I]; [intros b Hb; apply H; right; exact Hb| |auto].
    left. split; [exact I1|]. intros b [<-|Hb]; auto.
Qed.
Theorem two_plane_detector_undef cut g s x y r : sound 2 s -> usable_2V cut g s 0 x -> usable_2V cut g s 1 y ->
  m2 g (x - 1) (y - 1) = Some r -> find3d 2 cut g s = Undef.
Proof.
  intros H (vx & (X1 & X2) & X3 & X4 & X5) (vy & (Y1 & Y2) & Y3 & Y4 & Y5) Hm.
  destruct x as [|i]; [discriminate|]. destruct y as [|j]; [discriminate|]. simpl in X1, Y1. rewrite !Nat.sub_succ, !Nat.sub_0_r in *.
  assert (Iv : forall p k v, nth_error (vs s) k = Some v -> vid v = S k -> vctp v mod 10 = p -> In k (vindex s p)).
  { intros p k v A B C. unfold vindex. apply filter_In. split; [apply in_seq; split; [lia|]; simpl; apply nth_error_Some; congruence|]. rewrite A, B. unfold plane. rewrite C, Nat.eqb_refl. reflexivity. }
  assert (I0 : In i (vindex s 0)) by eauto. assert (I1 : In j (vindex s 1)) by eauto.
  assert (U : forall k v, nth_error (vs s) k = Some v -> vid v = S k -> (cut <= vsc v)%Qc -> posok g k = true -> usable cut g s k = true).
  { intros k v A B C D. unfold usable. rewrite A, B, D. unfold qlt. destruct (Qclt_le_dec _ _) as [Q|Q]; [exfalso; exact (Qclt_not_le _ _ Q C)|reflexivity]. }
  assert (U0 : usable cut g s i = true) by eauto. assert (U1 : usable cut g s j = true) by eauto.
  assert (Vv : forall p k, In k (vindex s p) -> exists v, nth_error (vs s) k = Some v /\ vid v = S k /\ vctp v mod 10 = p).
  { intros p k Hk. unfold vindex in Hk. apply filter_In in Hk. destruct Hk as (_ & Hk). destruct (nth_error (vs s) k) as [v|] eqn:E; [|discriminate]. apply andb_true_iff in Hk. destruct Hk as (A & B).
    exists v. split; [auto|]. destruct (s_vid 2 s H k v E) as [Z|Z]; [rewrite Z in A; discriminate|]. split; [auto|]. apply Nat.eqb_eq in B. exact B. }
  assert (V2 : vindex s 2 = []).
  { destruct (vindex s 2) as [|k l] eqn:E; [reflexivity|]. destruct (Vv 2 k) as (v & A & _ & C); [rewrite E; simpl; auto|]. pose proof (s_pl 2 s H v (nth_error_In _ _ A)). lia. }
  assert (Pair : forall k l, In k (vindex s 0) -> In l (vindex s 1) -> f3_pair 2 cut g 0 k 1 (s, [], 0%Qc) l = Ok (s, [], 0%Qc) \/ f3_pair 2 cut g 0 k 1 (s, [], 0%Qc) l = Undef).
  { intros k l Hk Hl. unfold f3_pair. destruct (negb (usable cut g s l)); [auto|]. destruct (m2 g k l) as [(pe, kw)|]; [|auto]. right.
    destruct (Vv 0 k Hk) as (v & A & _). destruct (Vv 1 l Hl) as (u & B & _). rewrite (idx_some _ _ _ A), (idx_some _ _ _ B). cbn [obind]. reflexivity. }
  assert (Bad : f3_pair 2 cut g 0 i 1 (s, [], 0%Qc) j = Undef).
  { unfold f3_pair. rewrite U1. cbn [negb]. rewrite Hm. destruct r as (pe, kw). rewrite (idx_some _ _ _ X1), (idx_some _ _ _ Y1). cbn [obind]. reflexivity. }
  set (inner := fun (st : f3_state) i => if negb (usable cut g (fst (fst st)) i) then Ok st
      else foreach (seq (0 + 1) (2 - 0)) (fun st jpl => foreach (vindex s jpl) (f3_pair 2 cut g 0 i jpl) st) st).
  assert (InE : forall k, inner (s, [], 0%Qc) k = if negb (usable cut g s k) then Ok (s, [], 0%Qc) else foreach (vindex s 1) (f3_pair 2 cut g 0 k 1) (s, [], 0%Qc)).
  { intros k. unfold inner. cbn [fst]. destruct (negb (usable cut g s k)); [reflexivity|]. cbn [seq Nat.add Nat.sub foreach]. rewrite V2. cbn [foreach]. destruct (foreach (vindex s 1) _ _) as [[[a b] c]| |]; reflexivity. }
  assert (St : foreach (vindex s 0) inner (s, [], 0%Qc) = Undef).
  { destruct (foreach_stuck (vindex s 0) inner (s, [], 0%Qc)) as [(_ & K)|K]; [| |exact K].
    - intros k Hk. rewrite InE. destruct (negb (usable cut g s k)); [auto|]. destruct (foreach_stuck (vindex s 1) (f3_pair 2 cut g 0 k 1) (s, [], 0%Qc)) as [(K & _)|K]; [intros l Hl; apply Pair; auto|auto|auto].
    - specialize (K i I0). rewrite InE, U0 in K. cbn [negb] in K.
      destruct (foreach_stuck (vindex s 1) (f3_pair 2 cut g 0 i 1) (s, [], 0%Qc)) as [(_ & K')|K']; [intros l Hl; apply Pair; auto| |].
      + specialize (K' j I1). rewrite Bad in K'. discriminate.
      + rewrite K' in K. discriminate. }
  assert (Cd : f3_cands 2 cut g s = Undef).
  { unfold f3_cands. cbn [foreach]. change (foreach (vindex s 0) _ (s, [], 0%Qc)) with (foreach (vindex s 0) inner (s, [], 0%Qc)). rewrite St. reflexivity. }
  unfold find3d. assert (Ne : i <> j) by (intros ->; assert (vx = vy) by congruence; subst; congruence).
  assert (L : 2 <= length (vs s)) by (assert (i < length (vs s)) by (apply nth_error_Some; congruence); assert (j < length (vs s)) by (apply nth_error_Some; congruence); lia).
  destruct (length (vs s) <? 2) eqn:E; [apply Nat.ltb_lt in E; lia|]. unfold for_. cbn [seq foreach idx nth_error obind].
  destruct (vindex s 0) as [|a0 l0]; [destruct I0|]. destruct (vindex s 1) as [|a1 l1]; [destruct I1|]. cbn [obind Nat.ltb Nat.leb]. rewrite Cd. reflexivity.
Qed.
Print Assumptions two_plane_detector_undef.

Example find3d_example : sound 3 s_2V /\ (forall x v, is_2V s_2V x v -> v3 v = 0) /\ sorts3 (srt g_three) /\
  (exists c, match3 q10 g_three s_2V c) /\ (exists c, match2 q10 g_three s_2V c) /\ exists s', find3d 3 q10 g_three s_2V = Ok s' /\ map w2 (ws s') = [[1; 2; 3]].
Proof.
  split; [apply (history_sound q10), hist_2V|]. split; [exact free_2V|]. split; [exact sorts_score|]. split; [|split].
  - exists (C3 [1; 2; 3] (-1)%Z (fom3 g_three s_2V [1; 2; 3] 0)), 0, 1, 1, 2, 3, 0%Qc, 7%Z, 0%Qc. split; [lia|]. split; [lia|]. split; [apply (use_2V g_three 1); simpl; auto|]. split; [apply (use_2V g_three 2); simpl; auto|].
    split; [apply (use_2V g_three 3); simpl; auto|]. split; [reflexivity|]. split; [reflexivity|]. split; [|split; reflexivity]. unfold in_planes. simpl. auto.
  - exists (C3 [1; 2; 0] 7%Z (fom3 g_three s_2V [1; 2; 0] 0)), 0, 1, 1, 2, 0%Qc, 7%Z. split; [lia|]. split; [lia|]. split; [apply (use_2V g_three 1); simpl; auto|]. split; [apply (use_2V g_three 2); simpl; auto|].
    split; [reflexivity|]. split; [|split; reflexivity]. unfold in_planes. simpl. auto.
  - exists (run (find3d 3 q10 g_three s_2V)). split; [apply run_ok|]; vm_compute; reflexivity.
Qed.
