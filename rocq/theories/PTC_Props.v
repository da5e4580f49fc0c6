(** C50: parent / daughter connections of track candidates *)
From Verif Require Import Base Util SortedObj_Model SortedObj_Spec SortedObj_Proofs PT_Model PT_Spec PT_Proofs PT_Ids PT_Connect PT_Props.
Import PT_Spec.

(** setParentDaughterConnections: candidates without a track are dropped, the others keep everything but their parent and daughters; then
    - i is the parent of j, and j a daughter of i, exactly if track j branches off track i;
    - every candidate has a parent: a candidate, or a primary numbered after the candidates;
    - j has primary q as its parent exactly if it is one of its daughters;
    - tracks that start a tree have the same parent exactly if they start at the same vertex;
    - no daughter is listed twice;
    - a primary is an empty candidate with the tree id of its first daughter *)
Theorem c50_connect w cs : wf w -> holds w cs -> exists cs' ps, connect w cs = Ok (cs', ps) /\
  Forall2 (fun c c' => exists p d, c' = set_dau (set_parent c p) d) (filter valid cs) cs' /\
  (forall i j ci cj ti tj, nth_error cs' i = Some ci -> nth_error cs' j = Some cj -> c_trk ci = Some ti -> c_trk cj = Some tj ->
     (c_parent cj = Z.of_nat i <-> branch_of w ti tj) /\ (In j (c_dau ci) <-> branch_of w ti tj) /\
     ((forall p, ~ branch_of w p ti) -> (forall p, ~ branch_of w p tj) -> (c_parent ci = c_parent cj <-> exists n, starts_at w ti n /\ starts_at w tj n))) /\
  (forall c, In c cs' -> (0 <= c_parent c < Z.of_nat (length cs' + length ps))%Z) /\
  (forall q p j cj, nth_error ps q = Some p -> nth_error cs' j = Some cj -> (c_parent cj = Z.of_nat (length cs' + q) <-> In j (c_dau p))) /\
  (forall c, In c (cs' ++ ps) -> NoDup (c_dau c) /\ forall j, In j (c_dau c) -> j < length cs') /\
  (forall p, In p ps -> c_trk p = None /\ c_key p = (-1)%Z /\ c_clus p = [] /\ c_parent p = (-1)%Z /\
     exists i ci, In i (c_dau p) /\ (forall j, In j (c_dau p) -> i <= j) /\ nth_error cs' i = Some ci /\ c_tree p = c_tree ci).
Proof.
  intros Hw Hc. unfold connect. set (cs0 := map (fun c => set_dau (set_parent c (-1)) []) (filter valid cs)).
  assert (Hv : forall c, In c cs0 -> c_trk c <> None). { intros c Hin. apply in_map_iff in Hin. destruct Hin as (c0 & <- & Hin). apply filter_In in Hin. destruct Hin as (_ & V). unfold valid in V. cbn. destruct (c_trk c0); discriminate. }
  assert (Hc0 : holds w cs0).
  { assert (Ht : map c_trk cs0 = map c_trk (filter valid cs)) by (unfold cs0; rewrite map_map; reflexivity). apply (holds_trks w (filter valid cs)); [exact Ht|]. destruct Hc as (A & B & C). split; [|split].
    - intros t T E. destruct (A t T E) as (c & Hin & Ec). exists c. split; [|exact Ec]. apply filter_In. split; [exact Hin|]. unfold valid. rewrite Ec. reflexivity.
    - intros c t Hin. apply filter_In in Hin. exact (B c t (proj1 Hin)).
    - assert (Nd : NoDup (filter (fun o => match o with Some _ => true | None => false end) (map c_trk cs))).
      { clear -C. induction cs as [|c cs IH]; cbn; [constructor|]. assert (IH' : NoDup (filter (fun o => match o with Some _ => true | None => false end) (map c_trk cs))).
        { apply IH. intros i j ci cj t Hi Hj E1 E2. assert (S i = S j) by (apply (C (S i) (S j) ci cj t); assumption). lia. }
        destruct (c_trk c) as [t|] eqn:Ec; [|exact IH']. constructor; [|exact IH']. intros Hin. apply filter_In in Hin. destruct Hin as (Hin & _). apply in_map_iff in Hin. destruct Hin as (c' & E' & Hin). apply In_nth_error in Hin. destruct Hin as (j & Hj). assert (0 = S j) by (apply (C 0 (S j) c c' t); [reflexivity|exact Hj|exact Ec|exact E']). lia. }
      assert (Ef : map c_trk (filter valid cs) = filter (fun o => match o with Some _ => true | None => false end) (map c_trk cs)). { clear. induction cs as [|c cs IH]; cbn; [reflexivity|]. unfold valid at 1. destruct (c_trk c) eqn:E; cbn; rewrite ?E, IH; reflexivity. }
      rewrite <- Ef in Nd. intros i j ci cj t Hi Hj E1 E2. rewrite NoDup_nth_error in Nd. apply Nd; [rewrite map_length; apply nth_error_Some; congruence|]. rewrite (map_nth_error c_trk i _ Hi), (map_nth_error c_trk j _ Hj). congruence. }
  assert (H0 : forall c, In c cs0 -> c_parent c = (-1)%Z /\ c_dau c = []). { intros c Hin. apply in_map_iff in Hin. destruct Hin as (c0 & <- & _). split; reflexivity. }
  destruct (loop_ok w Hw cs0 Hc0 Hv H0) as ((cs' & ps) & P & D & E & [I1 I2 I3 I4 I5]). cbn [fst snd] in *. exists cs', ps. split; [exact E|].
  assert (Ln : length cs' = length cs0) by (rewrite I1; apply rep_len).
  assert (Nth : forall j cj, nth_error cs' j = Some cj -> j < length cs0 /\ cj = set_dau (set_parent (nth j cs0 dummy) (P j)) (D j)). { intros j cj Hj. assert (Hl : j < length cs0) by (rewrite <- Ln; apply nth_error_Some; congruence). split; [exact Hl|]. rewrite I1, rep_nth in Hj by exact Hl. congruence. }
  assert (At : forall j cj t, nth_error cs' j = Some cj -> c_trk cj = Some t -> at_ cs0 j t). { intros j cj t Hj Et. destruct (Nth j cj Hj) as (Hl & ->). exists (nth j cs0 dummy). split; [apply nth_error_nth'; exact Hl|exact Et]. }
  assert (HP : forall j cj, nth_error cs' j = Some cj -> c_parent cj = P j /\ c_dau cj = D j). { intros j cj Hj. destruct (Nth j cj Hj) as (_ & ->). split; reflexivity. }
  assert (HD : forall j t, at_ cs0 j t -> D j = dl w cs0 t). { intros j t Hj. rewrite (I2 j t Hj). assert (Hl := at_lt cs0 j t Hj). destruct (Nat.ltb_spec j (length cs0)); [reflexivity|lia]. }
  assert (HB : forall j t p, at_ cs0 j t -> branch_of w p t -> P j = Z.of_nat (ix cs0 p) /\ ix cs0 p < length cs0). { intros j t p Hj Hb. rewrite (I3 j t p Hj Hb). assert (Hl := at_lt cs0 j t Hj). destruct (Nat.ltb_spec j (length cs0)); [|lia]. split; [reflexivity|]. destruct Hb as (_ & Tp & _ & _ & X & _). destruct (ix_ok w cs0 Hc0 p Tp X) as (_ & Y). exact (at_lt cs0 _ _ Y). }
  assert (HR : forall j t, at_ cs0 j t -> (forall p, ~ branch_of w p t) -> exists q c, P j = Z.of_nat (length cs0 + q) /\ nth_error ps q = Some c /\ In j (c_dau c)). { intros j t Hj Hr. destruct (I4 j t Hj Hr) as [(_ & A)|A]; [assert (Hl := at_lt cs0 j t Hj); lia|exact A]. }
  (* a track either branches off another or starts a tree *)
  assert (Dec : forall t T, w_trk w t = Some T -> (exists p, branch_of w p t) \/ forall p, ~ branch_of w p t).
  { intros t T ET. destruct (track_len w Hw t T ET) as (_ & L2 & _). destruct (nth_error (t_nodes T) 0) as [n|] eqn:En; [|apply nth_error_None in En; lia]. destruct (node_live w Hw t T _ n ET En) as (o & Eo & _). assert (X := parent_prev w Hw t T n o ET En Eo). destruct (o_prev o); eauto. }
  assert (Decat : forall j, j < length cs0 -> exists t, at_ cs0 j t /\ ((exists p, branch_of w p t) \/ forall p, ~ branch_of w p t)). { intros j Hj. destruct (at_ex cs0 Hv j Hj) as (t & Ht). exists t. split; [exact Ht|]. destruct (at_trk w cs0 Hc0 j t Ht) as (T & ET). exact (Dec t T ET). }
  assert (Prim : forall q c j, nth_error ps q = Some c -> j < length cs0 -> (P j = Z.of_nat (length cs0 + q) <-> In j (c_dau c))).
  { intros q c j Eq Hj. destruct (I5 q c Eq) as (n & o & i & A1 & A2 & A3 & A4 & A5 & A6 & A7). rewrite A4. cbn [c_dau]. split; [|intros Hin; exact (proj1 (A7 j Hin))]. intros Ep. destruct (Decat j Hj) as (t & Ht & [(p & Hp)|Hr]).
    - destruct (HB j t p Ht Hp) as (X & Y). lia.
    - destruct (HR j t Ht Hr) as (q' & c' & X & Y & Z). assert (q' = q) by lia. subst q'. assert (c' = c) by congruence. subst c'. rewrite A4 in Z. exact Z. }
  split; [|split; [|split; [|split; [|split]]]].
  - rewrite I1. unfold rep, cs0. rewrite map_length.
    clear -P D. assert (G : forall l k (f : nat -> cand), (forall i, i < length l -> exists p d, f (k + i) = set_dau (set_parent (nth i l dummy) p) d) -> Forall2 (fun c c' => exists p d, c' = set_dau (set_parent c p) d) l (map f (seq k (length l)))).
    { induction l as [|x l IH]; intros k f Hf; cbn [length seq map]; constructor; [specialize (Hf 0 ltac:(cbn; lia)); rewrite Nat.add_0_r in Hf; exact Hf|]. apply IH. intros i Hi. specialize (Hf (S i) ltac:(cbn; lia)). replace (S k + i) with (k + S i) by lia. exact Hf. }
    apply G. intros i Hi. cbn [plus]. rewrite (nth_indep _ dummy (set_dau (set_parent dummy (-1)) [])) by (rewrite map_length; exact Hi). rewrite (map_nth (fun c => set_dau (set_parent c (-1)) [])). eexists. eexists. reflexivity.
  - intros i j ci cj ti tj Hi Hj Ei Ej. assert (Ai := At i ci ti Hi Ei). assert (Aj := At j cj tj Hj Ej). destruct (HP i ci Hi) as (Pi & Di). destruct (HP j cj Hj) as (Pj & _). rewrite Pi, Pj, Di, (HD i ti Ai). destruct (at_trk w cs0 Hc0 j tj Aj) as (Tj & ETj). assert (Li := at_lt cs0 i ti Ai). assert (Lj := at_lt cs0 j tj Aj). split; [|split].
    + split.
      * intros Ep. destruct (Dec tj Tj ETj) as [(p & Hp)|Hr].
        -- destruct (HB j tj p Aj Hp) as (X & _). assert (Hx : ix cs0 p = i) by lia. assert (Hp' := Hp). destruct Hp' as (_ & Tp & _ & _ & Y & _). destruct (ix_ok w cs0 Hc0 p Tp Y) as (_ & Z). rewrite Hx in Z. rewrite (at_fun cs0 i ti p Ai Z). exact Hp.
        -- destruct (HR j tj Aj Hr) as (q & c & X & _). lia.
      * intros Hb. destruct (HB j tj ti Aj Hb) as (X & _). rewrite X, (at_ix w cs0 Hc0 i ti Ai). reflexivity.
    + rewrite (dl_in w Hw cs0 Hc0 i ti j Ai). split; [intros (v & A & B); rewrite (at_fun cs0 j tj v Aj A); exact B|]. eauto.
    + intros Ri Rj. destruct (HR i ti Ai Ri) as (q & c & X1 & X2 & X3). destruct (HR j tj Aj Rj) as (q' & c' & Y1 & Y2 & Y3). rewrite X1, Y1. destruct (I5 q c X2) as (n & o & k & A1 & A2 & A3 & A4 & A5 & A6 & A7). rewrite A4 in X3. cbn [c_dau] in X3. assert (X3' := X3). apply (pl_in w Hw cs0 Hc0 n o i A1 A2) in X3. destruct X3 as (v & V1 & V2). assert (v = ti) by exact (at_fun cs0 i v ti V1 Ai). subst v. apply (leads_starts w Hw n o ti A1 A2 A3) in V2. split.
      * intros Eq. assert (q' = q) by lia. subst q'. assert (c' = c) by congruence. subst c'. exists n. split; [exact V2|]. rewrite A4 in Y3. cbn [c_dau] in Y3. apply (pl_in w Hw cs0 Hc0 n o j A1 A2) in Y3. destruct Y3 as (v & V3 & V4). assert (v = tj) by exact (at_fun cs0 j v tj V3 Aj). subst v. apply (leads_starts w Hw n o tj A1 A2 A3). exact V4.
      * intros (n' & S1 & S2). assert (n' = n) by (destruct S1 as (T1 & Z1 & Z2), V2 as (T2 & W1 & W2); congruence). subst n'. assert (Hin : In j (pl w cs0 n)) by (apply (pl_in w Hw cs0 Hc0 n o j A1 A2); exists tj; split; [exact Aj|apply (leads_starts w Hw n o tj A1 A2 A3), S2]). destruct (A7 j Hin) as (Z & _). lia.
  - intros c Hin. apply In_nth_error in Hin. destruct Hin as (j & Hj). destruct (HP j c Hj) as (-> & _). destruct (Nth j c Hj) as (Hl & _). rewrite Ln. destruct (Decat j Hl) as (t & Ht & [(p & Hp)|Hr]).
    + destruct (HB j t p Ht Hp) as (-> & X). lia.
    + destruct (HR j t Ht Hr) as (q & c' & -> & X & _). assert (q < length ps) by (apply nth_error_Some; congruence). lia.
  - intros q p j cj Eq Hj. rewrite Ln. destruct (HP j cj Hj) as (-> & _). apply Prim; [exact Eq|exact (proj1 (Nth j cj Hj))].
  - intros c Hin. rewrite Ln. apply in_app_iff in Hin. destruct Hin as [Hin|Hin]; apply In_nth_error in Hin; destruct Hin as (j & Hj).
    + destruct (HP j c Hj) as (_ & ->). destruct (Nth j c Hj) as (Hl & _). destruct (at_ex cs0 Hv j Hl) as (t & Ht). rewrite (HD j t Ht). split; [apply (dl_nodup w Hw cs0 Hc0)|]. intros k Hk. apply (dl_in w Hw cs0 Hc0 j t k Ht) in Hk. destruct Hk as (v & A & _). exact (at_lt cs0 k v A).
    + destruct (I5 j c Hj) as (n & o & k & A1 & A2 & A3 & -> & A5 & A6 & A7). cbn [c_dau]. split; [exact (pl_nodup w Hw cs0 Hc0 n o A1 A2)|]. intros i Hi. apply (pl_in w Hw cs0 Hc0 n o i A1 A2) in Hi. destruct Hi as (v & A & _). exact (at_lt cs0 i v A).
  - intros p Hin. apply In_nth_error in Hin. destruct Hin as (q & Hq). destruct (I5 q p Hq) as (n & o & i & A1 & A2 & A3 & -> & A5 & A6 & A7). cbn. repeat (split; [reflexivity|]). exists i, (set_dau (set_parent (nth i cs0 dummy) (P i)) (D i)). split; [exact A6|]. split; [intros j Hj; exact (proj2 (A7 j Hj))|]. split; [|reflexivity]. rewrite I1. apply rep_nth. exact A5.
Qed.
Print Assumptions c50_connect.

(** the forest of PT_Props: track 2 branches off track 0; 0, 1 and 3 start at vertices 10, 12 and 15 *)
Example c50_nonvacuous : wf ex_w /\ holds ex_w [ex_c 0 5; ex_c 1 6; ex_c 2 5; ex_c 3 7] /\
  match connect ex_w [ex_c 2 5; mkC None 0 9 [] 3 [7]; ex_c 1 6; ex_c 0 5; ex_c 3 7] with
  | Ok (cs', ps) => map c_trk cs' = [Some 2; Some 1; Some 0; Some 3] /\ map c_parent cs' = [2; 4; 5; 6]%Z /\ map c_dau cs' = [[]; []; [0]; []] /\ map c_dau ps = [[1]; [2]; [3]] /\ map c_tree ps = [6; 5; 7]%Z
  | _ => False end.
Proof. split; [exact ex_wf|]. split; [apply ex_holds, Permutation_refl|]. vm_compute. repeat split; reflexivity. Qed.
