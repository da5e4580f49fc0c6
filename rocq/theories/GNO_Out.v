(** Closed forms of the loops of produce. *)
From Coq Require Import QArith Qcanon Lqa.
From Verif Require Import Base QcUtil Solver_Model Solver_Proofs GNO_Model GNO_Spec GNO_Proofs GNO_Props.
Import GNO_Model GNO_Spec.
Local Open Scope nat_scope.

Lemma for_ok_seq {S} (P : nat -> S -> Prop) (body : S -> nat -> outcome S) n : forall k s s',
  for_ (seq k n) body s = Ok s' -> P k s -> (forall i a b, k <= i < k + n -> P i a -> body a i = Ok b -> P (Datatypes.S i) b) -> P (k + n) s'.
Proof.
  induction n as [|n IH]; intros k s s' H HP HS; cbn [seq for_] in H.
  - injection H as <-. rewrite Nat.add_0_r. exact HP.
  - destruct (body s k) as [a| |] eqn:Eb; cbn [obind] in H; try discriminate H.
    replace (k + Datatypes.S n) with (Datatypes.S k + n) by lia. apply (IH (Datatypes.S k) a s' H).
    + apply (HS k s a); [lia|exact HP|exact Eb].
    + intros i x y Hi. apply HS. lia.
Qed.
Lemma for_rev_inv {S} (P : nat -> S -> Prop) (body : S -> nat -> outcome S) m : forall s,
  P m s -> (forall i s, i < m -> P (Datatypes.S i) s -> exists s', body s i = Ok s' /\ P i s') -> exists s', for_ (rev (seq 0 m)) body s = Ok s' /\ P 0 s'.
Proof.
  induction m as [|m IH]; intros s H0 HS; [exists s; auto|].
  rewrite seq_S, rev_app_distr. cbn [rev app plus for_].
  destruct (HS m s) as (s1 & E1 & H1); [lia|exact H0|]. rewrite E1. cbn [obind]. apply IH; [exact H1|]. intros i x Hi. apply HS. lia.
Qed.
Lemma foreach_fold {A S} (body : S -> A -> outcome S) (f : S -> A -> S) l : forall s, (forall x s, In x l -> body s x = Ok (f s x)) -> foreach l body s = Ok (fold_left f l s).
Proof.
  induction l as [|x l IH]; intros s H; [reflexivity|]. cbn [foreach fold_left]. rewrite H by (left; reflexivity). cbn [obind]. apply IH. intros y s' Hy. apply H. right. exact Hy.
Qed.
Lemma fold_snoc {A B} (f : A -> B) l : forall a, fold_left (fun acc x => acc ++ [f x]) l a = a ++ map f l.
Proof. induction l as [|x l IH]; intros a; cbn; [rewrite app_nil_r; reflexivity|]. rewrite IH, <- app_assoc. reflexivity. Qed.
Lemma fold_sum {A} (f : A -> Qc) l : forall a, fold_left (fun s x => (s + f x)%Qc) l a = (a + qsum f l)%Qc.
Proof. induction l as [|x l IH]; intros a; cbn [fold_left]; [unfold qsum; cbn [fold_right]; ring|]. rewrite IH, qsum_cons. ring. Qed.

Lemma qsum_one {A} (f : A -> Qc) x : qsum f [x] = f x.
Proof. unfold qsum. cbn [fold_right]. ring. Qed.

Section Plane.
Variables (e : env) (hs : hits) (t : track) (t0 : Qc).
Definition hd0 : hit * Z := (Hit 0 0 0 0 0 0 0 0 0 0, 0%Z).
Definition hh (i : nat) : hit := fst (nth i hs hd0).
Definition mm (i : nat) : Z := snd (nth i hs hd0).
Definition p_loc (o : org) : vec := location e t (hh (fst o)) (mm (fst o)).
Definition p_pitch (o : org) : Qc := pitch e t (hh (fst o)) (mm (fst o)).
Definition p_charge (o : org) : Qc := charge e (hh (fst o)) (map hh (snd o)).
Definition p_ef (o : org) : Qc := efield e t (hh (fst o)) (mm (fst o)).
Definition p_phi (o : org) : Qc := e_acos e (qabs (vx (t_dir t (mm (fst o))))).
Definition p_dq (o : org) : Qc := normalize e (e_quot e (p_charge o) (p_pitch o)) (hh (fst o)) (t_loc t (mm (fst o))) (t_dir t (mm (fst o))) t0.
Definition p_de (o : org) : Qc :=
  if e_method e =? 0 then e_amp e (p_dq o) (h_peak (hh (fst o))) (h_plane (hh (fst o))) t0 (p_ef o) (p_phi o) else e_area e (p_dq o) (h_peak (hh (fst o))) (h_plane (hh (fst o))) t0 (p_ef o) (p_phi o).
Definition p_key (o : org) : nat := h_key (hh (fst o)).
Definition step_of (l : list vec) (w : vec) : Qc := match rev l with [] => 0%Qc | b :: _ => e_norm e (vsub w b) end.
Fixpoint steps (v : vec) (l : list vec) : list Qc := match l with [] => [] | w :: r => e_norm e (vsub w v) :: steps w r end.
Definition lens (l : list vec) : list Qc := match l with [] => [] | v :: r => 0%Qc :: steps v r end.
Lemma rev_case {A} (l : list A) : l = [] \/ exists l' x, l = l' ++ [x].
Proof. destruct l as [|a l]; [left; reflexivity|right]. destruct (exists_last (l := a :: l)) as (l' & x & ->); [discriminate|]. exists l', x. reflexivity. Qed.
Lemma lens_snoc l w : lens (l ++ [w]) = lens l ++ [step_of l w].
Proof.
  destruct l as [|v l]; [reflexivity|]. cbn [lens app]. f_equal. revert v. induction l as [|x l IH]; intros v; [reflexivity|].
  cbn [app steps]. f_equal. rewrite IH. f_equal. f_equal. unfold step_of.
  replace (rev (v :: x :: l)) with (rev (x :: l) ++ [v]) by reflexivity. destruct (rev (x :: l)) eqn:Er; [|reflexivity]. apply (f_equal (@length _)) in Er. rewrite rev_length in Er. discriminate Er.
Qed.
Lemma lens_length l : length (lens l) = length l.
Proof. destruct l as [|v l]; [reflexivity|]. cbn [lens length]. f_equal. revert v. induction l as [|x l IH]; intros v; [reflexivity|]. cbn. rewrite IH. reflexivity. Qed.

Definition acc_of (os : list org) : acc :=
  Acc (qsum (fun o => p_de o * p_pitch o)%Qc os) (map p_de os) (map p_dq os) (map p_pitch os) (map p_loc os) (map p_key os) (map p_ef os) (map p_phi os) (lens (map p_loc os)).
Definition in_range_org (o : org) : Prop := forall i, In i (members o) -> i < length hs.

Lemma idx_hs i : i < length hs -> idx hs i = Ok (hh i, mm i).
Proof. intros H. rewrite (idx_ok hs i hd0 H). unfold hh, mm. rewrite <- surjective_pairing. reflexivity. Qed.

Lemma one_eq os o : in_range_org o -> one e hs t t0 (acc_of os) o = Ok (acc_of (os ++ [o])).
Proof.
  intros R. unfold one.
  rewrite (foreach_fold _ (fun l j => l ++ [hh j])).
  2:{ intros j l Hj. rewrite idx_hs by (apply R; right; exact Hj). reflexivity. }
  cbn [obind]. rewrite fold_snoc. cbn [app]. rewrite idx_hs by (apply R; left; reflexivity). cbn [obind fst snd]. unfold acc_of at 1 2 3 4 5 6 7 8 9 10.
  cbn [a_ke a_dedx a_dqdx a_pitch a_xyz a_tp a_ef a_phi a_len]. unfold acc_of. rewrite !map_app. cbn [map]. rewrite lens_snoc, qsum_app, qsum_one.
  reflexivity.
Qed.
Lemma foreach_one os : Forall in_range_org os -> foreach os (one e hs t t0) (Acc 0%Qc [] [] [] [] [] [] [] []) = Ok (acc_of os).
Proof.
  intros F. assert (G : forall done, foreach os (one e hs t t0) (acc_of done) = Ok (acc_of (done ++ os))).
  { induction os as [|o os IH]; intros done; cbn [foreach]; [rewrite app_nil_r; reflexivity|]. apply Forall_cons_iff in F. destruct F as [F1 F2].
    rewrite one_eq by exact F1. cbn [obind]. rewrite (IH F2), <- app_assoc. reflexivity. }
  exact (G []).
Qed.

(** the residual ranges *)
Lemma res_down_ok ls : 1 < length ls -> exists r, res_down ls = Ok r /\ length r = length ls /\ nth (length ls - 1) r 0%Qc = half (nth (length ls - 1) ls 0%Qc) /\
  forall k, S k < length ls -> nth k r 0%Qc = (nth (S k) r 0 + nth (S k) ls 0)%Qc.
Proof.
  intros HL. unfold res_down. set (n := length ls). assert (Hn : 1 < n) by exact HL. rewrite set_idx_ok by (rewrite repeat_length; lia). cbn [obind].
  unfold range. rewrite Nat.sub_0_r.
  set (P := fun (i : nat) (r : list Qc) => length r = n /\ nth (n - 1) r 0%Qc = half (nth (n - 1) ls 0%Qc) /\ forall k, i <= k -> S k < n -> nth k r 0%Qc = (nth (S k) r 0 + nth (S k) ls 0)%Qc).
  match goal with |- context [for_ _ ?b ?s0] => destruct (for_rev_inv P b (n - 1) s0) as (s & Es & HP) end.
  - split; [rewrite upd_length, repeat_length; reflexivity|]. split; [|intros k H1 H2; lia]. rewrite nth_upd_rep by (rewrite repeat_length; lia). rewrite Nat.eqb_refl. reflexivity.
  - intros i r Hi (L & X & Y). rewrite (idx_ok r (i + 1) 0%Qc) by lia. cbn [obind]. rewrite (idx_ok ls (i + 1) 0%Qc) by (fold n; lia). cbn [obind]. rewrite set_idx_ok by lia.
    eexists. split; [reflexivity|]. split; [rewrite upd_length; exact L|]. split; [rewrite nth_upd_rep by lia; destruct (Nat.eqb_spec (n - 1) i); [lia|exact X]|].
    intros k H1 H2. rewrite !nth_upd_rep by lia. destruct (Nat.eqb_spec (S k) i); [lia|]. destruct (Nat.eqb_spec k i) as [D | D]; [rewrite D, Nat.add_1_r; reflexivity|apply Y; lia].
  - exists s. split; [exact Es|]. destruct HP as (A & B & C). split; [exact A|]. split; [exact B|]. intros k Hk. apply C; lia.
Qed.
Lemma res_up_ok ls : 1 < length ls -> exists r, res_up ls = Ok r /\ length r = length ls /\ nth 0 r 0%Qc = half (nth 1 ls 0%Qc) /\
  forall k, S k < length ls -> nth (S k) r 0%Qc = (nth k r 0 + nth (S k) ls 0)%Qc.
Proof.
  intros HL. unfold res_up. set (n := length ls). assert (Hn : 1 < n) by exact HL. rewrite (idx_ok ls 1 0%Qc HL). cbn [obind]. rewrite set_idx_ok by (rewrite repeat_length; lia). cbn [obind].
  set (P := fun (i : nat) (r : list Qc) => length r = n /\ nth 0 r 0%Qc = half (nth 1 ls 0%Qc) /\ forall k, S k < i -> nth (S k) r 0%Qc = (nth k r 0 + nth (S k) ls 0)%Qc).
  match goal with |- context [for_ (range 1 n) ?b ?s0] => destruct (for_range_inv P b 1 n s0) as (s & Es & HP) end.
  - lia.
  - split; [rewrite upd_length, repeat_length; reflexivity|]. split; [|intros k H1; lia]. rewrite nth_upd_rep by (rewrite repeat_length; lia). reflexivity.
  - intros i r Hi (L & X & Y). rewrite (idx_ok r (i - 1) 0%Qc) by lia. cbn [obind]. rewrite (idx_ok ls i 0%Qc) by (fold n; lia). cbn [obind]. rewrite set_idx_ok by lia.
    eexists. split; [reflexivity|]. split; [rewrite upd_length; exact L|]. split; [rewrite nth_upd_rep by lia; destruct (Nat.eqb_spec 0 i); [lia|exact X]|].
    intros k H1. rewrite !nth_upd_rep by lia. destruct (Nat.eqb_spec k i); [lia|]. destruct (Nat.eqb_spec (S k) i) as [D | D]; [rewrite <- D; replace (S k - 1) with k by lia; reflexivity|apply Y; lia].
  - exists s. split; [exact Es|]. exact HP.
Qed.

(** one plane *)
Definition res_of (os : list org) (r : list Qc) : Prop :=
  let xs := map p_loc os in let ls := lens xs in
  length r = length os /\
  (if downstream e t (nth 0 xs (V 0 0 0)) (nth (length xs - 1) xs (V 0 0 0))
   then nth (length ls - 1) r 0%Qc = half (nth (length ls - 1) ls 0%Qc) /\ forall k, S k < length ls -> nth k r 0%Qc = (nth (S k) r 0 + nth (S k) ls 0)%Qc
   else nth 0 r 0%Qc = half (nth 1 ls 0%Qc) /\ forall k, S k < length ls -> nth (S k) r 0%Qc = (nth k r 0 + nth (S k) ls 0)%Qc).
Lemma one_plane_ok orgs p os : nth_error orgs p = Some os -> Forall in_range_org os ->
  (length os <= 1 -> one_plane e hs t t0 orgs p = Ok (Calo (e_bogus e) [] [] [] [] (e_bogus e) [] [] [] (e_cryo e, 0, p) [] [])) /\
  (1 < length os -> exists r, res_of os r /\
     one_plane e hs t t0 orgs p = Ok (Calo (qsum (fun o => p_de o * p_pitch o)%Qc os) (map p_de os) (map p_dq os) r [] (qsum (fun x => x) (lens (map p_loc os))) (map p_pitch os) (map p_loc os) (map p_key os) (e_cryo e, 0, p) (map p_ef os) (map p_phi os))).
Proof.
  intros N F. assert (Xi : idx orgs p = Ok os) by (unfold idx; rewrite N; reflexivity). unfold one_plane. rewrite Xi. cbn [obind]. rewrite (foreach_one os F). cbn [obind]. unfold acc_of. cbn [a_ke a_dedx a_dqdx a_pitch a_xyz a_tp a_ef a_phi a_len].
  rewrite lens_length, map_length. split; intros HL.
  - replace (1 <? length os) with false by (symmetry; apply Nat.ltb_ge; exact HL). reflexivity.
  - replace (1 <? length os) with true by (symmetry; apply Nat.ltb_lt; exact HL).
    rewrite (idx_ok (map p_loc os) 0 (V 0 0 0)) by (rewrite map_length; lia). cbn [obind]. rewrite (idx_ok (map p_loc os) (length os - 1) (V 0 0 0)) by (rewrite map_length; lia). cbn [obind].
    assert (LL : length (lens (map p_loc os)) = length os) by (rewrite lens_length, map_length; reflexivity).
    assert (L1 : 1 < length (lens (map p_loc os))) by (rewrite LL; exact HL).
    assert (Sum : forall l, fold_left Qcplus l 0%Qc = qsum (fun x => x) l) by (intros l; change (fold_left Qcplus l 0%Qc) with (fold_left (fun s x => (s + x)%Qc) l 0%Qc); rewrite (fold_sum (fun x => x) l 0%Qc); ring).
    rewrite Sum. unfold res_of. rewrite map_length.
    destruct (downstream e t (nth 0 (map p_loc os) (V 0 0 0)) (nth (length os - 1) (map p_loc os) (V 0 0 0))) eqn:D.
    + destruct (res_down_ok _ L1) as (r & Er & A & B & C). rewrite Er. cbn [obind]. exists r. split; [split; [rewrite A; exact LL|split; [exact B|exact C] ]|reflexivity].
    + destruct (res_up_ok _ L1) as (r & Er & A & B & C). rewrite Er. cbn [obind]. exists r. split; [split; [rewrite A; exact LL|split; [exact B|exact C] ]|reflexivity].
Qed.
End Plane.

Lemma organized_in_range e hs t ret p os : organize e hs t = Ok ret -> nth_error ret p = Some os -> Forall (in_range_org hs) os.
Proof.
  intros H N. destruct (C141_partition e hs t) as (_ & _ & HC). destruct (HC ret H) as [_ HC']. destruct (HC' p os N) as (_ & HIn & _).
  apply Forall_forall. intros o Ho i Hi. destruct (proj1 (HIn i)) as (h & m & X & _). { apply in_flat_map. exists o. auto. }
  apply nth_error_Some. congruence.
Qed.
Lemma one_plane_total e hs t t0 ret p : organize e hs t = Ok ret -> p < e_np e -> exists c, one_plane e hs t t0 ret p = Ok c.
Proof.
  intros H Hp. rewrite <- (organize_len _ _ _ _ H) in Hp. apply nth_error_Some in Hp. destruct (nth_error ret p) as [os|] eqn:N; [|contradiction].
  destruct (one_plane_ok e hs t t0 ret p os N (organized_in_range _ _ _ _ _ _ H N)) as [A B]. destruct (le_lt_dec (length os) 1) as [L | L].
  - eexists. exact (A L).
  - destruct (B L) as (r & _ & Er). eexists. exact Er.
Qed.

(** produce *)
Definition first_pfp (x : input) : list Qc := match n_pfps x with l :: _ => l | [] => [] end.
Lemma pfp_loop ts : (forall x, In x ts -> n_pfps x <> []) ->
  foreach ts (fun l x => do p <- at_ (n_pfps x) 0; Ok (l ++ [p])) [] = Ok (map first_pfp ts).
Proof.
  intros H. rewrite (foreach_fold _ (fun l x => l ++ [first_pfp x])); [rewrite fold_snoc; reflexivity|].
  intros x l Hx. specialize (H x Hx). unfold first_pfp, at_. destruct (n_pfps x); [contradiction|]. reflexivity.
Qed.
Lemma pfp_loop_throw ts : ~ (forall x, In x ts -> n_pfps x <> []) -> forall a : list (list Qc),
  foreach ts (fun l x => do p <- at_ (n_pfps x) 0; Ok (l ++ [p])) a = Throw RangeExn.
Proof.
  induction ts as [|x ts IH]; intros H a; [exfalso; apply H; intros x []|]. cbn [foreach]. unfold at_. destruct (n_pfps x) as [|l r] eqn:Ex; [reflexivity|]. cbn [nth_error obind].
  apply IH. intros G. apply H. intros y [<- | Hy]; [rewrite Ex; discriminate|apply G; exact Hy].
Qed.
Definition pfp_list (e : env) (ts : list input) : list (list Qc) := if e_pfp e then map first_pfp ts else [].
Lemma pick_ok e ts i x : nth_error ts i = Some x -> pick_t0 e (pfp_list e ts) i x = Ok (t0_of e x).
Proof.
  intros N. unfold pick_t0, pfp_list, t0_of. destruct (e_t0 e); [|reflexivity]. destruct (e_pfp e); [|reflexivity].
  unfold at_. rewrite (map_nth_error first_pfp i ts N). cbn [obind]. reflexivity.
Qed.
Definition produce_loop (e : env) (ts : list input) : outcome (list calo * list (nat * nat)) :=
  for_ (range 0 (length ts)) (fun s i =>
    do x <- idx ts i;
    do t0 <- pick_t0 e (pfp_list e ts) i x;
    do orgs <- organize e (n_hits x) (n_track x);
    for_ (range 0 (e_np e)) (fun (s : list calo * list (nat * nat)) p =>
      do c <- one_plane e (n_hits x) (n_track x) t0 orgs p;
      Ok (fst s ++ [c], snd s ++ [(i, length (fst s))])) s) ([], []).
Lemma produce_eq e ts : (pfps_ok e ts -> produce e ts = produce_loop e ts) /\ (~ pfps_ok e ts -> produce e ts = Throw RangeExn).
Proof.
  unfold pfps_ok, produce, produce_loop, pfp_list. destruct (e_pfp e) eqn:Ep.
  - split; intros H; [rewrite pfp_loop by (apply H; reflexivity); reflexivity|]. rewrite pfp_loop_throw; [reflexivity|]. intros G. apply H. intros _. exact G.
  - split; intros H; [reflexivity|]. exfalso. apply H. discriminate.
Qed.

(** the products of the tracks before [i] and of the planes before [p] of track [i] *)
Definition rows (e : env) (ts : list input) (n : nat) (s : list calo * list (nat * nat)) : Prop :=
  length (fst s) = n /\ length (snd s) = n /\
  forall i p x, i * e_np e + p < n -> p < e_np e -> nth_error ts i = Some x -> exists orgs c, organize e (n_hits x) (n_track x) = Ok orgs /\
    one_plane e (n_hits x) (n_track x) (t0_of e x) orgs p = Ok c /\ nth_error (fst s) (i * e_np e + p) = Some c /\ nth_error (snd s) (i * e_np e + p) = Some (i, i * e_np e + p).

Lemma rows_snoc e ts i p x orgs c s : nth_error ts i = Some x -> p < e_np e -> organize e (n_hits x) (n_track x) = Ok orgs ->
  one_plane e (n_hits x) (n_track x) (t0_of e x) orgs p = Ok c -> rows e ts (i * e_np e + p) s -> rows e ts (i * e_np e + S p) (fst s ++ [c], snd s ++ [(i, length (fst s))]).
Proof.
  intros N Hp Ho Hc (L1 & L2 & H). unfold rows. cbn [fst snd]. rewrite !app_length. cbn [length]. split; [lia|]. split; [lia|].
  intros j q y Hlt Hq Ny. destruct (Nat.eq_dec (j * e_np e + q) (i * e_np e + p)) as [D | D].
  - assert (j = i) by nia. subst j. assert (q = p) by lia. subst q. rewrite N in Ny. injection Ny as <-. exists orgs, c. split; [exact Ho|]. split; [exact Hc|].
    rewrite <- L1 at 1. rewrite nth_error_app2, Nat.sub_diag by lia. split; [reflexivity|]. rewrite <- L2 at 1. rewrite nth_error_app2, Nat.sub_diag by lia. rewrite L1. reflexivity.
  - destruct (H j q y) as (o' & c' & A & B & C & E); [lia|exact Hq|exact Ny|]. exists o', c'. split; [exact A|]. split; [exact B|].
    rewrite !nth_error_app1 by lia. auto.
Qed.
Lemma rows_end e ts i s : rows e ts (i * e_np e + e_np e) s <-> rows e ts (S i * e_np e + 0) s.
Proof. replace (S i * e_np e + 0) with (i * e_np e + e_np e) by (cbn; lia). tauto. Qed.

Lemma loop_total e ts : planes_ok e ts -> exists s, produce_loop e ts = Ok s.
Proof.
  intros H. unfold produce_loop.
  match goal with |- context [for_ _ ?b ?s0] => destruct (for_range_inv (fun _ _ => True) b 0 (length ts) s0) as (s & Es & _) end; [lia|exact Logic.I| |exists s; exact Es].
  intros i s Hi _. unfold idx. destruct (nth_error ts i) as [x|] eqn:N; [|apply nth_error_None in N; lia]. cbn [obind]. rewrite (pick_ok e ts i x N). cbn [obind].
  destruct (C141_partition e (n_hits x) (n_track x)) as ([_ HO] & _). destruct HO as [orgs Ho]. { intros p j. apply H. exact (nth_error_In _ _ N). } rewrite Ho. cbn [obind].
  match goal with |- context [for_ _ ?b s] => destruct (for_range_inv (fun _ _ => True) b 0 (e_np e) s) as (s' & Es' & _) end; [lia|exact Logic.I| |exists s'; split; [exact Es'|exact Logic.I] ].
  intros p s1 Hp _. destruct (one_plane_total e (n_hits x) (n_track x) (t0_of e x) orgs p Ho) as [c Hc]; [lia|]. rewrite Hc. cbn [obind]. eexists. split; [reflexivity|exact Logic.I].
Qed.
Lemma loop_rows e ts s : produce_loop e ts = Ok s -> rows e ts (length ts * e_np e) s /\ planes_ok e ts.
Proof.
  intros H. unfold produce_loop in H. split.
  - unfold range in H. rewrite Nat.sub_0_r in H.
    enough (G : rows e ts ((0 + length ts) * e_np e + 0) s) by (rewrite Nat.add_0_r in G; exact G).
    apply (for_ok_seq (fun i s => rows e ts (i * e_np e + 0) s) _ _ _ _ _ H).
    + split; [reflexivity|]. split; [reflexivity|]. intros i p x X. cbn in X. lia.
    + intros i a b Hi Ha Hb. unfold idx in Hb. destruct (nth_error ts i) as [x|] eqn:N; [|discriminate Hb]. cbn [obind] in Hb. rewrite (pick_ok e ts i x N) in Hb. cbn [obind] in Hb.
      destruct (organize e (n_hits x) (n_track x)) as [orgs| |] eqn:Ho; cbn [obind] in Hb; try discriminate Hb.
      rewrite Nat.sub_0_r in Hb. apply rows_end. rewrite <- (Nat.add_0_l (e_np e)) at 2. apply (for_ok_seq (fun p s => rows e ts (i * e_np e + p) s) _ _ _ _ _ Hb); [exact Ha|].
      intros p u v Hp Hu Hv. destruct (one_plane e (n_hits x) (n_track x) (t0_of e x) orgs p) as [c| |] eqn:Hc; cbn [obind] in Hv; try discriminate Hv.
      injection Hv as <-. apply (rows_snoc e ts i p x orgs c u N); [lia|exact Ho|exact Hc|exact Hu].
  - intros x p j Hx L. apply In_nth_error in Hx. destruct Hx as [i N].
    destruct (for_ok (fun _ => True) _ _ _ _ H Logic.I (fun _ _ _ _ _ _ => Logic.I)) as [_ G]. destruct (G i) as (a & b & _ & Hb). { apply in_range. split; [lia|]. apply nth_error_Some. congruence. }
    unfold idx in Hb. rewrite N in Hb. cbn [obind] in Hb. rewrite (pick_ok e ts i x N) in Hb. cbn [obind] in Hb.
    destruct (organize e (n_hits x) (n_track x)) as [orgs| |] eqn:Ho; cbn [obind] in Hb; try discriminate Hb.
    destruct (C141_partition e (n_hits x) (n_track x)) as ([A _] & _). exact (A (ex_intro _ orgs Ho) p j L).
Qed.
Lemma one_plane_nothrow e hs t t0 ret p : organize e hs t = Ok ret -> p < e_np e -> forall ex, one_plane e hs t t0 ret p <> Throw ex.
Proof. intros H Hp ex X. destruct (one_plane_total e hs t t0 ret p H Hp) as [c Hc]. congruence. Qed.
Lemma for_nothrow {S} l (body : S -> nat -> outcome S) ex : forall s, (forall i s, In i l -> body s i <> Throw ex) -> for_ l body s <> Throw ex.
Proof.
  induction l as [|i l IH]; intros s H; cbn [for_]; [discriminate|]. destruct (body s i) as [a|e0|] eqn:Eb; cbn [obind]; [apply IH; intros j x Hj; apply H; right; exact Hj| |discriminate].
  intros X. injection X as ->. exact (H i s (or_introl eq_refl) Eb).
Qed.
Lemma loop_undef e ts : ~ planes_ok e ts -> produce_loop e ts = Undef.
Proof.
  intros H. destruct (produce_loop e ts) as [s|ex|] eqn:Ep; [exfalso; apply H; exact (proj2 (loop_rows e ts s Ep))| |reflexivity].
  exfalso. revert Ep. unfold produce_loop. apply for_nothrow. intros i s _ X. unfold idx in X. destruct (nth_error ts i) as [x|] eqn:N; [|discriminate X]. cbn [obind] in X. rewrite (pick_ok e ts i x N) in X. cbn [obind] in X.
  destruct (organize e (n_hits x) (n_track x)) as [orgs|e0|] eqn:Ho; cbn [obind] in X; [| |discriminate X].
  - revert X. apply for_nothrow. intros p u Hp X. apply in_range in Hp. destruct (one_plane_total e (n_hits x) (n_track x) (t0_of e x) orgs p Ho) as [c Hc]; [lia|]. rewrite Hc in X. discriminate X.
  - destruct (C141_partition e (n_hits x) (n_track x)) as ([_ A] & B & _).
    assert (D : (forall p i, lst (n_hits x) (n_track x) p i = true -> p < e_np e) \/ organize e (n_hits x) (n_track x) = Undef).
    { unfold organize in Ho |- *. destruct ((e_method e =? 1) || (e_method e =? 0))%bool.
      - right. revert Ho. unfold individual. intros Y. exfalso. revert Y. apply for_nothrow. clear. intros i s _ Y. unfold idx, set_idx in Y. destruct (nth_error (n_hits x) i) as [y|]; cbn [obind] in Y; [|discriminate Y]. destruct (valid (n_track x) (snd y)); [|discriminate Y].
        destruct (nth_error s (h_plane (fst y))); cbn [obind] in Y; [|discriminate Y]. destruct (h_plane (fst y) <? length s); discriminate Y.
      - exfalso. unfold snippets in Ho. match type of Ho with obind ?f _ = _ => destruct f as [z|e1|] eqn:Y end; cbn [obind] in Ho; [discriminate Ho| |discriminate Ho].
        revert Y. apply for_nothrow. clear. intros i s _ Eb. unfold idx, set_idx in Eb. destruct (nth_error (n_hits x) i) as [y|]; cbn [obind] in Eb; [|discriminate Eb]. destruct (valid (n_track x) (snd y)); [|discriminate Eb].
        destruct (nth_error (fst s) (h_plane (fst y))) as [os|]; cbn [obind] in Eb; [|discriminate Eb]. destruct (nth_error (snd s) (h_plane (fst y))) as [ids|]; cbn [obind] in Eb; [|discriminate Eb].
        destruct (snip_step os ids i (ident_of (fst y))) as [r|e2|] eqn:Est; cbn [obind] in Eb; [|exact (step_nothrow _ _ _ _ _ Est)|discriminate Eb].
        destruct (h_plane (fst y) <? length (fst s)); cbn [obind] in Eb; [|discriminate Eb]. destruct (h_plane (fst y) <? length (snd s)); cbn [obind] in Eb; discriminate Eb. }
    destruct D as [D | D]; [|congruence].
    destruct A as [r Er]; [intros p j L; apply (D p j), lst_listed; exact L|congruence].
Qed.
