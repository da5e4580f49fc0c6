(** Proofs about CheckShowerPlanes. *)
From Coq Require Import QArith Qcanon.
From Verif Require Import Base QcUtil Solver_Model Solver_Proofs CMgr_Proofs EMS_Model EMS_Map EMS_Spec EMS_Assoc.
Local Open Scope nat_scope.

Section P.
Variables (cpl : list Z) (hpl : list (list Z)).
Definition Zs : list nat -> list Z := map Z.of_nat.

Lemma pc_ok cs : (forall c, In c cs -> c < length cpl) -> forall m0 pre, ordered m0 ->
  (forall p, mvec p m0 = on_plane cpl pre p) -> (forall p, In p (keys m0) <-> exists c, In c pre /\ nth c cpl (-1)%Z = p) ->
  exists m, foreach (Zs cs) (fun m c => do p <- at_ cpl (Z.to_nat c); Ok (mpush p (Z.to_nat c) m)) m0 = Ok m /\ ordered m /\
    (forall p, mvec p m = on_plane cpl (pre ++ cs) p) /\ (forall p, In p (keys m) <-> exists c, In c (pre ++ cs) /\ nth c cpl (-1)%Z = p).
Proof.
  induction cs as [|c cs IH]; intros V m0 pre O F K; cbn [Zs map foreach].
  - exists m0. rewrite app_nil_r. auto.
  - rewrite Nat2Z.id, (at_ok cpl c (-1)%Z (V c (or_introl eq_refl))). cbn [obind].
    destruct (IH (fun x Hx => V x (or_intror Hx)) (mpush (nth c cpl (-1)%Z) c m0) (pre ++ [c])) as (m & E & A & B & D).
    + apply ordered_mset, O.
    + intros p. rewrite mvec_mpush. unfold on_plane. rewrite filter_app. cbn [filter]. rewrite (Z.eqb_sym (nth c cpl (-1)%Z) p).
      destruct (Z.eqb_spec p (nth c cpl (-1)%Z)) as [->|N]; [rewrite F; reflexivity|rewrite app_nil_r; apply F].
    + intros p. unfold mpush. rewrite keys_mset, K. split.
      * intros [->|(x & Hx & Ex)]; [exists c; split; [apply in_app_iff; right; left; reflexivity|reflexivity]|exists x; split; [apply in_app_iff; auto|exact Ex] ].
      * intros (x & Hx & Ex). apply in_app_iff in Hx. destruct Hx as [Hx|[<-|[] ] ]; [right; eauto|left; auto].
    + exists m. rewrite <- app_assoc in B, D. auto.
Qed.
Lemma incr_ok hs : forall m0 (f : Z -> nat), (forall p, mfind p m0 = if f p =? 0 then None else Some (f p)) ->
  forall p, mfind p (fold_left (fun m p => mincr p m) hs m0) = let n := f p + length (filter (Z.eqb p) hs) in if n =? 0 then None else Some n.
Proof.
  induction hs as [|h hs IH]; intros m0 f H p; cbn [fold_left filter length].
  - cbv zeta. rewrite Nat.add_0_r. apply H.
  - rewrite (IH (mincr h m0) (fun q => if (q =? h)%Z then S (f q) else f q)).
    + cbv zeta. destruct (Z.eqb_spec p h) as [->|N]; cbn [length]; rewrite ?Nat.add_succ_r; reflexivity.
    + intros q. unfold mincr. rewrite mfind_mset. destruct (Z.eqb_spec q h) as [->|N]; [|apply H].
      rewrite H. destruct (f h =? 0) eqn:Z; [apply Nat.eqb_eq in Z; rewrite Z; reflexivity|reflexivity].
Qed.
Lemma ph_ok cs : (forall c, In c cs -> c < length hpl) -> forall m0 pre,
  (forall p, mfind p m0 = if hits_on hpl pre p =? 0 then None else Some (hits_on hpl pre p)) ->
  exists m, foreach (Zs cs) (fun m c => do hs <- at_ hpl (Z.to_nat c); Ok (fold_left (fun m p => mincr p m) hs m)) m0 = Ok m /\
    (forall p, mfind p m = if hits_on hpl (pre ++ cs) p =? 0 then None else Some (hits_on hpl (pre ++ cs) p)).
Proof.
  induction cs as [|c cs IH]; intros V m0 pre F; cbn [Zs map foreach].
  - exists m0. rewrite app_nil_r. auto.
  - rewrite Nat2Z.id, (at_ok hpl c [] (V c (or_introl eq_refl))). cbn [obind].
    destruct (IH (fun x Hx => V x (or_intror Hx)) (fold_left (fun m p => mincr p m) (nth c hpl []) m0) (pre ++ [c])) as (m & E & B).
    + intros p. rewrite (incr_ok _ m0 (hits_on hpl pre) F p). cbv zeta.
      replace (hits_on hpl (pre ++ [c]) p) with (hits_on hpl pre p + length (filter (Z.eqb p) (nth c hpl []))); [reflexivity|].
      unfold hits_on. rewrite flat_map_app, filter_app, app_length. cbn [flat_map]. rewrite app_nil_r. reflexivity.
    + exists m. rewrite <- app_assoc in B. auto.
Qed.

Lemma fold_plus l : forall a, fold_left Qcplus l a = (a + total (fun x => x) l)%Qc.
Proof. induction l as [|x l IH]; intros a; cbn [fold_left total fold_right]; [ring|]. rewrite IH. unfold total. ring. Qed.
Lemma total_map {A B} (f : B -> Qc) (g : A -> B) l : total f (map g l) = total (fun x => f (g x)) l.
Proof. induction l as [|x l IH]; [reflexivity|]. cbn [map total fold_right]. unfold total in IH. rewrite IH. reflexivity. Qed.
Lemma av_ok n cs : (forall c, In c cs -> c < length hpl) ->
  average hpl n cs = Ok (total (fun c => nq (length (nth c hpl [])) / nq n) cs / nq (length cs))%Qc.
Proof.
  intros V. unfold average.
  assert (E : forall f0, foreach cs (fun fs c => do hs <- at_ hpl c; Ok (fs ++ [(qn (length hs) / qn n)%Qc])) f0 =
              Ok (f0 ++ map (fun c => (nq (length (nth c hpl [])) / nq n)%Qc) cs)).
  { clear -V. revert V. induction cs as [|c cs IH]; intros V f0; cbn [foreach map]; [rewrite app_nil_r; reflexivity|].
    rewrite (at_ok hpl c [] (V c (or_introl eq_refl))). cbn [obind]. rewrite IH by (intros; apply V; right; assumption).
    rewrite <- app_assoc. reflexivity. }
  rewrite E. cbn [obind app]. rewrite fold_plus, total_map. f_equal. change qn with nq. f_equal. ring.
Qed.

Lemma fold_quad {A} (g : A -> Qc) l : forall a, fold_left (fun s o => (s + g o * g o)%Qc) l a = (a + total (fun o => (g o * g o)%Qc) l)%Qc.
Proof. induction l as [|x l IH]; intros a; cbn [fold_left total fold_right]; [ring|]. rewrite IH. unfold total. ring. Qed.
Lemma filter_map' {A B} (f : B -> bool) (g : A -> B) l : filter f (map g l) = map g (filter (fun x => f (g x)) l).
Proof. induction l as [|x l IH]; cbn; [reflexivity|]. rewrite IH. destruct (f (g x)); reflexivity. Qed.
Lemma filter_ext' {A} (f g : A -> bool) l : (forall x, f x = g x) -> filter f l = filter g l.
Proof. intros H. induction l as [|x l IH]; cbn; [reflexivity|]. rewrite H, IH. reflexivity. Qed.

(** the last element of the fold *)
Lemma last_bad (P : list Z) (b : Z -> bool) : forall z, 
  (forall p, In p P -> b p = false) /\ fold_left (fun a p => if b p then p else a) P z = z \/
  exists l1 p l2, P = l1 ++ p :: l2 /\ b p = true /\ (forall q, In q l2 -> b q = false) /\ fold_left (fun a p => if b p then p else a) P z = p.
Proof.
  induction P as [|p P IH]; intros z; cbn [fold_left]; [left; split; [intros ? []|reflexivity]|].
  destruct (IH (if b p then p else z)) as [ [A E]|(l1 & q & l2 & -> & B & C & E)].
  - destruct (b p) eqn:Q.
    + right. exists [], p, P. auto.
    + left. split; [|exact E]. intros x [<-|Hx]; auto.
  - right. exists (p :: l1), q, l2. auto.
Qed.
Lemma ss_after (l1 : list Z) p l2 q : StronglySorted Z.lt (l1 ++ p :: l2) -> In q (l1 ++ p :: l2) -> ~ In q l2 -> (q <= p)%Z.
Proof.
  induction l1 as [|a l1 IH]; cbn [app]; intros S Hq N; inversion S as [|? ? S' F]; subst; rewrite Forall_forall in F.
  - destruct Hq as [->|Hq]; [lia|contradiction].
  - destruct Hq as [->|Hq]; [|apply IH; assumption]. specialize (F p). assert (q < p)%Z by (apply F, in_app_iff; right; left; reflexivity). lia.
Qed.

Theorem check_planes_main cs P rest :
  planes_of cpl cs P -> (forall p, In p P -> (0 <= p)%Z) ->
  (forall c, In c cs -> c < length cpl /\ c < length hpl) ->
  (forall p, In p P -> 0 < hits_on hpl cs p) ->
  exists r, check_planes cpl hpl (map Z.of_nat cs :: rest) = Ok r /\
    ((r = [] /\ (length P < 3 \/ forall p, ~ suspicious cpl hpl cs P p)) \/
     (3 <= length P /\ exists p, suspicious cpl hpl cs P p /\ (forall q, suspicious cpl hpl cs P q -> (q <= p)%Z) /\ r = map Z.of_nat (on_plane cpl cs p))).
Proof.
  intros [SP HP] Pos V H0. unfold check_planes, plane_clusters, plane_hits.
  destruct (pc_ok cs (fun c Hc => proj1 (V c Hc)) [] []) as (pc & E1 & O1 & F1 & K1).
  { constructor. } { intros p. reflexivity. } { intros p. split; [intros []|intros (c & [] & _)]. }
  unfold Zs in E1. rewrite E1. cbn [obind app] in *.
  destruct (ph_ok cs (fun c Hc => proj2 (V c Hc)) [] []) as (ph & E2 & F2). { intros p. reflexivity. }
  unfold Zs in E2. rewrite E2. cbn [obind app] in *.
  assert (KP : keys pc = P).
  { unfold ordered in O1.
    assert (A : forall p, In p (keys pc) <-> In p P) by (intros p; rewrite K1, HP; reflexivity).
    clear -O1 SP A. revert P SP A. induction (keys pc) as [|a l IH]; intros P SP A.
    - destruct P as [|b P]; [reflexivity|]. exfalso. apply (proj2 (A b)). left; reflexivity.
    - destruct P as [|b P]; [exfalso; apply (proj1 (A a)); left; reflexivity|].
      inversion O1 as [|? ? S F]; subst. inversion SP as [|? ? S' F']; subst. rewrite Forall_forall in F, F'.
      assert (a = b) as ->.
      { destruct (proj1 (A a) (or_introl eq_refl)) as [->|X]; [reflexivity|]. destruct (proj2 (A b) (or_introl eq_refl)) as [->|Y]; [reflexivity|].
        specialize (F _ Y). specialize (F' _ X). lia. }
      f_equal. apply (IH S P S'). intros p. split; intros Hp.
      + destruct (proj1 (A p) (or_intror Hp)) as [->|X]; [|exact X]. specialize (F _ Hp). lia.
      + destruct (proj2 (A p) (or_intror Hp)) as [->|X]; [|exact X]. specialize (F' _ Hp). lia. }
  assert (LP : length pc = length P) by (rewrite <- KP; unfold keys; rewrite map_length; reflexivity).
  rewrite LP. destruct (Nat.ltb_spec (length P) 3) as [L|L]; [exists []; auto|].
  set (mean := mean_fraction cpl hpl cs).
  assert (EA : forall l, (forall e, In e l -> In e pc) -> forall a0,
     foreach l (fun av e => do n <- mat (fst e) ph; do a <- average hpl n (snd e); Ok (av ++ [(fst e, a)])) a0 = Ok (a0 ++ map (fun e => (fst e, mean (fst e))) l)).
  { induction l as [|e l IH]; intros Hl a0; cbn [foreach map]; [rewrite app_nil_r; reflexivity|].
    assert (He : In e pc) by (apply Hl; left; reflexivity).
    assert (Hk : In (fst e) P) by (rewrite <- KP; apply in_map, He).
    unfold mat. rewrite F2. specialize (H0 _ Hk). destruct (Nat.eqb_spec (hits_on hpl cs (fst e)) 0) as [Z|_]; [lia|]. cbn [obind].
    assert (Se : snd e = on_plane cpl cs (fst e)).
    { rewrite <- F1. unfold mvec. destruct e as [k v]. cbn [fst snd]. rewrite (proj2 (mfind_in k v pc O1) He). reflexivity. }
    rewrite av_ok.
    - cbn [obind]. rewrite IH by (intros; apply Hl; right; assumption). rewrite <- app_assoc, Se. reflexivity.
    - rewrite Se. intros c Hc. apply filter_In in Hc. apply V, Hc. }
  rewrite (EA pc (fun e He => He) []). cbn [obind app]. clear EA.
  replace (map (fun e : Z * list nat => (fst e, mean (fst e))) pc) with (map (fun p => (p, mean p)) P) by (rewrite <- KP; unfold keys; rewrite map_map; reflexivity).
  cbv zeta.
  set (b := fun p => negb (qc_lt (mean p * mean p)%Qc (total (fun o => (mean o * mean o)%Qc) (filter (fun o => negb (o =? p)%Z) P)))).
  match goal with |- context [fold_left ?f (map (fun p => (p, mean p)) P) (-1)%Z] =>
    assert (EF : forall z l, fold_left f (map (fun p => (p, mean p)) l) z = fold_left (fun a p => if b p then p else a) l z) end.
  { intros z l. revert z. induction l as [|p l IH]; intros z; [reflexivity|]. cbn [map fold_left]. rewrite IH. f_equal. cbn [fst snd].
    rewrite filter_map'. cbn [fst]. rewrite (filter_ext' _ (fun o => negb (o =? p)%Z)) by (intros o; rewrite Z.eqb_sym; reflexivity).
    rewrite (fold_quad snd), total_map. cbn [snd]. unfold b.
    match goal with |- (if qc_lt _ (0 + ?t)%Qc then _ else _) = _ => replace (Q2Qc 0 + t)%Qc with t by ring end.
    match goal with |- (if ?c then _ else _) = (if negb ?c then _ else _) => destruct c; reflexivity end. }
  rewrite EF. clear EF.
  assert (Bs : forall p, In p P -> (b p = true <-> suspicious cpl hpl cs P p)).
  { intros p Hp. unfold b, suspicious. rewrite negb_true_iff, qc_lt_false. fold mean. tauto. }
  destruct (last_bad P b (-1)%Z) as [ [A Ef]|(l1 & p & l2 & EP & Bp & C & Ef)]; rewrite Ef.
  - exists []. split; [reflexivity|]. left. split; [reflexivity|]. right. intros p S. assert (Hp : In p P) by apply S.
    apply Bs in S; [|exact Hp]. rewrite A in S by exact Hp. discriminate.
  - assert (Hp : In p P) by (rewrite EP; apply in_app_iff; right; left; reflexivity).
    specialize (Pos p Hp). destruct (Z.eqb_spec p (-1)%Z) as [X|_]; [lia|].
    assert (Fp : mfind p pc = Some (on_plane cpl cs p)).
    { destruct (proj2 (mfind_keys p pc)) as (v & Ev); [rewrite KP; exact Hp|]. rewrite Ev. f_equal. rewrite <- F1. unfold mvec. rewrite Ev. reflexivity. }
    unfold mat. rewrite Fp. cbn [obind]. eexists. split; [reflexivity|]. right. split; [exact L|]. exists p.
    split; [apply Bs; assumption|]. split; [|reflexivity]. intros q Hs. assert (Hq : In q P) by apply Hs.
    apply (ss_after l1 p l2 q); [rewrite <- EP; exact SP|rewrite <- EP; exact Hq|]. intros Hi. apply Bs in Hs; [|exact Hq]. rewrite (C q Hi) in Hs. discriminate.
Qed.
End P.
