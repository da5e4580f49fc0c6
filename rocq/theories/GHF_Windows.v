(** Windows of the hits of a pulse *)
From Coq Require Import QArith Qround Qcanon Lqa String.
From Verif Require Import Base QcUtil Solver_Model Solver_Proofs SPS_Model SPS_Nei GHF_Model GHF_Spec GHF_Long.
Local Open Scope nat_scope.

Lemma trunc_flo q : (0 <= q)%Qc -> trunc q = flo q.
Proof.
  intros H. unfold trunc, flo, Qfloor. destruct q as [[n d] C]. cbn [this Qnum Qden] in *. apply Z.quot_div_nonneg; [|lia]. unfold Qcle, Qle in H. cbn in H. lia.
Qed.
Lemma zq_le a b : (zq a <= zq b)%Qc <-> (a <= b)%Z.
Proof. unfold zq. unfold Qcle. rewrite !this_Q2Qc. rewrite <- Zle_Qle. reflexivity. Qed.
Lemma zq_lt a b : (zq a < zq b)%Qc <-> (a < b)%Z.
Proof. unfold zq. unfold Qclt. rewrite !this_Q2Qc. rewrite <- Zlt_Qlt. reflexivity. Qed.
Lemma zq_plus a b : zq (a + b) = (zq a + zq b)%Qc.
Proof. unfold zq. apply Qc_is_canon. rewrite this_plus, !this_Q2Qc, inject_Z_plus. reflexivity. Qed.
Lemma zq_opp a : zq (- a) = (- zq a)%Qc.
Proof. unfold zq. apply Qc_is_canon. rewrite this_opp, !this_Q2Qc, inject_Z_opp. reflexivity. Qed.
Lemma zq_minus a b : zq (a - b) = (zq a - zq b)%Qc.
Proof. unfold Z.sub. rewrite zq_plus, zq_opp. reflexivity. Qed.
Lemma zq_0 : zq 0 = 0%Qc. Proof. reflexivity. Qed.
Lemma zq_1 : zq 1 = 1%Qc. Proof. reflexivity. Qed.
Lemma zq_lt1 a b : (zq a < zq b + 1)%Qc -> (a <= b)%Z.
Proof. intros C. rewrite <- zq_1, <- zq_plus in C. apply (proj1 (zq_lt _ _)) in C. lia. Qed.
Lemma flo_spec q : (zq (flo q) <= q)%Qc /\ (q < zq (flo q) + 1)%Qc.
Proof.
  unfold flo, zq. unfold Qcle, Qclt. rewrite this_plus, !this_Q2Qc. pose proof (Qfloor_le (this q)). pose proof (Qlt_floor (this q)). rewrite inject_Z_plus in H0. split; [exact H|exact H0].
Qed.
Lemma flo_ge z q : (zq z <= q)%Qc -> (z <= flo q)%Z.
Proof. intros H. destruct (flo_spec q) as [A B]. assert (C : (zq z < zq (flo q + 1))%Qc) by (rewrite zq_plus, zq_1; eapply Qcle_lt_trans; eassumption). apply (proj1 (zq_lt _ _)) in C. revert C. generalize (flo q). intros; lia. Qed.
Lemma flo_le z q : (q <= zq z)%Qc -> (flo q <= z)%Z.
Proof. intros H. destruct (flo_spec q) as [A B]. apply zq_le. eapply Qcle_trans; eassumption. Qed.

Lemma share_range a b : (0 < a)%Qc -> (0 < b)%Qc -> (0 <= a / (a + b))%Qc /\ (a / (a + b) <= 1)%Qc.
Proof.
  intros Ha Hb. assert (Hs : (0 < a + b)%Qc) by qclra. assert (N : (a + b <> 0)%Qc) by (intros E; rewrite E in Hs; exact (Qclt_not_eq _ _ Hs eq_refl)).
  set (x := (a / (a + b))%Qc). assert (E : (x * (a + b) = a)%Qc) by (unfold x; field; exact N). clearbody x. split; qcnra.
Qed.
(** the point between two peaks at which their ranges are cut *)
Definition mid (p q : peak) : Qc := ((p_mean q - p_mean p) * (p_sigma p / (p_sigma p + p_sigma q)))%Qc.
Lemma mid_range p q : (0 < p_sigma p)%Qc -> (0 < p_sigma q)%Qc -> (p_mean p <= p_mean q)%Qc -> (0 <= mid p q)%Qc /\ (p_mean p + mid p q <= p_mean q)%Qc.
Proof.
  intros Hp Hq H. unfold mid. destruct (share_range _ _ Hp Hq) as [A B]. set (x := (p_sigma p / (p_sigma p + p_sigma q))%Qc) in *. clearbody x. split; qcnra.
Qed.

Section W.
Context (sig : list Qc) (plane : nat) (roi startT endT : Z) (gof : Qc) (dof : Z).
Context (H0 : (0 <= startT <= endT)%Z) (Hlen : (endT <= Z.of_nat (List.length sig))%Z).

Definition lo_of (prev : option peak) (p : peak) : Z :=
  match prev with Some q => if qc_lt (p_mean p - q2 * p_sigma p) (p_mean q + q2 * p_sigma q) then cut q p else reach_left p | None => reach_left p end.
Definition hi_of (p : peak) (next : option peak) : Z :=
  match next with Some q => if qc_lt (p_mean q - q2 * p_sigma q) (p_mean p + q2 * p_sigma p) then cut p q else reach_right p | None => reach_right p end.
Definition win (prev : option peak) (p : peak) (next : option peak) : Z * Z := (Z.max startT (lo_of prev p), Z.min endT (hi_of p next)).
Fixpoint wins (prev : option peak) (l : list peak) : list (Z * Z) := match l with [] => [] | p :: r => win prev p (hd_error r) :: wins (Some p) r end.
Definition hit_of (n i : nat) (p : peak) (w : Z * Z) : hit :=
  mkHit (startT + roi) (endT + roi) (p_sigma p) (p_mean p + zq roi)%Qc (match p_amp p with Some a => a | None => 0%Qc end) (sum_ticks sig startT endT) (sum_ticks sig (fst w) (snd w)) (Z.of_nat n) i gof dof plane.
Fixpoint hits_from (n i : nat) (prev : option peak) (l : list peak) : list hit := match l with [] => [] | p :: r => hit_of n i p (win prev p (hd_error r)) :: hits_from n (S i) (Some p) r end.

(** a peak as [tidy] wants it, after [prev] *)
Definition fine (p : peak) : Prop := (0 < p_sigma p)%Qc /\ (zq startT <= p_mean p)%Qc /\ (p_mean p <= zq endT)%Qc /\ p_amp p <> None.
Definition after (prev : option peak) (p : peak) : Prop := match prev with Some q => fine q /\ (p_mean q <= p_mean p)%Qc | None => True end.

Lemma fine_nn p : fine p -> (0 <= p_mean p)%Qc.
Proof. intros (_ & A & _). eapply Qcle_trans; [|exact A]. rewrite <- zq_0. apply zq_le. lia. Qed.
Lemma fine_flo p : fine p -> (startT <= flo (p_mean p) <= endT)%Z.
Proof. intros (_ & A & B & _). split; [apply flo_ge, A|apply flo_le, B]. Qed.
Lemma width_nn p : fine p -> (0 <= q2 * p_sigma p)%Qc.
Proof. intros (A & _). unfold q2. qclra. Qed.
Lemma reach_lr p : fine p -> (reach_left p <= flo (p_mean p) <= reach_right p)%Z.
Proof. intros F. unfold reach_left, reach_right. pose proof (width_nn p F) as W. assert (0 <= flo (Q2Qc (2 # 1) * p_sigma p))%Z by (apply flo_ge; exact W). lia. Qed.
Lemma cut_between p q : fine p -> fine q -> (p_mean p <= p_mean q)%Qc -> (flo (p_mean p) <= cut p q <= flo (p_mean q))%Z.
Proof.
  intros Fp Fq H. destruct (mid_range p q) as [A B]; [apply Fp|apply Fq|exact H|]. unfold cut. fold (mid p q). assert (0 <= flo (mid p q))%Z by (apply flo_ge; exact A). split; [lia|].
  apply flo_ge. rewrite zq_plus. pose proof (proj1 (flo_spec (p_mean p))) as C. pose proof (proj1 (flo_spec (mid p q))) as D.
  set (x := zq (flo (p_mean p))) in *. set (y := zq (flo (mid p q))) in *. set (z := mid p q) in *. clearbody x y z. qclra.
Qed.
Lemma lo_le prev p : fine p -> after prev p -> (lo_of prev p <= flo (p_mean p))%Z.
Proof.
  intros F A. destruct prev as [q|]; cbn [lo_of]; [|apply reach_lr, F]. destruct A as [Fq L]. destruct (qc_lt _ _); [apply cut_between; assumption|apply reach_lr, F].
Qed.
Lemma hi_ge p next : fine p -> match next with Some q => fine q /\ (p_mean p <= p_mean q)%Qc | None => True end -> (flo (p_mean p) <= hi_of p next)%Z.
Proof.
  intros F A. destruct next as [q|]; cbn [hi_of]; [|apply reach_lr, F]. destruct A as [Fq L]. destruct (qc_lt _ _); [apply cut_between; assumption|apply reach_lr, F].
Qed.
Lemma win_ok prev p next : fine p -> after prev p -> match next with Some q => fine q /\ (p_mean p <= p_mean q)%Qc | None => True end ->
  (startT <= fst (win prev p next) <= flo (p_mean p))%Z /\ (flo (p_mean p) <= snd (win prev p next) <= endT)%Z.
Proof. intros F A B. pose proof (lo_le prev p F A). pose proof (hi_ge p next F B). pose proof (fine_flo p F). unfold win. cbn [fst snd]. lia. Qed.
(** neighbouring windows do not overlap *)
Lemma win_apart p q : fine p -> fine q -> (p_mean p <= p_mean q)%Qc -> (hi_of p (Some q) <= lo_of (Some p) q)%Z.
Proof.
  intros Fp Fq H. cbn [hi_of lo_of]. destruct (qc_lt (p_mean q - q2 * p_sigma q) (p_mean p + q2 * p_sigma p)) eqn:E; [lia|]. apply qc_lt_false in E. unfold reach_left, reach_right.
  apply zq_le. rewrite zq_plus, zq_minus. fold q2. enough (K : (zq (flo (p_mean p)) + zq (flo (q2 * p_sigma p)) < zq (flo (p_mean q)) - zq (flo (q2 * p_sigma q)) + 1)%Qc).
  { rewrite <- zq_plus, <- zq_minus in K. apply zq_lt1 in K. rewrite <- zq_plus, <- zq_minus. apply zq_le. exact K. }
  pose proof (proj1 (flo_spec (p_mean p))) as A1. pose proof (proj1 (flo_spec (q2 * p_sigma p))) as A2. pose proof (proj2 (flo_spec (p_mean q))) as A3. pose proof (proj1 (flo_spec (q2 * p_sigma q))) as A4.
  revert E A1 A2 A3 A4. generalize (zq (flo (p_mean p))) (zq (flo (q2 * p_sigma p))) (zq (flo (p_mean q))) (zq (flo (q2 * p_sigma q))) (q2 * p_sigma p)%Qc (q2 * p_sigma q)%Qc. intros. qclra.
Qed.

Section Loop.
Context (peaks : list peak).
Let ng := Z.of_nat (List.length peaks).

Definition linked_to (prev : option peak) (done : list peak) : Prop := match prev with Some q => exists d, done = d ++ [q] | None => done = [] end.
(** newleft and newright before the peak after [prev] is looked at *)
Definition sane (s : hst) (prev next : option peak) : Prop :=
  match prev with
  | None => True
  | Some q => (s_left s <= s_right s)%Qc /\ (s_left s <= p_mean q)%Qc /\ forall n, next = Some n -> qc_lt (p_mean n - q2 * p_sigma n) (p_mean q + q2 * p_sigma q) = true -> s_right s = (p_mean q + mid q n)%Qc
  end.
Lemma eqb_pos a b : (0 < a)%Qc -> (0 < b)%Qc -> qc_eqb (a + b) 0 = false.
Proof. intros A B. destruct (qc_eqb (a + b) 0) eqn:E; [|reflexivity]. apply qc_eqb_spec in E. exfalso. qclra. Qed.
Lemma after_tail p r : StronglySorted (fun a b => p_mean a <= p_mean b)%Qc (p :: r) -> (forall x, In x (p :: r) -> fine x) -> match hd_error r with Some q => fine q /\ (p_mean p <= p_mean q)%Qc | None => True end.
Proof. intros S F. destruct r as [|q r]; cbn [hd_error]; [exact Logic.I|]. inversion S as [|? ? _ Hf]; subst. inversion Hf; subst. split; [apply F; right; left; reflexivity|assumption]. Qed.

Lemma one_ok done p rest prev s : peaks = done ++ p :: rest -> linked_to prev done -> s_num s = List.length done -> fine p -> after prev p ->
  match hd_error rest with Some q => fine q /\ (p_mean p <= p_mean q)%Qc | None => True end -> sane s prev (Some p) ->
  exists s', one_peak sig plane roi startT endT peaks ng gof dof s p = Ok s' /\ s_num s' = S (List.length done) /\ s_out s' = s_out s ++ [hit_of (List.length peaks) (List.length done) p (win prev p (hd_error rest))] /\ sane s' (Some p) (hd_error rest).
Proof.
  intros E Lk En F A B Sn. unfold one_peak. rewrite En. set (n := List.length done) in *.
  assert (Hl : List.length peaks = n + S (List.length rest)) by (rewrite E, app_length; reflexivity).
  set (L0 := if n =? 0 then zq (-9999) else s_left s). set (R0 := if n =? 0 then zq 9999 else s_right s).
  assert (Enx : (if (Z.of_nat n <? ng - 1)%Z then do x <- at_ peaks (n + 1); Ok (Some x) else Ok None) = Ok (hd_error rest)).
  { destruct rest as [|q r]; cbn [hd_error List.length] in *.
    - destruct (Z.ltb_spec (Z.of_nat n) (ng - 1)); [unfold ng in *; lia|reflexivity].
    - destruct (Z.ltb_spec (Z.of_nat n) (ng - 1)); [|unfold ng in *; lia]. unfold at_. rewrite E, nth_error_app2 by (unfold n; lia). replace (n + 1 - List.length done) with 1 by (unfold n; lia). reflexivity. }
  assert (Epv : (if 0 <? n then do x <- at_ peaks (n - 1); Ok (Some x) else Ok None) = Ok prev).
  { destruct prev as [q|]; cbn [linked_to] in Lk.
    - destruct Lk as [d Ed]. unfold n. rewrite Ed, app_length. cbn [List.length]. destruct (Nat.ltb_spec 0 (List.length d + 1)); [|lia]. unfold at_. rewrite E, Ed, <- app_assoc, nth_error_app2 by lia.
      replace (List.length d + 1 - 1 - List.length d) with 0 by lia. reflexivity.
    - unfold n. rewrite Lk. reflexivity. }
  rewrite Enx. cbn [obind]. rewrite Epv. cbn [obind]. clear Enx Epv. destruct (p_amp p) as [amp|] eqn:Ea; [|exfalso; apply F, Ea].
  assert (Np : prev <> None -> (1 <? ng)%Z = true). { intros K. destruct prev as [q|]; [|congruence]. destruct Lk as [d Ed]. apply Z.ltb_lt. unfold ng. rewrite Hl. unfold n. rewrite Ed, app_length. cbn [List.length]. lia. }
  assert (Nn : hd_error rest <> None -> (1 <? ng)%Z = true). { intros K. destruct rest as [|q r]; [cbn in K; congruence|]. apply Z.ltb_lt. unfold ng. rewrite Hl. cbn [List.length]. lia. }
  pose proof (trunc_flo _ (fine_nn p F)) as Tm. pose proof (trunc_flo _ (width_nn p F)) as Tw. rewrite Tm, Tw.
  assert (Lpm : (L0 <= p_mean p)%Qc).
  { unfold L0. destruct prev as [q|]; cbn [linked_to] in Lk.
    - destruct Lk as [d Ed]. unfold n. rewrite Ed, app_length. cbn [List.length]. destruct (Nat.eqb_spec (List.length d + 1) 0); [lia|]. destruct Sn as (_ & K & _). destruct A as [_ A]. eapply Qcle_trans; eassumption.
    - unfold n. rewrite Lk. cbn [List.length Nat.eqb]. eapply Qcle_trans; [|apply fine_nn, F]. rewrite <- zq_0. apply zq_le. lia. }
  assert (LR0 : (L0 <= R0)%Qc).
  { unfold L0, R0. destruct prev as [q|]; cbn [linked_to] in Lk.
    - destruct Lk as [d Ed]. unfold n. rewrite Ed, app_length. cbn [List.length]. destruct (Nat.eqb_spec (List.length d + 1) 0); [lia|]. apply Sn.
    - unfold n. rewrite Lk. cbn [List.length Nat.eqb]. apply zq_le. lia. }
  (* the left edge *)
  match goal with |- context [obind ?x _] => match x with match prev with _ => _ end => set (lx := x) end end.
  assert (EL : exists l, lx = Ok (lo_of prev p, l) /\ (l <= p_mean p)%Qc /\ (l <= R0)%Qc).
  { unfold lx. clear lx. destruct prev as [q|]; cbn [lo_of]; [|exists L0; repeat split; assumption].
    rewrite Np by discriminate. cbn [andb]. destruct A as [Fq A]. destruct (qc_lt (p_mean p - q2 * p_sigma p) (p_mean q + q2 * p_sigma q)) eqn:O; [|exists L0; repeat split; assumption].
    rewrite eqb_pos by (apply Fq || apply F). exists (p_mean q + mid q p)%Qc. destruct (mid_range q p) as [M1 M2]; [apply Fq|apply F|exact A|]. fold (mid q p).
    rewrite (trunc_flo _ (fine_nn q Fq)), (trunc_flo _ M1). split; [reflexivity|]. split; [exact M2|].
    destruct Sn as (_ & _ & K). unfold R0. destruct Lk as [d Ed]. unfold n. rewrite Ed, app_length. cbn [List.length]. destruct (Nat.eqb_spec (List.length d + 1) 0); [lia|]. rewrite (K p eq_refl O). apply Qcle_refl. }
  clearbody lx. destruct EL as (l & -> & L1 & L2). cbn [obind].
  match goal with |- context [obind ?x _] => match x with match hd_error rest with _ => _ end => set (rx := x) end end.
  assert (ER : exists r, rx = Ok (hi_of p (hd_error rest), r) /\ (l <= r)%Qc /\ forall x, hd_error rest = Some x -> qc_lt (p_mean x - q2 * p_sigma x) (p_mean p + q2 * p_sigma p) = true -> r = (p_mean p + mid p x)%Qc).
  { unfold rx. clear rx. destruct (hd_error rest) as [q|] eqn:Eh; cbn [hi_of]; [|exists R0; repeat split; [assumption|discriminate]].
    rewrite Nn by discriminate. cbn [andb]. destruct B as [Fq B]. destruct (qc_lt (p_mean q - q2 * p_sigma q) (p_mean p + q2 * p_sigma p)) eqn:O.
    - rewrite eqb_pos by (apply Fq || apply F). exists (p_mean p + mid p q)%Qc. destruct (mid_range p q) as [M1 M2]; [apply F|apply Fq|exact B|]. rewrite (Qcplus_comm (p_sigma q) (p_sigma p)). fold (mid p q). unfold cut. fold (mid p q).
      rewrite (trunc_flo _ M1). split; [reflexivity|]. split. { clear - L1 M1. set (x := mid p q) in *. clearbody x. qclra. } intros x [= <-] _. reflexivity.
    - exists R0. split; [reflexivity|]. split; [exact L2|]. intros x [= <-] K. congruence. }
  clearbody rx. destruct ER as (r & -> & R1 & R2). cbn [obind fst snd].
  assert (Q : qc_lt (r - l) 0 = false) by (apply qc_lt_false; clear - R1; qclra). rewrite Q.
  pose proof (win_ok prev p (hd_error rest) F A B) as (W1 & W2). unfold win in W1, W2. cbn [fst snd] in W1, W2.
  assert (Ea' : (if (lo_of prev p <? startT)%Z then startT else lo_of prev p) = Z.max startT (lo_of prev p)) by (destruct (Z.ltb_spec (lo_of prev p) startT); lia).
  assert (Eb' : (if (endT <? hi_of p (hd_error rest))%Z then endT else hi_of p (hd_error rest)) = Z.min endT (hi_of p (hd_error rest))) by (destruct (Z.ltb_spec endT (hi_of p (hd_error rest))); lia).
  rewrite Ea', Eb'. destruct (Z.ltb_spec (Z.min endT (hi_of p (hd_error rest))) (Z.max startT (lo_of prev p))); [lia|].
  rewrite accumulate_ok by lia. cbn [obind]. rewrite accumulate_ok by lia. cbn [obind]. eexists. split; [reflexivity|]. cbn [s_num s_out s_left s_right]. split; [lia|]. split.
  - unfold hit_of, win. cbn [fst snd]. rewrite Ea. reflexivity.
  - unfold sane. cbn [s_left s_right]. auto.
Qed.

Lemma loop_ok : forall rest done prev s, peaks = done ++ rest -> linked_to prev done -> s_num s = List.length done ->
  StronglySorted (fun a b => p_mean a <= p_mean b)%Qc rest -> (forall x, In x rest -> fine x) -> match hd_error rest with Some p => after prev p | None => True end -> sane s prev (hd_error rest) ->
  exists s', foreach rest (one_peak sig plane roi startT endT peaks ng gof dof) s = Ok s' /\ s_out s' = s_out s ++ hits_from (List.length peaks) (List.length done) prev rest.
Proof.
  induction rest as [|p rest IH]; intros done prev s E Lk En Hs F A Sn; cbn [foreach hits_from].
  - exists s. split; [reflexivity|]. rewrite app_nil_r. reflexivity.
  - cbn [hd_error] in A, Sn. pose proof (after_tail p rest Hs F) as B.
    destruct (one_ok done p rest prev s E Lk En (F p (or_introl eq_refl)) A B Sn) as (s1 & E1 & N1 & O1 & S1). rewrite E1. cbn [obind].
    destruct (IH (done ++ [p]) (Some p) s1) as (s2 & E2 & O2).
    + rewrite E, <- app_assoc. reflexivity.
    + exists done. reflexivity.
    + rewrite app_length. cbn [List.length]. lia.
    + inversion Hs; assumption.
    + intros x Hx. apply F. right. exact Hx.
    + destruct (hd_error rest) as [q|]; [|exact Logic.I]. split; [apply F; left; reflexivity|apply B].
    + exact S1.
    + exists s2. split; [exact E2|]. rewrite O2, O1, <- app_assoc. cbn [app]. rewrite app_length. cbn [List.length]. replace (List.length done + 1) with (S (List.length done)) by lia. reflexivity.
Qed.
Lemma make_ok : tidy startT endT peaks -> make_hits sig plane roi startT endT peaks ng gof dof = Ok (hits_from (List.length peaks) 0 None peaks).
Proof.
  intros [T1 T2 T3 T4]. unfold make_hits. destruct (loop_ok peaks [] None (mkHst 0 [] 0%Qc 0%Qc)) as (s & E & O); [reflexivity|reflexivity|reflexivity|exact T1| |destruct peaks; exact Logic.I|exact Logic.I|].
  - intros x Hx. unfold fine. destruct (T3 x Hx). auto.
  - rewrite E. cbn [obind]. rewrite O. reflexivity.
Qed.
Lemma wins_apart : forall l prev z, StronglySorted (fun a b => p_mean a <= p_mean b)%Qc l -> (forall x, In x l -> fine x) -> match hd_error l with Some p => after prev p | None => True end ->
  (startT <= z <= endT)%Z -> (match prev, hd_error l with Some q, Some p => z <= hi_of q (Some p) | Some _, None => True | None, _ => z = startT end)%Z -> apart_in z (wins prev l) endT.
Proof.
  induction l as [|p l IH]; intros prev z Hs F A Hz Hp; cbn [wins]; [constructor; lia|]. pose proof (after_tail p l Hs F) as B. cbn [hd_error] in *.
  destruct (win_ok prev p (hd_error l) (F p (or_introl eq_refl)) A B) as [W1 W2]. destruct (win prev p (hd_error l)) as [lo hi] eqn:Ew. cbn [fst snd] in W1, W2.
  assert (El : lo = Z.max startT (lo_of prev p)) by (unfold win in Ew; congruence). assert (Eh : hi = Z.min endT (hi_of p (hd_error l))) by (unfold win in Ew; congruence).
  constructor.
  - split; [|lia]. destruct prev as [q|]; [|lia]. destruct A as [Fq A]. pose proof (win_apart q p Fq (F p (or_introl eq_refl)) A). lia.
  - apply IH; [inversion Hs; assumption|intros x Hx; apply F; right; exact Hx| |lia|].
    + destruct (hd_error l) as [q|]; [|exact Logic.I]. split; [apply F; left; reflexivity|apply B].
    + destruct (hd_error l) as [q|]; [|exact Logic.I]. lia.
Qed.
End Loop.

Lemma wins_length l : forall prev, List.length (wins prev l) = List.length l.
Proof. induction l as [|p l IH]; intros prev; cbn [wins List.length]; [reflexivity|]. rewrite IH. reflexivity. Qed.
Lemma hits_nth n : forall l prev i0 i, nth_error (hits_from n i0 prev l) i = match nth_error l i, nth_error (wins prev l) i with Some p, Some w => Some (hit_of n (i0 + i) p w) | _, _ => None end.
Proof.
  induction l as [|p l IH]; intros prev i0 i; [destruct i; reflexivity|]. destruct i; cbn [hits_from wins nth_error]; [rewrite Nat.add_0_r; reflexivity|]. rewrite IH. replace (S i0 + i) with (i0 + S i) by lia. reflexivity.
Qed.
Lemma wins_nth : forall l prev i p, nth_error l i = Some p -> nth_error (wins prev l) i = Some (win (match i with O => prev | S j => nth_error l j end) p (nth_error l (i + 1))).
Proof.
  induction l as [|q l IH]; intros prev i p H; [destruct i; discriminate|]. destruct i; cbn [nth_error wins] in *.
  - injection H as ->. destruct l; reflexivity.
  - rewrite (IH (Some q) i p H). destruct i; reflexivity.
Qed.
Lemma lo_edge prev p : left_edge prev p (lo_of prev p).
Proof. destruct prev as [q|]; cbn [left_edge lo_of]; [|reflexivity]. destruct (qc_lt _ _) eqn:E; [left; apply qc_lt_spec in E|right; apply qc_lt_false in E]; (split; [|reflexivity]); unfold overlap; fold q2; [exact E|apply Qcle_not_lt, E]. Qed.
Lemma hi_edge p next : right_edge p next (hi_of p next).
Proof. destruct next as [q|]; cbn [right_edge hi_of]; [|reflexivity]. destruct (qc_lt _ _) eqn:E; [left; apply qc_lt_spec in E|right; apply qc_lt_false in E]; (split; [|reflexivity]); unfold overlap; fold q2; [exact E|apply Qcle_not_lt, E]. Qed.
End W.
