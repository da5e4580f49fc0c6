(** Hits of arbitrary peaks, charges of the windows, flat peaks *)
From Coq Require Import QArith Qround Qcanon Lqa String.
From Verif Require Import Base QcUtil Solver_Model Solver_Proofs SPS_Model RFF_Spec GHF_Model GHF_Spec GHF_Long GHF_Windows.
Local Open Scope nat_scope.

Lemma ss_same_nil {A} (l : list A) : subseq [] l.
Proof. induction l; constructor; assumption. Qed.
Lemma subseq_app {A} (a a' b b' : list A) : subseq a a' -> subseq b b' -> subseq (a ++ b) (a' ++ b').
Proof. intros H K. induction H; cbn [app]; [exact K|constructor; assumption|constructor; assumption]. Qed.
Lemma subseq_length {A} (a b : list A) : subseq a b -> List.length a <= List.length b.
Proof. induction 1; cbn [List.length]; lia. Qed.

Section Any.
Context (sig : list Qc) (plane : nat) (roi startT endT : Z) (peaks : list peak) (ng : Z) (gof : Qc) (dof : Z).
Definition key_h (h : hit) : Qc * Qc * option Qc := (h_time h, h_rms h, Some (h_amp h)).
Definition key_p (p : peak) : Qc * Qc * option Qc := ((p_mean p + zq roi)%Qc, p_sigma p, p_amp p).
(** what every hit made from this pulse says *)
Definition says (i : nat) (h : hit) : Prop :=
  h_index h = i /\ h_mult h = ng /\ h_start h = (startT + roi)%Z /\ h_end h = (endT + roi)%Z /\ h_plane h = plane /\ h_gof h = gof /\ h_dof h = dof /\ h_roisum h = sum_ticks sig startT endT /\
  exists lo hi, (startT <= lo <= hi)%Z /\ (hi <= endT)%Z /\ h_sum h = sum_ticks sig lo hi.
Definition ok_state (done : list peak) (s : hst) : Prop :=
  s_num s = List.length (s_out s) /\ (forall i h, nth_error (s_out s) i = Some h -> says i h) /\ subseq (map key_h (s_out s)) (map key_p done).
Lemma skip done p s x y : ok_state done s -> ok_state (done ++ [p]) (mkHst (s_num s) (s_out s) x y).
Proof. intros (A & B & C). split; [exact A|]. split; [exact B|]. cbn [s_out]. rewrite map_app. rewrite <- (app_nil_r (map key_h (s_out s))). apply subseq_app; [exact C|apply ss_same_nil]. Qed.
Lemma obind_inv {A B} (x : outcome A) (f : A -> outcome B) b : obind x f = Ok b -> exists a, x = Ok a /\ f a = Ok b.
Proof. destruct x as [a| |]; cbn [obind]; intros H; try discriminate. eauto. Qed.
Lemma one_any done p s s' : ok_state done s -> one_peak sig plane roi startT endT peaks ng gof dof s p = Ok s' -> ok_state (done ++ [p]) s'.
Proof.
  intros H E. unfold one_peak in E. apply obind_inv in E. destruct E as (next & _ & E). apply obind_inv in E. destruct E as (prev & _ & E).
  destruct (p_amp p) as [amp|] eqn:Ea; [|injection E as <-; apply skip, H].
  apply obind_inv in E. destruct E as (l & _ & E). apply obind_inv in E. destruct E as (r & _ & E).
  destruct (qc_lt _ _); [injection E as <-; apply skip, H|].
  set (a := if (fst l <? startT)%Z then startT else fst l) in *. set (b := if (endT <? fst r)%Z then endT else fst r) in *.
  destruct (Z.ltb_spec b a); [injection E as <-; apply skip, H|].
  apply obind_inv in E. destruct E as (rs & Ers & E). apply obind_inv in E. destruct E as (hs & Ehs & E). injection E as <-.
  apply accumulate_inv in Ers, Ehs. destruct Ers as (_ & _ & ->). destruct Ehs as (_ & _ & ->). destruct H as (A & B & C).
  assert (Ha : (startT <= a)%Z) by (unfold a; destruct (Z.ltb_spec (fst l) startT); lia). assert (Hb : (b <= endT)%Z) by (unfold b; destruct (Z.ltb_spec endT (fst r)); lia).
  split; [cbn [s_num s_out]; rewrite app_length, A; reflexivity|]. cbn [s_out]. split.
  - intros i h Hi. destruct (Nat.lt_ge_cases i (List.length (s_out s))) as [Hl|Hl]; [rewrite nth_error_app1 in Hi by exact Hl; apply B, Hi|].
    rewrite nth_error_app2 in Hi by exact Hl. destruct (i - List.length (s_out s)) as [|k] eqn:Ek; [|destruct k; discriminate]. cbn [nth_error] in Hi. injection Hi as <-.
    unfold says. cbn [h_index h_mult h_start h_end h_plane h_gof h_dof h_roisum h_sum]. assert (i = s_num s) by lia. repeat split; try congruence. exists a, b. split; [lia|]. split; [exact Hb|reflexivity].
  - rewrite !map_app. apply subseq_app; [exact C|]. cbn [map]. unfold key_h, key_p. cbn [h_time h_rms h_amp]. rewrite Ea. constructor. constructor.
Qed.
Lemma any_ok hits : make_hits sig plane roi startT endT peaks ng gof dof = Ok hits -> (forall i h, nth_error hits i = Some h -> says i h) /\ subseq (map key_h hits) (map key_p peaks).
Proof.
  intros E. unfold make_hits in E. apply obind_inv in E. destruct E as (s & E & [= <-]).
  assert (G : forall rest done s0, ok_state done s0 -> foreach rest (one_peak sig plane roi startT endT peaks ng gof dof) s0 = Ok s -> ok_state (done ++ rest) s).
  { induction rest as [|p rest IH]; intros done s0 H K; cbn [foreach] in K; [injection K as <-; rewrite app_nil_r; exact H|].
    apply obind_inv in K. destruct K as (s1 & K1 & K2). replace (done ++ p :: rest) with ((done ++ [p]) ++ rest) by (rewrite <- app_assoc; reflexivity). eapply IH; [|exact K2]. eapply one_any; eassumption. }
  specialize (G peaks [] (mkHst 0 [] 0%Qc 0%Qc)). destruct G as (A & B & C); [|exact E|split; assumption].
  split; [reflexivity|]. split; [intros i h; cbn [s_out]; destruct i; discriminate|constructor].
Qed.
End Any.

(** charges *)
Lemma sum_split sig a b c : (0 <= a <= b)%Z -> (b <= c)%Z -> sum_ticks sig a c = (sum_ticks sig a b + sum_ticks sig b c)%Qc.
Proof.
  intros H1 H2. unfold sum_ticks. replace (Z.to_nat (c - a)) with (Z.to_nat (b - a) + Z.to_nat (c - b)) by lia. rewrite seq_app, qsum_app. replace (Z.to_nat a + Z.to_nat (b - a)) with (Z.to_nat b) by lia. reflexivity.
Qed.
Lemma sum_nonneg sig a b : (forall x, In x sig -> (0 <= x)%Qc) -> (0 <= sum_ticks sig a b)%Qc.
Proof.
  intros H. unfold sum_ticks. generalize (seq (Z.to_nat a) (Z.to_nat (b - a))). intros l. induction l as [|t l IH]; [apply Qcle_refl|]. rewrite qsum_cons.
  assert (0 <= nth t sig 0)%Qc. { destruct (Nat.lt_ge_cases t (List.length sig)); [apply H, nth_In; assumption|rewrite nth_overflow by assumption; apply Qcle_refl]. } set (x := nth t sig 0%Qc) in *. set (y := qsum _ l) in *. clearbody x y. qclra.
Qed.
Lemma apart_le a l z : apart_in a l z -> (a <= z)%Z.
Proof. induction 1; lia. Qed.
Lemma apart_sum sig : (forall x, In x sig -> (0 <= x)%Qc) -> forall a l z, apart_in a l z -> (0 <= a)%Z -> (qsum (fun w => sum_ticks sig (fst w) (snd w)) l <= sum_ticks sig a z)%Qc.
Proof.
  intros Hs a l z H. induction H as [a z H|a lo hi l z H K IH]; intros Ha; [apply sum_nonneg, Hs|]. rewrite qsum_cons. cbn [fst snd]. specialize (IH ltac:(lia)). pose proof (apart_le _ _ _ K) as Hz.
  rewrite (sum_split sig a lo z) by lia. rewrite (sum_split sig lo hi z) by lia. pose proof (sum_nonneg sig a lo Hs) as N. set (x := sum_ticks sig a lo) in *. set (y := sum_ticks sig lo hi) in *. set (v := sum_ticks sig hi z) in *. set (u := qsum _ l) in *. clearbody x y u v. qclra.
Qed.
Lemma consec_sum sig a l z : consecutive a l z -> (0 <= a)%Z -> qsum (fun w => sum_ticks sig (fst w) (snd w)) l = sum_ticks sig a z.
Proof.
  induction 1 as [a|a b l z H K IH]; intros Ha; [unfold sum_ticks; rewrite Z.sub_diag; reflexivity|]. rewrite qsum_cons. cbn [fst snd]. rewrite IH by lia. symmetry. apply sum_split; [lia|]. clear - K. induction K; lia.
Qed.

(** flat peaks are tidy *)
Lemma consec_in a l z : consecutive a l z -> (a <= z)%Z /\ forall iv, In iv l -> (a <= fst iv /\ fst iv < snd iv /\ snd iv <= z)%Z.
Proof. induction 1 as [a|a b l z H K [IH1 IH2]]; [split; [lia|intros iv []]|]. split; [lia|]. intros iv [<-|Hi]; [cbn [fst snd]; lia|]. specialize (IH2 iv Hi). lia. Qed.
Lemma third_pos k : (0 < k)%Z -> (0 < Q2Qc (inject_Z k) / Q2Qc (3 # 1))%Qc.
Proof. intros H. apply zq_lt in H. unfold zq in H. change (Q2Qc (inject_Z 0)) with 0%Qc in H. set (x := Q2Qc (inject_Z k)) in *. clearbody x. change (x / Q2Qc (3 # 1))%Qc with (x * Q2Qc (1 # 3))%Qc. qclra. Qed.
Lemma half_le a b : (a <= b)%Z -> (Q2Qc (inject_Z a) / Q2Qc (2 # 1) <= Q2Qc (inject_Z b) / Q2Qc (2 # 1))%Qc.
Proof. intros H. apply zq_le in H. unfold zq in H. set (x := Q2Qc (inject_Z a)) in *. set (y := Q2Qc (inject_Z b)) in *. clearbody x y. change (x / Q2Qc (2 # 1))%Qc with (x * Q2Qc (1 # 2))%Qc. change (y / Q2Qc (2 # 1))%Qc with (y * Q2Qc (1 # 2))%Qc. qclra. Qed.
Lemma half_double a : (Q2Qc (inject_Z (a + a)) / Q2Qc (2 # 1) = Q2Qc (inject_Z a))%Qc.
Proof. change (Q2Qc (inject_Z (a + a))) with (zq (a + a)). rewrite zq_plus. fold (zq a). set (x := zq a). clearbody x. change ((x + x) / Q2Qc (2 # 1))%Qc with ((x + x) * Q2Qc (1 # 2))%Qc. qclra. Qed.
Lemma flat_tidy sig a l z e : consecutive a l z -> (z <= e)%Z -> tidy a e (map (flat_peak sig) l).
Proof.
  intros H Hz. destruct (consec_in _ _ _ H) as [Haz Hin]. split.
  - clear Hz Hin Haz. induction H as [a|a b l z H K IH]; cbn [map]; [constructor|]. constructor; [exact IH|]. apply Forall_forall. intros p Hp. apply in_map_iff in Hp. destruct Hp as (iv & <- & Hi).
    destruct (consec_in _ _ _ K) as [_ Hin]. specialize (Hin iv Hi). cbn [flat_peak p_mean]. apply half_le. cbn [fst snd]. lia.
  - intros p Hp. apply in_map_iff in Hp. destruct Hp as (iv & <- & Hi). specialize (Hin iv Hi). cbn [flat_peak p_sigma]. apply third_pos. lia.
  - intros p Hp. apply in_map_iff in Hp. destruct Hp as (iv & <- & Hi). specialize (Hin iv Hi). cbn [flat_peak p_mean]. split.
    + rewrite <- half_double. apply half_le. lia.
    + rewrite <- (half_double e). apply half_le. lia.
  - intros p Hp. apply in_map_iff in Hp. destruct Hp as (iv & <- & Hi). discriminate.
Qed.
