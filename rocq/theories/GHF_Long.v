(** Long pulses *)
From Coq Require Import QArith Qround Qcanon Lqa String.
From Verif Require Import Base QcUtil Solver_Model Solver_Proofs SPS_Model GHF_Model GHF_Spec.
Local Open Scope nat_scope.

Lemma fold_plus l (a : Qc) : fold_left Qcplus l a = (a + qsum (fun x => x) l)%Qc.
Proof. revert a. induction l as [|x l IH]; intros a; cbn [fold_left]; [cbn [qsum fold_right]; ring|]. rewrite IH, qsum_cons. ring. Qed.
Lemma qsum_slice (sig : list Qc) a n : a + n <= List.length sig -> qsum (fun x => x) (firstn n (skipn a sig)) = qsum (fun t => nth t sig 0%Qc) (seq a n).
Proof.
  revert a. induction n as [|n IH]; intros a H; [reflexivity|]. cbn [seq]. rewrite qsum_cons, <- (IH (S a)) by lia.
  assert (E : skipn a sig = nth a sig 0%Qc :: skipn (S a) sig).
  { clear IH. revert a H. induction sig as [|x l IH]; intros a H; [cbn [List.length] in H; lia|]. destruct a; [reflexivity|]. cbn [List.length] in H. exact (IH a ltac:(lia)). }
  rewrite E. reflexivity.
Qed.
Lemma accumulate_ok sig a b : (0 <= a <= b)%Z -> (b <= Z.of_nat (List.length sig))%Z -> accumulate sig a b = Ok (sum_ticks sig a b).
Proof.
  intros H1 H2. unfold accumulate. destruct (Z.leb_spec 0 a); [|lia]. destruct (Z.leb_spec a b); [|lia]. destruct (Z.leb_spec b (Z.of_nat (List.length sig))); [|lia].
  cbn [andb]. f_equal. rewrite fold_plus, qsum_slice by lia. unfold sum_ticks. ring.
Qed.
Lemma accumulate_inv sig a b x : accumulate sig a b = Ok x -> (0 <= a <= b)%Z /\ (b <= Z.of_nat (List.length sig))%Z /\ x = sum_ticks sig a b.
Proof.
  intros H. assert (K : (0 <= a <= b)%Z /\ (b <= Z.of_nat (List.length sig))%Z).
  { unfold accumulate in H. destruct (Z.leb_spec 0 a); [|discriminate]. destruct (Z.leb_spec a b); [|discriminate]. destruct (Z.leb_spec b (Z.of_nat (List.length sig))); [|discriminate]. lia. }
  destruct K as [K1 K2]. rewrite (accumulate_ok sig a b K1 K2) in H. injection H as <-. auto.
Qed.

Lemma ticks_ok w endT : (0 < w)%Z -> forall k first last, (first < last <= endT)%Z -> (last = Z.min (first + w) endT)%Z -> (Z.of_nat k * w < endT - first + w)%Z ->
  consecutive first (long_ticks k first last w endT) (Z.min (first + Z.of_nat k * w) endT) /\ forall iv, In iv (long_ticks k first last w endT) -> (first <= fst iv /\ snd iv <= endT /\ fst iv < snd iv /\ snd iv - fst iv <= w)%Z.
Proof.
  intros Hw. induction k as [|k IH]; intros first last H1 H2 H3; cbn [long_ticks].
  - split; [replace (Z.min (first + Z.of_nat 0 * w) endT) with first by lia; constructor|intros iv []].
  - destruct (Nat.eq_dec k 0) as [->|Hk].
    + cbn [long_ticks]. replace (Z.min (first + Z.of_nat 1 * w) endT) with last by lia. split; [constructor; [lia|constructor]|]. intros iv [<-|[]]. cbn [fst snd]. lia.
    + assert (L : (last = first + w)%Z) by nia. destruct (IH last (Z.min (last + w) endT)%Z) as [A B]; [nia|reflexivity|nia|].
      split. { constructor; [lia|]. replace (Z.min (first + Z.of_nat (S k) * w) endT) with (Z.min (last + Z.of_nat k * w) endT) by nia. exact A. }
      intros iv [<-|Hi]; [cbn [fst snd]; lia|]. specialize (B iv Hi). lia.
Qed.
Lemma ticks_length w endT k first last : List.length (long_ticks k first last w endT) = k.
Proof. revert first last. induction k as [|k IH]; intros first last; cbn [long_ticks List.length]; [reflexivity|]. rewrite IH. reflexivity. Qed.

(** number and width of the pieces, and where the last one stops *)
Lemma params_ok s e w mx : (s < e)%Z -> (0 < w)%Z -> (0 < mx)%Z -> exists n w', long_params s e w mx = Ok (n, w') /\ (n = pieces (e - s) w mx)%Z /\ (0 < w')%Z /\ (0 < n)%Z /\ (n * w' < e - s + w')%Z /\
  (Z.min (s + n * w') e = e - lost (e - s) w mx)%Z /\ (n <= mx + 1)%Z /\ (w' <= Z.max w ((e - s) / mx))%Z.
Proof.
  intros H Hw Hm. unfold long_params, pieces, lost. set (L := (e - s)%Z) in *. assert (HL : (0 < L)%Z) by (unfold L; lia). destruct (Z.eqb_spec w 0); [lia|]. rewrite !Z.quot_div_nonneg by lia.
  pose proof (Z.div_mod L w) as D1. pose proof (Z.mod_pos_bound L w Hw) as M1. pose proof (Z.div_mod L mx) as D2. pose proof (Z.mod_pos_bound L mx Hm) as M2.
  set (q := (L / w)%Z) in *. set (r := (L mod w)%Z) in *. set (q' := (L / mx)%Z) in *. set (r' := (L mod mx)%Z) in *.
  destruct (Z.ltb_spec mx q) as [C|C].
  - destruct (Z.eqb_spec mx 0); [lia|]. cbn [obind fst snd]. assert (Hq : (0 < q')%Z) by nia.
    destruct (Z.ltb_spec (mx * q') L) as [K|K].
    + exists (mx + 1)%Z, q'. split; [reflexivity|]. destruct (Z.eqb_spec r' 0); [nia|]. repeat split; try lia; nia.
    + exists mx, q'. split; [reflexivity|]. destruct (Z.eqb_spec r' 0); [|nia]. repeat split; try lia; nia.
  - cbn [obind fst snd]. assert (E : ((L + w - 1) / w = if r =? 0 then q else q + 1)%Z).
    { destruct (Z.eqb_spec r 0).
      - symmetry. apply (Z.div_unique (L + w - 1) w q (w - 1)); nia.
      - symmetry. apply (Z.div_unique (L + w - 1) w (q + 1) (r - 1)); nia. }
    rewrite E. destruct (Z.ltb_spec (q * w) L) as [K|K]; (eexists _, _; split; [reflexivity|]); destruct (Z.eqb_spec r 0); try (exfalso; nia); repeat split; try lia; nia.
Qed.

Lemma foreach_peaks sig : forall ivs acc, (forall iv, In iv ivs -> (0 <= fst iv < snd iv)%Z /\ (snd iv <= Z.of_nat (List.length sig))%Z) ->
  foreach ivs (fun acc fl => do p <- long_peak sig fl; Ok (acc ++ [p])) acc = Ok (acc ++ map (flat_peak sig) ivs).
Proof.
  induction ivs as [|iv ivs IH]; intros acc H; cbn [foreach map]; [rewrite app_nil_r; reflexivity|].
  unfold long_peak at 1. destruct (H iv (or_introl eq_refl)) as [A B]. rewrite accumulate_ok by lia. cbn [obind]. rewrite IH by (intros; apply H; right; assumption).
  rewrite <- app_assoc. reflexivity.
Qed.
Lemma long_ok sig s e w mx : (0 <= s < e)%Z -> (e <= Z.of_nat (List.length sig))%Z -> (0 < w)%Z -> (0 < mx)%Z ->
  exists ivs w', long_params s e w mx = Ok (pieces (e - s) w mx, w') /\ long_peaks sig s e w mx = Ok (map (flat_peak sig) ivs) /\ consecutive s ivs (e - lost (e - s) w mx) /\ Z.of_nat (List.length ivs) = pieces (e - s) w mx /\ (pieces (e - s) w mx <= mx + 1)%Z /\
    forall iv, In iv ivs -> (s <= fst iv /\ snd iv <= e /\ fst iv < snd iv /\ snd iv - fst iv <= Z.max w ((e - s) / mx))%Z.
Proof.
  intros H1 H2 Hw Hm. destruct (params_ok s e w mx) as (n & w' & E & En & Hw' & Hn & B & C & D & F); [lia|lia|lia|]. exists (long_ticks (Z.to_nat n) s (Z.min (s + w') e) w' e), w'. rewrite <- En.
  assert (Hb : (Z.of_nat (Z.to_nat n) * w' < e - s + w')%Z) by (rewrite Z2Nat.id by lia; exact B).
  destruct (ticks_ok w' e Hw' (Z.to_nat n) s (Z.min (s + w') e)) as [X Y]; [lia|reflexivity|exact Hb|].
  rewrite Z2Nat.id, C in X by lia. split; [exact E|]. split.
  { unfold long_peaks. rewrite E. cbn [obind fst snd]. rewrite foreach_peaks; [reflexivity|]. intros iv Hi. specialize (Y iv Hi). lia. }
  split; [exact X|]. split; [rewrite ticks_length; apply Z2Nat.id; lia|]. split; [exact D|]. intros iv Hi. specialize (Y iv Hi). lia.
Qed.
