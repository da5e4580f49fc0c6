(** C55: erosion and dilation; C56: opening and closing *)
From Coq Require Import QArith Qcanon Lqa.
From Verif Require Import Base QcUtil Solver_Model Solver_Proofs CMgr_Proofs WT_Model WT_Spec WT_Morph.
Local Open Scope nat_scope.

Lemma half_ge se : (2 <= se)%Z -> (1 <= half se)%Z. Proof. intros H. apply Z.quot_le_lower_bound; lia. Qed.
(** the half width used *)
Definition hw (w : list Qc) (se : Z) : nat := Nat.min (Z.to_nat (se / 2)) (length w).
Lemma hw_half w se : (2 <= se)%Z -> Z.to_nat (Z.min (half se) (Z.of_nat (length w))) = hw w se.
Proof. intros H. unfold hw, half. rewrite Z.quot_div_nonneg by lia. lia. Qed.

Lemma morph_ok w se : (2 <= se)%Z -> exists ero dil, erosion_dilation w se = Ok (ero, dil, map (fun p => (snd p + fst p) / two)%Qc (List.combine ero dil), map (fun p => snd p - fst p)%Qc (List.combine ero dil)) /\
  length ero = length w /\ length dil = length w /\
  forall i, i < length w -> win_lo (length w) (hw w se) i <= i <= win_hi (length w) (hw w se) i /\
    exists a b, nth_error ero i = Some a /\ nth_error dil i = Some b /\ least_in w (win_lo (length w) (hw w se) i) (win_hi (length w) (hw w se) i) a /\ greatest_in w (win_lo (length w) (hw w se) i) (win_hi (length w) (hw w se) i) b.
Proof.
  intros H. assert (Hh := half_ge se H). unfold erosion_dilation. destruct (Z.ltb_spec (Z.min (half se) (Z.of_nat (length w))) 0); [lia|]. rewrite hw_half by exact H. destruct w as [|w0 w'] eqn:Ew.
  - exists [], []. replace (hw [] se) with 0 by (unfold hw; cbn [length]; lia). cbn. split; [reflexivity|]. split; [reflexivity|]. split; [reflexivity|]. intros i Hi. lia.
  - rewrite <- Ew in *. assert (L : length w <> 0) by (rewrite Ew; discriminate). assert (Hw : 1 <= hw w se <= length w) by (unfold hw; assert (1 <= se / 2)%Z by (apply Z.div_le_lower_bound; lia); lia). set (h := hw w se) in *. clearbody h.
    destruct (best_elem_ok smaller Qcle Qcle_refl Qcle_trans smaller_t smaller_f w 0 h ltac:(lia) ltac:(lia)) as (mn & E1 & B1). destruct (best_elem_ok larger_eq ge Qcle_refl ge_tr larger_eq_t larger_eq_f w 0 h ltac:(lia) ltac:(lia)) as (mx & E2 & B2). rewrite E1. cbn [obind]. rewrite E2. cbn [obind].
    destruct (morph_loop w h mn mx Hw B1 B2 (length w) (le_n _)) as (mn' & mx' & ero & dil & E & _ & _ & (L1 & S1) & (L2 & S2)). rewrite E. cbn [obind snd]. exists ero, dil. split; [reflexivity|]. split; [exact L1|]. split; [exact L2|]. intros i Hi. split; [unfold win_lo, win_hi; lia|].
    destruct (S1 i Hi) as (e1 & C1 & D1). destruct (S2 i Hi) as (e2 & C2 & D2). exists (nth e1 w 0%Qc), (nth e2 w 0%Qc). split; [exact D1|]. split; [exact D2|]. split; [apply best_least; [lia|exact C1]|apply best_greatest; [lia|exact C2]].
Qed.
(** C55: with a structuring element of at least 2, erosion (dilation) at each tick is the least (greatest) sample of the tick's window, which
    contains the tick; average and difference are those of the two *)
Theorem c55_erosion_dilation_partial w se : (2 <= se)%Z -> exists ero dil ave dif, erosion_dilation w se = Ok (ero, dil, ave, dif) /\
  length ero = length w /\ length dil = length w /\ length ave = length w /\ length dif = length w /\
  forall i x, nth_error w i = Some x ->
    let lo := win_lo (length w) (hw w se) i in let hi := win_hi (length w) (hw w se) i in
    lo <= i <= hi /\
    exists a b, nth_error ero i = Some a /\ nth_error dil i = Some b /\ nth_error ave i = Some ((b + a) / two)%Qc /\ nth_error dif i = Some (b - a)%Qc /\
      least_in w lo hi a /\ greatest_in w lo hi b /\ (a <= x)%Qc /\ (x <= b)%Qc.
Proof.
  intros H. destruct (morph_ok w se H) as (ero & dil & E & L1 & L2 & S). eexists. eexists. eexists. eexists. split; [exact E|]. rewrite !map_length, !combine_length. split; [exact L1|]. split; [exact L2|]. split; [lia|]. split; [lia|].
  intros i x Ex. assert (Hi : i < length w) by (apply nth_error_Some; congruence). destruct (S i Hi) as (W & a & b & Ea & Eb & A & B). cbv zeta. split; [exact W|]. exists a, b. assert (Ec : nth_error (List.combine ero dil) i = Some (a, b)).
  { clear -Ea Eb. revert dil i Ea Eb. induction ero as [|u l IH]; intros [|u' l'] [|i] Ea Eb; cbn in *; try discriminate; [congruence|]. apply IH; assumption. }
  rewrite !nth_error_map, Ec. repeat (split; [assumption || reflexivity|]). split; [exact (proj2 A i x W Ex)|exact (proj2 B i x W Ex)].
Qed.
(** refuted for smaller structuring elements: any waveform is read past its end *)
Theorem c55_small_element_refuted w se : w <> [] -> (se < 2)%Z -> erosion_dilation w se = Undef.
Proof.
  intros Hw H. unfold erosion_dilation. assert (Hh : (half se <= 0)%Z) by (unfold half; destruct (Z.ltb_spec se 0); [apply Z.quot_le_upper_bound; lia|assert (se = 0 \/ se = 1)%Z as [->| ->] by lia; discriminate]).
  destruct (Z.ltb_spec (Z.min (half se) (Z.of_nat (length w))) 0) as [X|X]; [reflexivity|]. assert (X0 : Z.to_nat (Z.min (half se) (Z.of_nat (length w))) = 0) by lia. rewrite X0. cbn [best_elem Nat.ltb Nat.leb obind].
  set (body := fun st i => _). assert (P : forall k, k < length w -> exists r, foreach (seq 0 k) body (0, 0, ([], [], [], [])) = Ok (k, k, r)).
  { induction k as [|k IH]; intros Hk; [eexists; reflexivity|]. destruct (IH ltac:(lia)) as ((((e & d) & a) & f) & E). rewrite seq_S, foreach_app, E. cbn [obind foreach plus]. unfold body. unfold next_el. destruct (Nat.ltb_spec 0 (length w - k)); [|lia]. rewrite Nat.add_0_l, Nat.leb_refl. replace (k + 1 - 0) with (S k) by lia. replace (k + 0 + 1) with (S k) by lia. unfold best_elem. rewrite Nat.ltb_irrefl. cbn [obind]. rewrite !idx_v by lia. cbn [obind]. eexists. reflexivity. }
  assert (Hl : 0 < length w) by (destruct w; [congruence|cbn; lia]). destruct (P (length w - 1) ltac:(lia)) as ((((e & d) & a) & f) & E). assert (Es : seq 0 (length w) = seq 0 (length w - 1) ++ [length w - 1]) by (assert (Q := seq_S (length w - 1) 0); cbn [plus] in Q; rewrite <- Q; f_equal; lia). rewrite Es, foreach_app, E. cbn [obind foreach plus]. unfold body. unfold next_el. destruct (Nat.ltb_spec 0 (length w - (length w - 1))); [|lia]. rewrite Nat.add_0_l, Nat.leb_refl. replace (length w - 1 + 1 - 0) with (length w) by lia. replace (length w - 1 + 0 + 1) with (length w) by lia. unfold best_elem. rewrite Nat.ltb_irrefl. cbn [obind].
  unfold idx. assert (Xn : nth_error w (length w) = None) by (apply nth_error_None; lia). rewrite Xn. reflexivity.
Qed.

(* ------------------------------------------------------------ C56 *)
Lemma sel_in R (w out : list Qc) h i : (1 <= h) -> selected R w h out (length w) -> i < length w -> exists el, best R w (wlo w h i) (whi w h i) el /\ nth_error out i = Some (nth el w 0%Qc).
Proof. intros _ (_ & S) Hi. exact (S i Hi). Qed.
Lemma win_meet_half n h i j k : 1 <= h <= n -> i < n -> win_lo n h i <= j <= win_hi n h i -> win_lo n h i <= k <= win_hi n h i -> win_lo n h k <= win_hi n h j.
Proof. unfold win_lo, win_hi. intros. destruct (Nat.min_spec i (n - 1 - h)) as [[? E]|[? E]]; rewrite E in *; lia. Qed.
Lemma win_ne n h j : 1 <= h <= n -> j < n -> win_lo n h j <= win_hi n h j /\ win_hi n h j < n.
Proof. unfold win_lo, win_hi. lia. Qed.
Lemma win_meet n h i j k : 1 <= h <= n -> i < n -> j < n -> k < n -> win_lo n h i <= j <= win_hi n h i -> win_lo n h i <= k <= win_hi n h i ->
  exists m, win_lo n h j <= m <= win_hi n h j /\ win_lo n h k <= m <= win_hi n h k /\ m < n.
Proof.
  intros H Hi Hj Hk J K. assert (A := win_meet_half n h i j k H Hi J K). assert (B := win_meet_half n h i k j H Hi K J). destruct (win_ne n h j H Hj). destruct (win_ne n h k H Hk).
  exists (Nat.max (win_lo n h j) (win_lo n h k)). destruct (Nat.max_spec (win_lo n h j) (win_lo n h k)) as [[? ->]|[? ->]]; lia.
Qed.
(** opening (closing) is the greatest erosion (least dilation) in the tick's window; they lie between erosion and dilation, in this order *)
Theorem c56_opening_closing_partial w se ero dil ave dif : (2 <= se)%Z -> (se / 2 <= Z.of_nat (length w))%Z -> erosion_dilation w se = Ok (ero, dil, ave, dif) ->
  exists op cl, opening_closing ero dil se = Ok (op, cl) /\ length op = length w /\ length cl = length w /\
  forall i, i < length w -> let lo := win_lo (length w) (hw w se) i in let hi := win_hi (length w) (hw w se) i in
    exists a b o c, nth_error ero i = Some a /\ nth_error dil i = Some b /\ nth_error op i = Some o /\ nth_error cl i = Some c /\
      greatest_in ero lo hi o /\ least_in dil lo hi c /\ (a <= o)%Qc /\ (o <= c)%Qc /\ (c <= b)%Qc.
Proof.
  intros H Hn E. destruct (morph_ok w se H) as (ero' & dil' & E' & L1 & L2 & S). rewrite E' in E. injection E as <- <- _ _. rename ero' into ero, dil' into dil. clear E'.
  assert (Hh := half_ge se H). assert (Hd : half se = (se / 2)%Z) by (unfold half; apply Z.quot_div_nonneg; lia). assert (Hw : Z.to_nat (half se) = hw w se) by (unfold hw; rewrite Hd; lia).
  destruct (slide_ok larger ge Qcle_refl ge_tr larger_t larger_f ero se H ltac:(lia)) as (op & Eo & Lo & So). destruct (slide_ok smaller Qcle Qcle_refl Qcle_trans smaller_t smaller_f dil se H ltac:(lia)) as (cl & Ec & Lc & Sc).
  unfold opening_closing. rewrite Eo. cbn [obind]. rewrite Ec. cbn [obind]. exists op, cl. split; [reflexivity|]. split; [lia|]. split; [lia|]. intros i Hi. cbv zeta. set (h := hw w se) in *. assert (Hh1 : 1 <= h) by lia.
  destruct (S i Hi) as (W & a & b & Ea & Eb & A & B). destruct (So i ltac:(lia)) as (eo & Bo & No). destruct (Sc i ltac:(lia)) as (ec & Bc & Nc). exists a, b, (nth eo ero 0%Qc), (nth ec dil 0%Qc). split; [exact Ea|]. split; [exact Eb|]. split; [exact No|]. split; [exact Nc|].
  rewrite Hw in Bo, Bc. apply best_greatest in Bo; [|lia]. apply best_least in Bc; [|lia]. rewrite L1 in Bo. rewrite L2 in Bc. split; [exact Bo|]. split; [exact Bc|].
  split; [exact (proj2 Bo i a W Ea)|]. split; [|exact (proj2 Bc i b W Eb)].
  destruct Bo as ((j & Hj & Ej) & _). destruct Bc as ((k & Hk & Ek) & _). assert (Hj' : j < length w) by (unfold win_hi in Hj; lia). assert (Hk' : k < length w) by (unfold win_hi in Hk; lia). destruct (S j Hj') as (Wj & aj & bj & Eaj & _ & Aj & _). destruct (S k Hk') as (Wk & ak & bk & _ & Ebk & _ & Bk). rewrite Ej in Eaj. injection Eaj as <-. rewrite Ek in Ebk. injection Ebk as <-.
  (* a tick common to the windows of j and k *)
  assert (X : exists m, win_lo (length w) h j <= m <= win_hi (length w) h j /\ win_lo (length w) h k <= m <= win_hi (length w) h k /\ m < length w).
  { apply (win_meet (length w) h i j k); try assumption. unfold h, hw in *. lia. }
  destruct X as (m & M1 & M2 & Hm). destruct (nth_error w m) as [x|] eqn:Ex; [|apply nth_error_None in Ex; lia]. eapply Qcle_trans; [exact (proj2 Aj m x M1 Ex)|exact (proj2 Bk m x M2 Ex)].
Qed.
(** refuted: the opening can exceed the waveform, and the closing can be below it, which a morphological opening and closing never do *)
Definition qs (l : list Z) : list Qc := map (fun z => Q2Qc (inject_Z z)) l.
Theorem c56_opening_below_waveform_refuted : exists w w' ero dil ave dif ero' dil' ave' dif' op cl op' cl',
  erosion_dilation w 2 = Ok (ero, dil, ave, dif) /\ opening_closing ero dil 2 = Ok (op, cl) /\ (nth 0 w 0 < nth 0 op 0)%Qc /\
  erosion_dilation w' 2 = Ok (ero', dil', ave', dif') /\ opening_closing ero' dil' 2 = Ok (op', cl') /\ (nth 0 cl' 0 < nth 0 w' 0)%Qc.
Proof.
  assert (A : match erosion_dilation (qs [0; 5; 5]%Z) 2 with Ok (ero, dil, _, _) => match opening_closing ero dil 2 with Ok (op, _) => qc_lt (nth 0 (qs [0; 5; 5]%Z) 0%Qc) (nth 0 op 0%Qc) | _ => false end | _ => false end = true) by (vm_compute; reflexivity).
  assert (B : match erosion_dilation (qs [5; 0; 0]%Z) 2 with Ok (ero, dil, _, _) => match opening_closing ero dil 2 with Ok (_, cl) => qc_lt (nth 0 cl 0%Qc) (nth 0 (qs [5; 0; 0]%Z) 0%Qc) | _ => false end | _ => false end = true) by (vm_compute; reflexivity).
  exists (qs [0; 5; 5]%Z), (qs [5; 0; 0]%Z).
  destruct (erosion_dilation (qs [0; 5; 5]%Z) 2) as [[[[ero dil] ave] dif]| |]; try discriminate A. destruct (erosion_dilation (qs [5; 0; 0]%Z) 2) as [[[[ero' dil'] ave'] dif']| |]; try discriminate B.
  destruct (opening_closing ero dil 2) as [[op cl]| |] eqn:F; try discriminate A. destruct (opening_closing ero' dil' 2) as [[op' cl']| |] eqn:F'; try discriminate B.
  exists ero, dil, ave, dif, ero', dil', ave', dif', op, cl, op', cl'. apply qc_lt_spec in A, B. repeat split; assumption.
Qed.
(** refuted: a structuring element of more than twice the length of the vectors is read past the end *)
Theorem c56_wide_element_refuted ero dil se : (Z.of_nat (length ero) < half se)%Z -> opening_closing ero dil se = Undef.
Proof. intros H. unfold opening_closing, slide. destruct (Z.ltb_spec (Z.of_nat (length ero)) (half se)); [|lia]. rewrite orb_true_r. reflexivity. Qed.
Print Assumptions c55_erosion_dilation_partial. Print Assumptions c55_small_element_refuted. Print Assumptions c56_opening_closing_partial. Print Assumptions c56_opening_below_waveform_refuted. Print Assumptions c56_wide_element_refuted.
(* ------------------------------------------------------------ non-vacuity *)
Example ex_morph : match erosion_dilation (qs [3; 1; 4; 1; 5; 9; 2]%Z) 4 with Ok (e, d, a, f) => (map this e, map this d, map this a, map this f) | _ => ([], [], [], []) end
  = ([1; 1; 1; 1; 1; 1; 1]%Q, [4; 4; 5; 9; 9; 9; 9]%Q, [5 # 2; 5 # 2; 3; 5; 5; 5; 5]%Q, [3; 3; 4; 8; 8; 8; 8]%Q).
Proof. vm_compute. reflexivity. Qed.
