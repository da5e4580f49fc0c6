(** FindShowerStart_. *)
From Coq Require Import QArith Qround Qcanon Lqa.
From Verif Require Import Base QcUtil Solver_Model Solver_Proofs RFF_Spec GHF_Any CMgr_Proofs SPS_Model WT_Rms CCB_Hist EMS_Model EMS_Map EMS_Spec EMS_Assoc EMS_Planes EMS_Order EMS_Iso EMS_Perm EMS_Orient.
Local Open Scope nat_scope.

Lemma cnt_one f v h : cnt f v (f h) <= 1 <-> forall i j a b, nth_error v i = Some a -> nth_error v j = Some b -> f a = f h -> f b = f h -> i = j.
Proof.
  unfold cnt. induction v as [|x v IH].
  - split; [intros _ [|i] ? ? ? E; discriminate|intros _; cbn; lia].
  - cbn [filter]. destruct (Z.eqb_spec (f x) (f h)) as [Ex|Ex]; cbn [length].
    + split.
      * intros L. assert (N : forall y, In y v -> f y <> f h).
        { intros y Hy Q. assert (X : In y (filter (fun h0 => (f h0 =? f h)%Z) v)) by (apply filter_In; split; [exact Hy|apply Z.eqb_eq, Q]). destruct (filter _ v); [destruct X|cbn in L; lia]. }
        intros [|i] [|j] a b Ea Eb Qa Qb; cbn in Ea, Eb; try reflexivity; [apply nth_error_In in Eb; destruct (N b Eb Qb)|apply nth_error_In in Ea; destruct (N a Ea Qa)|apply nth_error_In in Ea; destruct (N a Ea Qa)].
      * intros U. destruct (filter (fun h0 => (f h0 =? f h)%Z) v) as [|y l] eqn:E; [cbn; lia|]. exfalso.
        assert (X : In y (filter (fun h0 => (f h0 =? f h)%Z) v)) by (rewrite E; left; reflexivity). apply filter_In in X. destruct X as [Hy Q]. apply Z.eqb_eq in Q.
        apply In_nth_error in Hy. destruct Hy as (j & Hj). specialize (U 0 (S j) x y eq_refl Hj Ex Q). discriminate.
    + rewrite IH. split.
      * intros U [|i] [|j] a b Ea Eb Qa Qb; cbn in Ea, Eb; [reflexivity|congruence|congruence|f_equal; apply (U i j a b); assumption].
      * intros U i j a b Ea Eb Qa Qb. specialize (U (S i) (S j) a b Ea Eb Qa Qb). lia.
Qed.
Lemma cnt_zero f v x : cnt f v x = 0 <-> forall y, In y v -> f y <> x.
Proof.
  unfold cnt. induction v as [|y v IH]; [cbn; split; [intros _ y []|reflexivity]|]. cbn [filter]. destruct (Z.eqb_spec (f y) x) as [E|E]; cbn [length In].
  - split; [discriminate|]. intros H. destruct (H y (or_introl eq_refl) E).
  - rewrite IH. split; [intros H z [<-|Hz]; auto|intros H z Hz; apply H; right; exact Hz].
Qed.
Lemma ss_incl {A} (l l' : list A) : subseq l l' -> incl l l'.
Proof. induction 1; intros y Hy; [destruct Hy|destruct Hy as [<-|Hy]; [left; reflexivity|right; auto]|right; auto]. Qed.
Lemma ss_filter {A} (f : A -> bool) l l' : subseq l l' -> subseq (filter f l) l'.
Proof. induction 1; cbn [filter]; [constructor| |constructor; assumption]. destruct (f x); constructor; assumption. Qed.

Lemma wire_start_ss v up : forall l mw, subseq (wire_start v up l mw) l /\ forall h, In h (wire_start v up l mw) -> cnt rw v (rw h) <= 1.
Proof.
  induction l as [|h l IH]; intros mw; cbn [wire_start]; [split; [constructor|intros h []]|]. cbv zeta.
  assert (N : subseq [] (h :: l) /\ forall x, In x [] -> cnt rw v (rw x) <= 1) by (split; [apply ss_same_nil|intros x []]).
  destruct (Nat.ltb_spec 1 (cnt rw v (rw h))) as [L|L].
  - destruct (5 <? S mw); [exact N|]. destruct (IH (S mw)) as [A B]. split; [constructor; exact A|exact B].
  - assert (K : subseq (h :: wire_start v up l mw) (h :: l) /\ forall x, In x (h :: wire_start v up l mw) -> cnt rw v (rw x) <= 1).
    { destruct (IH mw) as [A B]. split; [constructor; exact A|]. intros x [<-|Hx]; [exact L|apply B, Hx]. }
    match goal with |- context [if ?c then _ else _] => destruct c; [|exact K] end. match goal with |- context [if ?c then _ else _] => destruct c; [exact K|exact N] end.
Qed.
Lemma existsb_false_in {A} (f : A -> bool) l : existsb f l = false -> forall x, In x l -> f x = false.
Proof. intros E x Hx. destruct (f x) eqn:F; [|reflexivity]. assert (existsb f l = true) by (apply existsb_exists; eauto). congruence. Qed.
Lemma tick_start_ss v up : forall l, subseq (tick_start v up l) l /\ forall h, In h (tick_start v up l) -> forall k, (1 <= k <= 5)%Z -> cnt rt v (if up then rt h + k else rt h - k)%Z = 0.
Proof.
  induction l as [|h l IH]; cbn [tick_start]; [split; [constructor|intros h []]|].
  match goal with |- context [if ?c then _ else _] => destruct c eqn:E end; [split; [apply ss_same_nil|intros x []]|].
  destruct IH as [A B]. split; [constructor; exact A|]. intros x [<-|Hx]; [|apply B, Hx]. intros k Hk.
  assert (Ik : In k [1; 2; 3; 4; 5]%Z) by (cbn; lia). pose proof (existsb_false_in _ _ E k Ik) as Z. apply Nat.ltb_ge in Z. lia.
Qed.

Lemma tpcs_count v k : mfind k (tpcs v) = let n := cnt (fun h => Z.of_nat (htp h)) v k in if n =? 0 then None else Some n.
Proof.
  unfold tpcs, cnt. assert (G : forall l m0, mfind k (fold_left (fun m h => mincr (Z.of_nat (htp h)) m) l m0) =
    let n := length (filter (fun h => (Z.of_nat (htp h) =? k)%Z) l) in if n =? 0 then mfind k m0 else Some (n + match mfind k m0 with Some c => c | None => 0 end)).
  { induction l as [|h l IH]; intros m0; [reflexivity|]. cbn [fold_left filter]. rewrite IH. unfold mincr. rewrite mfind_mset. rewrite (Z.eqb_sym (Z.of_nat (htp h)) k).
    destruct (Z.eqb_spec k (Z.of_nat (htp h))) as [->|]; cbn [length]; [|reflexivity]. cbv zeta. cbn [Nat.eqb].
    destruct (length (filter (fun h0 => (Z.of_nat (htp h0) =? Z.of_nat (htp h))%Z) l) =? 0) eqn:E; [apply Nat.eqb_eq in E; rewrite E; reflexivity|f_equal; lia]. }
  rewrite G. cbn [mfind]. cbv zeta. destruct (length _ =? 0); [reflexivity|rewrite Nat.add_0_r; reflexivity].
Qed.
Lemma single_in i2 h : In h i2 -> zmem (Z.of_nat (htp h)) (map fst (filter (fun e => snd e =? 1) (tpcs i2))) = true <-> cnt (fun h => Z.of_nat (htp h)) i2 (Z.of_nat (htp h)) <= 1.
Proof.
  intros Hi. rewrite zmem_spec, in_map_iff. assert (P : cnt (fun h => Z.of_nat (htp h)) i2 (Z.of_nat (htp h)) <> 0) by (intros X; apply (proj1 (cnt_zero _ _ _) X h Hi); reflexivity).
  destruct (tpcs_keys i2) as [O _]. split.
  - intros ([k n] & E & Hf). cbn in E. subst k. apply filter_In in Hf. destruct Hf as [Hf En]. cbn in En. apply Nat.eqb_eq in En. subst n.
    apply (mfind_in _ _ _ O) in Hf. rewrite tpcs_count in Hf. cbv zeta in Hf. destruct (_ =? 0); [discriminate|]. injection Hf as ->. lia.
  - intros L. exists (Z.of_nat (htp h), 1). split; [reflexivity|]. apply filter_In. split; [|reflexivity]. apply (mfind_in _ _ _ O). rewrite tpcs_count. cbv zeta.
    assert (E : cnt (fun h => Z.of_nat (htp h)) i2 (Z.of_nat (htp h)) = 1) by lia. rewrite E. reflexivity.
Qed.

(** the last step: hits alone in their TPC removed *)
Definition quality (f : hit) (i2 : list hit) : list hit :=
  let single := map fst (filter (fun e => snd e =? 1) (tpcs i2)) in
  match single with
  | [] => i2
  | _ => let n := filter (fun h => negb (zmem (Z.of_nat (htp h)) single)) i2 in match n with [] => [f] | _ => n end
  end.
Lemma filter_cnt (g : hit -> Z) (c : hit -> bool) v x : (forall y, In y v -> g y = x -> c y = true) -> cnt g (filter c v) x = cnt g v x.
Proof.
  intros H. unfold cnt. induction v as [|y v IH]; [reflexivity|]. cbn [filter]. pose proof (IH (fun z Hz => H z (or_intror Hz))) as IH'. destruct (c y) eqn:E; cbn [filter].
  - destruct (g y =? x)%Z; cbn [length]; rewrite IH'; reflexivity.
  - destruct (Z.eqb_spec (g y) x) as [Q|]; [|exact IH']. rewrite (H y (or_introl eq_refl) Q) in E. discriminate.
Qed.
Lemma cnt_two (g : hit -> Z) v x : 2 <= cnt g v x -> exists i j a b, i <> j /\ nth_error v i = Some a /\ nth_error v j = Some b /\ g a = x /\ g b = x.
Proof.
  unfold cnt. induction v as [|y v IH]; cbn [filter length]; [lia|]. destruct (Z.eqb_spec (g y) x) as [Q|Q]; cbn [length]; intros L.
  - destruct (filter (fun h => (g h =? x)%Z) v) as [|z l] eqn:E; [cbn in L; lia|]. assert (Hz : In z (filter (fun h => (g h =? x)%Z) v)) by (rewrite E; left; reflexivity).
    apply filter_In in Hz. destruct Hz as [Hz Ez]. apply Z.eqb_eq in Ez. apply In_nth_error in Hz. destruct Hz as (j & Hj). exists 0, (S j), y, z. repeat split; auto.
  - destruct (IH L) as (i & j & a & b & D & Ea & Eb & A & B). exists (S i), (S j), a, b. repeat split; auto.
Qed.
Lemma quality_ok f i2 : i2 <> [] -> let s := quality f i2 in s <> [] /\ (s = [f] \/ (forall h, In h s -> not_single s h) /\ exists c, s = filter c i2 /\ (forall h, In h i2 -> c h = true <-> not_single i2 h)).
Proof.
  intros N. cbv zeta. unfold quality. cbv zeta. set (single := map fst (filter (fun e => snd e =? 1) (tpcs i2))).
  set (c := fun h => negb (zmem (Z.of_nat (htp h)) single)). set (g := fun h => Z.of_nat (htp h)).
  assert (Cc : forall h, In h i2 -> c h = true <-> 2 <= cnt g i2 (g h)).
  { intros h Hh. unfold c. rewrite negb_true_iff. assert (S : zmem (Z.of_nat (htp h)) single = true <-> cnt g i2 (g h) <= 1) by exact (single_in i2 h Hh).
    destruct (zmem (Z.of_nat (htp h)) single); split; intros X; try discriminate; try reflexivity; [exfalso; pose proof (proj1 S eq_refl); lia|].
    destruct (Nat.le_gt_cases (cnt g i2 (g h)) 1) as [Y|Y]; [apply S in Y; discriminate|lia]. }
  assert (Tw : forall w h, 2 <= cnt g w (g h) -> not_single w h).
  { intros w h L. destruct (cnt_two g w (g h) L) as (i & j & a & b & D & Ea & Eb & A & B). exists i, j, a, b. split; [exact D|]. split; [exact Ea|]. split; [exact Eb|]. split; apply Nat2Z.inj; assumption. }
  assert (Wt : forall w h, not_single w h -> 2 <= cnt g w (g h)).
  { intros w h (i & j & a & b & D & Ea & Eb & A & B). destruct (Nat.le_gt_cases (cnt g w (g h)) 1) as [Y|Y]; [|lia]. exfalso. apply D. apply (proj1 (cnt_one g w h) Y i j a b Ea Eb); unfold g; congruence. }
  assert (Ft : forall h, In h (filter c i2) -> not_single (filter c i2) h).
  { intros h Hh. apply filter_In in Hh. destruct Hh as [Hh Ch]. apply Tw. rewrite filter_cnt; [apply Cc; assumption|]. intros y Hy E. apply Cc; [exact Hy|]. rewrite E. apply Cc; assumption. }
  assert (Ex : exists c0, filter c i2 = filter c0 i2 /\ (forall h, In h i2 -> c0 h = true <-> not_single i2 h)).
  { exists c. split; [reflexivity|]. intros h Hh. rewrite (Cc h Hh). split; [apply Tw|apply Wt]. }
  destruct single as [|k ks] eqn:Es.
  - split; [exact N|right]. assert (E : filter c i2 = i2). { clear -c. unfold c. cbn. induction i2 as [|x l IH]; cbn; [reflexivity|rewrite IH; reflexivity]. }
    rewrite E in Ft, Ex. split; [exact Ft|exact Ex].
  - fold c. destruct (filter c i2) as [|x l] eqn:E; [split; [discriminate|auto]|]. split; [discriminate|right]. split; [exact Ft|exact Ex].
Qed.

Lemma zmin_le l : forall x, In x l -> (zmin l <= x)%Z.
Proof.
  unfold zmin. intros x Hx. assert (G : forall l a, (fold_left Z.min l a <= a)%Z /\ forall x, In x l -> (fold_left Z.min l a <= x)%Z).
  { clear. induction l as [|y l IH]; intros a; cbn [fold_left]; [split; [lia|intros x []]|]. destruct (IH (Z.min a y)) as [A B]. split; [lia|]. intros x [<-|Hx]; [lia|apply B, Hx]. }
  apply G, Hx.
Qed.
Lemma zmin_in l : l <> [] -> In (zmin l) l.
Proof.
  unfold zmin. intros N. assert (G : forall l a, fold_left Z.min l a = a \/ In (fold_left Z.min l a) l).
  { clear. induction l as [|y l IH]; intros a; cbn [fold_left]; [auto|]. destruct (IH (Z.min a y)) as [A|A]; [|right; right; exact A]. rewrite A. destruct (Z.min_spec a y) as [[_ ->]|[_ ->] ]; [auto|right; left; reflexivity]. }
  destruct (G l (hd 0%Z l)) as [A|A]; [|exact A]. rewrite A. destruct l; [contradiction|left; reflexivity].
Qed.
Lemma zmax_ge l : forall x, In x l -> (x <= zmax l)%Z.
Proof.
  unfold zmax. intros x Hx. assert (G : forall l a, (a <= fold_left Z.max l a)%Z /\ forall x, In x l -> (x <= fold_left Z.max l a)%Z).
  { clear. induction l as [|y l IH]; intros a; cbn [fold_left]; [split; [lia|intros x []]|]. destruct (IH (Z.max a y)) as [A B]. split; [lia|]. intros x [<-|Hx]; [lia|apply B, Hx]. }
  apply G, Hx.
Qed.
Lemma zmax_in l : l <> [] -> In (zmax l) l.
Proof.
  unfold zmax. intros N. assert (G : forall l a, fold_left Z.max l a = a \/ In (fold_left Z.max l a) l).
  { clear. induction l as [|y l IH]; intros a; cbn [fold_left]; [auto|]. destruct (IH (Z.max a y)) as [A|A]; [|right; right; exact A]. rewrite A. destruct (Z.max_spec a y) as [[_ ->]|[_ ->] ]; [right; left; reflexivity|auto]. }
  destruct (G l (hd 0%Z l)) as [A|A]; [|exact A]. rewrite A. destruct l; [contradiction|left; reflexivity].
Qed.
Lemma crossing_eq f r : let v := f :: r in let ws := map rw v in ((3 <? Z.abs (zmin ws - rw f))%Z && (3 <? Z.abs (zmax ws - rw f))%Z) = true <-> crossing v.
Proof.
  cbv zeta. set (v := f :: r). set (ws := map rw v). assert (Nw : ws <> []) by discriminate. assert (If : In (rw f) ws) by (left; reflexivity).
  pose proof (zmin_le ws (rw f) If) as L1. pose proof (zmax_ge ws (rw f) If) as L2. rewrite andb_true_iff, !Z.ltb_lt. split.
  - intros [A B]. pose proof (zmin_in ws Nw) as I1. pose proof (zmax_in ws Nw) as I2. apply in_map_iff in I1, I2. destruct I1 as (a & Ea & Ha), I2 as (b & Eb & Hb).
    exists f, a, b. split; [reflexivity|]. split; [exact Ha|]. split; [exact Hb|]. unfold wire_no. change (round (hx a)) with (rw a). change (round (hx b)) with (rw b). change (round (hx f)) with (rw f). lia.
  - intros (f' & a & b & E & Ha & Hb & A & B). injection E as <-. unfold wire_no in A, B. change (round (hx a)) with (rw a) in A. change (round (hx b)) with (rw b) in B. change (round (hx f)) with (rw f) in A, B.
    pose proof (zmin_le ws (rw a) (in_map rw v a Ha)). pose proof (zmax_ge ws (rw b) (in_map rw v b Hb)). lia.
Qed.

Definition first_hits (v : list hit) (f b : hit) : list hit :=
  let ws := map rw v in
  let along := negb ((3 <? Z.abs (zmin ws - rw f))%Z && (3 <? Z.abs (zmax ws - rw f))%Z) in
  let i0 := if along then wire_start v (qc_lt (hx f) (hx b)) v 0 else tick_start v (qc_lt (ht f) (ht b)) v in
  match i0 with [] => [f] | _ => i0 end.
Lemma start_eq f r : let v := f :: r in start_hits v = Ok (quality f (let i1 := first_hits v f (last v f) in
  if (length i1 =? 1) && (2 <? length v) then i1 ++ firstn 1 r else i1)).
Proof.
  cbv zeta. set (v := f :: r). unfold start_hits. rewrite (last_idx v f) by discriminate. change (idx v 0) with (Ok f). cbn [obind]. fold (first_hits v f (last v f)). cbv zeta.
  change (match (if negb ((3 <? Z.abs (zmin (map rw v) - rw f))%Z && (3 <? Z.abs (zmax (map rw v) - rw f))%Z) then wire_start v (qc_lt (hx f) (hx (last v f))) v 0 else tick_start v (qc_lt (ht f) (ht (last v f))) v) with
    [] => [f] | _ :: _ => (if negb ((3 <? Z.abs (zmin (map rw v) - rw f))%Z && (3 <? Z.abs (zmax (map rw v) - rw f))%Z) then wire_start v (qc_lt (hx f) (hx (last v f))) v 0 else tick_start v (qc_lt (ht f) (ht (last v f))) v) end) with (first_hits v f (last v f)).
  set (i1 := first_hits v f (last v f)). destruct ((length i1 =? 1) && (2 <? length v)) eqn:E; cbn [obind].
  - apply andb_true_iff in E. destruct E as [_ E]. apply Nat.ltb_lt in E. destruct r as [|g r]; [cbn in E; lia|]. change (idx v 1) with (Ok g). cbn [obind firstn]. unfold quality. cbv zeta.
    destruct (map fst (filter (fun e => snd e =? 1) (tpcs (i1 ++ [g])))); reflexivity.
  - unfold quality. cbv zeta. destruct (map fst (filter (fun e => snd e =? 1) (tpcs i1))); reflexivity.
Qed.
Lemma first_ok f r : let v := f :: r in let i1 := first_hits v f (last v f) in
  i1 <> [] /\ subseq i1 v /\ forall h, In h i1 -> h = f \/ (crossing v -> clear_ahead v h) /\ (~ crossing v -> alone v h).
Proof.
  cbv zeta. unfold first_hits. cbv zeta. pose proof (crossing_eq f r) as C. cbv zeta in C.
  destruct ((3 <? Z.abs (zmin (map rw (f :: r)) - rw f))%Z && (3 <? Z.abs (zmax (map rw (f :: r)) - rw f))%Z); cbn [negb].
  - destruct (tick_start_ss (f :: r) (qc_lt (ht f) (ht (last (f :: r) f))) (f :: r)) as [A B]. destruct (tick_start (f :: r) _ (f :: r)) as [|x l] eqn:E.
    + split; [discriminate|]. split; [constructor; apply ss_same_nil|]. intros h [<-|[] ]. auto.
    + split; [discriminate|]. split; [exact A|]. intros h Hh. right. split; [|intros X; destruct (X (proj1 C eq_refl))]. intros _ f' y k Ef Hy Hk. injection Ef as <-. specialize (B h Hh k Hk). rewrite cnt_zero in B. specialize (B y Hy).
      split; intros Q; change (tick_no y) with (rt y); change (tick_no h) with (rt h).
      * apply qc_lt_spec in Q. rewrite Q in B. exact B.
      * apply qc_lt_false in Q. rewrite Q in B. exact B.
  - destruct (wire_start_ss (f :: r) (qc_lt (hx f) (hx (last (f :: r) f))) (f :: r) 0) as [A B]. destruct (wire_start (f :: r) _ (f :: r) 0) as [|x l] eqn:E.
    + split; [discriminate|]. split; [constructor; apply ss_same_nil|]. intros h [<-|[] ]. auto.
    + split; [discriminate|]. split; [exact A|]. intros h Hh. right. split; [intros X; apply C in X; discriminate|]. intros _. specialize (B h Hh). rewrite cnt_one in B. exact B.
Qed.
Lemma start_main f r : let v := f :: r in exists s, start_hits v = Ok s /\ s <> [] /\ incl s v /\ (s = [f] \/ forall h, In h s -> not_single s h) /\
  (forall h, In h s -> h = f \/ nth_error v 1 = Some h \/ (crossing v -> clear_ahead v h) /\ (~ crossing v -> alone v h)) /\
  (subseq s v \/ exists h g, nth_error v 1 = Some g /\ In h v /\ s = [h; g]).
Proof.
  cbv zeta. pose proof (start_eq f r) as E. cbv zeta in E. rewrite E. clear E. eexists. split; [reflexivity|].
  pose proof (first_ok f r) as Q. cbv zeta in Q. set (i1 := first_hits (f :: r) f (last (f :: r) f)) in *. clearbody i1. destruct Q as (N1 & S1 & H1).
  set (i2 := if (length i1 =? 1) && (2 <? length (f :: r)) then i1 ++ firstn 1 r else i1).
  assert (Sf : subseq [f] (f :: r)) by (constructor; apply ss_same_nil).
  assert (X : i2 <> [] /\ incl i2 (f :: r) /\ (forall h, In h i2 -> h = f \/ nth_error (f :: r) 1 = Some h \/ (crossing (f :: r) -> clear_ahead (f :: r) h) /\ (~ crossing (f :: r) -> alone (f :: r) h)) /\
    (subseq i2 (f :: r) \/ exists h g, nth_error (f :: r) 1 = Some g /\ In h (f :: r) /\ i2 = [h; g])).
  { unfold i2. destruct ((length i1 =? 1) && (2 <? length (f :: r))) eqn:Ec.
    - apply andb_true_iff in Ec. destruct Ec as [L1 L2]. apply Nat.eqb_eq in L1. apply Nat.ltb_lt in L2. destruct i1 as [|h [|? ?] ]; try discriminate. destruct r as [|g r]; [cbn in L2; lia|]. cbn [firstn app].
      assert (Hh : In h (f :: g :: r)) by (apply (ss_incl _ _ S1); left; reflexivity).
      split; [discriminate|]. split; [intros x [<-|[<-|[] ] ]; [exact Hh|right; left; reflexivity]|]. split.
      + intros x [<-|[<-|[] ] ]; [destruct (H1 h (or_introl eq_refl)); auto|right; left; reflexivity].
      + right. exists h, g. auto.
    - split; [exact N1|]. split; [apply ss_incl, S1|]. split; [intros h Hh; destruct (H1 h Hh); auto|left; exact S1]. }
  clearbody i2. destruct X as (N2 & I2 & H2 & O2). pose proof (quality_ok f i2 N2) as Q. cbv zeta in Q. destruct Q as (Ns & Q). split; [exact Ns|].
  destruct Q as [-> |(Sg & c & Es & Cs)].
  - split; [intros x [<-|[] ]; left; reflexivity|]. split; [auto|]. split; [intros h [<-|[] ]; auto|left; exact Sf].
  - split; [rewrite Es; intros x Hx; apply filter_In in Hx; apply I2, Hx|]. split; [auto|]. split; [rewrite Es; intros h Hh; apply filter_In in Hh; apply H2, Hh|].
    destruct O2 as [O2|(h & g & Eg & Hh & Ei)]; [left; rewrite Es; apply ss_filter, O2|]. right. exists h, g. split; [exact Eg|]. split; [exact Hh|].
    rewrite Ei in Es, Cs, Ns. rewrite Ei. cbn [filter] in Es. destruct (c h) eqn:Ch, (c g) eqn:Cg; [exact Es| | |rewrite Es in Ns; contradiction].
    + exfalso. apply (Cs h (or_introl eq_refl)) in Ch. rewrite <- not_true_iff_false in Cg. apply Cg. apply (Cs g (or_intror (or_introl eq_refl))).
      destruct Ch as (i & j & a & b & D & Ea & Eb & A & B). exists i, j, a, b. repeat split; auto; destruct i as [|[|i] ], j as [|[|j] ]; cbn in Ea, Eb; try lia; try (destruct i; discriminate); try (destruct j; discriminate); injection Ea as <-; injection Eb as <-; congruence.
    + exfalso. apply (Cs g (or_intror (or_introl eq_refl))) in Cg. rewrite <- not_true_iff_false in Ch. apply Ch. apply (Cs h (or_introl eq_refl)).
      destruct Cg as (i & j & a & b & D & Ea & Eb & A & B). exists i, j, a, b. repeat split; auto; destruct i as [|[|i] ], j as [|[|j] ]; cbn in Ea, Eb; try lia; try (destruct i; discriminate); try (destruct j; discriminate); injection Ea as <-; injection Eb as <-; congruence.
Qed.
