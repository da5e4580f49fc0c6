(** C30, C46 *)
From Coq Require Import QArith Qcanon.
From Verif Require Import Base Util QcUtil Solver_Model Solver_Proofs GaussElim_Model GaussElim_Spec GaussElim_Proofs.
Local Open Scope nat_scope.

(** C30: on every augmented matrix of every size the elimination stays inside the matrix, and if no pivot (diagonal entry of the matrix left behind)
    is zero the vector it computes satisfies every original equation and is the only one that does, whatever was left over from earlier calls *)
Theorem c30_solves m old : augmented m ->
  exists m' sol, gauss m old = Ok (m', sol) /\ length sol = length m /\
    ((forall i, i < length m -> get m' i i <> 0%Qc) ->
       solves m (fun j => nth j sol 0%Qc) /\ forall y, solves m y -> forall j, j < length m -> y j = nth j sol 0%Qc).
Proof.
  intros H. apply augmented_shape in H. destruct (gauss_ok (length m) m old H) as (m' & sol & E & _ & _ & Hl & Hs).
  exists m', sol. split; [exact E|]. split; [exact Hl|exact Hs].
Qed.
Print Assumptions c30_solves.

(** C30: a matrix with dominant diagonal never meets a zero pivot, so it is always solved *)
Theorem c30_dominant m old : augmented m -> dominant m ->
  exists m' sol, gauss m old = Ok (m', sol) /\ solves m (fun j => nth j sol 0%Qc).
Proof.
  intros H Hd. apply augmented_shape in H. destruct (gauss_ok (length m) m old H) as (m' & sol & E & Hs' & El & Hl & Hs).
  exists m', sol. split; [exact E|]. apply Hs. apply (dominant_pivots (length m) m m' H Hd El).
Qed.
Print Assumptions c30_dominant.

(** C46: constructing with a positive step ends and gives a table from which every distance can be read without leaving it: 0 beyond the maximum, and
    otherwise the linear interpolation between the two sampled values around |d|, where the samples are those of the exact function *)
Theorem c46_distance_partial ex step mx : (0 < step)%Qc -> (0 <= mx)%Qc ->
  exists t, (exists N, forall fuel, N <= fuel -> construct ex fuel step mx = Some (Ok t)) /\
    forall d, exists v, get_distance (mkAlg step mx t) d = Ok v /\
      ((mx < qabs d)%Qc -> v = 0%Qc) /\
      ((qabs d <= mx)%Qc -> exists k fr, (qc_nat k * step <= qabs d)%Qc /\ (qabs d < qc_nat (S k) * step)%Qc /\ qabs d = ((qc_nat k + fr) * step)%Qc /\
         v = ((1 - fr) * ex (qc_nat k * step) + fr * ex (qc_nat (S k) * step))%Qc).
Proof.
  intros Hs Hm. exists (tab ex step mx). split.
  - exists (S (tlast step mx)). intros fuel Hf. unfold construct. destruct (qc_lt step 0%Qc) eqn:E1; [apply qc_lt_spec in E1; exfalso; qclra|]. destruct (qc_lt mx 0%Qc) eqn:E2; [apply qc_lt_spec in E2; exfalso; qclra|].
    cbn [orb]. assert (X := table_loop_ok ex step mx Hs Hm fuel 0 ltac:(lia) ltac:(lia)). replace (qc_nat 0 * step)%Qc with 0%Qc in X by (replace (qc_nat 0) with 0%Qc by (apply Qc_is_canon; reflexivity); ring). rewrite X. reflexivity.
  - intros d. apply get_distance_ok; assumption.
Qed.
Print Assumptions c46_distance_partial.

(** C46: for a sampled function that is decreasing on non-negative numbers from 1 and non-negative, the distance function is even, in [0,1] and 1 at 0 *)
Theorem c46_range ex step mx t d v : (0 < step)%Qc -> (0 <= mx)%Qc -> ex 0%Qc = 1%Qc ->
  (forall x y, (0 <= x)%Qc -> (x <= y)%Qc -> (0 <= ex y)%Qc /\ (ex y <= ex x)%Qc) ->
  (exists fuel, construct ex fuel step mx = Some (Ok t)) -> get_distance (mkAlg step mx t) d = Ok v ->
  (0 <= v)%Qc /\ (v <= 1)%Qc /\ get_distance (mkAlg step mx t) (- d)%Qc = Ok v /\ (d = 0%Qc -> v = 1%Qc).
Proof.
  intros Hs Hm H0 Hdec (fuel & Hc) Hv.
  assert (t = tab ex step mx).
  { unfold construct in Hc. destruct (qc_lt step 0%Qc) eqn:E1; [apply qc_lt_spec in E1; exfalso; qclra|]. destruct (qc_lt mx 0%Qc) eqn:E2; [apply qc_lt_spec in E2; exfalso; qclra|]. cbn [orb] in Hc.
    assert (Mono : forall f f' x r, f <= f' -> table_loop ex f step mx x = Some r -> table_loop ex f' step mx x = Some r).
    { clear. induction f as [|f IH]; intros f' x r Hf H; [discriminate|]. destruct f' as [|f']; [lia|]. cbn [table_loop] in *. destruct (qc_lt _ _); [exact H|].
      destruct (table_loop ex f step mx (x + step)%Qc) eqn:E; [|discriminate]. rewrite (IH f' _ _ ltac:(lia) E). exact H. }
    destruct (table_loop ex fuel step mx 0%Qc) as [t'|] eqn:E; [|discriminate]. inversion Hc; subst t'.
    assert (X := table_loop_ok ex step mx Hs Hm (fuel + S (tlast step mx)) 0 ltac:(lia) ltac:(lia)). replace (qc_nat 0 * step)%Qc with 0%Qc in X by (replace (qc_nat 0) with 0%Qc by (apply Qc_is_canon; reflexivity); ring).
    rewrite (Mono fuel (fuel + S (tlast step mx)) _ _ ltac:(lia) E) in X. inversion X. reflexivity. }
  subst t. destruct (get_distance_ok ex step mx Hs Hm d) as (v' & E & Hbig & Hsmall). rewrite E in Hv. inversion Hv; subst v'.
  assert (Heven : get_distance (mkAlg step mx (tab ex step mx)) (- d)%Qc = Ok v) by (unfold get_distance in *; rewrite qabs_opp; exact E).
  destruct (Qclt_le_dec mx (qabs d)) as [Hd|Hd].
  - rewrite (Hbig Hd). split; [apply Qcle_refl|]. split; [discriminate|]. split; [rewrite <- (Hbig Hd); exact Heven|]. intros ->. exfalso. rewrite qabs_0 in Hd. qclra.
  - destruct (Hsmall Hd) as (k & fr & A & B & C & D).
    assert (K0 : (0 <= qc_nat k * step)%Qc) by (assert (X := Solver_Sched.qc_nat_nonneg k); set (q := qc_nat k) in *; clearbody q; clear - X Hs; qcnra).
    assert (Fr : (0 <= fr)%Qc /\ (fr < 1)%Qc).
    { rewrite C in A, B. rewrite Solver_Sched.qc_nat_S in B. set (q := qc_nat k) in *. clearbody q. clear - A B Hs. split.
      - destruct (Qclt_le_dec fr 0%Qc) as [L|L]; [exfalso; qcnra|exact L].
      - destruct (Qclt_le_dec fr 1%Qc) as [L|L]; [exact L|exfalso; qcnra]. }
    assert (K1 : (qc_nat k * step <= qc_nat (S k) * step)%Qc) by (apply Qclt_le_weak; eapply Qcle_lt_trans; eassumption).
    destruct (Hdec _ _ K0 K1) as [P1 P2]. destruct (Hdec 0%Qc _ ltac:(apply Qcle_refl) K0) as [P3 P4]. rewrite H0 in P4.
    set (e1 := ex (qc_nat k * step)%Qc) in *. set (e2 := ex (qc_nat (S k) * step)%Qc) in *.
    split; [clearbody e1 e2; clear - D Fr P1 P2 P3; destruct Fr; subst v; qcnra|]. split; [clearbody e1 e2; clear - D Fr P1 P2 P4; destruct Fr; subst v; qcnra|]. split; [exact Heven|].
    intros ->. rewrite qabs_0 in *. assert (k = 0).
    { destruct k as [|k]; [reflexivity|exfalso]. rewrite Solver_Sched.qc_nat_S in A. assert (X := Solver_Sched.qc_nat_nonneg k). set (q := qc_nat k) in *. clearbody q. clear - A X Hs. qcnra. }
    subst k. replace (qc_nat 0) with 0%Qc in * by (apply Qc_is_canon; reflexivity).
    assert (F0 : fr = 0%Qc). { destruct Fr as [F1 F2]. clear - C F1 Hs. destruct (Qclt_le_dec 0%Qc fr) as [L|L]; [exfalso; qcnra|qclra]. }
    subst fr. assert (E1 : e1 = 1%Qc). { unfold e1. rewrite <- H0. f_equal. replace (qc_nat 0) with 0%Qc by (apply Qc_is_canon; reflexivity). ring. } rewrite D, E1. ring.
Qed.
Print Assumptions c46_range.

(** C46 refuted for a zero step, which the constructor accepts: the table filling never ends *)
Theorem c46_zero_step_refuted ex mx : (0 <= mx)%Qc -> forall fuel, construct ex fuel 0%Qc mx = None.
Proof.
  intros Hm fuel. unfold construct. destruct (qc_lt 0%Qc 0%Qc) eqn:E1; [apply qc_lt_spec in E1; exfalso; qclra|]. destruct (qc_lt mx 0%Qc) eqn:E2; [apply qc_lt_spec in E2; exfalso; qclra|]. cbn [orb].
  rewrite table_step0 by exact Hm. reflexivity.
Qed.
Print Assumptions c46_zero_step_refuted.

(** C30: the fitter's use of it. [G i j] is the height at peak i of a unit pulse at peak j *)
Theorem c30_solve_equations ex step mx t eps old means sigmas heights :
  (0 < step)%Qc -> (0 <= mx)%Qc -> (exists fuel, construct ex fuel step mx = Some (Ok t)) ->
  let a := mkAlg step mx t in let n := length means in
  if Nat.eqb n (length sigmas) && Nat.eqb n (length heights) then
    exists G m' sol, (forall i j, i < n -> j < n -> if qc_lt (nth j sigmas 0%Qc) eps then G i j = (if Nat.eqb i j then 1%Qc else 0%Qc)
                                                 else get_distance a ((nth i means 0 - nth j means 0) / nth j sigmas 0)%Qc = Ok (G i j)) /\
      solve_equations a eps old means sigmas heights = Ok (m', sol) /\ length sol = n /\
      ((forall i, i < n -> get m' i i <> 0%Qc) \/ (forall i, i < n -> (qsum (fun j => if Nat.eqb j i then 0 else qabs (G i j)) (seq 0 n) < qabs (G i i))%Qc) ->
         forall i, i < n -> qsum (fun j => G i j * nth j sol 0)%Qc (seq 0 n) = nth i heights 0%Qc)
  else solve_equations a eps old means sigmas heights = Throw UserExn.
Proof.
  intros Hs Hm (fuel & Hc) a n.
  assert (t = tab ex step mx).
  { unfold construct in Hc. destruct (qc_lt step 0%Qc) eqn:E1; [apply qc_lt_spec in E1; exfalso; qclra|]. destruct (qc_lt mx 0%Qc) eqn:E2; [apply qc_lt_spec in E2; exfalso; qclra|]. cbn [orb] in Hc.
    assert (Mono : forall f f' x r, f <= f' -> table_loop ex f step mx x = Some r -> table_loop ex f' step mx x = Some r).
    { clear. induction f as [|f IH]; intros f' x r Hf H; [discriminate|]. destruct f' as [|f']; [lia|]. cbn [table_loop] in *. destruct (qc_lt _ _); [exact H|].
      destruct (table_loop ex f step mx (x + step)%Qc) eqn:E; [|discriminate]. rewrite (IH f' _ _ ltac:(lia) E). exact H. }
    destruct (table_loop ex fuel step mx 0%Qc) as [t'|] eqn:E; [|discriminate]. inversion Hc; subst t'.
    assert (X := table_loop_ok ex step mx Hs Hm (fuel + S (tlast step mx)) 0 ltac:(lia) ltac:(lia)). replace (qc_nat 0 * step)%Qc with 0%Qc in X by (replace (qc_nat 0) with 0%Qc by (apply Qc_is_canon; reflexivity); ring).
    rewrite (Mono fuel (fuel + S (tlast step mx)) _ _ ltac:(lia) E) in X. inversion X. reflexivity. }
  subst t. unfold solve_equations. fold n. destruct (Nat.eqb_spec n (length sigmas)) as [Hls|]; cbn [negb orb andb]; [|reflexivity].
  destruct (Nat.eqb_spec n (length heights)) as [Hlh|]; cbn [negb orb andb]; [|reflexivity].
  set (G := fun i j => match element a eps means sigmas i j with Ok v => v | _ => 0%Qc end).
  assert (HG : forall i j, i < n -> j < n -> element a eps means sigmas i j = Ok (G i j)).
  { intros i j Hi Hj. unfold G. assert (X : exists v, element a eps means sigmas i j = Ok v).
    { unfold element. rewrite (idx_ok sigmas j 0%Qc) by lia. cbn [obind]. destruct (qc_lt _ eps); [eexists; reflexivity|].
      rewrite (idx_ok means i 0%Qc), (idx_ok means j 0%Qc) by (unfold n in *; lia). cbn [obind]. destruct (get_distance_ok ex step mx Hs Hm ((nth i means 0 - nth j means 0) / nth j sigmas 0)%Qc) as (v & E & _). exists v. exact E. }
    destruct X as (v & ->). reflexivity. }
  destruct (fill_ok a eps means sigmas heights G) as (m & Em & Hsh & Hg & Hr); [unfold n in *; lia|unfold n in *; lia|exact HG|].
  rewrite Em. cbn [obind]. fold n in Hsh, Hg, Hr. destruct (gauss_ok n m old Hsh) as (m' & sol & E & Hs' & El & Hl & Hsol).
  exists G, m', sol. split; [|split; [exact E|split; [exact Hl|]]].
  - intros i j Hi Hj. assert (X := HG i j Hi Hj). unfold element in X. rewrite (idx_ok sigmas j 0%Qc) in X by lia. cbn [obind] in X. destruct (qc_lt _ eps); [inversion X; reflexivity|].
    rewrite (idx_ok means i 0%Qc), (idx_ok means j 0%Qc) in X by (unfold n in *; lia). exact X.
  - intros Hcond. assert (Hpiv : forall i, i < n -> get m' i i <> 0%Qc).
    { destruct Hcond as [H|H]; [exact H|]. apply (dominant_pivots n m m' Hsh); [|exact El]. destruct Hsh as [Hlm _]. intros i Hi. rewrite Hlm in *. rewrite Hg by lia.
      rewrite (qsum_ext _ (fun j => if Nat.eqb j i then 0%Qc else qabs (G i j))); [apply H, Hi|]. intros j Hj. apply in_seq in Hj. rewrite Hg by lia. reflexivity. }
    destruct (Hsol Hpiv) as [Hsat _]. intros i Hi. rewrite <- Hr by exact Hi. rewrite <- (Hsat i Hi). apply qsum_ext. intros j Hj. apply in_seq in Hj. rewrite Hg by lia. reflexivity.
Qed.
Print Assumptions c30_solve_equations.

(** non-trivial cases: a 3x3 system with non-zero pivots (second one changed by the elimination), and one that needs a row swap and so is not covered *)
Definition qz (z : Z) : Qc := Q2Qc (inject_Z z).
Definition sys : list (list Qc) := map (map qz) [[2; 1; -1; 8]; [-3; -1; 2; -11]; [-2; 1; 2; -3]]%Z.
Example c30_case : match gauss sys [] with Ok (m', sol) => (map this sol, map (fun i => qc_eqb (get m' i i) 0%Qc) [0; 1; 2]) | _ => ([], []) end = (map inject_Z [2; 3; -1]%Z, [false; false; false]).
Proof. vm_compute. reflexivity. Qed.
Example c30_case_augmented : augmented sys.
Proof. intros r [<-|[<-|[<-|[]]]]; reflexivity. Qed.
Example c30_swap_needed : match gauss (map (map qz) [[0; 1; 1]; [1; 0; 1]]%Z) [] with Ok (m', _) => qc_eqb (get m' 0 0) 0%Qc | _ => false end = true.
Proof. vm_compute. reflexivity. Qed.
(** a decreasing sampled function: 1/(1+x) *)
Definition val (o : outcome Qc) : option Q := match o with Ok q => Some (this q) | _ => None end.
Example c46_case : match construct (fun x => 1 / (1 + x))%Qc 20 (qz 1) (qz 3) with
  | Some (Ok t) => (length t, map (fun d => val (get_distance (mkAlg (qz 1) (qz 3) t) d)) [(- (qz 3 / qz 2))%Qc; qz 3; qz 4])
  | _ => (0, []) end = (6, [Some (5 # 12); Some (1 # 4); Some 0]%Q).
Proof. vm_compute. reflexivity. Qed.
