(** Properties C81-C86: BlurredClusteringAlg. *)
From Coq Require Import QArith Qcanon.
From Verif Require Import Base QcUtil RFF_Spec SortUtil Solver_Model Solver_Proofs SPS_Model SPS_Nei BC_Model BC_Spec BC_Cells BC_Grow BC_Prune BC_Find BC_Comp BC_Image BC_Blur BC_Conv.
From Coq Require Import Lqa.
Local Open Scope nat_scope.

(* ------------------------------------------------------------------ C81 *)
(** a cell of the image is below the seed threshold *)
Definition has_low_cell (cf : config) (im : image) : Prop := exists col v, In col im /\ In v col /\ (v < minSeed cf)%Qc.

Lemma low_bin cf im nx ny : 0 < nx -> rect nx ny im -> has_low_cell cf im <-> exists b, b < nx * ny /\ (charge_of im nx b < minSeed cf)%Qc.
Proof.
  intros Hnx [El Hr]. split.
  - intros (col & v & Hc & Hv & Hlt). destruct (In_nth _ _ [] Hc) as (x & Hx & <-). destruct (In_nth _ _ (Q2Qc 0) Hv) as (y & Hy & <-).
    rewrite Hr in Hy by exact Hc. exists (y * nx + x). split; [apply cell_lt; lia|]. unfold charge_of. rewrite cell_wire, cell_tick by lia. exact Hlt.
  - intros (b & Hb & Hlt). exists (nth (wire_of nx b) im []), (charge_of im nx b).
    assert (Hin : In (nth (wire_of nx b) im []) im) by (apply nth_In; rewrite El; apply wire_lt, Hnx).
    split; [exact Hin|]. split; [|exact Hlt]. unfold charge_of. apply nth_In. rewrite Hr by exact Hin. apply tick_lt; assumption.
Qed.

(** FindClusters returns exactly when some cell is below MinSeed; otherwise it reads past the end of its list *)
Theorem find_clusters_returns_iff cf hm im srt acc nx ny :
  0 < nx -> rect nx ny im -> rect nx ny hm -> sorts_falling srt ->
  (has_low_cell cf im -> exists cs n, find_clusters cf hm im srt acc = Ok (cs, n)) /\
  (~ has_low_cell cf im -> find_clusters cf hm im srt acc = Undef).
Proof.
  intros Hnx Hi Hh Hs. split; intros H.
  - apply (low_bin cf im nx ny Hnx Hi) in H. destruct (find_ok cf hm im nx ny Hnx Hi Hh srt Hs acc H) as (cs & seeds & E & _). eauto.
  - apply (find_overrun cf hm im nx ny Hnx Hi Hh srt Hs). intros b Hb. apply Qcnot_lt_le. intros F. apply H.
    apply (low_bin cf im nx ny Hnx Hi). eauto.
Qed.
Print Assumptions find_clusters_returns_iff.

(** the clusters found: disjoint sets of distinct cells, none too small, appended to the caller's list *)
Theorem find_clusters_partition cf hm im srt acc nx ny out n :
  0 < nx -> rect nx ny im -> rect nx ny hm -> sorts_falling srt ->
  find_clusters cf hm im srt acc = Ok (out, n) ->
  exists cs, out = acc ++ cs /\ n = length out /\ NoDup (concat cs) /\ (forall b, In b (concat cs) -> b < nx * ny) /\
    forall c, In c cs -> minSize cf <= length c.
Proof.
  intros Hnx Hi Hh Hs E.
  assert (Hlow : exists b, b < nx * ny /\ (charge_of im nx b < minSeed cf)%Qc).
  { destruct (existsb (fun b => qc_lt (charge_of im nx b) (minSeed cf)) (seq 0 (nx * ny))) eqn:Ex.
    - apply existsb_exists in Ex. destruct Ex as (b & Hb & Hl). apply in_seq in Hb. apply qc_lt_spec in Hl. exists b. split; [lia|exact Hl].
    - exfalso. rewrite (find_overrun cf hm im nx ny Hnx Hi Hh srt Hs) in E; [discriminate|]. intros b Hb. apply qc_lt_false.
      destruct (qc_lt (charge_of im nx b) (minSeed cf)) eqn:F; [|reflexivity]. rewrite <- Ex. symmetry. apply existsb_exists. exists b.
      split; [apply in_seq; lia|exact F]. }
  destruct (find_ok cf hm im nx ny Hnx Hi Hh srt Hs acc Hlow) as (cs & seeds & E' & Hnd & Hlt & (Hlen & Hmade & _) & _).
  rewrite E in E'. injection E' as -> ->. exists cs. repeat (split; [first [reflexivity|assumption]|]).
  intros c Hc. apply In_nth_error in Hc. destruct Hc as (i & Hci). destruct (nth_error seeds i) as [s|] eqn:Es.
  - destruct (Hmade i s c Es Hci) as (g & f & _ & _ & _ & _ & _ & Hsz). exact Hsz.
  - apply nth_error_None in Es. assert (i < length cs) by (apply nth_error_Some; congruence). lia.
Qed.
Print Assumptions find_clusters_partition.

(* ------------------------------------------------------------------ C82 *)
(** every cluster is grown from a seed to saturation, filled, and stripped of peninsulas to the largest supported part,
    and every cell that could be a seed is accounted for *)
Theorem find_clusters_history cf hm im srt acc nx ny :
  0 < nx -> rect nx ny im -> rect nx ny hm -> sorts_falling srt -> has_low_cell cf im ->
  exists cs seeds, find_clusters cf hm im srt acc = Ok (acc ++ cs, length (acc ++ cs)) /\
    made_from cf hm im nx ny seeds cs /\
    forall s, s < nx * ny -> (minSeed cf <= charge_of im nx s)%Qc ->
      In s (concat cs) \/
      (exists i c, nth_error cs i = Some c /\ cluster_from cf hm im nx ny (concat (firstn i cs)) s c) \/
      (exists i, i <= length cs /\ too_small cf hm im nx ny (concat (firstn i cs)) s).
Proof.
  intros Hnx Hi Hh Hs Hlow. apply (low_bin cf im nx ny Hnx Hi) in Hlow.
  destruct (find_ok cf hm im nx ny Hnx Hi Hh srt Hs acc Hlow) as (cs & seeds & E & _ & _ & Hmade & Hacc). exists cs, seeds. auto.
Qed.
Print Assumptions find_clusters_history.

(** a cell that holds no hit is never added as a hole when TimeThreshold <= 10000: every cell of a cluster is its seed, or is
    above ChargeThreshold, or holds a hit *)
Lemma grown_content cf hm im nx ny prev s g : grown cf hm im nx ny prev s g ->
  forall b, In b g -> b = s \/ (chargeThreshold cf < charge_of im nx b)%Qc.
Proof.
  induction 1 as [|c b H IH Hm]; intros a Ha.
  - destruct Ha as [<-|[]]. left; reflexivity.
  - apply in_app_iff in Ha. destruct Ha as [Ha|[<-|[]]]; [apply IH, Ha|right; apply Hm].
Qed.
Lemma filled_content cf hm nx ny prev g f : (timeThreshold cf <= Q2Qc (10000 # 1))%Qc -> filled cf hm nx ny prev g f ->
  forall b, In b f -> In b g \/ exists h, hit_of hm nx b = Some h.
Proof.
  intros Ht. induction 1 as [|c b H IH Hm]; intros a Ha; [auto|].
  apply in_app_iff in Ha. destruct Ha as [Ha|[<-|[]]]; [apply IH, Ha|]. right.
  destruct Hm as (_ & _ & _ & _ & _ & _ & (p & _ & Hp & [H1 H2])). unfold time_of at 1 in H1. unfold time_of at 2 in H2.
  destruct (hit_of hm nx b) as [h|]; [eauto|]. exfalso. set (t := time_of hm nx p) in *. clearbody t.
  set (T := timeThreshold cf) in *. clearbody T. clear - Hp H2 Ht.
  assert (E1 : Q2Qc (-10000 # 1) = (- Q2Qc (10000 # 1))%Qc) by (apply Qc_is_canon; reflexivity). rewrite E1 in H2.
  set (X := Q2Qc (10000 # 1)) in *. clearbody X. qclra.
Qed.
Theorem holes_are_hits cf hm im srt nx ny out n c :
  0 < nx -> rect nx ny im -> rect nx ny hm -> sorts_falling srt -> (timeThreshold cf <= Q2Qc (10000 # 1))%Qc ->
  find_clusters cf hm im srt [] = Ok (out, n) -> In c out ->
  exists s, (minSeed cf <= charge_of im nx s)%Qc /\
    forall b, In b c -> b = s \/ (chargeThreshold cf < charge_of im nx b)%Qc \/ exists h, hit_of hm nx b = Some h.
Proof.
  intros Hnx Hi Hh Hs Ht E Hc.
  assert (Hlow : has_low_cell cf im).
  { destruct (find_clusters_returns_iff cf hm im srt [] nx ny Hnx Hi Hh Hs) as [_ H2].
    destruct (existsb (fun b => qc_lt (charge_of im nx b) (minSeed cf)) (seq 0 (nx * ny))) eqn:Ex.
    - apply existsb_exists in Ex. destruct Ex as (b & Hb & Hl). apply in_seq in Hb. apply qc_lt_spec in Hl.
      apply (low_bin cf im nx ny Hnx Hi). exists b. split; [lia|exact Hl].
    - exfalso. rewrite H2 in E; [discriminate|]. intros F. apply (low_bin cf im nx ny Hnx Hi) in F. destruct F as (b & Hb & Hl).
      apply qc_lt_spec in Hl. assert (G : existsb (fun b => qc_lt (charge_of im nx b) (minSeed cf)) (seq 0 (nx * ny)) = true).
      { apply existsb_exists. exists b. split; [apply in_seq; lia|exact Hl]. } congruence. }
  destruct (find_clusters_history cf hm im srt [] nx ny Hnx Hi Hh Hs Hlow) as (cs & seeds & E' & (Hlen & Hmade & _) & _).
  rewrite E in E'. injection E' as -> _. simpl in Hc. apply In_nth_error in Hc. destruct Hc as (i & Hci).
  destruct (nth_error seeds i) as [s|] eqn:Es; [|apply nth_error_None in Es; assert (i < length cs) by (apply nth_error_Some; congruence); lia].
  destruct (Hmade i s c Es Hci) as (g & f & Hg & _ & _ & Hf & (Hsub & _) & _). exists s.
  split; [apply (grown_facts cf hm im nx ny _ s g Hg)|]. intros b Hb. apply (ss_incl _ _ Hsub) in Hb.
  destruct (filled_content cf hm nx ny _ g f Ht Hf b Hb) as [Hb'|Hb']; [|auto].
  destruct (grown_content cf hm im nx ny _ s g Hg b Hb'); auto.
Qed.
Print Assumptions holes_are_hits.

(** peninsulas: every cell off the edge of the array has at least MinNeighbours direct neighbours in its own or an earlier
    cluster *)
Theorem no_peninsulas cf hm im srt nx ny cs n i c b :
  0 < nx -> rect nx ny im -> rect nx ny hm -> sorts_falling srt -> has_low_cell cf im ->
  find_clusters cf hm im srt [] = Ok (cs, n) -> nth_error cs i = Some c -> In b c -> edge nx ny b = false ->
  minNeighbours cf <= touch_count nx b (concat (firstn (S i) cs)).
Proof.
  intros Hnx Hi Hh Hs Hlow E Hci Hb He.
  destruct (find_clusters_history cf hm im srt [] nx ny Hnx Hi Hh Hs Hlow) as (cs' & seeds & E' & (Hlen & Hmade & _) & _).
  rewrite E in E'. injection E' as -> _. simpl in *.
  destruct (nth_error seeds i) as [s|] eqn:Es; [|apply nth_error_None in Es; assert (i < length cs') by (apply nth_error_Some; congruence); lia].
  destruct (Hmade i s c Es Hci) as (g & f & _ & _ & _ & _ & (_ & Hsup & _) & _).
  assert (Efs : concat (firstn (S i) cs') = concat (firstn i cs') ++ c).
  { rewrite <- concat_snoc. f_equal. clear -Hci. revert i Hci. induction cs' as [|x l IHl]; intros [|i] H; try discriminate.
    - injection H as ->. reflexivity.
    - simpl. f_equal. apply IHl. exact H. }
  change (match cs' with [] => [] | a :: l => a :: firstn i l end) with (firstn (S i) cs'). rewrite Efs. apply Hsup; assumption.
Qed.
Print Assumptions no_peninsulas.

(* ------------------------------------------------------------------ C83 *)
(** no peninsula removal, no hole filling, compatible times: the clusters are exactly the connected components of the cells
    above ChargeThreshold that contain a seed and are large enough *)
Theorem clusters_are_components cf hm im srt nx ny :
  0 < nx -> rect nx ny im -> rect nx ny hm -> sorts_falling srt -> has_low_cell cf im ->
  8 <= nbThreshold cf -> minNeighbours cf = 0 -> (chargeThreshold cf < minSeed cf)%Qc ->
  (forall a b, a < nx * ny -> b < nx * ny -> (0 < time_of hm nx a)%Qc -> (0 < time_of hm nx b)%Qc -> in_time cf (time_of hm nx a) (time_of hm nx b)) ->
  exists cs, find_clusters cf hm im srt [] = Ok (cs, length cs) /\ NoDup (concat cs) /\
    (forall c, In c cs -> minSize cf <= length c /\ exists s rest, c = s :: rest /\ (minSeed cf <= charge_of im nx s)%Qc /\
        forall b, In b c <-> connected cf im nx ny s b) /\
    (forall s l, s < nx * ny -> (minSeed cf <= charge_of im nx s)%Qc -> NoDup l -> (forall b, In b l <-> connected cf im nx ny s b) ->
        minSize cf <= length l -> exists c, In c cs /\ Permutation c l) /\
    StronglySorted (fun c c' : list nat => (charge_of im nx (hd 0%nat c') <= charge_of im nx (hd 0%nat c))%Qc) cs.
Proof.
  intros Hnx Hi Hh Hs Hlow H8 H0 Hth Htm. apply (low_bin cf im nx ny Hnx Hi) in Hlow.
  destruct (find_ok cf hm im nx ny Hnx Hi Hh srt Hs [] Hlow) as (cs & seeds & E & Hnd & Hlt & Hmade & Hacc). simpl in E.
  destruct (all_components cf hm im nx ny Hnx H8 H0 Hth Htm seeds cs Hnd Hlt Hmade) as [_ Hall].
  exists cs. split; [exact E|]. split; [exact Hnd|]. split; [|split].
  - intros c Hc. apply In_nth_error in Hc. destruct Hc as (i & Hci).
    destruct (nth_error seeds i) as [s|] eqn:Es; [|apply nth_error_None in Es; assert (i < length cs) by (apply nth_error_Some; congruence); destruct Hmade; lia].
    destruct (Hall i s c Es Hci) as ((rest & Er) & Hse & Hcomp & Hsz). split; [exact Hsz|]. exists s, rest. auto.
  - intros s l Hsn Hse Hl Hls Hsz.
    apply (component_found cf hm im nx ny Hnx H8 H0 Hth Htm seeds cs s l Hnd Hlt Hmade (Hacc s Hsn Hse) Hl Hls Hsz).
  - destruct Hmade as (Hlen & _ & Hsort).
    assert (Hhd : seeds = map (hd 0) cs).
    { apply nth_ext with (d := 0) (d' := hd 0 []); [rewrite map_length; exact Hlen|]. intros i Hil.
      rewrite map_nth. destruct (nth_error cs i) as [c|] eqn:Ec; [|apply nth_error_None in Ec; lia].
      destruct (nth_error seeds i) as [s|] eqn:Es; [|apply nth_error_None in Es; lia].
      destruct (Hall i s c Es Ec) as ((rest & ->) & _). rewrite (nth_error_nth _ _ _ Es), (nth_error_nth _ _ _ Ec). reflexivity. }
    rewrite Hhd in Hsort. clear -Hsort. induction cs as [|c cs IH]; [constructor|]. simpl in Hsort. inversion_clear Hsort as [|? ? H1 H2].
    constructor; [apply IH, H1|]. rewrite Forall_forall in *. intros c' Hc'. apply H2, in_map, Hc'.
Qed.
Print Assumptions clusters_are_components.

(* ------------------------------------------------------------------ C84 *)
(** ConvertRecobHitsToVector: always succeeds on a non-empty list; every hit lies at least 20 wires and ticks inside the array;
    each cell shows the first hit of largest positive charge in it *)
Theorem image_shows_hits mw ro hits : hits <> [] ->
  exists im hm b nw nt, hits_to_image mw ro hits = Ok (im, hm, b) /\ rect nw nt im /\ rect nw nt hm /\
    (upW b = loW b + Z.of_nat nw)%Z /\ (upT b = loT b + Z.of_nat nt)%Z /\
    (forall h t, In h hits -> tick_is (h_time h) t -> (loW b + 20 <= h_wire h <= upW b - 20)%Z /\ (loT b + 20 <= t <= upT b - 20)%Z) /\
    forall x y, x < nw -> y < nt ->
      cell_shows hits (loW b + Z.of_nat x) (loT b + Z.of_nat y) (nth y (nth x im []) (Q2Qc 0)) (nth y (nth x hm []) None).
Proof.
  intros Hne. destruct (hits_to_image_ok mw ro hits Hne) as (im & hm & b & nw & nt & E & _ & Ew & Et & _ & _ & R1 & R2 & Hm & Hc).
  exists im, hm, b, nw, nt. repeat (split; [first [assumption|lia]|]). split; [|exact Hc].
  intros h t Hh Ht. apply tick_trunc in Ht. subst t. specialize (Hm h Hh). unfold margin in Hm. lia.
Qed.
Print Assumptions image_shows_hits.

(** a hit that shares its cell with an earlier hit of at least its charge, or has no positive charge, is nowhere in the map *)
Theorem hit_dropped mw ro hits im hm b pre h post :
  hits_to_image mw ro hits = Ok (im, hm, b) -> NoDup hits -> hits = pre ++ h :: post ->
  (h_charge h <= 0)%Qc \/ (exists h' t, In h' pre /\ in_cell (h_wire h) t h' /\ tick_is (h_time h) t /\ (h_charge h <= h_charge h')%Qc) ->
  forall x y, nth y (nth x hm []) None <> Some h.
Proof.
  intros E Hnd Hsplit Hwhy x y F. assert (Hne : hits <> []) by (rewrite Hsplit; destruct pre; discriminate).
  destruct (hits_to_image_ok mw ro hits Hne) as (im' & hm' & b' & nw & nt & E' & _ & Ew & Et & _ & _ & R1 & R2 & Hm & Hc).
  rewrite E in E'. injection E' as <- <- <-.
  assert (Hx : x < nw).
  { destruct (Nat.lt_ge_cases x nw) as [|G]; [assumption|]. rewrite (nth_overflow hm) in F by (destruct R2 as [-> _]; exact G). destruct y; discriminate. }
  assert (Hy : y < nt).
  { destruct (Nat.lt_ge_cases y nt) as [|G]; [assumption|]. rewrite nth_overflow in F; [discriminate|]. rewrite (rect_row nw nt hm x R2 Hx). exact G. }
  specialize (Hc x y Hx Hy). unfold get in Hc. rewrite F in Hc. destruct Hc as (Eq & Hpos & p & q & Hpq & [Hw Htk] & Hp & _).
  rewrite Eq in Hpos. destruct Hwhy as [Hle|(h' & t & Hin & Hcell & Htk' & Hle)].
  - apply (Qclt_not_le _ _ Hpos Hle).
  - apply tick_trunc in Htk, Htk'. subst t. rewrite Eq in Hp. rewrite <- Htk in Hcell. rewrite Hw in Hcell.
    assert (p = pre).
    { rewrite Hpq in Hsplit, Hnd. clear - Hsplit Hnd. revert pre post Hsplit. induction p as [|a p IH]; intros [|a' pre] post E; simpl in *.
      - reflexivity.
      - injection E as -> ->. inversion_clear Hnd as [|? ? N _]. exfalso. apply N, in_app_iff. right; left; reflexivity.
      - injection E as -> E. exfalso. inversion_clear Hnd as [|? ? N _]. apply N. apply in_app_iff. right; left; reflexivity.
      - injection E as -> E. f_equal. inversion_clear Hnd as [|? ? _ N]. eapply IH; [exact N|exact E]. }
    subst p. specialize (Hp h' Hin Hcell). apply (Qclt_not_le _ _ Hp Hle).
Qed.
Print Assumptions hit_dropped.

(* ------------------------------------------------------------------ C85 *)
Lemma nodup_concat_filter {A} (p : list A -> bool) l : NoDup (concat l) -> NoDup (concat (filter p l)) /\ incl (concat (filter p l)) (concat l).
Proof.
  induction l as [|a l IH]; simpl; intros H; [split; [constructor|intros x []]|].
  assert (Hl : NoDup (concat l)) by (clear -H; induction a as [|y a IHa]; [exact H|simpl in H; inversion_clear H; auto]).
  destruct (IH Hl) as [I1 I2]. destruct (p a); simpl.
  - split.
    + clear IH Hl. induction a as [|y a IHa]; [exact I1|]. simpl in *. inversion_clear H as [|? ? N1 N2]. constructor; [|apply IHa, N2].
      intros F. apply N1. apply in_app_iff in F. apply in_app_iff. destruct F as [F|F]; [left; exact F|right; apply I2, F].
    + intros x Hx. apply in_app_iff in Hx. apply in_app_iff. destruct Hx as [Hx|Hx]; [left; exact Hx|right; apply I2, Hx].
  - split; [exact I1|]. intros x Hx. apply in_app_iff. right. apply I2, Hx.
Qed.
Lemma concat_real hm nx cs : concat (map (real_hits hm nx) cs) = real_hits hm nx (concat cs).
Proof. induction cs as [|c cs IH]; [reflexivity|]. simpl. rewrite IH. unfold real_hits. rewrite flat_map_app. reflexivity. Qed.

(** the blurring radii fit the kernels and the 20-wire margin, and the kernels have their declared size *)
Definition blur_fits (bc : blurcfg) : Prop :=
  (0 <= blur_wire bc <= blurWire bc)%Z /\ (blurWire bc <= 19)%Z /\ (0 <= blur_tick bc <= blurTick bc)%Z /\ (1 <= maxTickWidth bc)%Z /\
  forall ts, (1 <= ts <= maxTickWidth bc)%Z ->
    Z.of_nat (length (kernel bc ts)) = ((2 * blurWire bc + 1) * (2 * blurTick bc * maxTickWidth bc + 1))%Z.

Theorem plane_clusters_ok cf bc dead srt mw ro hits :
  hits <> [] -> sorts_falling srt -> (0 < minSeed cf)%Qc ->
  no_blur bc = true \/ blur_fits bc ->
  (forall b, loW b <= upW b -> Z.of_nat (length (dead b)) = upW b - loW b /\ forall d, In d (dead b) -> d = false)%Z ->
  exists cl, plane_clusters cf bc dead srt mw ro hits = Ok cl /\ NoDup (concat cl) /\ incl (concat cl) hits /\
    (forall c, In c cl -> minSize cf <= length c) /\
    (length hits < minSize cf -> cl = []) /\
    (minSize cf <= length hits -> exists im hm b nw nt bl seeds cs,
       hits_to_image mw ro hits = Ok (im, hm, b) /\ rect nw nt hm /\ gaussian_blur bc (dead b) hm im = Ok bl /\ rect nw nt bl /\
       made_from cf hm bl nw nt seeds cs /\ cl = filter (fun l => minSize cf <=? length l) (map (real_hits hm nw) cs)).
Proof.
  intros Hne Hs Hseed Hblur Hdead. unfold plane_clusters.
  destruct (length hits <? minSize cf) eqn:Esz.
  { apply Nat.ltb_lt in Esz. exists []. split; [reflexivity|]. split; [constructor|]. split; [intros h []|]. split; [intros c []|].
    split; [reflexivity|]. intros F. lia. }
  apply Nat.ltb_ge in Esz.
  destruct (hits_to_image_ok mw ro hits Hne) as (im & hm & b & nw & nt & E & _ & Ew & Et & Hnw & Hnt & R1 & R2 & Hm & Hc).
  rewrite E. cbn [obind].
  assert (Hnw0 : 0 < nw) by lia.
  assert (Hcell0 : forall x y, x < nw -> y < nt -> x < 20 -> get (Q2Qc 0) im x y = Q2Qc 0 /\ get None hm x y = None).
  { intros x y Hx Hy Hx20. specialize (Hc x y Hx Hy). destruct (get None hm x y) as [h|]; cbn [cell_shows] in Hc; [|split; [apply Hc|reflexivity]].
    destruct Hc as (_ & _ & p & q & Epq & [W _] & _). assert (Hin : In h hits) by (rewrite Epq; apply in_app_iff; right; left; reflexivity).
    specialize (Hm h Hin). unfold margin in Hm. lia. }
  assert (Hbl : exists bl, gaussian_blur bc (dead b) hm im = Ok bl /\ rect nw nt bl /\ get (Q2Qc 0) bl 0 0 = Q2Qc 0).
  { destruct (no_blur bc) eqn:Enb.
    - exists im. unfold gaussian_blur. rewrite Enb. split; [reflexivity|]. split; [exact R1|]. apply Hcell0; lia.
    - destruct Hblur as [F|(B1 & B2 & B3 & B4 & B5)]; [discriminate|]. destruct (Hdead b ltac:(lia)) as [Dl Dd].
      destruct (blur_ok bc (dead b) hm im nw nt Hnw0 R1 R2 ltac:(lia) Dd B1 B3 B4 B5) as (bl & Eb & Rb & Gb); [|exact Enb|].
      + intros x y Hx Hy Hv. specialize (Hc x y Hx Hy). unfold get in Hc.
        destruct (nth y (nth x hm []) None) as [h|] eqn:Eh; cbn [cell_shows] in Hc; [|destruct Hc; contradiction].
        split; [eauto|]. destruct Hc as (_ & _ & p & q & Epq & [W _] & _).
        assert (Hin : In h hits) by (rewrite Epq; apply in_app_iff; right; left; reflexivity).
        specialize (Hm h Hin). unfold margin in Hm. lia.
      + exists bl. split; [exact Eb|]. split; [exact Rb|]. rewrite Gb by lia. apply qsum_zero'. intros [x y] Hin. cbn [fst snd].
        apply in_flat_map in Hin. destruct Hin as (x' & Hx & Hin). apply in_map_iff in Hin. destruct Hin as (y' & [= -> ->] & Hy). apply in_seq in Hx, Hy.
        unfold contribution. destruct (nth y (nth x hm []) None) as [h|] eqn:Eh; [|reflexivity].
        destruct (Nat.lt_ge_cases x 20) as [Hlt|Hge].
        * destruct (Hcell0 x y) as [_ F]; try lia. unfold get in F. rewrite F in Eh. discriminate.
        * destruct (Z.leb_spec (Z.abs (Z.of_nat 0 - Z.of_nat x)) (blur_wire bc)); [lia|reflexivity]. }
  destruct Hbl as (bl & Ebl & Rbl & Hz). rewrite Ebl. cbn [obind].
  assert (Hlow : exists c, c < nw * nt /\ (charge_of bl nw c < minSeed cf)%Qc).
  { exists 0. split; [nia|]. unfold charge_of. unfold wire_of, tick_of. rewrite Nat.mod_0_l, Nat.div_0_l by lia. unfold get in Hz. rewrite Hz. exact Hseed. }
  destruct (find_ok cf hm bl nw nt Hnw0 Rbl R2 srt Hs [] Hlow) as (cs & seeds & Ef & Hnd & Hlt & Hmade & _). rewrite Ef. cbn [obind fst]. simpl app.
  rewrite (bins_to_clusters_ok cf nw nt hm im cs [] Hnw0 R1 R2 Hlt). simpl app. eexists. split; [reflexivity|].
  destruct (real_hits_nodup hits b nw nt hm im (concat cs) Hnw0 Hc Hnd Hlt) as [N1 N2]. rewrite <- concat_real in N1, N2.
  destruct (nodup_concat_filter (fun l => minSize cf <=? length l) _ N1) as [M1 M2].
  split; [exact M1|]. split; [intros h Hh; apply N2, M2, Hh|]. 
  split; [intros c Hcl; apply filter_In in Hcl; apply Nat.leb_le, Hcl|]. split; [intros F; lia|]. intros _.
  exists im, hm, b, nw, nt, bl, seeds, cs. split; [reflexivity|]. split; [exact R2|]. split; [first [exact Ebl | reflexivity]|]. split; [exact Rbl|]. split; [exact Hmade|]. reflexivity.
Qed.
Print Assumptions plane_clusters_ok.

(* ------------------------------------------------------------------ C86 *)
(** without dead wires the blurred image is the exact sum of the hits' smeared charges *)
Theorem blur_is_convolution bc dead hm im nx ny :
  0 < nx -> rect nx ny im -> rect nx ny hm -> no_blur bc = false ->
  length dead = nx -> (forall d, In d dead -> d = false) ->
  (0 <= blur_wire bc <= blurWire bc)%Z -> (0 <= blur_tick bc <= blurTick bc)%Z -> (1 <= maxTickWidth bc)%Z ->
  (forall ts, (1 <= ts <= maxTickWidth bc)%Z ->
     Z.of_nat (length (kernel bc ts)) = ((2 * blurWire bc + 1) * (2 * blurTick bc * maxTickWidth bc + 1))%Z) ->
  (forall x y, x < nx -> y < ny -> nth y (nth x im []) (Q2Qc 0) <> Q2Qc 0 ->
     (exists h, nth y (nth x hm []) None = Some h) /\ (Z.of_nat x + blur_wire bc < Z.of_nat nx)%Z) ->
  exists out, gaussian_blur bc dead hm im = Ok out /\ rect nx ny out /\
    forall x' y', x' < nx -> y' < ny ->
      nth y' (nth x' out []) (Q2Qc 0) = qsum (fun x => qsum (fun y => contribution bc hm im x y x' y') (seq 0 ny)) (seq 0 nx).
Proof.
  intros Hnx R1 R2 Hb Hl Hd B1 B2 B3 Hk Hh.
  destruct (blur_ok bc dead hm im nx ny Hnx R1 R2 Hl Hd B1 B2 B3 Hk Hh Hb) as (out & E & R & G). exists out. split; [exact E|]. split; [exact R|].
  intros x' y' Hx' Hy'. unfold get in G. rewrite G by assumption. generalize (seq 0 nx). intros l. induction l as [|x l IH]; [reflexivity|].
  simpl flat_map. rewrite qsum_app, IH, qsum_cons. f_equal. rewrite qsum_map. reflexivity.
Qed.
Print Assumptions blur_is_convolution.

(* ------------------------------------------------------------------ instances, non-vacuity, refutations *)
Definition q (n : Z) : Qc := Q2Qc (n # 1).
Definition before (p r : Qc * nat) : bool := qc_lt (fst r) (fst p) || (negb (qc_lt (fst p) (fst r)) && (snd r <? snd p)).
Lemma before_spec p r : before p r = true <-> (fst r < fst p)%Qc \/ (fst r = fst p /\ snd r < snd p).
Proof.
  unfold before. rewrite orb_true_iff, andb_true_iff, negb_true_iff, qc_lt_spec, Nat.ltb_lt. split.
  - intros [H|[H1 H2]]; [left; exact H|]. apply qc_lt_false in H1. destruct (Qclt_le_dec (fst r) (fst p)) as [F|F]; [left; exact F|].
    right. split; [apply Qcle_antisym; assumption|exact H2].
  - intros [H|[H1 H2]]; [left; exact H|]. right. split; [|exact H2]. apply qc_lt_false. rewrite H1. apply Qcle_refl.
Qed.
Lemma isort_falls : sorts_falling (isort before).
Proof.
  intros l0. split; [apply isort_perm|].
  assert (Hs : StronglySorted (fun a b => before b a = false) (isort before l0)).
  { apply isort_sorted.
    - intros a b c H1 H2. destruct (before c a) eqn:F; [|reflexivity]. exfalso. apply before_spec in F.
      assert (N1 : ~ (before b a = true)) by congruence. assert (N2 : ~ (before c b = true)) by congruence. rewrite before_spec in N1, N2.
      destruct a as [va na], b as [vb nb], c as [vc nc]; simpl in *.
      destruct (Qclt_le_dec va vb) as [G1|G1]; [apply N1; left; exact G1|].
      destruct (Qclt_le_dec vb vc) as [G2|G2]; [apply N2; left; exact G2|].
      destruct F as [F|[F1 F2]]; [apply (Qclt_not_le _ _ F); eapply Qcle_trans; eassumption|]. subst vc.
      assert (va = vb) by (apply Qcle_antisym; assumption). subst vb.
      destruct (Nat.lt_ge_cases na nb) as [G3|G3]; [apply N1; right; auto|]. apply N2. right. split; [reflexivity|lia].
    - intros a b H. destruct (before b a) eqn:F; [|reflexivity]. exfalso. apply before_spec in H, F.
      destruct H as [H|[H1 H2]], F as [F|[F1 F2]].
      + apply (Qclt_not_le _ _ H). apply Qclt_le_weak, F.
      + rewrite F1 in H. apply (Qclt_not_le _ _ H). apply Qcle_refl.
      + rewrite H1 in F. apply (Qclt_not_le _ _ F). apply Qcle_refl.
      + lia. }
  revert Hs. generalize (isort before l0). intros l1 Hs. induction Hs as [|a l H IH Hf]; [constructor|]. constructor; [exact IH|]. rewrite Forall_forall in *. intros b Hb. specialize (Hf b Hb).
  assert (N : ~ before b a = true) by congruence. rewrite before_spec in N.
  destruct (Qclt_le_dec (fst b) (fst a)) as [G|G]; [left; exact G|].
  destruct (Qclt_le_dec (fst a) (fst b)) as [G2|G2]; [exfalso; apply N; left; exact G2|].
  right. split; [apply Qcle_antisym; assumption|]. destruct (Nat.le_gt_cases (snd b) (snd a)) as [L|L]; [exact L|]. exfalso. apply N. right.
  split; [apply Qcle_antisym; assumption|exact L].
Qed.

Definition cf0 : config := {| wireDist := 1; tickDist := 1; nbThreshold := 8; minNeighbours := 0; minSize := 2;
  minSeed := q 5; timeThreshold := q 100; chargeThreshold := q 2 |}.
Definition none_map (nx ny : nat) : hitmap := repeat (repeat None ny) nx.

(** two blobs, the second too small, a third without a seed: the first is found *)
Definition im0 : image := map (map q)
  [[9; 3; 0; 0; 0; 0]; [0; 0; 4; 0; 0; 7]; [0; 0; 0; 0; 0; 0]; [3; 3; 0; 0; 0; 0]]%Z.
Example components_ex :
  find_clusters cf0 (none_map 4 6) im0 (isort before) [] = Ok ([[0; 4; 9]], 1) /\ rect 4 6 im0 /\ rect 4 6 (none_map 4 6) /\ has_low_cell cf0 im0.
Proof.
  split; [vm_compute; reflexivity|]. split; [split; [reflexivity|]; intros r Hr; simpl in Hr; repeat (destruct Hr as [<-|Hr]; [reflexivity|]); destruct Hr|].
  split; [apply rect_repeat|]. exists (nth 0 im0 []), (q 0). split; [left; reflexivity|]. split; [right; right; left; reflexivity|]. vm_compute. reflexivity.
Qed.

(** REFUTED: FindClusters does not return for every image: with MinSeed at (or below) the smallest charge it runs past its list *)
Theorem find_clusters_total_refuted : exists cf hm im srt nx ny, 0 < nx /\ rect nx ny im /\ rect nx ny hm /\ sorts_falling srt /\
  minSeed cf = Q2Qc 0 /\ find_clusters cf hm im srt [] = Undef.
Proof.
  exists {| wireDist := 1; tickDist := 1; nbThreshold := 8; minNeighbours := 0; minSize := 1; minSeed := Q2Qc 0; timeThreshold := q 100; chargeThreshold := q 2 |},
    (none_map 2 2), (map (map q) [[3; 0]; [0; 1]]%Z), (isort before), 2, 2.
  split; [lia|]. split; [split; [reflexivity|]; intros r Hr; simpl in Hr; repeat (destruct Hr as [<-|Hr]; [reflexivity|]); destruct Hr|].
  split; [apply rect_repeat|]. split; [apply isort_falls|]. split; [reflexivity|]. vm_compute. reflexivity.
Qed.
Print Assumptions find_clusters_total_refuted.

(** REFUTED: a hole all of whose eight neighbours are in the cluster is not filled, even with NeighboursThreshold 0, when it
    holds no hit (its time is -10000) *)
Definition ring : image := map (map q) [[0;0;0;0;0]; [0;9;9;9;0]; [0;9;0;9;0]; [0;9;9;9;0]; [0;0;0;0;0]]%Z.
Definition hit9 (i : nat) (w t : Z) : bhit := {| h_id := i; h_wire := w; h_time := q t; h_charge := q 9 |}.
Definition ring_map : hitmap :=
  [repeat None 5; [None; Some (hit9 0 1 1); Some (hit9 1 1 2); Some (hit9 2 1 3); None]; [None; Some (hit9 3 2 1); None; Some (hit9 4 2 3); None];
   [None; Some (hit9 5 3 1); Some (hit9 6 3 2); Some (hit9 7 3 3); None]; repeat None 5].
Theorem holes_filled_refuted : exists cf hm im srt nx ny c b, 0 < nx /\ rect nx ny im /\ rect nx ny hm /\ sorts_falling srt /\
  nbThreshold cf = 0 /\ find_clusters cf hm im srt [] = Ok ([c], 1) /\ ~ In b c /\ edge nx ny b = false /\ touch_count nx b c = 8 /\
  (forall a, touching nx b a = true -> a < nx * ny -> In a c).
Proof.
  exists {| wireDist := 1; tickDist := 1; nbThreshold := 0; minNeighbours := 0; minSize := 2; minSeed := q 5; timeThreshold := q 100; chargeThreshold := q 2 |},
    ring_map, ring, (isort before), 5, 5, [18; 17; 13; 11; 16; 7; 8; 6], 12.
  split; [lia|]. split; [split; [reflexivity|]; intros r Hr; simpl in Hr; repeat (destruct Hr as [<-|Hr]; [reflexivity|]); destruct Hr|].
  split; [split; [reflexivity|]; intros r Hr; simpl in Hr; repeat (destruct Hr as [<-|Hr]; [reflexivity|]); destruct Hr|].
  split; [apply isort_falls|]. split; [reflexivity|]. split; [vm_compute; reflexivity|].
  split; [simpl; lia|]. split; [reflexivity|]. split; [reflexivity|].
  intros a Ha Hlt. assert (Hb : forallb (fun a => implb (touching 5 12 a) (existsb (Nat.eqb a) [18; 17; 13; 11; 16; 7; 8; 6])) (seq 0 25) = true) by (vm_compute; reflexivity).
  rewrite forallb_forall in Hb. specialize (Hb a). rewrite Ha in Hb. cbn [implb] in Hb. assert (F : In a (seq 0 25)) by (apply in_seq; lia).
  apply Hb, existsb_exists in F. destruct F as (x & Hx & Ex). apply Nat.eqb_eq in Ex. subst x. exact Hx.
Qed.
Print Assumptions holes_filled_refuted.

(** REFUTED: MinNeighbours is not guaranteed within the cluster itself *)
Definition im1 : image := map (map q) [[0;0;0;0;0]; [0;9;9;9;0]; [0;0;6;0;0]; [0;0;0;0;0]]%Z.
Theorem own_neighbours_refuted : exists cf hm im srt nx ny c1 c2 b, 0 < nx /\ rect nx ny im /\ rect nx ny hm /\ sorts_falling srt /\
  minNeighbours cf = 1 /\ find_clusters cf hm im srt [] = Ok ([c1; c2], 2) /\ In b c2 /\ edge nx ny b = false /\ touch_count nx b c2 = 0.
Proof.
  exists {| wireDist := 0; tickDist := 1; nbThreshold := 8; minNeighbours := 1; minSize := 1; minSeed := q 5; timeThreshold := q 100; chargeThreshold := q 2 |},
    (none_map 4 5), im1, (isort before), 4, 5, [13; 9; 5], [10], 10.
  split; [lia|]. split; [split; [reflexivity|]; intros r Hr; simpl in Hr; repeat (destruct Hr as [<-|Hr]; [reflexivity|]); destruct Hr|].
  split; [apply rect_repeat|]. split; [apply isort_falls|]. split; [reflexivity|]. split; [vm_compute; reflexivity|].
  split; [left; reflexivity|]. split; reflexivity.
Qed.
Print Assumptions own_neighbours_refuted.

(** REFUTED: with MinSize 0 an empty cluster can be returned *)
Theorem clusters_nonempty_refuted : exists cf hm im srt nx ny, 0 < nx /\ rect nx ny im /\ rect nx ny hm /\ sorts_falling srt /\
  find_clusters cf hm im srt [] = Ok ([[]], 1).
Proof.
  exists {| wireDist := 1; tickDist := 1; nbThreshold := 8; minNeighbours := 1; minSize := 0; minSeed := q 5; timeThreshold := q 100; chargeThreshold := q 2 |},
    (none_map 3 3), (map (map q) [[0;0;0]; [0;9;0]; [0;0;0]]%Z), (isort before), 3, 3.
  split; [lia|]. split; [split; [reflexivity|]; intros r Hr; simpl in Hr; repeat (destruct Hr as [<-|Hr]; [reflexivity|]); destruct Hr|].
  split; [apply rect_repeat|]. split; [apply isort_falls|]. vm_compute. reflexivity.
Qed.
Print Assumptions clusters_nonempty_refuted.

(** a hit with time t, wire w, charge c *)
Definition hh (i : nat) (w : Z) (t : Q) (c : Z) : bhit := {| h_id := i; h_wire := w; h_time := Q2Qc t; h_charge := q c |}.
(** REFUTED: not every hit with charge is kept: of two hits on one wire half a tick apart only the larger is in the map *)
Theorem all_hits_kept_refuted : exists hits h im hm b, NoDup hits /\ In h hits /\ (0 < h_charge h)%Qc /\
  hits_to_image 100 1000 hits = Ok (im, hm, b) /\ forall x y, nth y (nth x hm []) None <> Some h.
Proof.
  set (h1 := hh 0 10 (50 # 1) 7). set (h2 := hh 1 10 (101 # 2) 7). exists [h1; h2], h2.
  assert (Hnd : NoDup [h1; h2]) by (repeat constructor; simpl; [intros [F|[]]; apply (f_equal h_id) in F; discriminate|intros []]).
  destruct (hits_to_image_ok 100 1000 [h1; h2] ltac:(discriminate)) as (im & hm & b & nw & nt & E & _).
  exists im, hm, b. split; [exact Hnd|]. split; [right; left; reflexivity|]. split; [vm_compute; reflexivity|]. split; [exact E|].
  apply (hit_dropped 100 1000 [h1; h2] im hm b [h1] h2 [] E Hnd eq_refl). right. exists h1, 50%Z.
  split; [left; reflexivity|]. split; [split; [reflexivity|apply tick_trunc; vm_compute; reflexivity]|].
  split; [apply tick_trunc; vm_compute; reflexivity|]. vm_compute. discriminate.
Qed.
Print Assumptions all_hits_kept_refuted.

(** the kernel of radius (1, 1*2): symmetric, centre weight 4, edges 2 and 1 *)
Definition kern : list Qc := map q [0;0;0; 1;2;1; 2;4;2; 1;2;1; 0;0;0]%Z.
Definition bc0 (bt ts : Z) : blurcfg := {| no_blur := false; blurWire := 1; blurTick := 1; maxTickWidth := 2; blur_wire := 1; blur_tick := bt;
  raw_scale := fun _ => ts; kernel := fun _ => kern |}.
Definition one_im (nx ny x y : nat) (c : Z) : image := put (repeat (repeat (Q2Qc 0) ny) nx) x y (q c).
Definition one_map (nx ny x y : nat) : hitmap := put (repeat (repeat None ny) nx) x y (Some (hit9 0 0 0)).
Example blur_ex : match gaussian_blur (bc0 1 1) (repeat false 6) (one_map 6 5 3 2) (one_im 6 5 3 2 10) with
  | Ok out => map (map this) out = map (map this) (map (map q) [[0;0;0;0;0];[0;0;0;0;0];[0;10;20;10;0];[0;20;40;20;0];[0;10;20;10;0];[0;0;0;0;0]]%Z)
  | _ => False end.
Proof. vm_compute. reflexivity. Qed.

(** REFUTED: with a dead wire next to the hit the smearing of a single hit with a symmetric kernel is lopsided *)
Theorem blur_dead_wire_refuted : exists bc dead hm im out x' y dy,
  no_blur bc = false /\ gaussian_blur bc dead hm im = Ok out /\
  (forall ts dx d, weight bc ts dx d = weight bc ts dx (- d) \/ (2 < Z.abs d)%Z \/ (1 < Z.abs dx)%Z) /\
  im = one_im 6 5 3 y 10 /\ dead = [false; false; true; false; false; false] /\
  nth (y + dy) (nth x' out []) (Q2Qc 0) <> nth (y - dy) (nth x' out []) (Q2Qc 0).
Proof.
  destruct (gaussian_blur (bc0 1 1) [false; false; true; false; false; false] (one_map 6 5 3 2) (one_im 6 5 3 2 10)) as [out|e|] eqn:E; [| |].
  2,3: exfalso; vm_compute in E; discriminate.
  exists (bc0 1 1), [false; false; true; false; false; false], (one_map 6 5 3 2), (one_im 6 5 3 2 10), out, 1, 2, 1.
  split; [reflexivity|]. split; [exact E|]. split.
  - intros ts dx d. destruct (Z.leb_spec (Z.abs d) 2); [|lia]. destruct (Z.leb_spec (Z.abs dx) 1); [|lia]. left.
    assert (Hd : (d = -2 \/ d = -1 \/ d = 0 \/ d = 1 \/ d = 2)%Z) by lia. assert (Hx : (dx = -1 \/ dx = 0 \/ dx = 1)%Z) by lia.
    destruct Hd as [->|[->|[->|[->| ->]]]]; destruct Hx as [->|[->| ->]]; reflexivity.
  - split; [reflexivity|]. split; [reflexivity|].
    assert (F : match gaussian_blur (bc0 1 1) [false; false; true; false; false; false] (one_map 6 5 3 2) (one_im 6 5 3 2 10) with
      Ok out => negb (qc_eqb (nth 3 (nth 1 out []) (Q2Qc 0)) (nth 1 (nth 1 out []) (Q2Qc 0))) | _ => false end = true) by (vm_compute; reflexivity).
    rewrite E in F. intros G. apply negb_true_iff in F. apply qc_eqb_spec in G. simpl Nat.add in G. simpl Nat.sub in G. congruence.
Qed.
Print Assumptions blur_dead_wire_refuted.

(** REFUTED: with the largest tick scale the same dead wire makes the code read before the start of the kernel; so does
    BlurWire = 0, for which the radius used is still 1 *)
Theorem blur_in_bounds_refuted :
  gaussian_blur (bc0 1 2) [false; false; true; false; false; false] (one_map 6 5 3 2) (one_im 6 5 3 2 10) = Undef /\
  exists bc, blurWire bc = 0%Z /\ blur_wire bc = 1%Z /\ Z.of_nat (length (kernel bc 1)) = ((2 * blurWire bc + 1) * (2 * blurTick bc * maxTickWidth bc + 1))%Z /\
    gaussian_blur bc (repeat false 6) (one_map 6 5 3 2) (one_im 6 5 3 2 10) = Undef.
Proof.
  split; [vm_compute; reflexivity|].
  exists {| no_blur := false; blurWire := 0; blurTick := 1; maxTickWidth := 1; blur_wire := 1; blur_tick := 1; raw_scale := fun _ => 1%Z; kernel := fun _ => map q [1; 2; 1]%Z |}.
  split; [reflexivity|]. split; [reflexivity|]. split; [reflexivity|]. vm_compute. reflexivity.
Qed.
Print Assumptions blur_in_bounds_refuted.

Example blur_fits_ex : blur_fits (bc0 1 1).
Proof. unfold blur_fits. simpl. repeat split; try lia. Qed.

(** the premises of [plane_clusters_ok] hold for a concrete set-up, and the whole chain gives the expected cluster *)
Definition all_alive (b : bounds) : list bool := repeat false (Z.to_nat (upW b - loW b)).
Example all_alive_ok : forall b, (loW b <= upW b -> Z.of_nat (length (all_alive b)) = upW b - loW b /\ forall d, In d (all_alive b) -> d = false)%Z.
Proof. intros b H. unfold all_alive. rewrite repeat_length. split; [lia|]. intros d Hd. apply repeat_spec in Hd. exact Hd. Qed.
Definition three_hits : list bhit := [hh 0 30 (50 # 1) 7; hh 1 31 (103 # 2) 9; hh 2 33 (60 # 1) 4].
Example plane_ex : exists cl, plane_clusters cf0 (bc0 1 1) all_alive (isort before) 100 1000 three_hits = Ok cl /\ incl (concat cl) three_hits.
Proof.
  destruct (plane_clusters_ok cf0 (bc0 1 1) all_alive (isort before) 100 1000 three_hits) as (cl & E & _ & Hi & _);
    [discriminate|apply isort_falls|vm_compute; reflexivity|right; exact blur_fits_ex|exact all_alive_ok|]. exists cl. split; assumption.
Qed.
