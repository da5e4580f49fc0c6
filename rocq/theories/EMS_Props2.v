(** Properties C107-C111: order of the shower hits, start of the shower, space points, what EMShower writes. *)
From Coq Require Import QArith Qcanon Lqa.
From Verif Require Import Base QcUtil RFF_Spec Solver_Model Solver_Proofs CCB_Hist EMS_Model EMS_Map EMS_Spec EMS_Assoc EMS_Find EMS_Planes EMS_Order EMS_Iso EMS_Perm EMS_Orient EMS_Final EMS_Hits EMS_Start EMS_Points EMS_Out EMS_Small EMS_Props.
Local Open Scope nat_scope.

(** ** C107 *)

(** OrderShowerHits, whatever the verdicts of the geometry: the planes are those of the hits; each has only hits of its
    plane, at least one, none repeated; and all of them when no two share a position along or across the fitted line *)
Theorem order_hits_partial np rms gneg ok2 ok3 want hs r : order_hits np rms gneg ok2 ok3 want hs = Ok r ->
  StronglySorted Z.lt (map fst r) /\ (forall p, In p (map fst r) <-> exists h, In h hs /\ hpl h = p) /\
  forall p v, In (p, v) r -> v <> [] /\ incl v (hits_of p hs) /\ (NoDup hs -> NoDup v) /\ (separated (hits_of p hs) -> Permutation v (hits_of p hs)).
Proof.
  intros E. destruct (order_hits_good np rms gneg ok2 ok3 want hs r E) as (O & K & V). split; [exact O|]. split; [exact K|].
  intros p v H. destruct (V p v H) as (A & B & C & D). auto.
Qed.
Print Assumptions order_hits_partial.

(** on up to three planes with different lengths in wires (the one narrow plane, if there is exactly one, is left aside):
    the starts of the planes agree, unless no choice of directions makes them agree *)
Theorem order_hits_orientation_partial np rms gneg ok2 ok3 want hs r : order_hits np rms gneg ok2 ok3 want hs = Ok r ->
  np <= 3 -> (forall h, In h hs -> (0 <= hpl h < Z.of_nat np)%Z) -> wires_apart r ->
  exists r', ((exists b, narrow r b /\ (forall p, narrow r p -> p = b) /\ r' = without b r) \/ (~ (exists b, narrow r b /\ forall p, narrow r p -> p = b) /\ r' = r)) /\
    (agree ok2 ok3 r' \/ forall m', reoriented r' m' -> ~ agree ok2 ok3 m').
Proof.
  intros E L R A. destruct (order_hits_split np rms gneg ok2 ok3 want hs r E) as (m & G & E'). pose proof (orientate_re ok2 ok3 np m r (proj1 G) E') as Re.
  apply (orientate_main ok2 ok3 np m r L (good_full hs m G)); [|exact (apart_re m r Re A)|exact E'].
  intros p Hp. apply (proj1 (proj2 G)) in Hp. destruct Hp as (h & Hh & <-). exact (R h Hh).
Qed.
Print Assumptions order_hits_orientation_partial.

(** the planes of the result have the hits of the ordered planes in either direction; nothing is turned when the check
    accepts no choice *)
Theorem settle_partial np ok2 ok3 m r : np <= 3 -> full m -> (forall p, In p (map fst m) -> (0 <= p < Z.of_nat np)%Z) -> settle np ok2 ok3 m = Ok r ->
  reoriented m r /\ (agree ok2 ok3 r \/ r = m).
Proof. intros L F R E. destruct (settle_main ok2 ok3 np m r L F R E) as (A & [B|[B _] ]); auto. Qed.
Print Assumptions settle_partial.

(** planes of 5 and 3 wires; the check wants plane 0 reversed and plane 1 as it is *)
Definition wh (k : nat) (p x y : Z) : hit := HT k p 0 (q x) (q y) (q x) (q y) (q 1) (Z.to_nat x).
Definition ok_w (a b : hit) : bool := (hk a =? 1) && (hk b =? 2).
Definition keys_of (r : outcome hmap) : list (Z * list nat) := match r with Ok m => map (fun e => (fst e, map hk (snd e))) m | _ => [] end.
Definition hs_a := [wh 0 0 0 0; wh 1 0 5 1; wh 2 1 10 0; wh 3 1 13 1].
Example order_hits_example : keys_of (order_hits 3 (fun _ => q 1) (fun _ => false) ok_w (fun _ _ _ _ => true) (-1) hs_a) = [(0%Z, [1; 0]); (1%Z, [2; 3])].
Proof. vm_compute. reflexivity. Qed.

(** it should be that an orientation in which the starts agree is found: with planes of equal length in wires one of them is
    missing among the permutations, and the starts do not agree although they would with plane 0 reversed *)
Definition hs_t := [wh 0 0 0 0; wh 1 0 5 1; wh 2 1 10 0; wh 3 1 15 1].
Theorem orientation_refuted : exists r m', order_hits 3 (fun _ => q 1) (fun _ => false) ok_w (fun _ _ _ _ => true) (-1) hs_t = Ok r /\
  length r = 2 /\ reoriented r m' /\ agree ok_w (fun _ _ _ _ => true) m' /\ ~ agree ok_w (fun _ _ _ _ => true) r.
Proof.
  exists [(0%Z, [wh 0 0 0 0; wh 1 0 5 1]); (1%Z, [wh 2 1 10 0; wh 3 1 15 1])], [(0%Z, [wh 1 0 5 1; wh 0 0 0 0]); (1%Z, [wh 2 1 10 0; wh 3 1 15 1])].
  split; [vm_compute; reflexivity|]. split; [reflexivity|]. split; [constructor; [split; [reflexivity|right; reflexivity]|constructor; [split; [reflexivity|left; reflexivity]|constructor] ]|]. split.
  - split; [|intros a u b v c w p E; discriminate (f_equal (@length _) E)]. intros p a u o b v E. injection E as _ <- _ _ <- _. reflexivity.
  - intros [H _]. specialize (H 0%Z (wh 0 0 0 0) [wh 1 0 5 1] 1%Z (wh 2 1 10 0) [wh 3 1 15 1] eq_refl). discriminate H.
Qed.
Print Assumptions orientation_refuted.

(** it should be possible to restrict OrderShowerHits to one plane: with hits on another plane it never returns *)
Theorem order_one_plane_refuted np rms gneg ok2 ok3 want hs r : want <> (-1)%Z -> (exists h, In h hs /\ hpl h <> want) ->
  order_hits np rms gneg ok2 ok3 want hs <> Ok r.
Proof. apply order_hits_one. Qed.
Print Assumptions order_one_plane_refuted.
(** with hits of that plane only, the restriction changes nothing *)
Theorem order_only_plane np rms gneg ok2 ok3 want hs : (forall h, In h hs -> hpl h = want) ->
  order_hits np rms gneg ok2 ok3 want hs = order_hits np rms gneg ok2 ok3 (-1) hs.
Proof.
  intros H. unfold order_hits, order_planes. f_equal. f_equal. apply foreach_ext'. intros r e He. destruct (group_good hs) as (_ & K & _).
  pose proof (proj1 (K (fst e)) (in_map fst _ _ He)) as (h & Hh & E). rewrite <- E, (H h Hh), Z.eqb_refl, Bool.andb_false_r. reflexivity.
Qed.
Print Assumptions order_only_plane.
Example order_only_plane_example : keys_of (order_hits 3 (fun _ => q 1) (fun _ => false) ok_w (fun _ _ _ _ => true) 0 (filter (fun h => (hpl h =? 0)%Z) hs_a)) = [(0%Z, [0; 1])].
Proof. vm_compute. reflexivity. Qed.
Example order_one_plane_example : order_hits 3 (fun _ => q 1) (fun _ => false) ok_w (fun _ _ _ _ => true) 0 hs_a = Throw RangeExn.
Proof. vm_compute. reflexivity. Qed.

(** ** C108 *)

(** FindShowerStart_ for the hits of a plane: some of them; each is the first, the second, or alone on its wire (with no
    hits shortly ahead in time when the shower crosses its first wire); no hit is alone in its TPC, unless the answer is
    the first hit only; the order is that of the hits, but for a pair that ends with the second hit *)
Theorem start_partial f r : let v := f :: r in exists s, start_hits v = Ok s /\ s <> [] /\ incl s v /\ (s = [f] \/ forall h, In h s -> not_single s h) /\
  (forall h, In h s -> h = f \/ nth_error v 1 = Some h \/ (crossing v -> clear_ahead v h) /\ (~ crossing v -> alone v h)) /\
  (subseq s v \/ exists h g, nth_error v 1 = Some g /\ In h v /\ s = [h; g]).
Proof. apply start_main. Qed.
Print Assumptions start_partial.

(** a track of hits alone on their wires: all of them *)
Lemma cnt_alone v h : alone v h -> cnt rw v (rw h) <= 1.
Proof. intros A. apply (cnt_one rw v h). exact A. Qed.
Lemma wire_all v up : (forall h, In h v -> alone v h) -> forall l mw, incl l v -> wire_start v up l mw = l.
Proof.
  intros A. assert (Any : forall x, cnt rw v x <= 1).
  { intros x. destruct (Nat.eq_dec (cnt rw v x) 0) as [Z|Z]; [lia|]. assert (Y : exists h, In h v /\ rw h = x).
    { unfold cnt in Z. destruct (filter (fun h => (rw h =? x)%Z) v) as [|h l] eqn:E; [contradiction|]. exists h. assert (In h (h :: l)) as I by (left; reflexivity). rewrite <- E in I. apply filter_In in I. destruct I as [I Q]. apply Z.eqb_eq in Q. auto. }
    destruct Y as (h & Hh & <-). apply cnt_alone, A, Hh. }
  assert (F : forall x, (1 <? cnt rw v x) = false) by (intros x; apply Nat.ltb_ge, Any).
  induction l as [|h l IH]; intros mw I; [reflexivity|]. cbn [wire_start]. rewrite !F. cbn [andb]. f_equal. apply IH. intros x Hx. apply I. right. exact Hx.
Qed.
Theorem start_track_partial v : 2 <= length v -> (forall h, In h v -> alone v h) -> ~ crossing v -> (forall a b, In a v -> In b v -> htp a = htp b) -> start_hits v = Ok v.
Proof.
  intros L A C T. destruct v as [|f r]; [cbn in L; lia|]. pose proof (start_eq f r) as E. cbv zeta in E. rewrite E. clear E. f_equal.
  pose proof (crossing_eq f r) as X. cbv zeta in X. unfold first_hits.
  destruct ((3 <? Z.abs (zmin (map rw (f :: r)) - rw f))%Z && (3 <? Z.abs (zmax (map rw (f :: r)) - rw f))%Z) eqn:B; [destruct C; apply X; reflexivity|]. cbn [negb].
  rewrite (wire_all (f :: r) _ A (f :: r) 0) by (intros x Hx; exact Hx).
  destruct r as [|g r]; [cbn in L; lia|]. cbv zeta. replace (length (f :: g :: r) =? 1) with false by reflexivity. cbn [andb].
  pose proof (quality_ok f (f :: g :: r) ltac:(discriminate)) as Qk. cbv zeta in Qk. unfold quality in *.
  set (v := f :: g :: r) in *.
  assert (S0 : map fst (filter (fun e : Z * nat => snd e =? 1) (tpcs v)) = []).
  { destruct (map fst (filter (fun e : Z * nat => snd e =? 1) (tpcs v))) as [|z zs] eqn:Ez; [reflexivity|]. exfalso.
    assert (Iz : In z (map fst (filter (fun e : Z * nat => snd e =? 1) (tpcs v)))) by (rewrite Ez; left; reflexivity).
    assert (Kz : In z (keys (tpcs v))) by (clear -Iz; apply in_map_iff in Iz; destruct Iz as (e & <- & H); apply filter_In in H; apply in_map, H).
    apply (proj2 (tpcs_keys v)) in Kz. destruct Kz as (h & Hh & ->). apply zmem_spec in Iz. apply (single_in v h Hh) in Iz.
    assert (Two : 2 <= cnt (fun h => Z.of_nat (htp h)) v (Z.of_nat (htp h))).
    { unfold cnt, v. cbn [filter]. rewrite (T f h (or_introl eq_refl) Hh), (T g h (or_intror (or_introl eq_refl)) Hh), Z.eqb_refl. cbn [length]. lia. }
    lia. }
  rewrite S0. reflexivity.
Qed.
Print Assumptions start_track_partial.
Definition sw (k : nat) (x : Z) : hit := HT k 0 0 (q x) (q 0) (q x) (q 0) (q 1) (Z.to_nat x).
Example start_example : start_hits [sw 0 5; sw 1 6; sw 2 8; sw 3 9] = Ok [sw 0 5; sw 1 6; sw 2 8; sw 3 9] /\ (forall h, In h [sw 0 5; sw 1 6; sw 2 8; sw 3 9] -> alone [sw 0 5; sw 1 6; sw 2 8; sw 3 9] h).
Proof.
  split; [vm_compute; reflexivity|]. intros h _ i j a b Ea Eb Qa Qb. rewrite <- Qb in Qa. clear Qb h.
  destruct i as [|[|[|[|i] ] ] ], j as [|[|[|[|j] ] ] ]; try reflexivity; cbn in Ea, Eb; try (destruct i; discriminate); try (destruct j; discriminate); injection Ea as <-; injection Eb as <-; vm_compute in Qa; discriminate.
Qed.

(** it should be that no hit is repeated: when only the second hit is alone on its wire it is given twice *)
Theorem start_twice_refuted : let v := [sw 0 5; sw 1 6; sw 2 5] in NoDup (map hk v) /\ start_hits v = Ok [sw 1 6; sw 1 6].
Proof. cbv zeta. split; [repeat constructor; cbn; intuition lia|vm_compute; reflexivity]. Qed.
Print Assumptions start_twice_refuted.
(** nor that they are in order: when only the third hit is alone, it comes before the second *)
Theorem start_order_refuted : let v := [sw 0 5; sw 1 5; sw 2 6; sw 3 5] in NoDup (map hk v) /\ start_hits v = Ok [sw 2 6; sw 1 5].
Proof. cbv zeta. split; [repeat constructor; cbn; intuition lia|vm_compute; reflexivity]. Qed.
Print Assumptions start_order_refuted.

(** ** C109 *)

(** MakeSpacePoints: each point is of two hits of one TPC, from a plane and the lowest other plane, confirmed by a hit of
    the third plane if there is one; the first two hits of a point are in no earlier point; no pair that could make a
    point is left with both its hits unused *)
Theorem points_partial np near3 near2 m : full m -> (forall p, In p (map fst m) -> (0 <= p < Z.of_nat np)%Z) -> NoDup (map hk (all_hits m)) ->
  let ps := space_points np near3 near2 m in
  (forall pt, In pt ps -> point_of near3 near2 m pt /\ NoDup (map hk pt)) /\
  (forall i j pt pt' x y, i < j -> nth_error ps i = Some pt -> nth_error ps j = Some pt' -> In x pt -> In y (firstn 2 pt') -> hk x <> hk y) /\
  (forall a b, could near3 near2 m a b -> in_point ps a \/ in_point ps b).
Proof. intros F R N. exact (points_main np near3 near2 m F R N). Qed.
Print Assumptions points_partial.
(** with hits on two planes, no hit is in two points *)
Theorem points_two_planes np near3 near2 m : full m -> (forall p, In p (map fst m) -> (0 <= p < Z.of_nat np)%Z) -> NoDup (map hk (all_hits m)) ->
  length m = 2 -> NoDup (map hk (concat (space_points np near3 near2 m))).
Proof. intros F R N. exact (points_two np near3 near2 m F R N). Qed.
Print Assumptions points_two_planes.

(** it should be that no hit is in two points: with three planes the hit that confirms a point may confirm others *)
Definition m_p : hmap := [(0%Z, [wh 0 0 0 0; wh 1 0 1 0]); (1%Z, [wh 2 1 0 0; wh 3 1 1 0]); (2%Z, [wh 4 2 0 0])].
Lemma m_p_ok : full m_p /\ (forall p, In p (map fst m_p) -> (0 <= p < Z.of_nat 3)%Z) /\ NoDup (map hk (all_hits m_p)).
Proof.
  split; [split; [repeat constructor|]; intros p v [E|[E|[E|[] ] ] ]; injection E as <- <-; discriminate|]. split; [|repeat constructor; cbn; intuition lia].
  intros p [<-|[<-|[<-|[] ] ] ]; cbn; lia.
Qed.
Theorem points_refuted : let near3 a b c := (hwi a =? hwi b) in
  full m_p /\ NoDup (map hk (all_hits m_p)) /\ map (map hk) (space_points 3 near3 (fun _ _ => true) m_p) = [[0; 2; 4]; [1; 3; 4] ].
Proof. cbv zeta. split; [apply m_p_ok|]. split; [apply m_p_ok|vm_compute; reflexivity]. Qed.
Print Assumptions points_refuted.

(** ** C110 *)

(** EMShower::produce with Shower = -1 or 0: when it returns, what is written is what [written] says of the showers of the
    cluster-track associations, made again without the clusters of the bad plane if there are any *)
Theorem produce_partial fmh fmt ncl ntr len minlen points complete save_all find_bad cpl hpls want o :
  (want = -1 \/ want = 0)%Z ->
  produce fmh ncl ntr points complete fmt len minlen find_bad cpl hpls want save_all = Ok o ->
  exists ign m, associate (seq 0 ncl) fmh fmt len minlen ign ([], []) = Ok m /\
  ((ign = [(-999)%Z] /\ (find_bad = true -> exists m0, associate_all (seq 0 ncl) fmh fmt len minlen ([], []) = Ok m0 /\ check_planes cpl hpls (find_showers (snd m0)) = Ok [])) \/
   find_bad = true /\ ign <> [] /\ exists m0, associate_all (seq 0 ncl) fmh fmt len minlen ([], []) = Ok m0 /\ check_planes cpl hpls (find_showers (snd m0)) = Ok ign) /\
  written fmh (fun c t => c < ncl /\ linked fmh fmt len minlen ign c t) points complete save_all (find_showers (snd m)) o.
Proof. apply produce_written. Qed.
Print Assumptions produce_partial.

(** without the search for bad planes it always returns *)
Theorem produce_returns fmh fmt ncl ntr len minlen points complete save_all find_bad cpl hpls want :
  find_bad = false -> valid_assns (seq 0 ncl) fmh fmt -> (forall h t, nth_error fmt h = Some [t] -> t < ntr) ->
  exists o, produce fmh ncl ntr points complete fmt len minlen find_bad cpl hpls want save_all = Ok o.
Proof. apply produce_total. Qed.
Print Assumptions produce_returns.

(** it should be possible to select shower number [want]: for any positive number nothing at all is written *)
Theorem produce_select_refuted fmh fmt ncl ntr len minlen points complete save_all find_bad cpl hpls want o :
  (want <> -1)%Z -> (want <> 0)%Z -> produce fmh ncl ntr points complete fmt len minlen find_bad cpl hpls want save_all = Ok o ->
  o = O [] [] [] [] [] [] 0.
Proof. apply produce_skip. Qed.
Print Assumptions produce_select_refuted.

(** two showers of one cluster each, with two space points each, one hit per point *)
Definition run_w (want : Z) (complete : list nat -> bool) : outcome out :=
  produce [[0; 1]; [2; 3] ] 2 2 (map (fun h => [h])) complete [[0]; [0]; [1]; [1] ] (fun _ => q 1) (q 0) false [] [] want false.
Lemma valid_w : valid_assns (seq 0 2) [[0; 1]; [2; 3] ] [[0]; [0]; [1]; [1] ].
Proof. intros c Hc. apply in_seq in Hc. destruct c as [|[|c] ]; [| |lia]; eexists; (split; [reflexivity|]); cbn; intros h H; intuition lia. Qed.
Example produce_example : run_w (-1) (fun _ => true) =
  Ok (O [0%Z; 0%Z] [(0, 0); (0, 1); (1, 2); (1, 3)] [(0, 0); (1, 1)] [(0, 0); (1, 1)] [(0, 0); (0, 1); (1, 2); (1, 3)] [(0, 0); (1, 0); (2, 2); (3, 2)] 4).
Proof. vm_compute. reflexivity. Qed.
Example produce_select_example : run_w 1 (fun _ => true) = Ok (O [] [] [] [] [] [] 0).
Proof. vm_compute. reflexivity. Qed.

(** it should be that the showers have different ids, and that a space point is associated with its own hits: all ids are 0,
    and every point of a shower gets the hits of the first point of that shower *)
Theorem produce_refuted : exists o, run_w (-1) (fun _ => true) = Ok o /\ ~ NoDup (o_ids o) /\
  ~ own_hits [[0; 1]; [2; 3] ] (map (fun h => [h])) [[0%Z]; [1%Z] ] o.
Proof.
  eexists. split; [apply produce_example|]. split; [cbn [o_ids]; intros N; inversion N as [|? ? H]; apply H; left; reflexivity|].
  intros W. destruct (proj2 (W 1 1)) as [].
  - exists 0, [0%Z], [1]. split; [reflexivity|]. split; [vm_compute; lia|]. split; [reflexivity|left; reflexivity].
  - discriminate H.
  - cbn in H. intuition discriminate.
Qed.
Print Assumptions produce_refuted.

(** it should be that the space points written are those of the showers written: here no shower is complete and none is
    written, but all four points are, with their hits *)
Theorem produce_orphans_refuted : exists o, run_w (-1) (fun _ => false) = Ok o /\ o_ids o = [] /\ o_np o = 4 /\ o_sp o = [].
Proof. eexists. split; [vm_compute; reflexivity|]. auto. Qed.
Print Assumptions produce_orphans_refuted.

(** ** C111 *)

(** isCleanShower: some hits, and fewer than 20, more than 2000, or at least 13 different wires among hits 2 to 19 *)
Theorem clean_exact v : clean_shower v = true <-> v <> [] /\ (length v < 20 \/ (2000 < N.of_nat (length v))%N \/ 13 <= length (nodup Nat.eq_dec (map hwi (skipn 2 (firstn 20 v))))).
Proof. apply clean_eq. Qed.
Print Assumptions clean_exact.

(** the two planes chosen by MakeShower: two different planes, no other plane has more hits than the second, and the second
    none more than the first *)
Theorem two_planes_exact l : NoDup (map fst l) -> (forall p n, In (p, n) l -> (0 <= p)%Z /\ 0 < n) -> 2 <= length l ->
  exists n0 n1, In (fst (two_planes l), n0) l /\ In (snd (two_planes l), n1) l /\ fst (two_planes l) <> snd (two_planes l) /\ n1 <= n0 /\
    forall p n, In (p, n) l -> p <> fst (two_planes l) -> n <= n1.
Proof. apply two_planes_main. Qed.
Print Assumptions two_planes_exact.
Example two_planes_example : two_planes [(0%Z, 3); (1%Z, 7); (2%Z, 5)] = (1%Z, 2%Z). Proof. reflexivity. Qed.

(** the best plane: the first of those with most hits, -1 if there are no hits *)
Theorem best_plane_exact init l : (forall i, i < length l -> 0 < nth i l 0 -> In (Z.of_nat i) init) ->
  exists p, best_plane init l = Ok p /\
    ((p = (-1)%Z /\ forall n, In n l -> n = 0) \/
     exists i n, p = Z.of_nat i /\ nth_error l i = Some n /\ 0 < n /\ (forall j k, nth_error l j = Some k -> k <= n) /\ forall j, j < i -> nth_error l j <> Some n).
Proof. apply best_inv. Qed.
Print Assumptions best_plane_exact.
Example best_plane_example : best_plane [0; 1; 2]%Z [3; 7; 7] = Ok 1%Z. Proof. reflexivity. Qed.
Example clean_example : clean_shower (map (fun k => sw k (Z.of_nat k)) (seq 0 25)) = true /\ clean_shower (map (fun k => sw k 3) (seq 0 25)) = false.
Proof. vm_compute. auto. Qed.
