(** Properties C102-C106: clusters, tracks, showers, bad planes and the order of the hits in EMShowerAlg. *)
From Coq Require Import QArith Qcanon Lqa.
From Verif Require Import Base QcUtil RFF_Spec Solver_Model Solver_Proofs CCB_Hist EMS_Model EMS_Map EMS_Spec EMS_Assoc EMS_Find EMS_Planes EMS_Order EMS_Iso.
Local Open Scope nat_scope.

Definition q (n : Z) : Qc := Q2Qc (inject_Z n).

(** ** C102 *)

(** AssociateClustersAndTracks into empty maps: it succeeds exactly when every index exists, and otherwise throws out_of_range;
    the two maps are then each other's inverse and hold exactly the linked pairs, without repetition or empty entries;
    the clusters of a track come in the order of the clusters *)
Theorem associate_exact cls fmh fmt len minlen ign :
  ((exists s, associate cls fmh fmt len minlen ign ([], []) = Ok s) <-> valid_assns cls fmh fmt) /\
  (~ valid_assns cls fmh fmt -> associate cls fmh fmt len minlen ign ([], []) = Throw RangeExn) /\
  forall c2t t2c, associate cls fmh fmt len minlen ign ([], []) = Ok (c2t, t2c) ->
    increasing c2t /\ increasing t2c /\ no_empty c2t /\ no_empty t2c /\
    (forall c l, In (c, l) c2t -> NoDup l) /\ (forall t l, In (t, l) t2c -> NoDup l) /\
    (forall c t, (exists l, In (c, l) c2t /\ In t l) <-> exists c' t', c = Z.of_nat c' /\ t = Z.of_nat t' /\ In c' cls /\ linked fmh fmt len minlen ign c' t') /\
    (forall c t, (exists l, In (t, l) t2c /\ In c l) <-> exists c' t', c = Z.of_nat c' /\ t = Z.of_nat t' /\ In c' cls /\ linked fmh fmt len minlen ign c' t') /\
    (forall t l, In (t, l) t2c -> subseq l (map Z.of_nat cls)).
Proof.
  assert (A : (exists s, associate cls fmh fmt len minlen ign ([], []) = Ok s) <-> valid_assns cls fmh fmt).
  { split; [intros (s & E); exact (associate_valid _ _ _ _ _ _ _ _ E)|]. intros V. destruct (associate_ok fmh fmt len minlen ign cls V [] _ inv0) as (s & E & _). eauto. }
  split; [exact A|]. split.
  - intros N. destruct (associate_throw fmh fmt len minlen ign cls ([], [])) as [U T]. destruct (associate cls fmh fmt len minlen ign ([], [])) as [s|e|] eqn:E; [destruct N; apply A; eauto|rewrite (T e eq_refl); reflexivity|contradiction].
  - intros c2t t2c E. pose proof (associate_valid _ _ _ _ _ _ _ _ E) as V. destruct (associate_ok fmh fmt len minlen ign cls V [] _ inv0) as (s & E' & I & Sb). rewrite E in E'. injection E' as <-.
    cbn [app] in I. destruct I as (N1 & N2 & R1 & R2 & O1 & O2 & Z1 & Z2). cbn [fst snd] in *.
    assert (F1 : forall k l, In (k, l) c2t -> mvec k c2t = l) by (intros k l H; unfold mvec; rewrite (proj2 (mfind_in _ _ _ O1) H); reflexivity).
    assert (F2 : forall k l, In (k, l) t2c -> mvec k t2c = l) by (intros k l H; unfold mvec; rewrite (proj2 (mfind_in _ _ _ O2) H); reflexivity).
    split; [exact O1|]. split; [exact O2|]. split; [intros k l H; apply (Z1 k), mfind_in; assumption|]. split; [intros k l H; apply (Z2 k), mfind_in; assumption|].
    split; [intros k l H; rewrite <- (F1 k l H); apply N1|]. split; [intros k l H; rewrite <- (F2 k l H); apply N2|]. split; [|split].
    + intros c t. transitivity (In t (mvec c c2t)).
      * split; [intros (l & H & Hl); rewrite (F1 c l H); exact Hl|]. unfold mvec. destruct (mfind c c2t) as [l|] eqn:Q; [|intros []]. intros H. exists l. split; [apply mfind_in; assumption|exact H].
      * rewrite R1. split; intros (c' & t' & -> & -> & H); exists c', t'; repeat split; auto; apply (in_links fmh fmt len minlen ign cls c' t' V); exact H.
    + intros c t. transitivity (In c (mvec t t2c)).
      * split; [intros (l & H & Hl); rewrite (F2 t l H); exact Hl|]. unfold mvec. destruct (mfind t t2c) as [l|] eqn:Q; [|intros []]. intros H. exists l. split; [apply mfind_in; assumption|exact H].
      * rewrite R2. split; intros (c' & t' & -> & -> & H); exists c', t'; repeat split; auto; apply (in_links fmh fmt len minlen ign cls c' t' V); exact H.
    + intros t l H. rewrite <- (F2 t l H). apply (Sb []). intros t0. constructor.
Qed.
Print Assumptions associate_exact.

(** three clusters; hit 2 belongs to two tracks, hit 5 to a track that is too short *)
Definition fmh_e := [[0; 1]; [2; 3]; [4; 5]].
Definition fmt_e := [[7]; [7]; [7; 8]; [8]; [7]; [9]].
Definition len_e (t : nat) : Qc := if t =? 9 then q 1 else q 10.
Example associate_example :
  valid_assns [0; 1; 2] fmh_e fmt_e /\
  associate_all [0; 1; 2] fmh_e fmt_e len_e (q 5) ([], []) = Ok ([(0%Z, [7%Z]); (1%Z, [8%Z]); (2%Z, [7%Z])], [(7%Z, [0%Z; 2%Z]); (8%Z, [1%Z])]).
Proof.
  split; [|vm_compute; reflexivity]. intros c [<-|[<-|[<-|[] ] ] ]; eexists; (split; [reflexivity|]); cbn; intros h H; intuition lia.
Qed.

(** ** C103 *)

(** FindShowers: the clusters of each track are together in some shower, a shower has only clusters of tracks, any two of
    its clusters are connected through tracks, and there are at most as many showers as tracks *)
Theorem find_showers_partial t2c :
  (forall t l, In (t, l) t2c -> exists s, In s (find_showers t2c) /\ incl l s) /\
  (forall s c, In s (find_showers t2c) -> In c s -> exists t l, In (t, l) t2c /\ In c l) /\
  (forall s a b, In s (find_showers t2c) -> In a s -> In b s -> connected t2c a b) /\
  (no_empty t2c -> forall s, In s (find_showers t2c) -> s <> []) /\
  ((forall t l, In (t, l) t2c -> NoDup l) -> forall s, In s (find_showers t2c) -> NoDup s) /\
  length (find_showers t2c) <= length t2c.
Proof.
  rewrite find_fs. split; [intros t l H; apply fs_has; apply (in_map snd) in H; exact H|]. split; [intros s c Hs Hc; destruct (fs_sound _ s c Hs Hc) as (l & Hl & H); apply in_map_iff in Hl; destruct Hl as ([t l'] & <- & Hi); exists t, l'; auto|].
  split; [|split; [|split] ].
  - intros s a b Hs Ha Hb. pose proof (fs_conn _ s a b Hs Ha Hb) as C. unfold connected. clear -C. induction C as [x y (l & Hl & X & Y)|x|x y z _ IH1 _ IH2]; [|apply rt_refl|eapply rt_trans; eassumption].
    apply rt_step. apply in_map_iff in Hl. destruct Hl as ([t l'] & <- & Hi). exists t, l'. auto.
  - intros N. apply fs_nonempty. intros l Hl. apply in_map_iff in Hl. destruct Hl as ([t l'] & <- & Hi). exact (N t l' Hi).
  - intros N. apply fs_nodup. intros l Hl. apply in_map_iff in Hl. destruct Hl as ([t l'] & <- & Hi). exact (N t l' Hi).
  - etransitivity; [apply fs_count|]. rewrite map_length. lia.
Qed.
Print Assumptions find_showers_partial.

(** the showers are disjoint exactly when no track touches two of the showers made from the tracks before it, and they are
    then the connected components *)
Theorem find_showers_disjoint t2c :
  (disjoint_showers (find_showers t2c) <->
   forall n t l i j a b, nth_error t2c n = Some (t, l) ->
     nth_error (find_showers (firstn n t2c)) i = Some a -> nth_error (find_showers (firstn n t2c)) j = Some b -> touches a l -> touches b l -> i = j) /\
  (disjoint_showers (find_showers t2c) -> forall s a b, In s (find_showers t2c) -> In a s -> (In b s <-> connected t2c a b)).
Proof.
  rewrite find_fs. split.
  - split.
    + intros D n t l i j a b En Ea Eb. pose proof (disj_only _ D) as O. rewrite find_fs in Ea, Eb. apply nth_error_split in En. destruct En as (pre & post & E & Ln).
      apply (O (map snd pre) l (map snd post)); [rewrite E, map_app; reflexivity| |]; subst n; rewrite E, firstn_app, Nat.sub_diag, firstn_all, app_nil_r in Ea, Eb; assumption.
    + intros H. apply disj_if. intros pre l post E i j a b Ea Eb. 
      assert (X : exists t, nth_error t2c (length pre) = Some (t, l)).
      { assert (Y : nth_error (map snd t2c) (length pre) = Some l) by (rewrite E, nth_error_app2, Nat.sub_diag by lia; reflexivity). rewrite nth_error_map in Y. destruct (nth_error t2c (length pre)) as [ [t l']|]; [|discriminate]. injection Y as ->. eauto. }
      destruct X as (t & X). apply (H (length pre) t l i j a b X); rewrite find_fs, <- firstn_map, E, firstn_app, Nat.sub_diag, firstn_all, app_nil_r; assumption.
  - intros D s a b Hs Ha. split.
    + intros Hb. destruct (find_showers_partial t2c) as (_ & _ & C & _). rewrite find_fs in C. exact (C s a b Hs Ha Hb).
    + intros C. apply (disj_comp _ D a b); [|exact Hs|exact Ha]. clear -C. induction C as [x y (t & l & Hl & X & Y)|x|x y z _ IH1 _ IH2]; [|apply rt_refl|eapply rt_trans; eassumption].
      apply rt_step. exists l. split; [apply (in_map snd) in Hl; exact Hl|auto].
Qed.
Print Assumptions find_showers_disjoint.

(** it should be that a cluster is in one shower, and that connected clusters are in the same one. Three tracks with the
    clusters 0 / 1 / 0, 1, made by AssociateClustersAndTracks: the third track is added to the first shower only *)
Definition t2c_w : zmap (list Z) := [(0%Z, [0%Z]); (1%Z, [1%Z]); (2%Z, [0%Z; 1%Z])].
Theorem find_showers_refuted :
  associate_all [0; 1] [[0; 2]; [1; 3]] [[0]; [1]; [2]; [2]] (fun _ => q 1) (q 0) ([], []) = Ok ([(0%Z, [0%Z; 2%Z]); (1%Z, [1%Z; 2%Z])], t2c_w) /\
  ~ disjoint_showers (find_showers t2c_w) /\
  ~ (forall s a b, In s (find_showers t2c_w) -> In a s -> connected t2c_w a b -> In b s).
Proof.
  split; [vm_compute; reflexivity|]. change (find_showers t2c_w) with [[0%Z; 1%Z]; [1%Z] ]. split.
  - intros D. discriminate (D 0 1 [0%Z; 1%Z] [1%Z] 1%Z eq_refl eq_refl (or_intror (or_introl eq_refl)) (or_introl eq_refl)).
  - intros H. destruct (H [1%Z] 1%Z 0%Z (or_intror (or_introl eq_refl)) (or_introl eq_refl)) as [X|[] ]; [|discriminate]. apply rt_step. exists 2%Z, [0%Z; 1%Z]. cbn. auto.
Qed.
Print Assumptions find_showers_refuted.

(** three showers, disjoint: tracks joining 0-1, 1-2 and alone 4, 5 *)
Example find_showers_example : find_showers [(1%Z, [0%Z; 1%Z]); (3%Z, [4%Z]); (6%Z, [2%Z; 1%Z]); (8%Z, [5%Z])] = [[0%Z; 1%Z; 2%Z]; [4%Z]; [5%Z] ] /\
  disjoint_showers [[0%Z; 1%Z; 2%Z]; [4%Z]; [5%Z] ].
Proof.
  split; [vm_compute; reflexivity|]. intros i j a b c Ea Eb Ha Hb.
  destruct i as [|[|[|i] ] ]; cbn in Ea; [| | |destruct i; discriminate]; injection Ea as <-; (destruct j as [|[|[|j] ] ]; cbn in Eb; [| | |destruct j; discriminate]); injection Eb as <-; try reflexivity; cbn in Ha, Hb; lia.
Qed.

(** ** C104 *)

(** CheckShowerPlanes for clusters with planes and hits, the planes being [P]: the clusters of the highest plane whose mean
    cluster fraction is at least the quadrature sum of those of the other planes, if there are three planes or more, are
    returned, and none otherwise; only the first shower is looked at *)
Theorem check_planes_exact cpl hpl cs P rest :
  planes_of cpl cs P -> (forall p, In p P -> (0 <= p)%Z) ->
  (forall c, In c cs -> c < length cpl /\ c < length hpl) ->
  (forall p, In p P -> 0 < hits_on hpl cs p) ->
  exists r, check_planes cpl hpl (map Z.of_nat cs :: rest) = Ok r /\
    ((r = [] /\ (length P < 3 \/ forall p, ~ suspicious cpl hpl cs P p)) \/
     (3 <= length P /\ exists p, suspicious cpl hpl cs P p /\ (forall o, suspicious cpl hpl cs P o -> (o <= p)%Z) /\ r = map Z.of_nat (on_plane cpl cs p))).
Proof. apply check_planes_main. Qed.
Print Assumptions check_planes_exact.

(** clusters 0-3 on plane 0, 4-7 on plane 1, 8 on plane 2, in equal shares of hits: plane 2 has mean 1, the others 1/4 *)
Definition cpl_e := [0; 0; 0; 0; 1; 1; 1; 1; 2]%Z.
Definition hpl_e := map (fun p => [p]) cpl_e.
Definition sh_e := map Z.of_nat (seq 0 9).
Example check_planes_example : check_planes cpl_e hpl_e [sh_e] = Ok [8%Z] /\
  planes_of cpl_e (seq 0 9) [0; 1; 2]%Z /\ (forall p, In p [0; 1; 2]%Z -> 0 < hits_on hpl_e (seq 0 9) p).
Proof.
  split; [vm_compute; reflexivity|]. split.
  - split; [repeat constructor|]. intros p. split.
    + intros [<-|[<-|[<-|[] ] ] ]; [exists 0|exists 4|exists 8]; split; try reflexivity; apply in_seq; lia.
    + intros (c & Hc & <-). apply in_seq in Hc. do 9 (destruct c as [|c]; [cbn; tauto|]). lia.
  - intros p [<-|[<-|[<-|[] ] ] ]; vm_compute; lia.
Qed.

(** it should be that the clusters of the bad plane are found in every shower: a shower with such a plane, after one without *)
Theorem check_planes_refuted :
  check_planes cpl_e hpl_e [sh_e] = Ok [8%Z] /\ check_planes (cpl_e ++ [0%Z]) (hpl_e ++ [[0%Z] ]) [[9%Z]; sh_e] = Ok [] /\
  check_planes (cpl_e ++ [0%Z]) (hpl_e ++ [[0%Z] ]) [sh_e; [9%Z] ] = Ok [8%Z].
Proof. vm_compute. auto. Qed.
Print Assumptions check_planes_refuted.

(** ** C105 *)

(** FindOrderOfHits_ for hits with non-zero total charge and a fitted slope: the hits come in strictly increasing position
    along (or across) the line; at each position occupied by hits there is the last of them; all hits are kept when no two
    share a position *)
Theorem find_order_partial hs perp g : charge hs <> Q2Qc 0 -> slope hs = Some g ->
  exists r, find_order hs perp = Ok r /\
    StronglySorted (fun a b => (along g perp a < along g perp b)%Qc) r /\
    (forall h, In h r <-> last_at (along g perp) hs h) /\
    (forall h, In h hs -> exists h', In h' r /\ along g perp h' = along g perp h) /\
    ((forall i j a b, nth_error hs i = Some a -> nth_error hs j = Some b -> along g perp a = along g perp b -> i = j) -> Permutation r hs).
Proof.
  intros C S. eexists. split; [exact (find_order_eq hs perp g C S)|]. split; [apply qf_sorted|]. split; [apply qf_in|]. split; [|apply qf_perm].
  intros h Hh. destruct (qf_inv hit (along g perp) hs) as ((_ & O) & K & _). pose proof (proj2 (K (along g perp h)) (in_map _ _ _ Hh)) as X. apply in_map_iff in X. destruct X as (e & Ee & He).
  exists (snd e). split; [apply in_map; exact He|]. rewrite <- (O e He). exact Ee.
Qed.
Print Assumptions find_order_partial.

(** without charge, or with all hits at one wire, the direction is 0/0 *)
Theorem find_order_undefined hs perp :
  (find_order hs perp = Undef <-> charge hs = Q2Qc 0 \/ slope hs = None) /\
  (forall x, (forall h, In h hs -> hpx h = x) -> find_order hs perp = Undef).
Proof. split; [apply find_order_undef|]. intros x H. apply find_order_undef. right. exact (one_wire_slope hs x H). Qed.
Print Assumptions find_order_undefined.

Definition hit_at (k : nat) (x y : Z) : hit := HT k 0 0 (q x) (q y) (q x) (q y) (q 1) (Z.to_nat x).
Definition hs_e := [hit_at 0 3 1; hit_at 1 1 0; hit_at 2 2 1; hit_at 3 0 0].
Example find_order_example : charge hs_e <> Q2Qc 0 /\ (exists g, slope hs_e = Some g) /\
  match find_order hs_e false with Ok r => map hk r | _ => [] end = [3; 1; 2; 0].
Proof. split; [|split; [|vm_compute; reflexivity] ]. { intros X. apply (f_equal this) in X. vm_compute in X. discriminate. } { eexists. vm_compute. reflexivity. } Qed.

(** it should be that no hit is lost: two hits symmetric about the fitted line, one of which disappears *)
Definition hs_w := [hit_at 0 0 0; hit_at 1 1 1; hit_at 2 1 (-1); hit_at 3 2 0].
Theorem find_order_refuted : NoDup (map hk hs_w) /\ exists r, find_order hs_w false = Ok r /\ map hk r = [0; 2; 3] /\ ~ incl hs_w r.
Proof.
  split; [repeat constructor; cbn; intuition lia|]. eexists. split; [vm_compute; reflexivity|]. split; [reflexivity|]. intros H.
  assert (X : In 1 (map hk hs_w)) by (cbn; auto). apply in_map_iff in X. destruct X as (h & E & Hh). apply H in Hh. cbn in Hh. destruct Hh as [<-|[<-|[<-|[] ] ] ]; discriminate E.
Qed.
Print Assumptions find_order_refuted.

(** ** C106 *)

(** CheckIsolatedHits_ on three planes or fewer: if the first one or two hits of the only plane starting in its TPC are
    stray, the hits of that plane are re-ordered ([moved]); otherwise nothing is changed *)
Theorem isolated_exact np m : full m -> length m <= 3 -> exists m', isolated np m = Ok m' /\
  ((exists p n t t' v w, stray np m p n t t' v /\ moved n v w /\ replaced m m' p w /\ Permutation v w) \/
   ((forall p n t t' v, ~ stray np m p n t t' v) /\ m' = m)).
Proof.
  intros F L. destruct (isolated_main np m F L) as (m' & E & D). exists m'. split; [exact E|]. destruct D as [(p & n & t & t' & v & w & S & M & ->)|D]; [left|right; exact D].
  exists p, n, t, t', v, w. split; [exact S|]. split; [exact M|]. split; [|exact (moved_perm n v w M)].
  apply (mset_replaced m p v w (proj1 F)). apply S.
Qed.
Print Assumptions isolated_exact.

(** one stray hit: it goes to the end, and the plane starts in the other TPC *)
Theorem isolated_one_partial np m p t t' v : full m -> length m <= 3 -> stray np m p 1 t t' v ->
  exists m' a r, isolated np m = Ok m' /\ v = a :: r /\ replaced m m' p (r ++ [a]) /\ starts_in m' p t'.
Proof.
  intros F L S. destruct (isolated_exact np m F L) as (m' & E & [(p1 & n1 & t1 & t1' & v1 & w & S1 & M & R & _)|[N _] ]); [|destruct (N _ _ _ _ _ S)].
  assert (Hp : p1 = p /\ t1 = t).
  { destruct S as (_ & Lo & Mx & _), S1 as (_ & Lo1 & Mx1 & _). assert (t1 = t) by (apply Nat.le_antisymm; [exact (Mx _ _ Lo1)|exact (Mx1 _ _ Lo)]). split; [|assumption]. subst t1. apply Lo, Lo1. }
  destruct Hp as [-> ->]. assert (Hv : v1 = v) by (apply (EMS_Iso.in_same m F p); [apply S1|apply S]). subst v1.
  assert (Hn : n1 = 1).
  { destruct S as (_ & _ & _ & _ & L3 & _ & D & A & B & _), S1 as (_ & _ & _ & _ & _ & [-> | ->] & D1 & A1 & B1 & _); [reflexivity|].
    destruct v as [|a [|b r] ]; cbn in L3; [lia|lia|]. exfalso. apply D. rewrite <- (A1 1 b eq_refl), <- (B 1 b eq_refl) by lia. reflexivity. }
  subst n1. inversion M as [a r Ev|]; subst. exists m', a, r. split; [exact E|]. split; [reflexivity|]. split; [exact R|].
  destruct S as (_ & _ & _ & _ & L3 & _ & D & A & B & _). destruct r as [|b r]; [cbn in L3; lia|]. exists b, (r ++ [a]). split; [exact (proj1 (proj2 R))|]. apply (B 1 b eq_refl). lia.
Qed.
Print Assumptions isolated_one_partial.

(** it should be that the stray hits are behind all others afterwards: with two, the second stray hit is left in front and
    the third, good, hit is moved to the end *)
Definition th (k : nat) (p : Z) (t : nat) : hit := HT k p t (q (Z.of_nat k)) (q 0) (q (Z.of_nat k)) (q 0) (q 1) k.
Definition m_w : hmap := [(0%Z, [th 0 0 1; th 1 0 1; th 2 0 0; th 3 0 0; th 4 0 0]); (1%Z, [th 10 1 0; th 11 1 0; th 12 1 0])].
Lemma full_w : full m_w. Proof. split; [repeat constructor|]. intros p v [E|[E|[] ] ]; injection E as <- <-; discriminate. Qed.
Lemma starts_w p t : starts_in m_w p t <-> (p = 0%Z /\ t = 1) \/ (p = 1%Z /\ t = 0).
Proof.
  split.
  - intros (h & r & [E|[E|[] ] ] & <-); injection E as <- <- _; cbn; auto.
  - intros [ [-> ->]|[-> ->] ]; eexists; eexists; [split; [left; reflexivity|reflexivity]|split; [right; left; reflexivity|reflexivity] ].
Qed.
Theorem isolated_refuted : full m_w /\ stray 3 m_w 0 2 1 0 [th 0 0 1; th 1 0 1; th 2 0 0; th 3 0 0; th 4 0 0] /\
  exists m', isolated 3 m_w = Ok m' /\ mfind 0%Z m' = Some [th 1 0 1; th 3 0 0; th 4 0 0; th 0 0 1; th 2 0 0].
Proof.
  split; [apply full_w|]. split; [|eexists; split; [vm_compute; reflexivity|reflexivity] ].
  split. { exists 1, 0, 0%Z, 1%Z. split; [lia|]. split; [apply starts_w; auto|]. split; [apply starts_w; auto|]. intros p t H. apply starts_w in H. tauto. }
  split. { split; [apply starts_w; auto|]. intros p H. apply starts_w in H. intuition lia. }
  split. { intros p u [H _]. apply starts_w in H. lia. }
  split; [left; reflexivity|]. split; [cbn; lia|]. split; [auto|]. split; [lia|].
  split. { intros [|[|i] ] h E L; [| |lia]; injection E as <-; reflexivity. }
  split. { intros i h E [L _]. destruct i as [|[|[|[|[|i] ] ] ] ]; [lia|lia| | | |destruct i; discriminate]; injection E as <-; reflexivity. }
  split. { exists 1%Z, [th 10 1 0; th 11 1 0; th 12 1 0]. split; [lia|]. split; [lia|]. split; [right; left; reflexivity|cbn; lia]. }
  intros p w h Np _ [E|[E|[] ] ] _ H; injection E as <- <-; [lia|]. injection H as <-. reflexivity.
Qed.
Print Assumptions isolated_refuted.

(** one stray hit *)
Definition m_1 : hmap := [(0%Z, [th 0 0 1; th 1 0 0; th 2 0 0]); (1%Z, [th 10 1 0; th 11 1 0; th 12 1 0])].
Example isolated_example : exists m', isolated 3 m_1 = Ok m' /\ mfind 0%Z m' = Some [th 1 0 0; th 2 0 0; th 0 0 1].
Proof. eexists. split; vm_compute; reflexivity. Qed.

(** with four planes, starting two by two in two TPCs, no plane is alone and the lookup of plane -1 throws *)
Theorem isolated_four_refuted : let m := [(0%Z, [th 0 0 1]); (1%Z, [th 1 1 1]); (2%Z, [th 2 2 0]); (3%Z, [th 3 3 0])] in
  full m /\ isolated 4 m = Throw RangeExn.
Proof. cbv zeta. split; [|vm_compute; reflexivity]. split; [repeat constructor|]. intros p v H. cbn in H. destruct H as [E|[E|[E|[E|[] ] ] ] ]; injection E as <- <-; discriminate. Qed.
Print Assumptions isolated_four_refuted.
